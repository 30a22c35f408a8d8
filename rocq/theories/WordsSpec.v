(** What the words of a message should tell. *)
From Coq Require Import List String Ascii Arith.
From Verif Require Import ReportModel HirModel HirSpec.
Import ListNotations.
Local Open Scope string_scope.

Definition tick : ascii := "`"%char.
(** A name, or a path, without the sign that marks where it ends. *)
Fixpoint clear (s : string) : Prop := match s with "" => True | String c s => c <> tick /\ clear s end.

(** The names a message is about. *)
Definition about (m : message) : list string :=
  match m with
  | MExpected names => names
  | MMissing n | MFileNotFound n | MNoMacro n | MNoConstructor n | MEnumStructConstructed n | MNoMethodmap n | MNotMethodmap n => [n]
  | MNoField n r _ | MNoMethod n r _ | MNoParameter n r => [n; r]
  | MAtLeast _ n _ | MAtMost _ n _ => [n]
  | MSexp _ | MText _ | MInactive => []
  end.
(** The message has words of its own, and one can see where its names end. *)
Definition composed (m : message) : Prop :=
  Forall clear (about m) /\ match m with MSexp _ | MText _ => False | _ => True end.

(** [s] stands in [w] between two ticks. *)
Definition stands_in (s w : string) : Prop := exists a b, w = a ++ String tick (s ++ String tick b).
(** A message about a number of arguments is true of a function and the number [n] of arguments given. *)
Definition true_of (d : function_data) (n : nat) (m : message) : Prop :=
  match m with
  | MAtLeast k nm a => nm = fd_name d /\ a = n /\ (n < k)%nat /\ accepts d k /\ forall j, accepts d j -> (k <= j)%nat
  | MAtMost k nm a => nm = fd_name d /\ a = n /\ (k < n)%nat /\ accepts d k /\ forall j, accepts d j -> (j <= k)%nat
  | _ => False
  end.
