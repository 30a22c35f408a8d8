(** What [using __intrinsics__.Handle;] stands for, and what code is copied. *)
From Coq Require Import List ZArith Bool String.
From Verif Require Import PreTypes MacroModel PreModel CondSpec.
Import ListNotations.
Local Open Scope list_scope.

(** The declaration of [Handle] that the compiler has built in. *)
Definition builtin_handle : string := "methodmap Handle __nullable__ {public native ~Handle();public native void Close();};".
(** The symbols of [using __intrinsics__.x;]. *)
Definition intrinsics_line (l : list symbol) (x : string) : Prop :=
  map s_kind l = [KUsing; KIntrinsics; KDot; KIdent; KSemi] /\ exists y, nth_error l 3 = Some y /\ s_text y = x.
Definition stands_for (x : string) : string := if String.eqb x "Handle" then builtin_handle else EmptyString.

(** No code that is kept has the word [using]. *)
Definition no_using (tr : list event) : Prop := Forall (fun e => kept e = true -> s_kind (e_sym e) <> KUsing) tr.
(** A dot, a semicolon, or a name that is no macro. *)
Definition ordinary (e : event) : Prop :=
  s_kind (e_sym e) = KDot \/ s_kind (e_sym e) = KSemi \/
  s_kind (e_sym e) = KIdent /\ mget (macros (e_before e)) (s_text (e_sym e)) = None.
(** It is written, at its distance from what is before it. *)
Definition written (e : event) : Prop :=
  cur_line (e_after e) = (cur_line (e_before e) ++ spaces (Z.to_nat (Z.abs (dcol (s_delta (e_sym e))))) ++ s_text (e_sym e))%string.
