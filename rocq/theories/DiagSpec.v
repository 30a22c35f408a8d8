(** Which diagnostics a file has after a history of operations, and which ones the editor shows. *)
From Coq Require Import List Bool String Arith Permutation.
From Verif Require Import DiagModel.
Import ListNotations.

(** what the server last computed for the file itself *)
Fixpoint latest_native (h : list op) (f : nat) : list diagnostic :=   (* newest operation first *)
  match h with
  | [] => []
  | SetNative g ds :: tl => if Nat.eqb g f then ds else latest_native tl f
  | ClearNative g :: tl => if Nat.eqb g f then [] else latest_native tl f
  | _ :: tl => latest_native tl f
  end.

(** two diagnostics the editor would show alike *)
Definition looks_like (a b : diagnostic) : Prop :=
  d_source a = d_source b /\ d_severity a = d_severity b /\ d_range a = d_range b /\ d_message a = d_message b.

(** what the compiler run [id] reported about the file since it last started, without repetitions *)
Inductive reported (id f : nat) : list op -> list diagnostic -> Prop :=
| rep_nil : reported id f [] []
| rep_clear : forall h, reported id f (h ++ [ClearCheck id]) []
| rep_clears : forall h, reported id f (h ++ [ClearChecks]) []
| rep_add : forall h ds d, reported id f h ds -> (forall e, In e ds -> ~ looks_like e d) ->
    reported id f (h ++ [AddCheck id f d]) (ds ++ [d])
| rep_repeat : forall h ds d e, reported id f h ds -> In e ds -> looks_like e d ->
    reported id f (h ++ [AddCheck id f d]) ds
| rep_other : forall h ds o, reported id f h ds ->
    (match o with
     | ClearCheck id' => id' <> id
     | ClearChecks => False
     | AddCheck id' f' _ => id' <> id \/ f' <> f
     | _ => True
     end) -> reported id f (h ++ [o]) ds.

(** what the editor shows for a file: the last publication for it *)
Definition shown (ps : list (nat * list diagnostic)) (f : nat) : list diagnostic :=
  match find (fun p => Nat.eqb (fst p) f) (rev ps) with Some p => snd p | None => [] end.

(** the order of iteration over a hash map is some order of its entries *)
Definition orders (o : op) : Prop :=
  match o with Publish shuffle => forall m, Permutation (shuffle m) m | _ => True end.

(** how a diagnostic reaches the editor: as it is, but with a blank for an empty message, its own or a
    related one *)
Definition message_sent (m sent : string) : Prop :=
  (m <> ""%string /\ sent = m) \/ (m = ""%string /\ sent = " "%string).
Definition sent_as (d s : diagnostic) : Prop :=
  d_range s = d_range d /\ d_severity s = d_severity d /\ d_code s = d_code d /\ d_source s = d_source d /\
  d_tags s = d_tags d /\ message_sent (d_message d) (d_message s) /\
  match d_related d, d_related s with
  | Some ms, Some ss => Forall2 message_sent ms ss
  | None, None => True
  | _, _ => False
  end.
