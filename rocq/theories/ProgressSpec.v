(** What the protocol asks of progress: for each token, create, then one begin, any number of reports, and one end. *)
From Coq Require Import List Bool Arith String.
From Verif Require StatusModel OpQueueModel FlycheckModel SaveModel.
From Verif Require Import ProgressModel.
Import ListNotations.
Local Open Scope string_scope.
Local Open Scope nat_scope.
Local Open Scope list_scope.

Definition token_of (o : out) : option string := match o with Create t | Note t _ => Some t | SpcompStatus _ => None end.
Definition on (t : string) (o : out) : bool := match token_of o with Some u => String.eqb t u | None => false end.
(** what the client hears about a token *)
Definition heard (t : string) (l : list out) : list out := filter (on t) l.

(** No progress, one the client was asked to make, one that is shown (with how much is done). *)
Inductive stage := Idle | Asked | Shown (done : option fraction).
Inductive says : stage -> out -> stage -> Prop :=
| s_create : forall t, says Idle (Create t) Asked
| s_begin : forall t title c f, says Asked (Note t (WorkBegin title c f)) (Shown f)
| s_report : forall t c f g, says (Shown f) (Note t (WorkReport c g)) (Shown g)
| s_end : forall t f, says (Shown f) (Note t WorkEnd) Idle.
Inductive talk : stage -> list out -> stage -> Prop :=
| t_nil : forall s, talk s [] s
| t_cons : forall s o s' l s'', says s o s' -> talk s' l s'' -> talk s (o :: l) s''.
(** Each message about the token is one that may be sent at that moment, and at the end the progress is at [s]. *)
Definition proper (t : string) (l : list out) (s : stage) : Prop := talk Idle (heard t l) s.

(** Within one progress the part that is done does not go down. *)
Definition not_less (f g : fraction) : Prop := fst f * snd g <= fst g * snd f.
Inductive rising : stage -> list out -> Prop :=
| r_nil : forall s, rising s []
| r_cons : forall s o s' l, says s o s' -> (forall f g, s = Shown (Some f) -> s' = Shown (Some g) -> not_less f g) -> rising s' l -> rising s (o :: l).

Definition roots : string := "rustAnalyzer/Roots Scanned".
Definition indexing : string := "rustAnalyzer/Indexing".

(** Every message is about one of these progresses, and only a check can be cancelled by the user. *)
Definition known (o : out) : Prop :=
  match o with
  | SpcompStatus _ => True
  | Create t => t = roots \/ t = indexing \/ exists id, t = SaveModel.token id
  | Note t v =>
      (t = roots \/ t = indexing \/ exists id, t = SaveModel.token id) /\
      match v with WorkBegin _ c _ | WorkReport c _ => c = true <-> exists id, t = SaveModel.token id | WorkEnd => True end
  end.

Section Checks.
Variable diagnostic : Type.
Notation state := (state diagnostic).
Definition runs_check (a : FlycheckModel.state diagnostic) : Prop := FlycheckModel.proc diagnostic a <> None.
(** No other worker whose id is related to that of the k-th runs the compiler. *)
Definition alone (related : nat -> nat -> bool) (s : state) (k : nat) : Prop :=
  forall j id id' a b, nth_error (crew _ s) k = Some (id, a) -> nth_error (crew _ s) j = Some (id', b) -> related id id' = true -> j <> k ->
    ~ runs_check b.
(** When a worker starts the compiler, no other related worker is running it; readers do not panic. *)
Fixpoint tidy (related : nat -> nat -> bool) (s : state) (h : list (event diagnostic)) : Prop :=
  match h with
  | [] => True
  | e :: tl =>
      match e with
      | Work _ k (FlycheckModel.Timeout _ true) => alone related s k
      | Work _ k (FlycheckModel.Eof _ FlycheckModel.ReaderPanicked) => False
      | _ => True
      end /\ match step diagnostic s e with Some s' => tidy related s' tl | None => True end
  end.
(** workers of the same project; all workers *)
Definition same_project (a b : nat) : bool := a =? b.
Definition any_project (a b : nat) : bool := true.
(** Some worker of the project runs the compiler. *)
Definition busy (s : state) (id : nat) : Prop := exists k a, nth_error (crew _ s) k = Some (id, a) /\ runs_check a.
Definition any_busy (s : state) : Prop := exists id, busy s id.

(** What the client was last told about the compiler, if anything. *)
Definition last_status (l : list out) : option bool :=
  fold_left (fun r o => match o with SpcompStatus b => Some b | _ => r end) l None.

(** The reports of indexing are those of a job (C39): no more is done than there is. *)
Definition fair (e : event diagnostic) : Prop :=
  match e with Index _ (OpQueueModel.JobReports _ (d, t)) => d <= t | _ => True end.
End Checks.
