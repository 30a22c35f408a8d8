(** C61: the progress shown to the user. *)
From Coq Require Import List Bool Arith String Lia.
From Coq Require DecimalString DecimalNat.
From Verif Require StatusModel StatusSpec OpQueueModel OpQueueProofs FlycheckModel SaveModel.
From Verif Require Import ProgressModel ProgressSpec ProgressProofs.
Import ListNotations.
Local Open Scope string_scope.
Local Open Scope nat_scope.
Local Open Scope list_scope.

(** Reporting progress never fails an assertion. *)
Theorem C61_no_crash :
  forall diagnostic dirs h, Forall (fair diagnostic) h -> exists s, run diagnostic (start diagnostic dirs) h = Some s.
Proof. intros diagnostic dirs h F. destruct (base_run diagnostic h _ (base_start diagnostic dirs) F) as (s & R & _). exists s. exact R. Qed.
Print Assumptions C61_no_crash.

(** The scan of the folders is shown properly and does not go backwards; it is ended once the loader has done what it
    was asked and was heard. *)
Theorem C61_roots :
  forall diagnostic dirs h s, Forall (fair diagnostic) h -> run diagnostic (start diagnostic dirs) h = Some s ->
    rising Idle (heard roots (client _ s)) /\
    exists g, proper roots (client _ s) g /\ (StatusSpec.settled (files _ s) -> g = Idle).
Proof.
  intros diagnostic dirs h s F R. destruct (base_run diagnostic h _ (base_start diagnostic dirs) F) as (s' & R' & B & _).
  rewrite R in R'. injection R' as <-. destruct B as (o1 & o2 & C & E & L & _). destruct (climb_talk _ _ _ C) as (T & U). split; [exact U|].
  exists (lst o1). split; [exact T|]. intros (_ & Lo & Fr). rewrite Fr in E. rewrite Lo in L. injection E as ->. rewrite L. reflexivity.
Qed.
Print Assumptions C61_roots.

(** Indexing is shown properly, and not shown when the queue holds no operation in progress. *)
Theorem C61_indexing :
  forall diagnostic dirs h s, Forall (fair diagnostic) h -> run diagnostic (start diagnostic dirs) h = Some s ->
    exists g, proper indexing (client _ s) g /\
      (OpQueueModel.op_in_progress unit (OpQueueModel.queue fraction (index _ s)) = false -> g = Idle).
Proof.
  intros diagnostic dirs h s F R. destruct (base_run diagnostic h _ (base_start diagnostic dirs) F) as (s' & R' & _ & B).
  rewrite R in R'. injection R' as <-. destruct B as (I & _ & b & g & Sc & T & A). exists g. split; [exact T|]. intros P.
  destruct I as [Lo Hi Pr (o & So & Ph)]. rewrite P in Pr. symmetry in Pr. apply Nat.ltb_ge in Pr.
  assert (J : OpQueueModel.jobs _ (index _ s) = []) by (destruct (OpQueueModel.jobs _ (index _ s)); [reflexivity|cbn in Lo; lia]).
  unfold OpQueueProofs.idle_phase in Ph. rewrite J in Ph, Lo. cbn in Lo. rewrite OpQueueProofs.scan_app, Sc in So.
  assert (o = false) by (apply Ph; lia). subst o.
  assert (En : OpQueueProofs.count (OpQueueProofs.is_end fraction) (OpQueueModel.channel _ (index _ s)) = 0) by lia.
  assert (b = false).
  { destruct b; [|reflexivity]. exfalso. clear - So En. induction (OpQueueModel.channel _ (index _ s)) as [|p l IH]; [discriminate So|].
    cbn [OpQueueProofs.scan] in So. destruct p; [discriminate So| |discriminate En]. apply IH; [exact So|exact En]. }
  subst b. exact A.
Qed.
Print Assumptions C61_indexing.

(** What is missing: that no two workers of one project run the compiler at a time is assumed (refuted below), as is
    that readers do not panic. Then each project's check is shown properly, and with no message on its way, it is shown
    exactly while the compiler runs. *)
Theorem C61_check_partial :
  forall diagnostic dirs h s id, tidy diagnostic same_project (start diagnostic dirs) h -> run diagnostic (start diagnostic dirs) h = Some s ->
    exists g, proper (SaveModel.token id) (client _ s) g /\ (mail _ s = [] -> (g = Idle <-> ~ busy diagnostic s id)).
Proof.
  intros diagnostic dirs h s id T R.
  destruct (talks_run diagnostic id h (start diagnostic dirs) s) as (o & P & _ & _ & o2 & E & B); [|exact T|exact R|].
  - exists false. split; [constructor|apply crew_none].
  - exists (cst o). split; [exact P|]. intros M. rewrite M in E. injection E as <-.
    assert (Bu : running diagnostic (same_project id) (crew _ s) <-> busy diagnostic s id).
    { split.
      - intros (k & i & a & N & G & Ra). apply Nat.eqb_eq in G. subst i. exists k, a. auto.
      - intros (k & a & N & Ra). exists k, id, a. split; [exact N|]. split; [apply Nat.eqb_refl|exact Ra]. }
    rewrite <- Bu, <- B. destruct o; cbn; split; congruence.
Qed.
Print Assumptions C61_check_partial.

(** With the same proviso for all projects together, what the client was last told of the compiler is right. *)
Theorem C61_status_partial :
  forall diagnostic dirs h s, tidy diagnostic any_project (start diagnostic dirs) h -> run diagnostic (start diagnostic dirs) h = Some s ->
    mail _ s = [] -> (last_status (client _ s) = Some false <-> any_busy diagnostic s).
Proof.
  intros diagnostic dirs h s T R M.
  destruct (tells_run diagnostic h (start diagnostic dirs) s) as (o & P & _ & _ & o2 & E & B); [|exact T|exact R|].
  - exists false. split; [reflexivity|apply crew_none].
  - rewrite M in E. injection E as <-.
    assert (Bu : running diagnostic (any_project 0) (crew _ s) <-> any_busy diagnostic s).
    { split.
      - intros (k & i & a & N & G & Ra). exists i, k, a. auto.
      - intros (i & k & a & N & Ra). exists k, i, a. auto. }
    rewrite <- Bu, <- B. unfold told_by in P. destruct o, (last_status (client _ s)) as [[|]|]; cbn in P; try discriminate P; split; congruence.
Qed.
Print Assumptions C61_status_partial.

(** Every message is about the scan, indexing or a check; these have different tokens; only checks can be cancelled. *)
Theorem C61_tokens :
  forall diagnostic dirs h s, run diagnostic (start diagnostic dirs) h = Some s -> Forall known (client _ s).
Proof. intros diagnostic dirs h s R. eapply known_run; [|exact R]. constructor. Qed.
Print Assumptions C61_tokens.
Theorem C61_apart :
  roots <> indexing /\ (forall id, SaveModel.token id <> roots /\ SaveModel.token id <> indexing) /\
  (forall a b, SaveModel.token a = SaveModel.token b -> a = b).
Proof. split; [exact roots_indexing|]. split; [split; apply token_apart|exact token_inj]. Qed.
Print Assumptions C61_apart.

(** Two checks are shown under one title only if they are of one project, or each is the only project of its time. *)
Theorem C61_titles :
  forall diagnostic n m i j t u c d f g title,
    In (Note t (WorkBegin title c f)) (check_out diagnostic n (i, FlycheckModel.DidStart _)) ->
    In (Note u (WorkBegin title d g)) (check_out diagnostic m (j, FlycheckModel.DidStart _)) -> i = j \/ n = 1 /\ m = 1.
Proof.
  intros diagnostic n m i j t u c d f g title A B.
  assert (K : forall n i t c f title, In (Note t (WorkBegin title c f)) (check_out diagnostic n (i, FlycheckModel.DidStart _)) ->
            title = if n =? 1 then "spcomp check" else ("spcomp check (#" ++ SaveModel.display (S i) ++ ")")%string).
  { intros n0 i0 t0 c0 f0 ti [H|[H|[H|[]]]]; try discriminate H.
    assert (X : forall a b c f a' b' c' f', Note a (WorkBegin b c f) = Note a' (WorkBegin b' c' f') -> b' = b) by (intros; congruence).
    exact (X _ _ _ _ _ _ _ _ H). }
  apply K in A. apply K in B. rewrite A in B. clear K A.
  assert (L : forall k, "spcomp check" <> ("spcomp check (#" ++ SaveModel.display k ++ ")")%string) by (intros k; discriminate).
  destruct (n =? 1) eqn:En, (m =? 1) eqn:Em.
  - apply Nat.eqb_eq in En. apply Nat.eqb_eq in Em. auto.
  - exfalso. exact (L _ B).
  - exfalso. symmetry in B. exact (L _ B).
  - left. apply append_inj in B.
    assert (E : SaveModel.display (S i) = SaveModel.display (S j)).
    { clear - B. generalize dependent (SaveModel.display (S j)). induction (SaveModel.display (S i)) as [|x a IH]; intros [|y b] B; [reflexivity| | |].
      - cbn in B. injection B as _ B. destruct b; discriminate B.
      - cbn in B. injection B as _ B. destruct a; discriminate B.
      - cbn in B. injection B as -> B. f_equal. exact (IH _ B). }
    assert (T : SaveModel.token (S i) = SaveModel.token (S j)) by (unfold SaveModel.token; rewrite E; reflexivity).
    apply token_inj in T. lia.
Qed.
Print Assumptions C61_titles.

(** * What does not hold *)
Notation W := (Work nat).
Definition begins (k : nat) : list (event nat) :=
  [W k (FlycheckModel.Call _ FlycheckModel.Restart); W k (FlycheckModel.TakeInbox _); W k (FlycheckModel.Timeout _ true)].
Definition finishes (k : nat) : list (event nat) := [W k (FlycheckModel.Eof _ (FlycheckModel.Joined true)); W k (FlycheckModel.TakeOutput _)].

(** A worker that outlives a reload, because a request still holds the old map, and its successor share a token: the
    client is told to begin what is begun. *)
Theorem C61_overlap_refuted :
  exists h s, run nat (start nat (Some 1)) h = Some s /\ forall g, ~ proper (SaveModel.token 0) (client _ s) g.
Proof.
  exists ([Reload _ [0]] ++ begins 0 ++ [Checks _ 1; Reload _ [0]] ++ begins 1 ++ [Checks _ 1]). eexists. split; [vm_compute; reflexivity|].
  intros g P. unfold proper in P. cbn in P.
  inversion P as [|? ? ? ? ? S1 P1]; subst; clear P. inversion S1; subst; clear S1.
  inversion P1 as [|? ? ? ? ? S1 P2]; subst; clear P1. inversion S1; subst; clear S1.
  inversion P2 as [|? ? ? ? ? S1 P3]; subst; clear P2. inversion S1.
Qed.
Print Assumptions C61_overlap_refuted.

(** The protocol lets a token that the client was asked to create be used once; every check of a project creates the same. *)
Theorem C61_reused_refuted :
  exists h s, run nat (start nat (Some 1)) h = Some s /\
    filter (fun o => match o with Create _ => true | _ => false end) (heard (SaveModel.token 0) (client _ s)) =
      [Create (SaveModel.token 0); Create (SaveModel.token 0)].
Proof.
  exists ([Reload _ [0]] ++ begins 0 ++ finishes 0 ++ begins 0 ++ [Checks _ 3]). eexists. split; vm_compute; reflexivity.
Qed.
Print Assumptions C61_reused_refuted.

(** deciding [tidy], for the examples *)
Definition idle_worker (a : FlycheckModel.state nat) : bool := match FlycheckModel.proc _ a with None => true | _ => false end.
Definition alone_b (related : nat -> nat -> bool) (s : state nat) (k : nat) : bool :=
  match nth_error (crew _ s) k with
  | None => true
  | Some (id, _) =>
      forallb (fun j => (j =? k) || match nth_error (crew _ s) j with Some (id', b) => negb (related id id') || idle_worker b | None => true end)
              (seq 0 (List.length (crew _ s)))
  end.
Fixpoint tidy_b (related : nat -> nat -> bool) (s : state nat) (h : list (event nat)) : bool :=
  match h with
  | [] => true
  | e :: tl =>
      match e with
      | Work _ k (FlycheckModel.Timeout _ true) => alone_b related s k
      | Work _ k (FlycheckModel.Eof _ FlycheckModel.ReaderPanicked) => false
      | _ => true
      end && match step nat s e with Some s' => tidy_b related s' tl | None => true end
  end.
Lemma tidy_b_sound : forall related h s, tidy_b related s h = true -> tidy nat related s h.
Proof.
  intros related. induction h as [|e h IH]; intros s T; [exact I|]. cbn [tidy_b] in T. apply andb_prop in T as (A & B). cbn [tidy]. split.
  - destruct e as [| | |k e|]; try exact I. destruct e as [| | |[]| | |[]]; try exact I; [discriminate A|].
    intros j id id' a b X Y E J R. unfold alone_b in A. rewrite X in A. rewrite forallb_forall in A.
    assert (L : In j (seq 0 (List.length (crew _ s)))) by (apply in_seq; split; [lia|]; apply nth_error_Some; congruence).
    specialize (A j L). apply Nat.eqb_neq in J. rewrite J, Y, E in A. apply R. cbn in A. unfold idle_worker in A.
    destruct (FlycheckModel.proc nat b); [discriminate A|reflexivity].
  - destruct (step nat s e) as [s'|]; [apply IH; exact B|exact I].
Qed.

(** With two projects checked at once, the client is told that the compiler is done while it still runs. *)
Theorem C61_status_refuted :
  exists h s, run nat (start nat (Some 1)) h = Some s /\ tidy nat same_project (start nat (Some 1)) h /\ mail _ s = [] /\
    last_status (client _ s) = Some true /\ any_busy nat s.
Proof.
  exists ([Reload _ [0; 7]] ++ begins 0 ++ begins 1 ++ finishes 0 ++ [Checks _ 3]). eexists. split; [vm_compute; reflexivity|]. split; [|split; [reflexivity|split; [reflexivity|]]].
  - apply tidy_b_sound. vm_compute. reflexivity.
  - exists 7, 1. eexists. split; [vm_compute; reflexivity|]. discriminate.
Qed.
Print Assumptions C61_status_refuted.

(** When an indexing job panics, or the thread that reads the compiler's output, the progress stays although nothing
    is going on or on its way. *)
Theorem C61_left_shown_refuted :
  exists h s, run nat (start nat (Some 1)) h = Some s /\
    OpQueueModel.jobs _ (index _ s) = [] /\ OpQueueModel.channel _ (index _ s) = [] /\ mail _ s = [] /\ ~ any_busy nat s /\
    proper indexing (client _ s) (Shown (Some (0, 1))) /\ proper (SaveModel.token 0) (client _ s) (Shown None).
Proof.
  exists ([Index _ (OpQueueModel.Turn _ 0 true); Index _ (OpQueueModel.JobBegins _); Index _ (OpQueueModel.JobDies _); Index _ (OpQueueModel.Turn _ 1 false)]
    ++ [Reload _ [0]] ++ begins 0 ++ [W 0 (FlycheckModel.Eof _ FlycheckModel.ReaderPanicked); W 0 (FlycheckModel.TakeOutput _); Checks _ 1]).
  eexists. split; [vm_compute; reflexivity|]. repeat apply conj; try reflexivity.
  - intros (id & k & a & N & R). destruct k as [|[|k]]; [|discriminate N|discriminate N]. injection N as <- <-. apply R. reflexivity.
  - unfold proper. cbn. econstructor; [constructor|]. econstructor; [constructor|]. constructor.
  - unfold proper. cbn. econstructor; [constructor|]. econstructor; [constructor|]. constructor.
Qed.
Print Assumptions C61_left_shown_refuted.

(** A session with an include directory and two projects: the folders are scanned, indexing runs, and both are checked. *)
Definition session : list (event nat) :=
  [Files _ StatusModel.LoaderTake; Files _ StatusModel.LoaderLoad; Files _ (StatusModel.Turn StatusModel.Vfs); Files _ StatusModel.LoaderLoad;
   Files _ (StatusModel.Turn StatusModel.Vfs); Index _ (OpQueueModel.Turn _ 0 true); Index _ (OpQueueModel.JobBegins _);
   Index _ (OpQueueModel.JobReports _ (1, 2)); Index _ (OpQueueModel.JobEnds _ false); Index _ (OpQueueModel.Turn _ 3 false); Reload _ [0; 7]]
  ++ begins 0 ++ finishes 0 ++ begins 1 ++ [Checks _ 3].
Example C61_nontrivial :
  exists s, run nat (start nat (Some 1)) session = Some s /\
    client _ s =
      [Create roots; Note roots (WorkBegin "Roots Scanned" false (Some (0, 2))); Note roots (WorkReport false (Some (1, 2))); Note roots WorkEnd;
       Create indexing; Note indexing (WorkBegin "Indexing" false (Some (0, 1))); Note indexing (WorkReport false (Some (1, 2))); Note indexing WorkEnd;
       SpcompStatus false; Create "sourcepawn-lsp/flycheck/0"; Note "sourcepawn-lsp/flycheck/0" (WorkBegin "spcomp check (#1)" true None);
       SpcompStatus true; Note "sourcepawn-lsp/flycheck/0" WorkEnd;
       SpcompStatus false; Create "sourcepawn-lsp/flycheck/7"; Note "sourcepawn-lsp/flycheck/7" (WorkBegin "spcomp check (#8)" true None)] /\
    tidy nat any_project (start nat (Some 1)) session /\ Forall (fair nat) session.
Proof.
  eexists. split; [vm_compute; reflexivity|]. split; [reflexivity|]. split.
  - apply tidy_b_sound. vm_compute. reflexivity.
  - repeat constructor.
Qed.
