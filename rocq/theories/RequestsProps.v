(** C10: responses to requests. All theorems are for any deserialisation of parameters. *)
From Coq Require Import List ZArith Bool String Lia Arith.
From Verif Require Import RequestsModel RequestsSpec RequestsProofs.
Import ListNotations.
Local Open Scope string_scope.

(** Whatever happens, and however the client chooses ids, there are never more responses with an id
    than requests with it. *)
Theorem C10_at_most_one :
  forall (json : Type) (parse_error : string -> json -> option string) (null : json) h i,
    answered json i (sent json (run json parse_error null h)) <= asked json i h.
Proof.
  intros json pe null h i. pose proof (balance_run json pe null i h) as H. unfold balance in H. lia.
Qed.
Print Assumptions C10_at_most_one.

(** If the client does not reuse the id of an unanswered request: every request has been answered
    exactly once, or is being worked on, or its work is done and waits for the main loop. *)
Theorem C10_exactly_one :
  forall (json : Type) (parse_error : string -> json -> option string) (null : json) h i,
    polite json parse_error null h ->
    asked json i h = answered json i (sent json (run json parse_error null h)) +
                     working json i (ledger_of json parse_error null h).
Proof.
  intros json pe null h i P. pose proof (rel_run json pe null h P) as R.
  rewrite (r_work _ _ _ _ R i), <- (r_asked _ _ _ _ R i). reflexivity.
Qed.
Print Assumptions C10_exactly_one.

(** Under the same condition the responses, their order and their contents are those expected. *)
Theorem C10_right_answers :
  forall (json : Type) (parse_error : string -> json -> option string) (null : json) h,
    polite json parse_error null h ->
    sent json (run json parse_error null h) =
    map (fun x => Resp json (fst x) (snd x)) (lg_answers json (ledger_of json parse_error null h)).
Proof.
  intros json pe null h P. exact (r_sent _ _ _ _ (rel_run json pe null h P)).
Qed.
Print Assumptions C10_right_answers.

(** When no work is left, every request has exactly one response. *)
Theorem C10_all_answered :
  forall (json : Type) (parse_error : string -> json -> option string) (null : json) h,
    polite json parse_error null h ->
    jobs json (run json parse_error null h) = [] -> tasks json (run json parse_error null h) = [] ->
    forall i, answered json i (sent json (run json parse_error null h)) = asked json i h.
Proof.
  intros json pe null h P J T i. rewrite (C10_exactly_one json pe null h i P).
  pose proof (rel_run json pe null h P) as R. unfold working.
  rewrite <- (r_jobs _ _ _ _ R), J. pose proof (r_tasks _ _ _ _ R) as E. rewrite T in E.
  destruct (lg_done json (ledger_of json pe null h)); [cbn; lia|discriminate].
Qed.
Print Assumptions C10_all_answered.

(** two hovers worked on concurrently, one of them interrupted and done again, a cancellation (without
    effect), bad parameters, an unknown method, a panic, a request after shutdown and an id used again *)
Definition c10_parse (m : string) (p : nat) : option string := if Nat.eqb p 13 then Some "bad" else None.
Definition c10_history : list (event nat) :=
  [Arrive _ (Req _ (IdNum 1) "textDocument/hover" 5); Arrive _ (Req _ (IdNum 2) "textDocument/hover" 6);
   Arrive _ (Req _ (IdNum 3) "textDocument/hover" 13); Arrive _ (Req _ (IdStr "x") "foo" 0);
   Cancel _ (IdNum 1); Work _ 1 (Cancelled _); Work _ 0 (Returned _ 50); Receive _; Receive _;
   Arrive _ (Req _ (IdNum 1) "sourcepawn-lsp/itemTree" 7); Work _ 1 (Panicked _ (Some "oops"));
   Arrive _ (Req _ (IdNum 4) "shutdown" 0); Receive _; Work _ 0 (Cancelled _); Receive _;
   Arrive _ (Req _ (IdNum 5) "textDocument/hover" 0)].

(** a decidable form of [polite] for the examples *)
Fixpoint polite_from (h1 h2 : list (event nat)) : bool :=
  match h2 with
  | [] => true
  | e :: tl =>
      match e with
      | Arrive _ q => Nat.eqb (asked _ (rq_id _ q) h1) (answered _ (rq_id _ q) (sent _ (run nat c10_parse 0 h1)))
      | _ => true
      end && polite_from (h1 ++ [e])%list tl
  end.
Lemma polite_from_ok : forall h2 h1, polite_from h1 h2 = true ->
  forall a q b, h2 = (a ++ Arrive _ q :: b)%list ->
  asked _ (rq_id _ q) (h1 ++ a)%list = answered _ (rq_id _ q) (sent _ (run nat c10_parse 0 (h1 ++ a)%list)).
Proof.
  induction h2 as [|e h2 IH]; intros h1 H a q b E; [destruct a; discriminate|].
  cbn [polite_from] in H. apply andb_prop in H. destruct H as [H1 H2]. destruct a as [|e' a]; injection E as -> E.
  - rewrite app_nil_r. apply Nat.eqb_eq. exact H1.
  - specialize (IH _ H2 _ _ _ E). rewrite <- app_assoc in IH. exact IH.
Qed.

Example C10_nontrivial :
  polite nat c10_parse 0 c10_history /\
  jobs _ (run nat c10_parse 0 c10_history) = [] /\ tasks _ (run nat c10_parse 0 c10_history) = [] /\
  sent _ (run nat c10_parse 0 c10_history) =
  [Resp _ (IdNum 3) (Error _ (-32602) "bad"); Resp _ (IdStr "x") (Error _ (-32601) "unknown request");
   Resp _ (IdNum 1) (Result _ 50); Resp _ (IdNum 4) (Result _ 0);
   Resp _ (IdNum 1) (Error _ (-32603) "request handler panicked: oops");
   Resp _ (IdNum 2) (Error _ (-32600) "Shutdown already requested.");
   Resp _ (IdNum 5) (Error _ (-32600) "Shutdown already requested.")].
Proof.
  split; [intros h1 q h2 E; exact (polite_from_ok c10_history [] eq_refl _ _ _ E)|]. repeat split; reflexivity.
Qed.
