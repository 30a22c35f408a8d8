(** C03: deltas are relative to the result the client named. *)
From Coq Require Import List NArith.
From Verif Require Import SemTokensModel SemTokensSpec SemCacheModel SemCacheSpec SemCacheProofs.
Import ListNotations.
Local Open Scope N_scope.

(** Every delta ever sent, applied to the tokens computed for the result id the client named,
    yields the tokens computed for the new result id, both for the same document. *)
Theorem C03_delta_base : forall acts p id es,
  In (RDelta p id es) (log (run acts)) ->
  exists u old new,
    In (p, (u, old)) (issued (run acts)) /\ In (id, (u, new)) (issued (run acts)) /\
    apply_edits (flatten old) es = flatten new.
Proof. exact C03_base. Qed.
Print Assumptions C03_delta_base.

(** A result id stands for one token list. *)
Theorem C03_id_unique : forall acts id x y,
  In (id, x) (issued (run acts)) -> In (id, y) (issued (run acts)) -> x = y.
Proof. exact C03_unique. Qed.
Print Assumptions C03_id_unique.

(** Any array a client ends up holding under a result id is the array of the tokens the server
    computed under that id, whatever the interleaving and whatever ids the client names. *)
Theorem C03_client_array_right : forall acts id arr,
  client_view (log (run acts)) id = Some arr ->
  exists u toks, In (id, (u, toks)) (issued (run acts)) /\ arr = flatten toks.
Proof. exact C03_view_sound. Qed.
Print Assumptions C03_client_array_right.

(** A client that only names ids it has received can always apply the reply. *)
Theorem C03_honest_client_up_to_date : forall acts id,
  honest acts -> In id (map reply_id (log (run acts))) ->
  exists u toks, In (id, (u, toks)) (issued (run acts)) /\
    client_view (log (run acts)) id = Some (flatten toks).
Proof. exact C03_view_complete. Qed.
Print Assumptions C03_honest_client_up_to_date.

Definition tk (n : N) : token := Token n n 1 0 0.

(** Two threads: a full reply, then a delta relative to it, with a full request in between on
    another document and a cache clear after. *)
Definition C03_example : list action :=
  [Start 0 7 None [tk 1; tk 2]; Insert 0; Send 0;
   Start 1 8 None [tk 9]; Start 2 7 (Some 1) [tk 1; tk 3]; Insert 1; Remove 2; Send 1;
   Insert 2; Send 2; ClearAll; Start 0 7 (Some 3) [tk 4]; Remove 0; Insert 0; Send 0].

Example C03_nontrivial :
  honest C03_example /\
  log (run C03_example) =
    [RFull 1 [tk 1; tk 2]; RFull 2 [tk 9]; RDelta 1 3 [Edit 5 5 [tk 3]]; RFull 4 [tk 4]].
Proof. split; [|vm_compute; reflexivity]. unfold honest, C03_example. cbn. repeat split; auto. Qed.
