(** C11: messages that arrive while the server waits for its configuration. *)
From Coq Require Import List Bool String Arith Lia.
From Verif Require Import SessionModel SessionSpec SessionProofs.
Import ListNotations.
Local Open Scope string_scope.

(** Let [reply] be the first usable reply to the configuration request, [pre] what arrived before it and
    [post] what arrived after it. The events handled are the messages of [pre] in order (without
    other replies to that request), then those of [post] in order, interleaved with other events as
    scheduled, up to the exit notification; fewer only if handling an event fails. *)
Theorem C11_replayed_in_order :
  forall (json other state : Type) (as_list : json -> option (list json))
         (handle : state -> event json other -> option state) (configure : option json -> state)
         pre reply post sched settings,
    forallb (fun m => negb (usable json as_list m)) pre = true ->
    reply = MResponse json "initial_config_pull" (Some settings) ->
    (exists c cs, as_list settings = Some (c :: cs)) ->
    let expected := before_exit json other
      (map (Lsp json other) (filter (fun m => negb (is_reply json m)) pre) ++ deliver json other sched post) in
    exists r, run json other state as_list handle configure true (pre ++ reply :: post) sched = Some r /\
      (exists n, handled json other r = firstn n expected) /\
      ((forall s e, handle s e <> None) -> handled json other r = expected).
Proof.
  intros json other state al handle configure pre reply post sched v H -> (c & cs & E) expected.
  destruct (run_feed json other state al handle configure pre "initial_config_pull" v c cs post sched H eq_refl E)
    as (r & Er & Hr).
  exists r. split; [exact Er|]. split.
  - rewrite Hr. apply feed_prefix.
  - intros N. rewrite Hr. apply feed_all. exact N.
Qed.
Print Assumptions C11_replayed_in_order.

(** Without the request for the configuration, messages are handled in order from the start. *)
Theorem C11_in_order_without_pull :
  forall (json other state : Type) (as_list : json -> option (list json))
         (handle : state -> event json other -> option state) (configure : option json -> state)
         inbox sched,
    let expected := before_exit json other (deliver json other sched inbox) in
    exists r, run json other state as_list handle configure false inbox sched = Some r /\
      (exists n, handled json other r = firstn n expected) /\
      ((forall s e, handle s e <> None) -> handled json other r = expected).
Proof.
  intros json other state al handle configure inbox sched expected. eexists. split; [reflexivity|].
  rewrite main_loop_spec. split; [apply feed_prefix|apply feed_all].
Qed.
Print Assumptions C11_in_order_without_pull.

(** Finding: if the client answers the request with an error, or with something that is not a list, the
    server handles nothing: whatever the client sends afterwards, only a usable reply would help. *)
Theorem C11_no_settings_refuted :
  forall (json other state : Type) (as_list : json -> option (list json))
         (handle : state -> event json other -> option state) (configure : option json -> state)
         inbox sched,
    forallb (fun m => negb (usable json as_list m)) inbox = true ->
    run json other state as_list handle configure true inbox sched = None.
Proof.
  intros json other state al handle configure inbox sched H. unfold run, initialize, pull_config_sync.
  rewrite pull_none by exact H. reflexivity.
Qed.
Print Assumptions C11_no_settings_refuted.

(** an open, an error reply, a response to something else, then the reply; two later messages
    and an event of another channel between them *)
Definition c11_as_list (v : nat) : option (list nat) := match v with 0 => None | S v => Some [v] end.
Example C11_nontrivial :
  let pre := [MNotification nat "textDocument/didOpen" 1; MResponse nat "initial_config_pull" None;
              MResponse nat "initial_config_pull" (Some 0); MRequest nat "textDocument/hover" 2; MResponse nat "7" None] in
  let post := [MNotification nat "textDocument/didChange" 3; MRequest nat "textDocument/hover" 4;
               MNotification nat "exit" 0; MRequest nat "late" 9] in
  forallb (fun m => negb (usable nat c11_as_list m)) pre = true /\
  run nat nat (list (event nat nat)) c11_as_list (fun s e => Some (e :: s)) (fun _ => []) true
    (pre ++ MResponse nat "initial_config_pull" (Some 5) :: post)
    [TakeLsp _; TakeOther _ 11; TakeLsp _; TakeLsp _; TakeLsp _] =
  Some (Returned _ _
    [Lsp _ _ (MNotification nat "textDocument/didOpen" 1); Lsp _ _ (MRequest nat "textDocument/hover" 2);
     Lsp _ _ (MResponse nat "7" None); Lsp _ _ (MNotification nat "textDocument/didChange" 3);
     Other _ _ 11; Lsp _ _ (MRequest nat "textDocument/hover" 4)]).
Proof. split; reflexivity. Qed.
