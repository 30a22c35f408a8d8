(** C07: the virtual file system. *)
From Coq Require Import List NArith Bool String Arith Lia.
From Verif Require Import VfsModel VfsSpec VfsProofs.
Import ListNotations.
Local Open Scope string_scope.

(** No history of calls panics; afterwards the file of a path holds the last contents set for it,
    there is none if it was never set or was removed, and the files listed are exactly those. *)
Theorem C07_reads_last_write :
  forall h, exists v, run empty h = Ok v /\
    (forall p c, current h p = Some c ->
       exists i, file_id_of v p = Ok (Some i) /\ file_contents v i = Ok c /\ file_path v i = Ok p) /\
    (forall p, current h p = None -> file_id_of v p = Ok None) /\
    (forall i p, In (i, p) (iter v) <-> file_id_of v p = Ok (Some i)).
Proof.
  intros h. destruct (run_inv h) as (v & l & R & _ & I). exists v. split; [exact R|]. repeat split.
  - intros p c H. rewrite (inv_file_id _ _ _ p I), H.
    destruct (index_of p (interner v)) as [i|] eqn:E; [|rewrite (i_none _ _ _ I p E) in H; discriminate].
    exists i. split; [reflexivity|]. unfold file_contents, file_path, get.
    rewrite (i_data _ _ _ I _ _ E), H, (index_of_nth _ _ _ E). split; reflexivity.
  - intros p H. rewrite (inv_file_id _ _ _ p I), H. reflexivity.
  - rewrite (inv_iter _ _ _ _ _ I), (inv_file_id _ _ _ p I). intros [E F].
    destruct (current h p); [|congruence]. f_equal. exact E.
  - rewrite (inv_iter _ _ _ _ _ I), (inv_file_id _ _ _ p I). intros H.
    destruct (current h p); [|discriminate]. injection H as H. split; [exact H|discriminate].
Qed.
Print Assumptions C07_reads_last_write.

(** A file exists exactly when the last contents set for its path were not taken away. *)
Theorem C07_exists : forall h, exists v, run empty h = Ok v /\
  forall i p, file_path v i = Ok p -> exists b, exists_ v i = Ok b /\ (b = true <-> current h p <> None).
Proof.
  intros h. destruct (run_inv h) as (v & l & R & _ & I). exists v. split; [exact R|]. intros i p F.
  unfold file_path in F. destruct (nth_error (interner v) i) as [q|] eqn:E; [|discriminate F]. injection F as ->.
  pose proof (i_data _ _ _ I _ _ (index_of_nodup _ _ _ (i_nodup _ _ _ I) E)) as D. unfold exists_, get. rewrite D. eexists. split; [reflexivity|].
  destruct (current h p); split; congruence.
Qed.
Print Assumptions C07_exists.

(** An update reports a change exactly when the contents differ from those before it. *)
Theorem C07_reports_changes :
  forall h p c, exists v v' b,
    run empty h = Ok v /\ set_file_contents v p c = Ok (v', b) /\ (b = true <-> current h p <> c).
Proof.
  intros h p c. destruct (run_inv h) as (v & l & R & _ & I).
  destruct (set_spec _ _ _ p c I) as (v' & E & _). exists v, v', (if change_kind (current h p) c then true else false).
  split; [exact R|]. split; [exact E|]. unfold change_kind.
  destruct (current h p) as [a|], c as [b|]; try (split; congruence).
  destruct (list_eq_dec N.eq_dec a b); split; congruence.
Qed.
Print Assumptions C07_reports_changes.

(** The records taken are one per change, in order, with the path and the kind of each. *)
Theorem C07_change_log :
  forall h, exists v l,
    run empty h = Ok v /\ logs h l /\ (forall l', logs h l' -> l' = l) /\
    Forall2 (fun record entry => file_path v (fst record) = Ok (fst entry) /\ snd record = snd entry)
            (fst (take_changes v)) l.
Proof.
  intros h. destruct (run_inv h) as (v & l & R & Lg & I). exists v, l. split; [exact R|]. split; [exact Lg|].
  split; [intros l' H; eapply logs_fun; eauto|].
  eapply Forall2_impl; [|exact (i_log _ _ _ I)]. intros [a ka] [b kb]. cbn [fst snd]. intros [H1 H2]. split; [|exact H2].
  unfold file_path. rewrite H1. reflexivity.
Qed.
Print Assumptions C07_change_log.

(** File ids are permanent and never shared: an id seen at some time for [p] and an id seen at the
    same or a later time for [q] are equal exactly when the paths are. *)
Theorem C07_ids :
  forall h h' v v' p q i j,
    run empty h = Ok v -> run v h' = Ok v' ->
    file_id_of v p = Ok (Some i) -> file_id_of v' q = Ok (Some j) -> (i = j <-> p = q).
Proof.
  intros h h' v v' p q i j R R' Hi Hj.
  destruct (run_inv h) as (w & l & Rw & _ & I). assert (w = v) as -> by congruence.
  destruct (run_interner _ _ _ _ _ I R') as (ext & E).
  apply file_id_index in Hi. apply file_id_index in Hj. rewrite E, index_of_app in Hj. split.
  - intros <-. destruct (index_of q (interner v)) as [k|] eqn:Eq.
    + injection Hj as ->. apply index_of_nth in Hi. apply index_of_nth in Eq. congruence.
    + exfalso. apply index_of_lt in Hi. destruct (index_of q ext) as [k|]; simpl in Hj; [|discriminate].
      injection Hj as Hj. lia.
  - intros <-. rewrite Hi in Hj. congruence.
Qed.
Print Assumptions C07_ids.

(** two files, an update without effect, a removal, taken changes and a re-creation *)
Definition c07_history : list op :=
  [Set_ ["w"; "a.sp"] (Some [97%N]); Set_ ["w"; "b.sp"] (Some [98%N]); Take;
   Set_ ["w"; "a.sp"] (Some [97%N]); Set_ ["w"; "a.sp"] None; Set_ ["w"; "b.sp"] (Some [99%N]);
   Set_ ["w"; "a.sp"] (Some [100%N])].
Example C07_nontrivial :
  (match run empty c07_history with
   | Ok v => (fst (take_changes v), file_id_of v ["w"; "a.sp"], file_contents v 0, iter v)
             = ([(0, Delete); (1, Modify); (0, Create)], Ok (Some 0), Ok [100%N],
                [(0, ["w"; "a.sp"]); (1, ["w"; "b.sp"])])
   | Panic => False
   end) /\ current c07_history ["w"; "a.sp"] = Some [100%N].
Proof. vm_compute. split; reflexivity. Qed.
