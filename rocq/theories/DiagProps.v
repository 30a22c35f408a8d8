(** C13: the diagnostics shown in the editor. *)
From Coq Require Import List Bool String Arith Permutation Lia.
From Verif Require Import DiagModel DiagSpec DiagProofs.
Import ListNotations.

Lemma patch_empty_sent : forall m, message_sent m (patch_empty m).
Proof. intros [|c m]; [right|left]; split; auto; discriminate. Qed.
Lemma patch_sent : forall ds, Forall2 sent_as ds (map patch ds).
Proof.
  induction ds as [|d ds IH]; simpl; constructor; auto. repeat (split; [reflexivity|]).
  split; [apply patch_empty_sent|]. cbn [patch d_related]. destruct (d_related d) as [ms|]; [|exact I].
  simpl. induction ms; simpl; constructor; auto using patch_empty_sent.
Qed.

(** After a publication, for every file, what the editor shows is (with empty messages replaced by a
    blank, which the editor requires) the latest native diagnostics, as far as source, severity, range and
    message go, followed by what each compiler run reported since it started, once each. *)
Theorem C13_shown_partial :
  forall h shuffle f, Forall orders h -> orders (Publish shuffle) ->
  exists natives checks,
    Forall2 sent_as (natives ++ flat_map snd checks) (shown (published (run (h ++ [Publish shuffle]))) f) /\
    Forall2 looks_like natives (latest_native (rev h) f) /\
    NoDup (map fst checks) /\
    (forall id ds, In (id, ds) checks -> reported id f h ds) /\
    (forall id ds, reported id f h ds -> ds <> [] -> In (id, ds) checks).
Proof.
  intros h sh f O Os.
  assert (N : ~ In f (changes (coll (run (h ++ [Publish sh]))))).
  { rewrite run_snoc, published_no_changes. intros []. }
  assert (O' : Forall orders (h ++ [Publish sh])) by (apply Forall_app; split; [exact O|constructor; [exact Os|constructor]]).
  destruct (sync_run _ f O' N) as (ps & P & S).
  assert (C : native (coll (run (h ++ [Publish sh]))) = native (coll (run h)) /\
              check (coll (run (h ++ [Publish sh]))) = check (coll (run h))).
  { rewrite run_snoc. cbn [step]. unfold take_changes. destruct (changes (coll (run h))); split; reflexivity. }
  destruct C as [Cn Cc].
  exists (native_of (coll (run h)) f), ps. split; [|split; [|split; [|split]]].
  - rewrite S. unfold native_of. rewrite Cn. apply patch_sent.
  - apply native_run.
  - rewrite Cc in P. eapply Permutation_NoDup; [apply Permutation_map, Permutation_sym; exact P|].
    apply parts_keys, keys_run.
  - intros id ds I. rewrite Cc in P. apply (Permutation_in _ P) in I. apply (parts_in _ _ (keys_run h)) in I.
    destruct I as [_ <-]. apply check_run.
  - intros id ds R Z. rewrite Cc in P. apply (Permutation_in _ (Permutation_sym P)). apply (parts_in _ _ (keys_run h)).
    split; [exact Z|]. exact (reported_fun _ _ _ _ (check_run h id f) _ R).
Qed.
Print Assumptions C13_shown_partial.

(** [reported] determines the reports of a run *)
Theorem C13_reported_unique :
  forall id f h ds ds', reported id f h ds -> reported id f h ds' -> ds = ds'.
Proof. intros id f h ds ds' H K. exact (reported_fun id f h ds H ds' K). Qed.
Print Assumptions C13_reported_unique.

(** Finding: a new set of native diagnostics that differs from the old one only in the diagnostic codes or
    tags is not shown: the editor keeps the old ones. *)
Theorem C13_code_refuted :
  exists f d d', d_code d <> d_code d' /\ d_tags d <> d_tags d' /\
    shown (published (run [SetNative f [d]; Publish (fun m => m); SetNative f [d']; Publish (fun m => m)])) f = [d].
Proof.
  exists 3, (Diagnostic (1, 2, 1, 5) (Some 2) (Some "unused"%string) None "m"%string None (Some [1])),
    (Diagnostic (1, 2, 1, 5) (Some 2) (Some "unresolved"%string) None "m"%string None None).
  split; [discriminate|]. split; [discriminate|]. reflexivity.
Qed.
Print Assumptions C13_code_refuted.

(** native updates, two compiler runs on two files with a repeated report, a restart of one, orders of
    iteration that differ, publications in between *)
Definition c13_diag (line : nat) (m : string) : diagnostic := Diagnostic (line, 0, line, 1) (Some 1) None (Some "spcomp"%string) m None None.
Definition c13_history : list op :=
  [SetNative 1 [c13_diag 4 "a"]; AddCheck 7 1 (c13_diag 1 "x"); AddCheck 7 1 (c13_diag 1 "x"); Publish (fun m => m);
   AddCheck 9 1 (c13_diag 2 ""); AddCheck 9 2 (c13_diag 2 "y"); AddCheck 7 1 (c13_diag 3 "z"); Publish (@rev _);
   ClearCheck 7; SetNative 1 [c13_diag 4 "a"]; AddCheck 7 1 (c13_diag 5 "w")].
Example C13_nontrivial :
  Forall orders c13_history /\
  shown (published (run c13_history)) 1 =
    [c13_diag 4 "a"; c13_diag 2 " "; c13_diag 1 "x"; c13_diag 3 "z"] /\
  shown (published (run (c13_history ++ [Publish (@rev _)]))) 1 = [c13_diag 4 "a"; c13_diag 2 " "; c13_diag 5 "w"] /\
  shown (published (run (c13_history ++ [Publish (@rev _)]))) 2 = [c13_diag 2 "y"].
Proof.
  split; [|repeat split]. repeat constructor; cbn [orders]; intros m; [apply Permutation_refl|].
  apply Permutation_sym, Permutation_rev.
Qed.
