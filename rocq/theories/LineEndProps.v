(** C06: line endings. *)
From Coq Require Import List NArith Lia.
From Verif Require Import LineEndModel LineEndSpec LineEndProofs.
Import ListNotations.
Local Open Scope N_scope.

(** Normalisation ends, replaces every CR LF by LF and keeps every other byte, and answers Dos
    exactly when there was a CR LF. *)
Theorem C06_normalize :
  forall s, exists t e, normalize s = Some (t, e) /\ normalized s t /\ (e = Dos <-> has_crlf s).
Proof. exact normalize_spec. Qed.
Print Assumptions C06_normalize.

(** The relation [normalized] admits one result only. *)
Theorem C06_one_result : forall s t u, normalized s t -> normalized s u -> t = u.
Proof. exact normalized_fun. Qed.
Print Assumptions C06_one_result.

(** The number of line breaks is kept. *)
Theorem C06_lines_kept : forall s t e, normalize s = Some (t, e) ->
  count_occ N.eq_dec t 10 = count_occ N.eq_dec s 10.
Proof.
  intros s t e H. destruct (normalize_spec s) as (t' & e' & E & Hn & _).
  rewrite E in H. injection H as -> ->. apply normalized_lines. exact Hn.
Qed.
Print Assumptions C06_lines_kept.

(** "\ra\r\n\n\r\r\n": three line breaks, a lone CR at the start and one before a pair *)
Example C06_nontrivial :
  normalize [13; 97; 13; 10; 10; 13; 13; 10] = Some ([13; 97; 10; 10; 13; 10], Dos).
Proof. reflexivity. Qed.

(** The result of a normalisation may itself contain CR LF ("\r\r\n" becomes "\r\n"): a second
    normalisation changes it again. *)
Theorem C06_idempotent_refuted :
  exists s t e, normalize s = Some (t, e) /\ has_crlf t /\ normalize t <> Some (t, Unix).
Proof.
  exists [13; 13; 10], [13; 10], Dos. split; [reflexivity|]. split; [exists [], []; reflexivity|].
  vm_compute. discriminate.
Qed.
Print Assumptions C06_idempotent_refuted.
