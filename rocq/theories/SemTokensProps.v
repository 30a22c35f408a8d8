(** C01, C02: semantic tokens. *)
From Coq Require Import List NArith.
From Verif Require Import SemTokensModel SemTokensSpec SemTokensProofs.
Import ListNotations.
Local Open Scope N_scope.

(** C01: the client's array after the delta is the array of the new tokens. *)
Theorem C01_delta_reconstructs : forall old new : list token,
  apply_edits (flatten old) (diff_tokens old new) = flatten new.
Proof. exact diff_correct. Qed.
Print Assumptions C01_delta_reconstructs.

(** C01: the edits only touch integers that exist in the client's array. *)
Theorem C01_delta_in_bounds : forall (old new : list token) e,
  In e (diff_tokens old new) -> (start e + delete_count e <= length (flatten old))%nat.
Proof. exact diff_in_bounds. Qed.
Print Assumptions C01_delta_in_bounds.

(** C01: nothing is sent exactly when nothing changed. *)
Theorem C01_delta_empty_iff : forall old new : list token,
  diff_tokens old new = [] <-> old = new.
Proof. exact diff_empty_iff. Qed.
Print Assumptions C01_delta_empty_iff.

Example C01_nontrivial :
  diff_tokens [Token 1 2 3 4 5; Token 6 7 8 9 10; Token 6 7 8 9 10]
              [Token 1 2 3 4 5; Token 6 7 8 9 10]
  = [Edit 10 5 []].
Proof. vm_compute. reflexivity. Qed.

(** C02: decoding what the server sends gives back every highlighted range. *)
Theorem C02_tokens_decode : forall hs : list hl,
  Forall forward_line hs -> in_order hs ->
  exists ts, semantic_tokens hs = Some ts /\ decode ts = map abs_of hs.
Proof. exact builder_round_trip. Qed.
Print Assumptions C02_tokens_decode.

(** C02: the encoding fails (unsigned underflow) exactly for ranges out of document order or ending
    before their start column. *)
Theorem C02_tokens_fail_iff : forall hs : list hl,
  semantic_tokens hs = None <-> ~ (Forall forward_line hs /\ in_order hs).
Proof. exact builder_fails_iff. Qed.
Print Assumptions C02_tokens_fail_iff.

Definition C02_example : list hl :=
  [Hl (Range 2 4 2 9) 1 0; Hl (Range 2 12 2 13) 2 1; Hl (Range 5 0 5 3) 1 0].

Example C02_nontrivial :
  Forall forward_line C02_example /\ in_order C02_example /\
  semantic_tokens C02_example = Some [Token 2 4 5 1 0; Token 0 8 1 2 1; Token 3 0 3 1 0].
Proof.
  split; [|split; [|vm_compute; reflexivity]].
  - repeat constructor; unfold forward_line; cbn; discriminate.
  - cbn. unfold starts_le; cbn. split; [right; split; [reflexivity|discriminate]|].
    split; [left; reflexivity | exact I].
Qed.
