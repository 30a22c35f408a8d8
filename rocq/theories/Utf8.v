(** UTF-8 as the Rust standard library implements it: String::into_bytes ([encode]) and
    String::from_utf8 ([decode], None is the error). Written from the Unicode standard (table 3-7);
    the standard library is trusted to implement it. A text is the list of its code points. *)
From Coq Require Import List NArith ZArith Bool Lia ZifyN ZifyBool.
Import ListNotations.
Local Open Scope N_scope.

(** char: a Unicode scalar value *)
Definition scalar (c : N) : Prop := c < 55296 \/ (57344 <= c /\ c < 1114112).

Definition encode_char (c : N) : list N :=
  if c <? 128 then [c]
  else if c <? 2048 then [192 + c / 64; 128 + c mod 64]
  else if c <? 65536 then [224 + c / 4096; 128 + c / 64 mod 64; 128 + c mod 64]
  else [240 + c / 262144; 128 + c / 4096 mod 64; 128 + c / 64 mod 64; 128 + c mod 64].
Definition encode (t : list N) : list N := flat_map encode_char t.

Definition within (lo b hi : N) : bool := (lo <=? b) && (b <=? hi).
Definition cont (b : N) : bool := within 128 b 191.

(** The bounds of the second byte after a given three- or four-byte lead *)
Definition second3 (b0 b1 : N) : bool :=
  if b0 =? 224 then within 160 b1 191 else if b0 =? 237 then within 128 b1 159 else cont b1.
Definition second4 (b0 b1 : N) : bool :=
  if b0 =? 240 then within 144 b1 191 else if b0 =? 244 then within 128 b1 143 else cont b1.

Fixpoint decode (bs : list N) : option (list N) :=
  match bs with
  | [] => Some []
  | b0 :: tl =>
      if b0 <? 128 then option_map (cons b0) (decode tl)
      else match tl with
      | [] => None
      | b1 :: tl =>
          if within 194 b0 223 then
            if cont b1 then option_map (cons ((b0 - 192) * 64 + (b1 - 128))) (decode tl) else None
          else match tl with
          | [] => None
          | b2 :: tl =>
              if within 224 b0 239 then
                if second3 b0 b1 && cont b2
                then option_map (cons ((b0 - 224) * 4096 + (b1 - 128) * 64 + (b2 - 128))) (decode tl)
                else None
              else match tl with
              | [] => None
              | b3 :: tl =>
                  if within 240 b0 244 && second4 b0 b1 && cont b2 && cont b3
                  then option_map (cons ((b0 - 240) * 262144 + (b1 - 128) * 4096 + (b2 - 128) * 64
                                         + (b3 - 128))) (decode tl)
                  else None
              end
          end
      end
  end.

Local Ltac Zify.zify_post_hook ::= Z.div_mod_to_equations.

Ltac bools := unfold within, cont, second3, second4 in *;
  repeat match goal with
  | |- context [if ?b then _ else _] => let E := fresh "E" in destruct b eqn:E
  end; try (exfalso; lia).

Lemma decode_char : forall c rest, scalar c -> decode (encode_char c ++ rest) = option_map (cons c) (decode rest).
Proof.
  intros c rest H. unfold encode_char, scalar in *.
  destruct (c <? 128) eqn:E1; [cbn [app decode]; rewrite E1; reflexivity|].
  destruct (c <? 2048) eqn:E2.
  { cbn [app decode]. replace (192 + c / 64 <? 128) with false by lia.
    replace (within 194 (192 + c / 64) 223) with true by (unfold within; lia).
    replace (cont (128 + c mod 64)) with true by (unfold cont, within; lia).
    replace ((192 + c / 64 - 192) * 64 + (128 + c mod 64 - 128)) with c by lia. reflexivity. }
  destruct (c <? 65536) eqn:E3.
  { cbn [app decode]. replace (224 + c / 4096 <? 128) with false by lia.
    replace (within 194 (224 + c / 4096) 223) with false by (unfold within; lia).
    replace (within 224 (224 + c / 4096) 239) with true by (unfold within; lia).
    replace (second3 (224 + c / 4096) (128 + c / 64 mod 64)) with true
      by (unfold second3, cont, within; bools; lia).
    replace (cont (128 + c mod 64)) with true by (unfold cont, within; lia). cbn [andb].
    replace ((224 + c / 4096 - 224) * 4096 + (128 + c / 64 mod 64 - 128) * 64 + (128 + c mod 64 - 128))
      with c by lia. reflexivity. }
  cbn [app decode]. replace (240 + c / 262144 <? 128) with false by lia.
  replace (within 194 (240 + c / 262144) 223) with false by (unfold within; lia).
  replace (within 224 (240 + c / 262144) 239) with false by (unfold within; lia).
  replace (within 240 (240 + c / 262144) 244) with true by (unfold within; lia).
  replace (second4 (240 + c / 262144) (128 + c / 4096 mod 64)) with true
    by (unfold second4, cont, within; bools; lia).
  replace (cont (128 + c / 64 mod 64)) with true by (unfold cont, within; lia).
  replace (cont (128 + c mod 64)) with true by (unfold cont, within; lia). cbn [andb].
  replace ((240 + c / 262144 - 240) * 262144 + (128 + c / 4096 mod 64 - 128) * 4096
           + (128 + c / 64 mod 64 - 128) * 64 + (128 + c mod 64 - 128)) with c by lia.
  reflexivity.
Qed.

Lemma decode_encode : forall t, Forall scalar t -> decode (encode t) = Some t.
Proof.
  induction 1 as [|c t Hc Ht IH]; [reflexivity|].
  cbn [encode flat_map]. rewrite decode_char by exact Hc. unfold encode in IH. rewrite IH. reflexivity.
Qed.

Lemma option_map_some : forall A B (f : A -> B) o b, option_map f o = Some b -> exists a, o = Some a /\ b = f a.
Proof. intros A B f [a|] b H; [injection H as <-; eauto|discriminate]. Qed.

Ltac split_if H := match type of H with
  | (if ?b then _ else _) = _ => let E := fresh "E" in destruct b eqn:E; [|try discriminate H]
  end.

Lemma decode_sound : forall n bs t, (length bs <= n)%nat -> decode bs = Some t -> encode t = bs /\ Forall scalar t.
Proof.
  induction n as [|n IH]; intros bs t L H.
  { destruct bs; [injection H as <-; split; constructor|simpl in L; lia]. }
  destruct bs as [|b0 tl]; [injection H as <-; split; constructor|]. simpl in L.
  assert (Step : forall c rest t', option_map (cons c) (decode rest) = Some t' -> (length rest <= n)%nat ->
            scalar c -> encode t' = encode_char c ++ rest /\ Forall scalar t').
  { intros c rest t' H1 L1 Hs. apply option_map_some in H1. destruct H1 as (t0 & H1 & ->).
    destruct (IH _ _ L1 H1) as [E1 F]. split; [|constructor; auto].
    cbn [encode flat_map]. unfold encode in E1. rewrite E1. reflexivity. }
  cbn [decode] in H. split_if H.
  { destruct (Step _ _ _ H) as [E1 F]; [lia|unfold scalar; lia|]. split; [|exact F].
    rewrite E1. unfold encode_char. rewrite E. reflexivity. }
  destruct tl as [|b1 tl]; [discriminate H|]. simpl in L. split_if H.
  { split_if H. unfold within, cont in *.
    destruct (Step _ _ _ H) as [E2 F]; [lia|unfold scalar, within in *; lia|]. split; [|exact F].
    rewrite E2. unfold encode_char, within in *.
    replace ((b0 - 192) * 64 + (b1 - 128) <? 128) with false by lia.
    replace ((b0 - 192) * 64 + (b1 - 128) <? 2048) with true by lia.
    cbn [app]. f_equal; [lia|]. f_equal. lia. }
  destruct tl as [|b2 tl]; [discriminate H|]. simpl in L. split_if H.
  { split_if H. apply andb_prop in E2. destruct E2 as [E2 E3].
    assert (B : 128 <= b1 /\ b1 <= 191 /\ (b0 = 224 -> 160 <= b1) /\ (b0 = 237 -> b1 <= 159)).
    { unfold second3, cont, within in E2. destruct (b0 =? 224) eqn:?, (b0 =? 237) eqn:?; lia. }
    clear E2. unfold within, cont in *.
    destruct (Step _ _ _ H) as [E2 F]; [lia|unfold scalar, within in *; lia|]. split; [|exact F].
    rewrite E2. unfold encode_char, within in *.
    replace ((b0 - 224) * 4096 + (b1 - 128) * 64 + (b2 - 128) <? 128) with false by lia.
    replace ((b0 - 224) * 4096 + (b1 - 128) * 64 + (b2 - 128) <? 2048) with false by lia.
    replace ((b0 - 224) * 4096 + (b1 - 128) * 64 + (b2 - 128) <? 65536) with true by lia.
    cbn [app]. f_equal; [lia|]. f_equal; [lia|]. f_equal. lia. }
  destruct tl as [|b3 tl]; [discriminate H|]. simpl in L. split_if H.
  apply andb_prop in E2. destruct E2 as [E2 E5]. apply andb_prop in E2. destruct E2 as [E2 E4].
  apply andb_prop in E2. destruct E2 as [E2 E3].
  assert (B : 128 <= b1 /\ b1 <= 191 /\ (b0 = 240 -> 144 <= b1) /\ (b0 = 244 -> b1 <= 143)).
  { unfold second4, cont, within in E3. destruct (b0 =? 240) eqn:?, (b0 =? 244) eqn:?; lia. }
  clear E3. unfold within, cont in *.
  destruct (Step _ _ _ H) as [E3 F]; [lia|unfold scalar, within in *; lia|]. split; [|exact F].
  rewrite E3. unfold encode_char, within in *.
  set (x := (b0 - 240) * 262144 + (b1 - 128) * 4096 + (b2 - 128) * 64 + (b3 - 128)) in *.
  replace (x <? 128) with false by lia. replace (x <? 2048) with false by lia.
  replace (x <? 65536) with false by lia.
  cbn [app]. f_equal; [lia|]. f_equal; [lia|]. f_equal; [lia|]. f_equal. lia.
Qed.

(** A byte string is valid UTF-8 when it encodes some text. *)
Definition is_utf8 (bs : list N) : Prop := exists t, Forall scalar t /\ bs = encode t.

Lemma decode_utf8 : forall bs, is_utf8 bs <-> decode bs <> None.
Proof.
  intros bs. split.
  - intros (t & F & ->). rewrite decode_encode by exact F. discriminate.
  - destruct (decode bs) as [t|] eqn:E; [|congruence]. intros _.
    destruct (decode_sound _ _ _ (le_n _) E) as [E1 F]. exists t. auto.
Qed.
