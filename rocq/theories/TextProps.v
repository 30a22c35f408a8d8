(** C04, C05 and C44: document synchronisation. *)
From Coq Require Import List NArith Lia Bool.
From Verif Require Import TextModel TextSpec TextProofs.
Import ListNotations.
Local Open Scope N_scope.

(** C05: the position an LSP client uses for a place in the text (after the prefix [p]) is converted
    to exactly the byte offset of that place, in every encoding and for every text. *)
Theorem C05_offset_exact :
  forall enc p s pos, names enc p pos -> offset enc (build (p ++ s)) pos = Some (bytes p).
Proof. exact offset_names. Qed.
Print Assumptions C05_offset_exact.

(** Every place has exactly one position, and positions are strictly increasing along the text. *)
Theorem C05_one_position :
  forall enc p, exists pos, names enc p pos /\ forall pos', names enc p pos' -> pos' = pos.
Proof.
  intros enc p. destruct (names_exists enc p) as (pos & H). exists pos. split; [exact H|].
  intros pos' H'. exact (names_unique _ _ _ _ H' H).
Qed.
Print Assumptions C05_one_position.

Theorem C05_monotone :
  forall enc p m x y, m <> [] -> names enc p x -> names enc (p ++ m) y ->
    line x < line y \/ line x = line y /\ character x < character y.
Proof. exact names_mono. Qed.
Print Assumptions C05_monotone.

(** "aé\n😀b": the place after the emoji *)
Example C05_nontrivial :
  names (Wide Utf16) [97; 233; 10; 128512] (Position 1 2) /\
  offset (Wide Utf16) (build ([97; 233; 10; 128512] ++ [98])) (Position 1 2) = Some 8.
Proof.
  split; [|reflexivity]. split; [reflexivity|].
  exists [97; 233; 10], [128512]. repeat split; [right; exists [97; 233]; reflexivity|].
  intros [H|[]]; discriminate.
Qed.

(** C05 refuted for columns past the end of a line: LSP says they mean the end of the line; the
    conversion gives a place on the next line. *)
Theorem C05_past_line_end_refuted :
  exists enc p s pos,
    (exists rest, s = newline :: rest) /\
    (exists inside, names enc p inside /\ line inside = line pos /\ character inside < character pos) /\
    offset enc (build (p ++ s)) pos <> Some (bytes p).
Proof.
  exists Utf8, [97], [10; 98], (Position 0 2). split; [exists [98]; reflexivity|]. split.
  - exists (Position 0 1). split; [|split; [reflexivity|simpl; lia]].
    split; [reflexivity|]. exists [], [97]. repeat split; [left; reflexivity|]. intros [H|[]]; discriminate.
  - vm_compute. discriminate.
Qed.
Print Assumptions C05_past_line_end_refuted.

(** C04, the part that holds: if no whole-document change comes after a ranged one, the server ends
    up with the text of the client, whatever the positions (so the line index is never stale).
    Missing: notifications with a ranged change before a whole-document change, see below. *)
Theorem C04_text_in_sync_partial :
  forall enc t cs t',
    client enc t cs t' ->
    (forall cs1 f cs2, cs = cs1 ++ f :: cs2 -> c_range f = None ->
       Forall (fun c => c_range c = None) cs1) ->
    apply_document_changes enc t cs = Some t'.
Proof.
  intros enc t cs t' H Ht. apply apply_tidy; [exact H|].
  intros cs1 f cs2 E Hf. assert (Hn : c_range f = None) by (destruct f as [[r|] x]; [discriminate Hf|reflexivity]).
  pose proof (Ht cs1 f cs2 E Hn) as Hall. eapply Forall_impl; [|exact Hall].
  intros [[r|] x] Hc; [discriminate Hc|reflexivity].
Qed.
Print Assumptions C04_text_in_sync_partial.

(** two edits of "a\nb", first on the last line, then one joining the lines *)
Definition c04_changes : list change :=
  [Change (Some (Range (Position 1 1) (Position 1 1))) [10; 99];
   Change (Some (Range (Position 0 1) (Position 1 0))) [45]].
Example C04_nontrivial :
  client Utf8 [97; 10; 98] c04_changes [97; 45; 98; 10; 99] /\
  (forall cs1 f cs2, c04_changes = cs1 ++ f :: cs2 -> c_range f = None ->
       Forall (fun c => c_range c = None) cs1) /\
  apply_document_changes Utf8 [97; 10; 98] c04_changes = Some [97; 45; 98; 10; 99].
Proof.
  assert (Hn : forall a b l c, ~ In newline b -> (a = [] \/ exists a', a = a' ++ [newline]) ->
     N.of_nat (count_occ N.eq_dec (a ++ b) newline) = l -> width Utf8 b = c ->
     names Utf8 (a ++ b) (Position l c)).
  { intros a b l c Hb Ha <- <-. split; [reflexivity|]. exists a, b. repeat split; assumption. }
  split; [|split; [|reflexivity]].
  - eapply cl_cons.
    + apply (cc_range Utf8 [97; 10; 98] [] []); simpl.
      * apply (Hn [97; 10] [98]); [intros [H|[]]; discriminate|right; exists [97]; reflexivity|reflexivity|reflexivity].
      * apply (Hn [97; 10] [98]); [intros [H|[]]; discriminate|right; exists [97]; reflexivity|reflexivity|reflexivity].
    + eapply cl_cons; [|apply cl_nil].
      apply (cc_range Utf8 [97] [10] [98; 10; 99]); simpl.
      * apply (Hn [] [97]); [intros [H|[]]; discriminate|left; reflexivity|reflexivity|reflexivity].
      * apply (Hn [97; 10] []); [intros []|right; exists [97]; reflexivity|reflexivity|reflexivity].
  - intros cs1 f cs2 E Hf. exfalso. unfold c04_changes in E.
    destruct cs1 as [|x [|y [|z cs1]]]; simpl in E; injection E; intros; subst; discriminate.
Qed.

(** C04 refuted: a ranged change before a whole-document change of the same notification is applied
    again to the new text. *)
Theorem C04_text_in_sync_refuted :
  exists enc t cs t', client enc t cs t' /\ apply_document_changes enc t cs <> Some t'.
Proof.
  exists Utf8, [97],
    [Change (Some (Range (Position 0 0) (Position 0 0))) [120]; Change None [98];
     Change (Some (Range (Position 0 1) (Position 0 1))) [99]], [98; 99].
  split; [|vm_compute; discriminate].
  assert (Hn : forall b c, ~ In newline b -> width Utf8 b = c -> names Utf8 b (Position 0 c)).
  { intros b c Hb <-. split; simpl.
    - rewrite (proj1 (count_occ_not_In N.eq_dec b newline) Hb). reflexivity.
    - exists [], b. repeat split; [left; reflexivity|exact Hb]. }
  eapply cl_cons; [apply (cc_range Utf8 [] [] [97]); apply Hn; auto; intros []|].
  eapply cl_cons; [apply cc_full|].
  eapply cl_cons; [|apply cl_nil].
  apply (cc_range Utf8 [98] [] []); (apply Hn; [intros [H|[]]; discriminate|reflexivity]).
Qed.
Print Assumptions C04_text_in_sync_refuted.

(** A change whose range ends before it starts is left out, wherever the index was built from. *)
Theorem C04_reversed_ignored : forall enc p m s r new, m <> [] -> names enc p (r_end r) -> names enc (p ++ m) (r_start r) ->
  apply_document_changes enc (p ++ m ++ s) [Change (Some r) new] = Some (p ++ m ++ s).
Proof.
  intros enc p m s r new Nm He Hs. cbn. set (ix := if _ <=? _ then _ else _).
  assert (Ei : ix = build (p ++ m ++ s)) by (subst ix; destruct (_ <=? _); reflexivity).
  rewrite Ei. unfold text_range. rewrite (offset_names enc p (m ++ s) _ He), (app_assoc p m s), (offset_names enc (p ++ m) s _ Hs).
  assert (L : bytes p < bytes (p ++ m)).
  { unfold bytes. rewrite width_app. destruct m as [|c m]; [contradiction|]. cbn [width fold_right unit]. pose proof (len8_pos c). lia. }
  apply N.ltb_lt in L. rewrite L. reflexivity.
Qed.
Print Assumptions C04_reversed_ignored.

(** A position inside a character (the second half of an emoji in UTF-16, or the second byte of an é in UTF-8) is turned
    into an offset inside the character, and replacing text there panics. *)
Lemma inside_none : forall p c s k, 0 < k -> k < len8 c -> split_bytes (bytes p + k) (p ++ c :: s) = None.
Proof.
  induction p as [|x p IH]; intros c s k H1 H2.
  - cbn [app]. change (bytes []) with 0. rewrite N.add_0_l. cbn [split_bytes]. destruct (N.eqb_spec k 0); [lia|]. destruct (N.ltb_spec k (len8 c)); [reflexivity|lia].
  - cbn [app split_bytes]. change (bytes (x :: p)) with (len8 x + bytes p). pose proof (len8_pos x).
    destruct (N.eqb_spec (len8 x + bytes p + k) 0); [lia|]. destruct (N.ltb_spec (len8 x + bytes p + k) (len8 x)); [lia|].
    replace (len8 x + bytes p + k - len8 x) with (bytes p + k) by lia. rewrite IH by assumption. reflexivity.
Qed.
Theorem C04_inside_character_refuted : forall p c s l col new, names Utf8 p (Position l col) ->
  128 <= c -> apply_document_changes Utf8 (p ++ c :: s) [Change (Some (Range (Position l (col + 1)) (Position l (col + 1)))) new] = None.
Proof.
  intros p c s l col new H Hc. unfold apply_document_changes. cbn -[N.leb apply_loop build u32_max]. cbn [apply_loop c_range r_end r_start line].
  set (ix := if u32_max <=? l then build (p ++ c :: s) else build (p ++ c :: s)).
  assert (Ei : ix = build (p ++ c :: s)) by (subst ix; destruct (_ <=? _); reflexivity).
  assert (O : offset Utf8 ix (Position l (col + 1)) = Some (bytes p + 1)).
  { rewrite Ei. pose proof (offset_names Utf8 p (c :: s) _ H) as O. unfold offset in *. cbn [line character] in *.
    destruct (start_offset (build (p ++ c :: s)) l) as [st|]; [|discriminate O]. cbn [option_map] in *. injection O as O. f_equal. lia. }
  unfold text_range. cbn [r_start r_end]. rewrite O. rewrite N.ltb_irrefl. unfold replace_range.
  rewrite inside_none; [reflexivity|lia|]. unfold len8. destruct (N.ltb_spec c 128); [lia|]. destruct (c <? 2048), (c <? 65536); lia.
Qed.
Print Assumptions C04_inside_character_refuted.
Example C04_inside_character_utf16 :
  apply_document_changes (Wide Utf16) [97; 128512; 98] [Change (Some (Range (Position 0 2) (Position 0 2))) [99]] = None.
Proof. reflexivity. Qed.

(** C44: the first of UTF-8 and UTF-32 in the client's list is used, UTF-16 if neither is there. *)
Theorem C44_choice :
  forall offered,
    (forall pre post, offered = pre ++ EUtf8 :: post -> ~ In EUtf8 pre -> ~ In EUtf32 pre ->
       position_encoding offered = Utf8) /\
    (forall pre post, offered = pre ++ EUtf32 :: post -> ~ In EUtf8 pre -> ~ In EUtf32 pre ->
       position_encoding offered = Wide Utf32) /\
    (~ In EUtf8 offered -> ~ In EUtf32 offered -> position_encoding offered = Wide Utf16).
Proof.
  unfold position_encoding. intros offered. repeat split.
  - intros pre post -> H1 H2. induction pre as [|k pre IH]; [reflexivity|].
    destruct k; simpl in *; try tauto; apply IH; tauto.
  - intros pre post -> H1 H2. induction pre as [|k pre IH]; [reflexivity|].
    destruct k; simpl in *; try tauto; apply IH; tauto.
  - intros H1 H2. induction offered as [|k offered IH]; [reflexivity|].
    destruct k; simpl in *; try tauto; apply IH; tauto.
Qed.
Print Assumptions C44_choice.

(** The encoding announced is the one the handlers use. *)
Theorem C44_announced :
  forall offered, announced offered =
    Some (match position_encoding offered with
          | Utf8 => EUtf8 | Wide Utf16 => EUtf16 | Wide Utf32 => EUtf32 end).
Proof.
  intros offered. unfold announced, position_encoding. destruct (negotiated offered) as [|[]]; reflexivity.
Qed.
Print Assumptions C44_announced.
Example C44_nontrivial : position_encoding [EUtf16; EOther 7; EUtf32; EUtf8] = Wide Utf32.
Proof. reflexivity. Qed.
