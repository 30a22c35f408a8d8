(** Lemmas about addresses. *)
From Coq Require Import List Ascii String Bool Arith NArith Lia.
From Verif Require Import PathsModel PathsSpec PathsProps VfsPathModel VfsPathSpec VfsPathProofs UrlModel UrlSpec.
From Verif Require VfsModel VfsProofs VfsProps.
Import ListNotations.
Local Open Scope list_scope.

(** ** Escapes *)
Lemma digit_sound : forall c n, to_digit c = Some n -> digit_value c (N.to_nat n).
Proof.
  intros [[] [] [] [] [] [] [] []] n H; cbv in H; try discriminate H; injection H as <-; solve [left; reflexivity|right; reflexivity].
Qed.
Lemma digit_complete : forall c h, digit_value c h -> to_digit c = Some (N.of_nat h).
Proof.
  intros c h [H|H]; do 16 (destruct h as [|h]; [injection H as <-; reflexivity|]); destruct h; discriminate H.
Qed.
Lemma digit_back : forall c h, to_digit c = Some h -> (h < 16)%N.
Proof. intros [[] [] [] [] [] [] [] []] n H; cbv in H; try discriminate H; injection H as <-; reflexivity. Qed.

Lemma decode_means : forall k t, List.length t <= k -> means t (percent_decode t).
Proof.
  induction k as [|k IH]; intros t L.
  - destruct t; [constructor|cbn in L; lia].
  - destruct t as [|c t]; [constructor|]. cbn [List.length] in L. cbn [percent_decode].
    destruct (Ascii.eqb_spec c "%"%char) as [->|N]; [|apply means_plain; [exact N|apply IH; lia]].
    destruct t as [|a [|b r]].
    + apply means_stray; [intros a b h l s E; discriminate E|constructor].
    + apply means_stray; [intros a' b h l s E; discriminate E|apply IH; cbn in *; lia].
    + destruct (to_digit a) as [x|] eqn:Ea; [destruct (to_digit b) as [y|] eqn:Eb|].
      * replace (ascii_of_N (x * 16 + y)) with (ascii_of_nat (16 * N.to_nat x + N.to_nat y)).
        -- apply means_escape; [apply digit_sound; exact Ea|apply digit_sound; exact Eb|apply IH; cbn in L; lia].
        -- unfold ascii_of_nat. f_equal. lia.
      * apply means_stray; [|apply IH; cbn in *; lia]. intros a' b' h l s E D1 D2. injection E as <- <- <-.
        apply digit_complete in D2. rewrite Eb in D2. discriminate D2.
      * apply means_stray; [|apply IH; cbn in *; lia]. intros a' b' h l s E D1 D2. injection E as <- <- <-.
        apply digit_complete in D1. rewrite Ea in D1. discriminate D1.
Qed.
Lemma means_decode : forall t r, means t r -> r = percent_decode t.
Proof.
  induction 1 as [|a b h l t r Ha Hb M IH|c t r N M IH|t r S M IH]; cbn [percent_decode]; [reflexivity| | |].
  - change (Ascii.eqb pct "%"%char) with true. cbv iota. rewrite (digit_complete _ _ Ha), (digit_complete _ _ Hb), IH.
    f_equal. unfold ascii_of_nat. f_equal. lia.
  - destruct (Ascii.eqb_spec c "%"%char) as [E|_]; [contradiction|]. rewrite IH. reflexivity.
  - change (Ascii.eqb pct "%"%char) with true. cbv iota. rewrite <- IH. destruct t as [|a [|b s]]; [reflexivity|reflexivity|].
    destruct (to_digit a) as [x|] eqn:Ea; [|reflexivity]. destruct (to_digit b) as [y|] eqn:Eb; [|reflexivity].
    exfalso. apply (S a b (N.to_nat x) (N.to_nat y) s eq_refl); apply digit_sound; assumption.
Qed.
Lemma means_iff : forall t r, means t r <-> r = percent_decode t.
Proof. intros t r. split; [apply means_decode|]. intros ->. apply (decode_means (List.length t)). apply le_n. Qed.
Lemma means_all : forall segs raws, Forall2 means segs raws <-> raws = map percent_decode segs.
Proof.
  intros segs raws. split.
  - induction 1 as [|s r segs raws M F IH]; [reflexivity|]. cbn. rewrite <- IH, (means_decode _ _ M). reflexivity.
  - intros ->. induction segs as [|s segs IH]; constructor; [apply means_iff; reflexivity|exact IH].
Qed.

Lemma escape_digits : forall c, to_digit (hex_digit (N_of_ascii c / 16)) = Some (N_of_ascii c / 16)%N /\ to_digit (hex_digit (N_of_ascii c mod 16)) = Some (N_of_ascii c mod 16)%N.
Proof. intros [[] [] [] [] [] [] [] []]; split; reflexivity. Qed.
Lemma decode_escape : forall c r, percent_decode (escape c ++ r) = c :: percent_decode r.
Proof.
  intros c r. unfold escape. cbn [app]. set (x := hex_digit (N_of_ascii c / 16)). set (y := hex_digit (N_of_ascii c mod 16)).
  cbn [percent_decode]. change (Ascii.eqb "%" "%") with true. cbv iota. subst x y.
  destruct (escape_digits c) as [-> ->]. f_equal.
  rewrite N.mul_comm, <- N.div_mod' . apply ascii_N_embedding.
Qed.
Lemma decode_plain : forall back c r, escaped back c = false -> percent_decode (c :: r) = c :: percent_decode r.
Proof.
  intros back c r E. cbn [percent_decode]. destruct (Ascii.eqb_spec c "%"%char) as [->|_]; [|reflexivity].
  destruct back; discriminate E.
Qed.
Lemma decode_encode : forall back x, percent_decode (percent_encode back x) = x.
Proof.
  intros back. induction x as [|c x IH]; [reflexivity|]. unfold percent_encode in *. cbn [flat_map].
  destruct (escaped back c) eqn:E.
  - rewrite decode_escape, IH. reflexivity.
  - cbn [app]. rewrite (decode_plain back c _ E), IH. reflexivity.
Qed.

(** ** Pieces *)
Lemma split_app : forall a b, split (a ++ slash :: b) = split a ++ split b.
Proof. intros a b. apply written_split. apply written_app; apply split_written. Qed.
Lemma split_pieces : forall raws, raws <> [] -> split (join_pieces raws) = flat_map split raws.
Proof.
  induction raws as [|r raws IH]; intros N; [contradiction|]. destruct raws as [|r' raws]; [cbn; rewrite app_nil_r; reflexivity|].
  change (join_pieces (r :: r' :: raws)) with (r ++ slash :: join_pieces (r' :: raws)). rewrite split_app, IH by discriminate. reflexivity.
Qed.
Lemma flat_slash : forall raws, raws <> [] -> flat_map (fun s => slash :: s) raws = slash :: join_pieces raws.
Proof.
  induction raws as [|r raws IH]; intros N; [contradiction|]. destruct raws as [|r' raws]; [cbn; rewrite app_nil_r; reflexivity|].
  change (join_pieces (r :: r' :: raws)) with (r ++ slash :: join_pieces (r' :: raws)). cbn [flat_map] in *. rewrite IH by discriminate. reflexivity.
Qed.
Lemma pieces_split : forall raws pieces, Forall2 (fun raw ps => written ps raw) raws pieces <-> pieces = map split raws.
Proof.
  intros raws pieces. split.
  - induction 1 as [|r p raws pieces W F IH]; [reflexivity|]. cbn. rewrite <- IH, (written_split _ _ W). reflexivity.
  - intros ->. induction raws as [|r raws IH]; constructor; [apply split_written|exact IH].
Qed.
Lemma free_flat : forall raws, Forall slash_free (flat_map split raws).
Proof.
  induction raws as [|r raws IH]; [constructor|]. cbn. apply Forall_app. split; [apply (written_free _ _ (split_written r))|exact IH].
Qed.

Lemma normalize_drive : forall q, normalize (drive (slash :: q)) = normalize (slash :: q).
Proof.
  intros q. assert (A : normalize ((slash :: q) ++ [slash]) = normalize (slash :: q)).
  { cbn [app]. rewrite (proj1 (normalize_abs _)), (proj1 (normalize_abs _)), split_app, fold_left_app. reflexivity. }
  unfold drive. destruct (rev (slash :: q)) as [|c [|l [|x r]]]; try reflexivity.
  destruct (is_alphabetic l && _); [exact A|reflexivity].
Qed.
Lemma drive_absolute : forall q, is_absolute (drive (slash :: q)) = true.
Proof.
  intros q. unfold drive. destruct (rev (slash :: q)) as [|c [|l [|x r]]]; try reflexivity.
  destruct (is_alphabetic l && _); reflexivity.
Qed.
Lemma names_render : forall l, Forall proper_name l -> names (render l) = stored l.
Proof.
  intros l F. unfold names. rewrite (components_render l F). cbn [flat_map app]. clear F. unfold stored.
  induction l as [|x l IH]; [reflexivity|]. cbn. rewrite IH. reflexivity.
Qed.

(** The place the pieces lead to *)
Definition place (segs : list path) : spot := fold_left keep (flat_map split (map percent_decode segs)) [].
Lemma place_proper : forall segs, Forall proper_name (place segs).
Proof.
  intros segs. unfold place. eapply walk_proper; [apply keep_walk; [apply free_flat|constructor]|constructor].
Qed.
Lemma vfs_path_local : forall u segs, local_ u -> segments u = Some segs -> segs <> [] -> vfs_path u = Ok (Some (stored (place segs))).
Proof.
  intros u segs L E N.
  assert (T : to_file_path u = Some (drive (slash :: join_pieces (map percent_decode segs)))).
  { unfold to_file_path. rewrite E.
    assert (Fm : flat_map (fun s => slash :: percent_decode s) segs = slash :: join_pieces (map percent_decode segs)).
    { rewrite <- flat_slash by (destruct segs; [contradiction|discriminate]). clear. induction segs as [|s segs IH]; [reflexivity|]. cbn. rewrite IH. reflexivity. }
    rewrite Fm. destruct L as [-> | ->]; [reflexivity|]. destruct (path_eqb_spec (list_ascii_of_string "localhost") (list_ascii_of_string "localhost")) as [_|X]; [reflexivity|contradiction]. }
  unfold vfs_path, abs_path. rewrite T, drive_absolute. cbn [VfsModel.bind option_map].
  rewrite normalize_drive, (proj1 (normalize_abs _)), split_pieces by (destruct segs; [contradiction|discriminate]).
  fold (place segs). rewrite names_render by apply place_proper. reflexivity.
Qed.
Lemma vfs_path_other : forall u, ~ local_ u \/ segments u = None -> vfs_path u = Ok None.
Proof.
  intros u H. unfold vfs_path, abs_path. assert (T : to_file_path u = None); [|rewrite T; reflexivity].
  unfold to_file_path. destruct (segments u) as [segs|]; [|reflexivity]. destruct H as [H|H]; [|discriminate H].
  destruct (host u) as [h|] eqn:E; [|exfalso; apply H; left; exact E].
  destruct (path_eqb_spec h (list_ascii_of_string "localhost")) as [->|_]; [exfalso; apply H; right; exact E|reflexivity].
Qed.
Lemma local_dec : forall u, local_ u \/ ~ local_ u.
Proof.
  intros u. unfold local_. destruct (host u) as [h|]; [|left; left; reflexivity].
  destruct (path_eqb_spec h (list_ascii_of_string "localhost")) as [->|N]; [left; right; reflexivity|].
  right. intros [X|X]; [discriminate X|]. injection X as X. contradiction.
Qed.
Lemma locates_place : forall u l, locates u l <-> local_ u /\ exists segs, segments u = Some segs /\ l = place segs.
Proof.
  intros u l. unfold locates. split.
  - intros (L & segs & raws & pieces & E & M & P & W). split; [exact L|]. exists segs. split; [exact E|].
    apply means_all in M. apply pieces_split in P. subst raws pieces. rewrite <- flat_map_concat_map in W.
    apply (walk_fun True [] _ l W). unfold place. apply keep_walk; [apply free_flat|constructor].
  - intros (L & segs & E & ->). split; [exact L|]. exists segs, (map percent_decode segs), (map split (map percent_decode segs)).
    split; [exact E|]. split; [apply means_all; reflexivity|]. split; [apply pieces_split; reflexivity|].
    rewrite <- flat_map_concat_map. apply keep_walk; [apply free_flat|constructor].
Qed.

(** ** The address of a place *)
Lemma skip_components : forall l, Forall proper_name l -> map name_of (skipn 1 (components (render l))) = l.
Proof. intros l F. rewrite components_render by exact F. cbn [skipn]. rewrite map_map. apply map_id. Qed.
Definition address_segments (back : bool) (l : spot) : list path := match l with [] => [[]] | _ => map (percent_encode back) l end.
Lemma from_render : forall back l, Forall proper_name l ->
  from_file_path back (render l) = Some (Url (list_ascii_of_string "file") None (Some (address_segments back l)) None None).
Proof.
  intros back l F. unfold from_file_path. change (is_absolute (render l)) with true. cbv iota. cbv zeta.
  replace (map (fun c => percent_encode back (name_of c)) (skipn 1 (components (render l)))) with (map (percent_encode back) l).
  - destruct l; reflexivity.
  - rewrite <- (skip_components l F) at 1. rewrite map_map. reflexivity.
Qed.
Lemma place_address : forall back l, Forall proper_name l -> place (address_segments back l) = l.
Proof.
  intros back l F. unfold place, address_segments. destruct l as [|x l]; [reflexivity|]. rewrite map_map.
  replace (map (fun y => percent_decode (percent_encode back y)) (x :: l)) with (x :: l).
  - assert (S : forall m, Forall proper_name m -> flat_map split m = m).
    { induction 1 as [|y m (_ & _ & _ & H) Fm IH]; [reflexivity|]. cbn [flat_map]. rewrite IH.
      rewrite (written_split [y] y); [reflexivity|]. constructor. exact H. }
    rewrite (S _ F), keep_names by exact F. reflexivity.
  - rewrite (map_ext _ (fun y => y)); [rewrite map_id; reflexivity|]. intros y. apply decode_encode.
Qed.
Lemma address_some : forall back l, address_segments back l <> [].
Proof. intros back [|x l]; discriminate. Qed.

Lemma stored_proper : forall l, Forall proper_name l -> proper_path (stored l).
Proof.
  unfold proper_path, stored. induction 1 as [|x l H F IH]; constructor; [|exact IH]. rewrite list_ascii_of_string_of_list_ascii. exact H.
Qed.
Lemma stored_back : forall p, stored (map list_ascii_of_string p) = p.
Proof. intros p. unfold stored. rewrite map_map. rewrite (map_ext _ (fun y => y)); [apply map_id|]. apply string_of_list_ascii_of_string. Qed.
Lemma proper_spot : forall p, proper_path p -> Forall proper_name (map list_ascii_of_string p).
Proof. unfold proper_path. induction 1; constructor; assumption. Qed.

(** ** The text *)
Lemma escape_in : forall c, Forall in_address (escape c) /\ slash_free (escape c).
Proof.
  assert (D : forall n, (n < 16)%N -> in_address (hex_digit n) /\ hex_digit n <> sl).
  { intros n H. assert (E : In n [0;1;2;3;4;5;6;7;8;9;10;11;12;13;14;15]%N).
    { destruct n as [|p]; [left; reflexivity|]. cbn. do 4 (destruct p as [p|p|]; try lia); auto 20. }
    cbn in E. repeat (destruct E as [<-|E]; [split; [split; [vm_compute; split; discriminate|cbn; intuition discriminate]|discriminate]|]). destruct E. }
  intros c. assert (B1 : (N_of_ascii c / 16 < 16)%N). { apply N.div_lt_upper_bound; [lia|]. pose proof (N_ascii_bounded c). lia. }
  assert (B2 : (N_of_ascii c mod 16 < 16)%N) by (apply N.mod_lt; lia).
  destruct (D _ B1) as [A1 F1]. destruct (D _ B2) as [A2 F2]. split.
  - unfold escape. constructor; [split; [vm_compute; split; discriminate|cbn; intuition discriminate]|]. constructor; [exact A1|]. constructor; [exact A2|constructor].
  - intros [H|[H|[H|[]]]]; [discriminate H|apply F1; exact H|apply F2; exact H].
Qed.
Lemma plain_in : forall back c, escaped back c = false -> (back = true \/ c <> "\"%char) -> in_address c /\ c <> sl.
Proof.
  intros back c E B.
  assert (K : forall c, escaped true c = false -> in_address c /\ c <> sl).
  { clear. intros [[] [] [] [] [] [] [] []] E; cbv in E; try discriminate E; (split; [split; [vm_compute; split; discriminate|cbn; intuition discriminate]|discriminate]). }
  apply K. destruct back; [exact E|]. destruct B as [B|B]; [discriminate B|]. unfold escaped in *. cbn [andb] in *.
  rewrite Bool.orb_false_r in E. rewrite E. cbn [orb]. destruct (Ascii.eqb_spec c "\"%char); [contradiction|reflexivity].
Qed.
Lemma encode_in : forall back x, (back = true \/ ~ In "\"%char x) -> Forall in_address (percent_encode back x) /\ slash_free (percent_encode back x).
Proof.
  intros back. induction x as [|c x IH]; intros B; [split; [constructor|intros []]|].
  assert (B1 : back = true \/ c <> "\"%char) by (destruct B as [B|B]; [left; exact B|right; intros E; apply B; left; exact E]).
  assert (B2 : back = true \/ ~ In "\"%char x) by (destruct B as [B|B]; [left; exact B|right; intros E; apply B; right; exact E]).
  destruct (IH B2) as [I1 I2]. unfold percent_encode in *. cbn [flat_map].
  assert (G : forall a b, Forall in_address a /\ slash_free a -> Forall in_address b /\ slash_free b -> Forall in_address (a ++ b) /\ slash_free (a ++ b)).
  { intros a b [A1 A2] [C1 C2]. split; [apply Forall_app; split; assumption|]. intros H. apply in_app_or in H. destruct H; [apply A2|apply C2]; assumption. }
  apply G; [|split; assumption]. destruct (escaped back c) eqn:E; [apply escape_in|].
  destruct (plain_in back c E B1) as [P1 P2]. split; [constructor; [exact P1|constructor]|]. intros [H|[]]. apply P2. exact H.
Qed.
Lemma encode_free : forall back x, slash_free (percent_encode back x).
Proof.
  intros back. induction x as [|c x IH]; [intros []|]. unfold percent_encode in *. cbn [flat_map]. intros H. apply in_app_or in H. destruct H as [H|H]; [|exact (IH H)].
  destruct (escaped back c) eqn:E; [exact (proj2 (escape_in c) H)|]. destruct H as [H|[]]. subst c. destruct back; discriminate E.
Qed.
Lemma address_free : forall back l, Forall slash_free (address_segments back l).
Proof.
  intros back l. unfold address_segments. destruct l as [|x l]; [constructor; [intros []|constructor]|].
  apply Forall_map. apply Forall_forall. intros y _. apply encode_free.
Qed.
Lemma written_address : forall back l, written (address_segments back l) (join_pieces (address_segments back l)).
Proof. intros back l. apply join_written; [apply address_some|apply address_free]. Qed.
Lemma address_inj : forall back l m, Forall proper_name l -> Forall proper_name m -> address_segments back l = address_segments back m -> l = m.
Proof. intros back l m F G E. rewrite <- (place_address back l F), <- (place_address back m G), E. reflexivity. Qed.
