(** C27: editor positions and positions in the preprocessed text. *)
From Coq Require Import List ZArith Bool String Ascii Lia.
From Verif Require Import PreTypes PosModel PosSpec.
Import ListNotations.
Local Open Scope Z_scope.

(** Lines on which no number of the code saturates. *)
Definition short (l : list piece) : Prop := edit_end l < 2 ^ 31 /\ text_end l < 2 ^ 31.

Lemma edit_end_app a b : edit_end (a ++ b) = edit_end a + edit_end b.
Proof. unfold edit_end. induction a as [|x a IH]; cbn [app map fold_right]; [reflexivity|]. rewrite IH. lia. Qed.
Lemma text_end_app a b : text_end (a ++ b) = text_end a + text_end b.
Proof. unfold text_end. induction a as [|x a IH]; cbn [app map fold_right]; [reflexivity|]. rewrite IH. lia. Qed.
Lemma edit_end_cons p l : edit_end (p :: l) = edit_width p + edit_end l. Proof. reflexivity. Qed.
Lemma text_end_cons p l : text_end (p :: l) = text_width p + text_end l. Proof. reflexivity. Qed.
Lemma ends_nonneg l : Forall proper l -> 0 <= edit_end l /\ 0 <= text_end l.
Proof.
  induction 1 as [|p l P _ IH]; [cbn; lia|]. rewrite edit_end_cons, text_end_cons. destruct p; cbn in P |- *; lia.
Qed.

Lemma entries_app line a b : forall c, entries line c (a ++ b) = entries line c a ++ entries line (c + edit_end a) b.
Proof.
  induction a as [|p a IH]; intros c; [cbn; f_equal; lia|]. rewrite edit_end_cons. destruct p as [n|n a0 w [i f]]; cbn [app entries edit_width]; rewrite IH.
  - do 2 f_equal. lia.
  - cbn [app]. do 2 f_equal. f_equal. lia.
Qed.

Lemma entries_before line l : forall c, Forall proper l ->
  Forall (fun o => pcol (rend (o_range o)) <= c + edit_end l /\ c <= pcol (rstart (o_range o)) < pcol (rend (o_range o))) (entries line c l).
Proof.
  induction l as [|p l IH]; intros c F; [constructor|]. inversion F as [|? ? P F']; subst.
  pose proof (ends_nonneg l F') as E. rewrite edit_end_cons. destruct p as [n|n a w [i f]]; cbn [entries edit_width proper] in *.
  - eapply Forall_impl; [|apply IH; exact F']. cbn. intros o O. lia.
  - constructor; [cbn; lia|]. eapply Forall_impl; [|apply IH; exact F']. cbn. intros o O. lia.
Qed.

Lemma filter_all {A} (f : A -> bool) l : Forall (fun x => f x = true) l -> filter f l = l.
Proof. induction 1 as [|x l X _ IH]; [reflexivity|]. cbn. rewrite X, IH. reflexivity. Qed.
Lemma filter_no {A} (f : A -> bool) l : Forall (fun x => f x = false) l -> filter f l = [].
Proof. induction 1 as [|x l X _ IH]; [reflexivity|]. cbn. rewrite X, IH. reflexivity. Qed.

Lemma total_app a b : total (a ++ b) = total a + total b.
Proof. unfold total. induction a as [|x a IH]; cbn [app map fold_right]; [reflexivity|]. rewrite IH. lia. Qed.
Lemma total_entries line l : forall c, Forall proper l -> edit_end l < 2 ^ 31 -> total (entries line c l) = text_end l - edit_end l.
Proof.
  induction l as [|p l IH]; intros c F S; [reflexivity|]. inversion F as [|? ? P F']; subst. pose proof (ends_nonneg l F') as E.
  rewrite edit_end_cons in S |- *. rewrite text_end_cons. destruct p as [n|n a w [i f]]; cbn [entries edit_width text_width proper] in *.
  - rewrite IH; [lia|exact F'|lia].
  - unfold total in *. cbn [map fold_right]. rewrite IH; [|exact F'|lia]. unfold change, sub_unsigned, i32_min. cbn [o_diff o_args_diff]. lia.
Qed.

Lemma entries_cut line before n after i c : Forall proper (before ++ Code n :: after) -> 0 <= i <= n ->
  filter (fun o => pcol (rend (o_range o)) <=? c + edit_end before + i) (entries line c (before ++ Code n :: after)) = entries line c before.
Proof.
  intros F I. rewrite entries_app, filter_app. apply Forall_app in F as [F1 F2]. inversion F2 as [|? ? F3 F4]; subst.
  rewrite filter_all, filter_no, app_nil_r; [reflexivity| |].
  - cbn [entries]. eapply Forall_impl; [|apply entries_before; exact F4]. cbn. intros o O. apply Z.leb_gt. lia.
  - eapply Forall_impl; [|apply entries_before; exact F1]. cbn. intros o O. apply Z.leb_le. lia.
Qed.

(** A position of the editor in a piece of code is mapped to the same place of the preprocessed line. *)
Theorem C27_forward :
  forall args offs line l u s,
    Forall proper l -> short l -> on_line offs line = entries line 0 l -> same_place l u s ->
    Forall (fun a => range_contains_pos (fst a) (Pos line u) = false) (on_line args line) ->
    u_pos_to_s_pos args offs (Pos line u) = (None, Pos line s).
Proof.
  intros args offs line l u s F [S1 S2] E (before & n & after & i & -> & I & -> & ->) A. unfold u_pos_to_s_pos. cbn [pline pcol].
  replace (find _ _) with (@None (range * range)).
  - rewrite E. change (edit_end before + i) with (0 + edit_end before + i). rewrite (entries_cut line before n after i 0) by assumption.
    pose proof F as F0. apply Forall_app in F as [F1 F2]. inversion F2 as [|? ? F3 F4]; subst. cbn [proper] in F3.
    pose proof (ends_nonneg _ F1). pose proof (ends_nonneg _ F4).
    rewrite edit_end_app, edit_end_cons in S1. rewrite text_end_app, text_end_cons in S2. cbn [edit_width text_width] in *.
    rewrite total_entries; [|exact F1|lia]. do 2 f_equal. unfold add_signed, u32_max. lia.
  - symmetry. induction A as [|a l0 X _ IH]; [reflexivity|]. cbn. rewrite X. exact IH.
Qed.
Print Assumptions C27_forward.

Lemma unshift_after line l x : forall c, Forall proper l -> x <= c -> unshift (entries line c l) x = x.
Proof.
  induction l as [|p l IH]; intros c F X; [reflexivity|]. inversion F as [|? ? P F']; subst.
  destruct p as [n|n a w [i f]]; cbn [entries unshift proper] in *.
  - apply IH; [exact F'|lia].
  - cbn [o_range rstart pcol]. destruct (Z.ltb_spec c x); [lia|]. apply IH; [exact F'|lia].
Qed.

Lemma unshift_at line n after i : 0 <= i <= n -> forall before c, Forall proper (before ++ Code n :: after) -> uses_visible before i ->
  0 <= c -> c + edit_end before + i < 2 ^ 31 -> text_end before + i < 2 ^ 31 ->
  unshift (entries line c (before ++ Code n :: after)) (c + text_end before + i) = c + edit_end before + i.
Proof.
  intros I. induction before as [|p before IH]; intros c F V C B1 B2.
  - cbn [app entries]. inversion F; subst. rewrite unshift_after; [cbn; lia|assumption|cbn; lia].
  - inversion F as [|? ? P F']; subst. pose proof F' as F2. apply Forall_app in F2 as [F2 _]. pose proof (ends_nonneg _ F2).
    rewrite edit_end_cons in *. rewrite text_end_cons in *. destruct p as [m|m a w [j f]]; cbn [app entries edit_width text_width uses_visible proper] in *.
    + replace (c + (m + text_end before) + i) with (c + m + text_end before + i) by lia. rewrite IH; [lia|exact F'|exact V|lia|lia|lia].
    + destruct V as [V1 V2]. cbn [unshift o_range rstart pcol]. destruct (Z.ltb_spec c (c + (w + text_end before) + i)); [|lia].
      replace (add_signed _ _) with (c + m + a + text_end before + i).
      * rewrite IH; [lia|exact F'|exact V2|lia|lia|lia].
      * unfold add_signed, change, sub_unsigned, i32_min, u32_max. cbn [o_diff o_args_diff]. lia.
Qed.

(** [seen l u s]: as [same_place], and every use before the place shows something before it. *)
Definition seen (l : list piece) (u s : Z) : Prop :=
  exists before n after i, l = before ++ Code n :: after /\ 0 <= i <= n /\
    u = edit_end before + i /\ s = text_end before + i /\ uses_visible before i.
Lemma seen_place l u s : seen l u s -> same_place l u s.
Proof. intros (b & n & a & i & E & I & U & S & _). exists b, n, a, i. auto. Qed.

Lemma unshift_seen line l u s : Forall proper l -> short l -> seen l u s -> unshift (entries line 0 l) s = u.
Proof.
  intros F [S1 S2] (b & n & a & i & -> & I & -> & -> & V). pose proof F as F0. apply Forall_app in F0 as [F1 F2].
  inversion F2 as [|? ? F3 F4]; subst. pose proof (ends_nonneg _ F1). pose proof (ends_nonneg _ F4). cbn [proper] in F3.
  rewrite edit_end_app, edit_end_cons in S1. rewrite text_end_app, text_end_cons in S2. cbn [edit_width text_width] in *.
  apply (unshift_at line n a i I b 0 F V); lia.
Qed.

(** A range of the preprocessed text whose ends lie in code is mapped to the same places of the editor. *)
Theorem C27_back_partial :
  forall offs line l u1 s1 u2 s2,
    Forall proper l -> short l -> on_line offs line = entries line 0 l -> seen l u1 s1 -> seen l u2 s2 ->
    s_range_to_u_range offs (Rng (Pos line s1) (Pos line s2)) = Rng (Pos line u1) (Pos line u2).
Proof.
  intros offs line l u1 s1 u2 s2 F S E P1 P2. unfold s_range_to_u_range. cbn [rstart rend pline pcol]. rewrite E.
  rewrite (unshift_seen line l u1 s1 F S P1), (unshift_seen line l u2 s2 F S P2). reflexivity.
Qed.
Print Assumptions C27_back_partial.

Theorem C27_round_trip_partial :
  forall args offs line l u s,
    Forall proper l -> short l -> on_line offs line = entries line 0 l -> seen l u s ->
    Forall (fun a => range_contains_pos (fst a) (Pos line u) = false) (on_line args line) ->
    let p := snd (u_pos_to_s_pos args offs (Pos line u)) in
    s_range_to_u_range offs (Rng p p) = Rng (Pos line u) (Pos line u).
Proof.
  intros args offs line l u s F S E P A. rewrite (C27_forward args offs line l u s F S E (seen_place _ _ _ P) A).
  apply (C27_back_partial offs line l u s u s F S E P P).
Qed.
Print Assumptions C27_round_trip_partial.

Lemma no_edit b : Forall proper b -> edit_end b = 0 -> text_end b = 0.
Proof.
  induction 1 as [|p b P F IH]; intros E; [reflexivity|]. pose proof (ends_nonneg b F). rewrite edit_end_cons in E. rewrite text_end_cons.
  destruct p; cbn in *; lia.
Qed.
Lemma place_mono l : forall u1 s1 u2 s2, Forall proper l -> same_place l u1 s1 -> same_place l u2 s2 -> u1 <= u2 -> s1 <= s2.
Proof.
  induction l as [|p l IH]; intros u1 s1 u2 s2 F P1 P2 L.
  - destruct P1 as ([|] & ? & ? & ? & ? & _); discriminate.
  - inversion F as [|? ? P F']; subst.
    assert (X : forall u s, same_place (p :: l) u s -> (exists n, p = Code n /\ u = s /\ 0 <= u <= n) \/ same_place l (u - edit_width p) (s - text_width p)).
    { intros u s ([|q b] & n & a & i & E & I & U & S); cbn [app] in E; injection E as -> ->.
      - left. exists n. cbn in U, S. repeat split; lia.
      - right. exists b, n, a, i. rewrite edit_end_cons in U. rewrite text_end_cons in S. repeat split; try lia. }
    assert (Y : forall u s, same_place l u s -> 0 <= u /\ 0 <= s).
    { intros u s (b & n & a & i & -> & I & -> & ->). apply Forall_app in F' as [F1 _]. pose proof (ends_nonneg _ F1). lia. }
    destruct (X _ _ P1) as [(n & -> & -> & R1)|Q1], (X _ _ P2) as [(n2 & E2 & -> & R2)|Q2].
    + exact L.
    + specialize (Y _ _ Q2). cbn [edit_width text_width] in *. lia.
    + subst p. pose proof (Y _ _ Q1). cbn [edit_width text_width] in *.
      assert (u1 = s2) by lia. subst u1.
      destruct Q1 as (b & m & a & i & -> & I & U & S). apply Forall_app in F' as [F1 _].
      assert (Z0 : edit_end b = 0) by (pose proof (ends_nonneg _ F1); lia).
      pose proof (no_edit b F1 Z0). lia.
    + specialize (IH _ _ _ _ F' Q1 Q2). lia.
Qed.

(** Places of the code keep their order. *)
Theorem C27_monotone_partial :
  forall args offs line l u1 s1 u2 s2,
    Forall proper l -> short l -> on_line offs line = entries line 0 l -> same_place l u1 s1 -> same_place l u2 s2 ->
    Forall (fun a => range_contains_pos (fst a) (Pos line u1) = false /\ range_contains_pos (fst a) (Pos line u2) = false) (on_line args line) ->
    u1 <= u2 ->
    pcol (snd (u_pos_to_s_pos args offs (Pos line u1))) <= pcol (snd (u_pos_to_s_pos args offs (Pos line u2))).
Proof.
  intros args offs line l u1 s1 u2 s2 F S E P1 P2 A L.
  rewrite (C27_forward args offs line l u1 s1 F S E P1), (C27_forward args offs line l u2 s2 F S E P2).
  - cbn. eapply place_mono; eauto.
  - eapply Forall_impl; [|exact A]. intros a [X Y]. assumption.
  - eapply Forall_impl; [|exact A]. intros a [X Y]. assumption.
Qed.
Print Assumptions C27_monotone_partial.

(** The columns shown when hovering a use are those of its expansion. *)
Lemma fold_move line l : forall c x, Forall proper l -> edit_end l < 2 ^ 31 -> 0 <= x < 2 ^ 31 -> text_end l + x < 2 ^ 32 -> edit_end l <= x ->
  fold_left (fun c o => add_signed c (change o)) (entries line c l) x = x + text_end l - edit_end l.
Proof.
  intros c x F E X T L. assert (G : forall l c x, Forall proper l -> edit_end l < 2 ^ 31 -> edit_end l <= x -> text_end l + x < 2 ^ 32 ->
    fold_left (fun c o => add_signed c (change o)) (entries line c l) x = x + text_end l - edit_end l).
  { clear. induction l as [|p l IH]; intros c x F E L T; [cbn; lia|]. inversion F as [|? ? P F']; subst. pose proof (ends_nonneg l F').
    rewrite edit_end_cons in *. rewrite text_end_cons in *. destruct p as [n|n a w [i f]]; cbn [entries fold_left edit_width text_width proper] in *.
    - rewrite IH; [lia|exact F'|lia|lia|lia].
    - replace (add_signed x _) with (x + w - n - a) by (unfold add_signed, change, sub_unsigned, i32_min, u32_max; cbn [o_diff o_args_diff]; lia).
      rewrite IH; [lia|exact F'|lia|lia|lia]. }
  apply G; auto.
Qed.

Theorem C27_hover_shows_expansion :
  forall offs line l before name args width info after,
    Forall proper l -> short l -> l = before ++ Use name args width info :: after ->
    on_line offs line = entries line 0 l ->
    hover_slice offs line (Offset (Rng (Pos line (edit_end before)) (Pos line (edit_end before + name))) (width - name) args (fst info) (snd info)) =
      (text_end before, text_end before + width).
Proof.
  intros offs line l before name args width [i f] after F [S1 S2] -> E. unfold hover_slice. rewrite E, entries_app, filter_app.
  cbn [o_range rstart rend pcol o_diff fst snd].
  apply Forall_app in F as [F1 F2]. inversion F2 as [|? ? F3 F4]; subst. cbn [proper] in F3.
  pose proof (ends_nonneg _ F1). pose proof (ends_nonneg _ F4).
  rewrite edit_end_app, edit_end_cons in S1. rewrite text_end_app, text_end_cons in S2. cbn [edit_width text_width] in *.
  rewrite filter_all, filter_no, app_nil_r.
  - rewrite !fold_move; try lia; try exact F1. unfold add_signed, u32_max. f_equal; lia.
  - change (0 + edit_end before) with (edit_end before). cbn [entries]. constructor; [cbn; apply Z.ltb_ge; lia|].
    eapply Forall_impl; [|apply entries_before; exact F4]. cbn. intros o O. apply Z.ltb_ge. lia.
  - eapply Forall_impl; [|apply entries_before; exact F1]. cbn. intros o O. apply Z.ltb_lt. lia.
Qed.
Print Assumptions C27_hover_shows_expansion.
