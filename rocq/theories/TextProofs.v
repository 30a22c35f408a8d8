From Coq Require Import List NArith Lia Bool.
From Verif Require Import TextModel TextSpec.
Import ListNotations.
Local Open Scope N_scope.

Lemma len8_pos c : 1 <= len8 c <= 4.
Proof. unfold len8. destruct (c <? 128); [lia|]. destruct (c <? 2048); [lia|]. destruct (c <? 65536); lia. Qed.
Lemma len16_bytes c : len16 c = if len8 c =? 4 then 2 else 1.
Proof.
  unfold len16, len8.
  destruct (N.ltb_spec c 128), (N.ltb_spec c 2048), (N.ltb_spec c 65536); try lia; reflexivity.
Qed.
Lemma ascii_len8 c : (c <? 128) = true -> len8 c = 1.
Proof. unfold len8. intros ->. reflexivity. Qed.
Lemma ascii_unit enc c : (c <? 128) = true -> unit enc c = 1.
Proof.
  intros H. destruct enc as [|[]]; simpl; [apply ascii_len8; exact H| |reflexivity].
  rewrite len16_bytes, ascii_len8 by exact H. reflexivity.
Qed.
Lemma unit_pos enc c : 1 <= unit enc c <= len8 c.
Proof.
  pose proof (len8_pos c). destruct enc as [|[]]; simpl; try lia.
  rewrite len16_bytes. destruct (N.eqb_spec (len8 c) 4); lia.
Qed.

Lemma width_app enc a b : width enc (a ++ b) = width enc a + width enc b.
Proof. induction a as [|c a IH]; simpl; [reflexivity|]. rewrite IH. lia. Qed.

(** ** The index *)
Definition nls (t : list char) : nat := count_occ N.eq_dec t newline.
Lemma nls_app a b : nls (a ++ b) = (nls a + nls b)%nat.
Proof. unfold nls. apply count_occ_app. Qed.
Lemma nls_zero t : ~ In newline t -> nls t = 0%nat.
Proof. intros H. unfold nls. apply count_occ_not_In. exact H. Qed.

Lemma newlines_app a b off :
  build_newlines off (a ++ b) = build_newlines off a ++ build_newlines (off + bytes a) b.
Proof.
  revert off. induction a as [|c a IH]; intros off; simpl.
  - f_equal. unfold bytes. simpl. lia.
  - rewrite IH. unfold bytes. simpl. rewrite N.add_assoc. destruct (c =? 10); reflexivity.
Qed.
Lemma newlines_length off t : List.length (build_newlines off t) = nls t.
Proof.
  revert off. induction t as [|c t IH]; intros off; simpl; [reflexivity|].
  unfold nls, newline in *. simpl.
  destruct (N.eqb_spec c 10) as [->|H].
  - simpl. destruct (N.eq_dec 10 10); [|congruence]. rewrite IH. reflexivity.
  - destruct (N.eq_dec c 10); [congruence|]. apply IH.
Qed.

Lemma wide_app a b col cur :
  exists pre last col',
    List.length pre = nls a /\
    build_wide col cur a = pre ++ [last] /\
    build_wide col cur (a ++ b) = pre ++ build_wide col' last b.
Proof.
  revert col cur. induction a as [|c a IH]; intros col cur; simpl.
  - exists [], cur, col. repeat split.
  - unfold nls, newline in *. simpl. destruct (N.eqb_spec c 10) as [->|H].
    + destruct (IH 0 []) as (pre & last & col' & A & B & C).
      exists (cur :: pre), last, col'. destruct (N.eq_dec 10 10); [|congruence].
      simpl. rewrite A, B, C. repeat split.
    + destruct (N.eq_dec c 10); [congruence|]. destruct (c <? 128); apply IH.
Qed.

(** what the index says about the lines before the last line break of [p] only depends on [p] *)
Lemma start_offset_prefix p x l : (N.to_nat l <= nls p)%nat ->
  start_offset (build (p ++ x)) l = start_offset (build p) l.
Proof.
  intros H. unfold start_offset. destruct (N.eqb_spec l 0) as [|Hl]; [reflexivity|].
  simpl. rewrite newlines_app. rewrite nth_error_app1; [reflexivity|].
  rewrite newlines_length. lia.
Qed.
Lemma wide_prefix p x l : (N.to_nat l < nls p)%nat ->
  nth (N.to_nat l) (wide_chars (build (p ++ x))) [] = nth (N.to_nat l) (wide_chars (build p)) [].
Proof.
  intros H. simpl. destruct (wide_app p x 0 []) as (pre & last & col & A & B & C).
  rewrite B, C. rewrite !app_nth1 by lia. reflexivity.
Qed.

(** ** The conversion of a column *)
(** wide chars of the rest of a line, from column [col] *)
Fixpoint line_wide (col : N) (t : list char) : list wide_char :=
  match t with
  | [] => []
  | c :: tl =>
      if c =? 10 then []
      else if c <? 128 then line_wide (col + 1) tl
      else WChar col (col + len8 c) :: line_wide (col + len8 c) tl
  end.

Lemma build_wide_head col cur t : exists rest, build_wide col cur t = (cur ++ line_wide col t) :: rest.
Proof.
  revert col cur. induction t as [|c t IH]; intros col cur; simpl.
  - exists []. rewrite app_nil_r. reflexivity.
  - destruct (c =? 10); [exists (build_wide 0 [] t); rewrite app_nil_r; reflexivity|].
    destruct (c <? 128); [apply IH|].
    destruct (IH (col + len8 c) (cur ++ [WChar col (col + len8 c)])) as (rest & E).
    exists rest. rewrite E, <- app_assoc. reflexivity.
Qed.

Lemma to_utf8_stop w col k t : col <= k -> to_utf8 w col (line_wide k t) = col.
Proof.
  revert k. induction t as [|c t IH]; intros k H; simpl; [reflexivity|].
  destruct (c =? 10); [reflexivity|]. destruct (c <? 128); [apply IH; lia|].
  simpl. destruct (N.ltb_spec k col); [lia|reflexivity].
Qed.

Lemma to_utf8_line w a b k : ~ In newline a ->
  to_utf8 w (k + width (Wide w) a) (line_wide k (a ++ b)) = k + bytes a.
Proof.
  revert k. induction a as [|c a IH]; intros k Hn.
  - simpl app. unfold bytes. simpl. rewrite N.add_0_r. apply to_utf8_stop. lia.
  - simpl app. simpl line_wide.
    assert (Hc : (c =? 10) = false) by (apply N.eqb_neq; intros ->; apply Hn; left; reflexivity).
    assert (Hn' : ~ In newline a) by (intros H; apply Hn; right; exact H).
    rewrite Hc. destruct (c <? 128) eqn:Ea.
    + unfold bytes in *. cbn [width fold_right]. fold (width (Wide w) a) (width Utf8 a).
      rewrite (ascii_unit (Wide w) c Ea), (ascii_unit Utf8 c Ea), !N.add_assoc.
      apply IH. exact Hn'.
    + unfold bytes in *. cbn [width fold_right]. fold (width (Wide w) a) (width Utf8 a).
      cbn [to_utf8 w_start].
      pose proof (unit_pos (Wide w) c) as Hu.
      destruct (N.ltb_spec k (k + (unit (Wide w) c + width (Wide w) a))); [|lia].
      assert (Hw : wc_wide_len w (WChar k (k + len8 c)) = unit (Wide w) c).
      { unfold wc_wide_len, wc_len. simpl. replace (k + len8 c - k) with (len8 c) by lia.
        destruct w; [rewrite len16_bytes; reflexivity|reflexivity]. }
      rewrite Hw. unfold wc_len. simpl w_end. simpl w_start.
      replace (k + (unit (Wide w) c + width (Wide w) a) + (k + len8 c - k) - unit (Wide w) c)
        with (k + len8 c + width (Wide w) a) by lia.
      rewrite IH by exact Hn'. simpl unit. lia.
Qed.

(** ** Positions *)
Lemma nls_lines_end a : (a = [] \/ exists a', a = a' ++ [newline]) ->
  start_offset (build a) (N.of_nat (nls a)) = Some (bytes a).
Proof.
  intros [->|(a' & ->)]; [reflexivity|].
  unfold start_offset. rewrite nls_app. change (nls [newline]) with 1%nat.
  destruct (N.eqb_spec (N.of_nat (nls a' + 1)) 0); [lia|].
  cbn [newlines build]. rewrite newlines_app. rewrite nth_error_app2 by (rewrite newlines_length; lia).
  rewrite newlines_length. replace (N.to_nat (N.of_nat (nls a' + 1) - 1) - nls a')%nat with 0%nat by lia.
  simpl. unfold bytes. rewrite width_app. simpl. f_equal. 
Qed.

Lemma wide_after a t : forall col cur, exists pre,
  List.length pre = S (nls a) /\ build_wide col cur (a ++ newline :: t) = pre ++ build_wide 0 [] t.
Proof.
  induction a as [|c a IH]; intros col cur.
  - exists [cur]. split; reflexivity.
  - simpl app. simpl build_wide. unfold nls, newline in *. simpl.
    destruct (N.eqb_spec c 10) as [->|H].
    + destruct (IH 0 []) as (pre & A & B). exists (cur :: pre).
      destruct (N.eq_dec 10 10); [|congruence]. simpl. rewrite A, B. split; reflexivity.
    + destruct (N.eq_dec c 10); [congruence|]. destruct (c <? 128); apply IH.
Qed.

Lemma wide_line a : (a = [] \/ exists a', a = a' ++ [newline]) -> forall t,
  nth (nls a) (wide_chars (build (a ++ t))) [] = line_wide 0 t.
Proof.
  intros Ha t. simpl. destruct (build_wide_head 0 [] t) as (rest & E). simpl in E.
  destruct Ha as [->|(a' & ->)]; [simpl; rewrite E; reflexivity|].
  rewrite <- app_assoc. simpl app. destruct (wide_after a' t 0 []) as (pre & A & ->).
  rewrite nls_app. change (nls [newline]) with 1%nat. rewrite app_nth2 by lia.
  replace (nls a' + 1 - List.length pre)%nat with 0%nat by lia. rewrite E. reflexivity.
Qed.

Lemma offset_names enc p s pos : names enc p pos -> offset enc (build (p ++ s)) pos = Some (bytes p).
Proof.
  intros (Hl & a & b & -> & Ha & Hb & Hc). unfold offset. fold (nls (a ++ b)) in Hl.
  rewrite Hl, nls_app, (nls_zero b Hb), PeanoNat.Nat.add_0_r, Nnat.Nat2N.id.
  rewrite <- app_assoc.
  rewrite start_offset_prefix by lia. rewrite nls_lines_end by exact Ha.
  cbn [option_map]. f_equal. unfold bytes. rewrite width_app. f_equal.
  rewrite Hc. destruct enc as [|w]; [reflexivity|].
  rewrite wide_line by exact Ha. apply (to_utf8_line w b s 0 Hb).
Qed.

(** ** Editing *)
Lemma split_bytes_app p s : split_bytes (bytes p) (p ++ s) = Some (p, s).
Proof.
  induction p as [|c p IH]; [destruct s; reflexivity|].
  unfold bytes in *. cbn [width fold_right app split_bytes]. fold (width Utf8 p). simpl unit.
  pose proof (len8_pos c).
  destruct (N.eqb_spec (len8 c + width Utf8 p) 0); [lia|].
  destruct (N.ltb_spec (len8 c + width Utf8 p) (len8 c)); [lia|].
  replace (len8 c + width Utf8 p - len8 c) with (width Utf8 p) by lia. rewrite IH. reflexivity.
Qed.

Lemma replace_app p m s new :
  replace_range (bytes p) (bytes (p ++ m)) new (p ++ m ++ s) = Some (p ++ new ++ s).
Proof.
  unfold replace_range. rewrite split_bytes_app. rewrite app_assoc, split_bytes_app. reflexivity.
Qed.

(** the index may be used for the lines before [v] *)
Definition agrees (ix : line_index) (t : list char) (v : N) : Prop :=
  forall l, l < v ->
    start_offset ix l = start_offset (build t) l /\
    nth (N.to_nat l) (wide_chars ix) [] = nth (N.to_nat l) (wide_chars (build t)) [].

Lemma agrees_refl t v : agrees (build t) t v.
Proof. intros l _. split; reflexivity. Qed.

Lemma agrees_offset enc ix t v pos : agrees ix t v -> line pos < v ->
  offset enc ix pos = offset enc (build t) pos.
Proof.
  intros H Hl. destruct (H _ Hl) as (A & B). unfold offset. rewrite A. destruct enc; [reflexivity|].
  rewrite B. reflexivity.
Qed.

Lemma agrees_edit ix p x y v : agrees ix (p ++ x) v -> N.of_nat (nls p) <= v ->
  agrees ix (p ++ y) (N.of_nat (nls p)).
Proof.
  intros H Hv l Hl. destruct (H l) as (A & B); [lia|]. rewrite A, B.
  rewrite !(start_offset_prefix p) by lia. rewrite !(wide_prefix p) by lia. split; reflexivity.
Qed.

Lemma names_line_mono enc p m a b : names enc p a -> names enc (p ++ m) b -> line a <= line b.
Proof.
  intros (Ha & _) (Hb & _). rewrite Ha, Hb. fold (nls p) (nls (p ++ m)). rewrite nls_app. lia.
Qed.

Lemma apply_loop_ranged enc cs : forall ix v t t',
  agrees ix t v -> client enc t cs t' -> Forall (fun c => is_full c = false) cs ->
  apply_loop enc ix v t cs = Some t'.
Proof.
  induction cs as [|c cs IH]; intros ix v t t' Hag Hcl Hr.
  - inversion Hcl; subst. reflexivity.
  - inversion Hcl as [|? ? t1 ? ? Hc Hcs]; subst. inversion Hr as [|? ? Hc' Hr']; subst.
    destruct Hc as [t new|p m s r new Hs He]; [discriminate Hc'|].
    simpl apply_loop.
    set (ix' := if v <=? line (r_end r) then build (p ++ m ++ s) else ix).
    pose proof (names_line_mono enc p m _ _ Hs He) as Hle.
    assert (Hag' : exists v', agrees ix' (p ++ m ++ s) v' /\ line (r_end r) < v').
    { subst ix'. destruct (N.leb_spec v (line (r_end r))).
      - exists (line (r_end r) + 1). split; [apply agrees_refl|lia].
      - exists v. split; [exact Hag|lia]. }
    destruct Hag' as (v' & Hag' & Hv').
    assert (Hrange : text_range enc ix' r = Some (bytes p, bytes (p ++ m))).
    { unfold text_range. rewrite !(agrees_offset enc ix' (p ++ m ++ s) v') by (assumption || lia).
      rewrite (offset_names enc p (m ++ s) _ Hs).
      rewrite (app_assoc p m s), (offset_names enc (p ++ m) s _ He).
      unfold bytes. rewrite width_app.
      destruct (N.ltb_spec (width Utf8 p + width Utf8 m) (width Utf8 p)); [lia|reflexivity]. }
    rewrite Hrange, replace_app. apply IH; [|exact Hcs|exact Hr'].
    destruct Hs as (Hl & _). rewrite Hl. fold (nls p). eapply agrees_edit; [exact Hag'|].
    fold (nls p) in Hl. lia.
Qed.

Lemma apply_loop_skip enc ix v t fs cs : Forall (fun c => is_full c = true) fs ->
  apply_loop enc ix v t (fs ++ cs) = apply_loop enc ix v t cs.
Proof.
  induction 1 as [|[[r|] x] fs H Hf IH]; simpl; [reflexivity|discriminate H|exact IH].
Qed.

Lemma client_app enc a b : forall t t'', client enc t (a ++ b) t'' ->
  exists t', client enc t a t' /\ client enc t' b t''.
Proof.
  induction a as [|c a IH]; intros t t'' H; simpl in H.
  - exists t. split; [constructor|exact H].
  - inversion H as [|? ? t1 ? ? Hc Hcs]; subst. destruct (IH _ _ Hcs) as (t2 & A & B).
    exists t2. split; [econstructor; eauto|exact B].
Qed.

(** the list is: whole-document changes, then ranged ones *)
Definition tidy (cs : list change) : Prop :=
  forall cs1 f cs2, cs = cs1 ++ f :: cs2 -> is_full f = true -> Forall (fun c => is_full c = true) cs1.

Lemma tidy_split cs : tidy cs -> exists fs rs, cs = fs ++ rs /\
  Forall (fun c => is_full c = true) fs /\ Forall (fun c => is_full c = false) rs.
Proof.
  induction cs as [|c cs IH]; intros H.
  - exists [], []. repeat split; constructor.
  - destruct IH as (fs & rs & E & Hf & Hr).
    { intros cs1 f cs2 -> Hfull. specialize (H (c :: cs1) f cs2 eq_refl Hfull). inversion H; assumption. }
    destruct (is_full c) eqn:Ec.
    + exists (c :: fs), rs. subst. repeat split; [constructor; assumption|assumption].
    + destruct fs as [|f fs].
      * exists [], (c :: rs). subst. repeat split; [constructor|constructor; assumption].
      * exfalso. subst cs. inversion Hf; subst.
        specialize (H [c] f (fs ++ rs) eq_refl H2). inversion H; congruence.
Qed.

Lemma position_of_app {A} (f : A -> bool) a x b : Forall (fun c => f c = false) a -> f x = true ->
  position_of f (a ++ x :: b) = Some (List.length a).
Proof.
  intros Ha Hx. induction Ha as [|y a Hy _ IH]; simpl; [rewrite Hx; reflexivity|].
  rewrite Hy, IH. reflexivity.
Qed.
Lemma position_of_none {A} (f : A -> bool) a : Forall (fun c => f c = false) a -> position_of f a = None.
Proof. induction 1 as [|y a Hy _ IH]; simpl; [reflexivity|]. rewrite Hy, IH. reflexivity. Qed.

Lemma last_full_tidy fs f rs : Forall (fun c => is_full c = false) rs -> is_full f = true ->
  last_full (fs ++ f :: rs) = List.length fs.
Proof.
  intros Hr Hf. unfold last_full. rewrite rev_app_distr. simpl. rewrite <- app_assoc. simpl.
  rewrite (position_of_app is_full (rev rs) f (rev fs)); [|apply Forall_rev; exact Hr|exact Hf].
  rewrite app_length, rev_length. simpl. lia.
Qed.

Theorem apply_tidy enc t cs t' : client enc t cs t' -> tidy cs ->
  apply_document_changes enc t cs = Some t'.
Proof.
  intros Hcl Ht. destruct (tidy_split cs Ht) as (fs & rs & -> & Hf & Hr). unfold apply_document_changes.
  destruct (client_app _ _ _ _ _ Hcl) as (t1 & H1 & H2).
  destruct fs as [|f0 fs0] using rev_ind.
  - simpl app in *. inversion H1; subst t1.
    assert (E : last_full rs = 0%nat)
      by (unfold last_full; rewrite position_of_none; [reflexivity|apply Forall_rev; exact Hr]).
    rewrite E. destruct rs as [|c rs]; cbn [nth_error].
    + inversion H2; subst. reflexivity.
    + inversion Hr as [|? ? Hc _]; subst. destruct c as [[r|] x]; [|discriminate Hc]. cbn [c_range].
      apply apply_loop_ranged; [apply agrees_refl|exact H2|exact Hr].
  - clear IHfs0. apply Forall_app in Hf. destruct Hf as (Hf0 & Hf). inversion Hf as [|? ? Hlast _]; subst.
    rewrite <- app_assoc. cbn [app].
    rewrite last_full_tidy by assumption.
    rewrite nth_error_app2, PeanoNat.Nat.sub_diag by lia. cbn [nth_error].
    destruct f0 as [[r|] x]; [discriminate Hlast|]. cbn [c_range c_text].
    destruct (client_app _ _ _ _ _ H1) as (t2 & _ & H3). inversion H3; subst.
    match goal with H : client_change _ _ _ _ |- _ => inversion H; subst end.
    match goal with H : client _ _ [] _ |- _ => inversion H; subst end.
    destruct (PeanoNat.Nat.eqb_spec (S (List.length fs0)) (List.length (fs0 ++ Change None t1 :: rs))) as [E|E].
    + rewrite app_length in E. simpl in E. destruct rs; [|simpl in E; lia]. inversion H2; subst. reflexivity.
    + change (Change None t1 :: rs) with ([Change None t1] ++ rs). rewrite app_assoc.
      rewrite apply_loop_skip by (apply Forall_app; split; [assumption|repeat constructor]).
      apply apply_loop_ranged; [apply agrees_refl|exact H2|exact Hr].
Qed.

(** ** Order of positions *)
Definition pos_lt (a b : position) : Prop :=
  line a < line b \/ line a = line b /\ character a < character b.

Lemma names_unique enc p x y : names enc p x -> names enc p y -> x = y.
Proof.
  intros (L1 & a & b & -> & Ha & Hb & C1) (L2 & a' & b' & E & Ha' & Hb' & C2).
  assert (b = b').
  { clear - E Ha Hb Ha' Hb'.
    assert (Hn : forall u v u' v' : list char, u ++ v = u' ++ v' -> ~ In newline v ->
      (u' = [] \/ exists w, u' = w ++ [newline]) -> (List.length v <= List.length v')%nat).
    { clear. intros u v u' v' E Hv [->|(w & ->)].
      - simpl in E. rewrite <- E, app_length. lia.
      - destruct (Compare_dec.le_lt_dec (List.length v) (List.length v')) as [|Hlt]; [assumption|].
        exfalso. apply Hv.
        assert (E2 : skipn (List.length u) (u ++ v) = v) by (rewrite skipn_app, skipn_all, PeanoNat.Nat.sub_diag; reflexivity).
        rewrite E in E2. rewrite <- E2.
        assert (Hlen : (List.length u + List.length v = List.length w + 1 + List.length v')%nat).
        { rewrite <- app_length, E, !app_length. simpl. lia. }
        rewrite skipn_app. apply in_or_app. left. rewrite skipn_app. apply in_or_app. right.
        replace (List.length u - List.length w)%nat with 0%nat by lia. left. reflexivity. }
    pose proof (Hn _ _ _ _ E Hb Ha'). pose proof (Hn _ _ _ _ (eq_sym E) Hb' Ha).
    assert (Hl : List.length a = List.length a').
    { apply (f_equal (@List.length _)) in E. rewrite !app_length in E. lia. }
    clear - E Hl. revert a' E Hl. induction a as [|c a IH]; intros [|c' a'] E Hl; try discriminate Hl; [exact E|].
    injection E as _ E. apply (IH a'); [exact E|]. injection Hl. auto. }
  subst b'. destruct x, y. simpl in *. congruence.
Qed.

Lemma names_exists enc p : exists pos, names enc p pos.
Proof.
  assert (H : exists a b, p = a ++ b /\ (a = [] \/ exists a', a = a' ++ [newline]) /\ ~ In newline b).
  { induction p as [|c p IH] using rev_ind.
    - exists [], []. repeat split; [left; reflexivity|intros []].
    - destruct (N.eq_dec c newline) as [->|Hc].
      + exists (p ++ [newline]), []. rewrite app_nil_r. repeat split; [right; eauto|intros []].
      + destruct IH as (a & b & -> & Ha & Hb). exists a, (b ++ [c]). rewrite app_assoc.
        repeat split; [exact Ha|]. intros Hin. apply in_app_or in Hin. destruct Hin as [Hin|[->|[]]]; congruence. }
  destruct H as (a & b & -> & Ha & Hb).
  exists (Position (N.of_nat (count_occ N.eq_dec (a ++ b) newline)) (width enc b)).
  split; [reflexivity|]. exists a, b. repeat split; assumption.
Qed.

Lemma names_mono enc p m x y : m <> [] -> names enc p x -> names enc (p ++ m) y -> pos_lt x y.
Proof.
  intros Hm Hx Hy. destruct (In_dec N.eq_dec newline m) as [Hin|Hout].
  - left. destruct Hx as (Lx & _), Hy as (Ly & _). rewrite Lx, Ly. fold (nls p) (nls (p ++ m)). rewrite nls_app.
    apply (count_occ_In N.eq_dec) in Hin. fold (nls m) in Hin. lia.
  - destruct Hx as (Lx & a & b & -> & Ha & Hb & Cx).
    assert (Hy' : names enc ((a ++ b) ++ m) (Position (line x) (width enc (b ++ m)))).
    { split; simpl.
      - rewrite Lx. fold (nls (a ++ b)) (nls ((a ++ b) ++ m)). rewrite (nls_app (a ++ b) m).
        rewrite (nls_zero m Hout). f_equal. lia.
      - exists a, (b ++ m). rewrite app_assoc. repeat split; [exact Ha|].
        intros H. apply in_app_or in H. tauto. }
    rewrite (names_unique _ _ _ _ Hy Hy'). right. simpl. split; [reflexivity|].
    rewrite Cx, width_app. destruct m as [|c m]; [congruence|]. simpl.
    pose proof (unit_pos enc c). lia.
Qed.
