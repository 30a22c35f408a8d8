(** Lemmas about the paths of the virtual file system. *)
From Coq Require Import List Ascii String Bool Arith Lia.
From Verif Require Import PathsModel PathsSpec PathsProps VfsPathModel VfsPathSpec.
Import ListNotations.
Local Open Scope list_scope.

Fixpoint vrender (l : spot) : path := match l with [] => [] | x :: l => slash :: x ++ vrender l end.

Lemma vrender_cons : forall x l, vrender (x :: l) = render (x :: l).
Proof.
  intros x l. revert x. induction l as [|y l IH]; intros x.
  - cbn. rewrite app_nil_r. reflexivity.
  - change (vrender (x :: y :: l)) with (slash :: x ++ vrender (y :: l)). rewrite IH. reflexivity.
Qed.
Lemma vrender_app : forall a b, vrender (a ++ b) = vrender a ++ vrender b.
Proof. induction a as [|x a IH]; intros b; cbn; [reflexivity|]. rewrite IH, app_assoc. reflexivity. Qed.

Lemma shows_iff : forall v l, shows v l <-> Forall proper_name l /\ (v = Real (render l) \/ v = Virtual (vrender l)).
Proof.
  intros v l. split.
  - intros [|l' p F W| |l' p F W].
    + split; [constructor|left; reflexivity].
    + split; [exact F|]. left. unfold render. rewrite <- (written_join _ _ W). reflexivity.
    + split; [constructor|right; reflexivity].
    + split; [exact F|]. right. destruct l' as [|x l']; [inversion W|]. rewrite vrender_cons. unfold render. rewrite <- (written_join _ _ W). reflexivity.
  - intros (F & [-> | ->]).
    + destruct l as [|x l]; [apply shows_root_real|]. apply shows_real; [exact F|]. apply join_written; [discriminate|apply proper_free; exact F].
    + destruct l as [|x l]; [apply shows_root_virtual|]. rewrite vrender_cons. apply shows_virtual; [exact F|]. apply join_written; [discriminate|apply proper_free; exact F].
Qed.

Lemma proper_not_up : forall x, proper_name x -> path_eqb x [dot; dot] = false.
Proof. intros x (_ & _ & H & _). destruct (path_eqb_spec x [dot; dot]); [contradiction|reflexivity]. Qed.
Lemma body_proper : forall l, Forall proper_name l -> body l = map Normal l.
Proof.
  induction 1 as [|x l H F IH]; [reflexivity|]. cbn [body map]. rewrite (proper_nontrivial x H), (proper_not_up x H), IH. reflexivity.
Qed.
Lemma components_render : forall l, Forall proper_name l -> components (render l) = RootDir :: map Normal l.
Proof.
  intros l F. unfold components, render. change (Ascii.eqb slash slash) with true. cbv iota. f_equal.
  rewrite body_split_join by (apply proper_free; exact F). apply body_proper. exact F.
Qed.

Lemma keep_walk : forall ps l, Forall slash_free ps -> Forall proper_name l -> walk True l ps (fold_left keep ps l).
Proof.
  induction ps as [|p ps IH]; intros l F P; [constructor|]. inversion F as [|? ? Fp Fps]; subst. cbn [fold_left].
  specialize (IH (keep l p) Fps (keep_proper l p P Fp)). revert IH. generalize (fold_left keep ps (keep l p)). intros m IH.
  unfold keep, trivial in IH. destruct (path_eqb_spec p []) as [->|N1]; [apply walk_empty; exact IH|].
  destruct (path_eqb_spec p [dot]) as [->|N2]; [apply walk_here; exact IH|]. cbn [orb] in IH.
  destruct (path_eqb_spec p [dot; dot]) as [->|N3].
  - destruct l as [|x l _] using rev_ind; [apply walk_top; [exact I|exact IH]|]. rewrite removelast_last in IH. apply walk_up. exact IH.
  - apply walk_name; [repeat split; assumption|exact IH].
Qed.
Lemma keep_names : forall l k, Forall proper_name l -> fold_left keep l k = k ++ l.
Proof.
  induction l as [|x l IH]; intros k F; [rewrite app_nil_r; reflexivity|]. inversion F; subst. cbn [fold_left].
  unfold keep at 2. rewrite proper_nontrivial, proper_not_up by assumption. rewrite IH by assumption. rewrite <- app_assoc. reflexivity.
Qed.
Lemma walk_proper : forall st l ps m, walk st l ps m -> Forall proper_name l -> Forall proper_name m.
Proof.
  induction 1; intros F; auto.
  - apply IHwalk. apply Forall_app in F. tauto.
  - apply IHwalk. apply Forall_app. auto.
Qed.
Lemma proper_cases : proper_name [] -> False.
Proof. intros (H & _). apply H. reflexivity. Qed.
Lemma walk_fun : forall st l ps m, walk st l ps m -> forall m', walk st l ps m' -> m = m'.
Proof.
  induction 1 as [l|l ps m W IH|l ps m W IH|l x ps m W IH|ps m S W IH|l x ps m P W IH]; intros m' W'.
  - inversion W'; reflexivity.
  - inversion W' as [|? ? ? W2| | | |? ? ? ? P2 W2]; subst; [apply IH; exact W2|destruct (proper_cases P2)].
  - inversion W' as [| |? ? ? W2| | |? ? ? ? P2 W2]; subst; [apply IH; exact W2|destruct P2 as (_ & P2 & _); exfalso; apply P2; reflexivity].
  - inversion W' as [| | |? ? ? ? W2 E|? ? S2 W2 E|? ? ? ? P2 W2].
    + apply app_inj_tail in E. destruct E as (-> & ->). apply IH. assumption.
    + destruct l; discriminate.
    + subst. destruct P2 as (_ & _ & P2 & _). exfalso; apply P2; reflexivity.
  - inversion W' as [| | |? ? ? ? W2 E|? ? S2 W2 E|? ? ? ? P2 W2].
    + destruct l; discriminate.
    + subst. apply IH. assumption.
    + subst. destruct P2 as (_ & _ & P2 & _). exfalso; apply P2; reflexivity.
  - inversion W' as [|? ? ? W2|? ? ? W2|? ? ? ? W2 E|? ? S2 W2 E|? ? ? ? P2 W2]; subst.
    + destruct (proper_cases P).
    + destruct P as (_ & P & _). exfalso; apply P; reflexivity.
    + destruct P as (_ & _ & P & _). exfalso; apply P; reflexivity.
    + destruct P as (_ & _ & P & _). exfalso; apply P; reflexivity.
    + apply IH. exact W2.
Qed.

Lemma last_occ : forall (c : ascii) s, In c s -> exists a b, s = a ++ c :: b /\ ~ In c b.
Proof.
  induction s as [|x s IH]; intros I; [destruct I|]. destruct (in_dec ascii_dec c s) as [J|J].
  - destruct (IH J) as (a & b & -> & N). exists (x :: a), b. split; [reflexivity|exact N].
  - destruct I as [->|I]; [|contradiction]. exists [], s. split; [reflexivity|exact J].
Qed.
Lemma rsplit_some : forall c s a b, rsplit c s = Some (a, b) <-> s = a ++ c :: b /\ ~ In c b.
Proof.
  induction s as [|x s IH]; intros a b; cbn [rsplit].
  - split; [discriminate|]. intros (E & _). destruct a; discriminate.
  - destruct (rsplit c s) as [[a' b']|] eqn:R.
    + split.
      * intros E. inversion E; subst. destruct (proj1 (IH a' b) eq_refl) as (-> & N). split; [reflexivity|exact N].
      * intros (E & N). destruct a as [|y a].
        -- cbn in E. inversion E; subst. exfalso. apply N. destruct (proj1 (IH a' b') eq_refl) as (-> & _). apply in_or_app. right. left. reflexivity.
        -- cbn in E. inversion E; subst. pose proof (proj2 (IH a b) (conj eq_refl N)) as Q. inversion Q; subst. reflexivity.
    + destruct (Ascii.eqb_spec x c) as [->|D].
      * split.
        -- intros E. inversion E; subst. split; [reflexivity|]. intros I. destruct (last_occ _ _ I) as (a2 & b2 & E2 & N2).
           pose proof (proj2 (IH a2 b2) (conj E2 N2)) as Q. discriminate.
        -- intros (E & N). destruct a as [|y a]; cbn in E; inversion E; subst; [reflexivity|].
           pose proof (proj2 (IH a b) (conj eq_refl N)) as Q. discriminate.
      * split; [discriminate|]. intros (E & N). destruct a as [|y a]; cbn in E; inversion E; subst; [congruence|].
        pose proof (proj2 (IH a b) (conj eq_refl N)) as Q. discriminate.
Qed.
Lemma rsplit_none : forall c s, rsplit c s = None -> ~ In c s.
Proof.
  induction s as [|x s IH]; intros R; [intros []|]. cbn in R. destruct (rsplit c s) as [[a b]|]; [discriminate|].
  destruct (Ascii.eqb_spec x c) as [->|D]; [discriminate|]. intros [E|I]; [congruence|]. exact (IH eq_refl I).
Qed.
Lemma rsplit_absent : forall c s, ~ In c s -> rsplit c s = None.
Proof.
  intros c s N. destruct (rsplit c s) as [[a b]|] eqn:R; [|reflexivity]. apply rsplit_some in R. destruct R as (-> & _).
  exfalso. apply N. apply in_or_app. right. left. reflexivity.
Qed.

Lemma vrender_snoc : forall l x, vrender (l ++ [x]) = vrender l ++ slash :: x.
Proof. intros l x. rewrite vrender_app. cbn. rewrite app_nil_r. reflexivity. Qed.
Lemma rsplit_vrender : forall l x, proper_name x -> rsplit slash (vrender (l ++ [x])) = Some (vrender l, x).
Proof. intros l x P. apply rsplit_some. split; [apply vrender_snoc|apply P]. Qed.

(** What a relative path begins with. *)
Lemma trim_name : forall x xs q, proper_name x -> written (x :: xs) q -> trim_here q = q.
Proof.
  intros x xs q P W. apply written_split in W. destruct q as [|a [|b q]]; try reflexivity. cbn [trim_here].
  destruct (Ascii.eqb_spec a dot) as [->|]; [|reflexivity]. destruct (Ascii.eqb_spec b slash) as [->|]; [|reflexivity].
  exfalso. cbn in W. inversion W. subst. destruct P as (_ & P & _). apply P. reflexivity.
Qed.
Lemma join_name : forall x xs q res, x <> up_ -> written (x :: xs) q -> virtual_join res q = Some (res ++ slash :: trim_here q).
Proof.
  intros x xs q res P W. apply written_split in W. destruct q as [|a [|b [|c q]]]; try reflexivity. cbn [virtual_join].
  destruct (Ascii.eqb_spec a dot) as [->|]; [|reflexivity]. destruct (Ascii.eqb_spec b dot) as [->|]; [|reflexivity].
  destruct (Ascii.eqb_spec c slash) as [->|]; [|reflexivity].
  exfalso. cbn in W. inversion W. subst. apply P. reflexivity.
Qed.
Lemma written_cons : forall x y xs q, written (x :: y :: xs) q -> exists q', q = x ++ slash :: q' /\ written (y :: xs) q'.
Proof. intros x y xs q W. inversion W; subst. eexists. split; [reflexivity|assumption]. Qed.

Lemma names_walk : forall st xs l, Forall proper_name xs -> walk st l xs (l ++ xs).
Proof.
  induction xs as [|x xs IH]; intros l F; [rewrite app_nil_r; constructor|]. inversion F; subst.
  apply walk_name; [assumption|]. replace (l ++ x :: xs) with ((l ++ [x]) ++ xs) by (rewrite <- app_assoc; reflexivity). apply IH. assumption.
Qed.

Lemma stays_nonempty : forall ps, stays ps -> exists y ys, ps = y :: ys.
Proof. intros ps []; eauto. Qed.
Lemma plain_nonempty : forall ps, plain ps -> exists y ys, ps = y :: ys.
Proof. intros ps []; eauto. Qed.
Lemma stays_trim : forall st ps, stays ps -> forall q, written ps q ->
  exists x xs, Forall proper_name (x :: xs) /\ trim_here q = join_pieces (x :: xs) /\ forall l, walk st l ps (l ++ x :: xs).
Proof.
  intros st. induction 1 as [x xs F|ps S IH]; intros q W.
  - exists x, xs. split; [exact F|]. split.
    + inversion F; subst. rewrite (trim_name x xs q) by assumption. apply written_join. exact W.
    + intros l. apply names_walk. exact F.
  - destruct (stays_nonempty ps S) as (y & ys & ->). destruct (written_cons _ _ _ _ W) as (q' & -> & W').
    destruct (IH q' W') as (x & xs & F & T & K). exists x, xs. split; [exact F|]. split.
    + change (here ++ slash :: q') with (dot :: slash :: q'). cbn [trim_here]. change (Ascii.eqb dot dot && Ascii.eqb slash slash) with true. exact T.
    + intros l. apply walk_here. apply K.
Qed.
Lemma append_vrender : forall l x xs, vrender l ++ slash :: join_pieces (x :: xs) = vrender (l ++ x :: xs).
Proof. intros l x xs. rewrite vrender_app. f_equal. symmetry. apply vrender_cons. Qed.

Lemma virtual_join_plain : forall ps, plain ps -> forall q l, Forall proper_name l -> written ps q ->
  match virtual_join (vrender l) q with
  | Some r => exists m, walk False l ps m /\ r = vrender m
  | None => forall m, ~ walk False l ps m
  end.
Proof.
  induction 1 as [x xs F|ps S|ps P IH]; intros q l Fl W.
  - inversion F; subst. rewrite (join_name x xs q) by (try assumption; apply H1). rewrite (trim_name x xs q) by assumption.
    exists (l ++ x :: xs). split; [apply names_walk; exact F|]. rewrite (written_join _ _ W). apply append_vrender.
  - destruct (stays_trim False (here :: ps) (stays_here ps S) q W) as (x & xs & F & T & K).
    rewrite (join_name here ps q) by (try assumption; discriminate). rewrite T. exists (l ++ x :: xs). split; [apply K|]. apply append_vrender.
  - destruct (plain_nonempty ps P) as (y & ys & ->). destruct (written_cons _ _ _ _ W) as (q' & -> & W').
    change (up_ ++ slash :: q') with (dot :: dot :: slash :: q'). cbn [virtual_join].
    change (Ascii.eqb dot dot && Ascii.eqb dot dot && Ascii.eqb slash slash) with true. cbv iota.
    destruct l as [|z l _] using rev_ind.
    + change (virtual_pop (vrender [])) with (@None path). intros m K. inversion K as [| | |? ? ? ? ? E|? ? Q|? ? ? ? Q]; subst.
      * destruct l; discriminate.
      * exact Q.
      * destruct Q as (_ & _ & Q & _). apply Q. reflexivity.
    + apply Forall_app in Fl. destruct Fl as (Fl & Fz). inversion Fz; subst. unfold virtual_pop. rewrite rsplit_vrender by assumption.
      specialize (IH q' l Fl W'). destruct (virtual_join (vrender l) q') as [r|].
      * destruct IH as (m & K & E). exists m. split; [apply walk_up; exact K|exact E].
      * intros m K. inversion K as [| | |? ? ? ? Q E|? ? Q ? E|? ? ? ? Q]; subst.
        -- apply app_inj_tail in E. destruct E as (-> & ->). exact (IH m Q).
        -- exact Q.
        -- destruct Q as (_ & _ & Q & _). apply Q. reflexivity.
Qed.

Lemma render_ends : forall l, l <> [] -> Forall proper_name l -> exists c r, rev (render l) = c :: r /\ Ascii.eqb c slash = false.
Proof.
  intros l N F. destruct l as [|x l _] using rev_ind; [contradiction|]. apply Forall_app in F. destruct F as (_ & F). inversion F; subst.
  apply last_render; [apply H1|apply H1].
Qed.
Lemma real_join : forall l q, Forall proper_name l -> is_absolute q = false ->
  exists r, abs_join (render l) q = Some r /\ normalize r = render (fold_left keep (split q) l) /\ Forall proper_name (fold_left keep (split q) l).
Proof.
  intros l q F A. unfold abs_join, push. rewrite A.
  destruct l as [|x l].
  - change (rev (render [])) with [slash]. change (Ascii.eqb slash slash) with true. cbv iota.
    change (render [] ++ q) with (slash :: q). change (is_absolute (slash :: q)) with true. exists (slash :: q). split; [reflexivity|].
    apply normalize_abs.
  - destruct (render_ends (x :: l)) as (c & r & E & D); [discriminate|exact F|]. rewrite E, D.
    change (is_absolute (render (x :: l) ++ slash :: q)) with true. exists (render (x :: l) ++ slash :: q). split; [reflexivity|].
    change (render (x :: l) ++ slash :: q) with (slash :: (join_pieces (x :: l) ++ slash :: q)).
    destruct (normalize_abs (join_pieces (x :: l) ++ slash :: q)) as (N1 & N2).
    assert (W : split (join_pieces (x :: l) ++ slash :: q) = (x :: l) ++ split q).
    { apply written_split. apply written_app; [apply join_written; [discriminate|apply proper_free; exact F]|apply split_written]. }
    rewrite W, fold_left_app in N1, N2. pose proof (keep_names (x :: l) [] F) as K. cbn [app] in K. unfold path, spot in *. rewrite K in N1, N2. split; assumption.
Qed.

Lemma is_prefix_spec : forall a b, is_prefix a b = true <-> exists r, b = a ++ r.
Proof.
  induction a as [|x a IH]; intros b; cbn.
  - split; [intros _; exists b; reflexivity|reflexivity].
  - destruct b as [|y b]; [split; [discriminate|intros (r & E); discriminate]|]. rewrite andb_true_iff, component_eqb_spec, IH. split.
    + intros (-> & r & ->). exists r. reflexivity.
    + intros (r & E). inversion E; subst. split; [reflexivity|]. exists r. reflexivity.
Qed.
Lemma starts_with_render : forall l m, Forall proper_name l -> Forall proper_name m ->
  (starts_with (render l) (render m) = true <-> exists rest, l = m ++ rest).
Proof.
  intros l m F G. unfold starts_with. rewrite !components_render by assumption. rewrite is_prefix_spec. split.
  - intros (r & E). inversion E as [E1]. clear E. revert l F E1. induction m as [|y m IH]; intros l F E; [exists l; reflexivity|].
    destruct l as [|x l]; [discriminate|]. cbn in E. inversion E as [[E0 E1]]; subst. inversion F as [|? ? Px Fl]; inversion G as [|? ? Py Gm]; subst.
    destruct (IH Gm l Fl E1) as (rest & ->). exists rest. reflexivity.
  - intros (rest & ->). exists (map Normal rest). rewrite map_app. reflexivity.
Qed.
Lemma skip_proper : forall m rest, Forall proper_name m -> skip_names (List.length m) (m ++ rest) = rest.
Proof.
  induction m as [|x m IH]; intros rest F; [reflexivity|]. inversion F; subst. cbn [List.length skip_names app drop_trivial].
  rewrite proper_nontrivial by assumption. apply IH. assumption.
Qed.
Lemma trim_right_proper : forall l, Forall proper_name l -> trim_right l = l.
Proof. intros l F. unfold trim_right. rewrite drop_proper by (apply Forall_rev; exact F). apply rev_involutive. Qed.
Lemma std_strip_render : forall l m, Forall proper_name l -> Forall proper_name m ->
  std_strip (render l) (render m) = if starts_with (render l) (render m) then Some (join_pieces (skipn (List.length m) l)) else None.
Proof.
  intros l m F G. unfold std_strip. destruct (starts_with (render l) (render m)) eqn:S; [|reflexivity].
  apply starts_with_render in S; [|assumption|assumption]. destruct S as (rest & ->). rewrite components_render by assumption.
  cbv beta iota zeta. unfold render. rewrite map_length. apply Forall_app in F. destruct F as (_ & F). f_equal.
  rewrite skipn_app, skipn_all, Nat.sub_diag. cbn [app skipn].
  destruct m as [|y m].
  - cbn [List.length skip_names app]. destruct rest as [|x rest]; [reflexivity|].
    rewrite split_join by (try discriminate; apply proper_free; exact F). rewrite drop_proper, trim_right_proper by exact F. reflexivity.
  - rewrite split_join by (try discriminate; apply proper_free; apply Forall_app; split; assumption).
    rewrite skip_proper by assumption. rewrite drop_proper, trim_right_proper by exact F. reflexivity.
Qed.

Lemma name_parts : forall x s e, proper_name x ->
  (match rsplit dot x with None | Some ([], _) => Some (x, None) | Some (s, e) => Some (s, Some e) end = Some (s, e) <-> named x s e).
Proof.
  intros x s e P. destruct (rsplit dot x) as [[[|c a] b]|] eqn:R.
  - apply rsplit_some in R. destruct R as (-> & N). cbn [app]. split.
    + intros E. inversion E; subst. apply named_hidden. exact N.
    + intros K. inversion K as [? Q|? Q|s' e' Q1 Q2 Q3]; subst.
      * exfalso. apply Q. left. reflexivity.
      * reflexivity.
      * destruct s as [|c s]; [contradiction|]. cbn in Q3. inversion Q3; subst. exfalso. apply N. apply in_or_app. right. left. reflexivity.
  - apply rsplit_some in R. destruct R as (-> & N). split.
    + intros E. inversion E; subst. apply (named_ext (c :: a) b); [discriminate|exact N].
    + intros K. inversion K as [? Q|? Q|s' e' Q1 Q2 Q3]; subst.
      * exfalso. apply Q. apply in_or_app. right. left. reflexivity.
      * exfalso. apply Q. apply in_or_app. right. left. reflexivity.
      * assert (Q4 : rsplit dot (s ++ "."%char :: e') = Some (s, e')) by (apply rsplit_some; split; [reflexivity|exact Q2]).
        rewrite Q3 in Q4. pose proof (proj2 (rsplit_some dot ((c :: a) ++ dot :: b) (c :: a) b) (conj eq_refl N)) as Q5. cbn [app] in Q5.
        rewrite Q5 in Q4. inversion Q4; subst. reflexivity.
  - apply rsplit_none in R. split.
    + intros E. inversion E; subst. apply named_plain. exact R.
    + intros K. inversion K as [? Q|? Q|s' e' Q1 Q2 Q3]; subst; [reflexivity|exfalso; apply R; left; reflexivity|].
      exfalso. apply R. apply in_or_app. right. left. reflexivity.
Qed.
Lemma real_name_snoc : forall l x, Forall proper_name (l ++ [x]) ->
  real_name (render (l ++ [x])) = match rsplit dot x with None | Some ([], _) => Some (x, None) | Some (s, e) => Some (s, Some e) end.
Proof.
  intros l x F. unfold real_name, file_stem, extension, file_name. rewrite components_render by exact F. rewrite map_app.
  cbn [rev]. rewrite rev_app_distr. cbn [map rev app]. unfold at_dot. destruct (rsplit dot x) as [[[|c a] b]|]; reflexivity.
Qed.
Lemma virtual_name_snoc : forall l x, proper_name x ->
  virtual_name (vrender (l ++ [x])) = match rsplit dot x with None | Some ([], _) => Some (x, None) | Some (s, e) => Some (s, Some e) end.
Proof.
  intros l x P. unfold virtual_name.
  assert (E : match rev (vrender (l ++ [x])) with c :: r => if Ascii.eqb c slash then rev r else vrender (l ++ [x]) | [] => vrender (l ++ [x]) end = vrender (l ++ [x])).
  { destruct P as (N & _ & _ & S). destruct (exists_last N) as (x0 & c & ->). rewrite vrender_snoc, rev_app_distr. cbn [rev]. rewrite rev_app_distr. cbn [rev app].
    destruct (Ascii.eqb_spec c slash) as [->|]; [|reflexivity]. exfalso. apply S. apply in_or_app. right. left. reflexivity. }
  rewrite E, rsplit_vrender by exact P. destruct x as [|c x]; [destruct (proper_cases P)|]. reflexivity.
Qed.

Lemma string_prefix_spec : forall a b, string_prefix a b = true <-> exists r, b = a ++ r.
Proof.
  induction a as [|x a IH]; intros b; cbn.
  - split; [intros _; exists b; reflexivity|reflexivity].
  - destruct b as [|y b]; [split; [discriminate|intros (r & E); discriminate]|]. rewrite andb_true_iff, Ascii.eqb_eq, IH. split.
    + intros (-> & r & ->). exists r. reflexivity.
    + intros (r & E). inversion E; subst. split; [reflexivity|]. exists r. reflexivity.
Qed.
Lemma vrender_head : forall l, vrender l = [] \/ exists r, vrender l = slash :: r.
Proof. intros [|x l]; [left; reflexivity|right]. eexists. reflexivity. Qed.
(** Two slash-free names followed by nothing or a slash. *)
Lemma names_apart : forall x y s t, slash_free x -> slash_free y -> x ++ slash :: s = y ++ slash :: t -> x = y /\ s = t.
Proof.
  induction x as [|c x IH]; intros y s t X Y E; destruct y as [|d y]; cbn in E; inversion E; subst.
  - split; reflexivity.
  - exfalso. apply Y. left. reflexivity.
  - exfalso. apply X. left. reflexivity.
  - destruct (IH y s t) as (-> & ->); [intros I; apply X; right; exact I|intros I; apply Y; right; exact I|assumption|]. split; reflexivity.
Qed.
Lemma name_prefix : forall y x s r, slash_free y -> (s = [] \/ exists t, s = slash :: t) -> x ++ s = y ++ r -> exists t, x = y ++ t.
Proof.
  induction y as [|d y IH]; intros x s r Y S E; [exists x; reflexivity|]. destruct x as [|c x].
  - cbn in E. destruct S as [->|(t & ->)]; [discriminate|]. inversion E; subst. exfalso. apply Y. left. reflexivity.
  - cbn in E. inversion E; subst. destruct (IH x s r) as (t & ->); [intros I; apply Y; right; exact I|exact S|assumption|]. exists t. reflexivity.
Qed.
Lemma vrender_prefix : forall m l, Forall proper_name l -> Forall proper_name m ->
  (string_prefix (vrender m) (vrender l) = true <->
   m = [] \/ exists m' y x rest t, m = m' ++ [y] /\ l = m' ++ x :: rest /\ x = y ++ t).
Proof.
  intros m l F G. rewrite string_prefix_spec. split.
  - intros (r & E). destruct m as [|y m]; [left; reflexivity|right]. revert y l F G E. induction m as [|z m IH]; intros y l F G E.
    + destruct l as [|x l]; [discriminate|]. cbn in E. inversion E as [E1]. rewrite app_nil_r in E1.
      destruct (name_prefix y x (vrender l) r) as (t & T); [inversion G as [|? ? Py ?]; subst; apply Py|apply vrender_head|exact E1|].
      exists [], y, x, l, t. repeat split; assumption.
    + destruct l as [|x l]; [discriminate|]. change (vrender (y :: z :: m)) with (slash :: y ++ vrender (z :: m)) in E. cbn [vrender] in E.
      inversion E as [E1]. clear E. inversion F as [|? ? Px Fl]; inversion G as [|? ? Py Gm]; subst.
      assert (E2 : exists s, vrender l = slash :: s).
      { destruct (vrender_head l) as [Q|Q]; [|exact Q]. exfalso. rewrite Q, app_nil_r in E1. destruct Px as (_ & _ & _ & S). apply S.
        rewrite E1, <- app_assoc. apply in_or_app. right. left. reflexivity. }
      destruct E2 as (s & E2). rewrite E2 in E1. rewrite <- app_assoc in E1. cbn [app] in E1.
      destruct (names_apart x y s ((z ++ vrender m) ++ r)) as (-> & ->); [apply Px|apply Py|exact E1|].
      destruct (IH z l) as (m' & y' & x' & rest & t & M & L & X); [assumption|assumption|cbn [vrender]; rewrite E2; reflexivity|].
      exists (y :: m'), y', x', rest, t. rewrite M, L. repeat split. exact X.
  - intros [->|(m' & y & x & rest & t & -> & -> & ->)]; [exists (vrender l); reflexivity|].
    rewrite !vrender_app. cbn [vrender]. rewrite app_nil_r. exists (t ++ vrender rest). rewrite <- !app_assoc. cbn. reflexivity.
Qed.
Lemma vrender_inj : forall l m, Forall proper_name l -> Forall proper_name m -> vrender l = vrender m -> l = m.
Proof.
  induction l as [|x l IH]; intros m F G E; destruct m as [|y m]; try reflexivity; try discriminate.
  inversion F as [|? ? Px Fl]; inversion G as [|? ? Py Gm]; subst. cbn [vrender] in E. inversion E as [E1].
  destruct (vrender_head l) as [L|(s & L)], (vrender_head m) as [M|(t & M)]; rewrite L, M in E1.
  - rewrite !app_nil_r in E1. subst. f_equal. apply IH; [assumption|assumption|congruence].
  - exfalso. rewrite app_nil_r in E1. subst x. destruct Px as (_ & _ & _ & S). apply S. apply in_or_app. right. left. reflexivity.
  - exfalso. rewrite app_nil_r in E1. subst y. destruct Py as (_ & _ & _ & S). apply S. apply in_or_app. right. left. reflexivity.
  - destruct (names_apart x y s t) as (-> & ->); [apply Px|apply Py|exact E1|]. f_equal. apply IH; [assumption|assumption|congruence].
Qed.
Lemma render_inj : forall l m, Forall proper_name l -> Forall proper_name m -> render l = render m -> l = m.
Proof.
  intros l m F G E. apply (f_equal components) in E. rewrite !components_render in E by assumption. inversion E as [E1]. clear -E1.
  revert m E1. induction l as [|x l IH]; intros [|y m] E; try reflexivity; try discriminate. cbn in E. inversion E; subst. f_equal. apply IH. assumption.
Qed.
Lemma components_eqb_spec : forall a b, components_eqb a b = true <-> a = b.
Proof.
  induction a as [|x a IH]; intros [|y b]; cbn; try (split; [discriminate|discriminate]); try tauto.
  rewrite andb_true_iff, component_eqb_spec, IH. split; [intros (-> & ->); reflexivity|]. intros E. inversion E. auto.
Qed.
