(** C35: include resolution picks the right file. *)
From Coq Require Import List Ascii String Bool Arith Lia.
From Verif Require Import PathsModel PathsSpec PathsProps GraphModel IncludeModel IncludeSpec.
Import ListNotations.
Local Open Scope list_scope.

(** ** Extensions *)

Lemma ends_with_spec p s : ends_with p s = true <-> has_suffix p s.
Proof.
  unfold ends_with, has_suffix. rewrite andb_true_iff, Nat.leb_le. split.
  - intros (H & L). destruct (path_eqb_spec (skipn (Datatypes.length p - Datatypes.length s) p) s) as [E|]; [|discriminate].
    exists (firstn (Datatypes.length p - Datatypes.length s) p). rewrite <- E at 2. symmetry. apply firstn_skipn.
  - intros (q & ->). rewrite app_length. split; [|lia].
    replace (Datatypes.length q + Datatypes.length s - Datatypes.length s) with (Datatypes.length q + 0) by lia.
    rewrite skipn_app, Nat.add_0_r, skipn_all, Nat.sub_diag. simpl.
    destruct (path_eqb_spec s s); [reflexivity|contradiction].
Qed.

Theorem C35_extension :
  forall w, completed w (fst (infer_include_ext w)) /\
    snd (infer_include_ext w) = (if ends_with w (list_ascii_of_string ".sp") then Sp else Inc) /\
    fst (infer_include_ext (fst (infer_include_ext w))) = fst (infer_include_ext w).
Proof.
  intros w. unfold infer_include_ext, completed, sp_name, inc_name. rewrite <- !ends_with_spec.
  change (list_ascii_of_string ".sp") with dot_sp. change (list_ascii_of_string ".inc") with dot_inc.
  destruct (ends_with w dot_sp) eqn:Es; [cbn [fst snd]; rewrite Es; cbn; intuition congruence|].
  destruct (ends_with w dot_inc) eqn:Ei; cbn [fst snd]; [rewrite Es, Ei; cbn; intuition congruence|].
  assert (Ea : ends_with (w ++ dot_inc) dot_inc = true) by (apply ends_with_spec; exists w; reflexivity).
  rewrite Ea. split; [intuition congruence|]. split; [reflexivity|].
  destruct (ends_with (w ++ dot_inc) dot_sp); reflexivity.
Qed.
Print Assumptions C35_extension.

(** ** Places *)

Definition spot (d : place) (w : path) : place := fold_left keep (split w) (if is_absolute w then [] else d).

Lemma moves_keep p xs q : moves p xs q -> q = fold_left keep xs p.
Proof.
  induction 1 as [p|p x xs q Hx Hm IH|p d xs q Hm IH|xs q Hm IH|p x xs q Hx Hm IH]; cbn [fold_left]; [reflexivity| | | |].
  - unfold keep at 2. destruct Hx as [->| ->]; exact IH.
  - unfold keep at 2. cbn. rewrite removelast_last. exact IH.
  - exact IH.
  - unfold keep at 2. rewrite (proper_nontrivial x Hx).
    destruct (path_eqb_spec x [dot; dot]) as [E|_]; [exfalso; apply (proj1 (proj2 (proj2 Hx))); exact E|exact IH].
Qed.
Lemma keep_moves xs : forall p, Forall slash_free xs -> moves p xs (fold_left keep xs p).
Proof.
  induction xs as [|x xs IH]; intros p HF; cbn [fold_left]; [constructor|].
  inversion HF as [|? ? Hx HF']; subst. unfold keep at 2. destruct (trivial x) eqn:Et.
  - apply m_stay; [|apply IH; exact HF']. unfold trivial in Et.
    destruct (path_eqb_spec x []); [left; assumption|]. destruct (path_eqb_spec x [dot]); [right; assumption|discriminate Et].
  - destruct (path_eqb_spec x [dot; dot]) as [->|Hd].
    + destruct p as [|d p _] using rev_ind; [apply m_up_root; apply IH; exact HF'|].
      rewrite removelast_last. apply m_up. apply IH. exact HF'.
    + apply m_down; [|apply IH; exact HF']. unfold trivial in Et.
      destruct (path_eqb_spec x []); [discriminate Et|]. destruct (path_eqb_spec x [dot]); [discriminate Et|]. repeat split; assumption.
Qed.

Lemma names_spot d w p : names d w p <-> p = spot d w.
Proof.
  unfold names, spot. split.
  - intros (xs & Hw & H). apply written_split in Hw. subst xs. destruct w as [|c w]; [apply moves_keep; exact H|].
    cbn [is_absolute]. destruct (ascii_dec c sl) as [->|Hc]; [apply moves_keep; exact H|].
    destruct (Ascii.eqb_spec c slash) as [E|_]; [contradiction|]. apply moves_keep. exact H.
  - intros ->. exists (split w). split; [apply split_written|].
    pose proof (proj1 (written_free _ _ (split_written w))) as HF.
    destruct w as [|c w]; [apply keep_moves; exact HF|]. cbn [is_absolute].
    destruct (ascii_dec c sl) as [->|Hc]; [apply keep_moves; exact HF|].
    destruct (Ascii.eqb_spec c slash) as [E|_]; [contradiction|]. apply keep_moves. exact HF.
Qed.

Lemma keep_id l : forall acc, Forall proper_name l -> fold_left keep l acc = acc ++ l.
Proof.
  induction l as [|y l IH]; intros acc Hl; [rewrite app_nil_r; reflexivity|]. inversion Hl as [|? ? Hy Hl']; subst.
  cbn [fold_left]. unfold keep at 2. rewrite (proper_nontrivial y Hy).
  destruct (path_eqb_spec y [dot; dot]) as [E|_]; [exfalso; apply (proj1 (proj2 (proj2 Hy))); exact E|].
  rewrite IH by exact Hl'. rewrite <- app_assoc. reflexivity.
Qed.
Lemma keep_fold_proper xs : forall p, Forall proper_name p -> Forall slash_free xs -> Forall proper_name (fold_left keep xs p).
Proof.
  induction xs as [|x xs IH]; intros p Hp HF; cbn [fold_left]; [exact Hp|]. inversion HF; subst.
  apply IH; [apply keep_proper; assumption|assumption].
Qed.
Lemma spot_proper d w : Forall proper_name d -> Forall proper_name (spot d w).
Proof.
  intros H. apply keep_fold_proper; [destruct (is_absolute w); [constructor|exact H]|].
  apply (written_free _ _ (split_written w)).
Qed.

Lemma join_spot d w : Forall proper_name d -> vfs_join (render d) w = Ok (render (spot d w)).
Proof.
  intros Hd. unfold vfs_join, abs_join. rewrite (push_absolute (render d) w eq_refl). f_equal. unfold spot, push.
  destruct (is_absolute w) eqn:Ea.
  - apply absolute_slash in Ea. destruct Ea as (q & ->). rewrite (proj1 (normalize_abs q)). reflexivity.
  - destruct d as [|x d _] using rev_ind.
    + change (rev (render [])) with [slash]. cbv iota beta. change (Ascii.eqb slash slash) with true. cbv iota.
      change (render [] ++ w) with (slash :: w). rewrite (proj1 (normalize_abs w)). reflexivity.
    + pose proof Hd as Hd2. apply Forall_app in Hd2. destruct Hd2 as (_ & Hx). inversion Hx as [|? ? Hx' _]; subst.
      destruct (last_render d x (proj1 Hx') (proj2 (proj2 (proj2 Hx')))) as (c & r & -> & ->).
      change (render (d ++ [x]) ++ slash :: w) with (slash :: (join_pieces (d ++ [x]) ++ slash :: w)).
      rewrite (proj1 (normalize_abs _)). f_equal.
      rewrite (written_split ((d ++ [x]) ++ split w)).
      * rewrite fold_left_app. f_equal. exact (keep_id (d ++ [x]) [] Hd).
      * apply written_app; [|apply split_written]. apply join_written; [destruct d; discriminate|apply proper_free; exact Hd].
Qed.

Lemma pop_place d : Forall proper_name d -> pop (render d) = render (removelast d).
Proof.
  intros H. destruct d as [|x d _] using rev_ind; [apply pop_root|]. apply Forall_app in H. destruct H as (H & Hx).
  inversion Hx; subst. rewrite removelast_last. apply pop_render; assumption.
Qed.

Lemma body_proper xs : Forall proper_name xs -> body xs = map Normal xs.
Proof.
  induction 1 as [|x xs Hx H IH]; simpl; [reflexivity|]. rewrite (proper_nontrivial x Hx).
  destruct (path_eqb_spec x [dot; dot]) as [E|_]; [exfalso; apply (proj1 (proj2 (proj2 Hx))); exact E|]. rewrite IH. reflexivity.
Qed.
Lemma components_render xs : Forall proper_name xs -> components (render xs) = RootDir :: map Normal xs.
Proof.
  intros H. unfold components, render. change (Ascii.eqb slash slash) with true. cbv iota. f_equal.
  rewrite body_split_join by (apply proper_free; exact H). apply body_proper. exact H.
Qed.
Lemma components_eqb_spec a : forall b, components_eqb a b = true <-> a = b.
Proof.
  induction a as [|x a IH]; intros [|y b]; simpl; try (split; [discriminate|discriminate]); [tauto|].
  rewrite andb_true_iff, component_eqb_spec, IH. split; [intros (-> & ->); reflexivity|]. intros E. injection E as -> ->. tauto.
Qed.
Lemma map_normal_inj a : forall b, map Normal a = map Normal b -> a = b.
Proof. induction a as [|x a IH]; intros [|y b] E; try discriminate E; [reflexivity|]. injection E as -> E. f_equal. apply IH. exact E. Qed.
Lemma same_render a b : Forall proper_name a -> Forall proper_name b -> (same_path (render a) (render b) = true <-> a = b).
Proof.
  intros Ha Hb. unfold same_path. rewrite components_eqb_spec, (components_render a Ha), (components_render b Hb). split.
  - intros E. injection E as E. apply map_normal_inj. exact E.
  - intros ->. reflexivity.
Qed.
Lemma starts_inside a r : Forall proper_name a -> Forall proper_name r -> (starts_with (render a) (render r) = true <-> inside r a).
Proof.
  intros Ha Hr. rewrite C34_starts_with, (components_render a Ha), (components_render r Hr). unfold inside. split.
  - intros (rest & E). injection E as E. revert a Ha E. induction r as [|x r IH]; intros a Ha E; [exists a; reflexivity|].
    destruct a as [|y a]; [discriminate E|]. injection E as -> E. inversion Hr; inversion Ha; subst.
    destruct (IH H2 a H6 E) as (rest' & ->). exists rest'. reflexivity.
  - intros (rest & ->). exists (map Normal rest). rewrite map_app. reflexivity.
Qed.

(** A path whose components are those of a clean path lies where the clean path lies. *)
Lemma body_normal_spot xs : forall acc p, body xs = map Normal p -> fold_left keep xs acc = acc ++ p.
Proof.
  induction xs as [|x xs IH]; intros acc p E; cbn [fold_left]; simpl in E.
  - destruct p; [rewrite app_nil_r; reflexivity|discriminate E].
  - unfold keep at 2. destruct (trivial x); [apply IH; exact E|].
    destruct (path_eqb x [dot; dot]); [destruct p; discriminate E|].
    destruct p as [|y p]; [discriminate E|]. injection E as -> E. rewrite (IH _ p E), <- app_assoc. reflexivity.
Qed.
Lemma same_path_spot w p d : is_absolute w = true -> Forall proper_name p -> same_path (render p) w = true -> p = spot d w.
Proof.
  intros Ha Hp H. unfold same_path in H. apply components_eqb_spec in H. rewrite (components_render p Hp) in H.
  unfold spot. rewrite Ha. apply absolute_slash in Ha. destruct Ha as (q & ->).
  unfold components in H. change (Ascii.eqb slash slash) with true in H. cbv iota in H. injection H as H.
  change (split (slash :: q)) with ([] :: split q). cbn [fold_left]. unfold keep at 2. cbn [trivial path_eqb].
  change (trivial []) with true. cbv iota. rewrite (body_normal_spot _ [] p (eq_sym H)). reflexivity.
Qed.

(** ** The database of a world *)

Lemma inside_dec r : forall l, {inside r l} + {~ inside r l}.
Proof.
  induction r as [|x r IH]; intros l; [left; exists l; reflexivity|].
  destruct l as [|y l]; [right; intros (q & E); discriminate E|].
  destruct (list_eq_dec ascii_dec x y) as [->|Hn]; [|right; intros (q & E); injection E as -> _; apply Hn; reflexivity].
  destruct (IH l) as [H|H]; [left; destruct H as (q & ->); exists q; reflexivity|].
  right. intros (q & E). injection E as ->. apply H. exists q. reflexivity.
Qed.

Definition proper_world (W : world) : Prop :=
  (forall p f, In (p, f) (on_disk W) -> Forall proper_name p) /\ Forall (Forall proper_name) (roots W) /\
  NoDup (map fst (on_disk W)) /\ NoDup (map snd (on_disk W)).
Definition vfs_of (W : world) : file_set := map (fun e => (render (fst e), snd e)) (on_disk W).
Definition db_of (W : world) : list source_root := partition (vfs_of W) (map render (roots W)).

Lemma nodup_find {A B} (l : list (A * B)) (p : A * B -> bool) a b :
  In (a, b) l -> p (a, b) = true -> (forall a' b', In (a', b') l -> p (a', b') = true -> (a', b') = (a, b)) ->
  find p l = Some (a, b).
Proof.
  intros H Hp Hu. destruct (find p l) as [[a' b']|] eqn:E.
  - apply find_some in E. f_equal. apply Hu; apply E.
  - exfalso. pose proof (find_none _ _ E (a, b) H) as X. congruence.
Qed.
Lemma nodup_fst {A B} (l : list (A * B)) a b b' : NoDup (map fst l) -> In (a, b) l -> In (a, b') l -> b = b'.
Proof.
  induction l as [|[x y] l IH]; simpl; intros Hd H H'; [tauto|]. inversion Hd as [|? ? Hn Hd']; subst.
  destruct H as [H|H], H' as [H'|H'].
  - congruence.
  - injection H as -> ->. exfalso. apply Hn. apply in_map_iff. exists (a, b'). tauto.
  - injection H' as -> ->. exfalso. apply Hn. apply in_map_iff. exists (a, b). tauto.
  - apply IH; assumption.
Qed.
Lemma nodup_snd {A B} (l : list (A * B)) a a' b : NoDup (map snd l) -> In (a, b) l -> In (a', b) l -> a = a'.
Proof.
  induction l as [|[x y] l IH]; simpl; intros Hd H H'; [tauto|]. inversion Hd as [|? ? Hn Hd']; subst.
  destruct H as [H|H], H' as [H'|H'].
  - congruence.
  - injection H as -> ->. exfalso. apply Hn. apply in_map_iff. exists (a', b). tauto.
  - injection H' as -> ->. exfalso. apply Hn. apply in_map_iff. exists (a, b). tauto.
  - apply IH; assumption.
Qed.

Section world.
Variable W : world.
Hypothesis HW : proper_world W.

Definition set_of (r : place) : file_set := filter (fun e => starts_with (fst e) (render r)) (vfs_of W).
Lemma db_eq : db_of W = map (fun r => SourceRoot (set_of r) (render r)) (roots W).
Proof. unfold db_of, partition. rewrite map_map. reflexivity. Qed.

Lemma set_in r q f : Forall proper_name r ->
  (In (q, f) (set_of r) <-> exists p, q = render p /\ In (p, f) (on_disk W) /\ inside r p).
Proof.
  intros Hr. unfold set_of, vfs_of. rewrite filter_In, in_map_iff. cbn [fst]. destruct HW as (Hp & _). split.
  - intros (((p & f') & E & I) & Hs). injection E as <- <-. cbn [fst snd] in *. exists p. split; [reflexivity|].
    split; [exact I|]. apply starts_inside in Hs; [exact Hs|apply (Hp p f' I)|exact Hr].
  - intros (p & -> & I & Hin). split; [exists (p, f); split; [reflexivity|exact I]|].
    apply starts_inside; [apply (Hp p f I)|exact Hr|exact Hin].
Qed.

Lemma get_file_clean r p f : Forall proper_name r -> Forall proper_name p ->
  (get_file (set_of r) (render p) = Some f <-> In (p, f) (on_disk W) /\ inside r p).
Proof.
  intros Hr Hp. unfold get_file. split.
  - destruct (find (fun e => same_path (fst e) (render p)) (set_of r)) as [[q g]|] eqn:E; [|discriminate].
    cbn. intros X. injection X as ->. apply find_some in E. destruct E as (I & Es). cbn [fst] in Es.
    apply set_in in I; [|exact Hr]. destruct I as (p' & -> & I & Hin).
    apply same_render in Es; [|apply (proj1 HW p' f I)|exact Hp]. subst p'. tauto.
  - intros (I & Hin). rewrite (nodup_find (set_of r) _ (render p) f); [reflexivity| | |].
    + apply set_in; [exact Hr|]. exists p. tauto.
    + cbn [fst]. apply same_render; tauto.
    + intros q g Iq Es. cbn [fst] in Es. apply set_in in Iq; [|exact Hr]. destruct Iq as (p' & -> & I' & _).
      apply same_render in Es; [|apply (proj1 HW p' g I')|exact Hp]. subst p'.
      rewrite (nodup_fst (on_disk W) p g f); [reflexivity|apply HW|exact I'|exact I].
Qed.

Lemma offers_iff w d r f : offers W w (Candidate d r) f <-> In (spot d w, f) (on_disk W) /\ inside r (spot d w).
Proof.
  unfold offers. cbn [c_dir c_root]. split.
  - intros (p & Hn & I & Hin). apply names_spot in Hn. subst p. tauto.
  - intros (I & Hin). exists (spot d w). split; [apply names_spot; reflexivity|tauto].
Qed.
Lemma offers_unique w c f g : offers W w c f -> offers W w c g -> f = g.
Proof.
  destruct c as [d r]. rewrite !offers_iff. intros (I & _) (I' & _). eapply nodup_fst; [apply HW|exact I|exact I'].
Qed.

Lemma root_resolves r w : Forall proper_name r ->
  exists o, resolve_relative_to_root (SourceRoot (set_of r) (render r)) w = Ok o /\
    forall f, o = Some f <-> offers W w (Candidate r r) f.
Proof.
  intros Hr. unfold resolve_relative_to_root. cbn [root_path file_set_of]. rewrite (join_spot r w Hr).
  eexists. split; [reflexivity|]. intros f. rewrite offers_iff. apply get_file_clean; [exact Hr|apply spot_proper; exact Hr].
Qed.

Lemma roots_resolve w : forall rs, Forall (Forall proper_name) rs ->
  exists o, resolve_path_relative_to_roots (map (fun r => SourceRoot (set_of r) (render r)) rs) w = Ok o /\
    (forall f, o = Some f <-> first_offer W w (map (fun r => Candidate r r) rs) f) /\
    (o = None <-> no_offer W w (map (fun r => Candidate r r) rs)).
Proof.
  induction rs as [|r rs IH]; intros HF.
  - exists None. split; [reflexivity|]. split.
    + intros f. split; [discriminate|]. intros H. inversion H.
    + split; [intros _ c f []|reflexivity].
  - inversion HF as [|? ? Hr HF']; subst. destruct (IH HF') as (o & E & Hs & Hn).
    cbn [map resolve_path_relative_to_roots]. destruct (root_resolves r w Hr) as (o1 & -> & H1).
    destruct o1 as [f1|].
    + assert (O1 : offers W w (Candidate r r) f1) by (apply H1; reflexivity).
      exists (Some f1). split; [reflexivity|]. split.
      * intros f. split; [intros X; injection X as <-; constructor; exact O1|].
        intros H. inversion H as [c cs g Ho|c cs g Ho Hl]; subst; [f_equal; eapply offers_unique; eassumption|].
        exfalso. exact (Ho f1 O1).
      * split; [discriminate|]. intros H. exfalso. exact (H (Candidate r r) f1 (or_introl eq_refl) O1).
    + assert (N1 : forall g, ~ offers W w (Candidate r r) g).
      { intros g Hg. apply H1 in Hg. discriminate Hg. }
      exists o. split; [exact E|]. split.
      * intros f. rewrite Hs. split; [intros H; apply fo_later; assumption|].
        intros H. inversion H as [c cs g Ho|c cs g Ho Hl]; subst; [exfalso; exact (N1 _ Ho)|exact Hl].
      * rewrite Hn. split; [intros H c f [<-|I]; [apply N1|apply H; exact I]|intros H c f I; apply H; right; exact I].
Qed.

Section anchor.
Variables (a : place) (f : nat) (pre post : list place) (home : place).
Hypothesis Ha : In (a, f) (on_disk W).
Hypothesis Hroots : roots W = pre ++ home :: post.
Hypothesis Hhome : inside home a.
Hypothesis Hlast : forall r, In r post -> ~ inside r a.

Lemma roots_proper : Forall (Forall proper_name) (roots W).
Proof. apply HW. Qed.
Lemma home_proper : Forall proper_name home.
Proof. pose proof roots_proper as H. rewrite Hroots in H. apply Forall_app in H. destruct H as (_ & H). inversion H; assumption. Qed.
Lemma anchor_proper : Forall proper_name a.
Proof. apply (proj1 HW a f Ha). Qed.

Lemma has_anchor r : Forall proper_name r -> (existsb (fun e => snd e =? f) (set_of r) = true <-> inside r a).
Proof.
  intros Hr. rewrite existsb_exists. split.
  - intros ([q g] & I & E). cbn in E. apply Nat.eqb_eq in E. subst g. apply set_in in I; [|exact Hr].
    destruct I as (p & -> & I & Hin). rewrite (nodup_snd (on_disk W) a p f); [exact Hin|apply HW|exact Ha|exact I].
  - intros Hin. exists (render a, f). split; [|apply Nat.eqb_refl]. apply set_in; [exact Hr|]. exists a. tauto.
Qed.
Lemma anchor_root : file_source_root (db_of W) f = Some (SourceRoot (set_of home) (render home)).
Proof.
  unfold file_source_root. rewrite db_eq, Hroots, map_app, rev_app_distr. cbn [map rev]. rewrite <- app_assoc.
  assert (G : forall l, (forall r, In r l -> In r post) ->
     find (fun sr => existsb (fun e => snd e =? f) (file_set_of sr)) (map (fun r => SourceRoot (set_of r) (render r)) l ++
        [SourceRoot (set_of home) (render home)] ++ rev (map (fun r => SourceRoot (set_of r) (render r)) pre))
     = Some (SourceRoot (set_of home) (render home))).
  { induction l as [|r l IH]; intros Hl; cbn [map app find].
    - cbn [file_set_of]. rewrite (proj2 (has_anchor home home_proper) Hhome). reflexivity.
    - cbn [file_set_of]. destruct (existsb (fun e => snd e =? f) (set_of r)) eqn:E.
      + exfalso. apply (Hlast r (Hl r (or_introl eq_refl))). apply has_anchor in E; [exact E|].
        pose proof roots_proper as Hrp. rewrite Hroots in Hrp. apply Forall_app in Hrp. destruct Hrp as (_ & Hrp).
        inversion Hrp as [|? ? _ HF]; subst. rewrite Forall_forall in HF. apply HF. apply Hl. left. reflexivity.
      + apply IH. intros x Hx. apply Hl. right. exact Hx. }
  rewrite <- map_rev. apply G. intros r Hr. apply in_rev. exact Hr.
Qed.
Lemma anchor_uri : get_uri (set_of home) f = Some (render a).
Proof.
  unfold get_uri. rewrite (nodup_find (set_of home) _ (render a) f); [reflexivity| | |].
  - apply set_in; [exact home_proper|]. exists a. tauto.
  - apply Nat.eqb_refl.
  - intros q g I E. cbn in E. apply Nat.eqb_eq in E. subst g. apply set_in in I; [|exact home_proper].
    destruct I as (p & -> & I & _). rewrite (nodup_snd (on_disk W) a p f); [reflexivity|apply HW|exact Ha|exact I].
Qed.

Definition here : candidate := Candidate (removelast a) home.

(** Through the including file: for a path written absolutely, the file may only be found later. *)
Lemma anchor_resolve w :
  exists o, resolve_path (db_of W) f w = Ok o /\
    (forall g, o = Some g -> offers W w here g) /\
    (o = None -> forall g, offers W w here g -> is_absolute w = true).
Proof.
  unfold resolve_path. rewrite anchor_root. unfold resolve_in. cbn [file_set_of].
  destruct (is_absolute w) eqn:Eabs.
  - eexists. split; [reflexivity|]. split; [|intros _ g _; reflexivity].
    intros g E. unfold get_file in E.
    destruct (find (fun e => same_path (fst e) w) (set_of home)) as [[q h]|] eqn:Ef; [|discriminate E].
    cbn in E. injection E as ->. apply find_some in Ef. destruct Ef as (I & Es). cbn [fst] in Es.
    apply set_in in I; [|exact home_proper]. destruct I as (p & -> & I & Hin).
    apply (same_path_spot w p (removelast a) Eabs (proj1 HW p g I)) in Es. subst p. apply offers_iff. tauto.
  - rewrite anchor_uri, (pop_place a anchor_proper).
    assert (Hp : Forall proper_name (removelast a)).
    { pose proof anchor_proper as H. destruct a as [|x a0 _] using rev_ind; [constructor|]. rewrite removelast_last. apply Forall_app in H. apply H. }
    match goal with |- context [vfs_join ?x w] => assert (Ej : vfs_join x w = Ok (render (spot (removelast a) w))) by exact (join_spot _ w Hp) end.
    rewrite Ej. eexists. split; [reflexivity|].
    assert (K : forall g, get_file (set_of home) (render (spot (removelast a) w)) = Some g <-> offers W w here g).
    { intros g. unfold here. rewrite offers_iff. apply get_file_clean; [exact home_proper|apply spot_proper; exact Hp]. }
    split; [intros g; apply K|]. intros E g Hg. apply K in Hg. congruence.
Qed.

Lemma absolute_somewhere w g : is_absolute w = true -> offers W w here g -> first_offer W w (from_roots W) g.
Proof.
  intros Eabs H. apply offers_iff in H. destruct H as (I & Hin). unfold from_roots. rewrite Hroots.
  assert (Hsp : forall d, spot d w = spot (removelast a) w) by (intros d; unfold spot; rewrite Eabs; reflexivity).
  assert (Hoff : forall r h, offers W w (Candidate r r) h -> h = g).
  { intros r h Hh. apply offers_iff in Hh. rewrite Hsp in Hh. eapply nodup_fst; [apply HW|apply Hh|exact I]. }
  assert (Hh : offers W w (Candidate home home) g) by (apply offers_iff; rewrite Hsp; tauto).
  clear - Hh Hoff I HW Hsp. induction pre as [|r l IH]; cbn [app map]; [constructor; exact Hh|].
  destruct (in_dec (fun x y : place * nat => ltac:(repeat decide equality)) (spot r w, g) (on_disk W)) as [Ir|Ir].
  - destruct (inside_dec r (spot r w)) as [D|D].
    + apply fo_here. apply offers_iff. tauto.
    + apply fo_later; [|exact IH]. intros h Hh'. apply offers_iff in Hh'. tauto.
  - apply fo_later; [|exact IH]. intros h Hh'. pose proof (Hoff r h Hh') as ->. apply offers_iff in Hh'. tauto.
Qed.

Lemma quoted_resolve w :
  exists o, match resolve_path (db_of W) f w with
            | Ok (Some g) => Ok (Some g)
            | Ok None => resolve_path_relative_to_roots (db_of W) w
            | Panic => Panic
            end = Ok o /\
    (forall g, o = Some g <-> first_offer W w (here :: from_roots W) g) /\
    (o = None <-> no_offer W w (here :: from_roots W)).
Proof.
  destruct (anchor_resolve w) as (o & -> & H1 & H2).
  destruct (roots_resolve w (roots W) roots_proper) as (o2 & E2 & Hs & Hn). rewrite db_eq, E2. fold (from_roots W) in Hs, Hn.
  destruct o as [g|].
  - assert (O : offers W w here g) by (apply H1; reflexivity). exists (Some g). split; [reflexivity|]. split.
    + intros h. split; [intros E; injection E as <-; constructor; exact O|].
      intros H. inversion H as [c cs x Ho|c cs x Ho Hl]; subst; [f_equal; eapply offers_unique; eassumption|]. exfalso. exact (Ho g O).
    + split; [discriminate|]. intros H. exfalso. exact (H here g (or_introl eq_refl) O).
  - exists o2. split; [reflexivity|]. split.
    + intros h. rewrite Hs. split.
      * intros H.
        assert (D : {exists g, offers W w here g} + {forall g, ~ offers W w here g}).
        { destruct (find (fun e => if list_eq_dec (list_eq_dec ascii_dec) (fst e) (spot (removelast a) w) then true else false) (on_disk W)) as [[p g]|] eqn:Ef.
          - apply find_some in Ef. destruct Ef as (I & E). cbn [fst] in E.
            assert (Ep : p = spot (removelast a) w).
            { match type of E with context [if ?d then _ else _] => destruct d as [Ep|]; [exact Ep|discriminate E] end. }
            subst p.
            destruct (inside_dec home (spot (removelast a) w)) as [D|D]; [left; exists g; apply offers_iff; tauto|right; intros g' Hg'; apply offers_iff in Hg'; tauto].
          - right. intros g Hg. apply offers_iff in Hg. destruct Hg as (I & _). pose proof (find_none _ _ Ef _ I) as X. cbn [fst] in X.
            match type of X with context [if ?d then _ else _] => destruct d as [|N]; [discriminate X|exact (N eq_refl)] end. }
        destruct D as [(g & Hg)|D]; [|apply fo_later; assumption].
        pose proof (absolute_somewhere w g (H2 eq_refl g Hg) Hg) as Hf. apply Hs in Hf. apply Hs in H. assert (h = g) by congruence. subst h.
        apply fo_here. exact Hg.
      * intros H. inversion H as [c cs x Ho|c cs x Ho Hl]; subst; [|exact Hl]. apply absolute_somewhere; [eapply H2; [reflexivity|exact Ho]|exact Ho].
    + rewrite Hn. split.
      * intros H c h [<-|I]; [|apply H; exact I]. intros Ho. pose proof (absolute_somewhere w h (H2 eq_refl h Ho) Ho) as Hf. apply Hs in Hf.
        apply Hn in H. congruence.
      * intros H c h I. apply H. right. exact I.
Qed.
End anchor.
End world.

(** ** The theorems *)

(** [home]: the root the including file belongs to, the last configured one that contains it. *)
Definition belongs (W : world) (a : place) (home : place) : Prop :=
  exists pre post, roots W = pre ++ home :: post /\ inside home a /\ forall r, In r post -> ~ inside r a.

(** The preprocessor includes the file that the first candidate offers, if any does, for the
    completed path; nothing panics. *)
Theorem C35_search_order :
  forall W a f home quoted w,
    proper_world W -> In (a, f) (on_disk W) -> belongs W a home ->
    exists o, preprocessor_include (db_of W) f quoted w = Ok o /\
      forall w', completed w w' ->
        (forall g, o = Some g <-> first_offer W w' (candidates W quoted (removelast a) home) g) /\
        (o = None <-> no_offer W w' (candidates W quoted (removelast a) home)).
Proof.
  intros W a f home quoted w HW Ha (pre & post & Hr & Hh & Hl).
  assert (Hc : forall w', completed w w' -> w' = fst (infer_include_ext w)).
  { intros w' (C1 & C2). destruct (C35_extension w) as ((D1 & D2) & _).
    unfold sp_name, inc_name in *. rewrite <- !ends_with_spec in *.
    destruct (ends_with w (list_ascii_of_string ".sp")) eqn:Es; [rewrite C1, D1 by tauto; reflexivity|].
    destruct (ends_with w (list_ascii_of_string ".inc")) eqn:Ei; [rewrite C1, D1 by tauto; reflexivity|].
    rewrite C2, D2 by (split; discriminate). reflexivity. }
  unfold preprocessor_include, candidates. set (p := fst (infer_include_ext w)) in *. destruct quoted.
  - destruct (quoted_resolve W HW a f pre post home Ha Hr Hh Hl p) as (o & E & Hs & Hn).
    exists o. split; [exact E|]. intros w' Hw'. rewrite (Hc w' Hw'). split; [exact Hs|exact Hn].
  - destruct (roots_resolve W HW p (roots W) (roots_proper W HW)) as (o & E & Hs & Hn). rewrite <- (db_eq W) in E.
    exists o. split; [exact E|]. intros w' Hw'. rewrite (Hc w' Hw'). split; [exact Hs|exact Hn].
Qed.
Print Assumptions C35_search_order.

(** The include list of a file, from which the projects are built, and go to definition use the
    same file as the preprocessor, for the same written path. *)
Theorem C35_users_agree :
  forall srs f is_try text w,
    re_quote text = Some w \/ (re_quote text = None /\ re_chevron text = Some w) ->
    let quoted := match re_quote text with Some _ => true | None => false end in
    let kind := if quoted then Quotes else Chevrons in
    match preprocessor_include srs f quoted w with
    | Panic => file_include srs f is_try text = Panic /\ resolve_include_node srs f kind text = Panic
    | Ok (Some g) =>
        file_include srs f is_try text = Ok (Resolved g kind (snd (infer_include_ext w))) /\
        resolve_include_node srs f kind text = Ok (Some (Some g, fst (infer_include_ext w), snd (infer_include_ext w)))
    | Ok None =>
        file_include srs f is_try text = Ok (if is_try then Nothing else Unresolved (fst (infer_include_ext w))) /\
        resolve_include_node srs f kind text = Ok (Some (None, fst (infer_include_ext w), snd (infer_include_ext w)))
    end.
Proof.
  intros srs f is_try text w H. cbv zeta. unfold preprocessor_include, file_include, resolve_include_node.
  destruct (C35_extension w) as (_ & E2 & E3).
  assert (E4 : snd (infer_include_ext (fst (infer_include_ext w))) = snd (infer_include_ext w)).
  { unfold infer_include_ext. destruct (ends_with w dot_sp) eqn:Es; cbn [fst snd]; [rewrite Es; reflexivity|].
    destruct (ends_with w dot_inc) eqn:Ei; cbn [fst snd]; [rewrite Es, Ei; reflexivity|].
    destruct (ends_with (w ++ dot_inc) dot_sp) eqn:Ea; [|destruct (ends_with (w ++ dot_inc) dot_inc); reflexivity].
    exfalso. apply ends_with_spec in Ea. destruct Ea as (q & Ea).
    apply (f_equal (@rev ascii)) in Ea. rewrite !rev_app_distr in Ea. discriminate Ea. }
  destruct H as [Hq|(Hq & Hc)].
  - rewrite Hq. destruct (infer_include_ext w) as [p e] eqn:Ew. cbn [fst snd] in *.
    destruct (resolve_path srs f p) as [[g|]|]; [split; reflexivity| |split; reflexivity].
    rewrite (surjective_pairing (infer_include_ext p)), E3, E4.
    destruct (resolve_path_relative_to_roots srs p) as [[g|]|]; split; reflexivity.
  - rewrite Hq, Hc. destruct (infer_include_ext w) as [p e] eqn:Ew. cbn [fst snd] in *.
    destruct (resolve_path_relative_to_roots srs p) as [[g|]|]; split; reflexivity.
Qed.
Print Assumptions C35_users_agree.

(** ** What is captured *)

Lemma longest_spec close t : forall acc best, longest close acc best t =
  match longest close acc None t with Some g => Some g | None => best end.
Proof.
  induction t as [|c t IH]; intros acc best; cbn [longest]; [reflexivity|].
  destruct (Ascii.eqb c close), (Ascii.eqb c gt_); try reflexivity; try (destruct acc; reflexivity).
  - rewrite (IH _ (match acc with [] => best | _ => Some (rev acc) end)), (IH _ (match acc with [] => None | _ => Some (rev acc) end)).
    destruct (longest close (c :: acc) None t); [reflexivity|]. destruct acc; reflexivity.
  - apply IH.
Qed.
Lemma longest_none close t : forall acc, ~ In close t -> longest close acc None t = None.
Proof.
  induction t as [|c t IH]; intros acc H; cbn [longest]; [reflexivity|].
  destruct (Ascii.eqb_spec c close) as [->|_]; [exfalso; apply H; left; reflexivity|].
  destruct (Ascii.eqb c gt_); [reflexivity|]. apply IH. intros I. apply H. right. exact I.
Qed.
Lemma longest_word close w post : forall acc, ~ In close w -> ~ In gt_ w -> (close = gt_ \/ ~ In close post) ->
  longest close acc None (w ++ close :: post) = match rev acc ++ w with [] => None | g => Some g end.
Proof.
  induction w as [|c w IH]; intros acc Hc Hg Hp; cbn [app longest].
  - rewrite Ascii.eqb_refl, app_nil_r.
    assert (E : match acc with [] => None | _ :: _ => Some (rev acc) end = match rev acc with [] => None | p :: l => Some (p :: l) end).
    { destruct acc as [|x acc]; [reflexivity|]. cbn [rev]. destruct (rev acc); reflexivity. }
    destruct (Ascii.eqb_spec close gt_) as [Eg|Ng]; [exact E|].
    destruct Hp as [Hp|Hp]; [contradiction|]. rewrite longest_spec, longest_none by exact Hp. exact E.
  - destruct (Ascii.eqb_spec c close) as [->|_]; [exfalso; apply Hc; left; reflexivity|].
    destruct (Ascii.eqb_spec c gt_) as [->|_]; [exfalso; apply Hg; left; reflexivity|].
    rewrite IH; [|intros I; apply Hc; right; exact I|intros I; apply Hg; right; exact I|exact Hp].
    cbn [rev]. rewrite <- app_assoc. reflexivity.
Qed.
Lemma capture_skip open close pre t : ~ In open pre -> capture open close (pre ++ t) = capture open close t.
Proof.
  induction pre as [|c pre IH]; intros H; cbn [app capture]; [reflexivity|].
  destruct (Ascii.eqb_spec c open) as [->|_]; [exfalso; apply H; left; reflexivity|]. apply IH. intros I. apply H. right. exact I.
Qed.

(** In a directive that holds the path between its only quotes, or between chevrons and without any
    quote, that path is what is looked up. *)
Theorem C35_written_path :
  forall pre w post,
    w <> [] -> ~ In quote w -> ~ In gt_ w -> ~ In quote pre -> ~ In quote post ->
    re_quote (pre ++ quote :: w ++ quote :: post) = Some w /\
    (~ In lt_ pre -> re_quote (pre ++ lt_ :: w ++ gt_ :: post) = None /\ re_chevron (pre ++ lt_ :: w ++ gt_ :: post) = Some w).
Proof.
  intros pre w post Hw Hq Hg Hpre Hpost. split; [|intros Hlt; split].
  - unfold re_quote. rewrite capture_skip by exact Hpre. cbn [capture]. rewrite Ascii.eqb_refl.
    rewrite longest_word; [|exact Hq|exact Hg|right; exact Hpost]. cbn [rev app]. destruct w; [contradiction|reflexivity].
  - unfold re_quote. replace (pre ++ lt_ :: w ++ gt_ :: post) with ((pre ++ lt_ :: w ++ gt_ :: post) ++ []) by apply app_nil_r.
    rewrite capture_skip; [reflexivity|]. intros I. repeat (apply in_app_iff in I; destruct I as [I|I]; try tauto; simpl in I).
    destruct I as [I|I]; [discriminate I|]. apply in_app_iff in I. destruct I as [I|[I|I]]; try tauto. discriminate I.
  - unfold re_chevron. rewrite capture_skip by exact Hlt. cbn [capture]. rewrite Ascii.eqb_refl.
    rewrite longest_word; [|exact Hg|exact Hg|left; reflexivity]. cbn [rev app]. destruct w; [contradiction|reflexivity].
Qed.
Print Assumptions C35_written_path.

(** [longest] finds the longest group. *)
Definition group_in (close : ascii) (t g : path) : Prop :=
  g <> [] /\ ~ In gt_ g /\ exists rest, t = g ++ close :: rest.
Lemma longest_groups : forall close t acc best,
  match longest close acc best t with
  | Some g =>
      (exists x rest, t = x ++ close :: rest /\ ~ In gt_ x /\ rev acc ++ x = g /\ g <> [] /\
         forall x' rest', t = x' ++ close :: rest' -> ~ In gt_ x' -> List.length x' <= List.length x)
      \/ (best = Some g /\ forall x rest, t = x ++ close :: rest -> ~ In gt_ x -> rev acc ++ x = [])
  | None => best = None /\ forall x rest, t = x ++ close :: rest -> ~ In gt_ x -> rev acc ++ x = []
  end.
Proof.
  intros close. induction t as [|c t IH]; intros acc best; cbn [longest].
  - assert (E : forall x rest, [] = x ++ close :: rest -> ~ In gt_ x -> rev acc ++ x = []) by (intros [|] rest E; discriminate).
    destruct best; [right|]; auto.
  - destruct (Ascii.eqb_spec c gt_) as [->|Ng].
    + (* the group ends here *)
      assert (Only : forall x rest, gt_ :: t = x ++ close :: rest -> ~ In gt_ x -> x = []).
      { intros [|y x] rest E H; [reflexivity|]. injection E as E _. exfalso. apply H. left. symmetry. exact E. }
      destruct (Ascii.eqb_spec gt_ close) as [<-|Nc].
      * destruct acc as [|a acc].
        -- destruct best as [b|]; [right|]; (split; [reflexivity|]); intros x rest E H; rewrite (Only _ _ E H); reflexivity.
        -- left. exists [], t. split; [reflexivity|]. split; [intros []|]. split; [apply app_nil_r|].
           split; [intros Z; cbn in Z; destruct (rev acc); discriminate|].
           intros x' rest' E H. rewrite (Only _ _ E H). auto.
      * assert (No : forall x rest, gt_ :: t = x ++ close :: rest -> ~ In gt_ x -> False).
        { intros x rest E H. rewrite (Only _ _ E H) in E. injection E as E _. auto. }
        destruct best as [b|]; [right|]; (split; [reflexivity|]); intros x rest E H; destruct (No _ _ E H).
    + set (best' := if Ascii.eqb c close then match acc with [] => best | _ :: _ => Some (rev acc) end else best).
      specialize (IH (c :: acc) best').
      assert (Never : forall x, rev (c :: acc) ++ x <> []) by (intros x Z; cbn in Z; destruct (rev acc); discriminate).
      assert (Here : (forall x rest, t = x ++ close :: rest -> ~ In gt_ x -> rev (c :: acc) ++ x = []) ->
                forall x rest, c :: t = x ++ close :: rest -> ~ In gt_ x -> x = [] /\ c = close).
      { intros N x rest E H. destruct x as [|y x]; [injection E as -> _; auto|]. injection E as <- E. exfalso.
        apply (Never x), (N x rest E). intros Z. apply H. right. exact Z. }
      destruct (longest close (c :: acc) best' t) as [g|].
      * destruct IH as [(x & rest & -> & Nx & Eg & Gn & Max)|(Eb & N)].
        -- left. exists (c :: x), rest. split; [reflexivity|]. split; [intros [Z|Z]; auto|].
           split; [rewrite <- Eg; cbn; rewrite <- app_assoc; reflexivity|]. split; [exact Gn|].
           intros [|y x'] rest' E H; cbn; [apply Nat.le_0_l|]. injection E as _ E. apply le_n_S, (Max _ rest' E).
           intros Z. apply H. right. exact Z.
        -- specialize (Here N). unfold best' in Eb. destruct (Ascii.eqb_spec c close) as [->|Nc].
           ++ destruct acc as [|a acc].
              ** right. split; [exact Eb|]. intros x rest E H. destruct (Here _ _ E H) as [-> _]. reflexivity.
              ** injection Eb as <-. left. exists [], t. split; [reflexivity|]. split; [intros []|]. split; [apply app_nil_r|].
                 split; [intros Z; cbn in Z; destruct (rev acc); discriminate|].
                 intros x' rest' E H. destruct (Here _ _ E H) as [-> _]. auto.
           ++ right. split; [exact Eb|]. intros x rest E H. destruct (Here _ _ E H) as [_ Z]. contradiction.
      * destruct IH as (Eb & N). specialize (Here N). unfold best' in Eb. destruct (Ascii.eqb_spec c close) as [->|Nc].
        -- destruct acc as [|a acc]; [|discriminate]. split; [exact Eb|].
           intros x rest E H. destruct (Here _ _ E H) as [-> _]. reflexivity.
        -- split; [exact Eb|]. intros x rest E H. destruct (Here _ _ E H) as [_ Z]. contradiction.
Qed.
Lemma longest_group : forall open close t,
  match longest close [] None t with
  | Some g => group_at open close (open :: t) g /\ forall g', group_at open close (open :: t) g' -> List.length g' <= List.length g
  | None => forall g, ~ group_at open close (open :: t) g
  end.
Proof.
  intros open close t. pose proof (longest_groups close t [] None) as H. destruct (longest close [] None t) as [g|].
  - destruct H as [(x & rest & -> & Nx & Eg & Gn & Max)|(Z & _)]; [|discriminate]. cbn in Eg. subst g. split.
    + split; [exact Gn|]. split; [exact Nx|]. exists rest. reflexivity.
    + intros g' (_ & Ng & rest' & E). injection E as E. exact (Max _ _ E Ng).
  - destruct H as (_ & N). intros g (Gn & Ng & rest & E). injection E as E. apply Gn, (N g rest E Ng).
Qed.

(** The path taken from a directive's text is exactly what the regular expressions <([^>]+)> and "([^>]+)" capture. *)
Theorem C35_captured :
  forall t g, (re_chevron t = Some g <-> captured lt_ gt_ t g) /\ (re_quote t = Some g <-> captured quote quote t g).
Proof.
  assert (G : forall open close t g, capture open close t = Some g <-> captured open close t g).
  { intros open close. induction t as [|c t IH]; intros g.
    - split; [discriminate|]. intros (pre & s & E & (_ & _ & rest & Es) & _). destruct pre, s; discriminate.
    - cbn [capture]. destruct (Ascii.eqb_spec c open) as [->|N].
      + pose proof (longest_group open close t) as L. destruct (longest close [] None t) as [b|].
        * destruct L as [L1 L2]. split.
          -- intros E. injection E as <-. exists [], (open :: t). repeat split; try (apply L1); auto.
             intros pre' s' g' _ Z. inversion Z.
          -- intros (pre & s & E & G1 & G2 & First). destruct pre as [|p pre].
             ++ cbn in E. subst s. f_equal. destruct L1 as (A1 & A2 & r1 & A3). destruct G1 as (B1 & B2 & r2 & B3).
                assert (Len : List.length b = List.length g).
                { apply Nat.le_antisymm; [apply G2|apply L2]; repeat split; eauto. }
                injection A3 as A3. injection B3 as B3. rewrite A3 in B3.
                clear - Len B3. revert g Len B3. induction b as [|x b IHb]; intros [|y g] Len B3; try discriminate; [reflexivity|].
                injection B3 as -> B3. f_equal. apply IHb; [injection Len as Len; exact Len|exact B3].
             ++ exfalso. apply (First [] (open :: t) b eq_refl); [cbn; apply Nat.lt_0_succ|exact L1].
        * rewrite IH. split; intros (pre & s & E & G1 & G2 & First).
          -- subst t. exists (open :: pre), s. split; [reflexivity|]. split; [exact G1|]. split; [exact G2|].
             intros [|p pre'] s' g' E' Z; [cbn in E'; subst s'; apply L|]. injection E' as _ E'.
             apply (First pre' s' g' E'). cbn in Z. apply Nat.succ_lt_mono. exact Z.
          -- destruct pre as [|p pre]; [cbn in E; subst s; destruct (L _ G1)|]. injection E as <- E.
             exists pre, s. split; [exact E|]. split; [exact G1|]. split; [exact G2|].
             intros pre' s' g' E' Z. apply (First (open :: pre') s' g'); [cbn; rewrite E'; reflexivity|cbn; apply -> Nat.succ_lt_mono; exact Z].
      + rewrite IH. assert (L : forall g s, s = c :: t -> ~ group_at open close s g).
        { intros g' s -> (_ & _ & rest & E). injection E as E _. contradiction. }
        split; intros (pre & s & E & G1 & G2 & First).
        * subst t. exists (c :: pre), s. split; [reflexivity|]. split; [exact G1|]. split; [exact G2|].
          intros [|p pre'] s' g' E' Z; [apply L; symmetry; exact E'|]. injection E' as _ E'.
          apply (First pre' s' g' E'). cbn in Z. apply Nat.succ_lt_mono. exact Z.
        * destruct pre as [|p pre]; [cbn in E; symmetry in E; destruct (L _ _ E G1)|]. injection E as <- E.
          exists pre, s. split; [exact E|]. split; [exact G1|]. split; [exact G2|].
          intros pre' s' g' E' Z. apply (First (c :: pre') s' g'); [cbn; rewrite E'; reflexivity|cbn; apply -> Nat.succ_lt_mono; exact Z]. }
  intros t g. split; apply G.
Qed.
Print Assumptions C35_captured.
(** A first pair of chevrons with nothing between them is passed over; quotes reach as far as they can. *)
Example C35_captured_nontrivial :
  re_chevron (list_ascii_of_string "#include <> <<a> <b>") = Some (list_ascii_of_string "<a") /\
  re_quote (list_ascii_of_string "x" ++ quote :: list_ascii_of_string "a" ++ quote :: list_ascii_of_string "b" ++ [quote]) =
    Some (list_ascii_of_string "a" ++ quote :: list_ascii_of_string "b").
Proof. split; reflexivity. Qed.

(** A quote elsewhere in the text of the directive, in a comment say, changes the path. *)
Definition c35_text (s : string) : path := list_ascii_of_string s.
Theorem C35_comment_refuted :
  exists pre w post, ~ In quote w /\ ~ In gt_ w /\ ~ In quote pre /\
    re_quote (pre ++ quote :: w ++ quote :: post) <> Some w /\
    exists w2, w2 <> w /\ re_quote (pre ++ lt_ :: w ++ gt_ :: post) = Some w2.
Proof.
  exists (c35_text "#include "), (c35_text "a"), (c35_text " // see " ++ quote :: c35_text "b" ++ [quote]).
  split; [cbn; intuition discriminate|]. split; [cbn; intuition discriminate|]. split; [cbn; intuition discriminate|]. split.
  - vm_compute. discriminate.
  - exists (c35_text "b"). split; [discriminate|reflexivity].
Qed.
Print Assumptions C35_comment_refuted.

(** A workspace with an include directory inside it. *)
Definition c35_place (l : list string) : place := map list_ascii_of_string l.
Definition c35_world : world :=
  World [(c35_place ["w"; "main.sp"], 1); (c35_place ["w"; "lib"; "a.inc"], 2); (c35_place ["w"; "inc"; "a.inc"], 3);
         (c35_place ["w"; "inc"; "b.sp"], 4)]%string
        [c35_place ["w"]; c35_place ["w"; "inc"]]%string.
Lemma c35_proper : proper_world c35_world.
Proof.
  unfold proper_world, c35_world, c35_place. cbn [on_disk roots map fst snd list_ascii_of_string].
  assert (P : forall x, In x (c35_place ["w"; "main.sp"; "lib"; "a.inc"; "inc"; "b.sp"]%string) -> proper_name x).
  { intros x H. cbn in H. repeat apply conj; intros C; try (subst x; intuition discriminate);
      intuition (subst x; try discriminate); cbn in C; intuition discriminate. }
  split; [|split; [|split]].
  - intros p f H. cbn [In] in H. decompose [or] H; try contradiction;
      match goal with E : (_, _) = (_, _) |- _ => injection E as <- <- end; repeat constructor; apply P; cbn; tauto.
  - repeat constructor; apply P; cbn; tauto.
  - repeat constructor; cbn; intuition discriminate.
  - repeat constructor; cbn; intuition discriminate.
Qed.
Example C35_nontrivial :
  proper_world c35_world /\ belongs c35_world (c35_place ["w"; "main.sp"]%string) (c35_place ["w"]%string) /\
  preprocessor_include (db_of c35_world) 1 true (list_ascii_of_string "lib/../lib/a") = Ok (Some 2) /\
  preprocessor_include (db_of c35_world) 1 true (list_ascii_of_string "a") = Ok (Some 3) /\
  preprocessor_include (db_of c35_world) 1 false (list_ascii_of_string "b.sp") = Ok (Some 4) /\
  preprocessor_include (db_of c35_world) 1 false (list_ascii_of_string "b") = Ok None /\
  file_include (db_of c35_world) 1 false (list_ascii_of_string "#include <a>") = Ok (Resolved 3 Chevrons Inc).
Proof.
  split; [exact c35_proper|]. split; [|repeat split; vm_compute; reflexivity].
  exists [], [c35_place ["w"; "inc"]%string]. split; [reflexivity|]. split.
  - exists (c35_place ["main.sp"]%string). reflexivity.
  - intros r [<-|[]] (rest & E). discriminate E.
Qed.
