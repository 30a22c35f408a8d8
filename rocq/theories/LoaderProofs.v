(** Lemmas about the loader. *)
From Coq Require Import List Bool Arith String Ascii Lia.
From Verif Require Import LoaderModel LoaderSpec.
Import ListNotations.
Local Open Scope string_scope.
Local Open Scope nat_scope.
Local Open Scope list_scope.

Lemma path_eqb_spec a b : path_eqb a b = true <-> a = b.
Proof. unfold path_eqb. destruct (list_eq_dec string_dec a b); split; congruence. Qed.
Lemma path_eqb_refl a : path_eqb a a = true.
Proof. now apply path_eqb_spec. Qed.
Lemma path_eqb_false a b : path_eqb a b = false <-> a <> b.
Proof. unfold path_eqb. destruct (list_eq_dec string_dec a b); split; congruence. Qed.

(** ** Paths *)
Lemma starts_with_spec p base : starts_with p base = true <-> under base p.
Proof.
  revert p. induction base as [|b base IH]; intros p; simpl.
  - split; [intros _; now exists p|reflexivity].
  - destruct p as [|c p].
    + split; [discriminate|intros [r Hr]; discriminate].
    + rewrite andb_true_iff, IH, String.eqb_eq. split.
      * intros [-> [r ->]]. now exists r.
      * intros [r Hr]. simpl in Hr. injection Hr as -> ->. split; [reflexivity|now exists r].
Qed.

Lemma under_refl p : under p p.
Proof. exists []. now rewrite app_nil_r. Qed.
Lemma under_trans a b c : under a b -> under b c -> under a c.
Proof. intros [r ->] [s ->]. exists (r ++ s). now rewrite app_assoc. Qed.
Lemma under_length a b : under a b -> List.length a <= List.length b.
Proof. intros [r ->]. rewrite app_length. lia. Qed.
Lemma under_same a b : under a b -> List.length b <= List.length a -> a = b.
Proof. intros [r ->] H. rewrite app_length in H. destruct r; [now rewrite app_nil_r|simpl in H; lia]. Qed.
Lemma under_app a r : under a (a ++ r).
Proof. now exists r. Qed.

(** two paths above the same path are one above the other *)
Lemma under_linear a b p : under a p -> under b p -> List.length a <= List.length b -> under a b.
Proof.
  revert b p. induction a as [|x a IH]; intros b p [r Hr] [s Hs] Hl; simpl in *.
  - now exists b.
  - destruct b as [|y b]; simpl in *; [lia|]. subst p. injection Hs as -> Hs.
    destruct (IH b (a ++ r)) as [t ->]; [now exists r|exists s; exact Hs|lia|]. now exists t.
Qed.

(** ** Extensions *)
Lemma after_last_dot_none s : after_last_dot s = None <-> no_dot s.
Proof.
  induction s as [|c s IH]; simpl; [tauto|].
  destruct (after_last_dot s) as [[b a]|].
  - split; [discriminate|]. intros [_ H]. apply IH in H. discriminate.
  - destruct (Ascii.eqb_spec c "."%char) as [->|Hne].
    + split; [discriminate|]. intros [H _]. now elim H.
    + split; [intros _; split; [exact Hne|now apply IH]|reflexivity].
Qed.
Lemma after_last_dot_some s b a : after_last_dot s = Some (b, a) <-> s = (b ++ "." ++ a)%string /\ no_dot a.
Proof.
  revert b a. induction s as [|c s IH]; intros b a; simpl.
  - split; [discriminate|]. intros [H _]. destruct b; discriminate.
  - destruct (after_last_dot s) as [[b' a']|] eqn:E.
    + split.
      * intros H. injection H as <- <-. destruct (proj1 (IH b' a') eq_refl) as [-> Hn]. now split.
      * intros [H Hn]. destruct b as [|x b]; simpl in H; injection H as Hc Hs.
        -- subst s. apply after_last_dot_none in Hn. rewrite Hn in E. discriminate.
        -- assert (Some (b', a') = Some (b, a)) as Heq by (apply IH; now split). injection Heq as -> ->. now subst.
    + pose proof (proj1 (after_last_dot_none s) E) as Hno.
      destruct (Ascii.eqb_spec c "."%char) as [->|Hne].
      * split.
        -- intros H. injection H as <- <-. now split.
        -- intros [H Hn]. destruct b as [|x b]; simpl in H; [injection H as Hs|injection H as Hc Hs].
           ++ now subst.
           ++ assert (None = Some (b, a)) by (apply IH; now split). discriminate.
      * split; [discriminate|].
        intros [H Hn]. destruct b as [|x b]; simpl in H; injection H as Hc Hs.
        -- now elim Hne.
        -- assert (None = Some (b, a)) by (apply IH; now split). discriminate.
Qed.

Lemma name_extension_spec n e : name_extension n = Some e <-> ends_in n e.
Proof.
  unfold name_extension, ends_in. destruct (String.eqb_spec n "..") as [->|Hne].
  - split; [discriminate|]. intros (stem & _ & _ & _ & H). now elim H.
  - destruct (after_last_dot n) as [[b a]|] eqn:E.
    + destruct b as [|x b].
      * split; [discriminate|]. intros (stem & Hs & Hn & Hd & _).
        assert (after_last_dot n = Some (stem, e)) as H by (apply after_last_dot_some; now split).
        rewrite E in H. injection H as <- _. now elim Hs.
      * split.
        -- intros H. injection H as <-. apply after_last_dot_some in E. destruct E as [E1 E2].
           exists (String x b). repeat split; auto. discriminate.
        -- intros (stem & Hs & Hn & Hd & _).
           assert (after_last_dot n = Some (stem, e)) as H by (apply after_last_dot_some; now split).
           rewrite E in H. now injection H as _ ->.
    + split; [discriminate|]. intros (stem & Hs & Hn & Hd & _).
      assert (after_last_dot n = Some (stem, e)) as H by (apply after_last_dot_some; now split).
      rewrite E in H. discriminate.
Qed.

Lemma extension_spec p e : extension p = Some e <-> path_ends_in p e.
Proof.
  unfold extension, file_name, path_ends_in. split.
  - destruct (rev p) as [|n r] eqn:E; [discriminate|]. intros H. apply name_extension_spec in H.
    exists (rev r), n. split; [|exact H]. rewrite <- (rev_involutive p), E. reflexivity.
  - intros (dir & n & -> & H). rewrite rev_app_distr. simpl. now apply name_extension_spec.
Qed.

Lemma has_extension_spec d p : has_extension d p = true <-> wanted_extension (extensions d) p.
Proof.
  unfold has_extension, wanted_extension. rewrite existsb_exists. split.
  - intros (e & He & Heq). apply String.eqb_eq in Heq. exists e. split; [exact He|].
    destruct (extension p) as [x|] eqn:E; simpl in Heq.
    + left. subst x. now apply extension_spec.
    + right. split; [exact Heq|]. intros x Hx. apply extension_spec in Hx. congruence.
  - intros (e & He & Hor). exists e. split; [exact He|]. apply String.eqb_eq.
    destruct Hor as [H|[-> H]].
    + apply extension_spec in H. now rewrite H.
    + destruct (extension p) as [x|] eqn:E; [|reflexivity]. apply extension_spec in E. now elim (H x).
Qed.

(** ** Inclusion *)
Lemma longest_spec p incs acc :
  (forall a, acc = Some a -> under a p) ->
  let r := fold_left (fun acc incl =>
          if starts_with p incl
          then Some (match acc with
                     | Some prev => if starts_with prev incl then prev else incl
                     | None => incl
                     end)
          else acc) incs acc in
  match r with
  | None => acc = None /\ forall i, In i incs -> ~ under i p
  | Some m => under m p /\ (In m incs \/ acc = Some m) /\
              (forall i, In i incs -> under i p -> List.length i <= List.length m) /\
              (forall a, acc = Some a -> List.length a <= List.length m)
  end.
Proof.
  revert acc. induction incs as [|x incs IH]; intros acc Hacc; simpl.
  - destruct acc as [a|].
    + split; [now apply Hacc|]. split; [now right|]. split; [intros i []|]. intros b Hb. injection Hb as ->. lia.
    + split; [reflexivity|intros i []].
  - destruct (starts_with p x) eqn:Ex.
    + apply starts_with_spec in Ex.
      set (m0 := match acc with Some prev => if starts_with prev x then prev else x | None => x end).
      assert (Hm0 : under m0 p).
      { unfold m0. destruct acc as [a|]; [destruct (starts_with a x)|]; auto. }
      assert (Hx0 : List.length x <= List.length m0).
      { unfold m0. destruct acc as [a|]; [destruct (starts_with a x) eqn:Ea|]; auto.
        apply starts_with_spec in Ea. now apply under_length. }
      assert (Ha0 : forall a, acc = Some a -> List.length a <= List.length m0).
      { intros a ->. unfold m0. destruct (starts_with a x) eqn:Ea; auto.
        destruct (le_lt_dec (List.length x) (List.length a)) as [Hle|Hlt]; [|lia].
        pose proof (under_linear x a p Ex (Hacc a eq_refl) Hle) as Hu. apply starts_with_spec in Hu. congruence. }
      assert (Hin0 : m0 = x \/ acc = Some m0).
      { unfold m0. destruct acc as [a|]; [destruct (starts_with a x)|]; auto. }
      specialize (IH (Some m0)). simpl in IH.
      assert (Hs : forall a, Some m0 = Some a -> under a p) by (intros a Ha; injection Ha as <-; exact Hm0).
      specialize (IH Hs). destruct (fold_left _ incs (Some m0)) as [m|].
      * destruct IH as (H1 & H2 & H3 & H4). split; [exact H1|]. specialize (H4 m0 eq_refl).
        split; [|split].
        -- destruct H2 as [H2|H2]; [left; now right|]. injection H2 as ->.
           destruct Hin0 as [->|Hin0]; [left; now left|now right].
        -- intros i [->|Hi] Hu; [lia|now apply H3].
        -- intros a Ha. specialize (Ha0 a Ha). lia.
      * destruct IH as [IH _]. discriminate.
    + assert (Hx : ~ under x p) by (rewrite <- starts_with_spec; congruence).
      specialize (IH acc Hacc). simpl in IH.
      destruct (fold_left _ incs acc) as [m|].
      * destruct IH as (H1 & H2 & H3 & H4). split; [exact H1|]. split; [|split; [|exact H4]].
        -- destruct H2; [left; now right|now right].
        -- intros i [->|Hi] Hu; [contradiction|now apply H3].
      * destruct IH as [IH1 IH2]. split; [exact IH1|]. intros i [->|Hi]; auto.
Qed.

Lemma includes_path_spec d p : includes_path d p = true <-> included d p.
Proof.
  unfold includes_path, included.
  pose proof (longest_spec p (include d) None) as H. simpl in H.
  assert (H0 : forall a, @None path = Some a -> under a p) by discriminate. specialize (H H0). clear H0.
  destruct (fold_left _ (include d) None) as [m|].
  - destruct H as (Hm & Hin & Hlong & _). destruct Hin as [Hin|Hin]; [|discriminate].
    rewrite negb_true_iff. split.
    + intros Hex. exists m. split; [exact Hin|]. split; [exact Hm|]. intros e He Hu.
      destruct (le_lt_dec (List.length m) (List.length e)) as [Hle|Hlt]; [|exact Hlt].
      pose proof (under_linear m e p Hm Hu Hle) as Hme.
      assert (existsb (fun excl => starts_with p excl && starts_with excl m) (exclude d) = true) as Ht.
      { apply existsb_exists. exists e. split; [exact He|]. apply andb_true_iff. split; now apply starts_with_spec. }
      congruence.
    + intros (i & Hi & Hu & Hall). destruct (existsb _ (exclude d)) eqn:Ex; [|reflexivity]. exfalso.
      apply existsb_exists in Ex. destruct Ex as (e & He & Hb). apply andb_true_iff in Hb. destruct Hb as [Hb1 Hb2].
      apply starts_with_spec in Hb1, Hb2. specialize (Hall e He Hb1). specialize (Hlong i Hi Hu).
      apply under_length in Hb2. lia.
  - destruct H as [_ Hno]. split; [discriminate|]. intros (i & Hi & Hu & _). now elim (Hno i Hi).
Qed.

Lemma dirs_contain_file_spec d p :
  dirs_contain_file d p = true <-> wanted_extension (extensions d) p /\ included d p.
Proof.
  unfold dirs_contain_file. rewrite <- has_extension_spec, <- includes_path_spec.
  destruct (has_extension d p); split; try tauto; try discriminate; intros [H _]; discriminate.
Qed.

(** ** The disk *)
Fixpoint node_ind2 (P : node -> Prop)
    (Hf : forall b, P (File b)) (Hd : forall kids, (forall n k, In (n, k) kids -> P k) -> P (Dir kids)) (n : node) : P n :=
  match n with
  | File b => Hf b
  | Dir kids =>
      Hd kids ((fix go (l : list (string * node)) : forall n k, In (n, k) l -> P k :=
        match l with
        | [] => fun n k H => match H with end
        | (n0, k0) :: l' => fun n k H =>
            match H with
            | or_introl e => eq_ind k0 P (node_ind2 P Hf Hd k0) k (f_equal snd e)
            | or_intror H' => go l' n k H'
            end
        end) kids)
  end.

Lemma kid_in name kids k : kid name kids = Some k -> In (name, k) kids.
Proof.
  induction kids as [|[n x] kids IH]; simpl; [discriminate|].
  destruct (String.eqb_spec n name) as [->|Hne]; intros H; [injection H as ->; now left|right; auto].
Qed.
Lemma in_kid name kids k : NoDup (map fst kids) -> In (name, k) kids -> kid name kids = Some k.
Proof.
  induction kids as [|[n x] kids IH]; simpl; [intros _ []|]. intros Hnd [H|H].
  - injection H as -> ->. now rewrite String.eqb_refl.
  - inversion Hnd as [|y l Hni Hnd' Heq]; subst. destruct (String.eqb_spec n name) as [->|Hne].
    + elim Hni. apply in_map_iff. now exists (name, k).
    + now apply IH.
Qed.

Lemma lookup_app n a b : lookup n (a ++ b) = match lookup n a with Some m => lookup m b | None => None end.
Proof.
  revert n. induction a as [|c a IH]; intros n; simpl; [reflexivity|].
  destruct n as [x|kids]; [reflexivity|]. destruct (kid c kids) as [k|]; [apply IH|reflexivity].
Qed.

Lemma sound_lookup n p m : sound_disk n -> lookup n p = Some m -> sound_disk m.
Proof.
  revert n. induction p as [|c p IH]; intros n Hs H; simpl in H.
  - now injection H as <-.
  - destruct n as [b|kids]; [discriminate|]. destruct (kid c kids) as [k|] eqn:Ek; [|discriminate].
    inversion Hs as [|kids' Hnd Hall Heq]; subst. apply (IH k); [|exact H]. apply (Hall c). now apply kid_in.
Qed.

(** ** The walk *)
Lemma walk_unfold keep at_ n :
  walk keep at_ n =
  if keep at_ (is_dir n) then
    (at_, is_dir n) :: match n with
                       | File _ => []
                       | Dir kids => flat_map (fun k => walk keep (at_ ++ [fst k]) (snd k)) kids
                       end
  else [].
Proof. destruct n; reflexivity. Qed.

(** an entry is visited exactly when it and everything between it and the start of the walk is kept *)
Lemma walk_spec keep n : sound_disk n -> forall at_ p b,
  In (p, b) (walk keep at_ n) <->
  exists rest m, p = at_ ++ rest /\ lookup n rest = Some m /\ is_dir m = b /\
    forall r1 r2 m1, rest = r1 ++ r2 -> lookup n r1 = Some m1 -> keep (at_ ++ r1) (is_dir m1) = true.
Proof.
  induction n as [x|kids IH] using node_ind2; intros Hs at_ p b.
  - rewrite walk_unfold. cbn [is_dir]. split.
    + destruct (keep at_ false) eqn:Ek; [|intros []]. intros [H|[]]. injection H as <- <-.
      exists [], (File x). rewrite app_nil_r. repeat split; auto.
      intros r1 r2 m1 Hr Hl. symmetry in Hr. apply app_eq_nil in Hr. destruct Hr as [-> ->].
      simpl in Hl. injection Hl as <-. rewrite app_nil_r. exact Ek.
    + intros (rest & m & -> & Hl & Hb & Hk). destruct rest as [|c rest]; [|discriminate].
      simpl in Hl. injection Hl as <-. specialize (Hk [] [] (File x) eq_refl eq_refl). rewrite app_nil_r in Hk.
      cbn [is_dir] in Hk. rewrite Hk, app_nil_r. left. now rewrite <- Hb.
  - inversion Hs as [|kids' Hnd Hall Heq]; subst kids'. rewrite walk_unfold. cbn [is_dir]. split.
    + destruct (keep at_ true) eqn:Ek; [|intros []]. intros [H|H].
      * injection H as <- <-. exists [], (Dir kids). rewrite app_nil_r. repeat split; auto.
        intros r1 r2 m1 Hr Hl. symmetry in Hr. apply app_eq_nil in Hr. destruct Hr as [-> ->].
        simpl in Hl. injection Hl as <-. rewrite app_nil_r. exact Ek.
      * apply in_flat_map in H. destruct H as ([c k] & Hin & H). cbn [fst snd] in H.
        apply (IH c k Hin (Hall c k Hin)) in H. destruct H as (rest & m & -> & Hl & Hb & Hk).
        pose proof (in_kid c kids k Hnd Hin) as Hkid.
        exists (c :: rest), m. split; [now rewrite <- app_assoc|]. split; [simpl; now rewrite Hkid|]. split; [exact Hb|].
        intros r1 r2 m1 Hr Hl1. destruct r1 as [|c' r1].
        -- simpl in Hl1. injection Hl1 as <-. rewrite app_nil_r. exact Ek.
        -- simpl in Hr. injection Hr as <- Hr. simpl in Hl1. rewrite Hkid in Hl1.
           specialize (Hk r1 r2 m1 Hr Hl1). now rewrite <- app_assoc in Hk.
    + intros (rest & m & -> & Hl & Hb & Hk).
      pose proof (Hk [] rest (Dir kids) eq_refl eq_refl) as Hk0. rewrite app_nil_r in Hk0. cbn [is_dir] in Hk0.
      rewrite Hk0. destruct rest as [|c rest].
      * left. simpl in Hl. injection Hl as <-. rewrite app_nil_r. now rewrite <- Hb.
      * right. simpl in Hl. destruct (kid c kids) as [k|] eqn:Ekid; [|discriminate].
        pose proof (kid_in c kids k Ekid) as Hin. apply in_flat_map. exists (c, k). split; [exact Hin|]. cbn [fst snd].
        apply (IH c k Hin (Hall c k Hin)). exists rest, m. split; [now rewrite <- app_assoc|]. split; [exact Hl|].
        split; [exact Hb|]. intros r1 r2 m1 Hr Hl1. rewrite <- app_assoc. simpl.
        apply (Hk (c :: r1) r2 m1); [now rewrite Hr|]. simpl. now rewrite Ekid.
Qed.

(** each entry is visited once *)
Lemma walk_below keep n at_ p b : In (p, b) (walk keep at_ n) -> under at_ p.
Proof.
  revert at_. induction n as [x|kids IH] using node_ind2; intros at_; rewrite walk_unfold; cbn [is_dir].
  - destruct (keep at_ false); [|intros []]. intros [H|[]]. injection H as <- _. apply under_refl.
  - destruct (keep at_ true); [|intros []]. intros [H|H].
    + injection H as <- _. apply under_refl.
    + apply in_flat_map in H. destruct H as ([c k] & Hin & H). apply (IH c k Hin) in H.
      eapply under_trans; [apply (under_app at_ [c])|exact H].
Qed.

Lemma NoDup_app {A} (l m : list A) :
  NoDup l -> NoDup m -> (forall x, In x l -> In x m -> False) -> NoDup (l ++ m).
Proof.
  induction l as [|a l IH]; simpl; intros Hl Hm H; [exact Hm|].
  inversion Hl as [|x y Hni Hnd Heq]; subst. constructor.
  - rewrite in_app_iff. intros [Hx|Hx]; [contradiction|]. apply (H a); [now left|exact Hx].
  - apply IH; auto. intros x Hx Hx'. apply (H x); [now right|exact Hx'].
Qed.
Lemma NoDup_map_flat_map {A B C} (f : A -> list B) (g : B -> C) l :
  NoDup l -> (forall a, In a l -> NoDup (map g (f a))) ->
  (forall a b x, In a l -> In b l -> In x (map g (f a)) -> In x (map g (f b)) -> a = b) ->
  NoDup (map g (flat_map f l)).
Proof.
  induction l as [|a l IH]; simpl; intros Hnd Hin Hdis; [constructor|].
  inversion Hnd as [|x y Hni Hnd' Heq]; subst. rewrite map_app. apply NoDup_app.
  - apply Hin. now left.
  - apply IH; auto. intros a' b x Ha Hb. apply Hdis; now right.
  - intros x Hx Hx'. apply in_map_iff in Hx'. destruct Hx' as (y & Hy & Hy').
    apply in_flat_map in Hy'. destruct Hy' as (b & Hb & Hby).
    assert (a = b).
    { apply (Hdis a b x); [now left|now right|exact Hx|]. apply in_map_iff. now exists y. }
    subst b. contradiction.
Qed.

Lemma walk_nodup keep n : sound_disk n -> forall at_, NoDup (map fst (walk keep at_ n)).
Proof.
  induction n as [x|kids IH] using node_ind2; intros Hs at_; rewrite walk_unfold; cbn [is_dir].
  - destruct (keep at_ false); [|constructor]. constructor; [intros []|constructor].
  - inversion Hs as [|kids' Hnd Hall Heq]; subst kids'.
    destruct (keep at_ true); [|constructor]. cbn [map fst]. constructor.
    + intros H. apply in_map_iff in H. destruct H as ([q b] & Hq & H). cbn [fst] in Hq. subst q.
      apply in_flat_map in H. destruct H as ([c k] & Hin & H). apply walk_below in H.
      apply under_length in H. cbn [fst] in H. rewrite app_length in H. simpl in H. lia.
    + apply NoDup_map_flat_map.
      * apply NoDup_map_inv in Hnd. exact Hnd.
      * intros [c k] Hin. cbn [fst snd]. apply (IH c k Hin). now apply (Hall c).
      * intros [c1 k1] [c2 k2] x H1 H2 Hx1 Hx2.
        apply in_map_iff in Hx1, Hx2. destruct Hx1 as ([q1 b1] & E1 & Hw1). destruct Hx2 as ([q2 b2] & E2 & Hw2).
        cbn [fst snd] in *. subst q1 q2. apply walk_below in Hw1, Hw2.
        destruct Hw1 as [s1 Hs1]. destruct Hw2 as [s2 Hs2]. rewrite Hs1 in Hs2. rewrite <- !app_assoc in Hs2.
        apply app_inv_head in Hs2. simpl in Hs2. injection Hs2 as Hc _. subst c2.
        pose proof (in_kid _ _ _ Hnd H1) as K1. pose proof (in_kid _ _ _ Hnd H2) as K2. congruence.
Qed.

Lemma walk_root_spec disk d root p b :
  sound_disk disk ->
  (In (p, b) (walk_root disk d root) <->
   under root p /\ (exists m, lookup disk p = Some m /\ is_dir m = b) /\
   forall q k, under root q -> under q p -> lookup disk q = Some (Dir k) -> q = root \/ (~ In q (exclude d) /\ ~ In q (include d))).
Proof.
  intros Hs. unfold walk_root. destruct (lookup disk root) as [n|] eqn:En.
  - rewrite walk_spec by (now apply (sound_lookup disk root)). split.
    + intros (rest & m & -> & Hl & Hb & Hk). split; [apply under_app|].
      assert (Hloc : forall r, lookup disk (root ++ r) = lookup n r) by (intros r; rewrite lookup_app, En; reflexivity).
      split.
      * exists m. split; [|exact Hb]. now rewrite Hloc.
      * intros q k [r ->] Hq Hlq. rewrite Hloc in Hlq.
        destruct Hq as [r2 Hq]. rewrite <- app_assoc in Hq. apply app_inv_head in Hq.
        specialize (Hk r r2 (Dir k) Hq Hlq). unfold keep_entry in Hk. cbn [is_dir negb] in Hk.
        apply orb_true_iff in Hk. destruct Hk as [Hk|Hk].
        -- left. apply path_eqb_spec in Hk. now symmetry.
        -- right. rewrite forallb_forall in Hk. split; intros Hin.
           ++ specialize (Hk (root ++ r)). rewrite in_app_iff in Hk. specialize (Hk (or_introl Hin)).
              rewrite path_eqb_refl in Hk. discriminate.
           ++ specialize (Hk (root ++ r)). rewrite in_app_iff in Hk. specialize (Hk (or_intror Hin)).
              rewrite path_eqb_refl in Hk. discriminate.
    + intros ([rest ->] & (m & Hl & Hb) & Hk).
      assert (Hloc : forall r, lookup disk (root ++ r) = lookup n r) by (intros r; rewrite lookup_app, En; reflexivity).
      exists rest, m. split; [reflexivity|]. rewrite Hloc in Hl. split; [exact Hl|]. split; [exact Hb|].
      intros r1 r2 m1 Hr Hl1. unfold keep_entry. destruct m1 as [x|k]; [reflexivity|]. cbn [is_dir negb].
      apply orb_true_iff. specialize (Hk (root ++ r1) k). destruct Hk as [Hk|[Hk1 Hk2]].
      * apply under_app.
      * exists r2. rewrite <- app_assoc. now rewrite Hr.
      * now rewrite Hloc.
      * left. apply path_eqb_spec. now symmetry.
      * right. apply forallb_forall. intros it Hit. apply negb_true_iff. apply path_eqb_false. intros ->.
        rewrite in_app_iff in Hit. tauto.
  - split; [intros []|]. intros ([rest ->] & (m & Hl & _) & _). rewrite lookup_app, En in Hl. discriminate.
Qed.

(** what lies above something that exists is a directory *)
Lemma above_dir disk q p m : lookup disk p = Some m -> under q p -> q <> p -> exists k, lookup disk q = Some (Dir k).
Proof.
  intros Hl [r ->] Hne. rewrite lookup_app in Hl. destruct (lookup disk q) as [[b|k]|]; [|now exists k|discriminate].
  destruct r as [|c r]; [|discriminate]. rewrite app_nil_r in Hne. now elim Hne.
Qed.

Definition loads (disk : node) (d : directories) (p : path) : Prop :=
  exists c, In (p, c) (fst (load_entry disk (Dirs d) false)).

Lemma load_entry_files disk e w : fst (load_entry disk e w) = fst (load_entry disk e false).
Proof. destruct e; reflexivity. Qed.

Lemma load_entry_in disk d p c :
  In (p, c) (fst (load_entry disk (Dirs d) false)) <->
  c = read disk p /\ has_extension d p = true /\ exists root, In root (include d) /\ In (p, false) (walk_root disk d root).
Proof.
  unfold load_entry. cbn [fst]. rewrite in_map_iff. split.
  - intros ([q b] & Heq & H). cbn [fst] in Heq. injection Heq as -> <-. apply filter_In in H. destruct H as [H Hb].
    cbn [fst snd] in Hb. apply andb_true_iff in Hb. destruct Hb as [Hb He]. apply in_flat_map in H.
    destruct H as (root & Hr & H). split; [reflexivity|]. split; [exact He|]. exists root. split; [exact Hr|].
    apply negb_true_iff in Hb. now rewrite Hb in H.
  - intros (-> & He & root & Hr & H). exists (p, false). split; [reflexivity|]. apply filter_In. split.
    + apply in_flat_map. now exists root.
    + cbn [fst snd negb andb]. exact He.
Qed.

(** ** What the server knows after a message *)
Lemma handle_loaded_spec fs v p :
  (forall c1 c2, In (p, c1) fs -> In (p, c2) fs -> c1 = c2) ->
  handle_loaded v (Loaded fs) p = match find (fun x => path_eqb (fst x) p) fs with Some x => snd x | None => v p end.
Proof.
  unfold handle_loaded. revert v. induction fs as [|[q c] fs IH]; intros v Huniq; [reflexivity|].
  cbn [fold_left find fst snd]. rewrite IH by (intros c1 c2 H1 H2; apply Huniq; now right).
  destruct (path_eqb q p) eqn:Eq.
  - apply path_eqb_spec in Eq. subst q.
    destruct (find (fun x => path_eqb (fst x) p) fs) as [[q2 c2]|] eqn:Ef.
    + apply find_some in Ef. destruct Ef as [Hin Heq]. cbn [fst] in Heq. apply path_eqb_spec in Heq. subst q2.
      cbn [snd]. apply Huniq; [now right|now left].
    + unfold set_file_contents. now rewrite path_eqb_refl.
  - destruct (find (fun x => path_eqb (fst x) p) fs) as [x|]; [reflexivity|].
    unfold set_file_contents. now rewrite Eq.
Qed.

(** a list of files with the contents they have on [disk] *)
Lemma handle_loaded_read disk fs v p :
  (forall q c, In (q, c) fs -> c = read disk q) ->
  (In p (map fst fs) -> handle_loaded v (Loaded fs) p = read disk p) /\
  (~ In p (map fst fs) -> handle_loaded v (Loaded fs) p = v p).
Proof.
  intros Hread. rewrite handle_loaded_spec.
  - destruct (find (fun x => path_eqb (fst x) p) fs) as [[q c]|] eqn:Ef.
    + apply find_some in Ef. destruct Ef as [Hin Heq]. cbn [fst] in Heq. apply path_eqb_spec in Heq. subst q.
      split; [intros _; now apply Hread|]. intros Hn. elim Hn. apply in_map_iff. now exists (p, c).
    + split; [|reflexivity]. intros Hin. apply in_map_iff in Hin. destruct Hin as ([q c] & Hq & Hin). cbn [fst] in Hq.
      subst q. apply (find_none _ _ Ef) in Hin. cbn [fst] in Hin. rewrite path_eqb_refl in Hin. discriminate.
  - intros c1 c2 H1 H2. apply Hread in H1, H2. congruence.
Qed.
