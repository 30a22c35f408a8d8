(** Go to definition and hover: places and nodes. *)
From Coq Require Import List ZArith Bool String Ascii Arith Lia.
From Verif Require Import PreTypes PosModel PosSpec PosProofs AstIdModel AstIdSpec AstIdProps TypeRefModel ItemTreeModel ItemTreeSpec ItemTreeProofs ItemTreeProps FindDefModel FindDefSpec FindDefProofs FindDefProps GotoModel GotoSpec.
Import ListNotations.
Local Open Scope string_scope.
Local Open Scope Z_scope.
Local Open Scope list_scope.

(** * Places *)
Lemma ltb_lt : forall a b, pos_ltb a b = true <-> lt a b.
Proof.
  intros a b. unfold pos_ltb, lt. rewrite orb_true_iff, andb_true_iff, !Z.ltb_lt, Z.eqb_eq. tauto.
Qed.
Lemma leb_le : forall a b, pos_leb a b = true <-> le a b.
Proof.
  intros a b. unfold pos_leb. rewrite negb_true_iff. destruct (pos_ltb b a) eqn:E.
  - apply ltb_lt in E. unfold lt, le in *. split; [discriminate|]. lia.
  - split; auto. intros _. assert (N : ~ lt b a) by (intros N; apply ltb_lt in N; congruence). unfold lt, le in *. lia.
Qed.
Lemma le_refl : forall a, le a a. Proof. intros. unfold le. lia. Qed.
Lemma le_trans : forall a b c, le a b -> le b c -> le a c. Proof. unfold le. intros. lia. Qed.
Lemma le_lt_trans : forall a b c, le a b -> lt b c -> lt a c. Proof. unfold le, lt. intros. lia. Qed.
Lemma lt_le_trans : forall a b c, lt a b -> le b c -> lt a c. Proof. unfold le, lt. intros. lia. Qed.
Lemma lt_not_le : forall a b, lt a b -> ~ le b a. Proof. unfold le, lt. intros. lia. Qed.

Lemma point_from_le : forall text b p, le p (point_from text b p).
Proof.
  induction text as [|c r IH]; intros [|b] p; cbn [point_from]; try apply le_refl.
  eapply le_trans; [|apply IH]. destruct (Ascii.eqb c newline); unfold le; cbn; lia.
Qed.
Lemma point_mono : forall text a b, (a <= b)%nat -> le (point text a) (point text b).
Proof.
  unfold point. intros text a b. generalize (Pos 0 0). revert a b.
  induction text as [|c r IH]; intros [|a] [|b] p L; cbn [point_from]; try apply le_refl; try lia.
  - apply (point_from_le (String c r) (S b) p).
  - apply IH. lia.
Qed.

(** * The smallest node *)
Lemma innermost_eq : forall text p n up, innermost text p n up =
  (fix first (i : nat) (l : list (string * syn)) : spot :=
         match l with
         | [] => Spot n up
         | (_, c) :: r =>
             if pos_ltb p (rend (node_range text c))
             then if pos_leb (rstart (node_range text c)) p then innermost text p c ((n, i) :: up) else Spot n up
             else first (S i) r
         end) 0%nat (s_kids n).
Proof. intros text p [k s e x c] up. reflexivity. Qed.

Lemma innermost_into : forall text p (n : syn) up l a b k i f c,
  in_order a (map (fun x => plain (snd x)) l) b -> nth_error l i = Some (f, c) -> holds text c p ->
  (fix first (i : nat) (l : list (string * syn)) : spot :=
         match l with
         | [] => Spot n up
         | (_, c) :: r =>
             if pos_ltb p (rend (node_range text c))
             then if pos_leb (rstart (node_range text c)) p then innermost text p c ((n, i) :: up) else Spot n up
             else first (S i) r
         end) k l = innermost text p c ((n, (k + i)%nat) :: up).
Proof.
  intros text p n up. induction l as [|[g d] r IH]; intros a b k i f c O N H; [destruct i; discriminate|].
  cbn [map snd] in O. destruct O as (O1 & O2 & O3). destruct i as [|i]; cbn [nth_error] in N.
  - injection N as <- <-. destruct H as (H1 & H2). rewrite (proj2 (ltb_lt _ _) H2), (proj2 (leb_le _ _) H1), Nat.add_0_r. auto.
  - destruct (pos_ltb p (rend (node_range text d))) eqn:E.
    + exfalso. apply ltb_lt in E. pose proof (in_order_kid _ _ _ (plain c) O3) as (X & Y & Z).
      { change (plain c) with ((fun x => plain (snd x)) (f, c)). apply in_map. eapply nth_error_In; eauto. }
      destruct H as (H1 & _). apply (lt_not_le _ _ E). eapply le_trans; [|exact H1]. apply point_mono. exact X.
    + rewrite (IH _ _ (S k) i f c O3 N H). do 3 f_equal. lia.
Qed.

Lemma innermost_stays : forall text p (n : syn) up l k, (forall c, In c (map snd l) -> ~ holds text c p) ->
  (fix first (i : nat) (l : list (string * syn)) : spot :=
         match l with
         | [] => Spot n up
         | (_, c) :: r =>
             if pos_ltb p (rend (node_range text c))
             then if pos_leb (rstart (node_range text c)) p then innermost text p c ((n, i) :: up) else Spot n up
             else first (S i) r
         end) k l = Spot n up.
Proof.
  intros text p n up. induction l as [|[g d] r IH]; intros k H; auto.
  destruct (pos_ltb p (rend (node_range text d))) eqn:E.
  - destruct (pos_leb (rstart (node_range text d)) p) eqn:E2; auto. exfalso. apply (H d); [cbn; auto|].
    apply ltb_lt in E. apply leb_le in E2. split; auto.
  - apply IH. intros c I. apply H. cbn; auto.
Qed.

Lemma innermost_smallest : forall text root p s, AstIdSpec.proper (plain root) -> smallest text root p s -> innermost text p root [] = s.
Proof.
  intros text root p s P (R & H & K). unfold spot_in in R.
  assert (G : forall n up, reach n up s -> under root n -> innermost text p n up = s).
  { induction 1 as [n up|n up i f c s I R' IH]; intros Un; rewrite innermost_eq.
    - apply innermost_stays. exact K.
    - assert (Ic : In c (children n)) by (unfold children; apply in_map_iff; exists (f, c); split; auto; eapply nth_error_In; eauto).
      assert (Uc : under root c) by (eapply under_trans; eauto; eapply under_kid; eauto; constructor).
      assert (O : in_order (start_of (plain n)) (map (fun x => plain (snd x)) (s_kids n)) (stop_of (plain n))).
      { rewrite <- plain_kids'. apply P. apply under_below; auto. }
      rewrite (innermost_into text p n up (s_kids n) _ _ 0%nat i f c O I); [apply IH; auto|].
      pose proof (proper_below _ _ P (under_below _ _ Uc)) as Pc.
      pose proof (below_range _ _ Pc (under_below _ _ (reach_under _ _ _ R')) (proper_le _ Pc)) as (X & Y & Z).
      destruct H as (H1 & H2). split.
      + eapply le_trans; [|exact H1]. apply point_mono. exact X.
      + eapply lt_le_trans; [exact H2|]. apply point_mono. exact Z. }
  apply G; auto. constructor.
Qed.

(** What is found is the smallest node there, in every tree that holds the place. *)
Lemma innermost_is_smallest : forall text root p, AstIdSpec.proper (plain root) -> holds text root p ->
  smallest text root p (innermost text p root []).
Proof.
  intros text root p P H.
  assert (G : forall z n up, size n = z -> AstIdSpec.proper (plain n) -> holds text n p -> spot_in root (Spot n up) -> smallest text root p (innermost text p n up)).
  2:{ apply (G (size root)); auto. constructor. }
  intros z. induction z as [z IH] using lt_wf_ind. intros n up Z Pn Hn Rn.
  rewrite innermost_eq.
  assert (O : in_order (start_of (plain n)) (map (fun x => plain (snd x)) (s_kids n)) (stop_of (plain n))).
  { rewrite <- plain_kids'. apply Pn. constructor. }
  destruct (List.find (fun x => pos_ltb p (rend (node_range text (snd x))) && pos_leb (rstart (node_range text (snd x))) p) (s_kids n)) as [[f c]|] eqn:F.
  - apply find_some in F as (I & F). apply andb_true_iff in F as (F1 & F2). cbn [snd] in *. apply ltb_lt in F1. apply leb_le in F2.
    destruct (In_nth_error _ _ I) as (i & N).
    rewrite (innermost_into text p n up (s_kids n) _ _ 0%nat i f c O N (conj F2 F1)).
    assert (Ic : In c (children n)) by (unfold children; apply in_map_iff; exists (f, c); auto).
    apply (IH (size c)); auto.
    + subst z. apply size_kid; auto.
    + eapply proper_below; [exact Pn|]. apply under_below. eapply under_kid; eauto. constructor.
    + split; auto.
    + unfold spot_in in *. clear -Rn N. remember [] as u0. clear Hequ0. remember (Spot n up) as s eqn:E. revert n up E N.
      induction Rn as [m u|m u j g d s I R IHR]; intros n up E N.
      * injection E as -> ->. eapply reach_kid; [exact N|constructor].
      * eapply reach_kid; [exact I|]. apply IHR; auto.
  - rewrite innermost_stays.
    + split; [auto|]. split; [auto|]. intros c I (H1 & H2). unfold children in I. apply in_map_iff in I as ((f & c') & <- & I).
      pose proof (find_none _ _ F _ I) as X. cbn [snd] in *. rewrite (proj2 (ltb_lt _ _) H2), (proj2 (leb_le _ _) H1) in X. discriminate.
    + intros c I (H1 & H2). apply in_map_iff in I as ((f & c') & <- & I).
      pose proof (find_none _ _ F _ I) as X. cbn [snd] in *. rewrite (proj2 (ltb_lt _ _) H2), (proj2 (leb_le _ _) H1) in X. discriminate.
Qed.

(** * Places of the editor *)
Lemma no_uses_entries : forall l k c, no_uses l -> entries k c l = [].
Proof.
  induction l as [|p l IH]; intros k c N; auto. inversion N as [|? ? P N']; subst. destruct p; [|discriminate]. cbn [entries]. auto.
Qed.
Lemma no_uses_seen : forall l u s, Forall PosSpec.proper l -> short l -> no_uses l -> seen l u s -> u = s.
Proof.
  intros l u s F S N Q. pose proof (unshift_seen 0 l u s F S Q) as U. rewrite no_uses_entries in U by auto. cbn in U. auto.
Qed.

Lemma shown_range : forall s lines r u, written s lines -> shown lines r u -> s_range_to_u_range (so_offsets s) r = u.
Proof.
  intros s lines [[l1 c1] [l2 c2]] [[m1 d1] [m2 d2]] W ((E1 & S1) & (E2 & S2) & C). cbn [rstart rend pline pcol] in *. subst m1 m2.
  unfold s_range_to_u_range. cbn [rstart rend pline pcol].
  destruct (W l1) as (F1 & H1 & O1). rewrite O1. rewrite (unshift_seen l1 _ _ _ F1 H1 S1). f_equal. f_equal.
  destruct C as [<-|(N1 & N2)].
  - apply (unshift_seen l1 _ _ _ F1 H1 S2).
  - rewrite no_uses_entries by auto. cbn. destruct (W l2) as (F2 & H2 & _). symmetry. apply (no_uses_seen _ _ _ F2 H2 N2 S2).
Qed.

Lemma same_le : forall s lines a a' b b', written s lines -> same lines a' a -> same lines b' b -> le a b -> le a' b'.
Proof.
  intros s lines [l1 c1] [m1 d1] [l2 c2] [m2 d2] W (E1 & S1) (E2 & S2) L. cbn [pline pcol] in *. subst m1 m2. unfold le in *. cbn [pline pcol] in *.
  destruct L as [L|(<- & L)]; [auto|]. right. split; auto.
  destruct (W l1) as (F & H & _). destruct (Z.le_gt_cases d1 d2) as [|G]; auto.
  pose proof (place_mono _ _ _ _ _ F (seen_place _ _ _ S2) (seen_place _ _ _ S1) (Z.lt_le_incl _ _ G)) as M.
  assert (c1 = c2) as <- by lia.
  pose proof (unshift_seen 0 _ _ _ F H S1). pose proof (unshift_seen 0 _ _ _ F H S2). lia.
Qed.

(** * Macro uses *)
Lemma contains_touch : forall k b e p d a i f, pline p = k ->
  offset_contains (Offset (Rng (Pos k b) (Pos k e)) d a i f) p = (b <=? pcol p) && (pcol p <=? e).
Proof.
  intros k b e [l c] d a i f E. cbn in E. subst l. unfold offset_contains. cbn [o_range rstart rend pline pcol].
  rewrite Z.ltb_irrefl, Z.eqb_refl. cbn [orb andb]. rewrite !Z.leb_antisym. destruct (c <? b), (e <? c); reflexivity.
Qed.
Lemma find_entries : forall k u l c, pline u = k ->
  match find (fun o => offset_contains o u) (entries k c l) with
  | Some o => exists before name args width info after, l = before ++ Use name args width info :: after /\
      c + edit_end before <= pcol u <= c + edit_end before + name /\
      (forall b n a w i r, l = b ++ Use n a w i :: r -> c + edit_end b <= pcol u <= c + edit_end b + n -> (List.length before <= List.length b)%nat) /\
      o = Offset (Rng (Pos k (c + edit_end before)) (Pos k (c + edit_end before + name))) (width - name) args (fst info) (snd info)
  | None => forall b n a w i r, l = b ++ Use n a w i :: r -> ~ (c + edit_end b <= pcol u <= c + edit_end b + n)
  end.
Proof.
  intros k u. induction l as [|p l IH]; intros c E.
  - cbn. intros [|] ? ? ? ? ? X; discriminate.
  - destruct p as [m|m a w [i f]]; cbn [entries].
    + specialize (IH (c + m) E). destruct (find _ (entries k (c + m) l)) as [o|].
      * destruct IH as (b & n & ar & w & inf & r & -> & T & M & ->). exists (Code m :: b), n, ar, w, inf, r. rewrite edit_end_cons. cbn [edit_width].
        replace (c + (m + edit_end b)) with (c + m + edit_end b) by lia. repeat split; auto; try lia.
        intros b' n' a' w' i' r' X T'. destruct b' as [|q b']; cbn [app] in X; [discriminate|]. injection X as <- X. cbn [List.length].
        apply le_n_S. eapply M; [exact X|]. rewrite edit_end_cons in T'. cbn [edit_width] in T'. lia.
      * intros b' n' a' w' i' r' X T'. destruct b' as [|q b']; cbn [app] in X; [discriminate|]. injection X as <- X.
        rewrite edit_end_cons in T'. cbn [edit_width] in T'. eapply IH; [exact X|]. lia.
    + cbn [find]. rewrite contains_touch by auto. destruct ((c <=? pcol u) && (pcol u <=? c + m)) eqn:B.
      * apply andb_true_iff in B as (B1 & B2). apply Z.leb_le in B1. apply Z.leb_le in B2.
        exists [], m, a, w, (i, f), l. cbn [app edit_end map fold_right fst snd List.length]. change (edit_end []) with 0. rewrite Z.add_0_r.
        split; [auto|]. split; [lia|]. split; [intros; lia|]. reflexivity.
      * assert (NB : ~ (c <= pcol u <= c + m)).
        { intros (B1 & B2). apply Z.leb_le in B1. apply Z.leb_le in B2. rewrite B1, B2 in B. discriminate. }
        specialize (IH (c + m + a) E). destruct (find _ (entries k (c + m + a) l)) as [o|].
        -- destruct IH as (b & n & ar & w' & inf & r & -> & T & M & ->). exists (Use m a w (i, f) :: b), n, ar, w', inf, r. rewrite edit_end_cons. cbn [edit_width].
           replace (c + (m + a + edit_end b)) with (c + m + a + edit_end b) by lia. repeat split; auto; try lia.
           intros b' n' a' w2 i' r' X T'. destruct b' as [|q b']; cbn [app] in X.
           ++ injection X as <- <- <- <- <-. change (edit_end []) with 0 in T'. lia.
           ++ injection X as <- X. cbn [List.length]. apply le_n_S. eapply M; [exact X|]. rewrite edit_end_cons in T'. cbn [edit_width] in T'. lia.
        -- intros b' n' a' w2 i' r' X T'. destruct b' as [|q b']; cbn [app] in X.
           ++ injection X as <- <- <- <- <-. change (edit_end []) with 0 in T'. lia.
           ++ injection X as <- X. rewrite edit_end_cons in T'. cbn [edit_width] in T'. eapply IH; [exact X|]. lia.
Qed.

Lemma find_use_code : forall s lines u, written s lines -> in_code lines u -> find_use (so_offsets s) u = None.
Proof.
  intros s lines u W C. unfold find_use. destruct (W (pline u)) as (_ & _ & ->).
  pose proof (find_entries (pline u) u (lines (pline u)) 0 eq_refl) as F. destruct (find _ _); auto.
  destruct F as (b & n & a & w & i & r & E & T & _). exfalso. apply (C b n). exists a, w, i, r. split; auto.
Qed.
Lemma before_unique : forall (l : list piece) b1 x1 r1 b2 x2 r2, l = b1 ++ x1 :: r1 -> l = b2 ++ x2 :: r2 -> (List.length b1 = List.length b2)%nat ->
  b1 = b2 /\ x1 = x2 /\ r1 = r2.
Proof.
  induction l as [|p l IH]; intros [|q1 b1] x1 r1 [|q2 b2] x2 r2 E1 E2 L; cbn in *; try discriminate.
  - injection E1 as -> ->. injection E2 as -> ->. auto.
  - injection E1 as -> E1. injection E2 as -> E2. destruct (IH _ _ _ _ _ _ E1 E2) as (-> & -> & ->); auto.
Qed.
Lemma before_order : forall (l : list piece) b1 x1 r1 b2 x2 r2, l = b1 ++ x1 :: r1 -> l = b2 ++ x2 :: r2 -> (List.length b1 < List.length b2)%nat ->
  exists m, b2 = b1 ++ x1 :: m.
Proof.
  induction l as [|p l IH]; intros [|q1 b1] x1 r1 [|q2 b2] x2 r2 E1 E2 L; cbn in *; try discriminate; try lia.
  - injection E1 as -> ->. injection E2 as -> E2. eauto.
  - injection E1 as -> E1. injection E2 as -> E2. destruct (IH _ _ _ _ _ _ E1 E2) as (m & ->); [lia|]. eauto.
Qed.
Lemma find_use_touched : forall s lines u o, written s lines -> first_touched lines u o -> find_use (so_offsets s) u = Some o.
Proof.
  intros s lines u o W (b & n & a & w & i & r & E & T & M & ->). unfold find_use. destruct (W (pline u)) as (P & _ & ->).
  pose proof (find_entries (pline u) u (lines (pline u)) 0 eq_refl) as F. destruct (find _ _) as [o|].
  - destruct F as (b' & n' & a' & w' & i' & r' & E' & T' & M' & ->). f_equal.
    assert (L : (List.length b' <= List.length b)%nat) by (eapply M'; [exact E|lia]).
    assert (Q : edit_end b <= edit_end b') by (apply (M b' n'); exists a', w', i', r'; split; auto).
    destruct (Nat.eq_dec (List.length b') (List.length b)) as [Eq|Ne].
    + destruct (before_unique _ _ _ _ _ _ _ E' E Eq) as (-> & X & ->). injection X as -> -> -> ->. reflexivity.
    + exfalso. destruct (before_order _ _ _ _ _ _ _ E' E) as (m & ->); [lia|].
      rewrite E in P. apply Forall_app in P as (P & _). apply Forall_app in P as (_ & P). inversion P as [|? ? P1 P2]; subst.
      pose proof (ends_nonneg _ P2). rewrite edit_end_app, edit_end_cons in Q. cbn in P1, Q. lia.
  - exfalso. apply (F b n a w i r E). lia.
Qed.
