(** Which scope is found for a place in a body. *)
From Coq Require Import List String Bool Arith Lia.
From Verif Require Import TypeRefModel HirModel HirSpec HirScopes HirNames OffsetModel OffsetSpec.
Import ListNotations.

(** * The smallest *)

Lemma min_by_key_some {A} (key : A -> nat) : forall l x, min_by_key key l = Some x -> In x l /\ forall y, In y l -> key x <= key y.
Proof.
  induction l as [|a l IH]; intros x H; [discriminate|]. simpl in H. destruct (min_by_key key l) as [y|] eqn:E.
  - destruct (IH y eq_refl) as [I M]. destruct (Nat.ltb_spec (key y) (key a)); injection H as <-.
    + split; [now right|]. intros z [<-|Z]; [lia|auto].
    + split; [now left|]. intros z [<-|Z]; [lia|]. specialize (M z Z). lia.
  - injection H as <-. split; [now left|]. intros z [<-|Z]; [lia|]. destruct l as [|b l]; [contradiction|].
    simpl in E. destruct (min_by_key key l); [destruct (_ <? _); discriminate|discriminate].
Qed.
Lemma min_by_key_none {A} (key : A -> nat) : forall l, min_by_key key l = None -> l = [].
Proof. destruct l as [|a l]; [reflexivity|]. simpl. destruct (min_by_key key l); [destruct (_ <? _)|]; discriminate. Qed.

Lemma by_id_in {A} i k : forall l : list (nat * A), by_id i l = Some k -> In (i, k) l.
Proof. induction l as [|[j x] l IH]; simpl; [discriminate|]. destruct (Nat.eqb_spec j i); [intros [= ->]; subst; now left|right; auto]. Qed.
Lemma scope_by_expr_in s i k : In (i, k) (scope_by_expr s) <-> by_id i (by_expr s) = Some k.
Proof.
  unfold scope_by_expr. rewrite in_flat_map. split.
  - intros (j & _ & H). destruct (by_id j (by_expr s)) eqn:E; [|contradiction]. destruct H as [[= <- <-]|[]]. exact E.
  - intros H. exists i. split; [|rewrite H; now left]. apply in_seq. split; [lia|]. apply by_id_in in H.
    assert (L : i <= list_max (map fst (by_expr s))); [|lia].
    pose proof (proj1 (list_max_le (map fst (by_expr s)) _) (le_n _)) as F. rewrite Forall_forall in F. apply F.
    apply in_map_iff. exists (i, k). auto.
Qed.

(** A node that covers the place. *)
Definition covering (source : nat -> option span) (p i : nat) (r : span) : Prop := source i = Some r /\ fst r <= p <= snd r.
Definition size (r : span) : nat := snd r - fst r.
Lemma scope_for_offset_spec source s p :
  match scope_for_offset source s p with
  | Some k => exists i r, by_id i (by_expr s) = Some k /\ covering source p i r /\
      forall i' r' k', by_id i' (by_expr s) = Some k' -> covering source p i' r' -> size r <= size r'
  | None => forall i r k, by_id i (by_expr s) = Some k -> ~ covering source p i r
  end.
Proof.
  unfold scope_for_offset.
  set (l := filter _ _).
  assert (L : forall r k, In (r, k) l <-> exists i, by_id i (by_expr s) = Some k /\ covering source p i r).
  { intros r k. unfold l. rewrite filter_In, in_flat_map. cbn [fst]. rewrite andb_true_iff, !Nat.leb_le. split.
    - intros [([i j] & H & S) C]. cbn [fst snd] in S. apply scope_by_expr_in in H. destruct (source i) as [r'|] eqn:E; [|contradiction].
      destruct S as [[= <- <-]|[]]. exists i. split; [exact H|]. split; [exact E|exact C].
    - intros (i & H & E & C). split; [|exact C]. exists (i, k). split; [now apply scope_by_expr_in|]. cbn [fst snd]. rewrite E. now left. }
  destruct (min_by_key _ l) as [[r k]|] eqn:M; cbn [option_map snd].
  - apply min_by_key_some in M. destruct M as [I M]. destruct (proj1 (L r k) I) as (i & H & C). exists i, r. split; [exact H|split; [exact C|]].
    intros i' r' k' H' C'. specialize (M (r', k') (proj2 (L r' k') (ex_intro _ i' (conj H' C')))). exact M.
  - apply min_by_key_none in M. intros i r k H C. assert (X : In (r, k) l) by (apply L; eauto). rewrite M in X. exact X.
Qed.

(** * The scopes of all statements *)

Inductive noted (s : expr_scopes) : nat -> stmt -> Prop :=
| Noted sc x j : by_id (stmt_id x) (by_expr s) = Some j -> (is_block x = false -> j = sc) ->
    (forall i l b, x = SDecl i l -> In b l -> by_id (b_id b) (by_expr s) = Some sc) ->
    Forall (noted s j) (kids x) -> noted s sc x.

Lemma kids_ids x y i : In y (kids x) -> In i (stmt_ids y) -> In i (stmt_ids x).
Proof.
  intros Y I. destruct x as [e|j l|j l|j l c it b|j c t e|j c cs]; try contradiction; rewrite ids_kids by exact Logic.I; right; apply in_flat_map; eauto.
Qed.
Lemma noted_ext s s' : forall x sc, noted s sc x -> (forall i, In i (stmt_ids x) -> by_id i (by_expr s') = by_id i (by_expr s)) -> noted s' sc x.
Proof.
  induction x as [x IH] using stmt_induct. intros sc H E. inversion H as [sc' x' j A B C D]; subst. apply Noted with j.
  - rewrite E; [exact A|]. destruct x; now left.
  - exact B.
  - intros i l b -> I. rewrite E; [now apply (C i l)|]. right. now apply in_map.
  - rewrite Forall_forall in *. intros y Y. apply (IH y Y); [exact (D y Y)|]. intros i I. apply E. eapply kids_ids; eauto.
Qed.

Lemma nodup_app {A} (a b : list A) : NoDup (a ++ b) -> NoDup a /\ NoDup b /\ forall x, In x b -> ~ In x a.
Proof.
  induction a as [|i a IHa]; simpl; intros N; [repeat split; auto; constructor|].
  inversion N; subst. destruct (IHa H2) as (P & Q & R). split; [|split; [exact Q|]].
  - constructor; [|exact P]. intros c. apply H1, in_or_app. now left.
  - intros k Hk [<-|c]; [apply H1, in_or_app; now right|exact (R k Hk c)].
Qed.
Lemma noted_seq sc : forall l, Forall (fun x => forall sc s, sc < List.length (scopes s) -> NoDup (stmt_ids x) -> noted (compute x sc s) sc x) l ->
  forall s, sc < List.length (scopes s) -> NoDup (flat_map stmt_ids l) -> Forall (noted (compute_seq sc l s) sc) l.
Proof.
  induction l as [|x l IH]; intros H s L N; [constructor|]. inversion H as [|? ? H1 H2]; subst. simpl in N.
  apply nodup_app in N. destruct N as (N1 & N2 & N3). unfold compute_seq. simpl. fold (compute_seq sc l (compute x sc s)).
  pose proof (compute_grows x sc s L) as G. pose proof (g_len _ _ _ _ _ G) as L1.
  assert (L2 : sc < List.length (scopes (compute x sc s))) by lia. constructor; [|now apply IH].
  apply (noted_ext (compute x sc s)); [now apply H1|]. intros i I.
  assert (G2 : grows (compute x sc s) (compute_seq sc l (compute x sc s)) sc (flat_map level l) (flat_map stmt_ids l)).
  { apply grows_seq; [|exact L2]. apply Forall_forall. intros y _. apply compute_grows. }
  apply (g_map _ _ _ _ _ G2). intros c. exact (N3 i c I).
Qed.
Lemma by_id_set n k s i : by_id i (by_expr (set_scope n k s)) = if n =? i then Some k else by_id i (by_expr s).
Proof. reflexivity. Qed.
Lemma bindings_noted sc : forall l s i, (In i (map b_id l) \/ by_id i (by_expr s) = Some sc) ->
  by_id i (by_expr (fold_left (compute_binding sc) l s)) = Some sc.
Proof.
  induction l as [|b l IH]; intros s i H; [destruct H as [[]|H]; exact H|]. simpl. apply IH. unfold compute_binding.
  cbn [by_expr add_entry]. rewrite by_id_set. destruct (Nat.eqb_spec (b_id b) i) as [E|E]; [now right|].
  destruct H as [[H|H]|H]; [contradiction|now left|now right].
Qed.
Theorem compute_noted : forall x sc s, sc < List.length (scopes s) -> NoDup (stmt_ids x) -> noted (compute x sc s) sc x.
Proof.
  induction x as [x IH] using stmt_induct. intros sc s L N.
  destruct x as [e|i l|i l|i l c it b|i c t e|i c cs].
  2:{ apply Noted with sc; [| reflexivity | |constructor].
      - simpl. apply bindings_noted. right. rewrite by_id_set, Nat.eqb_refl. reflexivity.
      - intros j k b [= <- <-] B. simpl. apply bindings_noted. left. now apply in_map. }
  2:{ rewrite ids_kids in N by exact I. simpl kids in N. inversion N as [|? ? N1 N2]; subst. simpl in N1.
      simpl compute. set (s1 := set_scope i sc s). set (j := List.length (scopes s)). change (List.length (scopes s1)) with j.
      set (s2 := set_scope i j (new_block_scope sc s1)).
      change (fold_left (fun s x => compute x j s) l s2) with (compute_seq j l s2).
      assert (L2 : j < List.length (scopes s2)).
      { unfold s2, s1, set_scope, new_block_scope. cbn [scopes]. rewrite app_length. simpl. fold j. lia. }
      apply Noted with j; [|discriminate|discriminate|].
      - assert (G : grows s2 (compute_seq j l s2) j (flat_map level l) (flat_map stmt_ids l)).
        { apply grows_seq; [|exact L2]. apply Forall_forall. intros y _. apply compute_grows. }
        simpl stmt_id. rewrite (g_map _ _ _ _ _ G) by exact N1. unfold s2. rewrite by_id_set, Nat.eqb_refl. reflexivity.
      - simpl kids. now apply noted_seq. }
  all: rewrite compute_kids by exact I; rewrite ids_kids in N by exact I; inversion N as [|? ? N1 N2]; subst;
    match goal with |- noted _ _ ?x => apply Noted with sc;
      [ rewrite (g_map _ _ _ _ _ (grows_seq sc (kids x) (proj2 (Forall_forall _ _) (fun y _ => compute_grows y)) (set_scope (stmt_id x) sc s) L)) by exact N1;
        rewrite by_id_set, Nat.eqb_refl; reflexivity
      | reflexivity | discriminate | apply noted_seq; [exact IH|exact L|exact N2] ] end.
Qed.

(** * A place in its statement *)

Section place.
Variable s : expr_scopes.
Variable root : list decl.
Variable at_ : nat -> span.
Variable source : nat -> option span.
Variable p : nat.
Notation place_of x := (at_ (stmt_id x)).

Definition touching (x : stmt) (sc i : nat) : Prop :=
  exists l k, block_of x i l /\ snd (at_ i) = p /\ by_id i (by_expr s) = Some k /\ view s k (Some sc) (rev (flat_map level l)) /\ sc < k.
Lemma touching_part x y sc i : In y (parts x) -> touching y sc i -> touching x sc i.
Proof. intros Y (l & k & A & B). exists l, k. split; [econstructor; eauto|exact B]. Qed.

Lemma ids_cases x i : In i (stmt_ids x) -> i = stmt_id x \/ (exists j l b, x = SDecl j l /\ In b l /\ i = b_id b) \/ exists y, In y (parts x) /\ In i (stmt_ids y).
Proof.
  intros I. destruct x as [e|j l|j l|j l c it b|j c t e|j c cs].
  - destruct I as [<-|[]]. now left.
  - destruct I as [<-|I]; [now left|]. right. left. apply in_map_iff in I. destruct I as (b & <- & B). exists j, l, b. auto.
  - rewrite ids_kids in I by exact Logic.I. destruct I as [<-|I]; [now left|]. right. right. apply in_flat_map in I. exact I.
  - rewrite ids_kids in I by exact Logic.I. destruct I as [<-|I]; [now left|]. right. right. apply in_flat_map in I. exact I.
  - rewrite ids_kids in I by exact Logic.I. destruct I as [<-|I]; [now left|]. right. right. apply in_flat_map in I. exact I.
  - rewrite ids_kids in I by exact Logic.I. destruct I as [<-|I]; [now left|]. right. right. apply in_flat_map in I. exact I.
Qed.

(** Everything recorded in a statement is in it. *)
Lemma recorded_inside : forall x i r, laid at_ source x -> In i (stmt_ids x) -> source i = Some r -> inside r (place_of x).
Proof.
  induction x as [x IH] using stmt_induct. intros i r L I S. rewrite Forall_forall in IH.
  inversion L as [x' A B C D E]; subst. apply ids_cases in I. destruct I as [->|[(j & l & b & -> & K & ->)|(y & Y & I)]].
  - destruct x; [exact (A r S)|destruct A as [A _]| | | |]; rewrite A in S; injection S as <-; split; apply le_n.
  - destruct A as [_ A]. rewrite Forall_forall in A. exact (A b K r S).
  - rewrite Forall_forall in E, B. specialize (IH y Y i r (E y Y) I S). specialize (B y Y).
    unfold inside, between, smaller in *. destruct (is_block x); unfold inside in *; lia.
Qed.

Lemma placed_part x y lo sc : is_block x = false -> In y (parts x) -> placed s lo sc x -> placed s lo sc y.
Proof.
  intros K Y P. apply placed_kids in P; [|destruct x; try exact I; discriminate]. eapply placed_all_in; eauto.
Qed.
Lemma own_noted x sc i : noted s sc x -> is_block x = false -> i = stmt_id x \/ (exists j l b, x = SDecl j l /\ In b l /\ i = b_id b) ->
  by_id i (by_expr s) = Some sc.
Proof.
  intros N K H. inversion N as [sc' x' j A B C D]; subst. destruct H as [->|(j' & l & b & -> & I & ->)].
  - rewrite (B K) in A. exact A.
  - exact (C j' l b eq_refl I).
Qed.
Lemma noted_parts x y sc : noted s sc x -> is_block x = false -> In y (parts x) -> noted s sc y.
Proof.
  intros N K Y. inversion N as [sc' x' j A B C D]; subst. rewrite (B K) in D. rewrite Forall_forall in D. exact (D y Y).
Qed.

(** What covers a place outside of a statement ends there: it has the scope around the statement, or is
    a block. *)
Lemma touch : forall x sc lo i r, noted s sc x -> placed s lo sc x -> laid at_ source x -> outside p (place_of x) ->
  In i (stmt_ids x) -> covering source p i r -> by_id i (by_expr s) = Some sc \/ touching x sc i.
Proof.
  induction x as [x IH] using stmt_induct. intros sc lo i r N P L O I [S C]. rewrite Forall_forall in IH.
  pose proof (recorded_inside x i r L I S) as R. inversion L as [x' LA LB LC LD LE]; subst.
  destruct (is_block x) eqn:K.
  - destruct x as [e|j l|j l|j l c it b|j c t e|j c cs]; try discriminate. apply ids_cases in I.
    destruct I as [->|[(j' & l' & b & F & _)|(y & Y & I)]]; [|discriminate|].
    + right. apply placed_block in P. destruct P as (k & A & _ & Lt & V & _). exists l, k. split; [constructor|].
      cbn [stmt_id] in *. rewrite LA in S. injection S as <-. unfold outside in O. split; [lia|auto].
    + exfalso. rewrite Forall_forall in LB, LE. specialize (LB y Y). pose proof (recorded_inside y i r (LE y Y) I S) as RY.
      unfold between, inside, outside in *. lia.
  - apply ids_cases in I. assert (Own := own_noted x sc i N K). destruct I as [I|[I|(y & Y & I)]]; [left; auto|left; auto|].
    rewrite Forall_forall in LB, LE. specialize (LB y Y). assert (O' : outside p (place_of y)) by (unfold smaller, inside, outside in *; lia).
    destruct (IH y Y sc lo i r (noted_parts x y sc N K Y) (placed_part x y lo sc K Y P) (LE y Y) O' I (conj S C)) as [H|H]; [now left|].
    right. eapply touching_part; eauto.
Qed.

Lemma stands_within : forall x bl dcl bl' dcl', laid at_ source x -> stands at_ p bl dcl x bl' dcl' -> within p (place_of x).
Proof.
  intros x bl dcl bl' dcl' L H. induction H as [bl dcl x W O F|bl dcl x y bl' dcl' Y H IH]; [exact W|].
  inversion L as [x' LA LB LC LD LE]; subst. rewrite Forall_forall in LB, LE. specialize (IH (LE y Y)). specialize (LB y Y).
  unfold within, between, smaller, inside in *. destruct (is_block x); lia.
Qed.

(** The scope [j] of the innermost block around the place: everything that covers the place has it,
    or is a block that ends there, or is larger than something that has it. *)
Definition located (x : stmt) (bl : list nat) (dcl : list (list decl)) (sc : nat) (bl' : list nat) (dcl' : list (list decl)) : Prop :=
  exists j, here s root bl' dcl' j /\
    ((bl' = bl /\ dcl' = dcl /\ j = sc /\
      forall i r, In i (stmt_ids x) -> covering source p i r -> by_id i (by_expr s) = Some j \/ touching x j i) \/
     (exists b tl r0, bl' = b :: tl /\ In b (stmt_ids x) /\ covering source p b r0 /\ fst r0 < p /\ by_id b (by_expr s) = Some j /\
      inside r0 (place_of x) /\
      forall i r, In i (stmt_ids x) -> covering source p i r -> by_id i (by_expr s) = Some j \/ touching x j i \/ size r0 < size r)).

Theorem locate : forall x bl dcl sc lo bl' dcl', here s root bl dcl sc -> noted s sc x -> placed s lo sc x -> laid at_ source x ->
  stands at_ p bl dcl x bl' dcl' -> located x bl dcl sc bl' dcl'.
Proof.
  induction x as [x IH] using stmt_induct. intros bl dcl sc lo bl' dcl' H N P L St. rewrite Forall_forall in IH.
  inversion L as [x' LA LB LC LD LE]; subst. rewrite Forall_forall in LB, LE.
  destruct (is_block x) eqn:K.
  - destruct x as [e|ib l|ib l|ib l c it b|ib c t e|ib c cs]; try discriminate. cbn [stmt_id parts] in *.
    assert (PB := proj1 (placed_block s lo sc ib l) P). destruct PB as (k & A & _ & Lt & V & PA).
    assert (HK : here s root (ib :: bl) (flat_map level l :: dcl) k) by (econstructor; eauto).
    assert (NK : forall y, In y l -> noted s k y).
    { inversion N as [sc' x' j NA NB NC ND]; subst. cbn [stmt_id kids] in *. rewrite A in NA. injection NA as <-.
      rewrite Forall_forall in ND. exact ND. }
    assert (PK : forall y, In y l -> placed s (S k) k y) by (intros y Y; eapply placed_all_in; eauto).
    inversion St as [bl1 dcl1 x1 W O F E1 E2 E3 E4 E5|bl1 dcl1 x1 y bl2 dcl2 Y StY]; subst; cbn [enter enter_decls parts] in *.
    + exists k. split; [exact HK|]. right. exists ib, bl, (at_ ib). split; [reflexivity|]. split; [now left|].
      split; [split; [exact LA|unfold within in W; cbn [stmt_id] in W; lia]|]. split; [exact (O eq_refl)|]. split; [exact A|].
      split; [unfold inside; simpl; lia|]. intros i r I C. apply ids_cases in I. cbn [stmt_id] in I.
      destruct I as [->|[(j' & l' & b & E & _)|(y & Y & I)]]; [now left|discriminate|].
      rewrite Forall_forall in F. destruct (touch y k (S k) i r (NK y Y) (PK y Y) (LE y Y) (F y Y) I C) as [T|T]; [now left|].
      right. left. eapply touching_part; eauto.
    + destruct (IH y Y _ _ k (S k) bl' dcl' HK (NK y Y) (PK y Y) (LE y Y) StY) as (j & HJ & D).
      pose proof (stands_within y _ _ _ _ (LE y Y) StY) as WY. pose proof (LB y Y) as BY.
      assert (Out : forall z, In z l -> z = y \/ outside p (place_of z)).
      { intros z Z. destruct (ForallOrdPairs_In LC z y Z Y) as [E|[E|E]]; [now left| |]; right; unfold within, outside in *; lia. }
      exists j. split; [exact HJ|]. right. destruct D as [(E1 & E2 & E3 & D)|(b & tl & r0 & E & B & C0 & F0 & J0 & I0 & D)].
      * subst bl' dcl' j. exists ib, bl, (at_ ib). unfold within, between in *. cbn [stmt_id] in *. split; [reflexivity|]. split; [now left|].
        split; [split; [exact LA|lia]|]. split; [lia|]. split; [exact A|]. split; [unfold inside; simpl; lia|].
        intros i r I C. apply ids_cases in I. cbn [stmt_id] in I. destruct I as [->|[(j' & l' & b & E & _)|(z & Z & I)]]; [now left|discriminate|].
        destruct (Out z Z) as [->|OZ].
        -- destruct (D i r I C) as [T|T]; [now left|]. right. left. eapply touching_part; eauto.
        -- destruct (touch z k (S k) i r (NK z Z) (PK z Z) (LE z Z) OZ I C) as [T|T]; [now left|]. right. left. eapply touching_part; eauto.
      * exists b, tl, r0. split; [exact E|]. split; [eapply kids_ids; [exact Y|exact B]|]. split; [exact C0|]. split; [exact F0|]. split; [exact J0|].
        unfold within, between, inside in *. cbn [stmt_id] in *. split; [lia|].
        intros i r I C. apply ids_cases in I. cbn [stmt_id] in I. destruct I as [->|[(j' & l' & b' & E' & _)|(z & Z & I)]]; [|discriminate|].
        -- right. right. destruct C as [C _]. rewrite LA in C. injection C as <-. destruct C0 as [_ C0]. unfold size. lia.
        -- destruct (Out z Z) as [->|OZ].
           ++ destruct (D i r I C) as [T|[T|T]]; [now left| |now right; right]. right. left. eapply touching_part; eauto.
           ++ exfalso. pose proof (recorded_inside z i r (LE z Z) I (proj1 C)) as RZ. destruct C as [_ C].
              destruct (ForallOrdPairs_In LC z y Z Y) as [E'|[E'|E']]; [subst z| |]; unfold outside, inside in *; lia.
  - assert (Own : forall i, i = stmt_id x \/ (exists j l b, x = SDecl j l /\ In b l /\ i = b_id b) -> by_id i (by_expr s) = Some sc)
      by (intros i; apply own_noted; assumption).
    inversion St as [bl1 dcl1 x1 W O F E1 E2 E3 E4 E5|bl1 dcl1 x1 y bl2 dcl2 Y StY]; subst.
    + assert (EB : enter x bl = bl) by (destruct x; try reflexivity; discriminate).
      assert (ED : enter_decls x dcl = dcl) by (destruct x; try reflexivity; discriminate). rewrite EB, ED.
      exists sc. split; [exact H|]. left. repeat split. intros i r I C. apply ids_cases in I. destruct I as [I|[I|(y & Y & I)]]; [left; auto|left; auto|].
      rewrite Forall_forall in F.
      destruct (touch y sc lo i r (noted_parts x y sc N K Y) (placed_part x y lo sc K Y P) (LE y Y) (F y Y) I C) as [T|T]; [now left|].
      right. eapply touching_part; eauto.
    + assert (EB : enter x bl = bl) by (destruct x; try reflexivity; discriminate).
      assert (ED : enter_decls x dcl = dcl) by (destruct x; try reflexivity; discriminate). rewrite EB, ED in StY.
      destruct (IH y Y _ _ sc lo bl' dcl' H (noted_parts x y sc N K Y) (placed_part x y lo sc K Y P) (LE y Y) StY) as (j & HJ & D).
      pose proof (stands_within y _ _ _ _ (LE y Y) StY) as WY. pose proof (LB y Y) as BY.
      assert (Out : forall z, In z (parts x) -> z = y \/ outside p (place_of z)).
      { intros z Z. destruct (ForallOrdPairs_In LC z y Z Y) as [E|[E|E]]; [now left| |]; right; unfold within, outside in *; lia. }
      exists j. split; [exact HJ|]. destruct D as [(E1 & E2 & E3 & D)|(b & tl & r0 & E & B & C0 & F0 & J0 & I0 & D)].
      * left. subst j. split; [exact E1|split; [exact E2|split; [reflexivity|]]]. intros i r I C. apply ids_cases in I.
        destruct I as [I|[I|(z & Z & I)]]; [left; auto|left; auto|]. destruct (Out z Z) as [->|OZ].
        -- destruct (D i r I C) as [T|T]; [now left|]. right. eapply touching_part; eauto.
        -- destruct (touch z sc lo i r (noted_parts x z sc N K Z) (placed_part x z lo sc K Z P) (LE z Z) OZ I C) as [T|T]; [now left|].
           right. eapply touching_part; eauto.
      * right. exists b, tl, r0. split; [exact E|]. split; [eapply kids_ids; [exact Y|exact B]|]. split; [exact C0|]. split; [exact F0|]. split; [exact J0|].
        split; [unfold smaller, inside in *; lia|]. intros i r I C. apply ids_cases in I. destruct I as [->|[(j' & l' & b' & E' & _)|(z & Z & I)]].
        -- right. right. destruct C as [C _]. assert (S : source (stmt_id x) = Some (place_of x)).
           { destruct x; try exact LA; try discriminate; destruct Y. }
           rewrite S in C. injection C as <-. destruct C0 as [_ C0]. unfold size, smaller, inside in *. lia.
        -- subst x. destruct Y.
        -- destruct (Out z Z) as [->|OZ].
           ++ destruct (D i r I C) as [T|[T|T]]; [now left| |now right; right]. right. left. eapply touching_part; eauto.
           ++ exfalso. pose proof (recorded_inside z i r (LE z Z) I (proj1 C)) as RZ. destruct C as [_ C].
              destruct (ForallOrdPairs_In LC z y Z Y) as [E'|[E'|E']]; [subst z| |]; unfold outside, inside, within in *; lia.
Qed.
End place.

(** * The uses of a body stand in it *)

Lemma in_own_bindings u bl dcl : forall l v, In u (fst (uses_bindings bl dcl v l)) ->
  In (u_name u, u_node u) (flat_map (fun b => match b_init b with Some e => idents e | None => [] end) l).
Proof.
  induction l as [|b l IH]; intros v; simpl; [easy|]. destruct (uses_bindings bl dcl _ l) as [us w] eqn:E. simpl. intros H.
  apply in_app_or in H. apply in_or_app. destruct H as [H|H].
  - left. destruct (b_init b) as [e|]; [|contradiction]. unfold uses_opt, uses_expr in H. apply in_map_iff in H. destruct H as ([m i] & <- & H). exact H.
  - right. eapply IH. rewrite E. exact H.
Qed.
Lemma in_own_expr u bl dcl v e : In u (uses_expr bl dcl v e) -> In (u_name u, u_node u) (idents e).
Proof. unfold uses_expr. intros H. apply in_map_iff in H. destruct H as ([m i] & <- & H). exact H. Qed.

(** A use is in the expressions of the statement, or in a part. *)
Lemma uses_cases : forall x bl dcl v u, In u (fst (uses bl dcl v x)) ->
  (In (u_name u, u_node u) (names x) /\ u_blocks u = enter x bl /\ u_declared u = enter_decls x dcl) \/
  exists y w, In y (parts x) /\ In u (fst (uses (enter x bl) (enter_decls x dcl) w y)).
Proof.
  assert (Q : forall u bl dcl v e, In u (uses_expr bl dcl v e) -> u_blocks u = bl /\ u_declared u = dcl).
  { intros u bl dcl v e H. apply in_uses_expr in H. tauto. }
  intros x bl dcl v u U. destruct x as [e|i l|i l|i l c it b|i c t e|i c cs]; cbn [enter enter_decls names parts].
  - left. simpl in U. split; [eapply in_own_expr; eauto|eapply Q; eauto].
  - left. simpl in U. split; [eapply in_own_bindings; eauto|eapply in_uses_bindings; eauto].
  - right. simpl in U. apply in_uses_seq in U. destruct U as (y & w & Y & U). exists y, w. auto.
  - simpl in U. destruct (uses_seq (uses bl dcl) (open_scope v) l) as [a w] eqn:E. simpl in U.
    repeat (apply in_app_or in U; destruct U as [U|U]).
    + assert (U' : In u (fst (uses_seq (uses bl dcl) (open_scope v) l))) by now rewrite E. apply in_uses_seq in U'.
      destruct U' as (y & w' & Y & U'). right. exists y, w'. split; [apply in_or_app; now left|exact U'].
    + left. split; [apply in_or_app; left; eapply in_own_expr; eauto|eapply Q; eauto].
    + destruct it as [it|]; [|contradiction]. left. split; [apply in_or_app; right; eapply in_own_expr; eauto|eapply Q; eauto].
    + right. exists b, w. split; [apply in_or_app; right; now left|exact U].
  - simpl in U. repeat (apply in_app_or in U; destruct U as [U|U]).
    + left. split; [eapply in_own_expr; eauto|eapply Q; eauto].
    + right. exists t, (open_scope v). split; [now left|exact U].
    + destruct e as [y|]; [|contradiction]. right. exists y, (open_scope v). split; [right; now left|exact U].
  - simpl in U. apply in_app_or in U. destruct U as [U|U].
    + left. split; [apply in_or_app; left; eapply in_own_expr; eauto|eapply Q; eauto].
    + apply in_flat_map in U. destruct U as ([vs y] & Y & U). apply in_app_or in U. destruct U as [U|U].
      * apply in_flat_map in U. destruct U as (e & Ve & U). left. split; [|eapply Q; eauto]. apply in_or_app. right. apply in_flat_map.
        exists (vs, y). split; [exact Y|]. apply in_flat_map. exists e. split; [exact Ve|eapply in_own_expr; eauto].
      * right. exists y, (open_scope v). split; [apply in_map_iff; exists (vs, y); auto|exact U].
Qed.

Theorem uses_stand at_ source : forall x bl dcl v u, laid at_ source x -> In u (fst (uses bl dcl v x)) ->
  exists r, source (u_node u) = Some r /\ stands at_ (fst r) bl dcl x (u_blocks u) (u_declared u).
Proof.
  induction x as [x IH] using stmt_induct. intros bl dcl v u L U. rewrite Forall_forall in IH.
  inversion L as [x' LA LB LC LD LE]; subst. apply uses_cases in U. destruct U as [(N & E1 & E2)|(y & w & Y & U)].
  - rewrite Forall_forall in LD. destruct (LD _ N) as (r & S & W & O). exists r. split; [exact S|]. rewrite E1, E2. constructor; [exact W| |exact O].
    intros K. destruct x; try discriminate. destruct N.
  - rewrite Forall_forall in LE. destruct (IH y Y _ _ w u (LE y Y) U) as (r & S & St). exists r. split; [exact S|]. eapply stands_part; eauto.
Qed.
