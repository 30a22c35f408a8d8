(** C31: methodmap members are inherited and overridden. *)
From Coq Require Import List String Bool Arith Lia Permutation.
From Verif Require Import MethodmapModel MethodmapSpec.
Import ListNotations.

(** ** The table of members *)

Lemma get_insert n i m k : get k (insert n i m) = if String.eqb n k then Some i else get k m.
Proof.
  induction m as [|[k' j] m IH]; simpl; [reflexivity|].
  destruct (String.eqb_spec k' n) as [->|N]; simpl; [destruct (String.eqb n k); reflexivity|].
  rewrite IH. destruct (String.eqb_spec k' k) as [->|]; [|reflexivity].
  destruct (String.eqb_spec n k); [subst; contradiction|reflexivity].
Qed.
Lemma insert_keys n i m : NoDup (map fst m) -> NoDup (map fst (insert n i m)) /\ forall k, In k (map fst (insert n i m)) <-> k = n \/ In k (map fst m).
Proof.
  induction m as [|[k' j] m IH]; simpl; intros H; [split; [repeat constructor; intros []|intros k; split; [intros [->|[]]; tauto|intros [->|[]]; tauto]]|].
  inversion H as [|? ? Hn Hd]; subst. destruct (String.eqb_spec k' n) as [->|N]; simpl.
  - split; [constructor; assumption|]. intros k. split; [intros [->|I]; tauto|intros [->|[->|I]]; tauto].
  - destruct (IH Hd) as (A & B). split.
    + constructor; [|exact A]. intros I. apply B in I. destruct I as [E|I]; [congruence|contradiction].
    + intros k. rewrite B. tauto.
Qed.

(** The last entry with a given name. *)
Fixpoint last_entry (n : name) (l : list (name * member)) : option member :=
  match l with
  | [] => None
  | (k, x) :: tl => match last_entry n tl with Some y => Some y | None => if String.eqb k n then Some x else None end
  end.
Lemma last_entry_spec n l x : last_entry n l = Some x <-> exists a b, l = a ++ (n, x) :: b /\ forall y, ~ In (n, y) b.
Proof.
  revert x. induction l as [|[k y] l IH]; intros x; simpl.
  - split; [discriminate|]. intros (a & b & E & _). destruct a; discriminate E.
  - destruct (last_entry n l) as [z|] eqn:E.
    + rewrite (IH x). split.
      * intros (a & b & -> & H). exists ((k, y) :: a), b. split; [reflexivity|exact H].
      * intros (a & b & El & H). destruct a as [|e a]; simpl in El.
        -- injection El as _ _ <-. destruct (proj1 (IH z) eq_refl) as (a' & b' & -> & _). exfalso. apply (H z). apply in_or_app. right. left. reflexivity.
        -- injection El as _ ->. exists a, b. tauto.
    + assert (N : forall y', ~ In (n, y') l).
      { intros y' I. clear IH. induction l as [|[k2 y2] l IHl]; [destruct I|]. simpl in E. destruct (last_entry n l); [discriminate E|].
        destruct I as [I|I]; [injection I as -> ->; rewrite String.eqb_refl in E; discriminate E|]. exact (IHl eq_refl I). }
      destruct (String.eqb_spec k n) as [->|Nk].
      * split; [intros X; injection X as ->; exists [], l; tauto|]. intros (a & b & El & H). destruct a as [|e a]; simpl in El; [congruence|].
        injection El as _ El. exfalso. apply (N x). rewrite El. apply in_or_app. right. left. reflexivity.
      * split; [discriminate|]. intros (a & b & El & H). destruct a as [|e a]; simpl in El; [congruence|].
        injection El as _ El. exfalso. apply (N x). rewrite El. apply in_or_app. right. left. reflexivity.
Qed.
Lemma last_entry_none n l : last_entry n l = None <-> forall x, ~ In (n, x) l.
Proof.
  split.
  - intros E x I. induction l as [|[k y] l IH]; [destruct I|]. simpl in E. destruct (last_entry n l); [discriminate E|].
    destruct I as [I|I]; [injection I as -> ->; rewrite String.eqb_refl in E; discriminate E|exact (IH eq_refl I)].
  - intros H. destruct (last_entry n l) as [x|] eqn:E; [|reflexivity]. apply last_entry_spec in E. destruct E as (a & b & -> & _).
    exfalso. apply (H x). apply in_or_app. right. left. reflexivity.
Qed.
Lemma last_entry_app n a b : last_entry n (a ++ b) = match last_entry n b with Some x => Some x | None => last_entry n a end.
Proof.
  induction a as [|[k y] a IH]; simpl; [destruct (last_entry n b); reflexivity|]. rewrite IH. destruct (last_entry n b); reflexivity.
Qed.

Definition table (s : list member * list (name * nat)) (n : name) : option member :=
  match get n (snd s) with Some i => nth_error (fst s) i | None => None end.
Definition in_arena (s : list member * list (name * nat)) : Prop :=
  NoDup (map fst (snd s)) /\ forall n i, get n (snd s) = Some i -> i < List.length (fst s).
Lemma build es : forall s, in_arena s ->
  let s' := fold_left add es s in
  in_arena s' /\ fst s' = fst s ++ map snd es /\
  forall n, table s' n = match last_entry n es with Some x => Some x | None => table s n end.
Proof.
  induction es as [|[k x] es IH]; intros [items m] H; cbv zeta; cbn [fold_left].
  - rewrite app_nil_r. split; [exact H|]. split; [reflexivity|]. intros n. reflexivity.
  - destruct H as (Hd & Hb). cbn [fst snd] in *.
    assert (H1 : in_arena (add (items, m) (k, x))).
    { unfold in_arena, add; cbn [fst snd]. split; [apply insert_keys; exact Hd|]. intros n i. rewrite get_insert, app_length. simpl.
      destruct (String.eqb k n); [intros E; injection E as <-; lia|]. intros E. apply Hb in E. lia. }
    destruct (IH _ H1) as (A & B & C). split; [exact A|]. split; [rewrite B; unfold add; cbn [fst snd map]; rewrite <- app_assoc; reflexivity|].
    intros n. rewrite C. cbn [last_entry]. destruct (last_entry n es); [reflexivity|]. unfold table, add. cbn [fst snd]. rewrite get_insert.
    destruct (String.eqb k n); [rewrite nth_error_app2, Nat.sub_diag by lia; reflexivity|].
    destruct (get n m) as [i|] eqn:E; [|reflexivity]. apply nth_error_app1. apply Hb in E. exact E.
Qed.

Lemma get_in m : NoDup (map fst m) -> forall n i, get n m = Some i <-> In (n, i) m.
Proof.
  induction m as [|[k j] m IH]; simpl; intros H n i; [split; [discriminate|tauto]|]. inversion H as [|? ? Hn Hd]; subst.
  destruct (String.eqb_spec k n) as [->|N].
  - split; [intros E; injection E as ->; tauto|]. intros [E|I]; [congruence|]. exfalso. apply Hn. apply in_map_iff. exists (n, i). tauto.
  - rewrite (IH Hd). split; [tauto|]. intros [E|I]; [congruence|exact I].
Qed.
Lemma nodup_perm_get m m' n : NoDup (map fst m) -> Permutation m m' -> get n m' = get n m.
Proof.
  intros H P. assert (H' : NoDup (map fst m')) by (eapply Permutation_NoDup; [apply Permutation_map; exact P|exact H]).
  destruct (get n m) as [i|] eqn:E.
  - apply get_in; [exact H'|]. eapply Permutation_in; [exact P|]. apply get_in in E; assumption.
  - destruct (get n m') as [i|] eqn:E'; [|reflexivity]. apply get_in in E'; [|exact H']. apply Permutation_in with (l' := m) in E'; [|apply Permutation_sym; exact P].
    apply get_in in E'; [|exact H]. congruence.
Qed.

(** ** The query *)

Section query.
Variable w : world.
Variable order : list (name * nat) -> list (name * nat).
Hypothesis order_perm : forall l, Permutation l (order l).

Lemma entries_spec d l : (forall n i, In (n, i) l -> i < List.length (m_items d)) -> NoDup (map fst l) ->
  exists es, entries d l = Some es /\ NoDup (map fst es) /\ (forall k, In k (map fst es) <-> In k (map fst l)) /\
    forall n, last_entry n es = match get n l with Some i => nth_error (m_items d) i | None => None end.
Proof.
  induction l as [|[k i] l IH]; intros Hb Hd; simpl.
  - exists []. split; [reflexivity|]. split; [constructor|]. split; [intros k; tauto|]. reflexivity.
  - inversion Hd as [|? ? Hn Hd']; subst. destruct IH as (es & -> & A & B & C); [intros n j I; apply (Hb n j); right; exact I|exact Hd'|].
    destruct (nth_error (m_items d) i) as [x|] eqn:E; [|apply nth_error_None in E; specialize (Hb k i (or_introl eq_refl)); lia].
    exists ((k, x) :: es). split; [reflexivity|]. split; [simpl; constructor; [rewrite B; exact Hn|exact A]|]. split; [intros k'; simpl; rewrite B; tauto|].
    intros n. simpl. rewrite C. destruct (String.eqb_spec k n) as [->|N].
    + destruct (get n l) as [j|] eqn:Eg; [|exact (eq_sym E)]. exfalso. apply Hn. apply get_in in Eg; [|exact Hd']. apply in_map_iff. exists (n, j). tauto.
    + destruct (get n l) as [j|] eqn:Eg; [|reflexivity]. destruct (nth_error (m_items d) j) eqn:En; [reflexivity|].
      apply nth_error_None in En. apply get_in in Eg; [|exact Hd']. specialize (Hb n j (or_intror Eg)). lia.
Qed.

Definition good (d : mm_data) : Prop := in_arena (m_items d, m_map d).

Lemma own_last id n x : own w id n x <-> last_entry n (d_items (decl_of w id)) = Some x.
Proof. unfold own. rewrite last_entry_spec. tauto. Qed.

Lemma query_data fuel : forall stack id d diags, query w order fuel stack id = Data d diags ->
  good d /\ (forall n x, lookup d n = Some x <-> member_of w id n x) /\
  (match d_inherits (decl_of w id) with
   | None => diags = [] /\ m_items d = map snd (d_items (decl_of w id))
   | Some n => match resolves w (d_file (decl_of w id)) n with
               | Some (AMethodmap p) => diags = [] /\ exists fuel' pd pdiags es,
                   query w order fuel' (id :: stack) p = Data pd pdiags /\ Permutation es (map (fun n => match lookup pd n with Some x => (n, x) | None => (n, Method 0) end) (map fst (m_map pd))) /\
                   m_items d = map snd es ++ map snd (d_items (decl_of w id))
               | Some Else => diags = [UnresolvedInherit n true] /\ m_items d = map snd (d_items (decl_of w id))
               | None => diags = [UnresolvedInherit n false] /\ m_items d = map snd (d_items (decl_of w id))
               end
   end).
Proof.
  induction fuel as [|fuel IH]; intros stack id d diags E; [discriminate E|]. cbn [query] in E.
  destruct (existsb (Nat.eqb id) stack); [discriminate E|].
  assert (empty : in_arena ([], [])) by (split; [constructor|intros n i X; discriminate X]).
  assert (plain : forall dg, (let '(items, m) := fold_left add ([] ++ d_items (decl_of w id)) ([], []) in Data (MmData (d_name (decl_of w id)) items m) dg) = Data d diags ->
     (forall p, ~ parent w id p) ->
     good d /\ (forall n x, lookup d n = Some x <-> member_of w id n x) /\ diags = dg /\ m_items d = map snd (d_items (decl_of w id))).
  { intros dg X Hp. cbn [app] in X. destruct (build (d_items (decl_of w id)) ([], []) empty) as (A & B & C). cbv zeta in *.
    destruct (fold_left add (d_items (decl_of w id)) ([], [])) as [items m]. cbn [fst snd app] in *. injection X as <- <-.
    split; [exact A|]. split; [|split; [reflexivity|exact B]]. intros n x. change (lookup (MmData (d_name (decl_of w id)) items m) n) with (table (items, m) n). rewrite C.
    split.
    - intros H. apply mo_own. apply own_last. destruct (last_entry n (d_items (decl_of w id))); [exact H|discriminate H].
    - intros H. inversion H as [? ? ? Ho|? p ? ? ? Hpar]; subst; [apply own_last in Ho; rewrite Ho; reflexivity|exfalso; exact (Hp p Hpar)]. }
  destruct (d_inherits (decl_of w id)) as [inh|] eqn:Ei.
  - destruct (resolves w (d_file (decl_of w id)) inh) as [[p|]|] eqn:Er.
    + assert (Hpar : parent w id p) by (exists inh; tauto).
      assert (Hpu : forall q, parent w id q -> q = p) by (intros q (n' & E1 & E2); congruence).
      destruct (query w order fuel (id :: stack) p) as [pd pdg| | |] eqn:Eq; try discriminate E.
      destruct (IH _ _ _ _ Eq) as ((Gd & Gb) & Gl & _). cbn [fst snd] in Gd, Gb.
      assert (Hd' : NoDup (map fst (order (m_map pd)))) by (eapply Permutation_NoDup; [apply Permutation_map; apply order_perm|exact Gd]).
      destruct (entries_spec pd (order (m_map pd))) as (es & Ee & Ed & Ek & El).
      { intros n i I. apply Permutation_in with (l' := m_map pd) in I; [|apply Permutation_sym; apply order_perm]. apply (Gb n i). apply get_in; assumption. }
      { exact Hd'. }
      rewrite Ee in E.
      assert (El' : forall n, last_entry n es = lookup pd n).
      { intros n. rewrite El, (nodup_perm_get _ _ n Gd (order_perm _)). reflexivity. }
      destruct (build (es ++ d_items (decl_of w id)) ([], []) empty) as (A & B & C). cbv zeta in *.
      destruct (fold_left add (es ++ d_items (decl_of w id)) ([], [])) as [items m]. cbn [fst snd app] in *. injection E as <- <-.
      split; [exact A|]. split; [|split; [reflexivity|]].
      * intros n x. change (lookup (MmData (d_name (decl_of w id)) items m) n) with (table (items, m) n). rewrite C, last_entry_app, El'.
        destruct (last_entry n (d_items (decl_of w id))) as [y|] eqn:Eo.
        -- split; [intros X; injection X as ->; apply mo_own; apply own_last; exact Eo|].
           intros H. inversion H as [? ? ? Ho|? ? ? ? Hn]; subst; [apply own_last in Ho; congruence|].
           exfalso. apply Hn. apply last_entry_spec in Eo. destruct Eo as (a & b & Ed' & _). exists y. rewrite Ed'. apply in_or_app. right. left. reflexivity.
        -- assert (Hnd : ~ declares w id n) by (intros (x' & I); rewrite last_entry_none in Eo; exact (Eo x' I)).
           assert (L : (match lookup pd n with Some x0 => Some x0 | None => table ([], []) n end) = lookup pd n) by (destruct (lookup pd n); reflexivity).
           rewrite L, (Gl n x). split; [intros H; eapply mo_inherited; eassumption|].
           intros H. inversion H as [? ? ? Ho|? q ? ? Hn Hq Hm]; subst; [apply own_last in Ho; congruence|]. rewrite <- (Hpu q Hq). exact Hm.
      * exists fuel, pd, pdg, es. split; [exact Eq|]. split.
        -- assert (Hes : es = map (fun n => match lookup pd n with Some x => (n, x) | None => (n, Method 0) end) (map fst es)).
           { clear - El' Ed. rewrite map_map. rewrite <- (map_id es) at 1. apply map_ext_in. intros [k x] I. cbn [fst].
             rewrite <- El'. assert (X : last_entry k es = Some x); [|rewrite X; reflexivity].
             apply last_entry_spec. apply in_split in I. destruct I as (a & b & ->). exists a, b. split; [reflexivity|].
             intros y Hy. rewrite map_app in Ed. cbn in Ed. apply NoDup_remove_2 in Ed. apply Ed. apply in_or_app. right. apply in_map_iff. exists (k, y). tauto. }
           rewrite Hes. apply Permutation_map. eapply Permutation_trans; [|apply Permutation_map; apply Permutation_sym; apply order_perm].
           apply NoDup_Permutation; [exact Ed|exact Hd'|exact Ek].
        -- rewrite B, map_app. reflexivity.
    + apply (plain [UnresolvedInherit inh true]) in E; [|intros p (n & E1 & E2); congruence]. tauto.
    + apply (plain [UnresolvedInherit inh false]) in E; [|intros p (n & E1 & E2); congruence]. tauto.
  - apply (plain []) in E; [|intros p (n & E1 & E2); congruence]. tauto.
Qed.

Lemma query_total fuel : forall stack id, query w order fuel stack id <> BadIndex.
Proof.
  induction fuel as [|fuel IH]; intros stack id E; [discriminate E|]. cbn [query] in E.
  destruct (existsb (Nat.eqb id) stack); [discriminate E|].
  destruct (d_inherits (decl_of w id)) as [inh|]; [|destruct (fold_left add _ _) in E; discriminate E].
  destruct (resolves w (d_file (decl_of w id)) inh) as [[p|]|]; try (destruct (fold_left add _ _) in E; discriminate E).
  destruct (query w order fuel (id :: stack) p) as [pd pdg| | |] eqn:Eq; try discriminate E; [|exact (IH _ _ Eq)].
  destruct (query_data _ _ _ _ _ Eq) as ((Gd & Gb) & _). cbn [fst snd] in *.
  destruct (entries_spec pd (order (m_map pd))) as (es & Ee & _).
  - intros n i I. apply Permutation_in with (l' := m_map pd) in I; [|apply Permutation_sym; apply order_perm]. apply (Gb n i). apply get_in; assumption.
  - eapply Permutation_NoDup; [apply Permutation_map; apply order_perm|exact Gd].
  - rewrite Ee in E. destruct (fold_left add _ _) in E. discriminate E.
Qed.

Lemma parent_step id p : parent w id p -> exists inh, d_inherits (decl_of w id) = Some inh /\ resolves w (d_file (decl_of w id)) inh = Some (AMethodmap p).
Proof. intros (n & H). exists n. exact H. Qed.
Lemma parent_unique id p q : parent w id p -> parent w id q -> p = q.
Proof. intros (n & E1 & E2) (n' & E3 & E4). congruence. Qed.

(** The result of a query, as long as nothing on the stack is reached. *)
Lemma query_grounded id : grounded w id -> forall stack, (forall a, In a stack -> a <> id /\ ~ ancestor w id a) ->
  exists fuel d diags, forall more, query w order (fuel + more) stack id = Data d diags.
Proof.
  induction 1 as [id Hg IH]. intros stack Hs.
  assert (Hn : existsb (Nat.eqb id) stack = false).
  { apply not_true_iff_false. intros E. apply existsb_exists in E. destruct E as (a & I & E). apply Nat.eqb_eq in E. destruct (Hs a I) as (N & _). congruence. }
  assert (plain : forall inh diags, exists d dg, (let '(items, m) := fold_left add (inh ++ d_items (decl_of w id)) ([], []) in Data (MmData (d_name (decl_of w id)) items m) diags) = Data d dg).
  { intros inh diags. destruct (fold_left add _ _). do 2 eexists. reflexivity. }
  destruct (d_inherits (decl_of w id)) as [inh|] eqn:Ei.
  - destruct (resolves w (d_file (decl_of w id)) inh) as [[p|]|] eqn:Er.
    + assert (Hpar : parent w id p) by (exists inh; tauto).
      assert (Hloop : ~ ancestor w p id /\ p <> id).
      { assert (acc : forall x, grounded w x -> ~ ancestor w x x).
        { clear. intros x G. assert (K : forall y z, ancestor w y z -> forall u, ancestor w z u -> ancestor w y u).
          { induction 1 as [y z Hp|y q z Hp Ha IHa]; intros u Hu; [eapply an_more; eassumption|]. eapply an_more; [exact Hp|apply IHa; exact Hu]. }
          induction G as [x Hg IH]. intros Ha. inversion Ha as [? ? Hp|? q ? Hp Hq]; subst; [apply (IH x Hp); exact Ha|].
          apply (IH q Hp). eapply K; [exact Hq|]. apply an_one. exact Hp. }
        assert (Gid : grounded w id) by (constructor; exact Hg).
        split; [intros X; apply (acc id Gid); eapply an_more; eassumption|]. intros ->. apply (acc id Gid). apply an_one. exact Hpar. }
      destruct (IH p Hpar (id :: stack)) as (fuel & pd & pdg & Hf).
      { intros a [<-|I]; [split; [intros E; apply (proj2 Hloop); symmetry; exact E|apply Hloop]|]. destruct (Hs a I) as (N & Na). split; [intros ->; apply Na; apply an_one; exact Hpar|].
        intros X. apply Na. eapply an_more; eassumption. }
      destruct (entries pd (order (m_map pd))) as [es|] eqn:Ee.
      * destruct (plain es []) as (d & dg & Hd). exists (S fuel), d, dg. intros more. cbn [plus query]. rewrite Hn, Ei, Er, Hf, Ee. exact Hd.
      * exfalso. apply (query_total (S fuel + 0) stack id). cbn [plus query]. rewrite Hn, Ei, Er, Hf, Ee. reflexivity.
    + destruct (plain [] [UnresolvedInherit inh true]) as (d & dg & Hd). exists 1, d, dg. intros more. cbn [plus query]. rewrite Hn, Ei, Er. exact Hd.
    + destruct (plain [] [UnresolvedInherit inh false]) as (d & dg & Hd). exists 1, d, dg. intros more. cbn [plus query]. rewrite Hn, Ei, Er. exact Hd.
  - destruct (plain [] []) as (d & dg & Hd). exists 1, d, dg. intros more. cbn [plus query]. rewrite Hn, Ei. exact Hd.
Qed.

Lemma data_grounded fuel : forall stack id d diags, query w order fuel stack id = Data d diags -> grounded w id.
Proof.
  induction fuel as [|fuel IH]; intros stack id d diags E; [discriminate E|]. constructor. intros p (n & Ei & Er). cbn [query] in E.
  destruct (existsb (Nat.eqb id) stack); [discriminate E|]. rewrite Ei, Er in E.
  destruct (query w order fuel (id :: stack) p) as [pd pdg| | |] eqn:Eq; try discriminate E. eapply IH. exact Eq.
Qed.

(** With finitely many methodmaps some fuel is always enough. *)
Lemma query_fuel (ids : list nat) : (forall id p, parent w id p -> In p ids) ->
  forall fuel stack id, In id ids -> incl stack ids -> NoDup stack -> List.length ids < fuel + List.length stack -> query w order fuel stack id <> OutOfFuel.
Proof.
  intros Hids. induction fuel as [|fuel IH]; intros stack id Hi Hs Hnd Hf E.
  - apply (NoDup_incl_length Hnd) in Hs. simpl in Hf. lia.
  - cbn [query] in E. destruct (existsb (Nat.eqb id) stack) eqn:En; [discriminate E|].
    destruct (d_inherits (decl_of w id)) as [inh|] eqn:Ei; [|destruct (fold_left add _ _) in E; discriminate E].
    destruct (resolves w (d_file (decl_of w id)) inh) as [[p|]|] eqn:Er; try (destruct (fold_left add _ _) in E; discriminate E).
    destruct (query w order fuel (id :: stack) p) as [pd pdg| | |] eqn:Eq; try discriminate E.
    + destruct (entries pd (order (m_map pd))); [destruct (fold_left add _ _) in E; discriminate E|discriminate E].
    + apply (IH (id :: stack) p); [apply (Hids id p); exists inh; tauto| | | |exact Eq].
      * intros a [<-|I]; [exact Hi|apply Hs; exact I].
      * constructor; [|exact Hnd]. intros I. assert (existsb (Nat.eqb id) stack = true) by (apply existsb_exists; exists id; split; [exact I|apply Nat.eqb_refl]). congruence.
      * simpl. lia.
Qed.
End query.

(** ** The theorems *)

Definition any_order (order : list (name * nat) -> list (name * nat)) : Prop := forall l, Permutation l (order l).

(** Looking up a member finds the methodmap's own one, else that of the nearest ancestor declaring
    it, and the inheritance clause is reported exactly when it names no methodmap. *)
Theorem C31_lookup :
  forall w order fuel id d diags, any_order order -> query w order fuel [] id = Data d diags ->
    (forall n x, lookup d n = Some x <-> member_of w id n x) /\
    (forall n b, In (UnresolvedInherit n b) diags <->
       d_inherits (decl_of w id) = Some n /\
       resolves w (d_file (decl_of w id)) n = (if b then Some Else else None)).
Proof.
  intros w order fuel id d diags Ho E. destruct (query_data w order Ho _ _ _ _ _ E) as (_ & H & Hd). split; [exact H|]. intros n b.
  destruct (d_inherits (decl_of w id)) as [m|]; [|destruct Hd as (-> & _); split; [intros []|intros (X & _); discriminate X]].
  destruct (resolves w (d_file (decl_of w id)) m) as [[p|]|] eqn:Er.
  - destruct Hd as (-> & _). split; [intros []|]. intros (X & Y). injection X as <-. rewrite Er in Y. destruct b; discriminate Y.
  - destruct Hd as (-> & _). split; [intros [X|[]]; injection X as <- <-; tauto|]. intros (X & Y). injection X as <-. rewrite Er in Y. destruct b; [left; reflexivity|discriminate Y].
  - destruct Hd as (-> & _). split; [intros [X|[]]; injection X as <- <-; tauto|]. intros (X & Y). injection X as <-. rewrite Er in Y. destruct b; [discriminate Y|left; reflexivity].
Qed.
Print Assumptions C31_lookup.

(** The members can be computed exactly when the chain of parents ends; on a methodmap that is its
    own ancestor the computation panics. *)
Theorem C31_defined :
  forall w order id, any_order order ->
    (grounded w id <-> exists fuel d diags, query w order fuel [] id = Data d diags) /\
    (forall ids, (forall i p, parent w i p -> In p ids) -> In id ids ->
       ~ grounded w id -> forall fuel, List.length ids < fuel -> query w order fuel [] id = Cycle).
Proof.
  intros w order id Ho. split.
  - split; [|intros (fuel & d & diags & E); eapply data_grounded; exact E].
    intros G. destruct (query_grounded w order Ho id G [] (fun a I => match I with end)) as (fuel & d & diags & E).
    exists (fuel + 0), d, diags. apply E.
  - intros ids Hids Hi Hg fuel Hf. destruct (query w order fuel [] id) as [d diags| | |] eqn:E; [|reflexivity| |].
    + exfalso. apply Hg. eapply data_grounded. exact E.
    + exfalso. exact (query_total w order Ho _ _ _ E).
    + exfalso. refine (query_fuel w order ids Hids fuel [] id Hi _ _ _ E); [intros a []|constructor|simpl; lia].
Qed.
Print Assumptions C31_defined.

Lemma first_constructor_in l f : first_constructor l = Some f -> In (Constructor f) l.
Proof. induction l as [|x l IH]; simpl; [discriminate|]. destruct x; try (intros H; right; apply IH; exact H). intros E. injection E as ->. left. reflexivity. Qed.
Lemma first_constructor_app a b : first_constructor (a ++ b) = match first_constructor a with Some f => Some f | None => first_constructor b end.
Proof. induction a as [|x a IH]; simpl; [reflexivity|]. destruct x; try exact IH. reflexivity. Qed.
Lemma first_constructor_none l : first_constructor l = None <-> forall f, ~ In (Constructor f) l.
Proof.
  induction l as [|x l IH]; simpl; [split; [intros _ f []|reflexivity]|].
  destruct x; try (rewrite IH; split; [intros H f0 [E|I]; [discriminate E|exact (H f0 I)]|intros H f0 I; exact (H f0 (or_intror I))]).
  split; [discriminate|]. intros H. exfalso. exact (H f (or_introl eq_refl)).
Qed.

(** Which constructor 'new' finds: that of an ancestor whenever the parent has one among its
    members, the methodmap's own first one otherwise. *)
Theorem C31_constructor_partial :
  forall w order fuel id d diags, any_order order -> query w order fuel [] id = Data d diags ->
    (forall p n f, parent w id p -> member_of w p n (Constructor f) ->
       exists m g, member_of w p m (Constructor g) /\ constructor d = Some g) /\
    ((forall p n f, parent w id p -> ~ member_of w p n (Constructor f)) ->
       constructor d = first_constructor (map snd (d_items (decl_of w id)))).
Proof.
  intros w order fuel id d diags Ho E. destruct (query_data w order Ho _ _ _ _ _ E) as (_ & _ & Hd). unfold constructor.
  destruct (d_inherits (decl_of w id)) as [inh|] eqn:Ei.
  - destruct (resolves w (d_file (decl_of w id)) inh) as [[p|]|] eqn:Er.
    + destruct Hd as (_ & fuel' & pd & pdg & es & Eq & Hp & Hi). destruct (query_data w order Ho _ _ _ _ _ Eq) as ((Gd & Gb) & Gl & _). cbn [fst snd] in *.
      assert (Hes : forall n x, In (n, x) es <-> lookup pd n = Some x).
      { intros n x. split.
        - intros I. apply (Permutation_in _ Hp) in I. apply in_map_iff in I. destruct I as (k & Ek & I). apply in_map_iff in I. destruct I as ([k' i] & E' & I). cbn in E'. subst k'.
          apply get_in in I; [|exact Gd]. unfold lookup in *. rewrite I in Ek. destruct (nth_error (m_items pd) i) as [y|] eqn:En.
          + injection Ek as -> ->. rewrite I. exact En.
          + apply nth_error_None in En. apply Gb in I. lia.
        - intros H. apply (Permutation_in _ (Permutation_sym Hp)). apply in_map_iff. exists n. rewrite H. split; [reflexivity|].
          unfold lookup in H. destruct (get n (m_map pd)) as [i|] eqn:Eg; [|discriminate H]. apply get_in in Eg; [|exact Gd]. apply in_map_iff. exists (n, i). tauto. }
      assert (Hpar : parent w id p) by (exists inh; tauto). rewrite Hi, first_constructor_app. split.
      * intros q n f Hq Hm. rewrite (parent_unique w id q p Hq Hpar) in *. apply Gl in Hm. apply Hes in Hm.
        destruct (first_constructor (map snd es)) as [g|] eqn:Ef.
        -- apply first_constructor_in in Ef. apply in_map_iff in Ef. destruct Ef as ([m x] & Ex & I). cbn in Ex. subst x. apply Hes in I. apply Gl in I. exists m, g. tauto.
        -- exfalso. rewrite first_constructor_none in Ef. apply (Ef f). apply in_map_iff. exists (n, Constructor f). tauto.
      * intros H. destruct (first_constructor (map snd es)) as [g|] eqn:Ef; [|reflexivity]. exfalso.
        apply first_constructor_in in Ef. apply in_map_iff in Ef. destruct Ef as ([m x] & Ex & I). cbn in Ex. subst x. apply Hes in I. apply Gl in I. exact (H p m g Hpar I).
    + destruct Hd as (_ & ->). split; [intros p n f (m & E1 & E2); congruence|reflexivity].
    + destruct Hd as (_ & ->). split; [intros p n f (m & E1 & E2); congruence|reflexivity].
  - destruct Hd as (_ & ->). split; [intros p n f (m & E1 & E2); congruence|reflexivity].
Qed.
Print Assumptions C31_constructor_partial.

(** [methodmap Base { public Base(); } methodmap Derived < Base { public Derived(); }]: 'new
    Derived()' is taken to call [Base]. *)
Local Open Scope string_scope.
Definition c31_world : world := World
  (fun id => match id with
             | 0 => Decl "Base" None 0 [("Base", Constructor 10); ("Close", Method 11); ("Size", Property 5 [Getter 12])]
             | 1 => Decl "Derived" (Some "Base") 0 [("Derived", Constructor 20); ("Close", Method 21)]
             | _ => Decl "Loop" (Some "Loop") 0 []
             end)
  (fun _ n => if String.eqb n "Base" then Some (AMethodmap 0) else if String.eqb n "Derived" then Some (AMethodmap 1)
              else if String.eqb n "Loop" then Some (AMethodmap 2) else None).
Theorem C31_own_constructor_refuted :
  exists w id d n f, query w (fun l => l) 9 [] id = Data d [] /\ own w id n (Constructor f) /\ constructor d <> Some f.
Proof.
  exists c31_world, 1. eexists. exists "Derived", 20. split; [vm_compute; reflexivity|]. split.
  - exists [], [("Close", Method 21)]. split; [reflexivity|]. intros y [H|[]]. discriminate H.
  - vm_compute. discriminate.
Qed.
Print Assumptions C31_own_constructor_refuted.

(** A methodmap that names itself as its parent: a panic. *)
Theorem C31_self_inheritance_refuted : exists w id order, any_order order /\ parent w id id /\ forall fuel, 2 <= fuel -> query w order fuel [] id = Cycle.
Proof.
  exists c31_world, 2, (fun l => l). split; [intros l; apply Permutation_refl|]. split; [exists "Loop"; split; reflexivity|].
  intros fuel Hf. destruct fuel as [|[|fuel]]; [lia|lia|reflexivity].
Qed.
Print Assumptions C31_self_inheritance_refuted.

Example C31_nontrivial :
  exists d, query c31_world (@rev _) 9 [] 1 = Data d [] /\
    lookup d "Close" = Some (Method 21) /\ lookup d "Size" = Some (Property 5 [Getter 12]) /\ lookup d "Derived" = Some (Constructor 20) /\
    lookup d "Base" = Some (Constructor 10) /\ constructor d = Some 10.
Proof. eexists. split; [vm_compute; reflexivity|]. repeat split. Qed.
