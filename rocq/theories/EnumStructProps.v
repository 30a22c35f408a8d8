(** C46: going to a member of an enum struct. *)
From Coq Require Import List String Bool Arith Lia.
From Verif Require Import EnumStructModel EnumStructSpec.
Import ListNotations.

(** ** The members and their table *)

Lemma get_insert n i m k : get k (insert n i m) = if String.eqb n k then Some i else get k m.
Proof.
  induction m as [|[k' j] m IH]; simpl; [reflexivity|].
  destruct (String.eqb_spec k' n) as [->|N]; simpl; [destruct (String.eqb n k); reflexivity|].
  rewrite IH. destruct (String.eqb_spec k' k) as [->|]; [|reflexivity].
  destruct (String.eqb_spec n k); [subst; contradiction|reflexivity].
Qed.
Lemma fold_items l : forall d, d_items (fold_left add l d) = d_items d ++ l.
Proof.
  induction l as [|i l IH]; intros d; simpl; [rewrite app_nil_r; reflexivity|].
  rewrite IH. simpl. rewrite <- app_assoc. reflexivity.
Qed.
Lemma items_lower l : d_items (enum_struct_data l) = lower_enum_struct l.
Proof. unfold enum_struct_data. rewrite fold_items. reflexivity. Qed.
Lemma get_fold n l : forall d, (forall i, In i l -> item_name i <> n) -> get n (d_map (fold_left add l d)) = get n (d_map d).
Proof.
  induction l as [|i l IH]; intros d H; simpl; [reflexivity|].
  rewrite IH by (intros; apply H; right; assumption). simpl. rewrite get_insert.
  destruct (String.eqb_spec (item_name i) n); [|reflexivity].
  exfalso. apply (H i (or_introl eq_refl)); assumption.
Qed.
Lemma get_last n a i b :
  item_name i = n -> (forall j, In j b -> item_name j <> n) ->
  get n (d_map (fold_left add (a ++ i :: b) (Data [] []))) = Some (List.length a).
Proof.
  intros E H. rewrite fold_left_app. simpl. rewrite get_fold by assumption. simpl.
  rewrite get_insert, E, String.eqb_refl, fold_items. reflexivity.
Qed.
Lemma lower_names l i : In i (lower_enum_struct l) -> exists c, In c l /\ is_member c (item_name i).
Proof.
  unfold lower_enum_struct. rewrite in_flat_map. intros (c & I & L). exists c. split; [exact I|].
  unfold lower_child in L. unfold is_member, is_field, is_method.
  destruct (c_kind c), (c_name c), (c_type c); simpl in L; try contradiction; destruct L as [<-|[]]; simpl; eauto.
Qed.
Lemma get_member n l before c after i :
  declares l n before c after -> lower_child c = [i] -> item_name i = n ->
  get n (d_map (enum_struct_data l)) = Some (List.length (lower_enum_struct before)) /\
  nth_error (d_items (enum_struct_data l)) (List.length (lower_enum_struct before)) = Some i.
Proof.
  intros (E & M & A) L N. rewrite items_lower. unfold enum_struct_data, lower_enum_struct. subst l.
  rewrite flat_map_app. simpl. rewrite L. simpl. split.
  - apply get_last; [exact N|]. intros j J F. apply lower_names in J. destruct J as (c' & I & M').
    rewrite F in M'. exact (A c' I M').
  - rewrite nth_error_app2 by lia. rewrite Nat.sub_diag. reflexivity.
Qed.
Lemma field_lower c n t : is_field c n t -> lower_child c = [Field n t].
Proof. intros (K & N & T). unfold lower_child. rewrite K, N, T. reflexivity. Qed.
Lemma method_lower c n : is_method c n -> lower_child c = [Method n (c_ptr c)].
Proof. intros (K & N). unfold lower_child. rewrite K, N. destruct (c_type c); reflexivity. Qed.

Lemma complete_app a b : complete (a ++ b) <-> complete a /\ complete b.
Proof.
  unfold complete. split.
  - intros H. split; intros c I; apply H; apply in_or_app; tauto.
  - intros (A & B) c I. apply in_app_or in I. destruct I; auto.
Qed.
Lemma complete_cons c r : complete (c :: r) <-> (c_kind c = KField -> exists n t, is_field c n t) /\ complete r.
Proof.
  unfold complete. split.
  - intros H. split; [apply H; left; reflexivity|intros d I; apply H; right; exact I].
  - intros (A & B) d [<-|I]; auto.
Qed.
Lemma child_source_complete l : complete l -> child_source l = Ok (field_nodes l).
Proof.
  induction l as [|c r IH]; intros H; simpl; [reflexivity|]. apply complete_cons in H. destruct H as (H & R).
  destruct (c_kind c) eqn:K; auto. destruct (H eq_refl) as (n & t & _ & N & T). rewrite N, T, IH by assumption. reflexivity.
Qed.
Lemma child_source_incomplete l : child_source l <> Panic -> complete l.
Proof.
  induction l as [|c r IH]; simpl; intros H; [intros ? []|]. apply complete_cons.
  destruct (c_kind c) eqn:K.
  - destruct (c_name c) as [n|] eqn:N; [|contradiction H; reflexivity].
    destruct (c_type c) as [t|] eqn:T; [|contradiction H; reflexivity].
    split; [intros _; exists n, t; repeat split; assumption|]. apply IH. intros E. rewrite E in H. contradiction H; reflexivity.
  - split; [discriminate|auto].
  - split; [discriminate|auto].
Qed.
Lemma length_lower l : complete l -> List.length (lower_enum_struct l) = List.length (field_nodes l) + count_methods l.
Proof.
  induction l as [|c r IH]; intros H; simpl; [reflexivity|]. apply complete_cons in H. destruct H as (H & R).
  rewrite app_length, IH by assumption. unfold lower_child.
  destruct (c_kind c) eqn:K.
  - destruct (H eq_refl) as (n & t & _ & N & T). rewrite N, T. reflexivity.
  - destruct (c_name c); simpl; [destruct (c_type c); simpl; lia|reflexivity].
  - reflexivity.
Qed.
Lemma field_nodes_app a b : field_nodes (a ++ b) = field_nodes a ++ field_nodes b.
Proof. induction a as [|c a IH]; simpl; [reflexivity|]. rewrite IH. destruct (c_kind c); reflexivity. Qed.
Lemma count_no_methods l : no_methods l <-> count_methods l = 0.
Proof.
  unfold no_methods, is_method. induction l as [|c r IH]; simpl; [split; [reflexivity|intros _ ? ? []]|].
  split.
  - intros H. assert (R : count_methods r = 0) by (apply IH; intros d n I; apply H; right; exact I).
    destruct (c_kind c) eqn:K; try exact R. destruct (c_name c) as [n|] eqn:N; [|exact R].
    exfalso. apply (H c n (or_introl eq_refl)); auto.
  - intros H d n [<-|I] (K & N).
    + rewrite K, N in H. discriminate.
    + apply (proj2 IH) with (c := d) (n := n); auto. destruct (c_kind c); try exact H. destruct (c_name c); [discriminate|exact H].
Qed.
Lemma field_nodes_incl l p : In p (field_nodes l) -> exists c, In c l /\ c_kind c = KField /\ c_ptr c = p.
Proof.
  induction l as [|c r IH]; simpl; [contradiction|]. destruct (c_kind c) eqn:K.
  - intros [<-|I]; [exists c; auto|]. destruct (IH I) as (d & ? & ? & ?). exists d; auto.
  - intros I. destruct (IH I) as (d & ? & ? & ?). exists d; auto.
  - intros I. destruct (IH I) as (d & ? & ? & ?). exists d; auto.
Qed.

(** ** Uses of members *)

(** The type and the member a use stands for are always the right ones: those of the last declaration
    of the name. *)
Theorem C46_member : forall l n before c after,
  declares l n before c after ->
  (forall t, is_field c n t -> (exists i, attribute l n = Some (i, t)) /\ method l n = None) /\
  (is_method c n -> method l n = Some (c_ptr c) /\ attribute l n = None).
Proof.
  intros l n before c after D. unfold attribute, method. split.
  - intros t F. destruct (get_member _ _ _ _ _ _ D (field_lower _ _ _ F) eq_refl) as (G & N). rewrite G, N.
    split; [eexists; reflexivity|reflexivity].
  - intros M. destruct (get_member _ _ _ _ _ _ D (method_lower _ _ M) eq_refl) as (G & N). rewrite G, N.
    split; reflexivity.
Qed.
Print Assumptions C46_member.

(** Names of no member stand for nothing. *)
Theorem C46_no_member : forall l n,
  (forall c, In c l -> ~ is_member c n) -> attribute l n = None /\ method l n = None /\ goto_reference l n = Ok None.
Proof.
  intros l n H. unfold goto_reference, attribute, method, enum_struct_data.
  rewrite get_fold; [simpl; auto|]. intros i I E. apply lower_names in I. destruct I as (c & I & M).
  rewrite E in M. exact (H c I M).
Qed.
Print Assumptions C46_no_member.

(** Where going to the definition of [x.n] leads: as many fields too far as there are methods before
    the field, and to a crash if there are not that many. *)
Theorem C46_reference_exact : forall l n before c after t,
  complete l -> declares l n before c after -> is_field c n t ->
  goto_reference l n =
    match nth_error (c_ptr c :: field_nodes after) (count_methods before) with
    | Some p => Ok (Some p)
    | None => Panic
    end.
Proof.
  intros l n before c after t C D F. unfold goto_reference, attribute.
  destruct (get_member _ _ _ _ _ _ D (field_lower _ _ _ F) eq_refl) as (G & N). rewrite G, N.
  unfold field_source. rewrite child_source_complete by assumption.
  destruct D as (-> & _ & _). apply complete_app in C. destruct C as (C & _).
  rewrite (length_lower _ C), field_nodes_app. rewrite nth_error_app2 by lia.
  replace (List.length (field_nodes before) + count_methods before - List.length (field_nodes before)) with (count_methods before) by lia.
  simpl. destruct F as (-> & _). destruct (nth_error (c_ptr c :: field_nodes after) (count_methods before)); reflexivity.
Qed.
Print Assumptions C46_reference_exact.

(** It leads to the field exactly if no method stands before the field. *)
Theorem C46_reference_iff : forall l n before c after t,
  complete l -> distinct l -> declares l n before c after -> is_field c n t ->
  (goto_reference l n = Ok (Some (c_ptr c)) <-> no_methods before).
Proof.
  intros l n before c after t C U D F. rewrite (C46_reference_exact _ _ _ _ _ _ C D F), count_no_methods.
  destruct (count_methods before) as [|k]; simpl; [tauto|]. split; [|discriminate].
  intros E. exfalso. destruct (nth_error (field_nodes after) k) as [p|] eqn:N; [|discriminate].
  inversion E; subst. apply nth_error_In, field_nodes_incl in N. destruct N as (d & I & _ & P).
  destruct D as (-> & _ & _). unfold distinct in U. rewrite map_app in U. simpl in U.
  apply NoDup_remove_2 in U. apply U. apply in_or_app. right. rewrite <- P. apply in_map. exact I.
Qed.
Print Assumptions C46_reference_iff.

(** The property for enum structs that declare their fields first. Missing: structs with a method
    before a field, where the code leads elsewhere ([C46_reference_refuted]). *)
Theorem C46_reference_partial : forall l n before c after t,
  complete l -> declares l n before c after -> is_field c n t -> no_methods before ->
  goto_reference l n = Ok (Some (c_ptr c)).
Proof.
  intros l n before c after t C D F M. rewrite (C46_reference_exact _ _ _ _ _ _ C D F).
  apply count_no_methods in M. rewrite M. reflexivity.
Qed.
Print Assumptions C46_reference_partial.

Definition point : list child :=
  [Child KMethod 10 (Some "Reset"%string) None;
   Child KField 20 (Some "x"%string) (Some 1);
   Child KField 30 (Some "y"%string) (Some 1)].

(** With a method first, going to [p.x] leads to [y], and going to [p.y] crashes the request. *)
Theorem C46_reference_refuted :
  exists l, complete l /\ distinct l /\
  declares l "x"%string (firstn 1 l) (Child KField 20 (Some "x"%string) (Some 1)) (skipn 2 l) /\
  declares l "y"%string (firstn 2 l) (Child KField 30 (Some "y"%string) (Some 1)) [] /\
  goto_reference l "x"%string = Ok (Some 30) /\ goto_reference l "y"%string = Panic.
Proof.
  exists point. split.
  { intros c [<-|[<-|[<-|[]]]] K; try discriminate K; do 2 eexists; repeat split. }
  split; [repeat constructor; simpl; intuition discriminate|].
  split. { split; [reflexivity|]. split; [left; eexists; repeat split|].
    intros c [<-|[]] [(t & _ & N & _)|(K & _)]; discriminate. }
  split. { split; [reflexivity|]. split; [left; eexists; repeat split|intros c []]. }
  split; reflexivity.
Qed.
Print Assumptions C46_reference_refuted.

(** ** Declarations *)

Lemma second_loop_fields src : forall id m p, NoDup src ->
  find p (m_fields (second_loop src id m)) =
    match find p (combine src (seq id (List.length src))) with Some i => Some i | None => find p (m_fields m) end.
Proof.
  induction src as [|q src IH]; intros id m p U; simpl; [reflexivity|].
  inversion U as [|? ? Q U']; subst. rewrite IH by assumption. simpl.
  destruct (Nat.eqb_spec q p) as [->|]; [|reflexivity].
  assert (A : forall a s, ~ In p s -> find p (combine s (seq a (List.length s))) = None).
  { clear. intros a s. revert a. induction s as [|x s IH]; intros a H; simpl; [reflexivity|].
    destruct (Nat.eqb_spec x p); [exfalso; apply H; left; assumption|]. apply IH. intros I. apply H. right. exact I. }
  rewrite A by assumption. reflexivity.
Qed.
Lemma second_loop_functions src : forall id m, m_functions (second_loop src id m) = m_functions m.
Proof. induction src as [|q src IH]; intros id m; simpl; [reflexivity|]. rewrite IH. reflexivity. Qed.
Lemma find_combine src : forall a k p, NoDup src -> nth_error src k = Some p ->
  find p (combine src (seq a (List.length src))) = Some (a + k).
Proof.
  induction src as [|q src IH]; intros a [|k] p U N; simpl in *; try discriminate.
  - inversion N; subst. rewrite Nat.eqb_refl, Nat.add_0_r. reflexivity.
  - inversion U as [|? ? Q U']; subst. destruct (Nat.eqb_spec q p) as [->|].
    + exfalso. apply Q. apply nth_error_In in N. exact N.
    + rewrite (IH _ _ _ U' N). f_equal. lia.
Qed.
(** What the first loop leaves in the table of functions. *)
Lemma first_loop_ok src : forall l idx field_idx m,
  complete l -> (forall j, j < List.length (field_nodes l) -> nth_error src (field_idx + j) <> None) ->
  exists m', first_loop src (lower_enum_struct l) idx field_idx m = Ok m' /\
    forall p, find p (m_functions m') = Some p \/
      (find p (m_functions m') = find p (m_functions m) /\ forall c n, In c l -> is_method c n -> c_ptr c <> p).
Proof.
  induction l as [|c r IH]; intros idx fi m C S.
  - exists m. split; [reflexivity|]. intros p. right. split; [reflexivity|intros ? ? []].
  - apply complete_cons in C. destruct C as (C & R). cbn [lower_enum_struct flat_map]. fold (lower_enum_struct r).
    destruct (c_kind c) eqn:K.
    + destruct (C eq_refl) as (n & t & F). rewrite (field_lower _ _ _ F). cbn [app first_loop].
      destruct (nth_error src fi) as [q|] eqn:Q.
      2: { exfalso. apply (S 0). - simpl. rewrite K. simpl. lia. - rewrite Nat.add_0_r. exact Q. }
      destruct (IH (Datatypes.S idx) (Datatypes.S fi) (DynMap ((q, idx) :: m_fields m) (m_functions m)) R) as (m' & E & H).
      { intros j J. replace (Datatypes.S fi + j) with (fi + Datatypes.S j) by lia. apply S. simpl. rewrite K. simpl. lia. }
      exists m'. split; [exact E|]. intros p. destruct (H p) as [A|(A & B)]; [left; exact A|right].
      split; [exact A|]. intros d k [<-|I] M; [destruct M as (M & _); congruence|exact (B d k I M)].
    + destruct (c_name c) as [n|] eqn:N.
      * rewrite (method_lower c n (conj K N)). cbn [app first_loop].
        destruct (IH (Datatypes.S idx) fi (DynMap (m_fields m) ((c_ptr c, c_ptr c) :: m_functions m)) R) as (m' & E & H).
        { intros j J. apply S. simpl. rewrite K. exact J. }
        exists m'. split; [exact E|]. intros p. destruct (H p) as [A|(A & B)]; [left; exact A|].
        simpl in A. destruct (Nat.eqb_spec (c_ptr c) p) as [P|P]; [left; rewrite A, P; reflexivity|right].
        split; [exact A|]. intros d k [<-|I] M; [exact P|exact (B d k I M)].
      * replace (lower_child c) with (@nil item) by (unfold lower_child; rewrite K, N; destruct (c_type c); reflexivity).
        simpl. destruct (IH idx fi m R) as (m' & E & H).
        { intros j J. apply S. simpl. rewrite K. exact J. }
        exists m'. split; [exact E|]. intros p. destruct (H p) as [A|(A & B)]; [left; exact A|right].
        split; [exact A|]. intros d k [<-|I] M; [destruct M as (_ & M); congruence|exact (B d k I M)].
    + replace (lower_child c) with (@nil item) by (unfold lower_child; rewrite K; destruct (c_name c), (c_type c); reflexivity).
      simpl. destruct (IH idx fi m R) as (m' & E & H).
      { intros j J. apply S. simpl. rewrite K. exact J. }
      exists m'. split; [exact E|]. intros p. destruct (H p) as [A|(A & B)]; [left; exact A|right].
      split; [exact A|]. intros d k [<-|I] M; [destruct M as (M & _); congruence|exact (B d k I M)].
Qed.
Lemma distinct_fields l : distinct l -> NoDup (field_nodes l).
Proof.
  unfold distinct. induction l as [|c r IH]; simpl; intros H; [constructor|].
  inversion H as [|? ? A B]; subst. destruct (c_kind c); auto. constructor; [|auto].
  intros I. apply A. apply field_nodes_incl in I. destruct I as (d & I & _ & P). rewrite <- P. apply in_map. exact I.
Qed.
Lemma child_by_source_ok l : complete l -> distinct l ->
  exists m, child_by_source l = Ok m /\
    (forall k p, nth_error (field_nodes l) k = Some p -> find p (m_fields m) = Some k) /\
    (forall c n, In c l -> is_method c n -> find (c_ptr c) (m_functions m) = Some (c_ptr c)) /\
    (forall p q, find p (m_functions m) = Some q -> q = p).
Proof.
  intros C U. unfold child_by_source. rewrite child_source_complete by assumption. rewrite items_lower.
  destruct (first_loop_ok (field_nodes l) l 0 0 (DynMap [] []) C) as (m & E & H).
  { intros j J. simpl. rewrite nth_error_Some. exact J. }
  rewrite E. eexists. split; [reflexivity|]. split; [|split].
  - intros k p N. rewrite second_loop_fields by (apply distinct_fields; exact U).
    rewrite (find_combine _ 0 k p (distinct_fields _ U) N). reflexivity.
  - intros c n I M. rewrite second_loop_functions. destruct (H (c_ptr c)) as [A|(_ & B)]; [exact A|].
    exfalso. exact (B c n I M eq_refl).
  - intros p q. rewrite second_loop_functions. destruct (H p) as [A|(A & _)]; rewrite A; [congruence|discriminate].
Qed.

(** The name in a member's own declaration leads to that declaration. *)
Theorem C46_declaration : forall l c n,
  complete l -> distinct l -> In c l ->
  ((exists t, is_field c n t) -> goto_declaration l (c_ptr c) = Ok (Some (c_ptr c))) /\
  (is_method c n -> goto_method_declaration l (c_ptr c) = Ok (Some (c_ptr c))).
Proof.
  intros l c n C U I. destruct (child_by_source_ok l C U) as (m & E & F & M & _).
  unfold goto_declaration, goto_method_declaration, field_source. rewrite E, child_source_complete by assumption.
  split.
  - intros (t & K & _). assert (P : In (c_ptr c) (field_nodes l)).
    { clear - I K. induction l as [|d r IH]; [destruct I|]. simpl. destruct I as [->|I]; [rewrite K; left; reflexivity|].
      destruct (c_kind d); [right|..]; auto. }
    apply In_nth_error in P. destruct P as (k & P). rewrite (F _ _ P), P. reflexivity.
  - intros K. rewrite (M c n I K). reflexivity.
Qed.
Print Assumptions C46_declaration.

(** All of this crashes exactly if some field has no name or no type, which happens only with syntax
    errors; looking up members by name never does. *)
Theorem C46_crash_iff : forall l, distinct l -> (child_by_source l = Panic <-> ~ complete l).
Proof.
  intros l U. split.
  - intros P C. destruct (child_by_source_ok l C U) as (m & E & _). congruence.
  - intros N. unfold child_by_source. destruct (child_source l) eqn:S; [|reflexivity].
    exfalso. apply N. apply child_source_incomplete. rewrite S. discriminate.
Qed.
Print Assumptions C46_crash_iff.

(** ** A case of each *)

Definition vector : list child :=
  [Child KOther 1 None None; Child KField 20 (Some "x"%string) (Some 1); Child KOther 2 None None;
   Child KField 30 (Some "y"%string) (Some 2); Child KMethod 40 (Some "Length"%string) None;
   Child KField 50 (Some "tag"%string) (Some 3)].
Example C46_nontrivial :
  complete vector /\ distinct vector /\
  declares vector "y"%string (firstn 3 vector) (Child KField 30 (Some "y"%string) (Some 2)) (skipn 4 vector) /\
  no_methods (firstn 3 vector) /\ goto_reference vector "y"%string = Ok (Some 30) /\
  attribute vector "tag"%string = Some (3, 3) /\ goto_reference vector "tag"%string = Panic /\
  method vector "Length"%string = Some 40 /\ goto_declaration vector 50 = Ok (Some 50).
Proof.
  split. { intros c I K. repeat (destruct I as [<-|I]; [try discriminate K; do 2 eexists; repeat split|]). destruct I. }
  split; [repeat constructor; simpl; intuition discriminate|].
  split. { split; [reflexivity|]. split; [left; eexists; repeat split|].
    intros c I [(t & _ & N & _)|(_ & N)]; repeat (destruct I as [<-|I]; [discriminate N|]); destruct I. }
  split. { intros c n I (K & N). repeat (destruct I as [<-|I]; [discriminate|]). destruct I. }
  repeat split.
Qed.
Example C46_crash : child_by_source [Child KField 1 (Some "a"%string) None] = Panic.
Proof. reflexivity. Qed.
