(** Proofs for C68: the ids and the words in the tables, and what each step of the printer adds. *)
From Coq Require Import List String Ascii Bool Arith NArith Lia.
From Verif Require Import AstIdModel TypeRefModel ItemTreeModel ItemTreeSpec ItemTreeProofs PrettyModel PrettySpec.
Import ListNotations.
Local Open Scope string_scope.
Local Open Scope nat_scope.
Local Open Scope list_scope.

(** ** What the tables hold *)
Section good.
Variable root : syn.
(** An id that was asked for. *)
Definition asked (a : nat) : Prop := exists n, id_of root n = Some a.
(** The mark of no visibility stands for itself. *)
Definition apart (v : N) : Prop := (v = v_none <-> bit v v_public = false /\ bit v v_stock = false /\ bit v v_static = false).
Definition good (t : itree) : Prop :=
  Forall (fun x => asked (fn_ast x) /\ apart (fn_vis x)) (functions t) /\ Forall (fun x => asked (var_ast x) /\ apart (var_vis x)) (variables t) /\
  Forall (fun x => asked (mac_ast x)) (macros t) /\ Forall (fun x => asked (es_ast x)) (enum_structs t) /\ Forall (fun x => asked (fld_ast x)) (fields t) /\
  Forall (fun x => asked (mm_ast x)) (methodmaps t) /\ Forall (fun x => asked (pr_ast x)) (properties t) /\ Forall (fun x => asked (par_ast x)) (params t) /\
  Forall (fun x => asked (en_ast x)) (enums t) /\ Forall (fun x => asked (td_ast x)) (typedefs t) /\ Forall (fun x => asked (ts_ast x)) (typesets t) /\
  Forall (fun x => asked (ft_ast x)) (functags t) /\ Forall (fun x => asked (fe_ast x)) (funcenums t) /\ Forall (fun x => asked (va_ast x)) (variants t).
Ltac added := intros; unfold good in *; cbn in *; intuition (try (apply Forall_app; split; [assumption|constructor; [|constructor]])); cbn; auto.

Lemma good_empty : good empty_tree.
Proof. unfold good. cbn. intuition constructor. Qed.
Lemma good_push : forall x t, good t -> good (push x t).
Proof. intros x t H. exact H. Qed.
Lemma good_function : forall x t, asked (fn_ast x) -> apart (fn_vis x) -> good t -> good (alloc_function x t). Proof. added. Qed.
Lemma good_variable : forall x t, asked (var_ast x) -> apart (var_vis x) -> good t -> good (alloc_variable x t). Proof. added. Qed.
Lemma good_macro : forall x t, asked (mac_ast x) -> good t -> good (alloc_macro x t). Proof. added. Qed.
Lemma good_enum_struct : forall x t, asked (es_ast x) -> good t -> good (alloc_enum_struct x t). Proof. added. Qed.
Lemma good_field : forall x t, asked (fld_ast x) -> good t -> good (alloc_field x t). Proof. added. Qed.
Lemma good_methodmap : forall x t, asked (mm_ast x) -> good t -> good (alloc_methodmap x t). Proof. added. Qed.
Lemma good_property : forall x t, asked (pr_ast x) -> good t -> good (alloc_property x t). Proof. added. Qed.
Lemma good_param : forall x t, asked (par_ast x) -> good t -> good (alloc_param x t). Proof. added. Qed.
Lemma good_enum : forall x t, asked (en_ast x) -> good t -> good (alloc_enum x t). Proof. added. Qed.
Lemma good_typedef : forall x t, asked (td_ast x) -> good t -> good (alloc_typedef x t). Proof. added. Qed.
Lemma good_typeset : forall x t, asked (ts_ast x) -> good t -> good (alloc_typeset x t). Proof. added. Qed.
Lemma good_functag : forall x t, asked (ft_ast x) -> good t -> good (alloc_functag x t). Proof. added. Qed.
Lemma good_funcenum : forall x t, asked (fe_ast x) -> good t -> good (alloc_funcenum x t). Proof. added. Qed.
Lemma good_variant : forall x t, asked (va_ast x) -> good t -> good (alloc_variant x t). Proof. added. Qed.

Lemma each_keeps : forall A S (P : S -> Prop) (f : S -> A -> option S) l s s',
  (forall s a s', f s a = Some s' -> P s -> P s') -> each f l s = Some s' -> P s -> P s'.
Proof.
  intros A S P f l. induction l as [|a l IH]; intros s s' K E H; cbn [each] in E; [injection E as <-; exact H|].
  destruct (f s a) as [s1|] eqn:E1; [|discriminate]. exact (IH s1 s' K E (K s a s1 E1 H)).
Qed.
Lemma apart_none : apart v_none. Proof. unfold apart. vm_compute. intuition. Qed.
Lemma apart_public : apart v_public. Proof. unfold apart. vm_compute. intuition discriminate. Qed.
Lemma apart_static : apart (N.lor v_public v_static). Proof. unfold apart. vm_compute. intuition discriminate. Qed.
(** Words added to the mark of none. *)
Lemma apart_of : forall n, apart (visibility_of n).
Proof.
  intros n. unfold visibility_of. destruct (child_by_field_name "visibility" n) as [v|]; [|exact apart_none].
  assert (G : forall l acc, In acc [8; 9; 10; 11; 12; 13; 14; 15]%N -> apart (fold_left (fun acc c =>
        if has_kind k_anon_public c then N.lor acc v_public else if has_kind k_anon_stock c then N.lor acc v_stock
        else if has_kind k_anon_static c then N.lor acc v_static else acc) l acc)).
  { induction l as [|c l IH]; intros acc I; cbn [fold_left].
    - cbn [In] in I. repeat (destruct I as [<-|I]; [unfold apart; vm_compute; intuition discriminate|]). destruct I.
    - apply IH. destruct (has_kind k_anon_public c); [|destruct (has_kind k_anon_stock c); [|destruct (has_kind k_anon_static c); [|exact I]]];
        cbn [In] in I; repeat (destruct I as [<-|I]; [vm_compute; tauto|]); destruct I. }
  apply G. left. reflexivity.
Qed.

Ltac asks := match goal with E : id_of root ?n = Some ?a |- asked ?a => exists n; exact E end.
Ltac cases E := match type of E with
  | context [match id_of root ?n with _ => _ end] => let X := fresh "X" in destruct (id_of root n) eqn:X; [|discriminate E]
  end.
Lemma keeps_variable : forall vis ty t c t', apart vis -> lower_variable root vis ty t c = Some t' -> good t -> good t'.
Proof.
  intros vis ty t c t' V E G. unfold lower_variable in E. destruct (name_of c); [|injection E as <-; exact G]. cases E. injection E as <-. apply good_push, good_variable; cbn; auto. asks.
Qed.
Lemma keeps_params : forall t n t' r, lower_parameters root t n = Some (t', r) -> good t -> good t'.
Proof.
  intros t n t' r E G. unfold lower_parameters in E. destruct (child_by_field_name "parameters" n) as [ps|]; [|injection E as <- _; exact G].
  destruct (has_kind k_parameter_declarations ps); [|discriminate]. destruct (each (lower_param root) (children ps) t) as [t1|] eqn:E1; [|discriminate]. injection E as <- _.
  refine (each_keeps _ _ good _ _ _ _ _ E1 G). clear. intros s a s' E H. unfold lower_param in E. destruct (_ || _); [|injection E as <-; exact H]. cases E. injection E as <-. apply good_param; [cbn; asks|exact H].
Qed.
Lemma keeps_function_ : forall t n vis kind sp t' o, match vis with Some v => apart v | None => True end -> lower_function_ root t n vis kind sp = Some (t', o) -> good t -> good t'.
Proof.
  intros t n vis kind sp t' o V E G. unfold lower_function_ in E. destruct (lower_parameters root t n) as [[t1 r]|] eqn:E1; [|discriminate]. pose proof (keeps_params _ _ _ _ E1 G) as G1.
  destruct (name_of n); [|injection E as <- _; exact G1]. cases E. injection E as <- _. apply good_function; cbn; [asks| |exact G1]. destruct vis; [exact V|apply apart_of].
Qed.
Lemma keeps_function : forall t n t', lower_function root t n = Some t' -> good t -> good t'.
Proof.
  intros t n t' E G. unfold lower_function in E. destruct (lower_function_ root t n None None None) as [[t1 o]|] eqn:E1; [|discriminate].
  pose proof (keeps_function_ _ _ None _ _ _ _ Logic.I E1 G) as G1. injection E as <-. destruct o; [apply good_push|]; exact G1.
Qed.
Lemma keeps_global : forall t n t', lower_global_variable root t n = Some t' -> good t -> good t'.
Proof.
  intros t n t' E G. unfold lower_global_variable in E. refine (each_keeps _ _ good _ _ _ _ _ E G). clear. intros s a s' E H. cbv beta in E.
  destruct (has_kind k_variable_declaration a); [exact (keeps_variable _ _ _ _ _ (apart_of n) E H)|injection E as <-; exact H].
Qed.
Lemma keeps_old_global : forall t n t', lower_old_global_variable root t n = Some t' -> good t -> good t'.
Proof.
  intros t n t' E G. unfold lower_old_global_variable in E. refine (each_keeps _ _ good _ _ _ _ _ E G). clear. intros s a s' E H. cbv beta in E. exact (keeps_variable _ _ _ _ _ (apart_of n) E H).
Qed.
Lemma keeps_variant : forall t n t', lower_variant root t n = Some t' -> good t -> good t'.
Proof. intros t n t' E G. unfold lower_variant in E. destruct (name_of n); [|injection E as <-; exact G]. cases E. injection E as <-. apply good_push, good_variant; [cbn; asks|exact G]. Qed.
Lemma keeps_enum : forall t n t', lower_enum root t n = Some t' -> good t -> good t'.
Proof.
  intros t n t' E G. unfold lower_enum in E. destruct (child_by_field_name "entries" n) as [es|].
  - destruct (each (lower_variant root) (filter (has_kind k_enum_entry) (children es)) t) as [t1|] eqn:E1; [|discriminate]. cases E. injection E as <-. apply good_push, good_enum; [cbn; asks|].
    exact (each_keeps _ _ good _ _ _ _ keeps_variant E1 G).
  - cases E. injection E as <-. apply good_push, good_enum; [cbn; asks|exact G].
Qed.
Lemma keeps_typedef : forall t n t', lower_typedef root t n = Some t' -> good t -> good t'.
Proof.
  intros t n t' E G. unfold lower_typedef in E. destruct (name_of n); [|injection E as <-; exact G]. destruct (find _ _) as [e|]; [|injection E as <-; exact G].
  destruct (type_in "returnType" e); [|injection E as <-; exact G]. destruct (lower_parameters root t e) as [[t1 r]|] eqn:E1; [|discriminate]. cases E. injection E as <-.
  apply good_push, good_typedef; [cbn; asks|exact (keeps_params _ _ _ _ E1 G)].
Qed.
Lemma keeps_member : forall t n t', lower_typeset_member root t n = Some t' -> good t -> good t'.
Proof.
  intros t e t' E G. unfold lower_typeset_member in E. destruct (type_in "returnType" e); [|injection E as <-; exact G]. destruct (lower_parameters root t e) as [[t1 r]|] eqn:E1; [|discriminate]. cases E. injection E as <-.
  apply good_typedef; [cbn; asks|exact (keeps_params _ _ _ _ E1 G)].
Qed.
Lemma keeps_typeset : forall t n t', lower_typeset root t n = Some t' -> good t -> good t'.
Proof.
  intros t n t' E G. unfold lower_typeset in E. destruct (name_of n); [|injection E as <-; exact G]. destruct (each _ _ t) as [t1|] eqn:E1; [|discriminate]. cases E. injection E as <-.
  apply good_push, good_typeset; [cbn; asks|exact (each_keeps _ _ good _ _ _ _ keeps_member E1 G)].
Qed.
Lemma keeps_functag : forall t n t', lower_functag root t n = Some t' -> good t -> good t'.
Proof.
  intros t n t' E G. unfold lower_functag in E. destruct (name_of n); [|injection E as <-; exact G]. destruct (lower_parameters root t n) as [[t1 r]|] eqn:E1; [|discriminate]. cases E. injection E as <-.
  apply good_push, good_functag; [cbn; asks|exact (keeps_params _ _ _ _ E1 G)].
Qed.
Lemma keeps_tag : forall t n t', lower_funcenum_member root t n = Some t' -> good t -> good t'.
Proof.
  intros t n t' E G. unfold lower_funcenum_member in E. destruct (lower_parameters root t n) as [[t1 r]|] eqn:E1; [|discriminate]. cases E. injection E as <-.
  apply good_functag; [cbn; asks|exact (keeps_params _ _ _ _ E1 G)].
Qed.
Lemma keeps_funcenum : forall t n t', lower_funcenum root t n = Some t' -> good t -> good t'.
Proof.
  intros t n t' E G. unfold lower_funcenum in E. destruct (name_of n); [|injection E as <-; exact G]. destruct (each _ _ t) as [t1|] eqn:E1; [|discriminate]. cases E. injection E as <-.
  apply good_push, good_funcenum; [cbn; asks|exact (each_keeps _ _ good _ _ _ _ keeps_tag E1 G)].
Qed.
Lemma keeps_accessor : forall e1 ty kind t e2 t', lower_property_method root e1 ty kind t e2 = Some t' -> good t -> good t'.
Proof.
  intros e1 ty kind t e2 t' E G. unfold lower_property_method in E. destruct (has_kind k_methodmap_property_getter e2).
  - cases E. injection E as <-. apply good_function; [cbn; asks|exact apart_public|exact G].
  - destruct (has_kind k_methodmap_property_setter e2); [|injection E as <-; exact G]. destruct (child_by_field_name "parameter" e2) as [p|]; [|injection E as <-; exact G].
    destruct (id_of root p) eqn:Ep; [|discriminate]. destruct (id_of root e1) eqn:X; [|discriminate]. injection E as <-. apply good_function; [cbn; asks|exact apart_none|]. apply good_param; [cbn; asks|exact G].
Qed.
Lemma keeps_accessors : forall ty t e1 t', lower_accessors root ty t e1 = Some t' -> good t -> good t'.
Proof.
  intros ty t e1 t' E G. unfold lower_accessors in E. destruct (has_kind k_methodmap_property_method e1).
  - exact (each_keeps _ _ good _ _ _ _ (keeps_accessor e1 ty Def) E G).
  - destruct (has_kind k_methodmap_property_native e1); [exact (each_keeps _ _ good _ _ _ _ (keeps_accessor e1 ty Native) E G)|injection E as <-; exact G].
Qed.
Lemma keeps_mm : forall s e s', lower_methodmap_child root s e = Some s' -> good (fst s) -> good (fst s').
Proof.
  intros [t i] e s' E G. cbn [fst] in G.
  assert (M : forall k sp, lower_methodmap_method root k sp (t, i) e = Some s' -> good (fst s')).
  { intros k sp H. unfold lower_methodmap_method in H. destruct (lower_function_ root t e _ k sp) as [[t1 o]|] eqn:E1; [|discriminate].
    assert (Q : good t1). { refine (keeps_function_ _ _ _ _ _ _ _ _ E1 G). destruct (existsb _ _); [exact apart_static|exact apart_public]. }
    injection H as <-. exact Q. }
  unfold lower_methodmap_child in E. destruct (has_kind k_methodmap_property e).
  - unfold lower_property in E. destruct (name_of e); [|injection E as <-; exact G]. destruct (type_in "type" e) as [ty|]; [|injection E as <-; exact G].
    destruct (each (lower_accessors root ty) (children e) t) as [t1|] eqn:E1; [|discriminate]. cases E. injection E as <-. cbn [fst]. apply good_property; [cbn; asks|].
    exact (each_keeps _ _ good _ _ _ _ (keeps_accessors ty) E1 G).
  - repeat match type of E with (if ?b then _ else _) = _ => destruct b; [exact (M _ _ E)|] end. injection E as <-. exact G.
Qed.
Lemma keeps_methodmap : forall t n t', lower_methodmap root t n = Some t' -> good t -> good t'.
Proof.
  intros t n t' E G. unfold lower_methodmap in E. destruct (name_of n); [|injection E as <-; exact G]. destruct (each _ _ (t, [])) as [[t1 items]|] eqn:E1; [|discriminate]. cases E. injection E as <-.
  apply good_push, good_methodmap; [cbn; asks|exact (each_keeps _ _ (fun s => good (fst s)) _ _ _ _ keeps_mm E1 G)].
Qed.
Lemma keeps_es : forall s e s', lower_enum_struct_child root s e = Some s' -> good (fst s) -> good (fst s').
Proof.
  intros [t i] e s' E G. cbn [fst] in G. unfold lower_enum_struct_child in E. destruct (has_kind k_enum_struct_field e).
  - destruct (name_of e); [|injection E as <-; exact G]. destruct (type_in "type" e) as [ty|]; [|injection E as <-; exact G]. cases E. injection E as <-. cbn [fst]. apply good_field; [cbn; asks|exact G].
  - destruct (has_kind k_enum_struct_method e); [|injection E as <-; exact G]. destruct (lower_function_ root t e None None None) as [[t1 o]|] eqn:E1; [|discriminate].
    pose proof (keeps_function_ _ _ None _ _ _ _ Logic.I E1 G) as Q. injection E as <-. exact Q.
Qed.
Lemma keeps_enum_struct : forall t n t', lower_enum_struct root t n = Some t' -> good t -> good t'.
Proof.
  intros t n t' E G. unfold lower_enum_struct in E. destruct (name_of n); [|injection E as <-; exact G]. destruct (each _ _ (t, [])) as [[t1 items]|] eqn:E1; [|discriminate]. cases E. injection E as <-.
  apply good_push, good_enum_struct; [cbn; asks|exact (each_keeps _ _ (fun s => good (fst s)) _ _ _ _ keeps_es E1 G)].
Qed.
Lemma keeps_child : forall t n t', lower_child root t n = Some t' -> good t -> good t'.
Proof.
  intros t n t' E G. unfold lower_child in E. cbv zeta in E.
  destruct (_ || _); [exact (keeps_function _ _ _ E G)|]. destruct (_ =? k_enum); [exact (keeps_enum _ _ _ E G)|]. destruct (_ =? k_global_variable_declaration); [exact (keeps_global _ _ _ E G)|].
  destruct (_ =? k_old_global_variable_declaration); [exact (keeps_old_global _ _ _ E G)|]. destruct (_ =? k_enum_struct); [exact (keeps_enum_struct _ _ _ E G)|].
  destruct (_ =? k_methodmap); [exact (keeps_methodmap _ _ _ E G)|]. destruct (_ =? k_typedef); [exact (keeps_typedef _ _ _ E G)|]. destruct (_ =? k_typeset); [exact (keeps_typeset _ _ _ E G)|].
  destruct (_ =? k_functag); [exact (keeps_functag _ _ _ E G)|]. destruct (_ =? k_funcenum); [exact (keeps_funcenum _ _ _ E G)|]. injection E as <-. exact G.
Qed.
Lemma lower_good : forall t, lower root = Some t -> good t.
Proof.
  intros t E. unfold lower in E. destruct (each (lower_child root) (children root) empty_tree) as [t1|] eqn:E1; [|discriminate].
  refine (each_keeps _ _ good _ _ _ _ _ E (each_keeps _ _ good _ _ _ _ keeps_child E1 good_empty)).
  clear. intros s n s' E G. unfold lower_macro in E. destruct (name_of n); [|injection E as <-; exact G]. cases E. injection E as <-. apply good_push, good_macro; [cbn; asks|exact G].
Qed.

(** The number of the place of an id that was asked for is that id. *)
Lemma number_asked : forall a p, asked a -> place root a = Some p -> number root p = a.
Proof.
  intros a p [n E] H. rewrite (place_id root n a E) in H. injection H as <-. unfold number. unfold id_of, ast_id_of in E. unfold place_of. rewrite E. reflexivity.
Qed.
End good.

(** ** What a step adds to the text *)
Lemma sapp_assoc : forall a b c, ((a ++ b) ++ c = a ++ (b ++ c))%string.
Proof. induction a as [|x a IH]; intros b c; [reflexivity|]. cbn. rewrite IH. reflexivity. Qed.
Lemma sapp_nil : forall a, (a ++ "" = a)%string.
Proof. induction a as [|x a IH]; [reflexivity|]. cbn. rewrite IH. reflexivity. Qed.

(** [does f l s m]: at the indentation [l] the step [f] adds [s] and leaves the indentation [m]. *)
Definition does (f : step) (l : nat) (s : string) (m : nat) : Prop := forall b, f (b, l) = Some ((b ++ s)%string, m).
Lemma does_eq : forall f l s s' m, does f l s m -> s = s' -> does f l s' m.
Proof. intros f l s s' m H <-. exact H. Qed.
Lemma does_fine : forall l, does fine l "" l.
Proof. intros l b. unfold fine. rewrite sapp_nil. reflexivity. Qed.
Lemma does_after : forall f g l m n s s', does f l s m -> does g m s' n -> does (f >> g) l (s ++ s') n.
Proof. intros f g l m n s s' H K b. unfold after. rewrite H, K, sapp_assoc. reflexivity. Qed.
Lemma does_push : forall s l, does (push_text s) l s l.
Proof. intros s l b. reflexivity. Qed.
Lemma does_newline : forall l, does newline l (line_end ++ spaces l) l.
Proof. intros l b. reflexivity. Qed.
Lemma does_indent : forall l, does indent l "" (S l).
Proof. intros l b. cbn. rewrite sapp_nil. reflexivity. Qed.
Lemma does_dedent : forall l, does dedent (S l) "" l.
Proof. intros l b. cbn. rewrite sapp_nil. reflexivity. Qed.
Lemma does_comment : forall a l, does (comment a) l (("// " ++ id_text a) ++ (line_end ++ spaces l)) l.
Proof. intros a l. apply does_after with l; [apply does_push|apply does_newline]. Qed.
Definition joined (ss : list string) : string := fold_right String.append "" ss.
Lemma does_loop : forall A (f : A -> step) (s : A -> string) l xs, (forall x, In x xs -> does (f x) l (s x) l) -> does (loop f xs) l (joined (map s xs)) l.
Proof.
  intros A f s l. induction xs as [|x xs IH]; intros H; [apply does_fine|]. cbn [loop map joined fold_right]. apply does_after with l; [apply H; left; reflexivity|].
  apply IH. intros y I. apply H. right. exact I.
Qed.
Lemma does_all : forall A B (f : A -> step) (g : A -> option B) (s : B -> string) l xs vs, all g xs = Some vs ->
  (forall x v, In x xs -> g x = Some v -> does (f x) l (s v) l) -> does (loop f xs) l (joined (map s vs)) l.
Proof.
  intros A B f g s l. induction xs as [|x xs IH]; intros vs E H; cbn [all] in E; [injection E as <-; apply does_fine|].
  destruct (g x) as [v|] eqn:Ex; [|discriminate]. destruct (all g xs) as [vs'|]; [|discriminate]. injection E as <-. cbn [loop map joined fold_right].
  apply does_after with l; [apply (H x v); [left; reflexivity|exact Ex]|]. apply (IH vs' eq_refl). intros y w I. apply H. right. exact I.
Qed.
Lemma does_entry : forall A B (l : list A) i (f : A -> step) (g : A -> option B) (s : B -> string) d v, at_index l g i = Some v ->
  (forall a v, In a l -> g a = Some v -> does (f a) d (s v) d) -> does (entry l i f) d (s v) d.
Proof.
  intros A B l i f g s d v E H b. unfold at_index in E. unfold entry. destruct (nth_error l i) as [a|] eqn:N; [|discriminate]. apply (H a v); [exact (nth_error_In _ _ N)|exact E].
Qed.
Lemma does_entries : forall A B (l : list A) r (f : A -> step) (g : A -> option B) (s : B -> string) d vs, all (at_index l g) (indices r) = Some vs ->
  (forall a v, In a l -> g a = Some v -> does (f a) d (s v) d) -> does (entries l r f) d (joined (map s vs)) d.
Proof.
  intros A B l r f g s d vs E H. unfold entries. apply (does_all _ _ _ _ s d _ _ E). intros i v _ Ei. exact (does_entry _ _ l i f g s d v Ei H).
Qed.

(** ** Lines one after the other *)
(** The lines [ls] behind the indentation of the first; the line behind them is indented by [e]. *)
Definition first (ls : list line) (e : nat) : nat := match ls with (d, _) :: _ => d | [] => e end.
Fixpoint tail (ls : list line) (e : nat) : string :=
  match ls with [] => "" | (_, s) :: tl => (s ++ line_end ++ spaces (first tl e) ++ tail tl e)%string end.
Lemma tail_app : forall a b e, tail (a ++ b) e = (tail a (first b e) ++ tail b e)%string.
Proof.
  induction a as [|[d s] a IH]; intros b e; [reflexivity|]. cbn [app tail]. rewrite IH, !sapp_assoc. destruct a as [|[d' s'] a]; reflexivity.
Qed.
Lemma first_app : forall a b e, first (a ++ b) e = first a (first b e).
Proof. intros [|[d s] a] b e; reflexivity. Qed.
Lemma tail_flat : forall A (f : A -> list line) d l, (forall x, first (f x) d = d) -> tail (flat_map f l) d = joined (map (fun x => tail (f x) d) l) /\ first (flat_map f l) d = d.
Proof.
  intros A f d l H. induction l as [|x l [IH1 IH2]]; [split; reflexivity|]. cbn [flat_map map joined fold_right]. rewrite tail_app, IH2, IH1. split; [reflexivity|].
  specialize (H x). destruct (f x) as [|[d' s] r]; [exact IH2|exact H].
Qed.
Lemma tail_behind : forall d ls e, tail (behind d ls) e = tail ls e.
Proof. intros d [|[d' s] ls] e; reflexivity. Qed.
Lemma joined_concat : forall ss, joined ss = String.concat "" ss.
Proof.
  induction ss as [|s [|s' ss] IH]; [reflexivity|cbn; apply sapp_nil|].
  change (String.concat "" (s :: s' :: ss)) with (s ++ "" ++ String.concat "" (s' :: ss))%string. rewrite <- IH. reflexivity.
Qed.
Lemma render_tail : forall ls e, (render ls ++ spaces e = spaces (first ls e) ++ tail ls e)%string.
Proof.
  intros ls e. unfold render. rewrite <- joined_concat. induction ls as [|[d s] ls IH]; [cbn; rewrite sapp_nil; reflexivity|].
  cbn [map joined fold_right tail fst snd first]. rewrite !sapp_assoc. f_equal. f_equal. f_equal. exact IH.
Qed.

(** ** The parts of a declaration *)
Lemma does_visibility : forall v l, apart v -> does (visibility v) l (words (bit v v_public) (bit v v_stock) (bit v v_static)) l.
Proof.
  intros v l H. unfold visibility, visibility_words. destruct (N.eqb_spec v v_none) as [->|N]; [apply does_fine|].
  eapply does_eq; [apply does_after with l; apply does_push|]. unfold apart in H. destruct (bit v v_public), (bit v v_stock), (bit v v_static); try reflexivity. elim N. apply H. auto.
Qed.
Lemma does_optional : forall ty l, does (optional ty) l (in_front ty) l.
Proof. intros [ty|] l; [apply does_after with l; apply does_push|apply does_fine]. Qed.

Section tree.
Variable root : syn.
Variable t : itree.
Hypothesis G : good root t.
Local Notation num := (number root).

Lemma id_shown : forall a p d, asked root a -> place root a = Some p -> snd (id_line num d p) = ("// " ++ id_text a)%string.
Proof. intros a p d A E. unfold id_line. rewrite (number_asked root a p A E). reflexivity. Qed.
Lemma params_good : forall p, In p (params t) -> asked root (par_ast p).
Proof. intros p I. unfold good in G. decompose [and] G. match goal with H : Forall _ (params t) |- _ => rewrite Forall_forall in H; exact (H p I) end. Qed.

(** The text of a parameter, and of a list of them. *)
Definition param_text (d : nat) (p : param_view) : string :=
  match pv_type p with
  | Some ty => (line_end ++ spaces d ++ snd (id_line num d (pv_at p)) ++ line_end ++ spaces d ++ to_str ty ++ ",")%string
  | None => ""
  end.
Lemma does_param : forall p v l, In p (params t) -> view_param root p = Some v -> does (print_param p) l (param_text l v) l.
Proof.
  intros p v l I E. unfold view_param in E. destruct (place root (par_ast p)) as [x|] eqn:Ep; [|discriminate]. injection E as <-. unfold print_param, param_text. cbn [pv_type pv_at].
  destruct (par_type p) as [ty|]; [|apply does_fine]. rewrite (id_shown _ _ l (params_good p I) Ep).
  eapply does_eq; [repeat (eapply does_after; [first [apply does_newline|apply does_comment|apply does_push]|]); apply does_push|]. rewrite !sapp_assoc. reflexivity.
Qed.
Lemma does_params : forall r vs l, read_params root t r = Some vs -> does (entries (params t) r print_param) l (joined (map (param_text l) vs)) l.
Proof. intros r vs l E. apply (does_entries _ _ _ _ _ _ _ _ _ E). intros a v I Ea. exact (does_param a v l I Ea). Qed.
Lemma tail_params : forall close ps d d0 s e, tail (closed close ((d0, s) :: flat_map (typed num (S d)) ps)) e = (s ++ joined (map (param_text (S d)) ps) ++ close ++ line_end ++ spaces e)%string /\
  first (closed close ((d0, s) :: flat_map (typed num (S d)) ps)) e = d0.
Proof.
  intros close. induction ps as [|p ps IH]; intros d d0 s e.
  - cbn [flat_map closed tail first map joined fold_right]. split; [|reflexivity]. rewrite !sapp_assoc, sapp_nil. reflexivity.
  - cbn [flat_map map joined fold_right]. unfold typed at 1 3. unfold param_text at 1. destruct (pv_type p) as [ty|]; [|exact (IH d d0 s e)].
    cbn [app]. specialize (IH d (S d) (to_str ty ++ ",")%string e). destruct IH as [IH1 IH2]. remember (flat_map (typed num (S d)) ps) as rest. split; [|reflexivity].
    change (closed close ((d0, s) :: id_line num (S d) (pv_at p) :: (S d, (to_str ty ++ ",")%string) :: rest)) with ((d0, s) :: id_line num (S d) (pv_at p) :: closed close ((S d, (to_str ty ++ ",")%string) :: rest)).
    destruct (id_line num (S d) (pv_at p)) as [dd ss] eqn:Ei. assert (dd = S d) by (unfold id_line in Ei; congruence). subst dd.
    cbn [tail first]. rewrite IH1, IH2. cbn [snd]. rewrite !sapp_assoc. reflexivity.
Qed.
Lemma tail_with_params : forall d s ps close e, tail (with_params num d s ps close) e = (s ++ "(" ++ joined (map (param_text (S d)) ps) ++ close ++ line_end ++ spaces e)%string /\ first (with_params num d s ps close) e = d.
Proof. intros d s ps close e. unfold with_params. destruct (tail_params close ps d d (s ++ "(")%string e) as [A B]. split; [rewrite A, sapp_assoc; reflexivity|exact B]. Qed.
Lemma tail_cons_id : forall d p ls e, tail (id_line num d p :: ls) e = (snd (id_line num d p) ++ line_end ++ spaces (first ls e) ++ tail ls e)%string.
Proof. reflexivity. Qed.

Ltac go := repeat (eapply does_after; [first [apply does_newline|apply does_comment|apply does_indent|apply does_dedent|apply does_push|apply does_fine|apply does_optional]|]).
Ltac same := cbn [tail first]; rewrite ?sapp_assoc, ?sapp_nil; reflexivity.
Ltac table x := unfold good in G; decompose [and] G; match goal with H : Forall _ ?l, I : In x ?l |- _ => rewrite Forall_forall in H; specialize (H x I) end.

Lemma does_function : forall f v l, In f (functions t) -> view_function root t f = Some v -> does (print_function t f) l (tail (function_lines num l v) l) l.
Proof.
  intros f v l I E. unfold view_function in E. destruct (read_params root t (fn_params f)) as [ps|] eqn:Ep; [|discriminate]. destruct (place root (fn_ast f)) as [x|] eqn:Ex; [|discriminate]. injection E as <-.
  assert (A : asked root (fn_ast f) /\ apart (fn_vis f)) by (table f; assumption). destruct A as [A V].
  unfold print_function, function_lines. cbn [fv_name fv_kind fv_public fv_stock fv_static fv_params fv_ret fv_at].
  pose proof (does_params _ _ (S l) Ep) as Dp. destruct (fn_knd f); eapply does_eq.
  1, 3, 5: go; eapply does_after; [apply does_visibility; exact V|]; go; eapply does_after; [exact Dp|]; go; try (eapply does_after; [go; try apply does_dedent; try apply does_push|]); apply does_newline.
  all: rewrite tail_cons_id, (id_shown _ _ l A Ex); rewrite ?first_app, ?tail_app; rewrite ?(proj1 (tail_with_params _ _ _ _ _)), ?(proj2 (tail_with_params _ _ _ _ _)).
  all: same.
Qed.
Lemma does_fn : forall i v l, at_index (functions t) (view_function root t) i = Some v -> does (print_fn t i) l (tail (function_lines num l v) l) l.
Proof. intros i v l E. unfold print_fn. apply (does_entry _ _ _ _ _ _ (fun v => tail (function_lines num l v) l) l v E). intros a w I Ea. exact (does_function a w l I Ea). Qed.
Lemma does_typedef : forall x v l, In x (typedefs t) -> view_typedef root t x = Some v -> does (print_typedef t x) l (tail (typedef_lines num l v) l) l.
Proof.
  intros x v l I E. unfold view_typedef in E. destruct (read_params root t (td_params x)) as [ps|] eqn:Ep; [|discriminate]. destruct (place root (td_ast x)) as [p|] eqn:Ex; [|discriminate]. injection E as <-.
  assert (A : asked root (td_ast x)) by (table x; assumption). unfold print_typedef, typedef_lines. cbn [tv_name tv_params tv_type tv_at].
  pose proof (does_params _ _ (S l) Ep) as Dp. destruct (td_name x); eapply does_eq.
  1, 3: go; eapply does_after; [exact Dp|]; go; apply does_newline.
  all: rewrite tail_cons_id, (id_shown _ _ l A Ex); rewrite ?(proj1 (tail_with_params _ _ _ _ _)), ?(proj2 (tail_with_params _ _ _ _ _)); same.
Qed.
Lemma does_functag : forall x v l, In x (functags t) -> view_functag root t x = Some v -> does (print_functag t x) l (tail (functag_lines num l v) l) l.
Proof.
  intros x v l I E. unfold view_functag in E. destruct (read_params root t (ft_params x)) as [ps|] eqn:Ep; [|discriminate]. destruct (place root (ft_ast x)) as [p|] eqn:Ex; [|discriminate]. injection E as <-.
  assert (A : asked root (ft_ast x)) by (table x; assumption). unfold print_functag, functag_lines. cbn [gv_name gv_params gv_type gv_at].
  pose proof (does_params _ _ (S l) Ep) as Dp. destruct (ft_name x); eapply does_eq.
  1, 3: go; eapply does_after; [exact Dp|]; go; apply does_newline.
  all: rewrite tail_cons_id, (id_shown _ _ l A Ex); rewrite ?(proj1 (tail_with_params _ _ _ _ _)), ?(proj2 (tail_with_params _ _ _ _ _)); unfold type_or_nothing; destruct (ft_type x); same.
Qed.
Lemma function_first : forall f d e, first (function_lines num d f) e = d.
Proof. reflexivity. Qed.

(** Two lines, then members, then the end. *)
Lemma tail_members : forall A (f : A -> list line) d p s xs ends e, (forall x, first (f x) (S d) = S d) ->
  first ends e = S d -> tail ([id_line num d p; (d, s)] ++ flat_map f xs ++ ends) e =
  (snd (id_line num d p) ++ line_end ++ spaces d ++ s ++ line_end ++ spaces (S d) ++ joined (map (fun x => tail (f x) (S d)) xs) ++ tail ends e)%string.
Proof.
  intros A f d p s xs ends e H K. cbn [app]. rewrite tail_cons_id. cbn [tail first]. rewrite first_app, tail_app, K. destruct (tail_flat A f (S d) xs H) as [H1 H2]. rewrite H1, H2. reflexivity.
Qed.

Lemma does_es : forall i v l, view_es_item root t i = Some v -> does (print_es_item t i) l (tail (es_lines num l v) l) l.
Proof.
  intros [i|i] v l E; cbn [view_es_item] in E; cbn [print_es_item].
  - destruct (at_index (functions t) (view_function root t) i) as [f|] eqn:Ef; [|discriminate]. injection E as <-. exact (does_fn i f l Ef).
  - refine (does_entry _ _ _ _ _ _ (fun v => tail (es_lines num l v) l) l v E _). clear E v. intros f v I E. cbv beta in E. destruct (place root (fld_ast f)) as [p|] eqn:Ep; [|discriminate]. injection E as <-.
    assert (A : asked root (fld_ast f)) by (table f; assumption). eapply does_eq; [go; apply does_newline|]. cbn [es_lines]. rewrite tail_cons_id, (id_shown _ _ l A Ep). same.
Qed.
Lemma es_first : forall x d e, first (es_lines num d x) e = d.
Proof. intros [f|n ty p] d e; reflexivity. Qed.
Lemma does_enum_struct : forall s v, In s (enum_structs t) -> view_enum_struct root t s = Some v -> does (print_enum_struct t s) 0 (tail (view_lines num v) 0) 0.
Proof.
  intros s v I E. unfold view_enum_struct in E. destruct (all (view_es_item root t) (es_items s)) as [xs|] eqn:Ea; [|discriminate]. destruct (place root (es_ast s)) as [p|] eqn:Ep; [|discriminate]. injection E as <-.
  assert (A : asked root (es_ast s)) by (table s; assumption). unfold print_enum_struct. eapply does_eq.
  - go. eapply does_after; [exact (does_all _ _ _ _ (fun v => tail (es_lines num 1 v) 1) 1 _ _ Ea (fun i w _ Ei => does_es i w 1 Ei))|]. go. apply does_newline.
  - cbn [view_lines]. rewrite (tail_members _ _ 0 _ _ _ [(1, ""); (0, "}")] 0 (fun x => es_first x 1 1) eq_refl), (id_shown _ _ 0 A Ep). same.
Qed.
Lemma does_property : forall x v l, In x (properties t) -> view_property root t x = Some v -> does (print_property t x) l (tail (mm_lines num l v) l) l.
Proof.
  intros x v l I E. unfold view_property in E. destruct (all _ (indices (pr_accessors x))) as [xs|] eqn:Ea; [|discriminate]. destruct (place root (pr_ast x)) as [p|] eqn:Ep; [|discriminate]. injection E as <-.
  assert (A : asked root (pr_ast x)) by (table x; assumption). unfold print_property. eapply does_eq.
  - go. eapply does_after; [exact (does_all _ _ _ _ (fun v => tail (function_lines num (S l) v) (S l)) (S l) _ _ Ea (fun i w _ Ei => does_fn i w (S l) Ei))|]. go. apply does_newline.
  - cbn [mm_lines]. rewrite (tail_members _ _ l _ _ _ [(S l, "}")] l (fun x => function_first x (S l) (S l)) eq_refl), (id_shown _ _ l A Ep). same.
Qed.
Lemma does_mm : forall i v l, view_mm_item root t i = Some v -> does (print_mm_item t i) l (tail (mm_lines num l v) l) l.
Proof.
  intros [i|i] v l E; cbn [view_mm_item] in E; cbn [print_mm_item].
  - destruct (at_index (functions t) (view_function root t) i) as [f|] eqn:Ef; [|discriminate]. injection E as <-. exact (does_fn i f l Ef).
  - exact (does_entry _ _ _ _ _ _ (fun v => tail (mm_lines num l v) l) l v E (fun a w I Ea => does_property a w l I Ea)).
Qed.
Lemma mm_first : forall x d e, first (mm_lines num d x) e = d.
Proof. intros [f|n ty acc p] d e; reflexivity. Qed.
Lemma does_methodmap : forall s v, In s (methodmaps t) -> view_methodmap root t s = Some v -> does (print_methodmap t s) 0 (tail (view_lines num v) 0) 0.
Proof.
  intros s v I E. unfold view_methodmap in E. destruct (all (view_mm_item root t) (mm_items s)) as [xs|] eqn:Ea; [|discriminate]. destruct (place root (mm_ast s)) as [p|] eqn:Ep; [|discriminate]. injection E as <-.
  assert (A : asked root (mm_ast s)) by (table s; assumption). unfold print_methodmap. cbn [view_lines]. rewrite (tail_members _ _ 0 _ _ _ [(1, ""); (0, "}")] 0 (fun x => mm_first x 1 1) eq_refl), (id_shown _ _ 0 A Ep).
  destruct (mm_inherits s); eapply does_eq.
  1, 3: go; eapply does_after; [exact (does_all _ _ _ _ (fun v => tail (mm_lines num 1 v) 1) 1 _ _ Ea (fun i w _ Ei => does_mm i w 1 Ei))|]; go; apply does_newline.
  all: same.
Qed.
Lemma does_enum : forall e v, In e (enums t) -> view_enum root t e = Some v -> does (print_enum t e) 0 (tail (view_lines num v) 0) 0.
Proof.
  intros e v I E. unfold view_enum in E. destruct (all _ (indices (en_variants e))) as [xs|] eqn:Ea; [|discriminate]. destruct (place root (en_ast e)) as [p|] eqn:Ep; [|discriminate]. injection E as <-.
  assert (A : asked root (en_ast e)) by (table e; assumption). unfold print_enum. eapply does_eq.
  - go. eapply does_after; [refine (does_entries _ _ _ _ _ _ (fun v => tail (variant_lines num 1 v) 1) 1 _ Ea _)|go; apply does_newline].
    intros x w Ix Ew. unfold view_variant in Ew. destruct (place root (va_ast x)) as [q|] eqn:Eq; [|discriminate]. injection Ew as <-. assert (B : asked root (va_ast x)) by (table x; assumption).
    eapply does_eq; [go; apply does_newline|]. unfold variant_lines. cbn [vv_name vv_at]. rewrite tail_cons_id, (id_shown _ _ 1 B Eq). same.
  - cbn [view_lines]. rewrite (tail_members variant_view (variant_lines num 1) 0 p _ xs [(1, "};")] 0 (fun x => eq_refl) eq_refl), (id_shown _ _ 0 A Ep). same.
Qed.
Lemma does_typeset : forall s v, In s (typesets t) -> view_typeset root t s = Some v -> does (print_typeset t s) 0 (tail (view_lines num v) 0) 0.
Proof.
  intros s v I E. unfold view_typeset in E. destruct (all _ (indices (ts_typedefs s))) as [xs|] eqn:Ea; [|discriminate]. destruct (place root (ts_ast s)) as [p|] eqn:Ep; [|discriminate]. injection E as <-.
  assert (A : asked root (ts_ast s)) by (table s; assumption). unfold print_typeset. eapply does_eq.
  - go. eapply does_after; [exact (does_entries _ _ _ _ _ _ (fun v => tail (typedef_lines num 1 v) 1) 1 _ Ea (fun a w I Ew => does_typedef a w 1 I Ew))|go; apply does_newline].
  - cbn [view_lines app]. rewrite tail_cons_id, (id_shown _ _ 0 A Ep). cbn [tail first]. rewrite tail_behind, tail_app. cbn [first].
    replace (first (behind 0 (flat_map (typedef_lines num 1) xs ++ [(1, "};")])) 0) with 0 by (destruct (flat_map (typedef_lines num 1) xs) as [|[? ?] ?]; reflexivity).
    rewrite (proj1 (tail_flat _ (typedef_lines num 1) 1 xs (fun x => eq_refl))). same.
Qed.
Lemma does_funcenum : forall s v, In s (funcenums t) -> view_funcenum root t s = Some v -> does (print_funcenum t s) 0 (tail (view_lines num v) 0) 0.
Proof.
  intros s v I E. unfold view_funcenum in E. destruct (all _ (indices (fe_functags s))) as [xs|] eqn:Ea; [|discriminate]. destruct (place root (fe_ast s)) as [p|] eqn:Ep; [|discriminate]. injection E as <-.
  assert (A : asked root (fe_ast s)) by (table s; assumption). unfold print_funcenum. eapply does_eq.
  - go. eapply does_after; [exact (does_entries _ _ _ _ _ _ (fun v => tail (functag_lines num 1 v) 1) 1 _ Ea (fun a w I Ew => does_functag a w 1 I Ew))|go; apply does_newline].
  - cbn [view_lines app]. rewrite tail_cons_id, (id_shown _ _ 0 A Ep). cbn [tail first]. rewrite tail_behind, tail_app. cbn [first].
    replace (first (behind 0 (flat_map (functag_lines num 1) xs ++ [(1, "};")])) 0) with 0 by (destruct (flat_map (functag_lines num 1) xs) as [|[? ?] ?]; reflexivity).
    rewrite (proj1 (tail_flat _ (functag_lines num 1) 1 xs (fun x => eq_refl))). same.
Qed.
Lemma does_variable : forall x v, In x (variables t) -> view_variable root x = Some v -> does (print_variable x) 0 (tail (view_lines num v) 0) 0.
Proof.
  intros x v I E. unfold view_variable in E. destruct (place root (var_ast x)) as [p|] eqn:Ep; [|discriminate]. injection E as <-. assert (A : asked root (var_ast x) /\ apart (var_vis x)) by (table x; assumption). destruct A as [A V].
  unfold print_variable. eapply does_eq; [go; eapply does_after; [exact (does_visibility _ _ V)|]; go; apply does_newline|]. cbn [view_lines]. rewrite tail_cons_id, (id_shown _ _ 0 A Ep). same.
Qed.
Lemma does_item : forall i v, view_item root t i = Some v -> does (print_item t i) 0 (tail (view_lines num v) 0) 0.
Proof.
  intros i v E. destruct i as [i|i|i|i|i|i|i|i|i|i|i]; cbn [view_item] in E; cbn [print_item].
  - destruct (at_index (functions t) (view_function root t) i) as [f|] eqn:Ef; [|discriminate]. injection E as <-. exact (does_fn i f 0 Ef).
  - exact (does_entry _ _ _ _ _ _ (fun v => tail (view_lines num v) 0) 0 v E does_variable).
  - refine (does_entry _ _ _ _ _ _ (fun v => tail (view_lines num v) 0) 0 v E _). clear E v. intros m v I E. cbv beta in E. destruct (place root (mac_ast m)) as [p|] eqn:Ep; [|discriminate]. injection E as <-.
    assert (A : asked root (mac_ast m)) by (table m; assumption). unfold print_macro. eapply does_eq; [go; apply does_newline|]. cbn [view_lines]. rewrite tail_cons_id, (id_shown _ _ 0 A Ep). same.
  - exact (does_entry _ _ _ _ _ _ (fun v => tail (view_lines num v) 0) 0 v E does_enum_struct).
  - exact (does_entry _ _ _ _ _ _ (fun v => tail (view_lines num v) 0) 0 v E does_methodmap).
  - exact (does_entry _ _ _ _ _ _ (fun v => tail (view_lines num v) 0) 0 v E does_enum).
  - destruct (at_index (variants t) (view_variant root) i) as [f|] eqn:Ef; [|discriminate]. injection E as <-. apply does_fine.
  - destruct (at_index (typedefs t) (view_typedef root t) i) as [f|] eqn:Ef; [|discriminate]. injection E as <-.
    exact (does_entry _ _ _ _ _ _ (fun v => tail (typedef_lines num 0 v) 0) 0 f Ef (fun a w I Ew => does_typedef a w 0 I Ew)).
  - exact (does_entry _ _ _ _ _ _ (fun v => tail (view_lines num v) 0) 0 v E does_typeset).
  - destruct (at_index (functags t) (view_functag root t) i) as [f|] eqn:Ef; [|discriminate]. injection E as <-.
    exact (does_entry _ _ _ _ _ _ (fun v => tail (functag_lines num 0 v) 0) 0 f Ef (fun a w I Ew => does_functag a w 0 I Ew)).
  - exact (does_entry _ _ _ _ _ _ (fun v => tail (view_lines num v) 0) 0 v E does_funcenum).
Qed.
Lemma view_first : forall v, first (view_lines num v) 0 = 0.
Proof. intros v. destruct v as [f| | | | | | |x| |g| ]; reflexivity. Qed.
Lemma does_items : forall vs, all (view_item root t) (top t) = Some vs -> print_item_tree t = Some (render (shown num vs)).
Proof.
  intros vs E. unfold print_item_tree.
  assert (D : does (loop (fun i => print_item t i >> newline) (top t)) 0 (joined (map (fun v => tail (view_lines num v ++ [(0, "")]) 0) vs)) 0).
  { refine (does_all _ _ _ _ (fun v => tail (view_lines num v ++ [(0, "")]) 0) 0 _ _ E _). intros i v _ Ei. eapply does_eq; [eapply does_after; [exact (does_item i v Ei)|apply does_newline]|].
    rewrite tail_app. reflexivity. }
  rewrite D. cbn [option_map fst]. f_equal. unfold shown.
  assert (F : forall v, first (view_lines num v ++ [(0, "")]) 0 = 0) by (intros v; rewrite first_app; apply view_first).
  destruct (tail_flat _ (fun v => view_lines num v ++ [(0, "")]) 0 vs F) as [T1 T2]. pose proof (render_tail (flat_map (fun v => view_lines num v ++ [(0, "")]) vs) 0) as R.
  rewrite T1, T2 in R. cbn [spaces repeat_text] in R. rewrite sapp_nil in R. cbn [String.append] in R |- *. symmetry. exact R.
Qed.
End tree.
