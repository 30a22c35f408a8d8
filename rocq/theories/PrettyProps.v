(** C68: the printed item tree shows what the file declares. *)
From Coq Require Import List String Ascii Bool Arith NArith Lia DecimalString DecimalNat.
From Verif Require Import AstIdModel TypeRefModel ItemTreeModel ItemTreeSpec ItemTreeProofs PrettyModel PrettySpec PrettyProofs.
From Verif Require ItemTreeProps.
Import ListNotations.
Local Open Scope string_scope.
Local Open Scope nat_scope.
Local Open Scope list_scope.

(** The text is exactly the lines that show the declarations of the file, from top to bottom; the printer never
    panics on the item tree of a file. *)
Theorem C68_text : forall root t, lower root = Some t -> print_item_tree t = Some (render (shown (number root) (outline root))).
Proof. intros root t E. exact (does_items root t (lower_good root t E) _ (lower_written root t E)). Qed.
Print Assumptions C68_text.

(** The numbers are those of the ids of the file. *)
Theorem C68_number : forall root n a, id_of root n = Some a -> number root (place_of n) = a /\ place root a = Some (place_of n).
Proof. intros root n a E. pose proof (place_id root n a E) as P. split; [exact (number_asked root a _ (ex_intro _ n E) P)|exact P]. Qed.
Print Assumptions C68_number.

(** ** Reading the numbers *)
Lemma clean_app : forall a b, clean a -> clean b -> clean (a ++ b).
Proof. induction a as [|c a IH]; intros b Ha Hb; [exact Hb|]. destruct Ha as (H1 & H2 & H3). split; [exact H1|]. split; [exact H2|exact (IH b H3 Hb)]. Qed.
Fixpoint one_line (s : string) : Prop := match s with "" => True | String c tl => c <> newline_char /\ one_line tl end.
Lemma clean_line : forall s, clean s -> one_line s.
Proof. induction s as [|c s IH]; intros H; [exact Logic.I|]. destruct H as (_ & H1 & H2). split; [exact H1|exact (IH H2)]. Qed.
Lemma line_app : forall a b, one_line a -> one_line b -> one_line (a ++ b).
Proof. induction a as [|c a IH]; intros b Ha Hb; [exact Hb|]. destruct Ha as [H1 H2]. split; [exact H1|exact (IH b H2 Hb)]. Qed.
Lemma lines_of_line : forall s tl, one_line s -> lines_of (s ++ line_end ++ tl) = s :: lines_of tl.
Proof.
  induction s as [|c s IH]; intros tl H; [reflexivity|]. destruct H as [H1 H2]. change (String c s ++ line_end ++ tl)%string with (String c (s ++ line_end ++ tl)). cbn [lines_of].
  apply Ascii.eqb_neq in H1. rewrite H1, (IH tl H2). reflexivity.
Qed.
Lemma spaces_clean : forall d, clean (spaces d).
Proof. induction d as [|d IH]; [exact Logic.I|]. change (spaces (S d)) with ("  " ++ spaces d)%string. apply clean_app; [repeat (split; [discriminate|]); exact Logic.I|exact IH]. Qed.
Lemma unindented_spaces : forall d s, unindented (spaces d ++ s) = unindented s.
Proof. induction d as [|d IH]; intros s; [reflexivity|]. exact (IH s). Qed.
(** Lines that are not of a number. *)
Definition silent (s : string) : Prop := forall d, id_on (spaces d ++ s) = [].
Lemma clean_silent : forall s, clean s -> silent s.
Proof.
  intros s H d. unfold id_on. rewrite unindented_spaces.
  assert (U : clean (unindented s)). { clear d. induction s as [|c s IH]; [exact Logic.I|]. cbn [unindented]. destruct (Ascii.eqb c " "); [apply IH; apply H|exact H]. }
  destruct (unindented s) as [|c r]; [reflexivity|]. destruct U as (U & _ & _). cbn [prefix]. destruct (ascii_dec "/" c) as [<-|]; [elim U; reflexivity|reflexivity].
Qed.
Lemma body_silent : silent "/* body */".
Proof. intros d. unfold id_on. rewrite unindented_spaces. reflexivity. Qed.
Lemma up_to_decimal : forall i r, up_to_paren (decimal i ++ String ")" r) = decimal i.
Proof. intros i r. unfold decimal. induction (Nat.to_uint i) as [|u IH|u IH|u IH|u IH|u IH|u IH|u IH|u IH|u IH|u IH]; cbn; [reflexivity|..]; rewrite IH; reflexivity. Qed.
Lemma id_read : forall num d p, id_on (spaces d ++ snd (id_line num d p)) = [num p].
Proof.
  intros num d p. unfold id_on. rewrite unindented_spaces. unfold id_line. cbn [snd].
  change (unindented ("// AstId(" ++ decimal (num p) ++ ")")) with ("// AstId(" ++ decimal (num p) ++ ")")%string.
  change (prefix "// AstId(" ("// AstId(" ++ decimal (num p) ++ ")")) with (prefix "" (decimal (num p) ++ ")")).
  replace (prefix "" (decimal (num p) ++ ")")) with true by (destruct (decimal (num p)); reflexivity).
  change (without 9 ("// AstId(" ++ decimal (num p) ++ ")")) with (decimal (num p) ++ ")")%string. rewrite up_to_decimal. unfold decimal. rewrite NilEmpty.usu. rewrite Unsigned.of_to. reflexivity.
Qed.
Lemma decimal_line : forall i, one_line (decimal i).
Proof. intros i. unfold decimal. induction (Nat.to_uint i) as [|u IH|u IH|u IH|u IH|u IH|u IH|u IH|u IH|u IH|u IH]; cbn; try exact Logic.I; split; try discriminate; exact IH. Qed.

(** [says ls ks]: the lines are lines, and the numbers on them are [ks]. *)
Definition says (ls : list line) (ks : list nat) : Prop := Forall (fun l => one_line (snd l)) ls /\ flat_map (fun l => id_on (spaces (fst l) ++ snd l)) ls = ks.
Lemma says_app : forall a b x y, says a x -> says b y -> says (a ++ b) (x ++ y).
Proof. intros a b x y [A1 <-] [B1 <-]. split; [apply Forall_app; split; assumption|apply flat_map_app]. Qed.
Lemma says_nil : says [] [].
Proof. split; [constructor|reflexivity]. Qed.
Lemma says_id : forall num d p ls ks, says ls ks -> says (id_line num d p :: ls) (num p :: ks).
Proof.
  intros num d p ls ks [A <-]. split.
  - constructor; [|exact A]. unfold id_line. cbn [snd]. apply line_app; [repeat (split; [discriminate|]); exact Logic.I|]. apply line_app; [apply decimal_line|]. split; [discriminate|exact Logic.I].
  - cbn [flat_map]. pose proof (id_read num d p) as R. unfold id_line in *. cbn [fst snd] in *. rewrite R. reflexivity.
Qed.
Lemma says_text : forall d s ls ks, one_line s -> silent s -> says ls ks -> says ((d, s) :: ls) ks.
Proof. intros d s ls ks L Q [A <-]. split; [constructor; assumption|]. cbn [flat_map fst snd]. rewrite (Q d). reflexivity. Qed.
Lemma says_clean : forall d s ls ks, clean s -> says ls ks -> says ((d, s) :: ls) ks.
Proof. intros d s ls ks C. apply says_text; [exact (clean_line s C)|exact (clean_silent s C)]. Qed.
Lemma says_flat : forall A (f : A -> list line) (g : A -> list nat) xs, (forall x, In x xs -> says (f x) (g x)) -> says (flat_map f xs) (flat_map g xs).
Proof. intros A f g. induction xs as [|x xs IH]; intros H; [exact says_nil|]. cbn [flat_map]. apply says_app; [apply H; left; reflexivity|apply IH; intros y I; apply H; right; exact I]. Qed.
Lemma render_says : forall ls ks, says ls ks -> ids_on (render ls) = ks.
Proof.
  intros ls ks [A <-]. unfold render, ids_on. rewrite <- joined_concat. induction ls as [|[d s] ls IH]; [reflexivity|]. inversion A as [|? ? A1 A2]; subst. cbn [map joined fold_right fst snd flat_map].
  rewrite !sapp_assoc. rewrite <- (sapp_assoc (spaces d) s), lines_of_line by (apply line_app; [apply clean_line, spaces_clean|exact A1]). cbn [flat_map]. rewrite <- (IH A2). reflexivity.
Qed.

Section ids.
Variable num : ptr -> nat.
Ltac lit := repeat (split; [discriminate|]); exact Logic.I.
Lemma says_params : forall close d ps s d0, clean close -> clean s -> Forall clean (flat_map param_texts ps) ->
  says (closed close ((d0, s) :: flat_map (typed num d) ps)) (map num (shown_params ps)).
Proof.
  intros close d. induction ps as [|p ps IH]; intros s d0 C S F; cbn [flat_map].
  - apply says_clean; [apply clean_app; assumption|exact says_nil].
  - cbn [flat_map] in F. apply Forall_app in F. destruct F as [F1 F2]. unfold typed at 1, shown_params. cbn [flat_map]. unfold param_texts in F1. destruct (pv_type p) as [ty|]; [|exact (IH s d0 C S F2)].
    cbn [opt_type] in F1. inversion F1 as [|? ? F3 _]; subst. cbn [app map].
    change (closed close ((d0, s) :: id_line num d (pv_at p) :: (d, (to_str ty ++ ",")%string) :: flat_map (typed num d) ps))
      with ((d0, s) :: id_line num d (pv_at p) :: closed close ((d, (to_str ty ++ ",")%string) :: flat_map (typed num d) ps)).
    apply says_clean; [exact S|]. apply says_id. apply IH; [exact C|apply clean_app; [exact F3|lit]|exact F2].
Qed.
Lemma words_clean : forall a b c, clean (words a b c).
Proof. intros [|] [|] [|]; unfold words; cbn; lit. Qed.
Lemma front_clean : forall ty, Forall clean (opt_type ty) -> clean (in_front ty).
Proof. intros [ty|] F; [|exact Logic.I]. inversion F as [|? ? H _]; subst. apply clean_app; [exact H|lit]. Qed.
Lemma says_function : forall d f, Forall clean (fn_texts f) -> says (function_lines num d f) (map num (fn_places f)).
Proof.
  intros d f F. unfold fn_texts in F. inversion F as [|? ? Fn F2]; subst. apply Forall_app in F2. destruct F2 as [Fr Fp]. unfold function_lines, fn_places. cbn [map]. apply says_id.
  assert (W : clean (words (fv_public f) (fv_stock f) (fv_static f) ++ kind_word (fv_kind f) ++ in_front (fv_ret f) ++ fv_name f)).
  { apply clean_app; [apply words_clean|]. apply clean_app; [destruct (fv_kind f); lit|]. apply clean_app; [exact (front_clean _ Fr)|exact Fn]. }
  assert (Q : forall s close, clean s -> clean close -> says (with_params num d s (fv_params f) close) (map num (shown_params (fv_params f)))).
  { intros s close Hs Hc. unfold with_params. apply says_params; [exact Hc|apply clean_app; [exact Hs|lit]|exact Fp]. }
  destruct (fv_kind f); try (apply Q; [exact W|lit]). rewrite <- (app_nil_r (map num (shown_params (fv_params f)))). apply says_app; [apply Q; [exact W|lit]|].
  apply says_text; [lit|exact body_silent|]. apply says_clean; [lit|exact says_nil].
Qed.
Lemma says_typedef : forall d x, Forall clean (typedef_texts x) -> says (typedef_lines num d x) (map num (typedef_places x)).
Proof.
  intros d x F. unfold typedef_texts in F. apply Forall_app in F. destruct F as [Fn F]. inversion F as [|? ? Ft Fp]; subst. unfold typedef_lines, typedef_places. cbn [map]. apply says_id.
  unfold with_params. apply says_params; [lit| |exact Fp]. apply clean_app; [|lit]. apply clean_app; [|apply clean_app; [lit|exact Ft]].
  destruct (tv_name x); [|exact Logic.I]. inversion Fn as [|? ? H _]; subst. apply clean_app; [lit|]. apply clean_app; [exact H|lit].
Qed.
Lemma says_functag : forall d x, Forall clean (functag_texts x) -> says (functag_lines num d x) (map num (functag_places x)).
Proof.
  intros d x F. unfold functag_texts in F. apply Forall_app in F. destruct F as [Fn F]. apply Forall_app in F. destruct F as [Ft Fp]. unfold functag_lines, functag_places. cbn [map]. apply says_id.
  assert (T : clean match gv_type x with Some ty => to_str ty | None => "" end) by (destruct (gv_type x); [inversion Ft; assumption|exact Logic.I]).
  unfold with_params. apply says_params; [lit| |exact Fp]. apply clean_app; [|lit]. destruct (gv_name x).
  - inversion Fn as [|? ? H _]; subst. apply clean_app; [lit|]. apply clean_app; [exact T|]. apply clean_app; [lit|exact H].
  - apply clean_app; [exact T|lit].
Qed.
Lemma says_es : forall d x, Forall clean (es_texts x) -> says (es_lines num d x) (map num (es_places x)).
Proof.
  intros d [f|n ty p] F; [exact (says_function d f F)|]. inversion F as [|? ? F1 F2]; subst. inversion F2 as [|? ? F3 _]; subst. cbn [es_lines es_places map]. apply says_id.
  apply says_clean; [|exact says_nil]. apply clean_app; [exact F3|]. apply clean_app; [lit|]. apply clean_app; [exact F1|lit].
Qed.
Lemma flat_places : forall A (g : A -> list ptr) xs, map num (flat_map g xs) = flat_map (fun x => map num (g x)) xs.
Proof. intros A g. induction xs as [|x xs IH]; [reflexivity|]. cbn [flat_map]. rewrite map_app, IH. reflexivity. Qed.
Lemma clean_each : forall A (g : A -> list string) xs x, Forall clean (flat_map g xs) -> In x xs -> Forall clean (g x).
Proof. intros A g xs x F I. apply Forall_forall. intros s Is. rewrite Forall_forall in F. apply F, in_flat_map. exists x. split; assumption. Qed.
(** Members and what closes them. *)
Lemma says_members : forall A (f : A -> list line) (g : A -> list string) (q : A -> list ptr) d p s xs ends, clean s -> Forall clean (flat_map g xs) ->
  (forall x, Forall clean (g x) -> says (f x) (map num (q x))) -> Forall (fun l => clean (snd l)) ends ->
  says ([id_line num d p; (d, s)] ++ flat_map f xs ++ ends) (map num (p :: flat_map q xs)).
Proof.
  intros A f g q d p s xs ends C F H E. cbn [app map]. apply says_id, says_clean; [exact C|]. rewrite <- (app_nil_r (map num (flat_map q xs))), flat_places. apply says_app.
  - apply says_flat. intros x I. apply H. exact (clean_each _ g xs x F I).
  - clear -E. induction E as [|[d s] ls Hl _ IH]; [exact says_nil|]. apply says_clean; assumption.
Qed.
Lemma says_mm : forall d x, Forall clean (mm_texts x) -> says (mm_lines num d x) (map num (mm_places x)).
Proof.
  intros d [f|n ty acc p] F; [exact (says_function d f F)|]. inversion F as [|? ? F1 F2]; subst. inversion F2 as [|? ? F3 F4]; subst. cbn [mm_lines mm_places].
  apply (says_members _ _ fn_texts); [|exact F4|exact (says_function (S d))|apply Forall_cons; [cbn [snd]; lit|apply Forall_nil]].
  apply clean_app; [lit|]. apply clean_app; [exact F3|]. apply clean_app; [lit|]. apply clean_app; [exact F1|lit].
Qed.
Lemma says_behind : forall d ls ks, says ls ks -> says (behind d ls) ks.
Proof.
  intros d [|[d' s] ls] ks [A E]; [split; assumption|]. split; [inversion A; constructor; assumption|]. cbn [behind flat_map fst snd] in *. rewrite <- E. f_equal.
  unfold id_on. rewrite !unindented_spaces. reflexivity.
Qed.
Lemma says_view : forall v, Forall clean (texts v) -> says (view_lines num v) (map num (places v)).
Proof.
  intros v F. destruct v as [f|n pu sk sc ty p|n p|n xs p|n inh xs p|n vs p|v|x|n ds p|g|n gs p]; cbn [texts places view_lines] in *.
  - exact (says_function 0 f F).
  - inversion F as [|? ? F1 F2]; subst. cbn [map]. apply says_id, says_clean; [|exact says_nil]. apply clean_app; [apply words_clean|]. apply clean_app; [exact (front_clean ty F2)|exact F1].
  - inversion F as [|? ? F1 _]; subst. cbn [map]. apply says_id, says_clean; [|exact says_nil]. apply clean_app; [lit|exact F1].
  - inversion F as [|? ? F1 F2]; subst. apply (says_members _ _ es_texts); [|exact F2|exact (says_es 1)|repeat (apply Forall_cons; [cbn [snd]; lit|]); apply Forall_nil]. apply clean_app; [lit|]. apply clean_app; [exact F1|lit].
  - inversion F as [|? ? F1 F2]; subst. apply Forall_app in F2. destruct F2 as [F2 F3]. apply (says_members _ _ mm_texts); [|exact F3|exact (says_mm 1)|repeat (apply Forall_cons; [cbn [snd]; lit|]); apply Forall_nil].
    apply clean_app; [lit|]. apply clean_app; [exact F1|]. apply clean_app; [|lit]. destruct inh as [i|]; [|exact Logic.I]. inversion F2 as [|? ? F4 _]; subst. apply clean_app; [lit|exact F4].
  - inversion F as [|? ? F1 F2]; subst. replace (map vv_at vs) with (flat_map (fun v => [vv_at v]) vs) by (clear; induction vs as [|v vs IH]; [reflexivity|cbn; rewrite IH; reflexivity]).
    apply (says_members _ _ (fun v => [vv_name v])); [| | |repeat (apply Forall_cons; [cbn [snd]; lit|]); apply Forall_nil].
    + apply clean_app; [lit|]. apply clean_app; [exact F1|lit].
    + clear -F2. induction vs as [|v vs IH]; [constructor|]. inversion F2; subst. cbn. constructor; [assumption|apply IH; assumption].
    + intros v H. inversion H as [|? ? H1 _]; subst. unfold variant_lines. cbn [map]. apply says_id, says_clean; [|exact says_nil]. apply clean_app; [exact H1|lit].
  - exact says_nil.
  - exact (says_typedef 0 x F).
  - inversion F as [|? ? F1 F2]; subst. pose proof (says_members _ (typedef_lines num 1) typedef_texts typedef_places 0 p ("typeset " ++ n)%string ds [(1, "};")]) as M.
    cbn [app map]. apply says_id, says_clean; [apply clean_app; [lit|exact F1]|]. apply says_behind. rewrite <- (app_nil_r (map num (flat_map typedef_places ds))), flat_places. apply says_app.
    + apply says_flat. intros x I. apply says_typedef. exact (clean_each _ typedef_texts ds x F2 I).
    + apply says_clean; [lit|exact says_nil].
  - exact (says_functag 0 g F).
  - inversion F as [|? ? F1 F2]; subst. cbn [app map]. apply says_id, says_clean; [apply clean_app; [lit|exact F1]|]. apply says_behind. rewrite <- (app_nil_r (map num (flat_map functag_places gs))), flat_places. apply says_app.
    + apply says_flat. intros x I. apply says_functag. exact (clean_each _ functag_texts gs x F2 I).
    + apply says_clean; [lit|exact says_nil].
Qed.
Lemma says_shown : forall vs, Forall clean (flat_map texts vs) -> says (shown num vs) (map num (flat_map places vs)).
Proof.
  intros vs F. unfold shown. rewrite flat_places. apply says_flat. intros v I. rewrite <- (app_nil_r (map num (places v))). apply says_app; [apply says_view; exact (clean_each _ texts vs v F I)|].
  apply says_clean; [exact Logic.I|exact says_nil].
Qed.
End ids.

(** The numbers in the comments are those of the declarations that are shown, each above its parts, in the order of
    the file. *)
Theorem C68_ids : forall root t, lower root = Some t -> Forall clean (flat_map texts (outline root)) ->
  option_map ids_on (print_item_tree t) = Some (map (number root) (flat_map places (outline root))).
Proof. intros root t E F. rewrite (C68_text root t E). cbn [option_map]. f_equal. apply render_says, says_shown. exact F. Qed.
Print Assumptions C68_ids.

(** ** What is wrong with the text *)
Definition leaf (k a b : nat) (s : string) : syn := Syn k a b s [].
Fixpoint count (c : ascii) (s : string) : nat := match s with "" => 0 | String x tl => (if Ascii.eqb x c then 1 else 0) + count c tl end.
(** The brace of a typeset is closed but never opened. *)
Theorem C68_braces_refuted : exists root t text, lower root = Some t /\ print_item_tree t = Some text /\ count "{" text = 0 /\ count "}" text = 1.
Proof.
  exists (Syn 130 0 40 "" [("", Syn 170 0 40 "typeset T { function void(int a); }" [("name", leaf 1 8 9 "T");
    ("", Syn 171 12 33 "function void(int a)" [("returnType", leaf 83 21 25 "void"); ("parameters", Syn 147 25 32 "(int a)" [("", Syn 148 26 31 "int a" [("type", leaf 85 26 29 "int")])])])])]).
  eexists. eexists. split; [vm_compute; reflexivity|]. split; [vm_compute; reflexivity|]. split; vm_compute; reflexivity.
Qed.
Print Assumptions C68_braces_refuted.
(** Parameters without a type are not shown, and no parameter is shown with its name: functions of one and of two
    parameters have the same text, and so have functions with different names of their parameters. *)
Definition with_list (ps : list (string * syn)) : syn :=
  Syn 130 0 40 "" [("", Syn 144 0 40 "f() {}" [("name", leaf 1 0 1 "f"); ("parameters", Syn 147 1 30 "" ps)])].
Theorem C68_params_refuted : exists t0 t1 t2 t3,
  lower (with_list []) = Some t0 /\ lower (with_list [("", Syn 148 2 3 "a" [("name", leaf 1 2 3 "a")])]) = Some t1 /\
  print_item_tree t0 = print_item_tree t1 /\ List.length (params t0) <> List.length (params t1) /\
  lower (with_list [("", Syn 148 2 7 "int a" [("type", leaf 85 2 5 "int"); ("name", leaf 1 6 7 "a")])]) = Some t2 /\
  lower (with_list [("", Syn 148 2 7 "int b" [("type", leaf 85 2 5 "int"); ("name", leaf 1 6 7 "b")])]) = Some t3 /\
  print_item_tree t2 = print_item_tree t3.
Proof.
  do 4 eexists. split; [vm_compute; reflexivity|]. split; [vm_compute; reflexivity|]. split; [vm_compute; reflexivity|]. split; [vm_compute; discriminate|].
  split; [vm_compute; reflexivity|]. split; vm_compute; reflexivity.
Qed.
Print Assumptions C68_params_refuted.
(** The brace that closes an enum is indented like its members, that of an enum struct is not. *)
Theorem C68_indent_refuted : exists root t text, lower root = Some t /\ print_item_tree t = Some text /\
  In "  };" (lines_of text) /\ ~ In "};" (lines_of text) /\ In "enum E {" (lines_of text) /\ In "enum struct S {" (lines_of text) /\ In "}" (lines_of text).
Proof.
  exists (Syn 130 0 40 "" [("", Syn 163 0 10 "enum E { A }" [("name", leaf 1 5 6 "E"); ("entries", Syn 164 7 10 "{ A }" [("", Syn 165 8 9 "A" [("name", leaf 1 8 9 "A")])])]);
    ("", Syn 166 11 30 "enum struct S { }" [("name", leaf 1 23 24 "S")])]).
  eexists. eexists. split; [vm_compute; reflexivity|]. split; [vm_compute; reflexivity|]. vm_compute. intuition discriminate.
Qed.
Print Assumptions C68_indent_refuted.

(** * A concrete case *)
Example C68_nontrivial : exists t text, lower ItemTreeProps.a_file = Some t /\ Forall clean (flat_map texts (outline ItemTreeProps.a_file)) /\ print_item_tree t = Some text /\
  lines_of text = ["// AstId(1)"; "public int a"; ""; "// AstId(2)"; "public int b"; ""; ""; "";
    "// AstId(3)"; "enum unnamed_enum_3 {"; "  // AstId(7)"; "  One,"; "  // AstId(8)"; "  Two,"; "  };"; "";
    "// AstId(4)"; "methodmap M < N {"; "  // AstId(11)"; "  property int p {"; "    // AstId(15)"; "    public native int get();"; "    }";
    "  // AstId(12)"; "  public native M("; "    // AstId(19)"; "    char[],"; "    // AstId(20)"; "    any,);"; "  "; "}"; "";
    "// AstId(0)"; "#define MAX"; ""; ""] /\
  ids_on text = [1; 2; 3; 7; 8; 4; 11; 15; 12; 19; 20; 0].
Proof.
  eexists. eexists. split; [vm_compute; reflexivity|]. split; [vm_compute; repeat constructor; discriminate|]. split; [vm_compute; reflexivity|]. split; vm_compute; reflexivity.
Qed.
