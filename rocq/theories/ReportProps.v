(** C53: every problem found is shown once, where it is. *)
From Coq Require Import List Bool Arith NArith String Lia.
From Verif Require Import TextModel ReportModel ReportSpec.
Import ListNotations.
Local Open Scope string_scope.
Local Open Scope nat_scope.
Local Open Scope list_scope.

Fixpoint tnode_ind2 (P : tnode -> Prop)
    (H : forall k m e s r cs, (forall c, In c cs -> P c) -> P (TNode k m e s r cs)) (n : tnode) : P n :=
  match n with
  | TNode k m e s r cs =>
      H k m e s r cs ((fix go (l : list tnode) : forall c, In c l -> P c :=
        match l with
        | [] => fun c F => match F with end
        | x :: l' => fun c F => match F with
                                | or_introl q => eq_ind x P (tnode_ind2 P H x) c q
                                | or_intror q => go l' c q
                                end
        end) cs)
  end.

Lemma errors_in_spec t n : In n (errors_in t) <-> below n t /\ t_kind n = "ERROR".
Proof.
  induction t as [k m e s r cs IH] using tnode_ind2.
  assert (Hstep : In n (errors_in (TNode k m e s r cs)) <->
                  (k = "ERROR" /\ n = TNode k m e s r cs) \/ exists c, In c cs /\ In n (errors_in c)).
  { cbn [errors_in]. rewrite in_app_iff, in_flat_map. destruct (String.eqb_spec k "ERROR") as [->|Hne]; simpl.
    - split; [intros [[H|[]]|H]; [left; auto|right; exact H]|intros [[_ ->]|H]; [left; now left|right; exact H]].
    - split; [intros [[]|H]; right; exact H|intros [[H _]|H]; [contradiction|right; exact H]]. }
  rewrite Hstep. split.
  - intros [[-> ->]|(c & Hc & Hn)].
    + split; [apply below_here|reflexivity].
    + apply (IH c Hc) in Hn. destruct Hn as [Hb Hk]. split; [now apply below_child with c|exact Hk].
  - intros [Hb Hk]. inversion Hb as [n' Hn|n' c k' m' e' s' r' cs' Hc Hbc]; subst.
    + left. split; [exact Hk|reflexivity].
    + right. exists c. split; [exact Hc|]. apply (IH c Hc). now split.
Qed.

Lemma missing_spec t d :
  In d (missing_nodes t) <->
  exists n, below n t /\ t_missing n = true /\
            d = new (SpCompError "missing-node") (MMissing (t_kind n)) (ts_range_to_lsp_range (t_range n)).
Proof.
  induction t as [k m e s r cs IH] using tnode_ind2.
  assert (Hstep : In d (missing_nodes (TNode k m e s r cs)) <->
                  (m = true /\ d = new (SpCompError "missing-node") (MMissing k) (ts_range_to_lsp_range r)) \/
                  exists c, In c cs /\ In d (missing_nodes c)).
  { cbn [missing_nodes]. rewrite in_app_iff, in_flat_map. destruct m; simpl.
    - split; [intros [[H|[]]|H]; [left; auto|right; exact H]|intros [[_ ->]|H]; [left; now left|right; exact H]].
    - split; [intros [[]|H]; right; exact H|intros [[H _]|H]; [discriminate|right; exact H]]. }
  rewrite Hstep. split.
  - intros [[-> ->]|(c & Hc & Hd)].
    + exists (TNode k true e s r cs). split; [apply below_here|]. split; reflexivity.
    + apply (IH c Hc) in Hd. destruct Hd as (n & Hb & Hm & ->). exists n. split; [now apply below_child with c|]. now split.
  - intros (n & Hb & Hm & ->). inversion Hb as [n' Hn|n' c k' m' e' s' r' cs' Hc Hbc]; subst.
    + left. now split.
    + right. exists c. split; [exact Hc|]. apply (IH c Hc). exists n. auto.
Qed.

Lemma collect_some {A B} (f : A -> option B) l ys :
  collect f l = Some ys -> forall y, In y ys <-> exists x, In x l /\ f x = Some y.
Proof.
  revert ys. induction l as [|x l IH]; intros ys H y; cbn [collect] in H.
  - injection H as <-. split; [intros []|intros (x & [] & _)].
  - destruct (f x) as [z|] eqn:Ef; [|discriminate]. destruct (collect f l) as [zs|]; [|discriminate]. injection H as <-.
    specialize (IH zs eq_refl y). simpl. rewrite IH. split.
    + intros [<-|(x' & Hx & Hf)]; [exists x; auto|exists x'; auto].
    + intros (x' & [<-|Hx] & Hf); [left; congruence|right; eauto].
Qed.
Lemma collect_none {A B} (f : A -> option B) l : collect f l = None <-> exists x, In x l /\ f x = None.
Proof.
  induction l as [|x l IH]; cbn [collect].
  - split; [discriminate|intros (x & [] & _)].
  - destruct (f x) as [z|] eqn:Ef.
    + destruct (collect f l) as [zs|].
      * split; [discriminate|]. intros (x' & [<-|Hx] & Hf); [congruence|].
        assert (Some zs = None) by (apply IH; eauto). discriminate.
      * split; [|reflexivity]. intros _. destruct (proj1 IH eq_refl) as (x' & Hx & Hf). exists x'. split; [now right|exact Hf].
    + split; [|reflexivity]. intros _. exists x. split; [now left|exact Ef].
Qed.
Lemma collect_length {A B} (f : A -> option B) l ys : collect f l = Some ys -> List.length ys = List.length l.
Proof.
  revert ys. induction l as [|x l IH]; intros ys H; cbn [collect] in H.
  - now injection H as <-.
  - destruct (f x); [|discriminate]. destruct (collect f l) as [zs|]; [|discriminate]. injection H as <-. simpl. now rewrite (IH zs).
Qed.

Lemma infer_report_spec b i d :
  infer_report b i = Some d <->
  exists r, expr_source b (fst (what i)) = Some r /\ d = new (SpCompError "E0000") (snd (what i)) (ts_range_to_lsp_range r).
Proof.
  assert (H : infer_report b i =
              option_map (new_with_syntax_node_ptr (SpCompError "E0000") (snd (what i))) (expr_source b (fst (what i)))).
  { destruct i as [e r n s|e r n s|e n [[| |]|]|e n c|e n ex ac]; cbn [infer_report what fst snd]; try reflexivity.
    destruct (Nat.leb_spec ex ac) as [Hl|Hl]; destruct (Nat.ltb_spec ac ex) as [Hl'|Hl']; try reflexivity; lia. }
  rewrite H. destruct (expr_source b (fst (what i))) as [r|]; simpl.
  - split; [intros E; injection E as <-; exists r; now split|intros (r' & E & ->); injection E as ->; reflexivity].
  - split; [discriminate|intros (r' & E & _); discriminate].
Qed.
Lemma infer_report_none b i : infer_report b i = None <-> expr_source b (fst (what i)) = None.
Proof.
  destruct (infer_report b i) as [d|] eqn:E.
  - apply infer_report_spec in E. destruct E as (r & Hr & _). rewrite Hr. split; discriminate.
  - destruct (expr_source b (fst (what i))) as [r|] eqn:Er; [|tauto].
    assert (infer_report b i = Some (new (SpCompError "E0000") (snd (what i)) (ts_range_to_lsp_range r)))
      by (apply infer_report_spec; eauto). congruence.
Qed.

(** The analysis reports, and does not crash, exactly when every expression that is reported has a place. *)
Theorem C53_total : forall a, published a <> None <-> placed a.
Proof.
  intros a. unfold published, diagnostics, file_diagnostics.
  destruct (collect def_diagnostics (declarations a)) as [ds|] eqn:E; cbn [option_map].
  - split; [|discriminate]. intros _ d b i Hd Hf Hi Hn.
    assert (Hnone : collect def_diagnostics (declarations a) = None).
    { apply collect_none. exists d. split; [exact Hd|].
      assert (Hb : body_diagnostics b = None).
      { apply collect_none. exists i. split; [exact Hi|]. now apply infer_report_none. }
      destruct Hf as [->|[->| ->]]; exact Hb. }
    congruence.
  - split; [intros H; now elim H|]. intros Hp. exfalso. apply collect_none in E. destruct E as (d & Hd & Hn).
    assert (Hb : exists b, free_body d b /\ body_diagnostics b = None).
    { destruct d as [b|b|b|ms|is ms|]; cbn [def_diagnostics] in Hn; try discriminate;
        exists b; (split; [unfold free_body; auto|exact Hn]). }
    destruct Hb as (b & Hf & Hb). apply collect_none in Hb. destruct Hb as (i & Hi & Hr). apply infer_report_none in Hr.
    now apply (Hp d b i Hd Hf Hi).
Qed.
Print Assumptions C53_total.

(** the range sent for a place *)
Definition sent (p : place) : lsp_range := match p with InTree r => ts_range_to_lsp_range r | InEditor r => r end.
Definition report_of (p : problem) (l : lsp_diagnostic) : Prop :=
  l_range l = sent (where_ p) /\ l_message l = says p /\ l_code l = coded (says p) /\ looks (weighs p) (l_severity l) (l_unnecessary l).

Lemma report_of_unique p l1 l2 : report_of p l1 -> report_of p l2 -> l1 = l2.
Proof.
  destruct l1 as [r1 s1 c1 m1 u1], l2 as [r2 s2 c2 m2 u2]. intros (H1 & H2 & H7 & H3) (H4 & H5 & H8 & H6). simpl in *. subst.
  destruct (weighs p); destruct H3 as [-> ->]; destruct H6 as [-> ->]; reflexivity.
Qed.

Lemma mistake_report c r m : c = coded m ->
  report_of (Problem (InTree r) m Mistake) (to_lsp (new (SpCompError c) m (ts_range_to_lsp_range r))).
Proof. intros ->. repeat split. Qed.
Lemma editor_report c r m : c = coded m -> report_of (Problem (InEditor r) m Mistake) (to_lsp (new (SpCompError c) m r)).
Proof. intros ->. repeat split. Qed.
Lemma coded_what i : "E0000" = coded (snd (what i)).
Proof. destruct i as [| |? ? [[]|]| |? ? e a]; try reflexivity. simpl. now destruct (Nat.leb e a). Qed.
Lemma coded_inherit i : "E0000" = coded (if exists_ i then MNotMethodmap (inherit_name i) else MNoMethodmap (inherit_name i)).
Proof. now destruct (exists_ i). Qed.

(** What is sent are the problems outside the methods, each as what it is. *)
Theorem C53_shown : forall a ls,
  published a = Some ls ->
  (forall l, In l ls -> exists p, outside_methods a p /\ report_of p l) /\
  (forall p, outside_methods a p -> exists l, In l ls /\ report_of p l).
Proof.
  intros a ls. unfold published, diagnostics, file_diagnostics.
  destruct (collect def_diagnostics (declarations a)) as [ds|] eqn:E; cbn [option_map]; [|discriminate].
  intros H. injection H as <-. pose proof (collect_some _ _ _ E) as Hds.
  assert (Hbody : forall d b x y, In d (declarations a) -> free_body d b -> def_diagnostics d = Some x -> In y x ->
            exists p, outside_methods a p /\ report_of p (to_lsp y)).
  { intros d b x y Hd Hf Hx Hy.
    assert (Hb : collect (infer_report b) (infer b) = Some x) by (destruct Hf as [->|[->| ->]]; exact Hx).
    apply (collect_some _ _ _ Hb) in Hy. destruct Hy as (i & Hi & Hr). apply infer_report_spec in Hr.
    destruct Hr as (r & Hr & ->). exists (Problem (InTree r) (snd (what i)) Mistake). split; [|apply mistake_report; first [apply coded_inherit|apply coded_what|reflexivity]].
    do 5 right. left. exists d, b. split; [exact Hd|]. split; [exact Hf|]. exists i, r. auto. }
  split.
  - intros l Hl. apply in_map_iff in Hl. destruct Hl as (d & <- & Hd). unfold syntax_error_diagnostics in Hd.
    rewrite !in_app_iff in Hd. destruct Hd as [[Hd|Hd]|[Hd|[Hd|[Hd|[Hd|Hd]]]]].
    + apply in_map_iff in Hd. destruct Hd as (n & <- & Hn). apply errors_in_spec in Hn. destruct Hn as [Hb Hk].
      unfold syntax_error. destruct (t_expected n) as [names|] eqn:Ee.
      * exists (Problem (InTree (t_range n)) (MExpected names) Mistake). split; [|apply mistake_report; first [apply coded_inherit|apply coded_what|reflexivity]].
        left. exists n. split; [exact Hb|]. left. split; [exact Hk|]. exists names. auto.
      * exists (Problem (InTree (t_range n)) (MSexp (t_sexp n)) Mistake). split; [|apply mistake_report; first [apply coded_inherit|apply coded_what|reflexivity]].
        left. exists n. split; [exact Hb|]. right. left. auto.
    + apply missing_spec in Hd. destruct Hd as (n & Hb & Hm & ->).
      exists (Problem (InTree (t_range n)) (MMissing (t_kind n)) Mistake). split; [|apply mistake_report; first [apply coded_inherit|apply coded_what|reflexivity]].
      left. exists n. split; [exact Hb|]. right. right. auto.
    + apply in_map_iff in Hd. destruct Hd as ([r t] & <- & Hin). exists (Problem (InEditor r) (MText t) Mistake).
      split; [|apply editor_report; first [apply coded_inherit|apply coded_what|reflexivity]]. right. left. exists r, t. auto.
    + apply in_map_iff in Hd. destruct Hd as ([r t] & <- & Hin). exists (Problem (InEditor r) (MFileNotFound t) Mistake).
      split; [|apply editor_report; first [apply coded_inherit|apply coded_what|reflexivity]]. do 2 right. left. exists r, t. auto.
    + apply in_map_iff in Hd. destruct Hd as ([r t] & <- & Hin). exists (Problem (InEditor r) (MNoMacro t) Mistake).
      split; [|apply editor_report; first [apply coded_inherit|apply coded_what|reflexivity]]. do 3 right. left. exists r, t. auto.
    + apply in_map_iff in Hd. destruct Hd as (r & <- & Hin). exists (Problem (InEditor r) MInactive Faded).
      split; [|repeat split]. do 4 right. left. exists r. auto.
    + apply in_concat in Hd. destruct Hd as (x & Hx & Hy). apply Hds in Hx. destruct Hx as (def & Hdef & Hx).
      destruct def as [b|b|b|ms|is ms|].
      * apply (Hbody (Function b) b x d Hdef); auto. now left.
      * apply (Hbody (Typedef b) b x d Hdef); auto. right. now left.
      * apply (Hbody (Functag b) b x d Hdef); auto. right. now right.
      * injection Hx as <-. contradiction.
      * injection Hx as <-. apply in_flat_map in Hy. destruct Hy as (i & Hi & Hy). unfold inherit_report in Hy.
        destruct (inherits_node i) as [r|] eqn:Er; [|contradiction]. destruct Hy as [<-|[]].
        exists (Problem (InTree r) (if exists_ i then MNotMethodmap (inherit_name i) else MNoMethodmap (inherit_name i)) Mistake).
        split; [|apply mistake_report; first [apply coded_inherit|apply coded_what|reflexivity]]. do 6 right. exists is, ms, i. split; [exact Hdef|]. split; [exact Hi|]. exists r. auto.
      * injection Hx as <-. contradiction.
  - assert (Hin : forall d, In d (syntax_error_diagnostics (tree a) ++
               (map (fun x => new (SpCompError "E0000") (MText (snd x)) (fst x)) (evaluation_errors a) ++
                map (fun x => new (SpCompError "E0000") (MFileNotFound (snd x)) (fst x)) (unresolved_include_errors a) ++
                map (fun x => new (SpCompError "E0000") (MNoMacro (snd x)) (fst x)) (macro_not_found_errors a) ++
                map (fun r => with_unused (new (Lint "inactive-code" WeakWarning) MInactive r) true) (inactive_ranges a) ++
                List.concat ds)) -> forall p, report_of p (to_lsp d) ->
              exists l, In l (map to_lsp (syntax_error_diagnostics (tree a) ++
               (map (fun x => new (SpCompError "E0000") (MText (snd x)) (fst x)) (evaluation_errors a) ++
                map (fun x => new (SpCompError "E0000") (MFileNotFound (snd x)) (fst x)) (unresolved_include_errors a) ++
                map (fun x => new (SpCompError "E0000") (MNoMacro (snd x)) (fst x)) (macro_not_found_errors a) ++
                map (fun r => with_unused (new (Lint "inactive-code" WeakWarning) MInactive r) true) (inactive_ranges a) ++
                List.concat ds))) /\ report_of p l).
    { intros d Hd p Hp. exists (to_lsp d). split; [now apply in_map|exact Hp]. }
    intros p Hp. destruct Hp as [(n & Hb & Hn)|[(r & t & Hr & ->)|[(r & t & Hr & ->)|[(r & t & Hr & ->)|[(r & Hr & ->)|[(d & b & Hd & Hf & Hp)|(is & ms & i & Hd & Hi & r & Hr & ->)]]]]]].
    + unfold syntax_error_diagnostics. destruct Hn as [(Hk & names & He & ->)|[(Hk & He & ->)|(Hm & ->)]].
      * apply Hin with (d := syntax_error n).
        -- apply in_app_iff. left. apply in_app_iff. left. apply in_map. apply errors_in_spec. auto.
        -- unfold syntax_error. rewrite He. apply mistake_report. reflexivity.
      * apply Hin with (d := syntax_error n).
        -- apply in_app_iff. left. apply in_app_iff. left. apply in_map. apply errors_in_spec. auto.
        -- unfold syntax_error. rewrite He. apply mistake_report. reflexivity.
      * eapply Hin; [|apply mistake_report; first [apply coded_inherit|apply coded_what|reflexivity]]. apply in_app_iff. left. apply in_app_iff. right. apply missing_spec. eauto.
    + eapply Hin; [|apply editor_report; first [apply coded_inherit|apply coded_what|reflexivity]]. rewrite !in_app_iff. right. left. apply in_map_iff. exists (r, t). auto.
    + eapply Hin; [|apply editor_report; first [apply coded_inherit|apply coded_what|reflexivity]]. rewrite !in_app_iff. do 2 right. left. apply in_map_iff. exists (r, t). auto.
    + eapply Hin; [|apply editor_report; first [apply coded_inherit|apply coded_what|reflexivity]]. rewrite !in_app_iff. do 3 right. left. apply in_map_iff. exists (r, t). auto.
    + apply Hin with (d := with_unused (new (Lint "inactive-code" WeakWarning) MInactive r) true); [|repeat split].
      rewrite !in_app_iff. do 4 right. left. apply in_map_iff. exists r. auto.
    + destruct Hp as (i & r & Hi & Hr & ->).
      assert (Hx : exists x, body_diagnostics b = Some x /\ In x ds).
      { destruct (body_diagnostics b) as [x|] eqn:Eb.
        - exists x. split; [reflexivity|]. apply Hds. exists d. split; [exact Hd|]. destruct Hf as [->|[->| ->]]; exact Eb.
        - exfalso. assert (collect def_diagnostics (declarations a) = None); [|congruence].
          apply collect_none. exists d. split; [exact Hd|]. destruct Hf as [->|[->| ->]]; exact Eb. }
      destruct Hx as (x & Hx & Hxd).
      apply Hin with (d := new (SpCompError "E0000") (snd (what i)) (ts_range_to_lsp_range r)); [|apply mistake_report; first [apply coded_inherit|apply coded_what|reflexivity]].
      rewrite !in_app_iff. do 5 right. apply in_concat. exists x. split; [exact Hxd|].
      apply (collect_some _ _ _ Hx). exists i. split; [exact Hi|]. apply infer_report_spec. eauto.
    + eapply Hin; [|apply mistake_report; first [apply coded_inherit|apply coded_what|reflexivity]]. rewrite !in_app_iff. do 5 right. apply in_concat.
      exists (flat_map inherit_report is). split.
      * apply Hds. exists (Methodmap is ms). split; [exact Hd|reflexivity].
      * apply in_flat_map. exists i. split; [exact Hi|]. unfold inherit_report. rewrite Hr. now left.
Qed.
Print Assumptions C53_shown.

(** Each once. *)
Lemma count_split f g n : count_nodes (fun x => f x + g x) n = count_nodes f n + count_nodes g n.
Proof.
  induction n as [k m e s r cs IH] using tnode_ind2. cbn [count_nodes].
  assert (list_sum (map (count_nodes (fun x => f x + g x)) cs) =
          list_sum (map (count_nodes f) cs) + list_sum (map (count_nodes g) cs)).
  { induction cs as [|c cs IHc]; [reflexivity|]. cbn [map list_sum fold_right].
    rewrite (IH c) by now left. unfold list_sum in IHc. rewrite IHc by (intros x Hx; apply IH; now right). lia. }
  lia.
Qed.
Lemma errors_count n : List.length (errors_in n) = count_nodes (fun x => if String.eqb (t_kind x) "ERROR" then 1 else 0) n.
Proof.
  induction n as [k m e s r cs IH] using tnode_ind2. cbn [count_nodes errors_in t_kind]. rewrite app_length. f_equal.
  - destruct (String.eqb k "ERROR"); reflexivity.
  - induction cs as [|c cs IHc]; [reflexivity|]. cbn [flat_map map list_sum fold_right]. rewrite app_length, (IH c) by now left.
    unfold list_sum in IHc. rewrite IHc by (intros x Hx; apply IH; now right). reflexivity.
Qed.
Lemma missing_count n : List.length (missing_nodes n) = count_nodes (fun x => if t_missing x then 1 else 0) n.
Proof.
  induction n as [k m e s r cs IH] using tnode_ind2. cbn [count_nodes missing_nodes t_missing]. rewrite app_length. f_equal.
  - destruct m; reflexivity.
  - induction cs as [|c cs IHc]; [reflexivity|]. cbn [flat_map map list_sum fold_right]. rewrite app_length, (IH c) by now left.
    unfold list_sum in IHc. rewrite IHc by (intros x Hx; apply IH; now right). reflexivity.
Qed.
Theorem C53_once : forall a ls, published a = Some ls -> List.length ls = number_of_problems a.
Proof.
  intros a ls. unfold published, diagnostics, file_diagnostics.
  destruct (collect def_diagnostics (declarations a)) as [ds|] eqn:E; cbn [option_map]; [|discriminate].
  intros H. injection H as <-. rewrite map_length. unfold syntax_error_diagnostics, number_of_problems, node_problems.
  rewrite !app_length, !map_length, errors_count, missing_count, count_split.
  assert (List.length (List.concat ds) = list_sum (map def_problems (declarations a))); [|lia].
  revert ds E. induction (declarations a) as [|d l IH]; intros ds E; cbn [collect] in E.
  - now injection E as <-.
  - destruct (def_diagnostics d) as [x|] eqn:Ed; [|discriminate]. destruct (collect def_diagnostics l) as [xs|]; [|discriminate].
    injection E as <-. cbn [List.concat map list_sum fold_right]. rewrite app_length, (IH xs eq_refl). unfold list_sum. f_equal.
    destruct d as [b|b|b|ms|is ms|]; cbn [def_diagnostics def_problems] in *; try (now apply collect_length in Ed);
      injection Ed as <-; try reflexivity.
    clear. induction is as [|i is IH]; [reflexivity|]. cbn [flat_map filter]. rewrite app_length, IH. unfold inherit_report.
    destruct (inherits_node i); reflexivity.
Qed.
Print Assumptions C53_once.

(** ** Where *)
Lemma width_app enc a b : width enc (a ++ b) = (width enc a + width enc b)%N.
Proof. unfold width. induction a as [|c a IH]; cbn [List.app fold_right]; lia. Qed.
Lemma ascii_width enc cs : ascii cs -> width enc cs = N.of_nat (List.length cs).
Proof.
  induction cs as [|c cs IH]; intros H; [reflexivity|]. unfold width. cbn [fold_right List.length]. fold (width enc cs).
  rewrite IH by (intros x Hx; apply H; now right). assert (Hc : (c < 128)%N) by (apply H; now left).
  assert (units enc c = 1%N) as ->; [|lia].
  destruct enc as [|[|]]; cbn [units wide_len]; unfold len8, len16.
  - now apply N.ltb_lt in Hc as ->.
  - assert ((c <? 65536)%N = true) as -> by (apply N.ltb_lt; lia). reflexivity.
  - reflexivity.
Qed.

(** A report about a place of the tree is sent with the row and the byte column of the tree. That is the column of the
    place in the editor exactly when the text before it has, preprocessed and in bytes, the width it has in the editor. *)
Theorem C53_place : forall enc before cs,
  character (point_to_lsp_position (Point 0 (tree_column before cs))) = editor_column enc before cs <->
  (width Utf8 (tree_text before) + width Utf8 cs = width enc (edit_text before) + width enc cs)%N.
Proof.
  intros enc before cs. unfold point_to_lsp_position, tree_column, editor_column. cbn [character column].
  rewrite !width_app. reflexivity.
Qed.
Print Assumptions C53_place.

Lemma no_macro_texts l : no_macro l -> edit_text l = tree_text l.
Proof.
  induction l as [|s l IH]; intros H; [reflexivity|]. cbn [edit_text tree_text flat_map].
  fold (edit_text l). fold (tree_text l). rewrite IH by (intros u e Hin; apply (H u e); now right).
  destruct s as [cs|u e]; [reflexivity|]. elim (H u e). now left.
Qed.

(** So a report is at the right place when no macro is used before it on the line, and either the editor counts bytes or
    the text before is ASCII. *)
Theorem C53_place_partial : forall enc r line before cs line' before' cs',
  r = TsRange (Point line (tree_column before cs)) (Point line' (tree_column before' cs')) ->
  no_macro before -> no_macro before' ->
  (enc = Utf8 \/ (ascii (edit_text before ++ cs) /\ ascii (edit_text before' ++ cs'))) ->
  sent (InTree r) = Range (Position line (editor_column enc before cs)) (Position line' (editor_column enc before' cs')).
Proof.
  intros enc r line before cs line' before' cs' -> Hn Hn' Henc.
  cbn [sent]. unfold ts_range_to_lsp_range, point_to_lsp_position, tree_column, editor_column. cbn [start_point end_point row column].
  rewrite <- (no_macro_texts before Hn), <- (no_macro_texts before' Hn').
  destruct Henc as [->|[H H']]; [reflexivity|]. now rewrite !(ascii_width _ _ H), !(ascii_width _ _ H').
Qed.
Print Assumptions C53_place_partial.

(** [A foo;] with [#define A abcdef]: the report about [foo] is sent for columns 7 to 10; [foo] is at 2 to 5. *)
Theorem C53_macro_refuted :
  let a := map N.of_nat in
  let before := [Macro (a [65]) (a [97; 98; 99; 100; 101; 102])] in
  editor_column (Wide Utf16) before (a [32]) = 2%N /\
  sent (InTree (TsRange (Point 3 (tree_column before (a [32]))) (Point 3 (tree_column before (a [32; 102; 111; 111]))))) =
  Range (Position 3 7) (Position 3 10).
Proof. vm_compute. split; reflexivity. Qed.
Print Assumptions C53_macro_refuted.

(** [é foo]: the report about [foo] is sent for column 3, [foo] is at column 2 in UTF-16. *)
Theorem C53_utf16_refuted :
  let cs := [233; 32]%N in
  editor_column (Wide Utf16) [] cs = 2%N /\
  r_start (sent (InTree (TsRange (Point 0 (tree_column [] cs)) (Point 0 (tree_column [] cs))))) = Position 0 3.
Proof. vm_compute. split; reflexivity. Qed.
Print Assumptions C53_utf16_refuted.

(** A wrong call in a method of a methodmap is a problem but is not reported. *)
Definition wrong_call : body :=
  Body (fun e => if e =? 0 then Some (TsRange (Point 2 4) (Point 2 8)) else None) [IncorrectNumberOfArguments 0 "f" 1 0].
Definition empty_tree : tnode :=
  TNode "source_file" false None "" (TsRange (Point 0 0) (Point 9 0)) [].
Theorem C53_methods_refuted :
  let a := Analysis empty_tree [] [] [] [] [Methodmap [] [wrong_call]; EnumStruct [wrong_call]] in
  in_methods a (Problem (InTree (TsRange (Point 2 4) (Point 2 8))) (MAtLeast 1 "f" 0) Mistake) /\
  published a = Some [].
Proof.
  split; [|reflexivity]. exists (Methodmap [] [wrong_call]), wrong_call. split; [now left|]. split.
  - right. exists [], [wrong_call]. split; [reflexivity|now left].
  - exists (IncorrectNumberOfArguments 0 "f" 1 0), (TsRange (Point 2 4) (Point 2 8)). split; [now left|]. split; reflexivity.
Qed.
Print Assumptions C53_methods_refuted.

Example C53_nontrivial :
  let r a b := TsRange (Point 2 (N.of_nat a)) (Point 2 (N.of_nat b)) in
  let t := TNode "source_file" false None "" (r 0 9)
             [TNode "ERROR" false (Some ["(" ; ";"]) "(ERROR)" (r 0 3) [TNode "ERROR" false None "(ERROR)" (r 1 2) []];
              TNode ";" true None "" (r 9 9) []] in
  let a := Analysis t [] [(Range (Position 0 9) (Position 0 14), "x.inc")] [] [Range (Position 4 0) (Position 6 0)]
             [Function wrong_call; Methodmap [Inherit (Some (r 5 8)) "B" true] []] in
  placed a /\ number_of_problems a = 7 /\
  option_map (map l_message) (published a) =
    Some [MExpected ["("; ";"]; MSexp "(ERROR)"; MMissing ";"; MFileNotFound "x.inc"; MInactive; MAtLeast 1 "f" 0; MNotMethodmap "B"] /\
  option_map (map l_severity) (published a) = Some [LError; LError; LError; LError; LHint; LError; LError].
Proof.
  split; [|vm_compute; repeat split].
  intros d b i Hd Hf Hi. simpl in Hd. destruct Hd as [<-|[<-|[]]].
  - destruct Hf as [H|[H|H]]; [injection H as <-|discriminate|discriminate]. destruct Hi as [<-|[]]. vm_compute. discriminate.
  - destruct Hf as [H|[H|H]]; discriminate.
Qed.
