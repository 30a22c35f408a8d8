(** C73: the words of the messages. *)
From Coq Require Import List String Ascii Arith Bool Lia.
From Verif Require Import ReportModel ItemTreeModel WordsModel WordsSpec.
From Verif Require HirModel HirSpec CallProps GraphvizProps.
Import ListNotations.
Local Open Scope string_scope.

Lemma append_assoc : forall a b c, (a ++ b) ++ c = a ++ b ++ c.
Proof. induction a as [|x a IH]; intros b c; [reflexivity|]. cbn. rewrite IH. reflexivity. Qed.
(** ** Cutting a text at a sign *)
Fixpoint without (z : ascii) (s : string) : Prop := match s with "" => True | String c s => c <> z /\ without z s end.
Lemma clear_without s : clear s <-> without tick s.
Proof. induction s as [|c s IH]; cbn; [tauto|]. rewrite IH. tauto. Qed.
Lemma cut : forall z x x' r r', without z x -> without z x' -> x ++ String z r = x' ++ String z r' -> x = x' /\ r = r'.
Proof.
  induction x as [|c x IH]; intros [|c' x'] r r' W W' E; cbn in *.
  - injection E as E. auto.
  - injection E as E _. destruct W' as (N & _). congruence.
  - injection E as E _. destruct W as (N & _). congruence.
  - injection E as -> E. destruct W as (_ & W), W' as (_ & W'). destruct (IH _ _ _ W W' E) as (-> & ->). auto.
Qed.
Lemma decimal_without : forall i, without " " (decimal i).
Proof.
  intros i. unfold decimal. induction (Nat.to_uint i) as [|d IH|d IH|d IH|d IH|d IH|d IH|d IH|d IH|d IH|d IH]; cbn; try exact I;
    (split; [discriminate|exact IH]).
Qed.
(** ** The debug form of a string can be read back *)
Definition all_chars : list ascii := map ascii_of_nat (seq 0 256).
Fixpoint starts (p s : string) : bool :=
  match p with "" => true | String c p => match s with "" => false | String d s => Ascii.eqb c d && starts p s end end.
Definition first_char (s : string) : option ascii := find (fun c => starts (escape_char c) s) all_chars.
Lemma first_escape c s : first_char (escape_char c ++ s) = Some c.
Proof. destruct c as [[|] [|] [|] [|] [|] [|] [|] [|]]; vm_compute; reflexivity. Qed.
Lemma escape_some c : exists x y, escape_char c = String x y.
Proof. destruct c as [[|] [|] [|] [|] [|] [|] [|] [|]]; vm_compute; eauto. Qed.
Lemma escape_end c s t : escape_char c ++ s = String dquote t -> False.
Proof. destruct c as [[|] [|] [|] [|] [|] [|] [|] [|]]; vm_compute; discriminate. Qed.
Lemma escape_inj : forall s s' t t', escape s ++ String dquote t = escape s' ++ String dquote t' -> s = s'.
Proof.
  induction s as [|c s IH]; intros [|c' s'] t t' E; cbn [escape append] in E.
  - reflexivity.
  - exfalso. rewrite append_assoc in E. symmetry in E. exact (escape_end _ _ _ E).
  - exfalso. rewrite append_assoc in E. exact (escape_end _ _ _ E).
  - rewrite !append_assoc in E. pose proof (first_escape c (escape s ++ String dquote t)) as F. rewrite E, first_escape in F. injection F as <-.
    apply GraphvizProps.app_inj in E. rewrite (IH _ _ _ E). reflexivity.
Qed.
Lemma debug_inj s s' : debug s = debug s' -> s = s'.
Proof. unfold debug. intros E. injection E as E. exact (escape_inj _ _ _ _ E). Qed.
Lemma join_inj : forall l l', Forall clear l -> Forall clear l' -> join ", " (map ticks l) = join ", " (map ticks l') -> l = l'.
Proof.
  induction l as [|x l IH]; intros [|x' l'] F F' E.
  - reflexivity.
  - exfalso. destruct l'; cbn in E; discriminate E.
  - exfalso. destruct l; cbn in E; discriminate E.
  - inversion F as [|? ? Cx Fl]; subst. inversion F' as [|? ? Cx' Fl']; subst.
    assert (J : forall x l, exists r, join ", " (map ticks (x :: l)) = String tick (x ++ String tick r) /\
      r = match l with [] => "" | _ => ", " ++ join ", " (map ticks l) end).
    { intros y [|z k]; cbn [map join ticks]; eexists; (split; [|reflexivity]); [reflexivity|]. unfold ticks. cbn [append]. rewrite append_assoc. reflexivity. }
    destruct (J x l) as (r & E1 & R1), (J x' l') as (r' & E2 & R2). rewrite E1, E2 in E. injection E as E.
    destruct (cut tick x x' r r') as (-> & Er); [apply clear_without; assumption|apply clear_without; assumption|exact E|]. subst r r'.
    f_equal. destruct l as [|y l], l' as [|y' l']; try (cbn in Er; discriminate Er); [reflexivity|]. apply IH; [assumption|assumption|].
    apply GraphvizProps.app_inj in Er. exact Er.
Qed.

(** Two messages with the same words are the same: the words tell the problem, the names and the numbers. *)
Ltac peel E :=
  cbn [append] in E;
  try discriminate E;
  lazymatch type of E with
  | String _ _ = String _ _ => injection E as E
  | _ => idtac
  end.
Theorem C73_distinct : forall m m', composed m -> composed m' -> words m = words m' -> m = m'.
Proof.
  intros m m' (F & K) (F' & K') E.
  assert (T : forall x x' r r', clear x -> clear x' -> x ++ String tick r = x' ++ String tick r' -> x = x' /\ r = r').
  { intros x x' r r' C C'. apply cut; apply clear_without; assumption. }
  assert (D : forall i j r r', decimal i ++ String " " r = decimal j ++ String " " r' -> i = j /\ r = r').
  { intros i j r r' H. destruct (cut " " _ _ _ _ (decimal_without i) (decimal_without j) H) as (A & B). split; [exact (GraphvizProps.decimal_inj _ _ A)|exact B]. }
  destruct m, m'; try contradiction; cbn [about] in F, F';
    repeat match goal with H : Forall _ (_ :: _) |- _ => inversion H; subst; clear H end;
    unfold words, ticks in E; rewrite ?append_assoc in E; cbn [append] in E; try discriminate E; try reflexivity;
    injection E as E.
  all: try (match goal with E : ?x ++ String _ _ = ?y ++ String _ _ |- _ => first [apply T in E as (-> & E); [|assumption|assumption] | apply D in E as (-> & E)] end).
  all: cbn [append] in E; try discriminate E; try reflexivity.
  all: try (injection E as E).
  all: try (match goal with E : ?x ++ String _ _ = ?y ++ String _ _ |- _ => first [apply T in E as (-> & E); [|assumption|assumption] | apply D in E as (-> & E)] end).
  all: cbn [append] in E; try discriminate E; try reflexivity.
  all: try (destruct but_method, but_method0; try discriminate E; reflexivity).
  all: try (destruct but_field, but_field0; try discriminate E; reflexivity).
  all: try (injection E as E; rewrite (GraphvizProps.decimal_inj _ _ E); reflexivity).
  - f_equal. apply join_inj; [assumption|assumption|]. exact (escape_inj _ _ _ _ E).
Qed.
Print Assumptions C73_distinct.

(** Every name a message is about stands in its words between ticks; names among expected tokens as far as the debug form
    leaves them alone. *)
Definition kept (m : message) : Prop := match m with MExpected names => Forall (fun s => escape s = s) names | _ => True end.
Lemma escape_app : forall a b, escape (a ++ b) = escape a ++ escape b.
Proof. induction a as [|c a IH]; intros b; [reflexivity|]. cbn [append escape]. rewrite IH, append_assoc. reflexivity. Qed.
Lemma stands_mid : forall s w a b, stands_in s w -> stands_in s (a ++ w ++ b).
Proof. intros s w a b (x & y & ->). exists (a ++ x), (y ++ b). cbn [append]. repeat (rewrite !append_assoc; cbn [append]). reflexivity. Qed.
Lemma stands_ticks s : stands_in s (ticks s).
Proof. exists "", "". reflexivity. Qed.
Lemma stands_join : forall s l, In s l -> Forall (fun s => escape s = s) l -> stands_in s (escape (join ", " (map ticks l))).
Proof.
  intros s. induction l as [|x l IH]; intros I F; [destruct I|]. inversion F as [|? ? Ex Fl]; subst.
  assert (Et : escape (ticks x) = ticks x) by (unfold ticks; cbn [append escape]; rewrite escape_app, Ex; reflexivity).
  destruct l as [|y l].
  - destruct I as [->|[]]. cbn [map join]. rewrite Et. apply stands_ticks.
  - change (join ", " (map ticks (x :: y :: l))) with (ticks x ++ ", " ++ join ", " (map ticks (y :: l))). rewrite !escape_app, Et.
    destruct I as [->|I].
    + apply (stands_mid s _ "" _). apply stands_ticks.
    + destruct (IH I Fl) as (a & b & ->). exists (ticks x ++ escape ", " ++ a), b. rewrite !append_assoc. reflexivity.
Qed.
Lemma stands_head s b : stands_in s (ticks s ++ b).
Proof. exact (stands_mid s _ "" b (stands_ticks s)). Qed.
Lemma stands_right s a w : stands_in s w -> stands_in s (a ++ w).
Proof. intros (x & y & ->). exists (a ++ x), y. rewrite append_assoc. reflexivity. Qed.
Ltac find_it := first [apply stands_ticks | apply stands_head | apply stands_right; find_it].
Theorem C73_names : forall m s, kept m -> In s (about m) -> stands_in s (words m).
Proof.
  intros m s K I. destruct m; cbn [about] in I; try contradiction; unfold words;
    try (repeat (destruct I as [<-|I]; [find_it|]); destruct I).
  unfold debug. cbn [append]. destruct (stands_join s _ I K) as (a & b & ->). exists ("expected " ++ String dquote a), (b ++ String dquote "").
  cbn [append]. rewrite !append_assoc. cbn [append]. rewrite !append_assoc. reflexivity.
Qed.
Print Assumptions C73_names.
(** The expected tokens are written as the debug form of a string: a backslash is shown twice. *)
Theorem C73_escaped_refuted : words (MExpected [";"; "\"]) = "expected " ++ String dquote ("`;`, `\\`" ++ String dquote "") /\
  ~ stands_in "\" (words (MExpected [";"; "\"])).
Proof.
  split; [reflexivity|]. intros (a & b & E). vm_compute in E.
  do 30 (destruct a as [|? a]; [discriminate E|]; cbn [append] in E; try discriminate E; injection E as _ E).
Qed.
Print Assumptions C73_escaped_refuted.

(** The number that is accepted stands behind the words for it, and the number that is given at the end. *)
Theorem C73_counts : forall k nm a,
  (exists r, words (MAtLeast k nm a) = "expected at least " ++ decimal k ++ " " ++ r) /\ (exists l, words (MAtLeast k nm a) = l ++ " found " ++ decimal a) /\
  (exists r, words (MAtMost k nm a) = "expected at most " ++ decimal k ++ " " ++ r) /\ (exists l, words (MAtMost k nm a) = l ++ " found " ++ decimal a).
Proof.
  intros k nm a. cbn [words]. repeat split.
  - eexists. reflexivity.
  - exists ("expected at least " ++ decimal k ++ " arguments for " ++ ticks nm ++ " call,"). rewrite !append_assoc. reflexivity.
  - eexists. reflexivity.
  - exists ("expected at most " ++ decimal k ++ " arguments for " ++ ticks nm ++ " call,"). rewrite !append_assoc. reflexivity.
Qed.
Print Assumptions C73_counts.

(** A report about the number of arguments of a call is true: fewer are given than the function accepts at least, or more
    than it accepts at most, and the number named is accepted. *)
Lemma filter_le {A} (f : A -> bool) l : (List.length (filter f l) <= List.length l)%nat.
Proof. induction l as [|x l IH]; cbn; [lia|]. destruct (f x); cbn; lia. Qed.
Theorem C73_true : forall db look i f args g e nm x n, HirSpec.called look f = Some g ->
  In (HirModel.IncorrectNumberOfArguments e nm x n) (HirSpec.report db look i f args) ->
  exists k, x = Some k /\ forall b r, infer_report b (IncorrectNumberOfArguments e nm k n) = Some r ->
    true_of (HirModel.function_of db g) (List.length args) (d_message r).
Proof.
  intros db look i f args g e nm x n C I. unfold HirSpec.report in I. rewrite C in I.
  set (d := HirModel.function_of db g) in *. destruct (HirSpec.accepts_dec d (List.length args)) as [A|A]; [destruct I|].
  destruct I as [E|[]]. injection E as _ <- <- <-. eexists. split; [reflexivity|]. intros b r H. unfold infer_report in H.
  destruct (expr_source b e) as [rg|]; [|discriminate H]. cbn [option_map] in H. injection H as <-. cbn [new_with_syntax_node_ptr new d_message].
  assert (M : HirModel.number_of_mandatory_parameters d = List.length (filter (fun p => negb (HirModel.has_default p) && negb (HirModel.is_rest p)) (HirModel.fd_params d))).
  { unfold HirModel.number_of_mandatory_parameters. f_equal. apply filter_ext. intros p. apply negb_orb. }
  pose proof (filter_le (fun p => negb (HirModel.has_default p) && negb (HirModel.is_rest p)) (HirModel.fd_params d)) as L. rewrite <- M in L.
  set (k := HirModel.number_of_mandatory_parameters d) in *.
  destruct (Nat.ltb_spec (List.length args) k) as [Lt|Ge].
  - destruct (Nat.ltb_spec (List.length args) k); [|lia]. cbn [true_of]. split; [reflexivity|]. split; [reflexivity|]. split; [lia|]. split.
    + split; [intros m ->; rewrite <- M; lia|left; exact L].
    + intros j (J & _). rewrite M. apply J. reflexivity.
  - assert (T : (List.length (HirModel.fd_params d) < List.length args)%nat /\ ~ exists p, In p (HirModel.fd_params d) /\ HirModel.is_rest p = true).
    { split.
      - destruct (le_lt_dec (List.length args) (List.length (HirModel.fd_params d))) as [Q|Q]; [|exact Q]. exfalso. apply A. split; [intros m ->; rewrite <- M; exact Ge|left; exact Q].
      - intros R. apply A. split; [intros m ->; rewrite <- M; exact Ge|right; exact R]. }
    destruct T as (T & NR). destruct (Nat.ltb_spec (List.length args) (List.length (HirModel.fd_params d))); [lia|]. cbn [true_of].
    split; [reflexivity|]. split; [reflexivity|]. split; [exact T|]. split.
    + split; [intros m ->; rewrite <- M; exact L|left; lia].
    + intros j (_ & [J|J]); [exact J|contradiction].
Qed.
Print Assumptions C73_true.

Example C73_nontrivial :
  map words [MExpected ["identifier"; ";"]; MMissing ";"; MFileNotFound "a.inc"; MNoField "x" "A" true; MAtLeast 2 "f" 1; MAtMost 12 "f" 30; MNoMethodmap "B"] =
  ["expected " ++ String dquote ("`identifier`, `;`" ++ String dquote ""); "expected `;`"; "file `a.inc` was not found";
   "no field `x` on type `A`, but a method with a similar name exists"; "expected at least 2 arguments for `f` call, found 1";
   "expected at most 12 arguments for `f` call, found 30"; "methodmap `B` does not exist"] /\
  true_of (HirModel.FunctionData "f" None [HirModel.Param false false; HirModel.Param true false]) 3 (MAtMost 2 "f" 3) /\
  composed (MNoField "x" "A" true).
Proof.
  split; [vm_compute; reflexivity|]. split.
  - cbn. split; [reflexivity|]. split; [reflexivity|]. split; [lia|]. split.
    + split; [intros m ->; cbn; lia|left; cbn; lia].
    + intros j (_ & [J|(p & [<-|[<-|[]]] & J)]); [exact J|discriminate J|discriminate J].
  - split; [|exact I]. repeat constructor; discriminate.
Qed.
