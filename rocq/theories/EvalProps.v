(** C19 and C20: conditions of #if. *)
From Coq Require Import List ZArith Bool String Lia.
From Verif Require Import PreTypes MacroModel EvalModel EvalSpec EvalProofs EvalSafeSpec EvalSafeProofs
  PreLex.
Import ListNotations.
Local Open Scope Z_scope.

(** C19: the symbols [ys] of a condition spell the tree [e] that the precedence table and left
    associativity prescribe; whenever [e] has a value, the evaluator answers whether it is nonzero,
    in debug and release builds. *)
Theorem C19_condition_value :
  forall chk m dis line e ys fuel v,
    spells e ys -> wf e -> lits_ok e ->
    value (fun x => match mget m x with Some _ => true | None => false end) e = Some v ->
    (List.length ys < fuel)%nat ->
    exists offs, evaluate fuel chk m dis line ys = EOk (holds v) offs dis.
Proof.
  intros chk m dis line e ys fuel v Hs Hw Hl Hv Hf.
  pose proof (evaluate_value chk m dis line e ys fuel Hs Hw Hl Hf) as H.
  change (fun x => match mget m x with Some _ => true | None => false end) with (def_in m) in Hv.
  rewrite Hv in H. apply H. left. discriminate.
Qed.
Print Assumptions C19_condition_value.

(** C19 in release builds: arithmetic that does not fit is cut to 32 bits, shift amounts to 5 bits. The evaluator answers
    whether the value is nonzero, and panics exactly when there is none (a division by zero, or by -1 that does not fit). *)
Theorem C19_release :
  forall m dis line e ys fuel,
    spells e ys -> wf e -> lits_ok e -> (List.length ys < fuel)%nat ->
    match value_cut (fun x => match mget m x with Some _ => true | None => false end) e with
    | Some v => exists offs, evaluate fuel false m dis line ys = EOk (holds v) offs dis
    | None => evaluate fuel false m dis line ys = EPanic
    end.
Proof.
  intros m dis line e ys fuel Hs Hw Hl Hf.
  pose proof (evaluate_value_of false m dis line e ys fuel Hs Hw Hl Hf) as H. rewrite value_of_false in H. exact H.
Qed.
Print Assumptions C19_release.
(** Both builds agree on every condition that has a value without cutting. *)
Theorem C19_builds_agree : forall def e v, value def e = Some v -> value_cut def e = Some v.
Proof. exact value_same. Qed.
Print Assumptions C19_builds_agree.
Example C19_release_nontrivial :
  map (fun e => (value (fun _ => false) e, value_cut (fun _ => false) e))
    [EBin BAdd (ELit 2147483647) (ELit 1); EBin BMul (ELit 65536) (ELit 65536); EBin BShl (ELit 1) (ELit 33); EBin BShr (ELit 8) (ELit (-1));
     EBin BDiv (ELit 1) (ELit 0); EUn UMinus (ELit (-2147483648))] =
    [(None, Some (-2147483648)); (None, Some 0); (None, Some 2); (None, Some 0); (None, None); (None, Some (-2147483648))].
Proof. reflexivity. Qed.

(** `1 + 2 * 3 == 7 && !defined (FOO)`, lexed. *)
Definition cond_syms (s : string) : list symbol := map fst (lex_source s).
Definition c19_expr : expr :=
  EBin BLAnd
    (EBin BEq (EBin BAdd (ELit 1) (EBin BMul (ELit 2) (ELit 3))) (ELit 7))
    (EUn UNot (EDefinedP "FOO")).
Ltac spell :=
  first
    [ eapply (sp_definedp _ _ (Sym KIdent _ _ _ _ _)); reflexivity
    | eapply sp_lit; [unfold int_kind; tauto|reflexivity]
    | apply sp_true; reflexivity
    | apply sp_false; reflexivity ].
Example C19_nontrivial :
  spells c19_expr (cond_syms "1 + 2 * 3 == 7 && !defined (FOO)") /\ wf c19_expr /\ lits_ok c19_expr /\
  value (fun _ => false) c19_expr = Some 1 /\
  evaluate 20 true [] [] 0 (cond_syms "1 + 2 * 3 == 7 && !defined (FOO)") = EOk true [] [].
Proof.
  repeat split; try (simpl; lia); try (vm_compute; reflexivity).
  set (ys := cond_syms _). vm_compute in ys. subst ys.
  match goal with |- spells _ ?l => change l with
    ((((firstn 1 l) ++ nth 1 l (Sym KEof "" "" None zero_range (Delta 0 0)) ::
       ((firstn 1 (skipn 2 l)) ++ nth 3 l (Sym KEof "" "" None zero_range (Delta 0 0)) :: firstn 1 (skipn 4 l)))
      ++ nth 5 l (Sym KEof "" "" None zero_range (Delta 0 0)) :: firstn 1 (skipn 6 l))
     ++ nth 7 l (Sym KEof "" "" None zero_range (Delta 0 0)) :: (nth 8 l (Sym KEof "" "" None zero_range (Delta 0 0)) :: firstn 4 (skipn 9 l)
        ++ [nth 13 l (Sym KEof "" "" None zero_range (Delta 0 0))])) end.
  apply sp_bin; [reflexivity| |].
  - apply sp_bin; [reflexivity| |simpl; spell].
    apply sp_bin; [reflexivity|simpl; spell|].
    apply sp_bin; [reflexivity|simpl; spell|simpl; spell].
  - apply sp_un; [reflexivity|]. apply sp_noise_r; [apply noise_eof; reflexivity|].
    simpl. spell.
Qed.

(** C20, the part that holds (release builds): if the condition has only condition symbols, no
    division and no unclosed parenthesis, and the macros it may use are tame (EvalSafeSpec), the
    evaluation ends with an answer or a reported error.
    Missing from the full statement: divisions, unclosed parentheses, other symbols, function-like
    macros and debug builds; the theorems below show that the first three fail. *)
Theorem C20_no_crash_partial :
  forall ms dis line ys,
    tame_table ms ->
    Forall (fun y => condition_kind (s_kind y) /\ ~ divides (s_kind y)) ys ->
    still_open 0 ys = 0%nat ->
    exists n, forall fuel, (n <= fuel)%nat ->
      (exists b offs dis', evaluate fuel false ms dis line ys = EOk b offs dis') \/
      (exists r nf offs dis', evaluate fuel false ms dis line ys = EErr r nf offs dis').
Proof.
  intros ms dis line ys H1 H2 H3.
  destruct (evaluate_settles ms dis line ys H1 H2 H3) as (n & r & Ho & Hr).
  exists n. intros fuel Hf. rewrite (Hr fuel Hf).
  destruct r; try contradiction Ho; [left|right]; repeat eexists.
Qed.
Print Assumptions C20_no_crash_partial.

(** a recursive object-like macro, an unbalanced closing parenthesis, two operands in a row *)
Definition c20_table : macros_map :=
  [("A"%string, Macro 0 0 None 0 [RSym KIdent "A" None (Delta 0 1); RSym (KOp OPlus) "+" None (Delta 0 1);
                             RSym (KLit LInt) "1" (Some 1) (Delta 0 1)])].
Example C20_nontrivial :
  tame_table c20_table /\
  Forall (fun y => condition_kind (s_kind y) /\ ~ divides (s_kind y)) (cond_syms "A ) 2 3 + (4) <<") /\
  still_open 0 (cond_syms "A ) 2 3 + (4) <<") = 0%nat.
Proof.
  split; [|split].
  - intros name m H. unfold c20_table, mget in H. destruct (String.eqb "A" name); [|discriminate H]. injection H as <-.
    split; [reflexivity|]. repeat match goal with |- Forall _ _ => constructor | |- _ /\ _ => split end;
      try exact I; intros [H|H]; discriminate H.
  - set (ys := cond_syms _). vm_compute in ys. subst ys.
    repeat match goal with |- Forall _ _ => constructor | |- _ /\ _ => split end;
      try exact I; intros [H|H]; discriminate H.
  - reflexivity.
Qed.

(** C20 refuted: a division by zero panics in every build. *)
Theorem C20_division_by_zero_refuted :
  exists ys, forall chk m dis line fuel, (4 <= fuel)%nat -> evaluate fuel chk m dis line ys = EPanic.
Proof.
  exists (firstn 3 (cond_syms "1 / 0")). intros chk m dis line fuel H.
  do 4 (destruct fuel as [|fuel]; [lia|]). destruct chk; reflexivity.
Qed.
Print Assumptions C20_division_by_zero_refuted.

(** C20 refuted: an opening parenthesis left open reaches [unreachable!()] in every build. *)
Theorem C20_unclosed_paren_refuted :
  exists ys, forall chk m dis line fuel, (4 <= fuel)%nat -> evaluate fuel chk m dis line ys = EPanic.
Proof.
  exists (firstn 3 (cond_syms "(1 1")). intros chk m dis line fuel H.
  do 4 (destruct fuel as [|fuel]; [lia|]). destruct chk; reflexivity.
Qed.
Print Assumptions C20_unclosed_paren_refuted.

(** C20 refuted for debug builds: any condition whose value overflows panics. *)
Theorem C20_debug_overflow_refuted :
  forall m dis line e ys fuel,
    spells e ys -> wf e -> lits_ok e ->
    value (fun x => match mget m x with Some _ => true | None => false end) e = None ->
    (List.length ys < fuel)%nat ->
    evaluate fuel true m dis line ys = EPanic.
Proof.
  intros m dis line e ys fuel Hs Hw Hl Hv Hf.
  pose proof (evaluate_value true m dis line e ys fuel Hs Hw Hl Hf) as H.
  change (fun x => match mget m x with Some _ => true | None => false end) with (def_in m) in Hv.
  rewrite Hv in H. apply H. right. reflexivity.
Qed.
Print Assumptions C20_debug_overflow_refuted.
Example C20_debug_overflow_nontrivial :
  value (fun _ => false) (EBin BAdd (ELit 2147483647) (ELit 1)) = None /\
  evaluate 9 true [] [] 0 (cond_syms "2147483647 + 1") = EPanic /\
  evaluate 9 false [] [] 0 (cond_syms "2147483647 + 1") = EOk true [] [].
Proof. repeat split. Qed.

(** C20 and C21 refuted: after a literal, a symbol such as `;` or `,` is handed back by the expansion
    for ever, in every build and with every macro table that does not define it. *)
Theorem C20_separator_hangs_refuted :
  exists ys, forall chk m dis line fuel,
    mget m ";" = None -> evaluate fuel chk m dis line ys = EFuel.
Proof.
  exists (firstn 2 (cond_syms "1 ;")). intros chk m dis line fuel Hm.
  set (ys := firstn 2 _). vm_compute in ys. subst ys. unfold evaluate.
  set (xf := fuel) at 2. clearbody xf.
  destruct fuel as [|[|fuel]]; [reflexivity|reflexivity|].
  simpl e_loop. unfold e_iter1. simpl e_fetch. cbv iota beta. simpl. rewrite Hm.
  destruct xf as [|[|[|xf]]]; try reflexivity.
  rewrite bounce_expand by exact I. simpl app.
  apply (bounce_loop (Sym KSemi ";" ";" None _ _)); [exact I|exact Hm].
Qed.
Print Assumptions C20_separator_hangs_refuted.
Example C20_separator_nontrivial : map s_kind (firstn 2 (cond_syms "1 ;")) = [KLit LInt; KSemi].
Proof. reflexivity. Qed.
