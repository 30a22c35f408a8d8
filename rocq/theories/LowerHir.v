(** C48: what is lost on the way from the syntax tree to the reports. *)
From Coq Require Import List String Ascii Bool Arith ZArith Lia.
From Verif Require Import TypeRefModel LowerModel LowerSpec LowerProofs LowerProps.
From Verif Require HirModel HirNames.
Import ListNotations.
Local Open Scope string_scope.

(** ** The arena as the trees with indices of HirModel *)
Definition literal_type (l : literal) : type_ref :=
  match l with LString _ => TOldString | LChar _ => TChar | LBool _ => TBool | LInt _ => TInt | LNull => TVoid | LFloat _ => TFloat end.
Fixpoint to_expr (fuel : nat) (s : state) (i : nat) : HirModel.expr :=
  match fuel with
  | O => HirModel.Missing i
  | S k =>
      let go := to_expr k s in
      match nth i (exprs s) EMissing with
      | EIdent n => HirModel.Ident i n
      | EComma l => HirModel.CommaExpr i (map go l)
      | ENamedArg a b => HirModel.NamedArg i (go a) (go b)
      | ENew n l => HirModel.New i n (map go l)
      | EViewAs a ty => HirModel.ViewAs i (go a) ty
      | EField a n => HirModel.FieldAccess i (go a) n
      | EScope a n => HirModel.ScopeAccess i (go a) n
      | EIndex a b => HirModel.ArrayIndexedAccess i (go a) (go b)
      | EUnary a _ => HirModel.UnaryOp i (go a)
      | EBinary a b _ => HirModel.BinaryOp i (go a) (go b)
      | ETernary a b c => HirModel.TernaryOp i (go a) (go b) (go c)
      | EControl _ x => HirModel.Control i (option_map go x)
      | ECall c l => HirModel.Call i (go c) (map go l)
      | EMethodCall t n l => HirModel.MethodCall i (go t) n (map go l)
      | ELiteral l => HirModel.Literal i (literal_type l)
      | EArray l => HirModel.ArrayLiteral i (map go l)
      | _ => HirModel.Missing i
      end
  end.
Definition to_binding (fuel : nat) (s : state) (i : nat) : HirModel.binding :=
  match nth i (exprs s) EMissing with
  | EBinding k ty x => HirModel.Bind i (nth k (idents s) "") ty (option_map (to_expr fuel s) x)
  | _ => HirModel.Bind i "" None None
  end.
Fixpoint to_stmt (fuel : nat) (s : state) (i : nat) : HirModel.stmt :=
  match fuel with
  | O => HirModel.SExpr (HirModel.Missing i)
  | S k =>
      let go := to_stmt k s in
      match nth i (exprs s) EMissing with
      | EBlock _ l => HirModel.SBlock i (map go l)
      | EDecl l => HirModel.SDecl i (map (to_binding k s) l)
      | ELoop l c it b => HirModel.SLoop i (map go l) (to_expr k s c) (option_map (to_expr k s) it) (go b)
      | ECondition c t f => HirModel.SCondition i (to_expr k s c) (go t) (option_map go f)
      | ESwitch c l => HirModel.SSwitch i (to_expr k s c) (map (fun x => (map (to_expr k s) (fst x), go (snd x))) l)
      | _ => HirModel.SExpr (to_expr k s i)
      end
  end.
Definition to_body (s : state) (b : option nat) : HirModel.body :=
  HirModel.Body (map (fun x => (nth (fst x) (idents s) "", snd x)) (params s))
                (option_map (to_stmt (2 * List.length (exprs s)) s) b).

(** ** Witnesses *)
Definition demo_env : env := Env (fun _ => None) (fun p => Some p) (fun _ => Some TInt).
Definition leaf (k : kind) (p : nat) (s : string) : ts := T k p s [].
Definition on (f : string) (n : ts) : option string * ts := (Some f, n).
Definition off (n : ts) : option string * ts := (None, n).
(** [f(a0, a1, ...)] as a statement, with the arguments given. *)
Fixpoint separated (p : nat) (l : list ts) : list (option string * ts) :=
  match l with
  | [] => []
  | [x] => [off x]
  | x :: tl => off x :: off (leaf anon_COMMA p ",") :: separated (S p) tl
  end.
Definition call (p : nat) (f : string) (l : list ts) : ts :=
  T call_expression p "f()" [on "function" (leaf identifier (p + 1) f);
    on "arguments" (T (other 215) (p + 2) "()" (off (leaf anon_LPAREN (p + 3) "(") :: separated (p + 5) l ++ [off (leaf anon_RPAREN (p + 4) ")")])%list)].
Definition statement (p : nat) (n : ts) : ts := T expression_statement p "" [off n; off (leaf (other 105) (p + 1) ";")].
Definition body_of (l : list ts) : ts :=
  T block 0 "{}" (off (leaf anon_LBRACE 1 "{") :: map off l ++ [off (leaf anon_RBRACE 2 "}")])%list.
Definition int_arg (p : nat) (s : string) : ts := leaf int_literal p s.

(** A function [f] with one parameter. *)
Definition demo_db : HirModel.database := HirModel.Database
  (fun _ => HirModel.FunctionData "f" None [HirModel.Param false false])
  (fun _ => None) (fun _ => None) (fun _ _ => None) (fun _ _ => None) (fun _ => None)
  (fun _ => HirNames.owner_resolver [] None) (fun _ => HirModel.root_scopes) (fun _ => None).
Definition reports (b : ts) : option (list HirModel.diagnostic) :=
  match lower demo_env None (Some b) with
  | Panic => None
  | Ret i s => Some (HirModel.diagnostics (HirModel.infer_query demo_db 9
                 (HirNames.owner_resolver [HirModel.DefMap 0 [("f", [(HirModel.DFunction, 0)])]] None) (to_body s i)))
  end.

(** [f(0x10)]: the source means a call with one argument, which is what [f] takes; the argument is lost
    and the call is reported. So are [f(1_000)] and, without a report of its own, [f(_)]. *)
Definition hex_body : ts := body_of [statement 10 (call 20 "f" [int_arg 30 "0x10"])].
Theorem C48_hex_refuted :
  means demo_env hex_body (Tr (EBlock 0 [Tr (ECall (Tr (EIdent "f")) [Tr (ELiteral (LInt 16))])])) /\
  (exists i s, lower demo_env None (Some hex_body) = Ret (Some i) s /\ tree_at s i = Tr (EBlock 0 [Tr (ECall (Tr (EIdent "f")) [])])) /\
  reports hex_body = Some [HirModel.IncorrectNumberOfArguments 1 "f" (Some 1) 0] /\
  reports (body_of [statement 10 (call 20 "f" [int_arg 30 "1_000"])]) = Some [HirModel.IncorrectNumberOfArguments 1 "f" (Some 1) 0] /\
  reports (body_of [statement 10 (call 20 "f" [leaf (other 220) 30 "_"])]) = Some [HirModel.IncorrectNumberOfArguments 1 "f" (Some 1) 0] /\
  reports (body_of [statement 10 (call 20 "f" [int_arg 30 "16"])]) = Some [].
Proof.
  split; [|split; [|repeat split; vm_compute; reflexivity]].
  - apply m_block; [reflexivity|]. constructor; [|constructor]. right. apply m_statement.
    eapply m_call; [reflexivity|reflexivity|reflexivity|apply m_ident; auto|].
    constructor; [|constructor]. apply m_int. reflexivity.
  - eexists _, _. split; [vm_compute; reflexivity|]. vm_compute. reflexivity.
Qed.
Print Assumptions C48_hex_refuted.

(** [for (;;) f();]: the loop has a body, but the analysed function has none, so the wrong call is not
    reported. *)
Definition for_body : ts := body_of [T for_statement 10 "" [on "body" (statement 20 (call 30 "f" []))]].
Theorem C48_for_refuted :
  means demo_env for_body (Tr (EBlock 0 [Tr (ELoop [] none None (Tr (ECall (Tr (EIdent "f")) [])))])) /\
  (exists i s, lower demo_env None (Some for_body) = Ret (Some i) s /\ tree_at s i = Tr (EBlock 0 [none])) /\
  reports for_body = Some [] /\
  reports (body_of [statement 20 (call 30 "f" [])]) = Some [HirModel.IncorrectNumberOfArguments 1 "f" (Some 1) 0].
Proof.
  split; [|split; [|split; vm_compute; reflexivity]].
  - apply m_block; [reflexivity|]. constructor; [|constructor]. right.
    change none with (match @None tree with Some u => u | None => none end). eapply m_for; [constructor|constructor|constructor|reflexivity|].
    apply m_statement. eapply m_call; [reflexivity|reflexivity|reflexivity|apply m_ident; auto|constructor].
  - eexists _, _. split; [vm_compute; reflexivity|]. vm_compute. reflexivity.
Qed.
Print Assumptions C48_for_refuted.

(** [!-x]: the operator recorded for [-x] is none, that for [!-x] is [-]. *)
Theorem C48_operator_refuted :
  let minus := T unary_expression 10 "-x" [on "operator" (leaf (other 30) 11 "-"); on "argument" (leaf identifier 12 "x")] in
  let n := T unary_expression 20 "!-x" [on "operator" (leaf (other 31) 21 "!"); on "argument" minus] in
  exists i s, lower demo_env None (Some n) = Ret (Some i) s /\
    exprs s = [EIdent "x"; EUnary 0 None; EUnary 1 (Some (other 30))].
Proof. eexists _, _. split; vm_compute; reflexivity. Qed.
Print Assumptions C48_operator_refuted.

(** [a[0]()]: a call of something that is neither a name nor a member crashes. *)
Theorem C48_crash_refuted :
  let n := T call_expression 10 "a[0]()"
    [on "function" (T array_indexed_access 11 "a[0]" [on "array" (leaf identifier 12 "a"); on "index" (int_arg 13 "0")]);
     on "arguments" (T (other 215) 14 "()" [])] in
  lower demo_env None (Some n) = Panic.
Proof. vm_compute. reflexivity. Qed.
Print Assumptions C48_crash_refuted.

(** A function with parameters, declarations, a loop, a switch and calls meets all hypotheses. *)
Definition demo_params : ts :=
  T parameter_declarations 100 "" [off (leaf anon_LPAREN 101 "(");
    off (T parameter_declaration 102 "int a" [on "name" (leaf identifier 103 "a")]); off (leaf anon_COMMA 104 ",");
    off (T parameter_declaration 105 "int b = 2" [on "name" (leaf identifier 106 "b"); on "initialValue" (int_arg 107 "2")])].
Definition demo_body : ts := body_of
  [leaf comment 3 "// x";
   T variable_declaration_statement 10 "" [off (T variable_declaration 11 "" [on "name" (leaf identifier 12 "v"); on "initialValue" (call 20 "f" [leaf identifier 30 "a"; int_arg 31 "7"])])];
   T for_statement 40 "" [on "initialization" (leaf identifier 41 "v"); on "condition" (leaf identifier 42 "b"); on "iteration" (leaf identifier 43 "c");
                          on "body" (T switch_statement 44 "" [on "condition" (leaf identifier 45 "v");
                             off (T switch_case 46 "" [on "value" (int_arg 47 "1"); on "value" (int_arg 48 "2"); on "body" (T break_statement 49 "" [])])])];
   T return_statement 50 "" [on "expression" (T field_access 51 "" [on "target" (leaf this 52 "this"); on "field" (leaf identifier 53 "x")])]].
Definition demo_tree : tree :=
  Tr (EBlock 0 [none;
    Tr (EDecl [Tr (EBinding "v" (Some TInt) (Some (Tr (ECall (Tr (EIdent "f")) [Tr (EIdent "a"); Tr (ELiteral (LInt 7))]))))]);
    Tr (ELoop [Tr (EIdent "v")] (Tr (EIdent "b")) (Some (Tr (EIdent "c")))
          (Tr (ESwitch (Tr (EIdent "v")) [([Tr (ELiteral (LInt 1)); Tr (ELiteral (LInt 2))], Tr (EControl anon_break None))])));
    Tr (EControl anon_return (Some (Tr (EField (Tr (EIdent "this")) "x"))))]).
Example C48_nontrivial :
  is_parameter_list (Some demo_params) /\
  Forall2 (param_means demo_env) (parameters (Some demo_params))
    [("a", Tr (EBinding "a" (Some TInt) None)); ("b", Tr (EBinding "b" (Some TInt) (Some (Tr (ELiteral (LInt 2))))))] /\
  everywhere plain demo_params /\ means demo_env demo_body demo_tree /\ everywhere plain demo_body /\
  everywhere (callable demo_env) demo_body.
Proof.
  assert (D : forall s z, all_digits s = true -> int_value s = Some z -> (z < 2 ^ 63)%Z -> decimal s).
  { intros s z A B C. split; [exact A|]. exists z. auto. }
  split; [intros n E; injection E as <-; left; reflexivity|]. split; [|split; [|split; [|split]]].
  - constructor; [|constructor; [|constructor]].
    + exists (leaf identifier 103 "a"), None. repeat split. constructor.
    + exists (leaf identifier 106 "b"), (Some (Tr (ELiteral (LInt 2)))). repeat split. constructor. apply m_int. reflexivity.
  - cbn. repeat split; try (exists 2%Z; split; reflexivity).
  - apply m_block; [reflexivity|]. constructor; [left; split; reflexivity|]. constructor; [right|constructor; [right|constructor; [right|constructor]]].
    + apply m_declaration. constructor; [|constructor]. exists (leaf identifier 12 "v"). eexists. split; [reflexivity|]. split; [|reflexivity].
      constructor. eapply m_call; [reflexivity|reflexivity|reflexivity|apply m_ident; auto|].
      constructor; [apply m_ident; auto|constructor; [apply m_int; reflexivity|constructor]].
    + eapply (m_for demo_env _ _ _ _ (Some (Tr (EIdent "b"))) (Some (Tr (EIdent "c")))).
      * constructor; [apply m_ident; auto|constructor].
      * constructor. apply m_ident; auto.
      * constructor. apply m_ident; auto.
      * reflexivity.
      * eapply m_switch; [reflexivity|apply m_ident; auto|]. constructor; [|constructor]. split.
        -- constructor; [apply m_int; reflexivity|constructor; [apply m_int; reflexivity|constructor]].
        -- eexists. split; [reflexivity|]. apply m_break.
    + apply m_return. constructor. eapply (m_field demo_env _ _ _ _ (leaf identifier 53 "x")); [reflexivity|reflexivity|]. apply m_ident; auto.
  - cbn. repeat split; try discriminate; try (eexists; split; reflexivity).
  - cbn. repeat split; try discriminate; auto.
Qed.
