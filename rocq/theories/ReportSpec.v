(** What the user should see of what the analysis found, for C53. *)
From Coq Require Import List Bool Arith NArith String.
From Verif Require Import TextModel ReportModel.
Import ListNotations.
Local Open Scope string_scope.
Local Open Scope list_scope.

(** ** The problems of a file *)
Inductive place := InTree (r : ts_range) | InEditor (r : lsp_range).
Inductive weight := Mistake | Faded.
Record problem := Problem { where_ : place; says : message; weighs : weight }.

(** [n] is the tree or a node below it *)
Inductive below : tnode -> tnode -> Prop :=
  | below_here n : below n n
  | below_child n c k m e s r cs : In c cs -> below n c -> below n (TNode k m e s r cs).

Definition node_problem (n : tnode) (p : problem) : Prop :=
  (t_kind n = "ERROR" /\ exists names, t_expected n = Some names /\ p = Problem (InTree (t_range n)) (MExpected names) Mistake) \/
  (t_kind n = "ERROR" /\ t_expected n = None /\ p = Problem (InTree (t_range n)) (MSexp (t_sexp n)) Mistake) \/
  (t_missing n = true /\ p = Problem (InTree (t_range n)) (MMissing (t_kind n)) Mistake).

Definition what (d : inference_diagnostic) : nat * message :=
  match d with
  | UnresolvedField e r n s => (e, MNoField n r s)
  | UnresolvedMethodCall e r n s => (e, MNoMethod n r s)
  | UnresolvedConstructor e n (Some KMethodmap) => (e, MNoConstructor n)
  | UnresolvedConstructor e n (Some KEnumStruct) => (e, MEnumStructConstructed n)
  | UnresolvedConstructor e n _ => (e, MNoMethodmap n)
  | UnresolvedNamedArg e n c => (e, MNoParameter n c)
  | IncorrectNumberOfArguments e n expected actual =>
      (e, if Nat.leb expected actual then MAtMost expected n actual else MAtLeast expected n actual)
  end.
Definition body_problem (b : body) (p : problem) : Prop :=
  exists d r, In d (infer b) /\ expr_source b (fst (what d)) = Some r /\ p = Problem (InTree r) (snd (what d)) Mistake.

Definition inherit_problem_of (i : inherit_problem) (p : problem) : Prop :=
  exists r, inherits_node i = Some r /\
    p = Problem (InTree r) (if exists_ i then MNotMethodmap (inherit_name i) else MNoMethodmap (inherit_name i)) Mistake.

(** the bodies of a file that are looked at on their own *)
Definition free_body (d : file_def) (b : body) : Prop := d = Function b \/ d = Typedef b \/ d = Functag b.
(** those of its methods *)
Definition method_body (d : file_def) (b : body) : Prop :=
  (exists ms, d = EnumStruct ms /\ In b ms) \/ (exists is ms, d = Methodmap is ms /\ In b ms).

Definition outside_methods (a : analysis) (p : problem) : Prop :=
  (exists n, below n (tree a) /\ node_problem n p) \/
  (exists r t, In (r, t) (evaluation_errors a) /\ p = Problem (InEditor r) (MText t) Mistake) \/
  (exists r t, In (r, t) (unresolved_include_errors a) /\ p = Problem (InEditor r) (MFileNotFound t) Mistake) \/
  (exists r t, In (r, t) (macro_not_found_errors a) /\ p = Problem (InEditor r) (MNoMacro t) Mistake) \/
  (exists r, In r (inactive_ranges a) /\ p = Problem (InEditor r) MInactive Faded) \/
  (exists d b, In d (declarations a) /\ free_body d b /\ body_problem b p) \/
  (exists is ms i, In (Methodmap is ms) (declarations a) /\ In i is /\ inherit_problem_of i p).
Definition in_methods (a : analysis) (p : problem) : Prop :=
  exists d b, In d (declarations a) /\ method_body d b /\ body_problem b p.

(** every expression a problem is about has a place (the source map of the body) *)
Definition placed (a : analysis) : Prop :=
  forall d b i, In d (declarations a) -> free_body d b -> In i (infer b) -> expr_source b (fst (what i)) <> None.

(** What one sees of a problem, places aside: mistakes are errors, inactive code is a hint and faded *)
Definition looks (w : weight) (s : lsp_severity) (faded : bool) : Prop :=
  match w with Mistake => s = LError /\ faded = false | Faded => s = LHint /\ faded = true end.

(** The code shown with a message tells the compiler's errors from problems of the syntax and inactive code *)
Definition coded (m : message) : string :=
  match m with
  | MExpected _ | MSexp _ => "syntax-error"
  | MMissing _ => "missing-node"
  | MInactive => "inactive-code"
  | _ => "E0000"
  end.

(** ** Places *)
(** A line of the editor and the same line of the preprocessed text, cut into pieces that correspond: text that is
    kept, and macro uses with their expansion. *)
Inductive segment := Same (cs : list char) | Macro (use expansion : list char).
Definition edit_text (l : list segment) : list char :=
  flat_map (fun s => match s with Same cs => cs | Macro u _ => u end) l.
Definition tree_text (l : list segment) : list char :=
  flat_map (fun s => match s with Same cs => cs | Macro _ e => e end) l.

Definition units (enc : encoding) (c : char) : N := match enc with Utf8 => len8 c | Wide w => wide_len w c end.
Definition width (enc : encoding) (cs : list char) : N := fold_right (fun c n => (units enc c + n)%N) 0%N cs.

(** the place after [cs] in a kept piece that comes after [before]: its column in the editor, and in the tree *)
Definition editor_column (enc : encoding) (before : list segment) (cs : list char) : N := width enc (edit_text before ++ cs).
Definition tree_column (before : list segment) (cs : list char) : N := width Utf8 (tree_text before ++ cs).

Definition no_macro (l : list segment) : Prop := forall u e, ~ In (Macro u e) l.
Definition ascii (cs : list char) : Prop := forall c, In c cs -> (c < 128)%N.

(** ** How many problems *)
Fixpoint count_nodes (f : tnode -> nat) (n : tnode) : nat :=
  match n with TNode _ _ _ _ _ cs => f n + list_sum (map (count_nodes f) cs) end.
Definition node_problems (n : tnode) : nat :=
  (if String.eqb (t_kind n) "ERROR" then 1 else 0) + (if t_missing n then 1 else 0).
Definition def_problems (d : file_def) : nat :=
  match d with
  | Function b | Typedef b | Functag b => List.length (infer b)
  | Methodmap is _ => List.length (filter (fun i => match inherits_node i with Some _ => true | None => false end) is)
  | EnumStruct _ | OtherDef => 0
  end.
Definition number_of_problems (a : analysis) : nat :=
  count_nodes node_problems (tree a) + List.length (evaluation_errors a) + List.length (unresolved_include_errors a)
  + List.length (macro_not_found_errors a) + List.length (inactive_ranges a) + list_sum (map def_problems (declarations a)).
