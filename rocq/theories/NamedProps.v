(** C63: what the named arguments of a call refer to. *)
From Coq Require Import List String Bool Arith Lia.
From Verif Require Import TypeRefModel HirModel HirSpec HirScopes HirNames NameProps CallProps MemberSpec MemberProofs NamedSpec NamedProofs OffsetModel.
From Verif Require OffsetProofs OffsetProps.
Import ListNotations.
Local Open Scope string_scope.
Local Open Scope nat_scope.
Local Open Scope list_scope.

(** * What is recorded *)
Lemma body_names db bodies owner maps this b s : knows db bodies -> body_stmt b = Some s -> NoDup (stmt_ids s) ->
  let look := meaning owner (root_decls b) (resolve_ident (owner_resolver maps this)) in
  (forall d e, In (d, e) (places [] s) -> well db (look d) False e) ->
  let res := infer_query db owner (owner_resolver maps this) b in
  (filter is_naming (diagnostics res), named_args res) =
  add ([], []) (flat_map (fun x => evn db (look (fst x)) (parameter_of bodies) None (snd x)) (places [] s)).
Proof.
  intros K E N look W res0. unfold res0, infer_query. rewrite E. destruct (new_scopes_ok b s E N) as (So & H & lo & P).
  refine (walk_stmt track naming kept add (fun t => eq_refl) add_app db owner (owner_resolver maps this) (new_scopes b) (rev (root_decls b))
    (fun d e => evn db (look d) (parameter_of bodies) None e) (fun d e => well db (look d) False e) _ s [] [] lo 0 H P W (Ctx [] (Result [] [] [] []))).
  intros bl dcl j Hj e c We.
  apply (infer_walks db (look dcl) (parameter_of bodies) (entered owner (new_scopes b) (owner_resolver maps this) bl)
    (entered_means owner (new_scopes b) maps this (root_decls b) bl dcl j So Hj) (knows_parameter db bodies K) e None).
  - eapply well_imp; [|exact We]. contradiction.
  - intros f. discriminate.
Qed.

(** Every named argument in a call of a function by name, or of a method of an enum struct,
    is bound to the parameter of that name of the function called, or reported when it has
    none; nothing else is bound or reported. *)
Theorem C63_exact_partial : forall db bodies owner maps this b s, knows db bodies -> body_stmt b = Some s -> NoDup (stmt_ids s) ->
  let look := meaning owner (root_decls b) (resolve_ident (owner_resolver maps this)) in
  (forall d e, In (d, e) (places [] s) -> well db (look d) False e) ->
  forall a, named (infer_query db owner (owner_resolver maps this) b) a <->
    exists d e w, In (d, e) (places [] s) /\ within w e /\ argument db (look d) (parameter_of bodies) w a.
Proof.
  intros db bodies owner maps this b s K E N look W a. pose proof (body_names db bodies owner maps this b s K E N W) as B. cbv zeta in B. fold look in B.
  set (res0 := infer_query db owner (owner_resolver maps this) b) in *. set (l := flat_map _ (places [] s)) in B.
  destruct (add_in l ([], [])) as [P1 P2]. rewrite <- B in P1, P2. cbn [fst snd] in *.
  assert (Q : named res0 a <-> In a l).
  { destruct a as [i f x|i n f]; cbn [named].
    - rewrite P2. simpl. tauto.
    - specialize (P1 (UnresolvedNamedArg i n f)). rewrite filter_In in P1. cbn [is_naming] in P1. split.
      + intros I. destruct (proj1 P1 (conj I eq_refl)) as [[]|(i' & n' & f' & J & Z)]. injection Z as -> -> ->. exact J.
      + intros I. apply (proj2 P1). right. exists i, n, f. auto. }
  rewrite Q. unfold l. rewrite in_flat_map. split.
  - intros ((d & e) & I & H). cbn [fst snd] in H. apply (evn_argument _ _ _ e a False (W d e I)) in H. destruct H as (w & Wi & A). eauto 6.
  - intros (d & e & w & I & Wi & A). exists (d, e). split; [exact I|]. cbn [fst snd]. apply (evn_argument _ _ _ e a False (W d e I)). eauto.
Qed.
Print Assumptions C63_exact_partial.

(** * Where it leads *)
Theorem C63_link_partial : forall f bodies this s, knows (f_db f) bodies -> body_stmt (f_body f) = Some s -> NoDup (stmt_ids s) ->
  f_base f = owner_resolver (f_maps f) this ->
  let look := meaning (f_owner f) (root_decls (f_body f)) (resolve_ident (f_base f)) in
  (forall d e, In (d, e) (places [] s) -> well (f_db f) (look d) False e) ->
  NoDup (flat_map (fun x => name_ids (snd x)) (places [] s)) ->
  forall text point i,
  (* the name of an argument leads to the parameter *)
  (forall d e w g x, In (d, e) (places [] s) -> within w e -> argument (f_db f) (look d) (parameter_of bodies) w (Names i g x) ->
     function_node_to_def f true PNamedArg text point (Some i) = Some (FLocal g x)) /\
  (* its value is a name like others *)
  (~ In i (flat_map (fun x => name_ids (snd x)) (places [] s)) ->
     function_node_to_def f true PNamedArg text point (Some i) = function_node_to_def f true POther text point (Some i)) /\
  (function_node_to_def f true PNamedArg text point None = function_node_to_def f true POther text point None).
Proof.
  intros f bodies this s K E N B look W D text point i.
  unfold look in *. rewrite B in *. pose proof (body_names (f_db f) bodies (f_owner f) (f_maps f) this (f_body f) s K E N W) as R. cbv zeta in R.
  set (res0 := infer_query (f_db f) (f_owner f) (owner_resolver (f_maps f) this) (f_body f)) in *. set (l := flat_map _ (places [] s)) in R.
  assert (O : once l (flat_map (fun x => name_ids (snd x)) (places [] s))) by (apply once_flat; intros x _; apply evn_once).
  assert (KN : NoDup (map fst (named_args res0))).
  { change (named_args res0) with (snd (filter is_naming (diagnostics res0), named_args res0)). rewrite R.
    apply add_keys; [now apply (proj2 O)|constructor|intros j _ []]. }
  split; [|split].
  - intros d e w g x I Wi A. unfold function_node_to_def. cbn [negb]. rewrite B. fold res0.
    assert (J : In (i, (g, x)) (named_args res0)).
    { change (named (res0) (Names i g x)). apply (C63_exact_partial (f_db f) bodies (f_owner f) (f_maps f) this (f_body f) s K E N W). eauto 6. }
    now rewrite (OffsetProps.by_id_unique i (g, x) _ KN J).
  - intros NI. unfold function_node_to_def. cbn [negb]. rewrite B. fold res0.
    destruct (by_id i (named_args res0)) as [[g x]|] eqn:Q; [|reflexivity]. exfalso. apply NI, (proj1 O).
    apply OffsetProofs.by_id_in in Q. destruct (add_in l ([], [])) as [_ P2]. rewrite <- R in P2. cbn [snd] in P2. apply P2 in Q. destruct Q as [[]|Q].
    apply in_map_iff. exists (Names i g x). auto.
  - reflexivity.
Qed.
Print Assumptions C63_link_partial.

(** * What goes wrong *)
(** void f(int x); enum struct S { void m(int x); }; methodmap M with a method k(int x);
    variables s : S, t : M and y in the file. *)
Definition arg_bodies (f : nat) : body := Body [("x", 7)] None.
Definition arg_db : database := Database
  (fun f => FunctionData (match f with 0 => "f" | 1 => "m" | _ => "k" end) None [Param false false])
  (fun g => match g with 0 => Some (TName "S") | 1 => Some (TName "M") | _ => Some TInt end)
  (fun d => match d with (DEnumStruct, _) => Some "S" | (DMethodmap, _) => Some "M" | _ => None end)
  (fun _ n => if String.eqb n "m" then Some (IStructMethod 1) else None)
  (fun _ n => if String.eqb n "k" then Some (IMapMethod 2) else None)
  (fun _ => None) (fun _ => [SGlobal []]) (fun f => new_scopes (arg_bodies f)) (fun _ => None).
Definition arg_maps : list def_map := [DefMap 0 [("f", [(DFunction, 0)]); ("S", [(DEnumStruct, 0)]); ("M", [(DMethodmap, 0)]);
  ("s", [(DGlobal, 0)]); ("t", [(DGlobal, 1)]); ("y", [(DGlobal, 2)])]].
Definition arg_fn (l : list stmt) (source : nat -> option span) : fn_input :=
  FnInput 9 arg_maps (owner_resolver arg_maps None) (Body [] (Some (SBlock 0 l))) source arg_db.
Lemma arg_knows : knows arg_db arg_bodies.
Proof. intros f. split; [reflexivity|]. split; [discriminate|]. exists [], None. reflexivity. Qed.

(** [f(.y = 1)]: [f] has no parameter [y]; this is reported, and the name leads to the variable [y]. *)
Theorem C63_unknown_refuted : exists e f,
  e = Call 1 (Ident 2 "f") [NamedArg 3 (Ident 4 "y") (Literal 5 TInt)] /\ f = arg_fn [SExpr e] (fun _ => None) /\
  argument arg_db (resolve_ident (f_base f)) (parameter_of arg_bodies) e (NoSuch 4 "y" "f") /\
  diagnostics (infer_query arg_db 9 (f_base f) (f_body f)) = [UnresolvedNamedArg 4 "y" "f"] /\
  function_node_to_def f true PNamedArg "y" 10 (Some 4) = Some (FItem (DGlobal, 2)).
Proof.
  eexists _, _. split; [reflexivity|]. split; [reflexivity|]. split.
  - refine (argument_unknown arg_db _ (parameter_of arg_bodies) _ _ 0 3 4 "y" (Literal 5 TInt) _ _ _); [eapply callee_name; reflexivity|left; reflexivity|reflexivity].
  - split; vm_compute; reflexivity.
Qed.
Print Assumptions C63_unknown_refuted.

(** [t.k(.x = 1)] for a methodmap's method [k]: the name leads nowhere, and an unknown one is not
    reported. *)
Theorem C63_methodmap_refuted :
  let call n := MethodCall 1 (Ident 2 "t") "k" [NamedArg 3 (Ident 4 n) (Literal 5 TInt)] in
  let f n := arg_fn [SExpr (call n)] (fun _ => None) in
  parameter_of arg_bodies 2 "x" = Some 7 /\
  methods (infer_query arg_db 9 (f_base (f "x")) (f_body (f "x"))) = [(1, 2)] /\
  function_node_to_def (f "x") true PNamedArg "x" 10 (Some 4) = None /\
  diagnostics (infer_query arg_db 9 (f_base (f "z")) (f_body (f "z"))) = [].
Proof. cbv zeta. repeat split; vm_compute; reflexivity. Qed.
Print Assumptions C63_methodmap_refuted.

(** * A concrete case *)
(** [f(.x = y); s.m(.x = f(.z = 1))]: the arguments [x] are the parameters of [f] and [m], there is no
    [z] in [f]; the [y] behind the sign leads to the variable. *)
Example C63_nontrivial :
  let e1 := Call 1 (Ident 2 "f") [NamedArg 3 (Ident 4 "x") (Ident 5 "y")] in
  let e2 := MethodCall 11 (Ident 12 "s") "m" [NamedArg 13 (Ident 14 "x") (Call 15 (Ident 16 "f") [NamedArg 17 (Ident 18 "z") (Literal 19 TInt)])] in
  let f := arg_fn [SExpr e1; SExpr e2] (fun _ => None) in
  let look := meaning 9 [] (resolve_ident (f_base f)) in
  (forall d e, In (d, e) (places [] (SBlock 0 [SExpr e1; SExpr e2])) -> well arg_db (look d) False e) /\
  NoDup (flat_map (fun x => name_ids (snd x)) (places [] (SBlock 0 [SExpr e1; SExpr e2]))) /\
  named_args (infer_query arg_db 9 (f_base f) (f_body f)) = [(14, (1, 7)); (4, (0, 7))] /\
  diagnostics (infer_query arg_db 9 (f_base f) (f_body f)) = [UnresolvedNamedArg 18 "z" "f"] /\
  function_node_to_def f true PNamedArg "x" 5 (Some 14) = Some (FLocal 1 7) /\
  function_node_to_def f true PNamedArg "y" 9 (Some 5) = Some (FItem (DGlobal, 2)).
Proof.
  cbv zeta. split; [|split; [repeat constructor; simpl; intuition discriminate|repeat split; vm_compute; reflexivity]].
  intros d e I. simpl in I. destruct I as [I|[I|[]]]; injection I as <- <-; cbn [well fold_right].
  - split; [exact I|]. split; [|exact I]. split; [exists 0; eapply callee_name; vm_compute; reflexivity|]. split; [eauto|exact I].
  - split; [exact I|]. split; [|exact I]. split.
    + exists 1. eapply (callee_method _ _ _ _ _ _ "S" 0); [|reflexivity| |reflexivity|reflexivity].
      * split; [reflexivity|]. intros w W. inversion W as [|? p ? P _]; subst; [|destruct P].
        split; [reflexivity|]. split; [reflexivity|]. split; [reflexivity|]. intros; discriminate.
      * eapply typed_global; reflexivity.
    + split; [eauto|]. split; [exact I|]. split; [|exact I]. split; [exists 0; eapply callee_name; vm_compute; reflexivity|]. split; [eauto|exact I].
Qed.
