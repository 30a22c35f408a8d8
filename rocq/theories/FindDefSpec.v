(** What a place in the text should mean. *)
From Coq Require Import List String Bool Arith.
From Verif Require Import AstIdModel AstIdSpec TypeRefModel ItemTreeModel ItemTreeSpec FindDefModel.
Import ListNotations.
Local Open Scope string_scope.
Local Open Scope nat_scope.
Local Open Scope list_scope.

(** [s] is a place in the tree. *)
Inductive reach : syn -> list (syn * nat) -> spot -> Prop :=
| reach_here : forall n up, reach n up (Spot n up)
| reach_kid : forall n up i f c s, nth_error (s_kids n) i = Some (f, c) -> reach c ((n, i) :: up) s -> reach n up s.
Definition spot_in (root : syn) (s : spot) : Prop := reach root [] s.

(** The node is not empty, and no other node of its kind has its range. *)
Definition alone (root n : syn) : Prop :=
  start_of (plain n) < stop_of (plain n) /\ forall a, under root a -> place_of a = place_of n -> a = n.

(** Nodes that stand in the way between a node and the file: something declared in them is not declared in the file. *)
Definition owners : list nat :=
  function_kinds ++ [k_enum_struct; k_methodmap; k_typedef; k_typeset; k_typedef_expression; k_functag; k_funcenum_member; k_funcenum].
Definition at_file_level (root : syn) (s : spot) : Prop :=
  s_kind root = source_file /\
  exists between i, sp_up s = between ++ [(root, i)] /\ forall a j, In (a, j) between -> ~ In (s_kind a) (source_file :: owners).
(** A variable of the file stands in a declaration of the file. *)
Definition global_if_variable (s : spot) : Prop :=
  In (s_kind (sp_node s)) [k_variable_declaration; k_old_variable_declaration] ->
  exists a j r, sp_up s = (a, j) :: r /\ In (s_kind a) [k_global_variable_declaration; k_old_global_variable_declaration].

(** Of a declaration: its place, its name, its sort. *)
Definition view_at (v : view) : ptr :=
  match v with
  | VFunction f => fv_at f | VVariable _ _ _ _ _ p => p | VMacro _ p => p | VEnumStruct _ _ p => p | VMethodmap _ _ _ p => p
  | VEnum _ _ p => p | VVariant w => vv_at w | VTypedef d => tv_at d | VTypeset _ _ p => p | VFunctag g => gv_at g | VFuncenum _ _ p => p
  end.
Definition view_name (v : view) : option string :=
  match v with
  | VFunction f => Some (fv_name f) | VVariable n _ _ _ _ _ => Some n | VMacro n _ => Some n | VEnumStruct n _ _ => Some n
  | VMethodmap n _ _ _ => Some n | VEnum n _ _ => Some n | VVariant w => Some (vv_name w) | VTypedef d => tv_name d
  | VTypeset n _ _ => Some n | VFunctag g => gv_name g | VFuncenum n _ _ => Some n
  end.
Definition view_key (v : view) : key :=
  match v with
  | VFunction _ => KFunction | VVariable _ _ _ _ _ _ => KGlobal | VMacro _ _ => KMacro | VEnumStruct _ _ _ => KEnumStruct
  | VMethodmap _ _ _ _ => KMethodmap | VEnum _ _ _ => KEnum | VVariant _ => KVariant | VTypedef _ => KTypedef
  | VTypeset _ _ _ => KTypeset | VFunctag _ => KFunctag | VFuncenum _ _ _ => KFuncenum
  end.

(** The item [x] of the file is the declaration that stands at [n] and has the name [nm]. *)
Definition is_declaration (root : syn) (t : itree) (x : file_item) (n : syn) (nm : string) : Prop :=
  In x (top t) /\ exists v, In v (outline root) /\ view_item root t x = Some v /\ view_at v = place_of n /\ view_name v = Some nm.

(** The items of the file that have the name, in the order of the file. *)
Definition named_item (t : itree) (nm : string) (x : file_item) : bool :=
  match item_name t x with Some (Some n) => String.eqb n nm | _ => false end.

(** The nearest owner of a place: the place, and the first of its ancestors that is an owner or the file. *)
Fixpoint nearest (kinds : list nat) (ups : list (syn * nat)) : option spot :=
  match ups with
  | [] => None
  | (c, _) :: r => if existsb (Nat.eqb (s_kind c)) kinds then Some (Spot c r) else nearest kinds r
  end.

(** The number [j] stands for the member at [e] of the typeset (or the funcenum) at [c], whose number is [i]. *)
Definition is_typeset_member (root : syn) (t : itree) (i j : nat) (c e : syn) : Prop :=
  (exists nm, is_declaration root t (FTypeset i) c nm) /\
  (exists s, nth_error (typesets t) i = Some s /\ In j (indices (ts_typedefs s))) /\
  exists v, at_index (typedefs t) (view_typedef root t) j = Some v /\ tv_at v = place_of e.
Definition is_funcenum_member (root : syn) (t : itree) (i j : nat) (c e : syn) : Prop :=
  (exists nm, is_declaration root t (FFuncenum i) c nm) /\
  (exists s, nth_error (funcenums t) i = Some s /\ In j (indices (fe_functags s))) /\
  exists v, at_index (functags t) (view_functag root t) j = Some v /\ gv_at v = place_of e.

(** The declaration a parameter or a local variable belongs to: a function of the file, a functag, a typedef, or a
    member of a typeset or a funcenum. *)
Inductive owner := Whole (c : syn) | TypesetMember (c e : syn) | FuncenumMember (c e : syn).
Inductive owned (root : syn) (s : spot) : owner -> Prop :=
| owned_plain : forall c v nm,
    nearest (source_file :: owners) (sp_up s) = Some c ->
    In (s_kind (sp_node c)) [k_function_definition; k_function_declaration; k_functag] ->
    alone root (sp_node c) -> at_file_level root c -> name_of (sp_node c) = Some nm ->
    In v (outline root) -> view_at v = place_of (sp_node c) -> owned root s (Whole (sp_node c))
| owned_typedef : forall e c v nm,
    nearest (source_file :: owners) (sp_up s) = Some e -> s_kind (sp_node e) = k_typedef_expression ->
    parent e = Some c -> s_kind (sp_node c) = k_typedef ->
    alone root (sp_node c) -> at_file_level root c -> name_of (sp_node c) = Some nm ->
    In v (outline root) -> view_at v = place_of (sp_node c) -> owned root s (Whole (sp_node c))
| owned_typeset : forall e c nm ds d,
    nearest (source_file :: owners) (sp_up s) = Some e -> s_kind (sp_node e) = k_typedef_expression ->
    parent e = Some c -> s_kind (sp_node c) = k_typeset ->
    alone root (sp_node e) -> alone root (sp_node c) -> at_file_level root c ->
    In (VTypeset nm ds (place_of (sp_node c))) (outline root) -> In d ds -> tv_at d = place_of (sp_node e) ->
    owned root s (TypesetMember (sp_node c) (sp_node e))
| owned_funcenum : forall e c nm gs g,
    nearest (source_file :: owners) (sp_up s) = Some e -> s_kind (sp_node e) = k_funcenum_member ->
    parent e = Some c -> s_kind (sp_node c) = k_funcenum ->
    alone root (sp_node e) -> alone root (sp_node c) -> at_file_level root c ->
    In (VFuncenum nm gs (place_of (sp_node c))) (outline root) -> In g gs -> gv_at g = place_of (sp_node e) ->
    owned root s (FuncenumMember (sp_node c) (sp_node e)).
Definition stands_for (root : syn) (t : itree) (d : def) (o : owner) : Prop :=
  match o, d with
  | Whole c, Top x => exists nm, name_of c = Some nm /\ is_declaration root t x c nm
  | TypesetMember c e, InTypeset i j => is_typeset_member root t i j c e
  | FuncenumMember c e, InFuncenum i j => is_funcenum_member root t i j c e
  | _, _ => False
  end.
(** The name of a parameter, or of a variable declared in a body. *)
Definition local_declaration (p : spot) : Prop :=
  s_kind (sp_node p) = k_parameter_declaration \/
  (In (s_kind (sp_node p)) [k_variable_declaration; k_old_variable_declaration] /\
   exists a j r, sp_up p = (a, j) :: r /\ In (s_kind a) [153; 161]).

(** The first declaration of the file that has the name. *)
Definition first_named (root : syn) (nm : string) : option view :=
  find (fun v => match view_name v with Some n => String.eqb n nm | None => false end) (outline root).
(** The function, method, accessor, enum or typedef around a place. *)
Definition around : list nat :=
  [144; 168; 163; 177; 178; 179; 180; 181; 182; 187; 188; 185; 186; 169].
