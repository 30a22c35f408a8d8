(** From a place in the text to the definition it means: the definitions of a file
    (crates/hir-def/src/db.rs:225-440 [DefMap]), the tables from nodes to definitions
    (crates/hir-def/src/child_by_source.rs, crates/hir/src/source_to_def.rs) and the questions asked about a node
    (crates/hir/src/semantics.rs:66-504).

    Interning a location gives an id and looking the id up gives the location back, so an id is its location. The
    caches (source_to_def.rs:88-93) only keep what is computed again here. *)
From Coq Require Import List String Bool Arith.
From Verif Require Import AstIdModel TypeRefModel ItemTreeModel.
Import ListNotations.
Local Open Scope string_scope.
Local Open Scope nat_scope.
Local Open Scope list_scope.

(** A Rust function that returns an option: a value, nothing, or a panic. *)
Inductive res (A : Type) := Val (a : A) | Nothing | Panic.
Arguments Val {A} a. Arguments Nothing {A}. Arguments Panic {A}.
Definition bind {A B} (r : res A) (f : A -> res B) : res B :=
  match r with Val a => f a | Nothing => Nothing | Panic => Panic end.
Notation "'try' x := a 'in' b" := (bind a (fun x => b)) (at level 200, x pattern, b at level 200).
Definition ask {A} (o : option A) : res A := match o with Some a => Val a | None => Nothing end.
Definition must {A} (o : option A) : res A := match o with Some a => Val a | None => Panic end.

(** ** The definitions of a file *)
(** db.rs:242-379: the name under which an item is declared. *)
Definition item_name (t : itree) (x : file_item) : option (option string) :=
  match x with
  | FFunction i => option_map (fun f => Some (fn_name f)) (nth_error (functions t) i)
  | FVariable i => option_map (fun f => Some (var_name f)) (nth_error (variables t) i)
  | FMacro i => option_map (fun f => Some (mac_name f)) (nth_error (macros t) i)
  | FEnumStruct i => option_map (fun f => Some (es_name f)) (nth_error (enum_structs t) i)
  | FMethodmap i => option_map (fun f => Some (mm_name f)) (nth_error (methodmaps t) i)
  | FEnum i => option_map (fun f => Some (en_name f)) (nth_error (enums t) i)
  | FVariant i => option_map (fun f => Some (va_name f)) (nth_error (variants t) i)
  | FTypedef i => option_map td_name (nth_error (typedefs t) i)
  | FTypeset i => option_map (fun f => Some (ts_name f)) (nth_error (typesets t) i)
  | FFunctag i => option_map ft_name (nth_error (functags t) i)
  | FFuncenum i => option_map (fun f => Some (fe_name f)) (nth_error (funcenums t) i)
  end.
(** db.rs:214-223 [DefMap]; the hash map of names is an association list, that of macros has the keys 0, 1, ... *)
Record def_map := DefMap { dm_values : list (string * list file_item); dm_macros : list file_item; dm_decls : list file_item }.
Definition is_fmacro (x : file_item) : bool := match x with FMacro _ => true | _ => false end.
(** db.rs:428-431 [declare] *)
Fixpoint enter (nm : string) (x : file_item) (vs : list (string * list file_item)) : list (string * list file_item) :=
  match vs with
  | [] => [(nm, [x])]
  | (n, l) :: r => if String.eqb n nm then (n, l ++ [x]) :: r else (n, l) :: enter nm x r
  end.
Definition declare (m : def_map) (nm : string) (x : file_item) : def_map :=
  DefMap (enter nm x (dm_values m)) (dm_macros m) (dm_decls m ++ [x]).
(** db.rs:240-388 [file_def_map_query] *)
Definition declare_item (t : itree) (m : def_map) (x : file_item) : option def_map :=
  let* nm := item_name t x in
  let m1 := match nm with Some nm => declare m nm x | None => m end in
  Some (if is_fmacro x then DefMap (dm_values m1) (dm_macros m1 ++ [x]) (dm_decls m1) else m1).
Definition file_def_map (t : itree) : option def_map := each (declare_item t) (top t) (DefMap [] [] []).
(** db.rs:390-406 [get], [get_first_from_str], [get_macro] *)
Fixpoint get (nm : string) (vs : list (string * list file_item)) : option (list file_item) :=
  match vs with [] => None | (n, l) :: r => if String.eqb n nm then Some l else get nm r end.
Definition get_first (m : def_map) (nm : string) : option file_item :=
  match get nm (dm_values m) with Some (x :: _) => Some x | _ => None end.
Definition get_macro (m : def_map) (i : nat) : option file_item := nth_error (dm_macros m) i.

(** ** Tables from nodes to definitions *)
Inductive key := KFunction | KMacro | KGlobal | KEnumStruct | KMethodmap | KEnum | KVariant | KTypedef | KTypeset
| KFunctag | KFuncenum | KField | KProperty.
Definition key_eqb (a b : key) : bool :=
  match a, b with
  | KFunction, KFunction | KMacro, KMacro | KGlobal, KGlobal | KEnumStruct, KEnumStruct | KMethodmap, KMethodmap
  | KEnum, KEnum | KVariant, KVariant | KTypedef, KTypedef | KTypeset, KTypeset | KFunctag, KFunctag
  | KFuncenum, KFuncenum | KField, KField | KProperty, KProperty => true
  | _, _ => false
  end.
Definition key_of (x : file_item) : key :=
  match x with
  | FFunction _ => KFunction | FVariable _ => KGlobal | FMacro _ => KMacro | FEnumStruct _ => KEnumStruct
  | FMethodmap _ => KMethodmap | FEnum _ => KEnum | FVariant _ => KVariant | FTypedef _ => KTypedef
  | FTypeset _ => KTypeset | FFunctag _ => KFunctag | FFuncenum _ => KFuncenum
  end.
(** [FileDefId]s and the ids with another container. *)
Inductive def := Top (x : file_item) | InTypeset (ts i : nat) | InFuncenum (fe i : nat) | InEnumStruct (es i : nat) | InMethodmap (mm i : nat).
Definition item_ast (t : itree) (x : file_item) : option nat :=
  match x with
  | FFunction i => option_map fn_ast (nth_error (functions t) i)
  | FVariable i => option_map var_ast (nth_error (variables t) i)
  | FMacro i => option_map mac_ast (nth_error (macros t) i)
  | FEnumStruct i => option_map es_ast (nth_error (enum_structs t) i)
  | FMethodmap i => option_map mm_ast (nth_error (methodmaps t) i)
  | FEnum i => option_map en_ast (nth_error (enums t) i)
  | FVariant i => option_map va_ast (nth_error (variants t) i)
  | FTypedef i => option_map td_ast (nth_error (typedefs t) i)
  | FTypeset i => option_map ts_ast (nth_error (typesets t) i)
  | FFunctag i => option_map ft_ast (nth_error (functags t) i)
  | FFuncenum i => option_map fe_ast (nth_error (funcenums t) i)
  end.
Definition row := (key * ptr * def)%type.
(** A later insertion replaces an earlier one. *)
Fixpoint find_row (k : key) (p : ptr) (rows : list row) : option def :=
  match rows with
  | [] => None
  | (k', p', d) :: r =>
      match find_row k p r with
      | Some d' => Some d'
      | None => if key_eqb k' k && ptr_eqb p' p then Some d else None
      end
  end.

(** A node and the way down to it: its ancestors, nearest first, each with the number of the child. *)
Record spot := Spot { sp_node : syn; sp_up : list (syn * nat) }.
Definition parent (s : spot) : option spot := match sp_up s with [] => None | (n, _) :: r => Some (Spot n r) end.
(** [NodePtr::from], [NodePtr::to_node] (ast_id_map.rs:32-65) with the way *)
Definition pointer (n : syn) : ptr := ptr_of (plain n).
Fixpoint locate (p : ptr) (n : syn) (up : list (syn * nat)) {struct n} : option spot :=
  if ptr_eqb (pointer n) p then Some (Spot n up)
  else
    match n with
    | Syn _ _ _ _ cs =>
        (fix first (i : nat) (l : list (string * syn)) : option spot :=
           match l with
           | [] => None
           | (_, c) :: r => if covers p (plain c) then locate p c ((n, i) :: up) else first (S i) r
           end) 0 cs
    end.

(** source_to_def.rs:187-197 [ChildContainer] *)
Inductive container := CFile | CBody (d : def) | CEnumStruct (d : def) | CMethodmap (d : def) | CTypeset (d : def) | CFuncenum (d : def).

Definition function_kinds : list nat :=
  [k_function_definition; k_function_declaration; k_enum_struct_method; k_methodmap_native; k_methodmap_native_constructor;
   k_methodmap_native_destructor; k_methodmap_method; k_methodmap_method_constructor; k_methodmap_method_destructor;
   k_methodmap_property_native; k_methodmap_property_method].
Definition one_of (k : nat) (l : list nat) : bool := existsb (Nat.eqb k) l.

Inductive resolution := RDef (d : def) | RLocal (owner : def) (e : nat) | RFile (f : nat).

Section file.
Variable root : syn.
Variable t : itree.
Variable m : def_map.
(** The tables of enum structs and methodmaps (child_by_source.rs:86-150; C46, C47). *)
Variable es_table mm_table : def -> key -> ptr -> res def.
(** [BodySourceMap::node_ptr_expr] of the body of a definition *)
Variable node_ptr_expr : def -> ptr -> option nat.

(** child_by_source.rs:21-84 *)
Definition file_row (x : file_item) : option row :=
  let* a := item_ast t x in let* p := get_raw (plain root) a in Some (key_of x, p, Top x).
(** child_by_source.rs:152-164, data.rs:325-347 *)
Definition typeset_row (ts i : nat) : option row :=
  let* d := nth_error (typedefs t) i in let* p := get_raw (plain root) (td_ast d) in Some (KTypedef, p, InTypeset ts i).
(** child_by_source.rs:166-178, data.rs:385-407 *)
Definition funcenum_row (fe i : nat) : option row :=
  let* d := nth_error (functags t) i in let* p := get_raw (plain root) (ft_ast d) in Some (KFunctag, p, InFuncenum fe i).
(** source_to_def.rs:211-223 [ChildContainer::child_by_source], and the question put to the table *)
Definition look_up (c : container) (k : key) (p : ptr) : res def :=
  match c with
  | CFile => try rows := must (all file_row (dm_decls m)) in ask (find_row k p rows)
  | CTypeset (Top (FTypeset i)) =>
      try s := must (nth_error (typesets t) i) in
      try rows := must (all (typeset_row i) (indices (ts_typedefs s))) in ask (find_row k p rows)
  | CFuncenum (Top (FFuncenum i)) =>
      try s := must (nth_error (funcenums t) i) in
      try rows := must (all (funcenum_row i) (indices (fe_functags s))) in ask (find_row k p rows)
  | CEnumStruct d => es_table d k p
  | CMethodmap d => mm_table d k p
  | CBody _ => Panic
  | _ => Panic
  end.

(** source_to_def.rs:95-182 [find_container], given [to_def] (lines 75-86) for the containers further up *)
Fixpoint walk (to_def : key -> ptr -> res def) (ups : list (syn * nat)) : res container :=
  match ups with
  | [] => Nothing
  | (c, _) :: r =>
      let k := s_kind c in
      if k =? source_file then Val CFile
      else if one_of k function_kinds then try d := to_def KFunction (pointer c) in Val (CBody d)
      else if k =? k_enum_struct then try d := to_def KEnumStruct (pointer c) in Val (CEnumStruct d)
      else if k =? k_methodmap then try d := to_def KMethodmap (pointer c) in Val (CMethodmap d)
      else if k =? k_typedef then try d := to_def KTypedef (pointer c) in Val (CBody d)
      else if k =? k_typeset then try d := to_def KTypeset (pointer c) in Val (CTypeset d)
      else if k =? k_typedef_expression then
        match r with
        | [] => Nothing
        | (c2, _) :: _ =>
            if s_kind c2 =? k_typedef then walk to_def r
            else if s_kind c2 =? k_typeset then try d := to_def KTypedef (pointer c) in Val (CBody d)
            else Nothing
        end
      else if (k =? k_functag) || (k =? k_funcenum_member) then try d := to_def KFunctag (pointer c) in Val (CBody d)
      else if k =? k_funcenum then try d := to_def KFuncenum (pointer c) in Val (CFuncenum d)
      else walk to_def r
  end.
(** The containers are nested as deep as the tree at most; a number of levels is given, and running out of it is a panic. *)
Fixpoint find_container (fuel : nat) (p : ptr) : res container :=
  match fuel with
  | 0 => Panic
  | S f =>
      try s := must (locate p root []) in
      walk (fun k q => try c := find_container f q in look_up c k q) (sp_up s)
  end.
Definition to_def (fuel : nat) (k : key) (p : ptr) : res def := try c := find_container fuel p in look_up c k p.
(** source_to_def.rs:64-73 [local_to_def] *)
Definition local_to_def (fuel : nat) (p : ptr) : res resolution :=
  try c := find_container fuel p in
  match c with
  | CBody d => try e := ask (node_ptr_expr d p) in Val (RLocal d e)
  | _ => Panic
  end.

(** base-db/src/lib.rs:47-52 [is_name_node]: the first child in the field is this very node. *)
Fixpoint field_index (f : string) (i : nat) (l : list (string * syn)) : option nat :=
  match l with [] => None | (g, _) :: r => if String.eqb g f then Some i else field_index f (S i) r end.
Definition is_name_node (s : spot) : bool :=
  match sp_up s with
  | [] => false
  | (n, i) :: _ => match field_index "name" 0 (s_kids n) with Some j => i =? j | None => false end
  end.

(** semantics.rs:66-163 [find_name_def] *)
Definition find_name_def (fuel : nat) (s : spot) : res resolution :=
  if negb (is_name_node s) then Nothing
  else
    try p0 := ask (parent s) in
    try p := (if one_of (s_kind (sp_node p0)) [k_methodmap_property_setter; k_methodmap_property_getter]
              then ask (parent p0) else Val p0) in
    let src := pointer (sp_node p) in
    let k := s_kind (sp_node p) in
    let def_of key := try d := to_def fuel key src in Val (RDef d) in
    if one_of k function_kinds then def_of KFunction
    else if k =? k_enum_struct then def_of KEnumStruct
    else if k =? k_enum_struct_field then def_of KField
    else if k =? k_parameter_declaration then local_to_def fuel src
    else if one_of k [k_variable_declaration; k_old_variable_declaration] then
      try g := ask (parent p) in
      let gk := s_kind (sp_node g) in
      if one_of gk [k_global_variable_declaration; k_old_global_variable_declaration] then def_of KGlobal
      else if one_of gk [153; 161] then local_to_def fuel src
      else Panic
    else if one_of k [k_preproc_macro; k_preproc_define] then def_of KMacro
    else if k =? k_enum then def_of KEnum
    else if k =? k_enum_entry then def_of KVariant
    else if k =? k_methodmap then def_of KMethodmap
    else if k =? k_methodmap_property then def_of KProperty
    else if k =? k_typedef then def_of KTypedef
    else if k =? k_typeset then def_of KTypeset
    else if k =? k_functag then def_of KFunctag
    else if k =? k_funcenum then def_of KFuncenum
    else Panic.

(** ** References *)
(** [Resolver::resolve_ident] of the file (resolver.rs; C29): what the name means and in which file. *)
Inductive value := WFunctions (l : list (nat * def)) | WLocal (owner : def) (e : nat) | WOther (file : nat) (k : key) (d : def).
Variable file_id : nat.
Variable global_ident : string -> option value.
(** [function_node_to_def_] (semantics.rs:362-434): the name [s] in the body of the function [d], whose node is [c]. *)
Variable in_function : def -> spot -> spot -> res resolution.
(** [new_no_body_no_infer] of a function type and [DefResolution::try_from] (semantics.rs:461-504) *)
Variable in_signature : def -> string -> res resolution.
(** [resolve_include_node] *)
Variable include_node : spot -> res resolution.
(** The members of an enum struct or methodmap by name (data.rs [items], [method], [property]). *)
Variable method_named : def -> string -> option def.
Variable accessor_named : def -> string -> bool -> option def.

Definition stop_kinds : list nat :=
  [k_function_definition; k_enum_struct_method; k_enum; k_methodmap_native; k_methodmap_native_constructor;
   k_methodmap_native_destructor; k_methodmap_method; k_methodmap_method_constructor; k_methodmap_method_destructor;
   k_methodmap_property_getter; k_methodmap_property_setter; k_methodmap_property_native; k_methodmap_property_method; k_typedef].
(** semantics.rs:189-211: up to the first of these or the root *)
Fixpoint climb (n : syn) (ups : list (syn * nat)) : spot :=
  if one_of (s_kind n) stop_kinds then Spot n ups
  else match ups with [] => Spot n [] | (c, _) :: r => climb c r end.

(** semantics.rs:241-267 [source_node_to_def] *)
Definition source_node_to_def (s : spot) : res resolution :=
  try v := ask (global_ident (s_text (sp_node s))) in
  match v with
  | WFunctions l => match find (fun x => fst x =? file_id) l with Some (_, d) => Val (RDef d) | None => Nothing end
  | WOther _ k d => if existsb (key_eqb k) [KMacro; KGlobal; KEnumStruct; KMethodmap; KEnum; KVariant] then Val (RDef d) else Nothing
  | WLocal _ _ => Nothing
  end.
Definition name_in (n : syn) : res string := ask (name_of n).
(** semantics.rs:436-459 [function_node_to_def] *)
Definition function_node_to_def (c s : spot) : res resolution :=
  try nm := name_in (sp_node c) in
  try body := ask (child_by_field_name "body" (sp_node c)) in
  if s_kind body =? 201 then
    try x := ask (get_first m nm) in
    match x with FFunction _ => in_function (Top x) c s | _ => Panic end
  else Panic.
(** semantics.rs:330-360 [method_node_to_def] *)
Definition method_node_to_def (c s : spot) : res resolution :=
  try nm := name_in (sp_node c) in
  try o := ask (parent c) in
  try onm := name_in (sp_node o) in
  try x := ask (get_first m onm) in
  match x with
  | FEnumStruct _ | FMethodmap _ => try d := ask (method_named (Top x) nm) in in_function d c s
  | _ => Nothing
  end.
(** semantics.rs:280-328 [property_method_node_to_def] *)
Definition property_method_node_to_def (c s : spot) : res resolution :=
  try pr := ask (parent c) in
  try mm := ask (parent pr) in
  try getter := ask (find (fun n => has_kind k_methodmap_property_getter n || has_kind k_methodmap_property_setter n) (children (sp_node c))) in
  try pnm := name_in (sp_node pr) in
  try mnm := name_in (sp_node mm) in
  try body := ask (child_by_field_name "body" (sp_node c)) in
  if s_kind body =? 201 then
    try x := ask (get_first m mnm) in
    match x with
    | FMethodmap _ => try d := ask (accessor_named (Top x) pnm (has_kind k_methodmap_property_getter getter)) in in_function d c s
    | _ => Nothing
    end
  else Panic.
(** semantics.rs:461-482 [typedef_node_to_def] *)
Definition typedef_node_to_def (c s : spot) : res resolution :=
  try nm := name_in (sp_node c) in
  try x := ask (get_first m nm) in
  match x with FTypedef _ => in_signature (Top x) (s_text (sp_node s)) | _ => Nothing end.

(** semantics.rs:182-239 [find_def] *)
Definition find_def (fuel : nat) (s : spot) : res resolution :=
  match find_name_def fuel s with
  | Val r => Val r
  | Panic => Panic
  | Nothing =>
      try p := ask (parent s) in
      let c := climb (sp_node p) (sp_up p) in
      let k := s_kind (sp_node c) in
      if one_of (s_kind (sp_node p)) [131; 132] then include_node p
      else if k =? k_function_definition then function_node_to_def c s
      else if one_of k [k_methodmap_property_getter; k_methodmap_property_setter] then
        try c' := ask (parent c) in property_method_node_to_def c' s
      else if one_of k [k_methodmap_property_native; k_methodmap_property_method] then property_method_node_to_def c s
      else if one_of k [k_enum_struct_method; k_methodmap_native; k_methodmap_native_constructor; k_methodmap_native_destructor;
                        k_methodmap_method; k_methodmap_method_constructor; k_methodmap_method_destructor] then method_node_to_def c s
      else if k =? k_typedef then typedef_node_to_def c s
      else if one_of k [k_enum; source_file] then source_node_to_def s
      else Panic
  end.
End file.
