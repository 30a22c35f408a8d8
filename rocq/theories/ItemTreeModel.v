(** The item tree of a file: crates/hir-def/src/item_tree.rs and item_tree/lower.rs.

    A syntax tree is given as data: a node has its kind (the discriminants of [TSKind],
    crates/syntax/src/generated.rs:1), its byte range, its text, and its children in order, each with
    the name of its field or the empty text.  [None] is a panic. *)
From Coq Require Import List String Bool Arith NArith DecimalString.
From Verif Require Import AstIdModel TypeRefModel.
Import ListNotations.
Local Open Scope string_scope.
Local Open Scope nat_scope.
Local Open Scope list_scope.

Inductive syn := Syn (kind start stop : nat) (text : string) (kids : list (string * syn)).
Definition s_kind (n : syn) := let 'Syn k _ _ _ _ := n in k.
Definition s_text (n : syn) := let 'Syn _ _ _ t _ := n in t.
Definition s_kids (n : syn) := let 'Syn _ _ _ _ c := n in c.
(** [Node::children] *)
Definition children (n : syn) : list syn := map snd (s_kids n).
(** [Node::children_by_field_name], [Node::child_by_field_name] *)
Definition children_by_field_name (f : string) (n : syn) : list syn :=
  map snd (filter (fun c => String.eqb (fst c) f) (s_kids n)).
Definition child_by_field_name (f : string) (n : syn) : option syn := hd_error (children_by_field_name f n).
(** The tree the ids are made from. *)
Fixpoint plain (n : syn) : node := let 'Syn k s e _ c := n in Node k s e (map (fun x => plain (snd x)) c).
Definition has_kind (k : nat) (n : syn) : bool := s_kind n =? k.
Definition has_field (f : string) (n : syn) : bool := match child_by_field_name f n with Some _ => true | None => false end.
Definition name_of (n : syn) : option string := option_map s_text (child_by_field_name "name" n).

(** generated.rs:1 *)
Definition k_anon_forward := 46. Definition k_anon_native := 47.
Definition k_anon_public := 52. Definition k_anon_stock := 53. Definition k_anon_static := 54.
Definition k_anon_void := 83. Definition k_anon_bool := 84. Definition k_anon_int := 85. Definition k_anon_float := 86.
Definition k_anon_char := 87. Definition k_anon_Float := 89. Definition k_anon_String := 90. Definition k_any_type := 91.
Definition k_preproc_macro := 133. Definition k_preproc_define := 134.
Definition k_function_definition := 144. Definition k_function_declaration := 145.
Definition k_parameter_declarations := 147. Definition k_parameter_declaration := 148. Definition k_rest_parameter := 149.
Definition k_global_variable_declaration := 152. Definition k_variable_declaration := 156.
Definition k_old_global_variable_declaration := 160. Definition k_old_variable_declaration := 162.
Definition k_enum := 163. Definition k_enum_entry := 165.
Definition k_enum_struct := 166. Definition k_enum_struct_field := 167. Definition k_enum_struct_method := 168.
Definition k_typedef := 169. Definition k_typeset := 170. Definition k_typedef_expression := 171.
Definition k_funcenum := 172. Definition k_funcenum_member := 173. Definition k_functag := 174.
Definition k_methodmap := 175. Definition k_methodmap_native := 177. Definition k_methodmap_native_constructor := 178.
Definition k_methodmap_native_destructor := 179. Definition k_methodmap_method := 180.
Definition k_methodmap_method_constructor := 181. Definition k_methodmap_method_destructor := 182.
Definition k_methodmap_property := 183. Definition k_methodmap_property_native := 185.
Definition k_methodmap_property_method := 186. Definition k_methodmap_property_getter := 187.
Definition k_methodmap_property_setter := 188.
Definition k_old_type := 196. Definition k_dimension := 197. Definition k_fixed_dimension := 198.

(** [str::trim_end_matches(':')] *)
Fixpoint trim_colons (s : string) : string :=
  match s with
  | EmptyString => EmptyString
  | String c r =>
      match trim_colons r with
      | EmptyString => if Ascii.eqb c (Ascii.ascii_of_nat 58) then EmptyString else String c EmptyString
      | r' => String c r'
      end
  end.
(** hir/type_ref.rs:43-64 [TypeRef::from_node] *)
Definition type_of (n : syn) : type_ref :=
  let k := s_kind n in
  if k =? k_anon_int then TInt
  else if k =? k_anon_bool then TBool
  else if k =? k_anon_float then TFloat
  else if k =? k_anon_char then TChar
  else if k =? k_anon_void then TVoid
  else if k =? k_any_type then TAny
  else if k =? k_anon_String then TOldString
  else if k =? k_anon_Float then TFloat
  else if k =? k_old_type then TOldName (trim_colons (s_text n))
  else TName (s_text n).
(** hir/type_ref.rs:66-89 [TypeRef::from_returntype_node]; the loop is the one of TypeRefModel. *)
Definition type_child_of (n : syn) : type_child :=
  if has_kind k_dimension n || has_kind k_fixed_dimension n then CDimension else CType (type_of n).
Definition type_in (f : string) (n : syn) : option type_ref :=
  from_returntype_node (map type_child_of (children_by_field_name f n)).

(** item_tree.rs:22-43 *)
Inductive fn_kind := Def | Forward | Native.
Definition fn_kind_of (n : syn) : fn_kind :=
  match child_by_field_name "kind" n with
  | None => Def
  | Some k =>
      match find (fun c => has_kind k_anon_forward c || has_kind k_anon_native c) (children k) with
      | Some c => if has_kind k_anon_forward c then Forward else Native
      | None => Def
      end
  end.
(** item_tree.rs:45-54,90-106; an unexpected child is only logged. *)
Definition v_public := 1%N. Definition v_stock := 2%N. Definition v_static := 4%N. Definition v_none := 8%N.
Definition visibility_of (n : syn) : N :=
  match child_by_field_name "visibility" n with
  | None => v_none
  | Some v =>
      fold_left (fun acc c =>
        if has_kind k_anon_public c then N.lor acc v_public
        else if has_kind k_anon_stock c then N.lor acc v_stock
        else if has_kind k_anon_static c then N.lor acc v_static
        else acc) (children v) v_none
  end.

(** item_tree.rs:244-371: the records of the tables. An index range is its two ends. *)
Definition range := (nat * nat)%type.
Record macro := Macro { mac_name : string; mac_ast : nat }.
Record variable := Variable' { var_name : string; var_vis : N; var_type : option type_ref; var_ast : nat }.
Inductive special_method := Constructor | Destructor.
Record function := Function' { fn_name : string; fn_knd : fn_kind; fn_vis : N; fn_params : range;
  fn_special : option special_method; fn_ret : option type_ref; fn_ast : nat }.
Record param := Param { par_default : bool; par_rest : bool; par_const : bool; par_type : option type_ref; par_ast : nat }.
Record typedef := Typedef { td_name : option string; td_params : range; td_type : type_ref; td_ast : nat }.
Record typeset := Typeset { ts_name : string; ts_typedefs : range; ts_ast : nat }.
Record functag := Functag { ft_name : option string; ft_params : range; ft_type : option type_ref; ft_ast : nat }.
Record funcenum := Funcenum { fe_name : string; fe_functags : range; fe_ast : nat }.
Inductive es_item := ESMethod (i : nat) | ESField (i : nat).
Record enum_struct := EnumStruct { es_name : string; es_items : list es_item; es_ast : nat }.
Record field := Field { fld_name : string; fld_type : type_ref; fld_ast : nat }.
Inductive mm_item := MMMethod (i : nat) | MMProperty (i : nat).
Record property := Property { pr_name : string; pr_accessors : range; pr_type : type_ref; pr_ast : nat }.
Record methodmap := Methodmap { mm_name : string; mm_items : list mm_item; mm_inherits : option string; mm_ast : nat }.
Record enum := Enum { en_name : string; en_variants : range; en_ast : nat }.
Record variant := Variant { va_name : string; va_ast : nat }.
(** item_tree.rs:390-396,439-452 *)
Inductive file_item := FFunction (i : nat) | FVariable (i : nat) | FMacro (i : nat) | FEnumStruct (i : nat)
| FMethodmap (i : nat) | FEnum (i : nat) | FVariant (i : nat) | FTypedef (i : nat) | FTypeset (i : nat)
| FFunctag (i : nat) | FFuncenum (i : nat).

(** item_tree.rs:108-113,193-209: the item tree; an arena is the list of its entries. The box around the
    arenas is made when first written to; until then all are empty. *)
Record itree := ITree {
  top : list file_item; functions : list function; variables : list variable; macros : list macro;
  enum_structs : list enum_struct; fields : list field; methodmaps : list methodmap; properties : list property;
  params : list param; enums : list enum; typedefs : list typedef; typesets : list typeset;
  functags : list functag; funcenums : list funcenum; variants : list variant }.
Definition empty_tree : itree := ITree [] [] [] [] [] [] [] [] [] [] [] [] [] [] [].
(** [tree.top_level.push] and the [alloc]s of the arenas. *)
Definition push (x : file_item) (t : itree) : itree :=
  ITree (top t ++ [x]) (functions t) (variables t) (macros t) (enum_structs t) (fields t) (methodmaps t) (properties t) (params t) (enums t) (typedefs t) (typesets t) (functags t) (funcenums t) (variants t).
Definition alloc_function (x : function) (t : itree) : itree :=
  ITree (top t) (functions t ++ [x]) (variables t) (macros t) (enum_structs t) (fields t) (methodmaps t) (properties t) (params t) (enums t) (typedefs t) (typesets t) (functags t) (funcenums t) (variants t).
Definition alloc_variable (x : variable) (t : itree) : itree :=
  ITree (top t) (functions t) (variables t ++ [x]) (macros t) (enum_structs t) (fields t) (methodmaps t) (properties t) (params t) (enums t) (typedefs t) (typesets t) (functags t) (funcenums t) (variants t).
Definition alloc_macro (x : macro) (t : itree) : itree :=
  ITree (top t) (functions t) (variables t) (macros t ++ [x]) (enum_structs t) (fields t) (methodmaps t) (properties t) (params t) (enums t) (typedefs t) (typesets t) (functags t) (funcenums t) (variants t).
Definition alloc_enum_struct (x : enum_struct) (t : itree) : itree :=
  ITree (top t) (functions t) (variables t) (macros t) (enum_structs t ++ [x]) (fields t) (methodmaps t) (properties t) (params t) (enums t) (typedefs t) (typesets t) (functags t) (funcenums t) (variants t).
Definition alloc_field (x : field) (t : itree) : itree :=
  ITree (top t) (functions t) (variables t) (macros t) (enum_structs t) (fields t ++ [x]) (methodmaps t) (properties t) (params t) (enums t) (typedefs t) (typesets t) (functags t) (funcenums t) (variants t).
Definition alloc_methodmap (x : methodmap) (t : itree) : itree :=
  ITree (top t) (functions t) (variables t) (macros t) (enum_structs t) (fields t) (methodmaps t ++ [x]) (properties t) (params t) (enums t) (typedefs t) (typesets t) (functags t) (funcenums t) (variants t).
Definition alloc_property (x : property) (t : itree) : itree :=
  ITree (top t) (functions t) (variables t) (macros t) (enum_structs t) (fields t) (methodmaps t) (properties t ++ [x]) (params t) (enums t) (typedefs t) (typesets t) (functags t) (funcenums t) (variants t).
Definition alloc_param (x : param) (t : itree) : itree :=
  ITree (top t) (functions t) (variables t) (macros t) (enum_structs t) (fields t) (methodmaps t) (properties t) (params t ++ [x]) (enums t) (typedefs t) (typesets t) (functags t) (funcenums t) (variants t).
Definition alloc_enum (x : enum) (t : itree) : itree :=
  ITree (top t) (functions t) (variables t) (macros t) (enum_structs t) (fields t) (methodmaps t) (properties t) (params t) (enums t ++ [x]) (typedefs t) (typesets t) (functags t) (funcenums t) (variants t).
Definition alloc_typedef (x : typedef) (t : itree) : itree :=
  ITree (top t) (functions t) (variables t) (macros t) (enum_structs t) (fields t) (methodmaps t) (properties t) (params t) (enums t) (typedefs t ++ [x]) (typesets t) (functags t) (funcenums t) (variants t).
Definition alloc_typeset (x : typeset) (t : itree) : itree :=
  ITree (top t) (functions t) (variables t) (macros t) (enum_structs t) (fields t) (methodmaps t) (properties t) (params t) (enums t) (typedefs t) (typesets t ++ [x]) (functags t) (funcenums t) (variants t).
Definition alloc_functag (x : functag) (t : itree) : itree :=
  ITree (top t) (functions t) (variables t) (macros t) (enum_structs t) (fields t) (methodmaps t) (properties t) (params t) (enums t) (typedefs t) (typesets t) (functags t ++ [x]) (funcenums t) (variants t).
Definition alloc_funcenum (x : funcenum) (t : itree) : itree :=
  ITree (top t) (functions t) (variables t) (macros t) (enum_structs t) (fields t) (methodmaps t) (properties t) (params t) (enums t) (typedefs t) (typesets t) (functags t) (funcenums t ++ [x]) (variants t).
Definition alloc_variant (x : variant) (t : itree) : itree :=
  ITree (top t) (functions t) (variables t) (macros t) (enum_structs t) (fields t) (methodmaps t) (properties t) (params t) (enums t) (typedefs t) (typesets t) (functags t) (funcenums t) (variants t ++ [x]).

Notation "'let*' x := a 'in' b" := (match a with Some x => b | None => None end) (at level 200, x pattern, b at level 200).
(** A loop that may panic. *)
Fixpoint each {A S : Type} (f : S -> A -> option S) (l : list A) (s : S) : option S :=
  match l with [] => Some s | a :: r => let* s' := f s a in each f r s' end.

Section lowering.
Variable root : syn.
(** [source_ast_id_map.ast_id_of(node)]: panics for a node without an id (ast_id_map.rs:173-183, C40). *)
Definition id_of (n : syn) : option nat := ast_id_of (plain root) (plain n).

(** lower.rs:91-108 [lower_global_variable] *)
Definition lower_variable (vis : N) (ty : option type_ref) (t : itree) (c : syn) : option itree :=
  match name_of c with
  | None => Some t
  | Some nm =>
      let* a := id_of c in
      Some (push (FVariable (List.length (variables t))) (alloc_variable (Variable' nm vis ty a) t))
  end.
Definition lower_global_variable (t : itree) (n : syn) : option itree :=
  let vis := visibility_of n in
  let ty := type_in "type" n in
  each (fun t c => if has_kind k_variable_declaration c then lower_variable vis ty t c else Some t) (children n) t.
(** lower.rs:110-128 [lower_old_global_variable] *)
Definition lower_old_global_variable (t : itree) (n : syn) : option itree :=
  let vis := visibility_of n in
  each (fun t c => lower_variable vis (type_in "type" c) t c) (filter (has_kind k_old_variable_declaration) (children n)) t.

(** lower.rs:134-169 [lower_enum] *)
Definition lower_variant (t : itree) (e : syn) : option itree :=
  match name_of e with
  | None => Some t
  | Some nm =>
      let* a := id_of e in
      Some (push (FVariant (List.length (variants t))) (alloc_variant (Variant nm a) t))
  end.
Definition decimal (i : nat) : string := NilEmpty.string_of_uint (Nat.to_uint i).
Definition lower_enum (t : itree) (n : syn) : option itree :=
  let start := List.length (variants t) in
  let* t1 := match child_by_field_name "entries" n with
             | Some es => each lower_variant (filter (has_kind k_enum_entry) (children es)) t
             | None => Some t
             end in
  let stop := List.length (variants t1) in
  let* a := id_of n in
  let nm := match name_of n with Some nm => nm | None => ("unnamed_enum_" ++ decimal a)%string end in
  Some (push (FEnum (List.length (enums t1))) (alloc_enum (Enum nm (start, stop) a) t1)).

(** lower.rs:233-256 [lower_parameters] *)
Definition lower_param (t : itree) (n : syn) : option itree :=
  if has_kind k_parameter_declaration n || has_kind k_rest_parameter n then
    let* a := id_of n in
    Some (alloc_param (Param (has_field "defaultValue" n) (has_kind k_rest_parameter n) (has_field "storage_class" n)
                             (type_in "type" n) a) t)
  else Some t.
Definition lower_parameters (t : itree) (n : syn) : option (itree * range) :=
  let start := List.length (params t) in
  match child_by_field_name "parameters" n with
  | None => Some (t, (start, start))
  | Some ps =>
      if has_kind k_parameter_declarations ps then
        let* t1 := each lower_param (children ps) t in
        Some (t1, (start, List.length (params t1)))
      else None
  end.

(** lower.rs:206-231 [lower_function_]; the parameters are entered before the name is looked for. *)
Definition lower_function_ (t : itree) (n : syn) (vis : option N) (kind : option fn_kind) (sp : option special_method)
  : option (itree * option nat) :=
  let kind := match kind with Some k => k | None => fn_kind_of n end in
  let* (t1, ps) := lower_parameters t n in
  match name_of n with
  | None => Some (t1, None)
  | Some nm =>
      let vis := match vis with Some v => v | None => visibility_of n end in
      let* a := id_of n in
      Some (alloc_function (Function' nm kind vis ps sp (type_in "returnType" n) a) t1, Some (List.length (functions t1)))
  end.
(** lower.rs:200-204 [lower_function] *)
Definition lower_function (t : itree) (n : syn) : option itree :=
  let* (t1, id) := lower_function_ t n None None None in
  Some (match id with Some i => push (FFunction i) t1 | None => t1 end).

(** lower.rs:258-281 [lower_typedef] *)
Definition lower_typedef (t : itree) (n : syn) : option itree :=
  match name_of n, find (has_kind k_typedef_expression) (children n) with
  | Some nm, Some e =>
      match type_in "returnType" e with
      | None => Some t
      | Some ty =>
          let* (t1, ps) := lower_parameters t e in
          let* a := id_of n in
          Some (push (FTypedef (List.length (typedefs t1))) (alloc_typedef (Typedef (Some nm) ps ty a) t1))
      end
  | _, _ => Some t
  end.

(** lower.rs:283-314 [lower_typeset] *)
Definition lower_typeset_member (t : itree) (e : syn) : option itree :=
  match type_in "returnType" e with
  | None => Some t
  | Some ty =>
      let* (t1, ps) := lower_parameters t e in
      let* a := id_of e in
      Some (alloc_typedef (Typedef None ps ty a) t1)
  end.
Definition lower_typeset (t : itree) (n : syn) : option itree :=
  match name_of n with
  | None => Some t
  | Some nm =>
      let start := List.length (typedefs t) in
      let* t1 := each lower_typeset_member (filter (has_kind k_typedef_expression) (children n)) t in
      let stop := List.length (typedefs t1) in
      let* a := id_of n in
      Some (push (FTypeset (List.length (typesets t1))) (alloc_typeset (Typeset nm (start, stop) a) t1))
  end.

(** lower.rs:316-331 [lower_functag] *)
Definition lower_functag (t : itree) (n : syn) : option itree :=
  match name_of n with
  | None => Some t
  | Some nm =>
      let* (t1, ps) := lower_parameters t n in
      let* a := id_of n in
      Some (push (FFunctag (List.length (functags t1))) (alloc_functag (Functag (Some nm) ps (type_in "returnType" n) a) t1))
  end.

(** lower.rs:333-361 [lower_funcenum] *)
Definition lower_funcenum_member (t : itree) (e : syn) : option itree :=
  let* (t1, ps) := lower_parameters t e in
  let* a := id_of e in
  Some (alloc_functag (Functag None ps (type_in "returnType" e) a) t1).
Definition lower_funcenum (t : itree) (n : syn) : option itree :=
  match name_of n with
  | None => Some t
  | Some nm =>
      let start := List.length (functags t) in
      let* t1 := each lower_funcenum_member (filter (has_kind k_funcenum_member) (children n)) t in
      let stop := List.length (functags t1) in
      let* a := id_of n in
      Some (push (FFuncenum (List.length (funcenums t1))) (alloc_funcenum (Funcenum nm (start, stop) a) t1))
  end.

(** lower.rs:463-512 [lower_property_method]: [e2] is the getter or setter, [e1] the node around it. *)
Definition lower_property_method (e1 : syn) (ty : type_ref) (kind : fn_kind) (t : itree) (e2 : syn) : option itree :=
  if has_kind k_methodmap_property_getter e2 then
    let i := List.length (params t) in
    let* a := id_of e1 in
    Some (alloc_function (Function' "get" kind v_public (i, i) None (Some ty) a) t)
  else if has_kind k_methodmap_property_setter e2 then
    match child_by_field_name "parameter" e2 with
    | None => Some t
    | Some p =>
        let* pa := id_of p in
        let i := List.length (params t) in
        let t1 := alloc_param (Param false false (has_field "storage_class" p) (type_in "type" p) pa) t in
        let* a := id_of e1 in
        Some (alloc_function (Function' "set" kind v_none (i, List.length (params t1)) None None a) t1)
    end
  else Some t.
(** lower.rs:377-402: the accessors of one child of the property. *)
Definition lower_accessors (ty : type_ref) (t : itree) (e1 : syn) : option itree :=
  if has_kind k_methodmap_property_method e1 then each (lower_property_method e1 ty Def) (children e1) t
  else if has_kind k_methodmap_property_native e1 then each (lower_property_method e1 ty Native) (children e1) t
  else Some t.
(** lower.rs:370-417 *)
Definition lower_property (s : itree * list mm_item) (e : syn) : option (itree * list mm_item) :=
  let '(t, items) := s in
  match name_of e, type_in "type" e with
  | Some nm, Some ty =>
      let start := List.length (functions t) in
      let* t1 := each (lower_accessors ty) (children e) t in
      let stop := List.length (functions t1) in
      let* a := id_of e in
      Some (alloc_property (Property nm (start, stop) ty a) t1, items ++ [MMProperty (List.length (properties t1))])
  | _, _ => Some s
  end.
(** lower.rs:181-198 [lower_methodmap_method] *)
Definition lower_methodmap_method (kind : option fn_kind) (sp : option special_method) (s : itree * list mm_item) (e : syn)
  : option (itree * list mm_item) :=
  let '(t, items) := s in
  let vis := if existsb (has_kind k_anon_static) (children e) then N.lor v_public v_static else v_public in
  let* (t1, id) := lower_function_ t e (Some vis) kind sp in
  Some (t1, match id with Some i => items ++ [MMMethod i] | None => items end).
(** lower.rs:363-461 [lower_methodmap] *)
Definition lower_methodmap_child (s : itree * list mm_item) (e : syn) : option (itree * list mm_item) :=
  if has_kind k_methodmap_property e then lower_property s e
  else if has_kind k_methodmap_method e then lower_methodmap_method None None s e
  else if has_kind k_methodmap_method_constructor e then lower_methodmap_method None (Some Constructor) s e
  else if has_kind k_methodmap_method_destructor e then lower_methodmap_method None (Some Destructor) s e
  else if has_kind k_methodmap_native e then lower_methodmap_method (Some Native) None s e
  else if has_kind k_methodmap_native_constructor e then lower_methodmap_method (Some Native) (Some Constructor) s e
  else if has_kind k_methodmap_native_destructor e then lower_methodmap_method (Some Native) (Some Destructor) s e
  else Some s.
Definition lower_methodmap (t : itree) (n : syn) : option itree :=
  match name_of n with
  | None => Some t
  | Some nm =>
      let* (t1, items) := each lower_methodmap_child (children n) (t, []) in
      let inherits := option_map s_text (child_by_field_name "inherits" n) in
      let* a := id_of n in
      Some (push (FMethodmap (List.length (methodmaps t1))) (alloc_methodmap (Methodmap nm items inherits a) t1))
  end.

(** lower.rs:514-549 [lower_enum_struct], 171-179 [lower_enum_struct_method] *)
Definition lower_enum_struct_child (s : itree * list es_item) (e : syn) : option (itree * list es_item) :=
  let '(t, items) := s in
  if has_kind k_enum_struct_field e then
    match name_of e, type_in "type" e with
    | Some nm, Some ty =>
        let* a := id_of e in
        Some (alloc_field (Field nm ty a) t, items ++ [ESField (List.length (fields t))])
    | _, _ => Some s
    end
  else if has_kind k_enum_struct_method e then
    let* (t1, id) := lower_function_ t e None None None in
    Some (t1, match id with Some i => items ++ [ESMethod i] | None => items end)
  else Some s.
Definition lower_enum_struct (t : itree) (n : syn) : option itree :=
  match name_of n with
  | None => Some t
  | Some nm =>
      let* (t1, items) := each lower_enum_struct_child (children n) (t, []) in
      let* a := id_of n in
      Some (push (FEnumStruct (List.length (enum_structs t1))) (alloc_enum_struct (EnumStruct nm items a) t1))
  end.

(** lower.rs:45-62 *)
Definition lower_child (t : itree) (n : syn) : option itree :=
  let k := s_kind n in
  if (k =? k_function_definition) || (k =? k_function_declaration) then lower_function t n
  else if k =? k_enum then lower_enum t n
  else if k =? k_global_variable_declaration then lower_global_variable t n
  else if k =? k_old_global_variable_declaration then lower_old_global_variable t n
  else if k =? k_enum_struct then lower_enum_struct t n
  else if k =? k_methodmap then lower_methodmap t n
  else if k =? k_typedef then lower_typedef t n
  else if k =? k_typeset then lower_typeset t n
  else if k =? k_functag then lower_functag t n
  else if k =? k_funcenum then lower_funcenum t n
  else Some t.

(** lower.rs:64-88: the matches of the query, every node of either kind wherever it is, in the order of the text. *)
Fixpoint nodes_below (n : syn) : list syn := n :: let 'Syn _ _ _ _ c := n in flat_map (fun x => nodes_below (snd x)) c.
Definition is_macro (n : syn) : bool := has_kind k_preproc_macro n || has_kind k_preproc_define n.
Definition lower_macro (t : itree) (n : syn) : option itree :=
  match name_of n with
  | None => Some t
  | Some nm =>
      let* a := id_of n in
      Some (push (FMacro (List.length (macros t))) (alloc_macro (Macro nm a) t))
  end.
(** lower.rs:42-89 [lower] *)
Definition lower : option itree :=
  let* t := each lower_child (children root) empty_tree in
  each lower_macro (filter is_macro (nodes_below root)) t.
End lowering.

(** * Reading the tables *)
(** What a reader gets to see of an item: the entries an index or a range leads to, and the kind and range of
    the node that [get_raw] (ast_id_map.rs:185-187) gives for its id. *)
Record param_view := ParamView { pv_type : option type_ref; pv_default : bool; pv_rest : bool; pv_const : bool; pv_at : ptr }.
Record fn_view := FnView { fv_name : string; fv_kind : fn_kind; fv_public : bool; fv_stock : bool; fv_static : bool;
  fv_params : list param_view; fv_special : option special_method; fv_ret : option type_ref; fv_at : ptr }.
Record variant_view := VariantView { vv_name : string; vv_at : ptr }.
Record typedef_view := TypedefView { tv_name : option string; tv_params : list param_view; tv_type : type_ref; tv_at : ptr }.
Record functag_view := FunctagView { gv_name : option string; gv_params : list param_view; gv_type : option type_ref; gv_at : ptr }.
Inductive es_view := EVMethod (f : fn_view) | EVField (n : string) (ty : type_ref) (at_ : ptr).
Inductive mm_view := MVMethod (f : fn_view) | MVProperty (n : string) (ty : type_ref) (acc : list fn_view) (at_ : ptr).
Inductive view :=
| VFunction (f : fn_view)
| VVariable (n : string) (public stock static : bool) (ty : option type_ref) (at_ : ptr)
| VMacro (n : string) (at_ : ptr)
| VEnumStruct (n : string) (items : list es_view) (at_ : ptr)
| VMethodmap (n : string) (inherits : option string) (items : list mm_view) (at_ : ptr)
| VEnum (n : string) (vs : list variant_view) (at_ : ptr)
| VVariant (v : variant_view)
| VTypedef (d : typedef_view)
| VTypeset (n : string) (ds : list typedef_view) (at_ : ptr)
| VFunctag (g : functag_view)
| VFuncenum (n : string) (gs : list functag_view) (at_ : ptr).

(** An index out of range panics. *)
Fixpoint all {A B : Type} (f : A -> option B) (l : list A) : option (list B) :=
  match l with [] => Some [] | a :: r => let* b := f a in let* bs := all f r in Some (b :: bs) end.
(** The indices of a range: [IdxRange] as an iterator. *)
Definition indices (r : range) : list nat := seq (fst r) (snd r - fst r).
Definition at_index {A B : Type} (l : list A) (f : A -> option B) (i : nat) : option B := let* a := nth_error l i in f a.

Section reading.
Variable root : syn.
Variable t : itree.
Definition place (a : nat) : option ptr := get_raw (plain root) a.

(** data.rs:27-36 *)
Definition view_param (p : param) : option param_view :=
  let* x := place (par_ast p) in Some (ParamView (par_type p) (par_default p) (par_rest p) (par_const p) x).
Definition read_params (r : range) : option (list param_view) := all (at_index (params t) view_param) (indices r).
(** item_tree.rs:73-87: the words of a visibility. *)
Definition bit (v flag : N) : bool := negb (N.land v flag =? 0)%N.
(** data.rs:46-63 [function_data_query], with the other fields of the entry *)
Definition view_function (f : function) : option fn_view :=
  let* ps := read_params (fn_params f) in
  let* x := place (fn_ast f) in
  Some (FnView (fn_name f) (fn_knd f) (bit (fn_vis f) v_public) (bit (fn_vis f) v_stock) (bit (fn_vis f) v_static) ps
               (fn_special f) (fn_ret f) x).
Definition view_variant (v : variant) : option variant_view := let* x := place (va_ast v) in Some (VariantView (va_name v) x).
(** data.rs:301-311 *)
Definition view_typedef (d : typedef) : option typedef_view :=
  let* ps := read_params (td_params d) in
  let* x := place (td_ast d) in
  Some (TypedefView (td_name d) ps (td_type d) x).
(** data.rs:361-371 *)
Definition view_functag (g : functag) : option functag_view :=
  let* ps := read_params (ft_params g) in
  let* x := place (ft_ast g) in
  Some (FunctagView (ft_name g) ps (ft_type g) x).
(** data.rs:443-470 *)
Definition view_es_item (i : es_item) : option es_view :=
  match i with
  | ESMethod i => let* f := at_index (functions t) view_function i in Some (EVMethod f)
  | ESField i => at_index (fields t) (fun f => let* x := place (fld_ast f) in Some (EVField (fld_name f) (fld_type f) x)) i
  end.
(** data.rs:188-244, the methodmap's own members *)
Definition view_property (p : property) : option mm_view :=
  let* acc := all (at_index (functions t) view_function) (indices (pr_accessors p)) in
  let* x := place (pr_ast p) in
  Some (MVProperty (pr_name p) (pr_type p) acc x).
Definition view_mm_item (i : mm_item) : option mm_view :=
  match i with
  | MMMethod i => let* f := at_index (functions t) view_function i in Some (MVMethod f)
  | MMProperty i => at_index (properties t) view_property i
  end.
Definition view_variable (v : variable) : option view :=
  let* x := place (var_ast v) in
  Some (VVariable (var_name v) (bit (var_vis v) v_public) (bit (var_vis v) v_stock) (bit (var_vis v) v_static) (var_type v) x).
Definition view_enum_struct (s : enum_struct) : option view :=
  let* items := all view_es_item (es_items s) in
  let* x := place (es_ast s) in
  Some (VEnumStruct (es_name s) items x).
Definition view_methodmap (m : methodmap) : option view :=
  let* items := all view_mm_item (mm_items m) in
  let* x := place (mm_ast m) in
  Some (VMethodmap (mm_name m) (mm_inherits m) items x).
(** item_tree/pretty.rs:101-122 *)
Definition view_enum (e : enum) : option view :=
  let* vs := all (at_index (variants t) view_variant) (indices (en_variants e)) in
  let* x := place (en_ast e) in
  Some (VEnum (en_name e) vs x).
(** data.rs:325-347 *)
Definition view_typeset (s : typeset) : option view :=
  let* ds := all (at_index (typedefs t) view_typedef) (indices (ts_typedefs s)) in
  let* x := place (ts_ast s) in
  Some (VTypeset (ts_name s) ds x).
(** data.rs:385-407 *)
Definition view_funcenum (s : funcenum) : option view :=
  let* gs := all (at_index (functags t) view_functag) (indices (fe_functags s)) in
  let* x := place (fe_ast s) in
  Some (VFuncenum (fe_name s) gs x).
Definition view_item (i : file_item) : option view :=
  match i with
  | FFunction i => let* f := at_index (functions t) view_function i in Some (VFunction f)
  | FVariable i => at_index (variables t) view_variable i
  | FMacro i => at_index (macros t) (fun m => let* x := place (mac_ast m) in Some (VMacro (mac_name m) x)) i
  | FEnumStruct i => at_index (enum_structs t) view_enum_struct i
  | FMethodmap i => at_index (methodmaps t) view_methodmap i
  | FEnum i => at_index (enums t) view_enum i
  | FVariant i => let* v := at_index (variants t) view_variant i in Some (VVariant v)
  | FTypedef i => let* d := at_index (typedefs t) view_typedef i in Some (VTypedef d)
  | FTypeset i => at_index (typesets t) view_typeset i
  | FFunctag i => let* g := at_index (functags t) view_functag i in Some (VFunctag g)
  | FFuncenum i => at_index (funcenums t) view_funcenum i
  end.
End reading.
