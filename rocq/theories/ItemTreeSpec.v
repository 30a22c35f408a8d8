(** What a file declares, read off its syntax tree directly: nested, without tables, indices or ids. *)
From Coq Require Import List String Bool Arith.
From Verif Require Import AstIdModel TypeRefModel ItemTreeModel.
Import ListNotations.
Local Open Scope string_scope.
Local Open Scope nat_scope.
Local Open Scope list_scope.

Definition place_of (n : syn) : ptr := ptr_of (plain n).
(** Something needs a name to count. *)
Definition named {A} (n : syn) (f : string -> A) : list A := match name_of n with Some nm => [f nm] | None => [] end.
Definition opt {A} (o : option A) : list A := match o with Some a => [a] | None => [] end.
Definition kids_of_kind (k : nat) (n : syn) : list syn := filter (has_kind k) (children n).
(** The children of the child in field [f]. *)
Definition inside (f : string) (n : syn) : list syn := flat_map children (opt (child_by_field_name f n)).

(** A type: the last name written, as often an array as there are dimensions. *)
Definition is_dimension (n : syn) : bool := has_kind k_dimension n || has_kind k_fixed_dimension n.
Definition written_type (f : string) (n : syn) : option type_ref :=
  let l := children_by_field_name f n in
  match rev (filter (fun c => negb (is_dimension c)) l), List.length (filter is_dimension l) with
  | [], _ => None
  | c :: _, 0 => Some (type_of c)
  | c :: _, dims => Some (TArray (type_of c) dims)
  end.
(** What a single type node stands for. *)
Definition colons (s : string) : Prop := forall i c, String.get i s = Some c -> c = Ascii.ascii_of_nat 58.
Definition stands_for (n : syn) (ty : type_ref) : Prop :=
  (s_kind n = k_anon_int -> ty = TInt) /\ (s_kind n = k_anon_bool -> ty = TBool) /\
  ((s_kind n = k_anon_float \/ s_kind n = k_anon_Float) -> ty = TFloat) /\ (s_kind n = k_anon_char -> ty = TChar) /\
  (s_kind n = k_anon_void -> ty = TVoid) /\ (s_kind n = k_any_type -> ty = TAny) /\
  (s_kind n = k_anon_String -> ty = TOldString) /\
  (s_kind n = k_old_type -> exists nm cs, ty = TOldName nm /\ s_text n = (nm ++ cs)%string /\ colons cs /\
     forall m, nm <> (m ++ ":")%string) /\
  (~ In (s_kind n) [k_anon_int; k_anon_bool; k_anon_float; k_anon_Float; k_anon_char; k_anon_void; k_any_type; k_anon_String; k_old_type] ->
     ty = TName (s_text n)).

(** Parameters *)
Definition written_params (n : syn) : list param_view :=
  map (fun p => ParamView (written_type "type" p) (has_field "defaultValue" p) (has_kind k_rest_parameter p)
                          (has_field "storage_class" p) (place_of p))
      (filter (fun p => has_kind k_parameter_declaration p || has_kind k_rest_parameter p) (inside "parameters" n)).

(** Functions: [public], [stock] and [static] are the words before the name. *)
Definition word (k : nat) (n : syn) : bool := existsb (has_kind k) (inside "visibility" n).
Definition written_kind (n : syn) : fn_kind :=
  match filter (fun c => has_kind k_anon_forward c || has_kind k_anon_native c) (inside "kind" n) with
  | [] => Def
  | c :: _ => if has_kind k_anon_native c then Native else Forward
  end.
Definition written_function (kind : fn_kind) (public stock static : bool) (sp : option special_method) (n : syn) : list fn_view :=
  named n (fun nm => FnView nm kind public stock static (written_params n) sp (written_type "returnType" n) (place_of n)).
Definition plain_function (n : syn) : list fn_view :=
  written_function (written_kind n) (word k_anon_public n) (word k_anon_stock n) (word k_anon_static n) None n.

(** Global variables: of a new style declaration all have the type written in front. *)
Definition written_variable (ty : option type_ref) (n c : syn) : list view :=
  named c (fun nm => VVariable nm (word k_anon_public n) (word k_anon_stock n) (word k_anon_static n) ty (place_of c)).
Definition written_variables (n : syn) : list view :=
  flat_map (written_variable (written_type "type" n) n) (kids_of_kind k_variable_declaration n).
Definition written_old_variables (n : syn) : list view :=
  flat_map (fun c => written_variable (written_type "type" c) n c) (kids_of_kind k_old_variable_declaration n).

(** Enums: the variants are declarations of the file too. An enum without a name goes by its number. *)
Definition written_variants (n : syn) : list variant_view :=
  flat_map (fun e => named e (fun nm => VariantView nm (place_of e))) (filter (has_kind k_enum_entry) (inside "entries" n)).
Definition enum_name (root n : syn) : string :=
  match name_of n, ast_id_of (plain root) (plain n) with
  | Some nm, _ => nm
  | None, Some a => ("unnamed_enum_" ++ decimal a)%string
  | None, None => ""
  end.
Definition written_enum (root n : syn) : list view :=
  map VVariant (written_variants n) ++ [VEnum (enum_name root n) (written_variants n) (place_of n)].

(** Function types; one without a return type is not taken. *)
Definition written_typedef (nm : option string) (at_ e : syn) : list typedef_view :=
  map (fun ty => TypedefView nm (written_params e) ty (place_of at_)) (opt (written_type "returnType" e)).
Definition written_functag (nm : option string) (e : syn) : functag_view :=
  FunctagView nm (written_params e) (written_type "returnType" e) (place_of e).

(** Enum structs and methodmaps *)
Definition written_es_item (e : syn) : list es_view :=
  if has_kind k_enum_struct_field e then
    flat_map (fun ty => named e (fun nm => EVField nm ty (place_of e))) (opt (written_type "type" e))
  else if has_kind k_enum_struct_method e then map EVMethod (plain_function e)
  else [].
(** A getter takes nothing and returns the property's type; a setter takes its parameter. Both lie at the
    node around them. *)
Definition written_accessor (ty : type_ref) (kind : fn_kind) (e1 e2 : syn) : list fn_view :=
  if has_kind k_methodmap_property_getter e2 then [FnView "get" kind true false false [] None (Some ty) (place_of e1)]
  else if has_kind k_methodmap_property_setter e2 then
    map (fun p => FnView "set" kind false false false
                    [ParamView (written_type "type" p) false false (has_field "storage_class" p) (place_of p)] None None (place_of e1))
        (opt (child_by_field_name "parameter" e2))
  else [].
Definition written_accessors (ty : type_ref) (e1 : syn) : list fn_view :=
  if has_kind k_methodmap_property_method e1 then flat_map (written_accessor ty Def e1) (children e1)
  else if has_kind k_methodmap_property_native e1 then flat_map (written_accessor ty Native e1) (children e1)
  else [].
Definition written_property (e : syn) : list mm_view :=
  flat_map (fun ty => named e (fun nm => MVProperty nm ty (flat_map (written_accessors ty) (children e)) (place_of e)))
           (opt (written_type "type" e)).
(** Kinds of methods: whether it is native, and whether constructor or destructor. *)
Definition method_kinds : list (nat * (bool * option special_method)) :=
  [(k_methodmap_method, (false, None)); (k_methodmap_method_constructor, (false, Some Constructor));
   (k_methodmap_method_destructor, (false, Some Destructor)); (k_methodmap_native, (true, None));
   (k_methodmap_native_constructor, (true, Some Constructor)); (k_methodmap_native_destructor, (true, Some Destructor))].
Definition written_method (native : bool) (sp : option special_method) (e : syn) : list mm_view :=
  map MVMethod (written_function (if native then Native else written_kind e) true false
                  (existsb (has_kind k_anon_static) (children e)) sp e).
Definition written_mm_item (e : syn) : list mm_view :=
  (if has_kind k_methodmap_property e then written_property e else []) ++
  flat_map (fun row => let '(k, (native, sp)) := row in if has_kind k e then written_method native sp e else []) method_kinds.

Definition written_item (root n : syn) : list view :=
  let k := s_kind n in
  if k =? k_function_definition then map VFunction (plain_function n)
  else if k =? k_function_declaration then map VFunction (plain_function n)
  else if k =? k_global_variable_declaration then written_variables n
  else if k =? k_old_global_variable_declaration then written_old_variables n
  else if k =? k_enum then written_enum root n
  else if k =? k_enum_struct then named n (fun nm => VEnumStruct nm (flat_map written_es_item (children n)) (place_of n))
  else if k =? k_methodmap then
    named n (fun nm => VMethodmap nm (option_map s_text (child_by_field_name "inherits" n))
                         (flat_map written_mm_item (children n)) (place_of n))
  else if k =? k_typedef then
    flat_map (fun e => flat_map (fun ds => ds) (named n (fun nm => map VTypedef (written_typedef (Some nm) n e))))
             (firstn 1 (kids_of_kind k_typedef_expression n))
  else if k =? k_typeset then
    named n (fun nm => VTypeset nm (flat_map (fun e => written_typedef None e e) (kids_of_kind k_typedef_expression n)) (place_of n))
  else if k =? k_functag then map VFunctag (named n (fun nm => written_functag (Some nm) n))
  else if k =? k_funcenum then
    named n (fun nm => VFuncenum nm (map (written_functag None) (kids_of_kind k_funcenum_member n)) (place_of n))
  else [].

(** The macros come last, wherever they stand: plain ones and ones with parameters. *)
Fixpoint every_node (n : syn) : list syn := n :: let 'Syn _ _ _ _ c := n in flat_map (fun x => every_node (snd x)) c.
Definition written_macros (root : syn) : list view :=
  flat_map (fun n => named n (fun nm => VMacro nm (place_of n)))
           (filter (fun n => (s_kind n =? 133) || (s_kind n =? 134)) (every_node root)).
Definition outline (root : syn) : list view := flat_map (written_item root) (children root) ++ written_macros root.

(** What the grammar promises: parameters, entries and the parameter of a setter are nodes of their own kinds. *)
Inductive under : syn -> syn -> Prop :=
| under_here : forall n, under n n
| under_kid : forall n c m, In c (children n) -> under c m -> under n m.
Definition grammatical (root : syn) : Prop :=
  forall n c, under root n ->
    (child_by_field_name "parameters" n = Some c -> s_kind c = k_parameter_declarations) /\
    (child_by_field_name "entries" n = Some c -> s_kind c = 164) /\
    (child_by_field_name "parameter" n = Some c -> s_kind c = k_parameter_declaration).
(** Every named macro stands where ids are given. *)
Definition macros_in_view (root : syn) : Prop :=
  forall n nm, In n (nodes_below root) -> is_macro n = true -> name_of n = Some nm -> ast_id_of (plain root) (plain n) <> None.
