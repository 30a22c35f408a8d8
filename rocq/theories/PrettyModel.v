(** Model of the printed item tree: crates/hir-def/src/item_tree/pretty.rs (the request handle_item_tree,
    sourcepawn_lsp/src/handlers/request.rs 182-195). [None] is a panic: an index out of range, or an indentation
    below zero. *)
From Coq Require Import List String Ascii Bool Arith NArith.
From Verif Require Import AstIdModel TypeRefModel ItemTreeModel.
Import ListNotations.
Local Open Scope string_scope.
Local Open Scope nat_scope.
Local Open Scope list_scope.

(** pretty.rs:33-46: the buffer and the indentation; the tree is a parameter. *)
Definition printer := (string * nat)%type.
Definition step := printer -> option printer.
Definition fine : step := fun p => Some p.
Definition after (a b : step) : step := fun p => let* q := a p in b q.
Infix ">>" := after (at level 60, right associativity).

(** pretty.rs:48-63 *)
Definition newline_text : string := String "010" "".
Definition push_text (s : string) : step := fun '(b, l) => Some ((b ++ s)%string, l).
Definition indent : step := fun '(b, l) => Some (b, S l).
Definition dedent : step := fun '(b, l) => match l with S l => Some (b, l) | 0 => None end.
Definition newline : step := fun '(b, l) => Some ((b ++ newline_text ++ repeat_text l "  ")%string, l).
(** A loop. *)
Fixpoint loop {A : Type} (f : A -> step) (l : list A) : step :=
  match l with [] => fine | a :: tl => f a >> loop f tl end.
(** [self.tree[idx]] *)
Definition entry {A : Type} (l : list A) (i : nat) (f : A -> step) : step :=
  fun p => match nth_error l i with Some a => f a p | None => None end.
(** [arena[range].iter()]: a range out of bounds panics before the loop; the ones of a tree never are. *)
Definition entries {A : Type} (l : list A) (r : range) (f : A -> step) : step := loop (fun i => entry l i f) (indices r).

(** ast_id_map.rs:73-77 *)
Definition id_text (a : nat) : string := ("AstId(" ++ decimal a ++ ")")%string.
Definition comment (a : nat) : step := push_text ("// " ++ id_text a)%string >> newline.
(** item_tree.rs:73-87 [to_string]; [str::trim_end] *)
Fixpoint trim_end (s : string) : string :=
  match s with
  | EmptyString => EmptyString
  | String c r => match trim_end r with
                  | EmptyString => if Ascii.eqb c " " then EmptyString else String c EmptyString
                  | r' => String c r'
                  end
  end.
Definition visibility_words (v : N) : string :=
  trim_end ((if bit v v_public then "public " else "") ++ (if bit v v_stock then "stock " else "") ++ (if bit v v_static then "static " else ""))%string.
Definition visibility (v : N) : step := if (v =? v_none)%N then fine else push_text (visibility_words v) >> push_text " ".
Definition optional (ty : option type_ref) : step := match ty with Some ty => push_text (to_str ty) >> push_text " " | None => fine end.

Section printing.
Variable t : itree.

(** pretty.rs:69-75 *)
Definition print_macro (m : macro) : step := comment (mac_ast m) >> push_text ("#define " ++ mac_name m)%string >> newline.
(** pretty.rs:77-96 *)
Definition print_variable (v : variable) : step :=
  comment (var_ast v) >> visibility (var_vis v) >> optional (var_type v) >> push_text (var_name v) >> newline.
(** pretty.rs:98-120 *)
Definition print_enum (e : enum) : step :=
  comment (en_ast e) >> push_text ("enum " ++ en_name e ++ " {")%string >> indent >> newline >>
  entries (variants t) (en_variants e) (fun v => comment (va_ast v) >> push_text (va_name v ++ ",")%string >> newline) >>
  dedent >> push_text "};" >> newline.
(** pretty.rs:231-239, 269-277, 331-339: the parameters of a function and of a function type *)
Definition print_param (p : param) : step :=
  match par_type p with
  | Some ty => newline >> comment (par_ast p) >> push_text (to_str ty) >> push_text ","
  | None => fine
  end.
(** pretty.rs:203-252 *)
Definition print_function (f : function) : step :=
  comment (fn_ast f) >> visibility (fn_vis f) >>
  match fn_knd f with Forward => push_text "forward " | Native => push_text "native " | Def => fine end >>
  optional (fn_ret f) >> push_text (fn_name f) >> push_text "(" >> indent >>
  entries (params t) (fn_params f) print_param >>
  match fn_knd f with
  | Def => push_text ") {" >> newline >> push_text "/* body */" >> dedent >> newline >> push_text "}"
  | _ => push_text ");" >> dedent
  end >> newline.
Definition print_fn (i : nat) : step := entry (functions t) i print_function.
(** pretty.rs:122-154 *)
Definition print_es_item (i : es_item) : step :=
  match i with
  | ESField i => entry (fields t) i (fun f => comment (fld_ast f) >> push_text (to_str (fld_type f) ++ " " ++ fld_name f ++ ";")%string >> newline)
  | ESMethod i => print_fn i
  end.
Definition print_enum_struct (s : enum_struct) : step :=
  comment (es_ast s) >> push_text ("enum struct " ++ es_name s ++ " {")%string >> indent >> newline >>
  loop print_es_item (es_items s) >> dedent >> newline >> push_text "}" >> newline.
(** pretty.rs:156-201 *)
Definition print_property (p : property) : step :=
  comment (pr_ast p) >> push_text ("property " ++ to_str (pr_type p) ++ " " ++ pr_name p ++ " {")%string >> indent >> newline >>
  loop print_fn (indices (pr_accessors p)) >> dedent >> push_text "}" >> newline.
Definition print_mm_item (i : mm_item) : step :=
  match i with MMProperty i => entry (properties t) i print_property | MMMethod i => print_fn i end.
Definition print_methodmap (m : methodmap) : step :=
  comment (mm_ast m) >> push_text ("methodmap " ++ mm_name m)%string >>
  match mm_inherits m with Some i => push_text (" < " ++ i)%string | None => fine end >> push_text " {" >> indent >> newline >>
  loop print_mm_item (mm_items m) >> dedent >> newline >> push_text "}" >> newline.
(** pretty.rs:254-281 *)
Definition print_typedef (d : typedef) : step :=
  comment (td_ast d) >> match td_name d with Some n => push_text ("typedef " ++ n ++ " = ")%string | None => fine end >>
  push_text ("function " ++ to_str (td_type d))%string >> push_text "(" >> indent >> entries (params t) (td_params d) print_param >>
  push_text ");" >> dedent >> newline.
(** pretty.rs:283-300 *)
Definition print_typeset (s : typeset) : step :=
  comment (ts_ast s) >> push_text ("typeset " ++ ts_name s)%string >> newline >> indent >>
  entries (typedefs t) (ts_typedefs s) print_typedef >> dedent >> push_text "};" >> newline.
(** pretty.rs:302-343 *)
Definition type_or_nothing (ty : option type_ref) : string := match ty with Some ty => to_str ty | None => "" end.
Definition print_functag (g : functag) : step :=
  comment (ft_ast g) >>
  match ft_name g with
  | Some n => push_text ("functag public " ++ type_or_nothing (ft_type g) ++ ":" ++ n)%string
  | None => push_text (type_or_nothing (ft_type g) ++ ":public")%string
  end >> push_text "(" >> indent >> entries (params t) (ft_params g) print_param >> push_text ");" >> dedent >> newline.
(** pretty.rs:345-362 *)
Definition print_funcenum (s : funcenum) : step :=
  comment (fe_ast s) >> push_text ("funcenum " ++ fe_name s)%string >> newline >> indent >>
  entries (functags t) (fe_functags s) print_functag >> dedent >> push_text "};" >> newline.

(** pretty.rs:11-31; a property is never an item of its own in the model (item_tree/lower.rs pushes none). *)
Definition print_item (i : file_item) : step :=
  match i with
  | FFunction i => print_fn i
  | FVariable i => entry (variables t) i print_variable
  | FEnumStruct i => entry (enum_structs t) i print_enum_struct
  | FEnum i => entry (enums t) i print_enum
  | FMacro i => entry (macros t) i print_macro
  | FMethodmap i => entry (methodmaps t) i print_methodmap
  | FTypedef i => entry (typedefs t) i print_typedef
  | FTypeset i => entry (typesets t) i print_typeset
  | FFunctag i => entry (functags t) i print_functag
  | FFuncenum i => entry (funcenums t) i print_funcenum
  | FVariant _ => fine
  end.
Definition print_item_tree : option string :=
  option_map fst (loop (fun i => print_item i >> newline) (top t) ("", 0)).
End printing.
