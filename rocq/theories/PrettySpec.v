(** The printed item tree of a file, for C68: the lines that show what the file declares, each with its
    indentation. Nothing is printed step by step here, and no table is looked into: the declarations are
    those of ItemTreeSpec. *)
From Coq Require Import List String Ascii Bool Arith DecimalString.
From Verif Require Import AstIdModel TypeRefModel ItemTreeModel.
Import ListNotations.
Local Open Scope string_scope.
Local Open Scope nat_scope.
Local Open Scope list_scope.

(** A line: how deep it is indented, and what it says. *)
Definition line := (nat * string)%type.
Definition spaces (d : nat) : string := repeat_text d "  ".
Definition line_end : string := String "010" "".
Definition render (ls : list line) : string := String.concat "" (map (fun l => (spaces (fst l) ++ snd l ++ line_end)%string) ls).

Section shown.
(** The number of the declaration at a place. *)
Variable number : ptr -> nat.

Definition id_line (d : nat) (p : ptr) : line := (d, ("// AstId(" ++ decimal (number p) ++ ")")%string).
(** What is written in front of a name. *)
Definition words (public stock static : bool) : string :=
  ((if public then "public " else "") ++ (if stock then "stock " else "") ++ (if static then "static " else ""))%string.
Definition kind_word (k : fn_kind) : string := match k with Def => "" | Forward => "forward " | Native => "native " end.
Definition in_front (ty : option type_ref) : string := match ty with Some ty => (to_str ty ++ " ")%string | None => "" end.

(** A list of parameters: those with a type, one below the other, behind the line [s] and before [close]. *)
Definition typed (d : nat) (p : param_view) : list line :=
  match pv_type p with Some ty => [id_line d (pv_at p); (d, (to_str ty ++ ",")%string)] | None => [] end.
Fixpoint closed (close : string) (ls : list line) : list line :=
  match ls with
  | [] => []
  | [(d, s)] => [(d, (s ++ close)%string)]
  | l :: tl => l :: closed close tl
  end.
Definition with_params (d : nat) (s : string) (ps : list param_view) (close : string) : list line :=
  closed close ((d, (s ++ "(")%string) :: flat_map (typed (S d)) ps).

Definition function_lines (d : nat) (f : fn_view) : list line :=
  let s := (words (fv_public f) (fv_stock f) (fv_static f) ++ kind_word (fv_kind f) ++ in_front (fv_ret f) ++ fv_name f)%string in
  id_line d (fv_at f) ::
  match fv_kind f with
  | Def => with_params d s (fv_params f) ") {" ++ [(S d, "/* body */"); (d, "}")]
  | _ => with_params d s (fv_params f) ");"
  end.
Definition typedef_lines (d : nat) (x : typedef_view) : list line :=
  id_line d (tv_at x) ::
  with_params d ((match tv_name x with Some n => "typedef " ++ n ++ " = " | None => "" end) ++ "function " ++ to_str (tv_type x))%string (tv_params x) ");".
Definition functag_lines (d : nat) (g : functag_view) : list line :=
  let ty := match gv_type g with Some ty => to_str ty | None => "" end in
  id_line d (gv_at g) ::
  with_params d (match gv_name g with Some n => "functag public " ++ ty ++ ":" ++ n | None => ty ++ ":public" end)%string (gv_params g) ");".
Definition variant_lines (d : nat) (v : variant_view) : list line := [id_line d (vv_at v); (d, (vv_name v ++ ",")%string)].
Definition es_lines (d : nat) (x : es_view) : list line :=
  match x with
  | EVMethod f => function_lines d f
  | EVField n ty p => [id_line d p; (d, (to_str ty ++ " " ++ n ++ ";")%string)]
  end.
(** The closing brace of a property, of an enum and of a set of function types is indented like the members. *)
Definition mm_lines (d : nat) (x : mm_view) : list line :=
  match x with
  | MVMethod f => function_lines d f
  | MVProperty n ty acc p =>
      [id_line d p; (d, ("property " ++ to_str ty ++ " " ++ n ++ " {")%string)] ++ flat_map (function_lines (S d)) acc ++ [(S d, "}")]
  end.
(** The first line behind the name of a set of function types is not indented. *)
Definition behind (d : nat) (ls : list line) : list line := match ls with [] => [] | (_, s) :: tl => (d, s) :: tl end.
Definition view_lines (v : view) : list line :=
  match v with
  | VFunction f => function_lines 0 f
  | VVariable n pu sk sc ty p => [id_line 0 p; (0, (words pu sk sc ++ in_front ty ++ n)%string)]
  | VMacro n p => [id_line 0 p; (0, ("#define " ++ n)%string)]
  | VEnumStruct n items p => [id_line 0 p; (0, ("enum struct " ++ n ++ " {")%string)] ++ flat_map (es_lines 1) items ++ [(1, ""); (0, "}")]
  | VMethodmap n inh items p =>
      [id_line 0 p; (0, ("methodmap " ++ n ++ (match inh with Some i => " < " ++ i | None => "" end) ++ " {")%string)] ++
      flat_map (mm_lines 1) items ++ [(1, ""); (0, "}")]
  | VEnum n vs p => [id_line 0 p; (0, ("enum " ++ n ++ " {")%string)] ++ flat_map (variant_lines 1) vs ++ [(1, "};")]
  | VVariant _ => []
  | VTypedef x => typedef_lines 0 x
  | VTypeset n ds p => [id_line 0 p; (0, ("typeset " ++ n)%string)] ++ behind 0 (flat_map (typedef_lines 1) ds ++ [(1, "};")])
  | VFunctag g => functag_lines 0 g
  | VFuncenum n gs p => [id_line 0 p; (0, ("funcenum " ++ n)%string)] ++ behind 0 (flat_map (functag_lines 1) gs ++ [(1, "};")])
  end.
(** Behind every declaration of the file there is an empty line; for the variants of an enum, which are
    declarations of the file too, there is nothing else. *)
Definition shown (vs : list view) : list line := flat_map (fun v => view_lines v ++ [(0, "")]) vs.
End shown.

(** The number under which the ids of the file know a place. *)
Definition number (root : syn) (p : ptr) : nat := match insert_all 0 (arena (plain root)) p None with Some k => k | None => 0 end.

(** ** Reading the numbers off the text *)
Definition newline_char : ascii := "010".
Definition slash : ascii := "/".
Fixpoint lines_of (s : string) : list string :=
  match s with
  | "" => [""]
  | String c tl => if Ascii.eqb c newline_char then "" :: lines_of tl
                   else match lines_of tl with l :: ls => String c l :: ls | [] => [String c ""] end
  end.
Fixpoint unindented (s : string) : string :=
  match s with String c tl => if Ascii.eqb c " " then unindented tl else s | "" => "" end.
Fixpoint without (n : nat) (s : string) : string := match n, s with S n, String _ tl => without n tl | _, _ => s end.
Fixpoint up_to_paren (s : string) : string :=
  match s with String c tl => if Ascii.eqb c ")" then "" else String c (up_to_paren tl) | "" => "" end.
Definition id_on (l : string) : list nat :=
  let s := unindented l in
  if prefix "// AstId(" s then match DecimalString.NilEmpty.uint_of_string (up_to_paren (without 9 s)) with Some u => [Nat.of_uint u] | None => [] end else [].
Definition ids_on (text : string) : list nat := flat_map id_on (lines_of text).

(** The places of the declarations that are shown, each before its parts. *)
Definition shown_params (ps : list param_view) : list ptr := flat_map (fun p => match pv_type p with Some _ => [pv_at p] | None => [] end) ps.
Definition fn_places (f : fn_view) : list ptr := fv_at f :: shown_params (fv_params f).
Definition typedef_places (x : typedef_view) : list ptr := tv_at x :: shown_params (tv_params x).
Definition functag_places (x : functag_view) : list ptr := gv_at x :: shown_params (gv_params x).
Definition es_places (x : es_view) : list ptr := match x with EVMethod f => fn_places f | EVField _ _ p => [p] end.
Definition mm_places (x : mm_view) : list ptr := match x with MVMethod f => fn_places f | MVProperty _ _ acc p => p :: flat_map fn_places acc end.
Definition places (v : view) : list ptr :=
  match v with
  | VFunction f => fn_places f
  | VVariable _ _ _ _ _ p | VMacro _ p => [p]
  | VEnumStruct _ xs p => p :: flat_map es_places xs
  | VMethodmap _ _ xs p => p :: flat_map mm_places xs
  | VEnum _ vs p => p :: map vv_at vs
  | VVariant _ => []
  | VTypedef x => typedef_places x
  | VTypeset _ ds p => p :: flat_map typedef_places ds
  | VFunctag g => functag_places g
  | VFuncenum _ gs p => p :: flat_map functag_places gs
  end.

(** The names and types in a declaration. *)
Definition opt_type (ty : option type_ref) : list string := match ty with Some ty => [to_str ty] | None => [] end.
Definition param_texts (p : param_view) : list string := opt_type (pv_type p).
Definition fn_texts (f : fn_view) : list string := fv_name f :: opt_type (fv_ret f) ++ flat_map param_texts (fv_params f).
Definition opt_name (n : option string) : list string := match n with Some n => [n] | None => [] end.
Definition typedef_texts (x : typedef_view) : list string := opt_name (tv_name x) ++ to_str (tv_type x) :: flat_map param_texts (tv_params x).
Definition functag_texts (x : functag_view) : list string := opt_name (gv_name x) ++ opt_type (gv_type x) ++ flat_map param_texts (gv_params x).
Definition es_texts (x : es_view) : list string := match x with EVMethod f => fn_texts f | EVField n ty _ => [n; to_str ty] end.
Definition mm_texts (x : mm_view) : list string := match x with MVMethod f => fn_texts f | MVProperty n ty acc _ => n :: to_str ty :: flat_map fn_texts acc end.
Definition texts (v : view) : list string :=
  match v with
  | VFunction f => fn_texts f
  | VVariable n _ _ _ ty _ => n :: opt_type ty
  | VMacro n _ => [n]
  | VEnumStruct n xs _ => n :: flat_map es_texts xs
  | VMethodmap n inh xs _ => n :: opt_name inh ++ flat_map mm_texts xs
  | VEnum n vs _ => n :: map vv_name vs
  | VVariant _ => []
  | VTypedef x => typedef_texts x
  | VTypeset n ds _ => n :: flat_map typedef_texts ds
  | VFunctag g => functag_texts g
  | VFuncenum n gs _ => n :: flat_map functag_texts gs
  end.
(** No slash, no line end: so it is with all names and types the grammar knows. *)
Fixpoint clean (s : string) : Prop := match s with "" => True | String c tl => c <> slash /\ c <> newline_char /\ clean tl end.
