(** A name under the cursor, the function around it, and the declarations that the text of the function has for it. *)
From Coq Require Import List ZArith String Bool Arith.
From Verif Require Import PreTypes PosModel PosSpec AstIdModel AstIdSpec TypeRefModel ItemTreeModel ItemTreeSpec FindDefModel FindDefSpec GotoModel GotoSpec CursorModel.
From Verif Require LowerModel LowerSpec LowerProps WrittenSpec WrittenLower SaidSpec.
Import ListNotations.
Local Open Scope string_scope.
Local Open Scope nat_scope.
Local Open Scope list_scope.

(** The cursor is at [p] in the editor, in code, and the smallest node there is that of [s]. *)
Definition cursor_on (src : source) (lines : Z -> list piece) (p : pos) (s : spot) : Prop :=
  in_code lines p /\ outside_arguments src p /\ exists q, same lines p q /\ smallest (so_text src) (so_root src) q s.

(** A name that is used: it is not the name in a declaration, not a path, not behind a dot or [new], and not in a named
    argument. *)
Definition plain_use (s : spot) : Prop :=
  is_name_node s = false /\
  exists p i r, sp_up s = (p, i) :: r /\ ~ In (s_kind p) [131; 132; 159; 219] /\
    (s_kind p = 225 -> field_index "field" 0 (s_kids p) <> Some i).

(** [c] is the function around the place, and no declaration of the file before it has its name. *)
Definition in_function_named (root : syn) (s c : spot) (nm : string) (v : view) : Prop :=
  nearest around (sp_up s) = Some c /\ s_kind (sp_node c) = k_function_definition /\ name_of (sp_node c) = Some nm /\
  first_named root nm = Some v /\ view_key v = KFunction /\ view_at v = place_of (sp_node c).
(** Where the last member of that name stands, if it is a method; and for a property, where its first getter (or setter) stands. *)
Definition es_view_name (x : es_view) : string := match x with EVMethod f => fv_name f | EVField n _ _ => n end.
Definition mm_view_name (x : mm_view) : string := match x with MVMethod f => fv_name f | MVProperty n _ _ _ => n end.
Definition last_of {A} (name : A -> string) (nm : string) (l : list A) : option A := find (fun x => String.eqb (name x) nm) (rev l).
Definition method_at (v : view) (nm : string) : option ptr :=
  match v with
  | VEnumStruct _ l _ => match last_of es_view_name nm l with Some (EVMethod f) => Some (fv_at f) | _ => None end
  | VMethodmap _ _ l _ => match last_of mm_view_name nm l with Some (MVMethod f) => Some (fv_at f) | _ => None end
  | _ => None
  end.
Definition accessor_at (v : view) (nm : string) (getter : bool) : option ptr :=
  match v with
  | VMethodmap _ _ l _ =>
      match last_of mm_view_name nm l with
      | Some (MVProperty _ _ acc _) => option_map fv_at (find (fun f => String.eqb (fv_name f) (if getter then "get" else "set")) acc)
      | _ => None
      end
  | _ => None
  end.
(** [c] is the method around the place, in an enum struct or a methodmap [o]. No declaration of the file before [o] has the
    name of [o], and no member of [o] behind [c] has the name of [c]. *)
Definition in_method (root : syn) (s c : spot) (nm : string) (v : view) : Prop :=
  nearest around (sp_up s) = Some c /\ In (s_kind (sp_node c)) [168; 177; 178; 179; 180; 181; 182] /\ name_of (sp_node c) = Some nm /\
  exists o onm, parent c = Some o /\ name_of (sp_node o) = Some onm /\ first_named root onm = Some v /\ view_at v = place_of (sp_node o) /\
    method_at v nm = Some (place_of (sp_node c)).
(** [c] is the getter or setter around the place. *)
Definition in_accessor (root : syn) (s c : spot) (nm : string) (v : view) : Prop :=
  In (s_kind (sp_node c)) [185; 186] /\
  (exists e, nearest around (sp_up s) = Some e /\ (e = c \/ In (s_kind (sp_node e)) [187; 188] /\ parent e = Some c)) /\
  (forall g n, In g (children (sp_node c)) -> child_by_field_name "parameter" g = Some n -> s_kind n = 148) /\
  exists pr o onm g, parent c = Some pr /\ name_of (sp_node pr) = Some nm /\ parent pr = Some o /\ name_of (sp_node o) = Some onm /\
    first_named root onm = Some v /\ view_at v = place_of (sp_node o) /\
    find (fun n => has_kind 187 n || has_kind 188 n) (children (sp_node c)) = Some g /\
    accessor_at v nm (has_kind 187 g) = Some (place_of (sp_node c)).
(** [c] is the function, method or accessor around the place, with the block [b] for its body. *)
Definition in_definition (root : syn) (s c : spot) (b : syn) : Prop :=
  alone root (sp_node c) /\ child_by_field_name "body" (sp_node c) = Some b /\ s_kind b = 201 /\
  exists nm v, in_function_named root s c nm v \/ in_method root s c nm v \/ in_accessor root s c nm v.

(** The functions, methods and accessors of a file. *)
Definition of_file (t : itree) (d : def) : Prop :=
  match d with
  | Top x => In x (top t)
  | InEnumStruct i j => exists s, nth_error (enum_structs t) i = Some s /\ In (ESMethod j) (es_items s)
  | InMethodmap i j => exists s, nth_error (methodmaps t) i = Some s /\
      (In (MMMethod j) (mm_items s) \/
       exists p pr, In (MMProperty p) (mm_items s) /\ nth_error (properties t) p = Some pr /\ In j (indices (pr_accessors pr)))
  | InTypeset _ _ | InFuncenum _ _ => False
  end.

(** The function is written as it should be: the text of its nodes is in order, and no part of a statement that the
    lowering asks for is missing. *)
Definition well_written (root : syn) (parse_f64 : string -> option nat) (c b : syn) : Prop :=
  LowerSpec.everywhere (WrittenSpec.tidy (span_no root)) (ts_of root b) /\
  LowerSpec.everywhere WrittenSpec.complete (ts_of root b) /\
  LowerSpec.everywhere (LowerSpec.callable (environment root parse_f64)) (ts_of root b) /\
  forall n, params_list c = Some n ->
    LowerSpec.everywhere WrittenLower.holds_expression (ts_of root n) /\
    LowerSpec.everywhere (LowerSpec.callable (environment root parse_f64)) (ts_of root n).

(** At the byte [at_] of the function [c] with the body [b], the name [x] is not declared ([None]), or the declaration
    that counts is that of the node [n]. The place is not right behind a block that declares the name (C66_brace_refuted). *)
Definition means_at (root : syn) (c b : syn) (at_ : nat) (x : string) (n : option syn) : Prop :=
  ~ WrittenSpec.just_closed (span_no root) (ts_of root b) at_ x /\
  exists dcl, WrittenSpec.around (span_no root) at_ [] (ts_of root b) dcl /\
    WrittenSpec.declaration (flat_map WrittenSpec.declared_name (LowerProps.parameters (option_map (ts_of root) (params_list c)))) dcl x =
      option_map (fun n => number root (pointer n)) n.

(** ** Members *)
(** The name is the one behind the dot of [p], which is [o.x]. In [called], this is what the call [g] calls. *)
Definition behind_dot (s : spot) (p o : syn) : Prop :=
  is_name_node s = false /\ exists i r, sp_up s = (p, i) :: r /\ s_kind p = 225 /\ field_index "field" 0 (s_kids p) = Some i /\
    child_by_field_name "target" p = Some o.
Definition not_called (s : spot) : Prop := match sp_up s with _ :: (g, _) :: _ => s_kind g <> 217 | _ => True end.
Definition called (s : spot) (g p : syn) : Prop :=
  exists i j r, sp_up s = (p, i) :: (g, j) :: r /\ s_kind g = 217 /\ child_by_field_name "function" g = Some p /\
    exists a, child_by_field_name "arguments" g = Some a.
(** The name is that of the class behind [new]. *)
Definition behind_new (s : spot) (p : syn) : Prop :=
  is_name_node s = false /\ exists i r, sp_up s = (p, i) :: r /\ s_kind p = 159 /\ field_index "class" 0 (s_kids p) = Some i /\
    exists a, child_by_field_name "arguments" p = Some a.
(** The expression [n] is in the body [b] of the function, where the blocks around it declare [dcl]; the name [s] is the only node of its
    kind and range in the function. *)
Definition expression_at (root : syn) (parse_f64 : string -> option nat) (c b n s : syn) (dcl : list (list WrittenSpec.written_decl)) : Prop :=
  SaidSpec.under (environment root parse_f64) (ts_of root n) [] (ts_of root b) dcl /\
  count_occ Nat.eq_dec (map LowerModel.ptr_of (SaidSpec.all_nodes (option_map (ts_of root) (params_list c)) (ts_of root b))) (number root (pointer s)) <= 1.
