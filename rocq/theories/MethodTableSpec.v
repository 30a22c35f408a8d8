(** Methods, getters and setters in their place in the text. *)
From Coq Require Import List String Bool Arith.
From Verif Require Import AstIdModel AstIdSpec TypeRefModel ItemTreeModel ItemTreeSpec FindDefModel FindDefSpec.
Import ListNotations.
Local Open Scope nat_scope.
Local Open Scope list_scope.

(** The function [f] is a method of what is declared, or a getter or setter of one of its properties. *)
Definition has_member (v : view) (f : fn_view) : Prop :=
  match v with
  | VEnumStruct _ l _ => In (EVMethod f) l
  | VMethodmap _ _ l _ => In (MVMethod f) l \/ exists n ty acc p, In (MVProperty n ty acc p) l /\ In f acc
  | _ => False
  end.
(** [c] is a method, getter or setter with a name and parts as it should have, in the enum struct or methodmap [o] of the file. *)
Definition method_in (root : syn) (c o : spot) (v : view) (f : fn_view) : Prop :=
  In (s_kind (sp_node c)) function_kinds /\ alone root (sp_node c) /\
  nearest (source_file :: owners) (sp_up c) = Some o /\ alone root (sp_node o) /\ at_file_level root o /\
  In v (outline root) /\ view_at v = place_of (sp_node o) /\ has_member v f /\ fv_at f = place_of (sp_node c).
(** The number stands for the method at [c], of the enum struct or methodmap at [o]. *)
Definition is_method (root : syn) (t : itree) (d : def) (c o : syn) : Prop :=
  match d with
  | InEnumStruct i j => (exists nm, is_declaration root t (FEnumStruct i) o nm) /\
      (exists s, nth_error (enum_structs t) i = Some s /\ In (ESMethod j) (es_items s)) /\
      exists f, at_index (functions t) (view_function root t) j = Some f /\ fv_at f = place_of c
  | InMethodmap i j => (exists nm, is_declaration root t (FMethodmap i) o nm) /\
      (exists s, nth_error (methodmaps t) i = Some s /\
         (In (MMMethod j) (mm_items s) \/
          exists q pr, In (MMProperty q) (mm_items s) /\ nth_error (properties t) q = Some pr /\ In j (indices (pr_accessors pr)))) /\
      exists f, at_index (functions t) (view_function root t) j = Some f /\ fv_at f = place_of c
  | _ => False
  end.
