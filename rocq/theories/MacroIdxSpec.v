(** The two numberings of the macros of a file. *)
From Coq Require Import List ZArith Bool String.
From Verif Require Import PreTypes PreModel CondSpec VisibleSpec PreDbModel.
Import ListNotations.
Local Open Scope Z_scope.

(** crates/hir-def/src/item_tree/lower.rs:64-88: the nodes preproc_define and preproc_macro of the
    tree in order, each given by the text of its field "name" if it has one; a node without a name
    is passed over. *)
Fixpoint item_macros (nodes : list (option string)) : list string :=
  match nodes with
  | [] => []
  | Some x :: tl => x :: item_macros tl
  | None :: tl => item_macros tl
  end.
(** crates/hir-def/src/db.rs:295-308 and 404-406: the macros are numbered from 0 in that order. *)
Definition get_macro (nodes : list (option string)) (k : Z) : option string :=
  if k <? 0 then None else nth_error (item_macros nodes) (Z.to_nat k).

(** What a #define writes: itself and the symbols of its line. *)
Definition spaced (y : symbol) : string := (spaces (Z.to_nat (Z.abs (dcol (s_delta y)))) ++ s_text y)%string.
Fixpoint written (ys : list symbol) : string :=
  match ys with
  | [] => EmptyString
  | y :: tl =>
      match s_kind y with
      | KEof => EmptyString
      | KNewline => (spaces (Z.to_nat (Z.abs (dcol (s_delta y)))) ++ written tl)%string
      | _ => (spaced y ++ written tl)%string
      end
  end.

(** A run of the first query on file [g] has read the symbols [tr]. *)
Definition some_run (w : world) (g : Z) (tr : list event) : Prop :=
  exists k i0 m0 i m ok s1,
    let v := file_env w g (params_inc w (params_query k w) g) in
    v_inc v i0 m0 "sourcemod"%string false = (i, m, ok) /\
    reads v (w_fuel w) (init_st i m (w_syms w g)) tr s1.

(** The macro known as [x] is the #define with its number in its file. *)
Definition named (w : world) (x : string) (mac : macro) : Prop :=
  0 <= m_idx mac /\
  exists tr, some_run w (m_file mac) tr /\ nth_error (define_names tr) (Z.to_nat (m_idx mac)) = Some x.
Definition table_ok (w : world) (t : macros_map) : Prop := forall x mac, mget t x = Some mac -> named w x mac.
Definition params_ok (w : world) (p : params) : Prop :=
  table_ok w (p_input p) /\ forall h, table_ok w (outputs_of (p_outputs p) h).
