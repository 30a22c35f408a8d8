(** Which conditions are covered by the crash-freedom theorem of #if (C20). Nothing here uses the
    evaluator. *)
From Coq Require Import List ZArith Bool String.
From Verif Require Import PreTypes.
Import ListNotations.

(** Kinds of symbols that can be part of a condition at all: operators, literals, parentheses,
    [defined], identifiers, [true], [false], comments, line ends, directives. *)
Definition condition_kind (k : kind) : Prop :=
  match k with
  | KLParen | KRParen | KDefined | KOp _ | KTrue | KFalse | KLit _ | KComment _ | KNewline | KEof
  | KDir _ | KIdent => True
  | _ => False
  end.

Definition divides (k : kind) : Prop := k = KOp OSlash \/ k = KOp OPercent.
Definition paren (k : kind) : Prop := k = KLParen \/ k = KRParen.

(** Parentheses still open after reading [ys] with [n] of them open; a closing parenthesis too many
    is ignored. *)
Fixpoint still_open (n : nat) (ys : list symbol) : nat :=
  match ys with
  | [] => n
  | y :: tl =>
      still_open (match s_kind y with KLParen => S n | KRParen => pred n | _ => n end) tl
  end.

(** A macro whose use in a condition is covered: object-like, and its body has neither division nor
    parentheses. *)
Definition tame (m : macro) : Prop :=
  m_params m = None /\
  Forall (fun r => condition_kind (r_kind r) /\ ~ divides (r_kind r) /\ ~ paren (r_kind r)) (m_body m).

Definition tame_table (ms : macros_map) : Prop := forall name m, mget ms name = Some m -> tame m.
