(** C21: termination of macro expansion. *)
From Coq Require Import List ZArith Bool String Lia.
From Verif Require Import PreTypes MacroModel MacroProofs EvalModel PreModel PreLex PreSnapshots MacroHang.
Import ListNotations.
Local Open Scope Z_scope.

(** Expanding one use of a macro ends, whatever the macro table (self-referential and mutually
    recursive definitions included), the token, the symbols that follow it and the set of disabled
    macros: there is a number of iterations after which the result does not change any more.
    Missing from the full statement: the loop of the preprocessor around it, which does not always
    end (next theorem). *)
Theorem C21_expansion_ends_partial :
  forall l m t allow dis, exists n r,
    r <> XFuel /\ forall fuel, (n <= fuel)%nat -> expand_identifier fuel l m t allow dis = r.
Proof. exact expand_identifier_ends. Qed.
Print Assumptions C21_expansion_ends_partial.

(** Mutually recursive macros, one of them function-like. *)
Definition c21_table : macros_map :=
  [("A"%string, Macro 0 0 None 0 [RSym KIdent "B" None (Delta 0 1); RSym KLParen "(" None (Delta 0 0);
                             RSym KIdent "A" None (Delta 0 0); RSym KRParen ")" None (Delta 0 0)]);
   ("B"%string, Macro 0 1 (Some [-1; 0; -1; -1; -1; -1; -1; -1; -1; -1]) 1
      [RSym KIdent "A" None (Delta 0 1); RSym (KOp OPercent) "%" None (Delta 0 1);
       RSym (KLit LInt) "1" (Some 1) (Delta 0 0)])].
Example C21_nontrivial :
  match expand_identifier 30 (Lex [] false) c21_table
          (tok (Sym KIdent "A" "A" None (Rng (Pos 0 0) (Pos 0 1)) (Delta 0 0))) true [] with
  | XOk _ pushed _ _ => pushed = [] | _ => False end.
Proof. vm_compute. reflexivity. Qed.

(** C21 refuted: there is a three line file on which preprocessing never ends. *)
Theorem C21_preprocessing_ends_refuted :
  exists text, forall fuel, preprocess snap_env fuel no_incs [] (lex_source text) = FFuel.
Proof. exists hang_text. exact hangs. Qed.
Print Assumptions C21_preprocessing_ends_refuted.
