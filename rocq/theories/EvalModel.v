(** Model of crates/preprocessor/src/evaluator.rs and preprocessor_operator.rs.
    [chk] is true for a build with overflow checks (cargo's dev profile), false for a release build,
    where i32 arithmetic wraps. *)
From Coq Require Import List ZArith Bool String.
From Verif Require Import PreTypes MacroModel.
Import ListNotations.
Local Open Scope Z_scope.

(** preprocessor_operator.rs:9-90. Defined, Qmark and RParen are never pushed. *)
Inductive preop :=
| PNot | PTilde | PNegate | PConfirm
| PStar | PSlash | PPercent | PMinus | PPlus | PShl | PShr | PUshr | PAmp | PXor | PBitor
| PLt | PLe | PGt | PGe | PEq | PNe | PAnd | POr | PLParen.

(** preprocessor_operator.rs:93-120. *)
Definition convert (o : operator) : option preop :=
  match o with
  | ONot => Some PNot | OTilde => Some PTilde | OStar => Some PStar | OSlash => Some PSlash
  | OPercent => Some PPercent | OMinus => Some PMinus | OPlus => Some PPlus
  | OShl => Some PShl | OShr => Some PShr | OUshr => Some PUshr | OAmp => Some PAmp
  | OXor => Some PXor | OOr => Some PBitor | OLt => Some PLt | OLe => Some PLe
  | OGt => Some PGt | OGe => Some PGe | OEq => Some PEq | ONe => Some PNe
  | OAndAnd => Some PAnd | OOrOr => Some POr | OStringize => None | OpOther => None
  end.

(** preprocessor_operator.rs:122-131. *)
Definition is_unary (o : preop) : bool :=
  match o with PNot | PTilde | PNegate | PConfirm => true | _ => false end.

(** preprocessor_operator.rs:133-153; 0 stands for the panic on parentheses, which the callers
    exclude. *)
Definition priority (o : preop) : Z :=
  match o with
  | PNot | PTilde | PNegate | PConfirm => 2
  | PStar | PSlash | PPercent => 3
  | PMinus | PPlus => 4
  | PShl | PShr | PUshr => 5
  | PAmp => 6 | PXor => 7 | PBitor => 8
  | PLt | PLe | PGt | PGe => 9
  | PEq | PNe => 10 | PAnd => 11 | POr => 12
  | PLParen => 0
  end.

(** i32 *)
Definition two32 : Z := 4294967296.
Definition i32_min : Z := -2147483648.
Definition i32_max : Z := 2147483647.
Definition in_i32 (z : Z) : bool := (i32_min <=? z) && (z <=? i32_max).
(** two's complement: [as i32] *)
Definition wrap32 (z : Z) : Z := (z + 2147483648) mod two32 - 2147483648.
(** [as u32] *)
Definition as_u32 (z : Z) : Z := z mod two32.

Inductive opres := OpOk (v : Z) | OpPanic.

Definition arith (chk : bool) (z : Z) : opres :=
  if in_i32 z then OpOk z else if chk then OpPanic else OpOk (wrap32 z).

(** shift amounts: a check in debug builds, masked with 31 in release builds *)
Definition shift_amount (chk : bool) (r : Z) : option Z :=
  if (0 <=? r) && (r <? 32) then Some r else if chk then None else Some (r mod 32).

Definition b2z (b : bool) : Z := if b then 1 else 0.
Definition to_bool (z : Z) : bool := negb (z =? 0).

(** preprocessor_operator.rs:164-170 *)
Definition unop (chk : bool) (o : preop) (r : Z) : opres :=
  match o with
  | PNot => OpOk (b2z (negb (to_bool r)))
  | PTilde => OpOk (Z.lnot r)
  | PNegate => arith chk (- r)
  | PConfirm => OpOk r
  | _ => OpPanic
  end.

(** preprocessor_operator.rs:180-208; [/] and [%] panic on zero and on MIN / -1 in every build *)
Definition binop (chk : bool) (o : preop) (l r : Z) : opres :=
  match o with
  | PEq => OpOk (b2z (l =? r)) | PNe => OpOk (b2z (negb (l =? r)))
  | PLt => OpOk (b2z (l <? r)) | PGt => OpOk (b2z (r <? l))
  | PLe => OpOk (b2z (l <=? r)) | PGe => OpOk (b2z (r <=? l))
  | PPlus => arith chk (l + r) | PMinus => arith chk (l - r) | PStar => arith chk (l * r)
  | PSlash => if (r =? 0) || ((l =? i32_min) && (r =? -1)) then OpPanic else OpOk (Z.quot l r)
  | PPercent => if (r =? 0) || ((l =? i32_min) && (r =? -1)) then OpPanic else OpOk (Z.rem l r)
  | PAnd => OpOk (b2z (to_bool l && to_bool r))
  | POr => OpOk (b2z (to_bool l || to_bool r))
  | PBitor => OpOk (Z.lor l r) | PXor => OpOk (Z.lxor l r) | PAmp => OpOk (Z.land l r)
  | PShl => match shift_amount chk r with
            | Some k => OpOk (wrap32 (Z.shiftl l k)) | None => OpPanic end
  | PShr => match shift_amount chk r with
            | Some k => OpOk (Z.shiftr l k) | None => OpPanic end
  | PUshr => match shift_amount chk r with
             | Some k => OpOk (wrap32 (Z.shiftr (as_u32 l) k)) | None => OpPanic end
  | _ => OpPanic
  end.

(** Result of [process_op] on the stack (head = top). *)
Inductive pres := PrOk (stk : list Z) | PrErr | PrPanic.

(** preprocessor_operator.rs:155-212; a parenthesis is not unary, so it pops two values before
    [unreachable!()]. *)
Definition process_op (chk : bool) (o : preop) (stk : list Z) : pres :=
  if is_unary o then
    match stk with
    | [] => PrErr
    | r :: tl => match unop chk o r with OpOk v => PrOk (v :: tl) | OpPanic => PrPanic end
    end
  else
    match stk with
    | r :: l :: tl => match binop chk o l r with OpOk v => PrOk (v :: tl) | OpPanic => PrPanic end
    | _ => PrErr
    end.

(** State of the loop of evaluator.rs:67-244. *)
Record evst := EvSt {
  e_out : list Z;                    (* output_queue, last first *)
  e_ops : list preop;                (* operator_stack, top first; the ranges are only reported *)
  e_unary : bool;                    (* may_be_unary *)
  e_def : bool;                      (* looking_for_defined *)
  e_stack : list token;              (* expansion_stack, top first *)
  e_iter : lexer;                    (* symbol_iter *)
  e_cur : range;                     (* current_symbol_range *)
  e_offs : list (Z * offset);        (* what was pushed to offsets *)
  e_dis : list macro                 (* disabled_macros *)
}.

Inductive eres :=
| EOk (b : bool) (offs : list (Z * offset)) (dis : list macro)
| EErr (r : range) (nf : list (string * range)) (offs : list (Z * offset)) (dis : list macro)
| EPanic
| EFuel.

Inductive estep := ENext (s : evst) | EEnd (s : evst) | EStop (r : eres).

(** evaluator.rs:86-103: the loop of a closing parenthesis *)
Fixpoint close_paren (chk : bool) (ops : list preop) (stk : list Z) (unary : bool)
  : pres * list preop * bool :=
  match ops with
  | [] => (PrOk stk, [], unary)
  | PLParen :: tl => (PrOk stk, tl, false)
  | o :: tl =>
      match process_op chk o stk with
      | PrOk stk' => close_paren chk tl stk' unary
      | r => (r, tl, unary)
      end
  end.

(** evaluator.rs:128-129 *)
Definition pops (cur top : preop) : bool :=
  if is_unary cur then priority top <? priority cur else priority top <=? priority cur.

(** evaluator.rs:124-142 *)
Fixpoint reduce (chk : bool) (cur : preop) (ops : list preop) (stk : list Z) : pres * list preop :=
  match ops with
  | [] => (PrOk stk, [])
  | PLParen :: tl => (PrOk stk, ops)
  | o :: tl =>
      if pops cur o then
        match process_op chk o stk with
        | PrOk stk' => reduce chk cur tl stk'
        | r => (r, tl)
        end
      else (PrOk stk, ops)
  end.

(** evaluator.rs:245-247 *)
Fixpoint drain (chk : bool) (ops : list preop) (stk : list Z) : pres :=
  match ops with
  | [] => PrOk stk
  | o :: tl => match process_op chk o stk with PrOk stk' => drain chk tl stk' | r => r end
  end.

Definition e_err (s : evst) : eres := EErr (e_cur s) [] (e_offs s) (e_dis s).

(** evaluator.rs:67-77: next symbol *)
Definition e_fetch (s : evst) : option (symbol * evst) :=
  match e_stack s with
  | t :: tl => Some (t_sym t, EvSt (e_out s) (e_ops s) (e_unary s) (e_def s) tl (e_iter s) (e_cur s)
                                   (e_offs s) (e_dis s))
  | [] => match lex_next (e_iter s) with
          | Some (y, l) => Some (y, EvSt (e_out s) (e_ops s) (e_unary s) (e_def s) [] l (s_range y)
                                         (e_offs s) (e_dis s))
          | None => None
          end
  end.

Definition e_push (s : evst) (v : Z) : evst :=
  EvSt (v :: e_out s) (e_ops s) false (e_def s) (e_stack s) (e_iter s) (e_cur s) (e_offs s) (e_dis s).

(** evaluator.rs:116-122 *)
Definition unary_of (o : operator) : option preop :=
  match o with
  | ONot => Some PNot | OTilde => Some PTilde | OMinus => Some PNegate | OPlus => Some PConfirm
  | _ => None
  end.

(** The body of the loop, evaluator.rs:78-243. [xf] is the fuel for macro expansion. *)
Definition e_iter1 (chk : bool) (xf : nat) (macros : macros_map) (s0 : evst) : estep :=
  match e_fetch s0 with
  | None => EEnd s0
  | Some (y, s) =>
    match s_kind y with
    | KLParen =>
        ENext (EvSt (e_out s) (PLParen :: e_ops s) (if e_def s then e_unary s else true) (e_def s)
                    (e_stack s) (e_iter s) (e_cur s) (e_offs s) (e_dis s))
    | KRParen =>
        match close_paren chk (e_ops s) (e_out s) (e_unary s) with
        | (PrOk stk, ops, unary) =>
            ENext (EvSt stk ops unary (e_def s) (e_stack s) (e_iter s) (e_cur s) (e_offs s) (e_dis s))
        | (PrErr, _, _) => EStop (e_err s)
        | (PrPanic, _, _) => EStop EPanic
        end
    | KDefined =>
        ENext (EvSt (e_out s) (e_ops s) (e_unary s) true (e_stack s) (e_iter s) (e_cur s) (e_offs s)
                    (e_dis s))
    | KOp o =>
        match convert o with
        | None => EStop (e_err s)
        | Some c =>
            let cur := if e_unary s then match unary_of o with Some u => u | None => c end else c in
            match reduce chk cur (e_ops s) (e_out s) with
            | (PrOk stk, ops) =>
                ENext (EvSt stk (cur :: ops) true (e_def s) (e_stack s) (e_iter s) (e_cur s)
                            (e_offs s) (e_dis s))
            | (PrErr, _) => EStop (e_err s)
            | (PrPanic, _) => EStop EPanic
            end
        end
    | KTrue => ENext (e_push s 1)
    | KFalse => ENext (e_push s 0)
    | KLit LInt | KLit LBin | KLit LHex | KLit LOct | KLit LChar =>
        ENext (e_push s (wrap32 (match s_int y with Some z => z | None => 0 end)))
    | KLit _ => EStop (e_err s)
    | KComment _ | KNewline | KEof => ENext s
    | KDir _ => EStop (e_err s)
    | _ =>
        if e_def s then
          match mget macros (s_text y) with
          | Some m =>
              ENext (EvSt (1 :: e_out s) (e_ops s) false false (e_stack s) (e_iter s) (e_cur s)
                      (e_offs s ++ [(pline (rstart (s_range y)),
                                     Offset (s_range y) 0 0 (m_idx m) (m_file m))]) (e_dis s))
          | None =>
              ENext (EvSt (0 :: e_out s) (e_ops s) false false (e_stack s) (e_iter s) (e_cur s)
                      (e_offs s) (e_dis s))
          end
        else
          let expand attr :=
            match expand_identifier xf (e_iter s) macros (tok y) false (e_dis s) with
            | XOk diff pushed l dis =>
                let offs := match attr with
                            | Some m => [(pline (rstart (s_range y)),
                                          Offset (s_range y) 0 diff (m_idx m) (m_file m))]
                            | None => []
                            end in
                ENext (EvSt (e_out s) (e_ops s) (e_unary s) (e_def s) (pushed ++ e_stack s) l
                            (e_cur s) (e_offs s ++ offs) dis)
            | XNotFound name r l dis => EStop (EErr (e_cur s) [(name, r)] (e_offs s) dis)
            | XParse r l dis => EStop (EErr (e_cur s) [] (e_offs s) dis)
            | XFuel => EStop EFuel
            end in
          match mget macros (s_text y) with
          | Some m =>
              if dmem m (e_dis s)
              then ENext (EvSt (e_out s) (e_ops s) (e_unary s) (e_def s) (e_stack s) (e_iter s)
                               (e_cur s) (e_offs s) (drem m (e_dis s)))
              else expand (Some m)
          | None => expand None
          end
    end
  end.

(** evaluator.rs:245-256 *)
Definition e_finish (chk : bool) (s : evst) : eres :=
  match drain chk (e_ops s) (e_out s) with
  | PrErr => e_err s
  | PrPanic => EPanic
  | PrOk [] => e_err s
  | PrOk (v :: _) => EOk (to_bool v) (e_offs s) (e_dis s)
  end.

Fixpoint e_loop (fuel : nat) (chk : bool) (xf : nat) (macros : macros_map) (s : evst) : eres :=
  match fuel with
  | O => EFuel
  | S fuel =>
      match e_iter1 chk xf macros s with
      | ENext s' => e_loop fuel chk xf macros s'
      | EEnd s' => e_finish chk s'
      | EStop r => r
      end
  end.

(** evaluator.rs:52-66: the symbols of the condition on line [line_nb]. *)
Definition evaluate (fuel : nat) (chk : bool) (macros : macros_map) (dis : list macro) (line_nb : Z)
    (syms : list symbol) : eres :=
  e_loop fuel chk fuel macros
    (EvSt [] [] true false [] (Lex (map (fun y => (y, false)) syms) false)
          (Rng (Pos line_nb 0) (Pos line_nb 1000)) [] dis).
