(** Model of crates/preprocessor/src/macros.rs. *)
From Coq Require Import List ZArith Bool String Ascii.
From Verif Require Import PreTypes.
Import ListNotations.
Local Open Scope Z_scope.

(** macros.rs:20-27: a token and the delta to use for it. *)
Record qtok := QTok { q_tok : token; q_delta : delta }.

(** Where [collect_arguments] takes its tokens from (macros.rs:87-93): the rest of the macro
    context being expanded, then the stack of popped symbols (top first), then the lexer. *)
Record src := Src { q_ctx : list qtok; q_popped : list token; q_lex : lexer }.

Definition pull (q : src) : option (token * src) :=
  match q_ctx q with
  | x :: tl => Some (q_tok x, Src tl (q_popped q) (q_lex q))
  | [] =>
      match q_popped q with
      | t :: tl => Some (t, Src [] tl (q_lex q))
      | [] => match lex_next (q_lex q) with
              | Some (s, l) => Some (tok s, Src [] [] l)
              | None => None
              end
      end
  end.

Definition src_len (q : src) : nat :=
  List.length (q_ctx q) + List.length (q_popped q) + List.length (lx_rest (q_lex q)).

(** [args[i].push(t)] *)
Fixpoint push_arg (args : list (list token)) (i : nat) (t : token) : list (list token) :=
  match args, i with
  | [], _ => []
  | a :: tl, O => (a ++ [t]) :: tl
  | a :: tl, S k => a :: push_arg tl k t
  end.

Inductive collected :=
| CNone (q : src)                                   (* macros.rs:102, 109: not a call *)
| CSome (args : list (list token)) (diff : Z) (q : src)
| CFuel.

Definition no_args : list (list token) := repeat [] 10.

(** macros.rs:156-159 *)
Definition paren_diff (first last : option Z) : Z :=
  match first, last with Some f, Some l => Z.max 0 (l - f) | _, _ => 0 end.

(** macros.rs:71-162, one iteration of the loop per unit of fuel; [temp] is
    temp_expanded_stack in push order. *)
Fixpoint collect (fuel : nat) (sym : symbol) (nb : nat) (q : src) (temp : list token)
    (depth : Z) (argi : nat) (args : list (list token)) (first : option Z) : collected :=
  match fuel with
  | O => CFuel
  | S fuel =>
    match pull q with
    | None => CSome args (paren_diff first None) q
    | Some (t, q') =>
        let give_back := CNone (Src (q_ctx q') ((temp ++ [t]) ++ q_popped q') (q_lex q')) in
        let body first :=
          match t_kind t with
          | KLParen =>
              let depth := depth + 1 in
              let args := if 1 <? depth then push_arg args argi t else args in
              collect fuel sym nb q' temp depth argi args first
          | KRParen =>
              let args := if 1 <? depth then push_arg args argi t else args in
              let depth := depth - 1 in
              if depth =? 0
              then CSome args (paren_diff first (Some (pcol (rend (t_range t))))) q'
              else collect fuel sym nb q' temp depth argi args first
          | KComma =>
              if depth =? 1 then
                if (S argi <? nb)%nat
                then collect fuel sym nb q' temp depth (S argi) args first
                else collect fuel sym nb q' temp depth argi (push_arg args argi t) first
              else if 1 <? depth
              then collect fuel sym nb q' temp depth argi (push_arg args argi t) first
              else collect fuel sym nb q' temp depth argi args first
          | _ =>
              let args := if 0 <? depth then push_arg args argi t else args in
              collect fuel sym nb q' temp depth argi args first
          end in
        match first with
        | Some _ => body first
        | None =>
            match t_kind t with
            | KLParen =>
                if pline (rstart (t_range t)) =? pline (rend (s_range sym))
                then body (Some (pcol (rstart (t_range t))))
                else give_back
            | KComment true => collect fuel sym nb q' (temp ++ [t]) depth argi args first
            | _ => give_back
            end
        end
    end
  end.

(** macros.rs:71-85: the call; the fuel covers every token there is. *)
Definition collect_arguments (sym : symbol) (nb : nat) (q : src) : collected :=
  collect (S (src_len q)) sym nb q [] 0 0 no_args None.

Definition zero_range : range := Rng (Pos 0 0) (Pos 0 0).

Definition is_newline (k : kind) : bool := match k with KNewline => true | _ => false end.

(** [pop_back] *)
Definition pop_back {A} (l : list A) : list A := removelast l.

(** The body symbols with ranges threaded from [prev] (macros.rs:319-326, 366-370). *)
Fixpoint body_symbols (body : list rsym) (prev : range) : list symbol :=
  match body with
  | [] => []
  | r :: tl => let s := to_symbol r prev in s :: body_symbols tl (s_range s)
  end.

(** macros.rs:310-339. *)
Definition expand_non_macro_define (m : macro) (d : delta) (prev : range) : list qtok :=
  let ctx := match body_symbols (m_body m) prev with
             | [] => []
             | s :: tl => QTok (tok s) d :: map (fun s => QTok (tok s) (s_delta s)) tl
             end in
  match rev ctx with
  | x :: _ => if is_newline (t_kind (q_tok x)) then pop_back ctx else ctx
  | [] => ctx
  end.

(** The string made at macros.rs:406-413. *)
Definition quote_char : string := String "034"%char EmptyString.
Fixpoint stringize_args (first : bool) (arg : list token) : string :=
  match arg with
  | [] => EmptyString
  | t :: tl =>
      ((if negb first && (0 <? dcol (t_delta t))%Z then spaces (Z.to_nat (dcol (t_delta t))) else "")
       ++ t_inline t ++ stringize_args false tl)%string
  end.
Definition stringize (arg : list token) : string :=
  (quote_char ++ stringize_args true arg ++ quote_char)%string.

(** macros.rs:433-446: the tokens of one argument. *)
Fixpoint arg_tokens (arg : list token) (j i : nat) (sym_delta percent_delta : delta) (depth : nat)
  : list qtok :=
  match arg with
  | [] => []
  | t :: tl =>
      let d := match i with
               | 1%nat => sym_delta
               | _ => match j with O => percent_delta | _ => t_delta t end
               end in
      let t' := match t_orig t with
                | None => match depth with O => t_set_orig t (t_range t) | _ => t end
                | Some _ => t
                end in
      QTok t' d :: arg_tokens tl (S j) i sym_delta percent_delta depth
  end.

(** macros.rs:352-471: the loop over the body; [None] is ParseIntError. [len] is
    [macro_.body.len()], [i] the index of the symbol, [cp] is consecutive_percent. *)
Fixpoint expand_macro_loop (args : list (list token)) (params : list Z) (sym : symbol) (d : delta)
    (depth len : nat) (body : list symbol) (i : nat) (ctx : list qtok) (cp : Z)
    (sd : option delta) : option (list qtok) :=
  match body with
  | [] => Some ctx
  | child :: tl =>
      let plain := QTok (tok child) (s_delta child) in
      match s_kind child with
      | KOp OPercent =>
          let cp := cp + 1 in
          let ctx := if cp mod 2 =? 1 then ctx ++ [plain] else ctx in
          expand_macro_loop args params sym d depth len tl (S i) ctx cp sd
      | KOp OStringize =>
          expand_macro_loop args params sym d depth len tl (S i) (ctx ++ [plain]) cp
            (Some (s_delta child))
      | KLit LInt =>
          if cp =? 1 then
            match rev ctx with
            | [] => None (* unwrap of an empty context: excluded, cp = 1 means a % was pushed *)
            | percent :: _ =>
              let ctx := pop_back ctx in
              match s_int child with
              | None => None
              | Some n =>
                  if (n <? 0) || (10 <=? n) then None
                  else
                    let a := nth (Z.to_nat n) params (-1) in
                    if (a <? 0) || (10 <=? a) then None
                    else
                      let arg := nth (Z.to_nat a) args [] in
                      match sd with
                      | Some sdelta =>
                          let ctx := pop_back ctx in
                          let text := stringize arg in
                          let dl := match i with 2%nat => s_delta sym | _ => sdelta end in
                          let st := Sym (KLit LStr) text text None
                                      (Rng (rstart (s_range sym))
                                           (Pos (pline (rstart (s_range sym)))
                                                (pcol (rstart (s_range sym))
                                                 + Z.of_nat (String.length text)))) dl in
                          expand_macro_loop args params sym d depth len tl (S i)
                            (ctx ++ [QTok (tok st) dl]) 0 None
                      | None =>
                          expand_macro_loop args params sym d depth len tl (S i)
                            (ctx ++ arg_tokens arg 0 i (s_delta sym) (q_delta percent) depth) 0 None
                      end
              end
            end
          else expand_macro_loop args params sym d depth len tl (S i) (ctx ++ [plain]) 0 sd
      | k =>
          if is_newline k && Nat.eqb i (len - 1)
          then expand_macro_loop args params sym d depth len tl (S i) ctx cp sd
          else
            let q := match i with O => QTok (tok child) d | _ => plain end in
            expand_macro_loop args params sym d depth len tl (S i) (ctx ++ [q]) 0 None
      end
  end.

Definition expand_macro (args : list (list token)) (m : macro) (params : list Z) (sym : symbol)
    (d : delta) (depth : nat) : option (list qtok) :=
  expand_macro_loop args params sym d depth (List.length (m_body m))
    (body_symbols (m_body m) (s_range sym)) 0 [] 0 None.

(** What [expand_identifier] leaves behind. *)
Record xstate := XSt {
  x_ctx : list (list qtok);        (* context_stack, top first *)
  x_out : list token;              (* reversed_expansion_stack, in push order *)
  x_popped : list token;           (* args_collector.popped_symbols_stack, top first *)
  x_lex : lexer;
  x_dis : list macro;              (* disabled_macros *)
  x_diff : Z                       (* args_diff *)
}.

Inductive xres :=
| XOk (diff : Z) (pushed : list token) (l : lexer) (dis : list macro)
    (* [pushed]: what is put on top of the expansion stack, top first *)
| XNotFound (name : string) (r : range) (l : lexer) (dis : list macro)
| XParse (r : range) (l : lexer) (dis : list macro)
| XFuel.

Inductive xstep := XNext (s : xstate) | XStop (r : xres).

(** The end of macros.rs:293-299. [extend(popped.rev())] puts the bottom of the popped stack on
    top; then the expanded tokens go above. *)
Definition x_finish (s : xstate) : xres :=
  XOk (x_diff s) (x_out s ++ rev (x_popped s)) (x_lex s) (x_dis s).

(** One iteration of the loop of macros.rs:203-291. *)
Definition x_iter (macros : macros_map) (t0 : token) (allow : bool) (s : xstate) : xstep :=
  match x_ctx s with
  | [] => XStop (x_finish s)
  | cur :: stack =>
    if (6 <=? List.length (x_ctx s))%nat then XStop (x_finish s)
    else
    match cur with
    | [] => XNext (XSt stack (x_out s) (x_popped s) (x_lex s) (x_dis s) (x_diff s))
    | QTok t d :: cur =>
      let emit x := XNext (XSt (cur :: stack) (x_out s ++ [x]) (x_popped s) (x_lex s) (x_dis s)
                               (x_diff s)) in
      match t_kind t with
      | KIdent =>
          match mget macros (t_text t) with
          | None =>
              if allow then emit (t_set_delta t d)
              else XStop (XNotFound (t_text t) (t_range t) (x_lex s) (x_dis s))
          | Some m =>
              match m_params m with
              | None =>
                  XNext (XSt (expand_non_macro_define m (t_delta t0) (t_range t) :: cur :: stack)
                             (x_out s) (x_popped s) (x_lex s) (x_dis s) (x_diff s))
              | Some params =>
                  match collect_arguments (t_sym t) (m_nb m) (Src cur (x_popped s) (x_lex s)) with
                  | CFuel => XStop XFuel
                  | CNone q =>
                      XNext (XSt (q_ctx q :: stack) (x_out s ++ [t]) (q_popped q) (q_lex q)
                                 (dadd m (x_dis s)) (x_diff s))
                  | CSome args diff q =>
                      let x_diff' := match stack with [] => x_diff s + diff | _ => x_diff s end in
                      match expand_macro args m params (t_sym t) (t_delta t0) (List.length stack) with
                      | None => XStop (XParse (t_range t) (q_lex q) (x_dis s))
                      | Some ctx =>
                          XNext (XSt (ctx :: q_ctx q :: stack) (x_out s) (q_popped q) (q_lex q)
                                     (x_dis s) x_diff')
                      end
                  end
              end
          end
      | KLit LStr | KLit LChar =>
          let text := t_inline t in
          let r := t_range t in
          emit (tok (Sym (t_kind t) text text (s_int (t_sym t))
                      (Rng (rstart r) (Pos (pline (rstart r))
                                           (pcol (rstart r) + Z.of_nat (String.length text))))
                      (t_delta t0)))
      | KNewline | KLineCont | KComment _ =>
          XNext (XSt (cur :: stack) (x_out s) (x_popped s) (x_lex s) (x_dis s) (x_diff s))
      | _ => emit (t_set_delta t d)
      end
    end
  end.

Fixpoint x_loop (fuel : nat) (macros : macros_map) (t0 : token) (allow : bool) (s : xstate) : xres :=
  match fuel with
  | O => XFuel
  | S fuel =>
      match x_iter macros t0 allow s with
      | XStop r => r
      | XNext s' => x_loop fuel macros t0 allow s'
      end
  end.

(** macros.rs:185-202. *)
Definition expand_identifier (fuel : nat) (l : lexer) (macros : macros_map) (t : token)
    (allow : bool) (dis : list macro) : xres :=
  x_loop fuel macros t allow (XSt [[QTok t (t_delta t)]] [] [] l dis 0).
