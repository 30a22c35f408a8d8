(** Model of crates/preprocessor/src/lib.rs. *)
From Coq Require Import List ZArith Bool String Ascii.
From Verif Require Import PreTypes MacroModel EvalModel.
Import ListNotations.
Local Open Scope Z_scope.

(** lib.rs:36-47. *)
Inductive cond_state := NotActivated | Activated | Active.

(** lib.rs:113-119. *)
Inductive intrinsics := IUsing | IDot | IIntrinsics | IHandle.

(** What the preprocessor is given besides the symbols (lib.rs:125-145):
    - [v_inc captured macros path quoted] is the include callback (lib.rs:73): what it captured, the
      macro table it leaves and whether it returned Ok (its two instances are in PreDbModel);
    - [v_chevron], [v_quote] are the first capture groups of the regular expressions of
      base_db::RE_CHEVRON and RE_QUOTE (lib.rs:636, 660);
    - [v_trim] is str::trim;
    - [v_chk]: see EvalModel. *)
Record env := Env {
  v_inc : incs_t -> macros_map -> string -> bool -> incs_t * macros_map * bool;
  v_chevron : string -> option string;
  v_quote : string -> option string;
  v_trim : string -> string;
  v_file : Z;
  v_chk : bool
}.

(** lib.rs:54-78, and the locals of [preprocess_input] (lib.rs:273-276): [intr] is
    intrinsics_parse_status, [col_off] col_offset, [exp_sym] expanded_symbol with (idx, file id),
    [adiff] args_diff. [estack] and [conds] are top first; [offsets] and [args_map] list
    (line, entry) in push order instead of a map from line to entries; [incs] is what the include
    callback captured. *)
Record st := St {
  idx : Z;
  lex : lexer;
  macros : macros_map;
  estack : list token;
  skip_col : Z;
  skipped : list range;
  err_notfound : list (string * range);
  err_eval : list range;
  err_include : list (string * Z);
  cur_line : string;
  conds : list cond_state;
  out : list string;
  offsets : list (Z * offset);
  args_map : list (Z * (range * range));
  disabled : list macro;
  cur_pos : pos;
  intr : option intrinsics;
  col_off : option Z;
  exp_sym : option (symbol * (Z * Z));
  adiff : Z;
  incs : incs_t
}.

Definition set_idx (v : Z) (s : st) : st :=
  St v (lex s) (macros s) (estack s) (skip_col s) (skipped s) (err_notfound s) (err_eval s) (err_include s) (cur_line s) (conds s) (out s) (offsets s) (args_map s) (disabled s) (cur_pos s) (intr s) (col_off s) (exp_sym s) (adiff s) (incs s).
Definition set_lex (v : lexer) (s : st) : st :=
  St (idx s) v (macros s) (estack s) (skip_col s) (skipped s) (err_notfound s) (err_eval s) (err_include s) (cur_line s) (conds s) (out s) (offsets s) (args_map s) (disabled s) (cur_pos s) (intr s) (col_off s) (exp_sym s) (adiff s) (incs s).
Definition set_macros (v : macros_map) (s : st) : st :=
  St (idx s) (lex s) v (estack s) (skip_col s) (skipped s) (err_notfound s) (err_eval s) (err_include s) (cur_line s) (conds s) (out s) (offsets s) (args_map s) (disabled s) (cur_pos s) (intr s) (col_off s) (exp_sym s) (adiff s) (incs s).
Definition set_estack (v : list token) (s : st) : st :=
  St (idx s) (lex s) (macros s) v (skip_col s) (skipped s) (err_notfound s) (err_eval s) (err_include s) (cur_line s) (conds s) (out s) (offsets s) (args_map s) (disabled s) (cur_pos s) (intr s) (col_off s) (exp_sym s) (adiff s) (incs s).
Definition set_skip_col (v : Z) (s : st) : st :=
  St (idx s) (lex s) (macros s) (estack s) v (skipped s) (err_notfound s) (err_eval s) (err_include s) (cur_line s) (conds s) (out s) (offsets s) (args_map s) (disabled s) (cur_pos s) (intr s) (col_off s) (exp_sym s) (adiff s) (incs s).
Definition set_skipped (v : list range) (s : st) : st :=
  St (idx s) (lex s) (macros s) (estack s) (skip_col s) v (err_notfound s) (err_eval s) (err_include s) (cur_line s) (conds s) (out s) (offsets s) (args_map s) (disabled s) (cur_pos s) (intr s) (col_off s) (exp_sym s) (adiff s) (incs s).
Definition set_err_notfound (v : list (string * range)) (s : st) : st :=
  St (idx s) (lex s) (macros s) (estack s) (skip_col s) (skipped s) v (err_eval s) (err_include s) (cur_line s) (conds s) (out s) (offsets s) (args_map s) (disabled s) (cur_pos s) (intr s) (col_off s) (exp_sym s) (adiff s) (incs s).
Definition set_err_eval (v : list range) (s : st) : st :=
  St (idx s) (lex s) (macros s) (estack s) (skip_col s) (skipped s) (err_notfound s) v (err_include s) (cur_line s) (conds s) (out s) (offsets s) (args_map s) (disabled s) (cur_pos s) (intr s) (col_off s) (exp_sym s) (adiff s) (incs s).
Definition set_err_include (v : list (string * Z)) (s : st) : st :=
  St (idx s) (lex s) (macros s) (estack s) (skip_col s) (skipped s) (err_notfound s) (err_eval s) v (cur_line s) (conds s) (out s) (offsets s) (args_map s) (disabled s) (cur_pos s) (intr s) (col_off s) (exp_sym s) (adiff s) (incs s).
Definition set_cur_line (v : string) (s : st) : st :=
  St (idx s) (lex s) (macros s) (estack s) (skip_col s) (skipped s) (err_notfound s) (err_eval s) (err_include s) v (conds s) (out s) (offsets s) (args_map s) (disabled s) (cur_pos s) (intr s) (col_off s) (exp_sym s) (adiff s) (incs s).
Definition set_conds (v : list cond_state) (s : st) : st :=
  St (idx s) (lex s) (macros s) (estack s) (skip_col s) (skipped s) (err_notfound s) (err_eval s) (err_include s) (cur_line s) v (out s) (offsets s) (args_map s) (disabled s) (cur_pos s) (intr s) (col_off s) (exp_sym s) (adiff s) (incs s).
Definition set_out (v : list string) (s : st) : st :=
  St (idx s) (lex s) (macros s) (estack s) (skip_col s) (skipped s) (err_notfound s) (err_eval s) (err_include s) (cur_line s) (conds s) v (offsets s) (args_map s) (disabled s) (cur_pos s) (intr s) (col_off s) (exp_sym s) (adiff s) (incs s).
Definition set_offsets (v : list (Z * offset)) (s : st) : st :=
  St (idx s) (lex s) (macros s) (estack s) (skip_col s) (skipped s) (err_notfound s) (err_eval s) (err_include s) (cur_line s) (conds s) (out s) v (args_map s) (disabled s) (cur_pos s) (intr s) (col_off s) (exp_sym s) (adiff s) (incs s).
Definition set_args_map (v : list (Z * (range * range))) (s : st) : st :=
  St (idx s) (lex s) (macros s) (estack s) (skip_col s) (skipped s) (err_notfound s) (err_eval s) (err_include s) (cur_line s) (conds s) (out s) (offsets s) v (disabled s) (cur_pos s) (intr s) (col_off s) (exp_sym s) (adiff s) (incs s).
Definition set_disabled (v : list macro) (s : st) : st :=
  St (idx s) (lex s) (macros s) (estack s) (skip_col s) (skipped s) (err_notfound s) (err_eval s) (err_include s) (cur_line s) (conds s) (out s) (offsets s) (args_map s) v (cur_pos s) (intr s) (col_off s) (exp_sym s) (adiff s) (incs s).
Definition set_cur_pos (v : pos) (s : st) : st :=
  St (idx s) (lex s) (macros s) (estack s) (skip_col s) (skipped s) (err_notfound s) (err_eval s) (err_include s) (cur_line s) (conds s) (out s) (offsets s) (args_map s) (disabled s) v (intr s) (col_off s) (exp_sym s) (adiff s) (incs s).
Definition set_intr (v : option intrinsics) (s : st) : st :=
  St (idx s) (lex s) (macros s) (estack s) (skip_col s) (skipped s) (err_notfound s) (err_eval s) (err_include s) (cur_line s) (conds s) (out s) (offsets s) (args_map s) (disabled s) (cur_pos s) v (col_off s) (exp_sym s) (adiff s) (incs s).
Definition set_col_off (v : option Z) (s : st) : st :=
  St (idx s) (lex s) (macros s) (estack s) (skip_col s) (skipped s) (err_notfound s) (err_eval s) (err_include s) (cur_line s) (conds s) (out s) (offsets s) (args_map s) (disabled s) (cur_pos s) (intr s) v (exp_sym s) (adiff s) (incs s).
Definition set_exp_sym (v : option (symbol * (Z * Z))) (s : st) : st :=
  St (idx s) (lex s) (macros s) (estack s) (skip_col s) (skipped s) (err_notfound s) (err_eval s) (err_include s) (cur_line s) (conds s) (out s) (offsets s) (args_map s) (disabled s) (cur_pos s) (intr s) (col_off s) v (adiff s) (incs s).
Definition set_adiff (v : Z) (s : st) : st :=
  St (idx s) (lex s) (macros s) (estack s) (skip_col s) (skipped s) (err_notfound s) (err_eval s) (err_include s) (cur_line s) (conds s) (out s) (offsets s) (args_map s) (disabled s) (cur_pos s) (intr s) (col_off s) (exp_sym s) v (incs s).
Definition set_incs (v : incs_t) (s : st) : st :=
  St (idx s) (lex s) (macros s) (estack s) (skip_col s) (skipped s) (err_notfound s) (err_eval s) (err_include s) (cur_line s) (conds s) (out s) (offsets s) (args_map s) (disabled s) (cur_pos s) (intr s) (col_off s) (exp_sym s) (adiff s) v.

(** How a run ends. *)
Inductive final := FResult (s : st)       (* lib.rs:419: text is [out] joined *)
                 | FError (s : st)        (* lib.rs:187-199: text is the input *)
                 | FPanic
                 | FFuel.

Inductive step_res := Next (s : st) | Stop (f : final).

(** lib.rs:734-738 *)
Definition push_ws (y : symbol) (s : st) : st :=
  let n := Z.abs (dcol (s_delta y)) in
  set_cur_line (cur_line s ++ spaces (Z.to_nat n))%string
    (set_cur_pos (Pos (pline (cur_pos s)) (pcol (cur_pos s) + n)) s).

(** lib.rs:740-744 *)
Definition push_current_line (s : st) : st :=
  set_out (out s ++ [cur_line s]) (set_cur_pos (Pos (pline (cur_pos s) + 1) 0) s).

(** lib.rs:756-758 *)
Definition reset_current_line (s : st) : st := set_cur_line EmptyString s.

Definition push_text (t : string) (s : st) : st := set_cur_line (cur_line s ++ t)%string s.

(** lib.rs:746-754 *)
Definition push_symbol (y : symbol) (s : st) : st :=
  match s_kind y with
  | KEof => push_current_line s
  | _ =>
      let s := push_ws y s in
      push_text (s_text y)
        (set_cur_pos (Pos (pline (cur_pos s)) (pcol (cur_pos s) + Z.of_nat (String.length (s_text y)))) s)
  end.

(** lib.rs:760-780 *)
Definition current_range (t : token) (s : st) : range :=
  let c := sat (pcol (cur_pos s)) (dcol (t_delta t)) in
  Rng (Pos (pline (cur_pos s)) c)
      (Pos (pline (cur_pos s))
           (c + Z.max 0 (pcol (rend (t_range t)) - pcol (rstart (t_range t))))).

(** lib.rs:430-436: the symbols up to the end of the directive. *)
Fixpoint take_directive (rest : list (symbol * bool)) : list symbol * lexer :=
  match rest with
  | [] => ([], Lex [] true)
  | (y, pp) :: tl =>
      if pp then let (ys, l) := take_directive tl in (y :: ys, l) else ([y], Lex tl pp)
  end.
Definition directive_symbols (l : lexer) : list symbol * lexer :=
  if lx_pp l then take_directive (lx_rest l) else ([], l).

(** [n] empty lines (lib.rs:457-459, 689-691). *)
Definition push_blank (n : nat) (s : st) : st := set_out (out s ++ repeat EmptyString n) s.

(** lib.rs:422-461 *)
Definition process_if (v : env) (fuel : nat) (y : symbol) (s : st) : step_res :=
  let line_nb := pline (rstart (s_range y)) in
  let (syms, l) := directive_symbols (lex s) in
  let s := set_lex l s in
  let finish b evl nf offs dis :=
    let s := set_offsets (offsets s ++ offs) (set_disabled dis s) in
    let s := set_err_eval (err_eval s ++ evl) s in
    let s := if (b : bool) then set_conds (Active :: conds s) s
             else set_conds (NotActivated :: conds s)
                    (set_skip_col (pcol (rend (s_range y))) s) in
    let s := set_err_notfound (err_notfound s ++ nf) s in
    match rev syms with
    | last :: _ => Next (push_blank (Z.to_nat (pline (rend (s_range last)) - line_nb)) s)
    | [] => Next s
    end in
  match evaluate fuel (v_chk v) (macros s) (disabled s) line_nb syms with
  | EOk b offs dis => finish b [] [] offs dis
  | EErr r nf offs dis => finish false [r] nf offs dis
  | EPanic => Stop FPanic
  | EFuel => Stop FFuel
  end.

(** lib.rs:463-479; None is the error *)
Definition process_else (y : symbol) (s : st) : option st :=
  match conds s with
  | [] => None
  | NotActivated :: tl => Some (set_conds (Active :: tl) s)
  | _ :: tl => Some (set_conds (Activated :: tl) (set_skip_col (pcol (rend (s_range y))) s))
  end.

(** lib.rs:481-496 *)
Definition process_endif (y : symbol) (s : st) : option st :=
  match conds s with
  | [] => None
  | _ :: tl =>
      let s := set_conds tl s in
      match tl with
      | NotActivated :: _ | Activated :: _ =>
          Some (set_skipped (skipped s ++
            [Rng (Pos (pline (rstart (s_range y))) (skip_col s))
                 (Pos (pline (rstart (s_range y))) (pcol (rend (s_range y))))]) s)
      | _ => Some s
      end
  end.

(** #elseif, lib.rs:501-512 and 704-715 *)
Definition process_elseif (v : env) (fuel : nat) (y : symbol) (s : st) : step_res :=
  match conds s with
  | [] => Stop (FError s)
  | NotActivated :: tl => process_if v fuel y (set_conds tl s)
  | _ :: tl => Next (set_conds (Activated :: tl) s)
  end.

(** State of the #define loop: lib.rs:515-525. *)
Inductive dstate := DStart | DParams | DBody.
Record def := Def {
  d_name : string; d_body : list rsym; d_args : list Z; d_found : bool; d_state : dstate;
  d_idx : Z
}.

Fixpoint set_nth (l : list Z) (i : nat) (v : Z) : list Z :=
  match l, i with
  | [], _ => []
  | _ :: tl, O => v :: tl
  | x :: tl, S k => x :: set_nth tl k v
  end.

(** One symbol of a #define, lib.rs:535-587; None is a bail. [d_idx] is an i8 in the code; here it
    does not wrap. *)
Definition define_symbol (y : symbol) (d : def) : option def :=
  let to_body := Def (d_name d) (d_body d ++ [rsym_of y]) (d_args d) (d_found d) DBody (d_idx d) in
  match d_state d with
  | DStart =>
      if String.eqb (d_name d) EmptyString && kind_eqb (s_kind y) KIdent
      then Some (Def (s_text y) (d_body d) (d_args d) (d_found d) DStart (d_idx d))
      else if (dcol (s_delta y) =? 0) && kind_eqb (s_kind y) KLParen
      then Some (Def (d_name d) (d_body d) (d_args d) (d_found d) DParams (d_idx d))
      else Some to_body
  | DParams =>
      if 0 <? dcol (s_delta y) then Some to_body
      else
        match s_kind y with
        | KRParen => Some (Def (d_name d) (d_body d) (d_args d) (d_found d) DBody (d_idx d))
        | KLit LInt =>
            match s_int y with
            | None => None
            | Some n =>
                if (n <? 0) || (Z.of_nat (List.length (d_args d)) <=? n) then None
                else Some (Def (d_name d) (d_body d) (set_nth (d_args d) (Z.to_nat n) (d_idx d)) true
                               DParams (d_idx d))
            end
        | KComma => Some (Def (d_name d) (d_body d) (d_args d) (d_found d) DParams (d_idx d + 1))
        | KOp OPercent => Some d
        | _ => None
        end
  | DBody => Some to_body
  end.

(** What the define loop writes for each symbol, lib.rs:531-534. *)
Definition echo (y : symbol) (s : st) : st :=
  let s := push_ws y s in
  match s_kind y with KNewline | KEof => s | _ => push_text (s_text y) s end.

(** The #define loop, lib.rs:526-589. When the flag [in_preprocessor] is still set and the lexer is
    exhausted the Rust loop does not end: [DHang]. *)
Inductive dres := DOk (d : def) (s : st) | DBail (s : st) | DHang.
Fixpoint define_loop (rest : list (symbol * bool)) (d : def) (s : st) : dres :=
  match rest with
  | [] => DHang
  | (y, pp) :: tl =>
      let s := set_lex (Lex tl pp) s in
      match s_kind y with
      | KEof => DOk d s
      | _ =>
          let s := echo y s in
          match define_symbol y d with
          | None => DBail s
          | Some d => if pp then define_loop tl d s else DOk d s
          end
      end
  end.

(** lib.rs:591: how many parameter numbers are bound *)
Definition count_params (args : list Z) : nat :=
  List.length (filter (fun n => negb (n =? -1)) args).

(** lib.rs:155-159 with the construction of lib.rs:590-596 *)
Definition define_finish (v : env) (d : def) (s : st) : st :=
  let s := reset_current_line (push_current_line s) in
  let m := if d_found d
           then Macro (v_file v) (idx s) (Some (d_args d)) (count_params (d_args d)) (d_body d)
           else Macro (v_file v) (idx s) None 0 (d_body d) in
  set_macros (mset (macros s) (d_name d) m) (set_idx (idx s + 1) s).

Definition def0 : def := Def EmptyString [] (repeat (-1) 10) false DStart 0.

(** lib.rs:513-597 *)
Definition process_define (v : env) (y : symbol) (s : st) : step_res :=
  let s := push_symbol y s in
  if lx_pp (lex s) then
    match define_loop (lx_rest (lex s)) def0 s with
    | DOk d s => Next (define_finish v d s)
    | DBail s => Stop (FError s)
    | DHang => Stop FFuel
    end
  else Next (define_finish v def0 s).

(** lib.rs:598-612 *)
Fixpoint undef_loop (rest : list (symbol * bool)) (s : st) : step_res :=
  match rest with
  | [] => Stop FFuel   (* in_preprocessor() stays true and next() is None: no exit *)
  | (y, pp) :: tl =>
      let s := echo y (set_lex (Lex tl pp) s) in
      if kind_eqb (s_kind y) KIdent then Next (set_macros (mdel (macros s) (s_text y)) s)
      else if pp then undef_loop tl s else Next s
  end.
Definition process_undef (y : symbol) (s : st) : step_res :=
  let s := push_symbol y s in
  if lx_pp (lex s) then undef_loop (lx_rest (lex s)) s else Next s.

(** One of the two lookups of lib.rs:636-683. *)
Definition include_path (v : env) (path : option string) (quoted is_try : bool) (line : Z) (s : st) : st :=
  match path with
  | None => s
  | Some p =>
      let '(i, m, ok) := v_inc v (incs s) (macros s) p quoted in
      let s := set_macros m (set_incs i s) in
      if ok || is_try then s else set_err_include (err_include s ++ [(p, line)]) s
  end.

(** lib.rs:623-693. The range of the rebuilt symbol is only used for error positions; of those only
    the line is kept. *)
Definition process_include (v : env) (y : symbol) (is_try : bool) (s : st) : st :=
  let text := v_trim v (s_inline y) in
  let line := pline (rstart (s_range y)) in
  let delta := pline (rend (s_range y)) - line in
  let s := include_path v (v_chevron v text) false is_try line s in
  let s := include_path v (v_quote v text) true is_try line s in
  let s := push_symbol (Sym (s_kind y) text text (s_int y) (s_range y) (s_delta y)) s in
  if 0 <? delta
  then push_blank (Z.to_nat (delta - 1)) (reset_current_line (push_current_line s))
  else s.

Definition opt_step (s : st) (r : option st) : step_res :=
  match r with Some s' => Next s' | None => Stop (FError s) end.

(** lib.rs:498-621 *)
Definition process_directive (v : env) (fuel : nat) (d : dir) (y : symbol) (s : st) : step_res :=
  match d with
  | MIf => process_if v fuel y s
  | MElseif => process_elseif v fuel y s
  | MDefine => process_define v y s
  | MUndef => process_undef y s
  | MEndif => opt_step s (process_endif y s)
  | MElse => opt_step s (process_else y s)
  | MInclude => Next (process_include v y false s)
  | MTryinclude => Next (process_include v y true s)
  | MOther => Next (push_symbol y s)
  end.

(** lib.rs:695-732 *)
Definition process_negative (v : env) (fuel : nat) (y : symbol) (s : st) : step_res :=
  match s_kind y with
  | KDir MIf => Next (set_conds (Activated :: conds s) s)
  | KDir MEndif => opt_step s (process_endif y s)
  | KDir MElse => opt_step s (process_else y s)
  | KDir MElseif => process_elseif v fuel y s
  | KNewline =>
      let s := push_current_line s in
      let line := pline (rstart (s_range y)) in
      Next (reset_current_line
        (set_skipped (skipped s ++ [Rng (Pos line (skip_col s)) (Pos line (pcol (rstart (s_range y))))]) s))
  | _ => Next s
  end.

Definition handle_text : string :=
  "methodmap Handle __nullable__ {public native ~Handle();public native void Close();};".

(** Active code: lib.rs:326-416 *)
Definition process_active (v : env) (fuel : nat) (t : token) (s : st) : step_res :=
  let y := t_sym t in
  match s_kind y with
  | KUnknown => Stop (FError s)
  | KDir d => process_directive v fuel d y s
  | KNewline => Next (reset_current_line (push_current_line (push_ws y s)))
  | KIdent =>
      match intr s with
      | Some IDot =>
          let s := if String.eqb (s_text y) "Handle" then push_text handle_text s else s in
          Next (set_intr (Some IHandle) s)
      | _ =>
          match mget (macros s) (s_text y) with
          | None => Next (push_symbol y s)
          | Some m =>
              if dmem m (disabled s)
              then Next (push_symbol y (set_disabled (drem m (disabled s)) s))
              else
                match expand_identifier fuel (lex s) (macros s) t true (disabled s) with
                | XOk diff pushed l dis =>
                    Next (set_adiff diff (set_exp_sym (Some (y, (m_idx m, m_file m)))
                      (set_estack (pushed ++ estack s) (set_lex l (set_disabled dis s)))))
                | XNotFound name r l dis =>
                    Stop (FError (set_err_notfound (err_notfound s ++ [(name, r)]) s))
                | XParse _ _ _ => Stop (FError s)
                | XFuel => Stop FFuel
                end
          end
      end
  | KUsing => Next (set_intr (match intr s with None => Some IUsing | Some _ => None end) s)
  | KIntrinsics =>
      Next (set_intr (match intr s with Some IUsing => Some IIntrinsics | _ => None end) s)
  | KSemi =>
      let s' := set_intr None s in
      match intr s with Some IHandle => Next s' | _ => Next (push_symbol y s') end
  | KDot =>
      match intr s with
      | Some IIntrinsics => Next (set_intr (Some IDot) s)
      | _ => Next (push_symbol y s)
      end
  | KEof => Stop (FResult (push_current_line (push_ws y s)))
  | _ => Next (push_symbol y s)
  end.

(** lib.rs:277-307: where the next token comes from. *)
Definition fetch (s : st) : option (token * st) :=
  match estack s with
  | t :: tl =>
      let len := Z.of_nat (String.length (t_inline t)) in
      Some (t, set_col_off (Some (match col_off s with
                                  | None => len
                                  | Some o => o + dcol (t_delta t) + len end))
                 (set_estack tl s))
  | [] =>
      let s' := set_exp_sym None s in
      match lex_next (lex s) with
      | None => None
      | Some (y, l) =>
          let s' := set_lex l s' in
          match exp_sym s with
          | None => Some (tok y, s')
          | Some (es, (i, f)) =>
              let width := pcol (rend (s_range es)) - pcol (rstart (s_range es)) in
              let diff := match col_off s with Some o => o | None => 0 end - width in
              Some (tok y,
                set_adiff 0 (set_col_off None
                  (set_offsets (offsets s ++ [(pline (rstart (s_range y)),
                      Offset (s_range es) diff (adiff s) i f)]) s')))
          end
      end
  end.

(** lib.rs:315-320 *)
Definition skipping (s : st) : bool :=
  match conds s with Activated :: _ | NotActivated :: _ => true | _ => false end.

(** lib.rs:308-314 *)
Definition record_arg (t : token) (s : st) : st :=
  match t_orig t with
  | None => s
  | Some r => set_args_map (args_map s ++ [(pline (rstart r), (r, current_range t s))]) s
  end.

(** One iteration of lib.rs:277-417 *)
Definition step (v : env) (fuel : nat) (s : st) : step_res :=
  match fetch s with
  | None => Stop (FResult (set_exp_sym None s))
  | Some (t, s) =>
      let s := record_arg t s in
      if skipping s then process_negative v fuel (t_sym t) s else process_active v fuel t s
  end.

Fixpoint run (n : nat) (v : env) (fuel : nat) (s : st) : final :=
  match n with
  | O => FFuel
  | S n => match step v fuel s with Next s' => run n v fuel s' | Stop f => f end
  end.

Definition init_st (i : incs_t) (m : macros_map) (syms : list (symbol * bool)) : st :=
  St 0 (Lex syms false) m [] 0 [] [] [] [] EmptyString [] [] [] [] [] (Pos 0 0) None None None 0 i.

(** lib.rs:266-272 and 147-149: start from the macros given, after the implicit include. *)
Definition preprocess (v : env) (fuel : nat) (i : incs_t) (m : macros_map)
    (syms : list (symbol * bool)) : final :=
  let '(i, m, _) := v_inc v i m "sourcemod" false in run fuel v fuel (init_st i m syms).

(** [out.join("\n")] (lib.rs:176) *)
Definition nl : string := String "010"%char EmptyString.
Fixpoint join_lines (l : list string) : string :=
  match l with
  | [] => EmptyString
  | [x] => x
  | x :: tl => (x ++ nl ++ join_lines tl)%string
  end.

(** lib.rs:207-227; None is the u32 underflow of [range.start.line - 1], a panic with overflow
    checks. [acc] is [ranges], last first. *)
Fixpoint merge_ranges (l acc : list range) : option (list range) :=
  match l with
  | [] => Some (rev acc)
  | r :: tl =>
      match acc with
      | [] => merge_ranges tl [r]
      | old :: acc' =>
          if pline (rstart r) =? 0 then None
          else if pline (rend old) =? pline (rstart r) - 1
          then merge_ranges tl (Rng (rstart old) (rend r) :: acc')
          else merge_ranges tl (r :: acc)
      end
  end.
Definition inactive_ranges (s : st) : option (list range) :=
  option_map (map (fun r => Rng (Pos (pline (rstart r)) 0) (rend r))) (merge_ranges (skipped s) []).
