(** Model of the reading of compiler messages and of the compiler's command line:
    crates/flycheck/src/spcomp.rs and crates/flycheck/src/lib.rs:297-320 (check_command), 420-470 (SpCompActor).
    - The regular expression of spcomp.rs:65 is written out as a matcher. The part before the first
      parenthesis cannot contain a parenthesis, and the other repetitions are each followed by a character
      they cannot match (\s+ is followed by .*, and takes all it can), so the first match from the left is
      found without backtracking. (\d+)+ captures all the digits: the first repetition takes them all.
    - \d also matches non-ASCII digits: which ones is the oracle [other_digit]. parse::<u32> refuses them.
    - Paths are unix paths: absolute means beginning with "/".
    - Lines are lists of code points. *)
From Coq Require Import List NArith Bool String Ascii.
Import ListNotations.
Local Open Scope N_scope.

Definition str (s : string) : list N := List.map N_of_ascii (list_ascii_of_string s).

Section SpComp.
Variable other_digit : N -> bool.
(** overflow checks: debug builds *)
Variable debug : bool.

Definition ascii_digit (c : N) : bool := (48 <=? c) && (c <=? 57).
(** \d *)
Definition is_digit (c : N) : bool := ascii_digit c || ((127 <? c) && other_digit c).
(** \s: the Unicode property White_Space *)
Definition is_space (c : N) : bool :=
  ((9 <=? c) && (c <=? 13)) || (c =? 32) || (c =? 133) || (c =? 160) || (c =? 5760) ||
  ((8192 <=? c) && (c <=? 8202)) || (c =? 8232) || (c =? 8233) || (c =? 8239) || (c =? 8287) || (c =? 12288).
(** the class of the first group: : / \ letters - _ digits . and space *)
Definition is_path (c : N) : bool :=
  (c =? 58) || (c =? 47) || (c =? 92) || ((65 <=? c) && (c <=? 90)) || ((97 <=? c) && (c <=? 122)) ||
  (c =? 45) || (c =? 95) || ascii_digit c || (c =? 46) || (c =? 32).
(** . matches everything but a line feed *)
Definition is_dot (c : N) : bool := negb (c =? 10).

Fixpoint span (p : N -> bool) (l : list N) : list N * list N :=
  match l with
  | c :: tl => if p c then let (a, b) := span p tl in (c :: a, b) else ([], l)
  | [] => ([], [])
  end.
Fixpoint strip (pre l : list N) : option (list N) :=
  match pre, l with
  | [], _ => Some l
  | x :: pre, c :: l => if c =? x then strip pre l else None
  | _ :: _, [] => None
  end.

(** spcomp.rs:7-11 *)
Inductive severity := Warning | Error | FatalError.

(** (error|fatal error|warning) followed by a space *)
Definition match_severity (l : list N) : option (severity * list N) :=
  match strip (str "error ") l with
  | Some r => Some (Error, r)
  | None =>
      match strip (str "fatal error ") l with
      | Some r => Some (FatalError, r)
      | None => match strip (str "warning ") l with Some r => Some (Warning, r) | None => None end
      end
  end.

Record captures_ := Captures { c_path : list N; c_line : list N; c_sev : severity; c_code : list N; c_msg : list N }.

(** the expression, matched at the beginning of [l] *)
Definition match_here (l : list N) : option captures_ :=
  let (path, l) := span is_path l in
  match strip (str "(") l with
  | None => None
  | Some l =>
      let (line, l) := span is_digit l in
      match line with
      | [] => None
      | _ =>
          match strip (str ") : ") l with
          | None => None
          | Some l =>
              match match_severity l with
              | None => None
              | Some (sev, l) =>
                  let (code, l) := span ascii_digit l in
                  match strip (str ":") l with
                  | None => None
                  | Some l =>
                      let (sp, l) := span is_space l in
                      match sp with
                      | [] => None
                      | _ => Some (Captures path line sev code (fst (span is_dot l)))
                      end
                  end
              end
          end
      end
  end.
(** RE.captures: the leftmost match *)
Fixpoint captures (l : list N) : option captures_ :=
  match match_here l with
  | Some c => Some c
  | None => match l with [] => None | _ :: tl => captures tl end
  end.

(** str::parse::<u32>, on a non-empty string without sign *)
Definition U32_MAX : N := 4294967295.
Fixpoint parse_from (acc : N) (l : list N) : option N :=
  match l with
  | [] => Some acc
  | c :: tl =>
      if ascii_digit c then
        let v := acc * 10 + (c - 48) in if v <=? U32_MAX then parse_from v tl else None
      else None
  end.
Definition parse_u32 (l : list N) : option N := match l with [] => None | _ => parse_from 0 l end.

(** AbsPathBuf::try_from, crates/paths/src/lib.rs:66-75: refuses relative paths *)
Definition is_absolute (p : list N) : bool := match p with c :: _ => c =? 47 | [] => false end.

Record diagnostic := Diagnostic { d_path : list N; d_line : N; d_severity : severity; d_code : list N; d_message : list N }.
Inductive outcome := NoDiagnostic | Diag (d : diagnostic) | Panic.

(** spcomp.rs:62-83: try_from_line *)
Definition try_from_line (line : list N) : outcome :=
  match captures line with
  | None => NoDiagnostic
  | Some c =>
      if is_absolute (c_path c) then
        match parse_u32 (c_line c) with
        | None => NoDiagnostic
        | Some n =>
            if n =? 0 then
              if debug then Panic (* 0 - 1 *)
              else Diag (Diagnostic (c_path c) U32_MAX (c_sev c) (c_code c) (c_msg c))
            else Diag (Diagnostic (c_path c) (n - 1) (c_sev c) (c_code c) (c_msg c))
        end
      else NoDiagnostic
  end.

(** SpCompActor::run, lib.rs:431-470, for the lines of one stream: the diagnostics sent, and whether the thread
    survived *)
Fixpoint report (lines : list (list N)) : list diagnostic * bool :=
  match lines with
  | [] => ([], true)
  | l :: tl =>
      match try_from_line l with
      | Panic => ([], false)
      | NoDiagnostic => report tl
      | Diag d => let (ds, ok) := report tl in (d :: ds, ok)
      end
  end.

(** crates/sourcepawn_lsp/src/diagnostics/to_proto.rs: the LSP diagnostic: severity 1 is an error, 2 a warning *)
Definition lsp_severity (s : severity) : N := match s with Warning => 2 | _ => 1 end.
Record lsp_diagnostic := Lsp { start_line : N; start_char : N; end_line : N; end_char : N; lsp_sev : N;
                               lsp_code : list N; source : list N; lsp_message : list N }.
Definition map_spcomp_diagnostic_to_lsp (d : diagnostic) : lsp_diagnostic :=
  Lsp (d_line d) 0 (d_line d) 1000 (lsp_severity (d_severity d)) (d_code d) (str "spcomp") (d_message d).
End SpComp.

(** spcomp.rs:87-112: build_args. [parent]: the parent directory of the plugin, if any; [include_exists]: whether
    the directory include next to it exists. Arguments are code point lists. *)
Definition build_args (root out : list N) (include_directories linter_arguments : list (list N))
                      (parent : option (list N)) (include_exists : bool) : list (list N) :=
  [root] ++ map (fun d => str "-i" ++ d) include_directories ++
  match parent with
  | Some p => [str "-i" ++ p] ++ if include_exists then [str "-i" ++ p ++ str "/include"] else []
  | None => []
  end ++ [str "-o" ++ out; str "--syntax-only"] ++ linter_arguments.

(** lib.rs:297-320: check_command: the program and its arguments. [mac]: built for macos on aarch64. *)
Definition check_command (mac : bool) (command : list N) (args : list (list N)) : list N * list (list N) :=
  if mac then (str "arch", [str "-x86_64"; command] ++ args)
  else (command, [str "-x86_64"; command] ++ args).
