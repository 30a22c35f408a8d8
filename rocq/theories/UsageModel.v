(** The text of the status request: what is in the tables of the database and how much room it takes.

    Source: crates/profile/src/memory_usage.rs, crates/ide/src/status.rs and
    crates/sourcepawn_lsp/src/handlers/request.rs.

    The tables are inputs: for each entry what the collectors read of it.  Sizes do not
    overflow.  A panic is [None]. *)

From Coq Require Import String Ascii List NArith ZArith DecimalString.
Import ListNotations.
Local Open Scope string_scope.

Definition dec (n : N) : string := NilEmpty.string_of_uint (N.to_uint n).

(** [Display] of [isize]. *)
Definition show (z : Z) : string :=
  match z with Zneg p => "-" ++ dec (Npos p) | _ => dec (Z.to_N z) end.

(** memory_usage.rs:111-126, [Display] of [Bytes], without a width. *)
Definition bytes_text (bytes : Z) : string :=
  let '(value, suffix) :=
    if (4096 <? Z.abs bytes)%Z
    then
      let value := Z.quot bytes 1024 in
      if (4096 <? Z.abs value)%Z then (Z.quot value 1024, "mb") else (value, "kb")
    else (bytes, "b") in
  show value ++ suffix.

(** status.rs:159-164, [FilesStats::collect_entry] over all texts: the length of each. *)
Definition files_stats (l : list (option N)) : option (N * Z) :=
  fold_left (fun acc value =>
    match acc, value with
    | Some (total, size), Some len => Some ((total + 1)%N, (size + Z.of_N len)%Z)
    | _, _ => None
    end) l (Some (0%N, 0%Z)).

(** status.rs:153-157 *)
Definition files_line (s : N * Z) : string := bytes_text (snd s) ++ " of files".

(** status.rs:178-183, [SyntaxTreeStats::collect_entry]: whether the tree is there. *)
Definition tree_stats (l : list bool) : N * N :=
  fold_left (fun '(total, retained) value => ((total + 1)%N, (retained + (if value : bool then 1 else 0))%N)) l (0%N, 0%N).

(** status.rs:172-176 *)
Definition tree_line (s : N * N) : string := dec (fst s) ++ " trees, " ++ dec (snd s) ++ " preserved".

(** What is read of a preprocessed file: the sizes of its macros and the number of lines with offsets. *)
Record data := Data { d_macros : list N; d_offsets : N }.

Definition sum (l : list N) : N := fold_left N.add l 0%N.

Record data_stats := DataStats { ds_total : N; ds_macros : N; ds_size : Z; ds_offsets : N; ds_retained : N }.

(** status.rs:204-226, [PreprocessDataStats::collect_entry]. *)
Definition collect_data (s : data_stats) (value : option data) : data_stats :=
  DataStats (ds_total s + 1)
    (ds_macros s + match value with Some d => N.of_nat (List.length (d_macros d)) | None => 0 end)%N
    (ds_size s + Z.of_N (match value with Some d => sum (d_macros d) | None => 0 end))%Z
    (ds_offsets s + match value with Some d => d_offsets d | None => 0 end)%N
    (ds_retained s + match value with Some _ => 1 | None => 0 end)%N.

(** status.rs:192-200 *)
Definition data_line (s : data_stats) : string :=
  dec (ds_total s) ++ " preprocessed file data, " ++ dec (ds_retained s) ++ " preserved, " ++ dec (ds_macros s) ++
  " macros (" ++ bytes_text (ds_size s) ++ "), " ++ dec (ds_offsets s) ++ " offsets".

(** What is read of the parameters of a file: the sizes of the macros and the capacity of their
    table, how many files are being preprocessed, and whether the answer is there. *)
Record params := Params { p_macros : list N; p_capacity : N; p_busy : N; p_value : bool }.

Record params_stats := ParamsStats { ps_total : N; ps_busy : N; ps_macros : N; ps_size : Z; ps_retained : N }.

(** status.rs:256-276, [PreprocessParamsStats::collect_entry]. *)
Definition collect_params (s : params_stats) (p : params) : params_stats :=
  ParamsStats (ps_total s + 1) (ps_busy s + p_busy p) (ps_macros s + N.of_nat (List.length (p_macros p)))
    (ps_size s + match p_macros p with [] => 0 | l => Z.of_N (sum l / N.of_nat (List.length l) * p_capacity p) end)%Z
    (ps_retained s + if p_value p then 1 else 0)%N.

(** status.rs:238-246 *)
Definition params_line (s : params_stats) : string :=
  dec (ps_total s) ++ " preprocessed file params, " ++ dec (ps_retained s) ++ " preserved, " ++ dec (ps_busy s) ++
  " being preprocessed, " ++ dec (ps_macros s) ++ " macros (" ++ bytes_text (ps_size s) ++ ")".

(** The tables of the database: texts, trees, preprocessed files and their parameters, and the
    numbers of entries of the others. *)
Record tables := Tables {
  t_files : list (option N); t_trees : list bool; t_data : list (option data); t_params : list params;
  t_ast_ids : N; t_def_maps : N; t_bodies : N; t_scopes : N; t_infer : N }.

(** Whitespace as far as it can stand in the text. *)
Definition white (c : ascii) : bool :=
  let n := nat_of_ascii c in (Nat.eqb n 32 || (Nat.leb 9 n && Nat.leb n 13))%bool.

Fixpoint trim_start (s : string) : string :=
  match s with String c r => if white c then trim_start r else s | EmptyString => s end.

Fixpoint trim_end (s : string) : string :=
  match s with
  | EmptyString => EmptyString
  | String c r => match trim_end r with EmptyString => if white c then EmptyString else String c EmptyString | r => String c r end
  end.

Definition trim (s : string) : string := trim_end (trim_start s).

Definition nl : string := String (ascii_of_nat 10) EmptyString.

(** status.rs:35-76, [status]. *)
Definition status (t : tables) : option string :=
  match files_stats (t_files t) with
  | None => None
  | Some files =>
      Some (trim (
        files_line files ++ nl ++
        tree_line (tree_stats (t_trees t)) ++ nl ++
        data_line (fold_left collect_data (t_data t) (DataStats 0 0 0 0 0)) ++ nl ++
        params_line (fold_left collect_params (t_params t) (ParamsStats 0 0 0 0 0)) ++ nl ++
        nl ++ "Debug info:" ++ nl ++
        dec (t_ast_ids t) ++ " ast id maps" ++ nl ++
        dec (t_def_maps t) ++ " file def maps" ++ nl ++
        dec (t_bodies t) ++ " body with sourcemap" ++ nl ++
        dec (t_scopes t) ++ " expr scopes" ++ nl ++
        dec (t_infer t) ++ " infer" ++ nl))
  end.

(** request.rs:197-249, [handle_analyzer_status]: [missing] is the address sent if no file
    is known by it, and [answer] the answer of the analysis unless it is cancelled. *)
Definition handle_analyzer_status (missing : option string) (vfs : Z) (answer : option string) : string :=
  (match missing with Some uri => "file " ++ uri ++ " not found in vfs" | None => "" end) ++
  nl ++ "Vfs memory usage: " ++ bytes_text vfs ++ nl ++
  nl ++ "Analysis:" ++ nl ++
  match answer with Some s => s | None => "Analysis retrieval was cancelled" end.
