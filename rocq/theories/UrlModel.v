(** Model of how a document's address (URL) becomes a file and a file becomes an address, on Unix:
    crates/sourcepawn_lsp/src/lsp/from_proto.rs:14-23 (abs_path, vfs_path), 65-67 (file_id), to_proto.rs:120-166 (url,
    url_from_abs_path), global_state.rs:385-391, 404-416 (file_id_to_url, url_to_file_id).
    - The url crate (2.5.0) is not in the repository. Its parser is an input: a [url] is what it made of the text. Its
      [from_file_path] and [to_file_path] are modelled from their description. Its versions differ on whether a backslash in a
      name is escaped; [back] says which is meant, and the theorems hold for both.
    - The files are those of VfsModel (C07): a path there is the list of its names, and all of them are on disk. *)
From Coq Require Import List Ascii String Bool Arith NArith.
From Verif Require Import PathsModel.
From Verif Require VfsModel.
Import ListNotations.
Local Open Scope list_scope.

(** url::Url. [segments]: the pieces of the path, still escaped; None for an address without a path that begins with a slash
    ("untitled:Untitled-1"). *)
Record url := Url {
  scheme : path;
  host : option path;
  segments : option (list path);
  query : option path;
  fragment : option path }.

(** percent-encoding: two upper-case digits *)
Definition hex_digit (n : N) : ascii := ascii_of_N (if (n <? 10)%N then 48 + n else 55 + n).
Definition escape (c : ascii) : path := ["%"%char; hex_digit (N_of_ascii c / 16); hex_digit (N_of_ascii c mod 16)].
(** url's SPECIAL_PATH_SEGMENT (PATH_SEGMENT when [back] is false); a byte that is not ASCII is always escaped *)
Definition escaped (back : bool) (c : ascii) : bool :=
  let n := N_of_ascii c in
  (n <? 32)%N || (127 <=? n)%N || existsb (Ascii.eqb c) (list_ascii_of_string " ""<>`#?{}/%")
  || (back && Ascii.eqb c "\"%char).
Definition percent_encode (back : bool) (name : path) : path :=
  flat_map (fun c => if escaped back c then escape c else [c]) name.

(** char::to_digit(16) *)
Definition to_digit (c : ascii) : option N :=
  let n := N_of_ascii c in
  if ((48 <=? n) && (n <=? 57))%N then Some (n - 48)%N
  else if ((65 <=? n) && (n <=? 70))%N then Some (n - 55)%N
  else if ((97 <=? n) && (n <=? 102))%N then Some (n - 87)%N
  else None.
(** percent-encoding: an escape that is not one is kept as it is *)
Fixpoint percent_decode (s : path) : path :=
  match s with
  | [] => []
  | c :: tl =>
      if Ascii.eqb c "%"%char then
        match tl with
        | a :: b :: rest =>
            match to_digit a, to_digit b with
            | Some h, Some l => ascii_of_N (h * 16 + l) :: percent_decode rest
            | _, _ => c :: percent_decode tl
            end
        | _ => c :: percent_decode tl
        end
      else c :: percent_decode tl
  end.

(** url: Url::from_file_path. None: the path is not absolute. *)
Definition name_of (c : component) : path := match c with Normal n => n | ParentDir => [dot; dot] | CurDir => [dot] | RootDir => [slash] end.
Definition from_file_path (back : bool) (p : path) : option url :=
  if is_absolute p then
    let segs := map (fun c => percent_encode back (name_of c)) (skipn 1 (components p)) in
    Some (Url (list_ascii_of_string "file") None (Some (match segs with [] => [[]] | _ => segs end)) None None)
  else None.
(** Url::as_str, for an address made by [from_file_path] *)
Definition as_str (u : url) : path :=
  scheme u ++ list_ascii_of_string "://" ++ flat_map (fun s => slash :: s) (match segments u with Some l => l | None => [] end).

(** A drive letter at the end gets a slash *)
Definition is_alphabetic (c : ascii) : bool :=
  let n := N_of_ascii c in (((65 <=? n) && (n <=? 90)) || ((97 <=? n) && (n <=? 122)))%N.
Definition drive (bytes : path) : path :=
  match rev bytes with
  | c :: l :: _ :: _ => if is_alphabetic l && (Ascii.eqb c ":"%char || Ascii.eqb c "|"%char) then bytes ++ [slash] else bytes
  | _ => bytes
  end.
(** url: Url::to_file_path. The scheme is not looked at. *)
Definition to_file_path (u : url) : option path :=
  match segments u with
  | None => None
  | Some segs =>
      match host u with
      | Some h => if path_eqb h (list_ascii_of_string "localhost") then Some (drive (flat_map (fun s => slash :: percent_decode s) segs)) else None
      | None => Some (drive (flat_map (fun s => slash :: percent_decode s) segs))
      end
  end.

Notation res := VfsModel.res.
Notation Ok := VfsModel.Ok.
Notation Panic := VfsModel.Panic.

(** from_proto.rs:14-19. [Ok None] is the error; [Panic] is the [unwrap] of a path that is not absolute. *)
Definition abs_path (u : url) : res (option path) :=
  match to_file_path u with
  | None => Ok None
  | Some p => if is_absolute p then Ok (Some p) else Panic
  end.
(** A path on disk as VfsModel has it *)
Definition names (p : path) : VfsModel.path :=
  flat_map (fun c => match c with Normal n => [string_of_list_ascii n] | _ => [] end) (components p).
Definition on_disk (p : VfsModel.path) : path := slash :: join_pieces (map list_ascii_of_string p).
(** from_proto.rs:21-23, vfs_path.rs:283-287 *)
Definition vfs_path (u : url) : res (option VfsModel.path) :=
  VfsModel.bind (abs_path u) (fun p => Ok (option_map (fun p => names (normalize p)) p)).

(** global_state.rs:410-416, from_proto.rs:65-67. [Ok None] is the error "url is not a file" or "file not found". *)
Definition url_to_file_id (v : VfsModel.vfs) (u : url) : res (option nat) :=
  VfsModel.bind (vfs_path u) (fun p =>
    match p with
    | None => Ok None
    | Some p => VfsModel.file_id_of v p
    end).

(** to_proto.rs:137-149; a path on Unix begins with no drive *)
Definition url_from_abs_path (back : bool) (p : path) : res url :=
  match from_file_path back p with Some u => Ok u | None => Panic end.
(** global_state.rs:404-408, to_proto.rs:120-122 *)
Definition file_id_to_url (back : bool) (v : VfsModel.vfs) (i : nat) : res url :=
  VfsModel.bind (VfsModel.file_path v i) (fun p => url_from_abs_path back (on_disk p)).
