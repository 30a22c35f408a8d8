(** Model of when the compiler is run: crates/sourcepawn_lsp/src/handlers/notification.rs:118-134 (a file is saved), 147-166
    (a progress is cancelled), 222-267 (run_flycheck), reload.rs:38-76 (update_configuration, the part about checks), 78-115
    (reload_flycheck), main_loop.rs:74 (the start of the session), ide/src/lib.rs:127-143 (projects_for_file).
    - The graph of the known files is GraphModel (C28). Hash tables iterate in an arbitrary order: the events carry the
      subgraphs [gs] that were found, [legal] says that they are those of some order.
    - A checker is the worker of one project (its life is FlycheckModel, C14); it keeps the settings it was spawned with.
      [born] counts the maps of checkers made.
    - A task of run_flycheck holds a snapshot of the map of checkers and of the analysis. Applying a change of files waits for
      the snapshots to be dropped and cancels their queries (ide/src/lib.rs:90-93, salsa), so a task that has not been run
      yet ends with Cancelled, which is dropped (notification.rs:261-264).
    - The compilation itself and its output: C14, C15. *)
From Coq Require Import List Bool Arith NArith String Ascii Permutation DecimalString.
From Verif Require Import GraphModel.
Import ListNotations.
Local Open Scope string_scope.
Local Open Scope nat_scope.
Local Open Scope list_scope.

(** config.rs:44-50, 224-234 *)
Record config := Config {
  compiler_path : option string;
  compiler_arguments : list string;
  include_directories : list string;
  compiler_on_save : bool }.

(** flycheck/src/lib.rs FlycheckConfig, with the root it checks *)
Record checker := Checker { ck_root : nat; ck_path : string; ck_arguments : list string; ck_includes : list string; born : nat }.

(** What a task of run_flycheck captured: the saved file and the map of checkers *)
Record task := Task { saved : nat; world_flycheck : list checker }.

Record state := State {
  documents : list (nat * extension);           (* the known files *)
  includes : nat -> list (nat * extension);     (* the files each of them includes *)
  config_ : config;
  flycheck : list checker;
  made : nat;                                   (* maps of checkers made so far *)
  tasks : list task;                            (* tasks waiting in the pool *)
  restarted : list checker;                     (* calls of restart(), in order *)
  cancelled : list checker }.                   (* calls of cancel() *)

(** reload.rs:78-115. FxHashMap::insert: the roots of subgraphs are different (C28), so none is replaced *)
Definition reload_flycheck (s : state) (gs : list subgraph) : state :=
  match compiler_path (config_ s) with
  | None => s
  | Some p =>
      State (documents s) (includes s) (config_ s)
            (map (fun g => Checker (file_id (sg_root g)) p (compiler_arguments (config_ s)) (include_directories (config_ s)) (made s)) gs)
            (S (made s)) (tasks s) (restarted s) (cancelled s)
  end.

Definition strings_eqb (a b : list string) : bool := if list_eq_dec string_dec a b then true else false.
Definition path_eqb (a b : option string) : bool :=
  match a, b with Some x, Some y => String.eqb x y | None, None => true | _, _ => false end.

(** reload.rs:38-76, without the loader (StatusModel, LoaderModel) *)
Definition update_configuration (s : state) (c : config) (initialization : bool) (gs : list subgraph) : state :=
  let old := config_ s in
  let s := State (documents s) (includes s) c (flycheck s) (made s) (tasks s) (restarted s) (cancelled s) in
  if negb initialization &&
     (negb (path_eqb (compiler_path c) (compiler_path old))
      || negb (strings_eqb (compiler_arguments c) (compiler_arguments old))
      || negb (strings_eqb (include_directories c) (include_directories old)))
  then reload_flycheck s gs else s.

(** ide/src/lib.rs:127-143, graph.rs:57-59 *)
Definition contains_file (g : subgraph) (f : nat) : bool := existsb (fun n => file_id n =? f) (sg_nodes g).
Definition projects_for_file (gs : list subgraph) (f : nat) : list nat :=
  map (fun g => file_id (sg_root g)) (filter (fun g => contains_file g f) gs).

(** Itertools: sorted, unique *)
Fixpoint insert_sorted (x : nat) (l : list nat) : list nat :=
  match l with [] => [x] | y :: tl => if x <=? y then x :: l else y :: insert_sorted x tl end.
Definition sorted (l : list nat) : list nat := fold_right insert_sorted [] l.
Fixpoint unique_from (seen : list nat) (l : list nat) : list nat :=
  match l with
  | [] => []
  | x :: tl => if existsb (Nat.eqb x) seen then unique_from seen tl else x :: unique_from (x :: seen) tl
  end.
Definition unique (l : list nat) : list nat := unique_from [] l.

(** FxHashMap::get *)
Definition get (m : list checker) (r : nat) : option checker := find (fun c => ck_root c =? r) m.

(** notification.rs:229-256: the checkers restarted by a task that is not cancelled *)
Definition triggered (t : task) (gs : list subgraph) : list checker :=
  let root_ids := unique (sorted (projects_for_file gs (saved t))) in
  let found := flat_map (fun r => match get (world_flycheck t) r with Some c => [c] | None => [] end) root_ids in
  let updated := match found with [] => false | _ => true end in
  if updated then found else world_flycheck t.

Definition restart (s : state) (cs : list checker) : state :=
  State (documents s) (includes s) (config_ s) (flycheck s) (made s) (tasks s) (restarted s ++ cs) (cancelled s).
Definition set_tasks (s : state) (ts : list task) : state :=
  State (documents s) (includes s) (config_ s) (flycheck s) (made s) ts (restarted s) (cancelled s).

(** What the uri of a saved document is: no file uri (from_proto::vfs_path fails), the path of no known file, or a known file *)
Inductive saved_uri := NoPath | NoFile | File (f : nat).

(** notification.rs:222-228, 257-267: the task is sent to the pool *)
Definition run_flycheck (s : state) (u : saved_uri) : state * bool :=
  match u with
  | File f => (set_tasks s (tasks s ++ [Task f (flycheck s)]), true)
  | _ => (s, false)
  end.
(** notification.rs:118-134 *)
Definition handle_did_save (s : state) (u : saved_uri) : state :=
  match u with
  | NoPath => if compiler_on_save (config_ s) then restart s (flycheck s) else s
  | _ => if negb (compiler_on_save (config_ s)) then s
         else let (s, ran) := run_flycheck s u in if ran then s else s
  end.

(** core::num: u32::from_str. Digits, with at most one '+' before them, below 2^32. *)
Definition digit (c : ascii) : option N :=
  let n := N_of_ascii c in if (48 <=? n)%N && (n <=? 57)%N then Some (n - 48)%N else None.
Fixpoint parse_digits (acc : N) (s : string) : option N :=
  match s with
  | EmptyString => Some acc
  | String c s => match digit c with
                  | Some d => let n := (10 * acc + d)%N in if (n <? 2 ^ 32)%N then parse_digits n s else None
                  | None => None
                  end
  end.
Definition parse_u32 (s : string) : option N :=
  match s with
  | EmptyString => None
  | String "+" EmptyString => None
  | String "+" s => parse_digits 0 s
  | _ => parse_digits 0 s
  end.
(** str::strip_prefix *)
Fixpoint strip_prefix (p s : string) : option string :=
  match p, s with
  | EmptyString, _ => Some s
  | String a p, String b s => if Ascii.eqb a b then strip_prefix p s else None
  | String _ _, EmptyString => None
  end.
(** u32's Display *)
Definition display (n : nat) : string := NilZero.string_of_uint (Nat.to_uint n).
(** main_loop.rs:550: the token of the progress of a check *)
Definition token (id : nat) : string := "sourcepawn-lsp/flycheck/" ++ display id.
(** notification.rs:147-166; a numeric token is ignored *)
Definition handle_progress_cancel (s : state) (tok : string) : state :=
  match strip_prefix "sourcepawn-lsp/flycheck/" tok with
  | None => s
  | Some id =>
      match parse_u32 id with
      | None => s
      | Some id =>
          match get (flycheck s) (N.to_nat id) with
          | None => s
          | Some c => State (documents s) (includes s) (config_ s) (flycheck s) (made s) (tasks s) (restarted s) (cancelled s ++ [c])
          end
      end
  end.

(** What can happen in a session *)
Inductive event :=
| Save (u : saved_uri)
| RunTask (n : nat) (gs : list subgraph)                       (* the pool runs the [n]-th waiting task *)
| Settings (c : config) (gs : list subgraph)                   (* the editor's answer with new settings *)
| FilesChange (ds : list (nat * extension)) (is : nat -> list (nat * extension))   (* process_changes *)
| CancelProgress (tok : string).

Definition step (s : state) (e : event) : state :=
  match e with
  | Save u => handle_did_save s u
  | RunTask n gs =>
      match nth_error (tasks s) n with
      | None => s
      | Some t => restart (set_tasks s (firstn n (tasks s) ++ skipn (S n) (tasks s))) (triggered t gs)
      end
  | Settings c gs => update_configuration s c false gs
  | FilesChange ds is => State ds is (config_ s) (flycheck s) (made s) [] (restarted s) (cancelled s)
  | CancelProgress tok => handle_progress_cancel s tok
  end.

(** The subgraphs found for the known files, in some order of iteration *)
Definition found_in (ds : list (nat * extension)) (is : nat -> list (nat * extension)) (gs : list subgraph) : Prop :=
  exists g adj roots fuel,
    reordered (graph_query ds is) g /\ adjacency (edges g) adj /\ Permutation (find_roots g) roots /\
    List.length (nodes g) < fuel /\ subgraphs fuel adj roots = Some gs.
Definition legal (s : state) (e : event) : Prop :=
  match e with
  | RunTask _ gs | Settings _ gs => found_in (documents s) (includes s) gs
  | _ => True
  end.

(** main_loop.rs:54-76: the settings are known (initialize), the messages that came before were handled, with the files [ds] known
    by then, and the checkers are spawned. The loader's files come later, as FilesChange. *)
Definition start (c : config) (ds : list (nat * extension)) (is : nat -> list (nat * extension)) (gs : list subgraph) : state :=
  reload_flycheck (State ds is c [] 0 [] [] []) gs.

Inductive runs : state -> list event -> state -> Prop :=
| runs_nil s : runs s [] s
| runs_cons s e h s' : legal s e -> runs (step s e) h s' -> runs s (e :: h) s'.
(** A session *)
Inductive session : list event -> state -> Prop :=
| session_intro c ds is gs h s : found_in ds is gs -> runs (start c ds is gs) h s -> session h s.
