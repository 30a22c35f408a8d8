(** The profiler of the server: the tree of spans and what it prints of it.

    Source: crates/profile/src/tree.rs and crates/profile/src/hprof.rs.

    Durations are counted in nanoseconds and have no upper bound.  How long a
    span took is an input: it stands in the span that is closed.  Heartbeats
    are off, as they are unless a [HeartbeatSpan] lives.  The filter does not
    change while spans are open on the stack.  A panic is [None]. *)

From Coq Require Import String Ascii List Arith NArith Bool DecimalString OrderedTypeEx.
Import ListNotations.

(** hprof.rs:213-218, [Message]. *)
Record message := Message { m_duration : N; m_label : string; m_detail : option string }.

(** hprof.rs:213, the derived [Default] of [Message]. *)
Definition no_message : message := Message 0%N EmptyString None.

(** tree.rs:61-65, [Node]. *)
Record node := Node { n_data : message; n_first : option nat; n_next : option nat }.

(** tree.rs:7-10, [Tree]; the last entry of [current_path] stands first. *)
Record tree := Tree { t_nodes : list node; t_path : list (nat * option nat) }.

Definition empty_tree : tree := Tree [] [].

(** Indexing of the arena for writing. *)
Fixpoint upd (i : nat) (f : node -> node) (l : list node) : list node :=
  match l, i with
  | [], _ => []
  | n :: r, 0 => f n :: r
  | n :: r, S j => n :: upd j f r
  end.

Definition set_next (i : nat) (n : node) : node := Node (n_data n) (n_first n) (Some i).
Definition set_first (i : nat) (n : node) : node := Node (n_data n) (Some i) (n_next n).
Definition set_data (m : message) (n : node) : node := Node m (n_first n) (n_next n).

(** tree.rs:15-31, [Tree::start]. *)
Definition start (t : tree) : option tree :=
  let me := List.length (t_nodes t) in
  let nodes := t_nodes t ++ [Node no_message None None] in
  match t_path t with
  | [] => Some (Tree nodes [(me, None)])
  | (parent, Some last) :: r =>
      match nth_error nodes last with
      | Some n =>
          match n_next n with
          | Some _ => None
          | None => Some (Tree (upd last (set_next me) nodes) ((me, None) :: (parent, Some me) :: r))
          end
      | None => None
      end
  | (parent, None) :: r =>
      match nth_error nodes parent with
      | Some n =>
          match n_first n with
          | Some _ => None
          | None => Some (Tree (upd parent (set_first me) nodes) ((me, None) :: (parent, Some me) :: r))
          end
      | None => None
      end
  end.

(** tree.rs:33-36, [Tree::finish]. *)
Definition finish (m : message) (t : tree) : option tree :=
  match t_path t with
  | [] => None
  | (me, _) :: r =>
      match nth_error (t_nodes t) me with
      | Some _ => Some (Tree (upd me (set_data m) (t_nodes t)) r)
      | None => None
      end
  end.

(** tree.rs:38-40, [Tree::root]. *)
Definition root (t : tree) : option nat :=
  match t_nodes t with [] => None | _ => Some 0 end.

(** tree.rs:82-91, [NodeIter::next] until it ends; the links of an arena can be
    followed no more often than it has nodes. *)
Fixpoint siblings (fuel : nat) (nodes : list node) (next : option nat) : option (list nat) :=
  match next with
  | None => Some []
  | Some i =>
      match fuel with
      | 0 => None
      | S fuel =>
          match nth_error nodes i with
          | None => None
          | Some n => option_map (cons i) (siblings fuel nodes (n_next n))
          end
      end
  end.

(** tree.rs:42-47, [Tree::children]. *)
Definition children (t : tree) (i : nat) : option (list nat) :=
  match nth_error (t_nodes t) i with
  | None => None
  | Some n => siblings (List.length (t_nodes t)) (t_nodes t) (n_first n)
  end.

(** tree.rs:54-59, [Index]. *)
Definition message_at (t : tree) (i : nat) : option message := option_map n_data (nth_error (t_nodes t) i).

(** [Duration::as_millis]. *)
Definition millis (d : N) : N := (d / 1000000)%N.

(** The padding of [{n:5}]. *)
Fixpoint blanks (n : nat) : string :=
  match n with 0 => EmptyString | S n => String " "%char (blanks n) end.

(** hprof.rs:353-363, [ms]. *)
Definition ms (d : N) : string :=
  if N.eqb (millis d) 0 then "    0  "%string
  else
    let s := NilEmpty.string_of_uint (N.to_uint (millis d)) in
    (blanks (5 - String.length s) ++ s ++ "ms")%string.

(** ["    ".repeat(level)], hprof.rs:305. *)
Fixpoint indent (level : nat) : string :=
  match level with 0 => EmptyString | S l => ("    " ++ indent l)%string end.

(** hprof.rs:306-318, the line of a span. *)
Definition span_line (level : nat) (m : message) : string :=
  (indent level ++ ms (m_duration m) ++ " - " ++ m_label m ++
   match m_detail m with Some d => " @ " ++ d | None => "" end)%string.

(** hprof.rs:337-344, the line of the short children of one name. *)
Definition short_line (level : nat) (e : string * (N * N)) : string :=
  ("    " ++ indent level ++ ms (fst (snd e)) ++ " - " ++ fst e ++ " (" ++
   NilEmpty.string_of_uint (N.to_uint (snd (snd e))) ++ " calls)")%string.

(** hprof.rs:347-350, the line of the time no child accounts for. *)
Definition unknown_line (level : nat) (d : N) : string :=
  ("    " ++ indent level ++ ms d ++ " - ???")%string.

(** hprof.rs:329-333, the entry of the [BTreeMap] of short children, which
    is kept in the order of its keys. *)
Fixpoint count_short (label : string) (d : N) (l : list (string * (N * N))) : list (string * (N * N)) :=
  match l with
  | [] => [(label, (d, 1%N))]
  | (k, (t, c)) :: r =>
      match String_as_OT.cmp label k with
      | Eq => (k, ((t + d)%N, (c + 1)%N)) :: r
      | Lt => (label, (d, 1%N)) :: l
      | Gt => (k, (t, c)) :: count_short label d r
      end
  end.

(** What the loop over the children carries: the time accounted for, the
    short children and the lines written. *)
Definition tally : Type := (N * list (string * (N * N)) * list string)%type.

(** hprof.rs:323-335, one round of the loop; [deeper] is the recursive call. *)
Definition tell_child (t : tree) (longer : N) (deeper : nat -> option (list string)) (acc : option tally) (child : nat) : option tally :=
  match acc, message_at t child with
  | Some (accounted, short, out), Some m =>
      let accounted := (accounted + m_duration m)%N in
      if (millis longer <? millis (m_duration m))%N
      then option_map (fun lines => (accounted, short, out ++ lines)) (deeper child)
      else Some (accounted, count_short (m_label m) (m_duration m) short, out)
  | _, _ => None
  end.

(** hprof.rs:298-351, [print]; the fuel bounds the depth.  The difference of
    two durations panics when it would be negative (line 346). *)
Fixpoint print (fuel : nat) (t : tree) (curr level : nat) (longer : N) : option (list string) :=
  match fuel with
  | 0 => None
  | S fuel =>
      match message_at t curr, children t curr with
      | Some m, Some kids =>
          match fold_left (tell_child t longer (fun c => print fuel t c (S level) longer)) kids (Some (0%N, [], [span_line level m])) with
          | Some (accounted, short, out) =>
              if (m_duration m <? accounted)%N then None
              else
                let unaccounted := (m_duration m - accounted)%N in
                Some (out ++ map (short_line level) short ++
                      (if (negb (match kids with [] => true | _ => false end) && (longer <? unaccounted)%N)%bool
                       then [unknown_line level unaccounted] else []))
          | None => None
          end
      | _, _ => None
      end
  end.

(** hprof.rs:146-153, [Filter], without what heartbeats need. *)
Record filter := Filter { f_depth : nat; f_allowed : list string; f_longer : N }.

(** hprof.rs:201-206, [ProfileStack]: the number of frames, the tree of
    messages and, for each root printed, its lines. *)
Record stack := Stack { s_frames : nat; s_messages : tree; s_printed : list (list string) }.

Definition empty_stack : stack := Stack 0 empty_tree [].

(** hprof.rs:230-252, [ProfileStack::push]. *)
Definition push (f : filter) (label : string) (st : stack) : option (bool * stack) :=
  if f_depth f <? s_frames st then Some (false, st)
  else if ((s_frames st =? 0) && negb (match f_allowed f with [] => true | _ => false end)
           && negb (existsb (String.eqb label) (f_allowed f)))%bool
  then Some (false, st)
  else match start (s_messages st) with
       | Some t => Some (true, Stack (S (s_frames st)) t (s_printed st))
       | None => None
       end.

(** hprof.rs:254-286, [ProfileStack::pop]. *)
Definition pop (f : filter) (m : message) (st : stack) : option stack :=
  match s_frames st with
  | 0 => None
  | S frames =>
      match finish m (s_messages st) with
      | None => None
      | Some t =>
          if frames =? 0
          then
            if (millis (f_longer f) <? millis (m_duration m))%N
            then match root t with
                 | Some r =>
                     match print (S (List.length (t_nodes t))) t r 0 (f_longer f) with
                     | Some lines => Some (Stack frames empty_tree (s_printed st ++ [lines]))
                     | None => None
                     end
                 | None => Some (Stack frames empty_tree (s_printed st))
                 end
            else Some (Stack frames empty_tree (s_printed st))
          else Some (Stack frames t (s_printed st))
      end
  end.

(** A call of a function that opens a span: what the span is to say when it is
    dropped, and the calls made while it lives. *)
Inductive call := Call (m : message) (inner : list call).

(** hprof.rs:65-77 ([span]) and 109-114 ([drop]): a run of a program. *)
Fixpoint exec (f : filter) (c : call) (st : stack) : option stack :=
  match c with
  | Call m inner =>
      let run := fix run (l : list call) (st : stack) : option stack :=
        match l with
        | [] => Some st
        | c :: r => match exec f c st with Some st => run r st | None => None end
        end in
      if f_depth f =? 0 then run inner st
      else
        match push f (m_label m) st with
        | None => None
        | Some (false, st) => run inner st
        | Some (true, st) => match run inner st with Some st => pop f m st | None => None end
        end
  end.

Definition exec_all (f : filter) : list call -> stack -> option stack :=
  fix run (l : list call) (st : stack) : option stack :=
    match l with
    | [] => Some st
    | c :: r => match exec f c st with Some st => run r st | None => None end
    end.

(** [str::rfind] of a character, with what stands before and after it. *)
Fixpoint rfind (c : ascii) (s : string) : option (string * string) :=
  match s with
  | EmptyString => None
  | String a r =>
      match rfind c r with
      | Some (before, after) => Some (String a before, after)
      | None => if Ascii.eqb a c then Some (EmptyString, r) else None
      end
  end.

(** [str::split] at a character. *)
Fixpoint split (c : ascii) (s : string) : list string :=
  match s with
  | EmptyString => [EmptyString]
  | String a r =>
      if Ascii.eqb a c then EmptyString :: split c r
      else match split c r with x :: l => String a x :: l | [] => [String a EmptyString] end
  end.

(** [str::parse] for [u64] and [usize]: a plus sign may stand before the digits, of
    which there must be one. *)
Definition parse (s : string) : option N :=
  let s := match s with String "+"%char r => r | _ => s end in
  if String.eqb s EmptyString then None
  else match NilEmpty.uint_of_string s with
       | Some u => let n := N.of_uint u in if (n <? 2 ^ 64)%N then Some n else None
       | None => None
       end.

(** hprof.rs:160-191, [Filter::from_spec]. *)
Definition from_spec (spec : string) : option filter :=
  match
    match rfind ">"%char spec with
    | Some (before, after) => option_map (fun n => (before, (n * 1000000)%N)) (parse after)
    | None => Some (spec, 0%N)
    end
  with
  | None => None
  | Some (spec, longer) =>
      match
        match rfind "@"%char spec with
        | Some (before, after) => option_map (fun n => (before, N.to_nat n)) (parse after)
        | None => Some (spec, 999)
        end
      with
      | None => None
      | Some (spec, depth) =>
          Some (Filter depth (if String.eqb spec "*" then [] else split "|"%char spec) longer)
      end
  end.

(** hprof.rs:28-35, [init_from], and 155-158, [Filter::disabled]. *)
Definition init_from (spec : string) : option filter :=
  if String.eqb spec EmptyString then Some (Filter 0 [] 0%N) else from_spec spec.
