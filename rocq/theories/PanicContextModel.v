(** What is being done when something panics: a stack of texts for each thread.

    Source: crates/stdx/src/panic_context.rs and crates/sourcepawn_lsp/src/dispatch.rs, lines 97-109.

    What a thread does is reduced to the scopes it opens, the panics and the places that catch them. The default hook
    (which runs while the stack is borrowed) and guards that are never dropped are left out. *)

From Coq Require Import List Arith Bool String.
Import ListNotations.
Open Scope string_scope.

(** A guard lives as long as the block it is in; a panic leaves all blocks up to the next [catch_unwind]. *)
Inductive code := Done | Seq (a b : code) | Scope (context : string) (body : code) | Catch (body : code) | Boom.

Inductive event := Enter (context : string) | Leave | Panic.

(** The calls made by a thread, and whether it is left by a panic: a guard is dropped in either case. *)
Fixpoint events (c : code) : list event * bool :=
  match c with
  | Done => ([], false)
  | Seq a b =>
      let '(ea, pa) := events a in
      if pa then (ea, true) else let '(eb, pb) := events b in (ea ++ eb, pb)%list
  | Scope s b => let '(e, p) := events b in (Enter s :: e ++ [Leave], p)%list
  | Catch b => let '(e, _) := events b in (e, false)
  | Boom => ([Panic], true)
  end.

(** Vec::pop; the last text is the newest. *)
Definition pop (ctx : list string) : option (list string) :=
  match ctx with [] => None | _ => Some (removelast ctx) end.

(** panic_context.rs:24-32, what the hook prints. *)
Definition newline : string := String (Ascii.ascii_of_nat 10) "".
Fixpoint frames_text (ctx : list string) : string :=
  match ctx with [] => "" | f :: r => "> " ++ f ++ newline ++ newline ++ frames_text r end.
Definition hook (ctx : list string) : string :=
  match ctx with [] => "" | _ => "Panic context:" ++ newline ++ frames_text ctx end.

(** panic_context.rs:44-49: [CTX], one for each thread. *)
Definition state : Type := nat -> list string.
Definition start : state := fun _ => [].
Definition with_ctx (st : state) (t : nat) (ctx : list string) : state := fun u => if Nat.eqb u t then ctx else st u.

(** panic_context.rs:7-13 ([enter]), 38-42 ([drop], [None] if its assertion fails) and 23-34 (the hook). *)
Definition step (st : state) (t : nat) (e : event) : option (state * list string) :=
  match e with
  | Enter s => Some (with_ctx st t (st t ++ [s])%list, [])
  | Leave => match pop (st t) with Some ctx => Some (with_ctx st t ctx, []) | None => None end
  | Panic => Some (st, [hook (st t)])
  end.

(** The calls of all threads in the order they happen, and what each thread prints. *)
Fixpoint run (l : list (nat * event)) (st : state) : option (state * list (nat * string)) :=
  match l with
  | [] => Some (st, [])
  | (t, e) :: r =>
      match step st t e with
      | None => None
      | Some (st', o) =>
          match run r st' with Some (st'', o') => Some (st'', map (pair t) o ++ o')%list | None => None end
      end
  end.

(** dispatch.rs:99-103: what a worker does for a request whose handler does [body]. *)
Definition request (context : string) (body : code) : code := Catch (Scope context body).
