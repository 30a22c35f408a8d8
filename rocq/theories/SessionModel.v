(** Model of the order in which messages are handled: main_loop.rs:54-89 (run), 167-201 (initialize,
    from the handshake on), 211-258 (pull_config_sync) and 260-274 (next_event).
    - The LSP messages arrive in a fixed order ([inbox]); the channel selection of [next_event] is a
      schedule: at each turn the loop takes the next LSP message or an event of another channel.
    - What handling an event does is external: [handle], None when it returns an error.
    - [None] as a final result is a panic. *)
From Coq Require Import List Bool String.
Import ListNotations.
Local Open Scope string_scope.

Section Session.
Variables json other state : Type.
(** serde_json::from_value::<Vec<serde_json::Value>> *)
Variable as_list : json -> option (list json).
(** lsp_server::Message; requests and notifications carry their method *)
Inductive message :=
| MRequest (method : string) (content : json)
| MNotification (method : string) (content : json)
| MResponse (id : string) (result : option json).
Inductive event := Lsp (m : message) | Other (o : other).
(** handle_event, main_loop.rs:583 *)
Variable handle : state -> event -> option state.
(** initialize after the configuration is known, main_loop.rs:179-198 *)
Variable configure : option json -> state.

Definition pull_id : string := "initial_config_pull".

(** main_loop.rs:232-243: the loop of pull_config_sync *)
Inductive pulled :=
| PullPanic                                               (* the connection was closed *)
| Pulled (config : list json) (ignored : list message) (inbox : list message).
Fixpoint pull_loop (inbox ignored : list message) : pulled :=
  match inbox with
  | [] => PullPanic
  | m :: inbox =>
      match m with
      | MResponse i r =>
          if String.eqb i pull_id then
            match r with
            | Some v => match as_list v with
                        | Some l => Pulled l ignored inbox
                        | None => pull_loop inbox ignored
                        end
            | None => pull_loop inbox ignored
            end
          else pull_loop inbox (ignored ++ [m])
      | _ => pull_loop inbox (ignored ++ [m])
      end
  end.

(** main_loop.rs:246-256: the ignored messages are reversed, to be popped from the end; an empty
    configuration panics *)
Definition pull_config_sync (inbox : list message) : option (json * list message * list message) :=
  match pull_loop inbox [] with
  | PullPanic => None
  | Pulled [] _ _ => None
  | Pulled (c :: _) ignored inbox => Some (c, rev ignored, inbox)
  end.

(** main_loop.rs:167-201 *)
Definition initialize (pull : bool) (inbox : list message) : option (state * list message * list message) :=
  if pull then
    match pull_config_sync inbox with
    | Some (c, ignored, inbox) => Some (configure (Some c), ignored, inbox)
    | None => None
    end
  else Some (configure None, [], inbox).

(** main_loop.rs:65-69, 79-83 *)
Definition is_exit (e : event) : bool :=
  match e with Lsp (MNotification m _) => String.eqb m "exit" | _ => false end.

(** How a run of the loop ended, with the handled events: it returned, or it waits for events *)
Inductive ended := Returned (handled : list event) | Waiting (handled : list event) (inbox : list message).

(** Vec::pop *)
Definition pop {A} (l : list A) : option (A * list A) :=
  match rev l with [] => None | x :: tl => Some (x, rev tl) end.

(** main_loop.rs:62-71: the loop over ignored messages, [fuel] bounds the number of turns *)
Fixpoint replay (fuel : nat) (s : state) (ignored : list message) (done : list event) : ended + (state * list event) :=
  match fuel with
  | O => inr (s, done)
  | S fuel =>
      match pop ignored with
      | None => inr (s, done)
      | Some (m, ignored) =>
          if is_exit (Lsp m) then inl (Returned done)
          else match handle s (Lsp m) with
               | None => inl (Returned (done ++ [Lsp m]))
               | Some s => replay fuel s ignored (done ++ [Lsp m])
               end
      end
  end.

(** main_loop.rs:77-86: the main loop under a schedule; taking an LSP message when there is none would
    block, and a schedule that ends leaves the loop waiting *)
Inductive choice := TakeLsp | TakeOther (o : other).
Fixpoint main_loop (s : state) (sched : list choice) (inbox : list message) (done : list event) : ended :=
  match sched with
  | [] => Waiting done inbox
  | c :: sched =>
      match (match c with
             | TakeOther o => Some (Other o, inbox)
             | TakeLsp => match inbox with [] => None | m :: tl => Some (Lsp m, tl) end
             end) with
      | None => Waiting done inbox
      | Some (e, inbox) =>
          if is_exit e then Returned done
          else match handle s e with
               | None => Returned (done ++ [e])
               | Some s => main_loop s sched inbox (done ++ [e])
               end
      end
  end.

(** main_loop.rs:54-89: run *)
Definition run (pull : bool) (inbox : list message) (sched : list choice) : option ended :=
  match initialize pull inbox with
  | None => None
  | Some (s, ignored, inbox) =>
      match replay (List.length ignored) s ignored [] with
      | inl r => Some r
      | inr (s, done) => Some (main_loop s sched inbox done)
      end
  end.
End Session.
