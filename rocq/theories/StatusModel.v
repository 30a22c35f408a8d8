(** Model of the readiness status: crates/sourcepawn_lsp/src/reload.rs:16-72 (is_quiescent, current_status,
    update_configuration), main_loop.rs:276-302 (update_status_or_notify), 451-490 (handle_vfs_msg), 583-757
    (handle_event, only its effects listed below), with the loader thread, crates/vfs-notify/src/lib.rs:96-135.
    - The loader takes configurations from a FIFO channel and answers over another one. Loading an entry
      and announcing it is one loader step. Files changed by the watcher or by invalidation are Loaded messages
      that do not count here.
    - A configuration has one entry for each include directory and one for the root (reload.rs:53-61).
    - A turn of the main loop receives all the loader messages there are (main_loop.rs:648-654).
    - Kept effects of a turn: status notifications, and requests to index (main_loop.rs:665-671). *)
From Coq Require Import List Bool Arith.
Import ListNotations.

(** vfs::loader::Message. Loaded carries, for the statements, which entry of which configuration it is. *)
Inductive loader_msg := Loaded (version entry : nat) | Progress (n_total n_done version : nat).

(** lsp_ext::ServerStatusParams: health, and quiescent. The message is never set (reload.rs:29-35). *)
Inductive health := HOk | HWarning.
Record status := Status { health_ : health; quiescent : bool }.
Definition health_eqb (a b : health) : bool := match a, b with HOk, HOk | HWarning, HWarning => true | _, _ => false end.
Definition status_eqb (a b : status) : bool := health_eqb (health_ a) (health_ b) && Bool.eqb (quiescent a) (quiescent b).

Inductive effect := Notify (s : status) | RequestIndexing.

Record state := State {
  vfs_config_version : nat;
  vfs_progress_config_version : nat; vfs_progress_n_total : nat; vfs_progress_n_done : nat;
  last_reported_status : option status;
  config_errors : bool;
  effects : list effect;
  crashed : bool;                              (* the assertion of main_loop.rs:478 *)
  (* the loader and the channels *)
  to_loader : list (nat * nat);                (* version and number of entries *)
  loading : option (nat * nat * nat);          (* version, number of entries, next entry *)
  from_loader : list loader_msg;
  (* history *)
  sizes : list nat;                            (* number of entries of each configuration sent *)
  handled : list loader_msg }.                 (* messages handled by the main loop *)

(** reload.rs:17-21 *)
Definition is_quiescent (s : state) : bool :=
  negb (match last_reported_status s with None => true | _ => false end
        || (vfs_progress_config_version s <? vfs_config_version s)
        || (vfs_progress_n_done s <? vfs_progress_n_total s)).
(** reload.rs:23-36 *)
Definition current_status (s : state) : status :=
  Status (if config_errors s then HWarning else HOk) (is_quiescent s).

(** reload.rs:38-72: [dirs] is the number of include directories if they or the root changed *)
Definition update_configuration (s : state) (dirs : option nat) : state :=
  match dirs with
  | None => s
  | Some d =>
      let v := S (vfs_config_version s) in
      State v (vfs_progress_config_version s) (vfs_progress_n_total s) (vfs_progress_n_done s) (last_reported_status s)
            (config_errors s) (effects s) (crashed s) (to_loader s ++ [(v, S d)]) (loading s) (from_loader s)
            (sizes s ++ [S d]) (handled s)
  end.

(** main_loop.rs:451-490 *)
Definition handle_vfs_msg (s : state) (m : loader_msg) : state :=
  match m with
  | Loaded _ _ =>
      State (vfs_config_version s) (vfs_progress_config_version s) (vfs_progress_n_total s) (vfs_progress_n_done s)
            (last_reported_status s) (config_errors s) (effects s) (crashed s) (to_loader s) (loading s) (from_loader s)
            (sizes s) (handled s ++ [m])
  | Progress t d v =>
      State (vfs_config_version s) v t d (last_reported_status s) (config_errors s) (effects s)
            (crashed s || (negb (d =? 0) && negb (d <? t) && negb (d =? t))) (to_loader s) (loading s) (from_loader s)
            (sizes s) (handled s ++ [m])
  end.

Definition add_effect (s : state) (e : effect) : state :=
  State (vfs_config_version s) (vfs_progress_config_version s) (vfs_progress_n_total s) (vfs_progress_n_done s)
        (last_reported_status s) (config_errors s) (effects s ++ [e]) (crashed s) (to_loader s) (loading s) (from_loader s)
        (sizes s) (handled s).
Definition set_last (s : state) (st : status) : state :=
  State (vfs_config_version s) (vfs_progress_config_version s) (vfs_progress_n_total s) (vfs_progress_n_done s)
        (Some st) (config_errors s) (effects s) (crashed s) (to_loader s) (loading s) (from_loader s) (sizes s) (handled s).
Definition set_errors (s : state) (b : bool) : state :=
  State (vfs_config_version s) (vfs_progress_config_version s) (vfs_progress_n_total s) (vfs_progress_n_done s)
        (last_reported_status s) b (effects s) (crashed s) (to_loader s) (loading s) (from_loader s) (sizes s) (handled s).
Definition set_inbox (s : state) (l : list loader_msg) : state :=
  State (vfs_config_version s) (vfs_progress_config_version s) (vfs_progress_n_total s) (vfs_progress_n_done s)
        (last_reported_status s) (config_errors s) (effects s) (crashed s) (to_loader s) (loading s) l (sizes s) (handled s).

(** main_loop.rs:276-302 *)
Definition update_status_or_notify (s : state) : state :=
  let st := current_status s in
  if match last_reported_status s with Some l => status_eqb l st | None => false end then s
  else add_effect (set_last s st) (Notify st).

(** What a turn of the main loop handles *)
Inductive input :=
| Vfs                                            (* the loader's messages *)
| Settings (errors : bool) (dirs : option nat)   (* new settings, handlers/notification.rs:190-226 *)
| Other.                                         (* anything else *)

(** main_loop.rs:583-757. [prefill]: the setting cachePriming_enable *)
Definition turn (prefill : bool) (s : state) (i : input) : state :=
  let was_quiescent := is_quiescent s in
  let s := match i with
           | Vfs => set_inbox (fold_left handle_vfs_msg (from_loader s) s) []
           | Settings e d => update_configuration (set_errors s e) d
           | Other => s
           end in
  let s := if is_quiescent s && negb was_quiescent && prefill then add_effect s RequestIndexing else s in
  update_status_or_notify s.

Inductive event :=
| Turn (i : input)
| LoaderTake      (* the loader receives a configuration, vfs-notify/src/lib.rs:100-120 *)
| LoaderLoad.     (* it loads the next entry, lib.rs:122-135 *)

Definition step (prefill : bool) (s : state) (e : event) : state :=
  match e with
  | Turn Vfs => match from_loader s with [] => s (* the loop waits *) | _ => turn prefill s Vfs end
  | Turn i => turn prefill s i
  | LoaderTake =>
      match loading s, to_loader s with
      | None, (v, n) :: tl =>
          State (vfs_config_version s) (vfs_progress_config_version s) (vfs_progress_n_total s) (vfs_progress_n_done s)
                (last_reported_status s) (config_errors s) (effects s) (crashed s) tl (if n =? 0 then None else Some (v, n, 0))
                (from_loader s ++ [Progress n 0 v]) (sizes s) (handled s)
      | _, _ => s
      end
  | LoaderLoad =>
      match loading s with
      | Some (v, n, i) =>
          State (vfs_config_version s) (vfs_progress_config_version s) (vfs_progress_n_total s) (vfs_progress_n_done s)
                (last_reported_status s) (config_errors s) (effects s) (crashed s) (to_loader s)
                (if S i =? n then None else Some (v, n, S i))
                (from_loader s ++ [Loaded v i; Progress n (S i) v]) (sizes s) (handled s)
      | None => s
      end
  end.

(** The session after initialisation: [dirs] as in [update_configuration], main_loop.rs:194 *)
Definition start (dirs : option nat) : state :=
  update_configuration (State 0 0 0 0 None false [] false [] None [] [] []) dirs.
Definition run (prefill : bool) (dirs : option nat) (h : list event) : state := fold_left (step prefill) h (start dirs).
