(** Which files a project consists of: the include graph, read off the runs. *)
From Coq Require Import List ZArith Bool String.
From Verif Require Import PreTypes PreModel CondSpec VisibleSpec PreDbModel.
Import ListNotations.
Local Open Scope Z_scope.

(** The paths an active include directive asks for, and all that a run asks for: first the implicit
    one (lib.rs:147-149, 266-272), then those of its active directives in order. *)
Definition opt_list {A} (o : option A) : list A := match o with Some x => [x] | None => [] end.
Definition paths_of (v : env) (y : symbol) : list (string * bool) :=
  let text := v_trim v (s_inline y) in
  map (fun p => (p, false)) (opt_list (v_chevron v text)) ++
  map (fun p => (p, true)) (opt_list (v_quote v text)).
Definition asked (v : env) (tr : list event) : list (string * bool) :=
  ("sourcemod"%string, false) :: flat_map (fun e => paths_of v (e_sym e)) (filter is_include tr).

(** The files that file [f] asks for in a run with the symbols [tr]. *)
Definition includes (w : world) (f : Z) (tr : list event) (g : Z) : Prop :=
  exists p q, In (p, q) (asked (file_env w f (fun i m _ _ => (i, m, true))) tr) /\ w_resolve w f p q = Some g.

(** [tr] are the symbols of one whole preprocessing of [f]. *)
Definition whole_run (w : world) (f : Z) (tr : list event) : Prop :=
  exists rec i0 m0 i m ok s1 fin,
    let v := file_env w f (params_inc w rec f) in
    v_inc v i0 m0 "sourcemod"%string false = (i, m, ok) /\
    reads v (w_fuel w) (init_st i m (w_syms w f)) tr s1 /\ step v (w_fuel w) s1 = Stop fin.

(** The preprocessings made for root [f], in order: [before] are the files already known. Every file
    is preprocessed at most once and none that was known before; each but the root is asked for by
    one before it; whatever they ask for is among them or was known before. *)
Record collected (w : world) (before : list Z) (f : Z) (runs : list (Z * list event)) : Prop := {
  c_whole : forall g tr, In (g, tr) runs -> whole_run w g tr;
  c_once : NoDup (map fst runs);
  c_new : forall g, In g (map fst runs) -> ~ In g before;
  c_asked : forall a g tr b, runs = a ++ (g, tr) :: b ->
    (a = [] /\ g = f) \/ exists h tr', In (h, tr') a /\ includes w h tr' g;
  c_all : forall g tr h, In (g, tr) runs -> includes w g tr h -> In h before \/ In h (map fst runs)
}.
