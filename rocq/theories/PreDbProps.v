(** C25: collecting the macro environment of a project. *)
From Coq Require Import List ZArith Bool String Lia.
From Verif Require Import PreTypes MacroModel EvalModel PreModel PreLex CondSpec CondProofs VisibleSpec PreEvents
  PreDbModel PreDbSpec PreDbProofs VisibleProps.
Import ListNotations.
Local Open Scope Z_scope.
Local Open Scope list_scope.

(** The query preprocesses the root first, every file once, only files that an active include of an
    earlier one asks for, and all that they ask for; files known before are left alone. It answers
    for exactly these files. *)
Theorem C25_each_reachable_file_once :
  forall n w f m before res visits,
    ~ In f before -> params_query n w f m before = QOk res visits ->
    (exists runs, map fst runs = visits /\ collected w before f runs) /\
    (forall g, (exists p, zget res g = Some p) <-> In g visits).
Proof.
  intros n w f m before res visits Hf H.
  destruct (params_answered w n f m before res visits Hf H) as [A B _]. split; [exact A|].
  intros g. rewrite <- (B g). destruct (zget res g) as [p|]; split.
  - discriminate.
  - intros _. exists p. reflexivity.
  - intros (p & X). discriminate X.
  - congruence.
Qed.
Print Assumptions C25_each_reachable_file_once.

(** Reachable in the include graph of the runs. *)
Inductive reachable (w : world) (runs : list (Z * list event)) (f : Z) : Z -> Prop :=
| reach_root : reachable w runs f f
| reach_step g tr h : reachable w runs f g -> In (g, tr) runs -> includes w g tr h -> reachable w runs f h.

(** Seen as a graph: the files preprocessed for a project are the files reachable from its root. *)
Theorem C25_visits_are_the_reachable_files :
  forall n w f m res visits,
    params_query n w f m [] = QOk res visits ->
    exists runs, map fst runs = visits /\ NoDup visits /\ (forall g tr, In (g, tr) runs -> whole_run w g tr) /\
      forall g, In g visits <-> reachable w runs f g.
Proof.
  intros n w f m res visits H.
  destruct (params_answered w n f m [] res visits (fun x => x) H) as [(runs & E & C) _ _].
  exists runs. destruct C as [Cw Co Cn Ca Cl]. split; [exact E|]. split; [rewrite <- E; exact Co|].
  split; [exact Cw|]. intros g. rewrite <- E. split.
  - assert (X : forall k a b, List.length a = k -> runs = a ++ b -> forall g tr, In (g, tr) a -> reachable w runs f g).
    { induction k as [|k IH]; intros a b La Ea g0 tr0 X.
      - destruct a; [destruct X|discriminate La].
      - destruct (exists_last (l := a)) as (a' & [g1 tr1] & ->); [intros ->; discriminate La|].
        rewrite app_length in La. cbn in La. rewrite <- app_assoc in Ea. cbn in Ea.
        rewrite in_app_iff in X. destruct X as [X|[X|[]]].
        + eapply (IH a' ((g1, tr1) :: b)); [lia|exact Ea|exact X].
        + injection X as <- <-. destruct (Ca _ _ _ _ Ea) as [[_ ->]|(h & tr' & Y & Z)].
          * constructor.
          * eapply reach_step; [|rewrite Ea; apply in_or_app; left; exact Y|exact Z].
            eapply (IH a' ((g1, tr1) :: b)); [lia|exact Ea|exact Y]. }
    intros Hg. apply in_map_iff in Hg. destruct Hg as ([g' tr] & <- & Hg).
    apply (X (List.length runs) runs [] eq_refl (eq_sym (app_nil_r runs)) g' tr Hg).
  - induction 1 as [|g tr h _ IH Hg Hi].
    + destruct runs as [|[g0 tr0] runs].
      * exfalso. cbn in E. subst visits.
        destruct (params_answered w n f m [] res [] (fun x => x) H) as [_ K (p & Z & _)].
        destruct (K f) as [X _]. apply X. rewrite Z. discriminate.
      * destruct (Ca [] g0 tr0 runs eq_refl) as [[_ ->]|(h & tr' & [] & _)]. left. reflexivity.
    + destruct (Cl _ _ _ Hg Hi) as [[]|X]. exact X.
Qed.
Print Assumptions C25_visits_are_the_reachable_files.

(** A file is preprocessed for the project of its root when it is reachable from the root, with the macros that the project
    has for it; its text is left as it is when it is not, or when it has no root. *)
Theorem C25_file_of_project :
  forall n w f,
    preprocess_file n w None f = PRaw /\
    forall r, match params_query n w r [] [] with
      | QBad t => preprocess_file n w (Some r) f = PBad t
      | QOk res visits =>
          exists runs, map fst runs = visits /\ (forall g tr, In (g, tr) runs -> whole_run w g tr) /\
            (reachable w runs r f -> exists p, zget res f = Some p /\ preprocess_file n w (Some r) f = PRun (data_query w f p)) /\
            (~ reachable w runs r f -> preprocess_file n w (Some r) f = PRaw)
      end.
Proof.
  intros n w f. split; [reflexivity|]. intros r. unfold preprocess_file. destruct (params_query n w r [] []) as [res visits|t] eqn:Q; [|reflexivity].
  destruct (C25_visits_are_the_reachable_files n w r [] res visits Q) as (runs & E & _ & Wh & Re).
  destruct (C25_each_reachable_file_once n w r [] [] res visits (fun x => x) Q) as (_ & Kn).
  exists runs. split; [exact E|]. split; [exact Wh|]. split.
  - intros R. apply Re, Kn in R as (p & P). exists p. rewrite P. auto.
  - intros N. destruct (zget res f) as [p|] eqn:P; [|reflexivity]. exfalso. apply N, Re, Kn. exists p. exact P.
Qed.
Print Assumptions C25_file_of_project.

(** * Termination *)
(** How many of the files [U] are not yet known. *)
Definition unknown (U known : list Z) : nat := List.length (filter (fun g => negb (zmem g known)) U).

Lemma unknown_incl U a b : (forall x, In x a -> In x b) -> (unknown U b <= unknown U a)%nat.
Proof.
  intros H. unfold unknown. induction U as [|x U IH]; [cbn; lia|]. cbn [filter].
  destruct (zmem x a) eqn:A; cbn [negb].
  - rewrite (proj2 (zmem_In x b) (H x (proj1 (zmem_In x a) A))). cbn [negb]. exact IH.
  - destruct (negb (zmem x b)); cbn [List.length]; lia.
Qed.
Lemma unknown_less U known x : In x U -> ~ In x known -> (unknown U (x :: known) < unknown U known)%nat.
Proof.
  intros H N. unfold unknown. induction U as [|y U IH]; [destruct H|].
  pose proof (unknown_incl U known (x :: known) (fun z Hz => or_intror Hz)) as L. unfold unknown in L.
  cbn [filter]. destruct (Z.eq_dec y x) as [->|D].
  - assert (A : zmem x (x :: known) = true) by (apply zmem_In; left; reflexivity).
    assert (B : zmem x known = false).
    { destruct (zmem x known) eqn:E; [|reflexivity]. apply zmem_In in E. contradiction. }
    rewrite A, B. cbn [negb List.length]. lia.
  - destruct H as [H|H]; [congruence|]. specialize (IH H).
    assert (E : zmem y (x :: known) = zmem y known).
    { unfold zmem. cbn [existsb]. destruct (Z.eqb_spec y x); [contradiction|reflexivity]. }
    rewrite E. destruct (negb (zmem y known)); cbn [List.length]; lia.
Qed.

(** The preprocessing of some file, as the query performs it, does not give a result. *)
Definition file_fails (w : world) (bad : final) : Prop :=
  exists k g i m, preprocess (file_env w g (params_inc w (params_query k w) g)) (w_fuel w) i m (w_syms w g) = bad.

(** Whatever the include graph (cycles, diamonds, a file including itself): if includes lead to the
    finitely many files of [U], the nesting of the query is bounded by their number, and the query
    answers unless the preprocessing of a single file crashes or does not end (C20, C21). *)
Theorem C25_terminates :
  forall w U, (forall f p q g, w_resolve w f p q = Some g -> In g U) ->
  forall n f m before, ~ In f before -> (unknown U (f :: before) < n)%nat ->
    (exists res visits, params_query n w f m before = QOk res visits) \/
    (params_query n w f m before = QBad Crash /\ file_fails w FPanic) \/
    (params_query n w f m before = QBad Endless /\ file_fails w FFuel).
Proof.
  intros w U HU n. induction n as [|n IH]; intros f m before Hf Hn; [lia|].
  cbn [params_query].
  set (v := file_env w f (params_inc w (params_query n w) f)).
  pose (P := fun (l : list (string * bool)) (i : incs_t) =>
     (forall x, In x (f :: before) -> In x (i_being i)) /\
     (i_bad i = None \/ (i_bad i = Some Crash /\ file_fails w FPanic) \/ (i_bad i = Some Endless /\ file_fails w FFuel))).
  assert (HP : forall l i m p q, P l i -> P (l ++ [(p, q)]) (fst (fst (v_inc v i m p q)))).
  { intros l i m0 p q [A B]. cbn [v file_env v_inc]. unfold params_inc.
    destruct (w_resolve w f p q) as [inc|] eqn:E; [|split; assumption].
    destruct (zmem inc (i_being i)) eqn:M; [split; assumption|].
    assert (Hi : ~ In inc (i_being i)) by (rewrite <- zmem_In; congruence).
    assert (Hlt : (unknown U (inc :: i_being i) < n)%nat).
    { pose proof (unknown_less U (i_being i) inc (HU _ _ _ _ E) Hi).
      pose proof (unknown_incl U (f :: before) (i_being i) A). lia. }
    destruct (IH inc m0 (i_being i) Hi Hlt) as [(res & visits & Q)|[[Q F]|[Q F]]]; rewrite Q; cbn [fst].
    - destruct (params_answered w n inc m0 (i_being i) res visits Hi Q) as [_ _ (p0 & Z & _)].
      rewrite Z. cbn [fst]. split; cbn [i_being i_bad].
      + intros x Hx. apply in_or_app. right. auto.
      + exact B.
    - split; cbn [set_bad i_being i_bad]; [exact A|]. destruct B as [B|[[B G]|[B G]]]; rewrite B; auto.
    - split; cbn [set_bad i_being i_bad]; [exact A|]. destruct B as [B|[[B G]|[B G]]]; rewrite B; auto. }
  assert (P0 : P [] (Incs [] (f :: before) [] [f] None)) by (split; cbn; auto).
  destruct (preprocess v (w_fuel w) (Incs [] (f :: before) [] [f] None) m (w_syms w f)) as [s|s| |] eqn:Hp.
  - destruct (preprocess_inv v P HP (w_fuel w) _ m (w_syms w f) s (or_introl Hp) P0)
      as (_ & _ & _ & tr & _ & _ & _ & _ & _ & [_ B]).
    unfold params_finish. destruct B as [B|[[B G]|[B G]]]; rewrite B; eauto.
  - destruct (preprocess_inv v P HP (w_fuel w) _ m (w_syms w f) s (or_intror Hp) P0)
      as (_ & _ & _ & tr & _ & _ & _ & _ & _ & [_ B]).
    unfold params_finish. destruct B as [B|[[B G]|[B G]]]; rewrite B; eauto.
  - right. left. split; [reflexivity|]. exists n, f, (Incs [] (f :: before) [] [f] None), m. exact Hp.
  - right. right. split; [reflexivity|]. exists n, f, (Incs [] (f :: before) [] [f] None), m. exact Hp.
Qed.
Print Assumptions C25_terminates.

Local Open Scope string_scope.
(** A cycle, a diamond, a file that includes itself, an include in inactive code and a file nobody
    includes. *)
Definition sample : world := project
  [("main", "#include <a>
#include <b>
#define M 1
"); ("a", "#include ""c""
#include <main>
"); ("b", "#include <c>
#include <b>
#if 0
#include <d>
#endif
"); ("c", "#define C 1
"); ("d", "#define D 1
"); ("e", "#include <a>
")].
Example C25_nontrivial :
  match params_query 7 sample 0 [] [] with
  | QOk res visits => visits = [0; 1; 3; 2]%Z /\ map (fun p => zget res p) [4; 5]%Z = [None; None]
  | QBad _ => False
  end.
Proof. vm_compute. auto. Qed.
Example C25_file_nontrivial :
  map (preprocess_file 7 sample (Some 0%Z)) [4; 5]%Z = [PRaw; PRaw] /\
  match preprocess_file 7 sample (Some 0%Z) 3%Z with PRun (FResult _) => True | _ => False end.
Proof. vm_compute. auto. Qed.
