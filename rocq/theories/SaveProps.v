(** C57: saving a file compiles the projects that contain it. *)
From Coq Require Import List Bool Arith NArith Lia String Ascii Permutation DecimalString DecimalNat.
From Verif Require Import GraphModel GraphSpec GraphProps SaveModel SaveSpec SaveProofs.
Import ListNotations.
Local Open Scope string_scope.
Local Open Scope nat_scope.
Local Open Scope list_scope.

(** For every session, and every history after it in which neither files nor settings change, and at whose end no task waits:
    the checkers restarted are, in some order, exactly those asked for by each of the files saved. *)
Theorem C57_restarts :
  forall h s k s',
    session h s -> runs s k s' -> Forall quiet k -> tasks s = [] -> tasks s' = [] ->
    exists us css, Permutation (saves k) us /\ Forall2 (asked s) us css /\
      Permutation (restarted s') (restarted s ++ List.concat css).
Proof.
  intros h s k s' S R Q T T'.
  destruct (quiet_runs s k s' R Q (session_nodup h s S)) as (done & rest & css & _ & _ & P & A & Rs & K).
  { rewrite T. constructor. }
  destruct rest as [|u rest].
  - rewrite T, app_nil_r in P. cbn in P. exists done, css. split; [exact P|]. split; [exact A|exact Rs].
  - destruct (K u (or_introl eq_refl)) as (t & I & _). rewrite T' in I. destruct I.
Qed.
Print Assumptions C57_restarts.

(** If the checkers are up to date, saving a file of the graph compiles exactly the projects that contain it, each once,
    with the settings of the session, and there is at least one. *)
Theorem C57_compiled :
  forall h s f gs s',
    session h s -> up_to_date s -> compiler_on_save (config_ s) = true -> tasks s = [] ->
    known (documents s) f \/ (exists a, includes_directly (documents s) (includes s) a f) ->
    runs s [Save (File f); RunTask 0 gs] s' ->
    exists cs, restarted s' = restarted s ++ cs /\ cs <> [] /\ NoDup (map ck_root cs) /\
      (forall r, In r (map ck_root cs) <-> project_with s f r) /\
      (forall c, In c cs -> configured s c).
Proof.
  intros h s f gs s' S (U0 & U1 & U2 & U3) O T G R.
  inversion R as [|? ? ? ? _ R1]; subst. inversion R1 as [|? ? ? ? L R2]; subst. inversion R2; subst. clear R R1 R2.
  cbn [step] in *. unfold handle_did_save, run_flycheck in *. rewrite O in *. cbn [negb] in *. rewrite T in *. cbn [app set_tasks tasks nth_error legal documents includes] in *.
  exists (triggered (Task f (flycheck s)) gs). cbn [firstn skipn app restart set_tasks restarted].
  split; [reflexivity|].
  pose proof (triggered_asked s f gs U1 L O) as [N A]. rewrite O in A. cbn [negb] in A.
  destruct L as (g & adj & roots & fuel & L1 & L2 & L3 & L4 & L5).
  destruct (C28_every_file_has_a_project (documents s) (includes s) g adj roots fuel gs f L1 L2 L3 L4 L5 G) as (sg & P1 & P2 & P3 & P4).
  destruct (C28_subgraphs (documents s) (includes s) g adj roots fuel L1 L2 L3 L4) as (gs' & E' & _ & PR & _).
  rewrite L5 in E'. injection E' as <-.
  assert (W : project_with s f (file_id (sg_root sg))).
  { split; [|exact P4]. apply PR. apply in_map_iff. exists sg. split; [reflexivity|exact P2]. }
  assert (W1 := proj1 W). apply U2, in_map_iff in W1. destruct W1 as (c0 & C1 & C2).
  destruct A as [[A1 A2]|[_ A2]]; [|exfalso; apply (A2 c0 C2); rewrite C1; exact W].
  split; [exact A2|]. split.
  { set (cs := triggered _ _) in *. clearbody cs. clear - N A1 U1.
    assert (I : incl cs (flycheck s)) by (intros c J; apply A1 in J; apply J). clear A1.
    induction cs as [|c cs IH]; [constructor|]. inversion N as [|? ? N1 N2]; subst. cbn [map]. constructor.
    - intros J. apply in_map_iff in J. destruct J as (d & J1 & J2). apply N1.
      assert (Gd : get (flycheck s) (ck_root d) = Some d) by (apply get_root; [exact U1|apply I; right; exact J2]).
      assert (Gc : get (flycheck s) (ck_root c) = Some c) by (apply get_root; [exact U1|apply I; left; reflexivity]).
      rewrite J1, Gc in Gd. injection Gd as <-. exact J2.
    - apply IH; [exact N2|]. intros d J. apply I. right. exact J. }
  split.
  - intros r. rewrite in_map_iff. split.
    + intros (c & <- & I). apply A1 in I. apply I.
    + intros Wr. assert (J := proj1 Wr). apply U2, in_map_iff in J. destruct J as (c & <- & J). exists c. split; [reflexivity|].
      apply A1. split; assumption.
  - intros c I. apply U3. apply A1 in I. apply I.
Qed.
Print Assumptions C57_compiled.

Lemma reload_up_to_date : forall s gs, found_in (documents s) (includes s) gs -> compiler_path (config_ s) <> None ->
  up_to_date (reload_flycheck s gs).
Proof.
  intros s gs F P. destruct (found_roots _ _ _ F) as (N & R & _). unfold up_to_date, reload_flycheck, configured.
  destruct (compiler_path (config_ s)) as [p|] eqn:E; [|contradiction]. cbn [config_ flycheck documents includes]. rewrite !map_map. cbn [ck_root].
  split; [congruence|]. split; [exact N|]. split; [exact R|].
  intros c I. apply in_map_iff in I. destruct I as (g & <- & I). cbn [ck_path ck_arguments ck_includes]. repeat split. exact E.
Qed.

Lemma strings_eqb_eq : forall a b, strings_eqb a b = true -> a = b.
Proof. intros a b. unfold strings_eqb. destruct (list_eq_dec string_dec a b); [auto|discriminate]. Qed.
Lemma path_eqb_eq : forall a b, path_eqb a b = true -> a = b.
Proof. intros [a|] [b|]; cbn; try discriminate; [|reflexivity]. intros H. apply String.eqb_eq in H. congruence. Qed.

Lemma quiet_up_to_date : forall s e, quiet e -> up_to_date s -> up_to_date (step s e).
Proof.
  intros s e Q U. destruct (step_same s e Q) as (S1 & S2 & S3 & S4). unfold up_to_date, configured in *. rewrite S1, S2, S3, S4. exact U.
Qed.

(** When the checkers are up to date: at the beginning, for the files known then; after a change of the settings of the
    compiler; and they stay so while the set of project roots stays the same and a compiler is set. *)
Theorem C57_up_to_date :
  (forall c ds is gs, found_in ds is gs -> compiler_path c <> None -> up_to_date (start c ds is gs)) /\
  forall s e, legal s e ->
    match e with
    | Settings c _ =>
        compiler_path c <> None ->
        up_to_date s \/ compiler_path c <> compiler_path (config_ s) \/ compiler_arguments c <> compiler_arguments (config_ s) \/
          include_directories c <> include_directories (config_ s) ->
        up_to_date (step s e)
    | FilesChange ds is =>
        (forall r, project_root ds is r <-> project_root (documents s) (includes s) r) -> up_to_date s -> up_to_date (step s e)
    | _ => up_to_date s -> up_to_date (step s e)
    end.
Proof.
  split.
  - intros c ds is gs F P. unfold start. apply reload_up_to_date; assumption.
  - intros s e L. destruct e as [u|n gs|c gs|ds is|tok].
    + intros U. exact (quiet_up_to_date s (Save u) I U).
    + intros U. exact (quiet_up_to_date s (RunTask n gs) I U).
    + intros P D. cbn [step]. unfold update_configuration. cbn [negb andb].
      destruct (negb (path_eqb (compiler_path c) (compiler_path (config_ s))) || negb (strings_eqb (compiler_arguments c) (compiler_arguments (config_ s)))
                || negb (strings_eqb (include_directories c) (include_directories (config_ s)))) eqn:E.
      * apply reload_up_to_date; assumption.
      * apply orb_false_iff in E. destruct E as [E E3]. apply orb_false_iff in E. destruct E as [E1 E2].
        apply negb_false_iff in E1, E2, E3. apply path_eqb_eq in E1. apply strings_eqb_eq in E2, E3.
        destruct D as [(U0 & U1 & U2 & U3)|[D|[D|D]]]; try contradiction.
        unfold up_to_date, configured in *. cbn [config_ flycheck documents includes].
        split; [exact P|]. split; [exact U1|]. split; [exact U2|].
        intros x I. destruct (U3 x I) as (A & B & C). repeat split; congruence.
    + intros R (U0 & U1 & U2 & U3). cbn [step]. unfold up_to_date, configured in *. cbn [config_ flycheck documents includes].
      split; [exact U0|]. split; [exact U1|]. split; [|exact U3]. intros r. rewrite R. apply U2.
    + intros U. exact (quiet_up_to_date s (CancelProgress tok) I U).
Qed.
Print Assumptions C57_up_to_date.

(** Nothing happens if compiling on save is off. *)
Theorem C57_off :
  forall s u, compiler_on_save (config_ s) = false -> step s (Save u) = s.
Proof. intros s u H. cbn [step]. unfold handle_did_save. rewrite H. destruct u; reflexivity. Qed.
Print Assumptions C57_off.

(** Each check has its own progress token, and cancelling that progress cancels that check and nothing else. *)
Theorem C57_cancel :
  (forall h s c, session h s -> In c (flycheck s) -> (N.of_nat (ck_root c) < 2 ^ 32)%N ->
     step s (CancelProgress (token (ck_root c))) =
     State (documents s) (includes s) (config_ s) (flycheck s) (made s) (tasks s) (restarted s) (cancelled s ++ [c])) /\
  (forall s r, (N.of_nat r < 2 ^ 32)%N -> ~ In r (map ck_root (flycheck s)) -> step s (CancelProgress (token r)) = s) /\
  (forall a b, (N.of_nat a < 2 ^ 32)%N -> (N.of_nat b < 2 ^ 32)%N -> token a = token b -> a = b).
Proof.
  assert (ST : forall r, strip_prefix "sourcepawn-lsp/flycheck/" (token r) = Some (display r)) by (intros r; reflexivity).
  assert (PA : forall r, (N.of_nat r < 2 ^ 32)%N -> parse_u32 (display r) = Some (N.of_nat r)).
  { intros r B. unfold display.
    assert (V : value 0 (Nat.to_uint r) = N.of_nat r).
    { change 0%N with (N.of_nat 0). rewrite <- value_nat. f_equal. exact (Unsigned.of_to r). }
    assert (Q : parse_digits 0 (NilEmpty.string_of_uint (Nat.to_uint r)) = Some (N.of_nat r)).
    { rewrite parse_value; [rewrite V; reflexivity|rewrite V; exact B]. }
    destruct (Nat.to_uint r); [cbn in Q |- *; exact Q|..]; exact Q. }
  split; [|split].
  - intros h s c S I B. cbn [step]. unfold handle_progress_cancel. rewrite ST, PA by exact B.
    rewrite Nnat.Nat2N.id, get_root; [reflexivity|apply (session_nodup h s S)|exact I].
  - intros s r B I. cbn [step]. unfold handle_progress_cancel. rewrite ST, PA by exact B. rewrite Nnat.Nat2N.id.
    destruct (get (flycheck s) r) as [c|] eqn:E; [|reflexivity]. exfalso. apply I. destruct (get_in _ _ _ E) as [J <-]. apply in_map. exact J.
  - intros a b A B E. assert (D : Some (display a) = Some (display b)) by (rewrite <- !ST, E; reflexivity).
    injection D as D. assert (H : Some (N.of_nat a) = Some (N.of_nat b)) by (rewrite <- !PA by assumption; rewrite D; reflexivity).
    injection H as H. lia.
Qed.
Print Assumptions C57_cancel.

(** ** Where it is false *)

(** the subgraphs in the order of the model *)
Definition in_order (ds : list (nat * extension)) (is : nat -> list (nat * extension)) : list subgraph :=
  let g := graph_query ds is in
  match subgraphs (S (List.length (nodes g))) (targets (edges g)) (find_roots g) with Some gs => gs | None => [] end.
Lemma in_order_found : forall ds is, found_in ds is (in_order ds is).
Proof.
  intros ds is. exists (graph_query ds is), (targets (edges (graph_query ds is))), (find_roots (graph_query ds is)), (S (List.length (nodes (graph_query ds is)))).
  assert (A : reordered (graph_query ds is) (graph_query ds is)) by (split; reflexivity).
  assert (B : adjacency (edges (graph_query ds is)) (targets (edges (graph_query ds is)))) by (intros n; reflexivity).
  split; [exact A|]. split; [exact B|]. split; [reflexivity|]. split; [lia|].
  destruct (C28_subgraphs ds is _ _ _ _ A B (Permutation_refl _) (Nat.lt_succ_diag_r _)) as (gs & E & _).
  unfold in_order. rewrite E. reflexivity.
Qed.

(** Finding: the checkers are made at the start, before the loader has read any file. If no document was opened by then, no
    save runs the compiler, whatever files are loaded and saved, until one of the compiler's settings changes. *)
Theorem C57_start_refuted :
  forall c gs h s, found_in [] (fun _ => []) gs -> runs (start c [] (fun _ => []) gs) h s ->
    (forall c' gs', ~ In (Settings c' gs') h) -> restarted s = [].
Proof.
  intros c gs h s F R N.
  assert (G : gs = []).
  { destruct (found_roots _ _ _ F) as (_ & P & _). destruct gs as [|g gs]; [reflexivity|].
    destruct (proj1 (P (file_id (sg_root g))) (or_introl eq_refl)) as [[[]|(a & [] & _)] _]. }
  subst gs. clear F.
  assert (S : flycheck (start c [] (fun _ => []) []) = [] /\ restarted (start c [] (fun _ => []) []) = [] /\
              Forall (fun t => world_flycheck t = []) (tasks (start c [] (fun _ => []) []))).
  { unfold start, reload_flycheck. destruct (compiler_path _); cbn; auto. }
  revert S. generalize dependent (start c [] (fun _ => []) []). intros s0 R S. induction R as [s1|s1 e h s2 L R IH]; [apply S|].
  apply IH; [intros c' gs' I; apply (N c' gs'); right; exact I|]. destruct S as (S1 & S2 & S3). clear IH R.
  destruct e as [u|n gs|c' gs|ds is|tok]; cbn [step].
  - unfold handle_did_save, run_flycheck, restart, set_tasks. destruct u; cbn; destruct (compiler_on_save (config_ s1)); cbn; rewrite ?S1, ?S2; auto.
    split; [reflexivity|]. split; [reflexivity|]. apply Forall_app. auto.
  - destruct (nth_error (tasks s1) n) as [t|] eqn:E; [|auto]. cbn. split; [exact S1|].
    assert (T : world_flycheck t = []) by (rewrite Forall_forall in S3; apply S3, (nth_error_In _ _ E)).
    split.
    + rewrite S2. cbn. unfold triggered. rewrite T.
      assert (Z : flat_map (fun r : nat => match get [] r with Some c0 => [c0] | None => [] end) (unique (sorted (projects_for_file gs (saved t)))) = []).
      { generalize (unique (sorted (projects_for_file gs (saved t)))). intros l. induction l; [reflexivity|exact IHl]. }
      cbv zeta. rewrite Z. reflexivity.
    + rewrite Forall_forall in *. intros x I. apply S3. apply (Permutation_in x (Permutation_sym (nth_split _ _ _ _ E))). right. exact I.
  - exfalso. apply (N c' gs). left. reflexivity.
  - cbn. auto.
  - unfold handle_progress_cancel. destruct (strip_prefix _ tok); [|auto]. destruct (parse_u32 _); [|auto].
    rewrite S1. cbn. auto.
Qed.
Print Assumptions C57_start_refuted.

Definition on : config := Config (Some "spcomp") [] [] true.
Definition alone : nat -> list (nat * extension) := fun _ => [].

Ltac legal_run := repeat (first [apply runs_nil | apply runs_cons; [first [exact I | apply in_order_found] |]]).

(** Finding: a project whose files come later has no checker; saving its file compiles all the other projects instead. *)
Theorem C57_new_project_refuted :
  exists h s, session h s /\ compiler_on_save (config_ s) = true /\ saves h = [File 2] /\ tasks s = [] /\
    (forall r, project_with s 2 r <-> r = 2) /\ map ck_root (restarted s) = [1].
Proof.
  set (gs2 := in_order [(1, Sp); (2, Sp)] alone).
  exists [FilesChange [(1, Sp); (2, Sp)] alone; Save (File 2); RunTask 0 gs2].
  exists (State [(1, Sp); (2, Sp)] alone on [Checker 1 "spcomp" [] [] 0] 1 [] [Checker 1 "spcomp" [] [] 0] []).
  split. { apply (session_intro on [(1, Sp)] alone (in_order [(1, Sp)] alone)); [apply in_order_found|]. legal_run. }
  split; [reflexivity|]. split; [reflexivity|]. split; [reflexivity|]. split; [|reflexivity].
  intros r. unfold project_with. cbn [documents includes]. split.
  - intros [_ R]. inversion R as [a|a b c [_ X] _]; subst; [reflexivity|destruct X].
  - intros ->. split; [|apply reaches_self]. split; [left; right; left; reflexivity|]. right. intros (a & _ & []).
Qed.
Print Assumptions C57_new_project_refuted.

(** Finding: when the compiler is removed from the settings the checkers stay: saving still runs the compiler set before. *)
Theorem C57_no_compiler_refuted :
  exists h s, session h s /\ compiler_path (config_ s) = None /\ map ck_path (restarted s) = ["spcomp"].
Proof.
  exists [Settings (Config None [] [] true) (in_order [(1, Sp)] alone); Save (File 1); RunTask 0 (in_order [(1, Sp)] alone)].
  exists (State [(1, Sp)] alone (Config None [] [] true) [Checker 1 "spcomp" [] [] 0] 1 [] [Checker 1 "spcomp" [] [] 0] []).
  split; [|split; reflexivity].
  apply (session_intro on [(1, Sp)] alone (in_order [(1, Sp)] alone)); [apply in_order_found|]. legal_run.
Qed.
Print Assumptions C57_no_compiler_refuted.

(** Finding: if any file changes before the task has run, the task is cancelled and nothing is compiled for that save. *)
Theorem C57_cancelled_refuted :
  forall s f ds is n gs, compiler_on_save (config_ s) = true ->
    restarted (step (step (step s (Save (File f))) (FilesChange ds is)) (RunTask n gs)) = restarted s.
Proof. intros s f ds is n gs O. cbn [step]. unfold handle_did_save, run_flycheck. rewrite O. cbn. destruct n; reflexivity. Qed.
Print Assumptions C57_cancelled_refuted.

(** Finding: if the settings change before the task has run, the checkers of before are restarted, with the settings of before,
    though their handles are about to be dropped; those made for the new settings are not. *)
Theorem C57_replaced_refuted :
  exists h s, session h s /\ up_to_date s /\ saves h = [File 1] /\ tasks s = [] /\
    restarted s <> [] /\ (forall c, In c (restarted s) -> ~ In c (flycheck s) /\ ~ configured s c).
Proof.
  exists [Save (File 1); Settings (Config (Some "other") [] [] true) (in_order [(1, Sp)] alone); RunTask 0 (in_order [(1, Sp)] alone)].
  exists (State [(1, Sp)] alone (Config (Some "other") [] [] true) [Checker 1 "other" [] [] 1] 2 [] [Checker 1 "spcomp" [] [] 0] []).
  split. { apply (session_intro on [(1, Sp)] alone (in_order [(1, Sp)] alone)); [apply in_order_found|]. legal_run. }
  split. { split; [discriminate|]. split; [repeat constructor; intros []|]. split.
           - intros r. cbn. split.
             + intros [<-|[]]. split; [left; left; reflexivity|]. right. intros (a & _ & []).
             + intros [[[H|[]]|(a & _ & [])] _]. left. exact H.
           - intros c [<-|[]]. repeat split. }
  split; [reflexivity|]. split; [reflexivity|]. split; [discriminate|].
  intros c [<-|[]]. split; [cbn; intros [H|[]]; discriminate H|]. intros (H & _). discriminate H.
Qed.
Print Assumptions C57_replaced_refuted.

(** Finding: an include file that itself includes something counts as a project: saving it runs the compiler on it. *)
Theorem C57_include_refuted :
  exists h s, session h s /\ up_to_date s /\ In (2, Inc) (documents s) /\ includes_directly (documents s) (includes s) 1 2 /\
    saves h = [File 2] /\ map ck_root (restarted s) = [1; 2].
Proof.
  set (ds := [(1, Sp); (2, Inc); (3, Inc)]).
  set (is := fun f : nat => match f with 1 => [(2, Inc)] | 2 => [(3, Inc)] | _ => [] end).
  exists [Save (File 2); RunTask 0 (in_order ds is)].
  exists (State ds is on [Checker 1 "spcomp" [] [] 0; Checker 2 "spcomp" [] [] 0] 1 [] [Checker 1 "spcomp" [] [] 0; Checker 2 "spcomp" [] [] 0] []).
  split. { apply (session_intro on ds is (in_order ds is)); [apply in_order_found|]. legal_run. }
  split.
  { split; [discriminate|]. split. { repeat constructor; cbn; intuition discriminate. } split.
    - intros r. pose proof (proj1 (proj2 (found_roots _ _ _ (in_order_found ds is))) r) as H.
      cbn [documents includes]. rewrite <- H. vm_compute. split; intros J; exact J.
    - intros c [<-|[<-|[]]]; repeat split. }
  split; [right; left; reflexivity|]. split; [split; [left; reflexivity|left; reflexivity]|]. split; reflexivity.
Qed.
Print Assumptions C57_include_refuted.

(** two plugins sharing an include, a third apart: after a change of the arguments, saving the include, then the third,
    compiles the two and then the one; the tasks run in the other order *)
Example C57_nontrivial :
  let ds := [(1, Sp); (2, Sp); (3, Sp); (4, Inc)] in
  let is := fun f => match f with 1 => [(4, Inc)] | 2 => [(4, Inc)] | _ => [] end in
  let gs := in_order ds is in
  let c := Config (Some "spcomp") ["-v"] ["inc"] true in
  let h := [FilesChange ds is; Settings c gs] in
  let k := [Save (File 4); Save (File 3); RunTask 1 gs; CancelProgress "sourcepawn-lsp/flycheck/2"; RunTask 0 gs; Save NoFile] in
  exists s s', session h s /\ up_to_date s /\ runs s k s' /\ Forall quiet k /\ tasks s = [] /\ tasks s' = [] /\
    map ck_root (restarted s') = [3; 1; 2] /\ map ck_root (cancelled s') = [2] /\
    map ck_arguments (restarted s') = [["-v"]; ["-v"]; ["-v"]].
Proof.
  intros ds is gs c h k.
  exists (fold_left step h (start on [] alone (in_order [] alone))), (fold_left step (h ++ k) (start on [] alone (in_order [] alone))).
  split. { apply (session_intro on [] alone (in_order [] alone)); [apply in_order_found|]. unfold h. cbn [fold_left]. legal_run. }
  split.
  { unfold h. cbn [fold_left]. apply (proj2 C57_up_to_date _ (Settings c gs)); [apply in_order_found|discriminate|].
    right. right. left. discriminate. }
  split. { unfold h, k. cbn [app fold_left].
    repeat (first [apply runs_nil | apply runs_cons; [first [exact I | apply in_order_found] |]]). }
  split. { repeat constructor. }
  vm_compute. repeat split.
Qed.
