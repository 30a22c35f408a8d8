(** Lemmas about the checks run when a file is saved. *)
From Coq Require Import List Bool Arith NArith Lia String Ascii Permutation DecimalString DecimalNat.
From Verif Require Import GraphModel GraphSpec GraphProps SaveModel SaveSpec.
Import ListNotations.
Local Open Scope nat_scope.
Local Open Scope list_scope.

(** ** Projects of a file *)
Lemma found_roots : forall ds is gs, found_in ds is gs ->
  NoDup (map (fun g => file_id (sg_root g)) gs) /\
  (forall r, In r (map (fun g => file_id (sg_root g)) gs) <-> project_root ds is r) /\
  (forall g f, In g gs -> contains_file g f = true <-> reaches ds is (file_id (sg_root g)) f).
Proof.
  intros ds is gs (g & adj & roots & fuel & A & B & C & D & E).
  destruct (C28_subgraphs ds is g adj roots fuel A B C D) as (gs' & E' & N & R & S).
  rewrite E in E'. injection E' as <-. split; [exact N|]. split; [exact R|].
  intros x f I. destruct (S x I) as [_ S2]. rewrite <- S2. unfold contains_file. rewrite existsb_exists. split.
  - intros (y & Y1 & Y2). apply Nat.eqb_eq in Y2. apply in_map_iff. exists y. split; assumption.
  - intros J. apply in_map_iff in J. destruct J as (y & Y1 & Y2). exists y. split; [exact Y2|]. apply Nat.eqb_eq. exact Y1.
Qed.

Lemma projects_exact : forall ds is gs f r, found_in ds is gs ->
  In r (projects_for_file gs f) <-> project_root ds is r /\ reaches ds is r f.
Proof.
  intros ds is gs f r F. destruct (found_roots ds is gs F) as (_ & R & S). unfold projects_for_file. rewrite in_map_iff. split.
  - intros (g & <- & I). apply filter_In in I. destruct I as [I C]. split.
    + apply R. apply in_map_iff. exists g. split; [reflexivity|exact I].
    + apply S; assumption.
  - intros [P Q]. apply R in P. apply in_map_iff in P. destruct P as (g & <- & I). exists g. split; [reflexivity|].
    apply filter_In. split; [exact I|]. apply S; assumption.
Qed.

(** ** sorted, unique *)
Lemma insert_sorted_in : forall x y l, In x (insert_sorted y l) <-> x = y \/ In x l.
Proof.
  intros x y. induction l as [|z l IH]; cbn; [intuition|]. destruct (y <=? z); cbn; [intuition|]. rewrite IH. intuition.
Qed.
Lemma sorted_in : forall x l, In x (sorted l) <-> In x l.
Proof. intros x. induction l as [|y l IH]; cbn; [tauto|]. rewrite insert_sorted_in, IH. intuition. Qed.
Lemma unique_from_in : forall l seen x, In x (unique_from seen l) <-> In x l /\ ~ In x seen.
Proof.
  induction l as [|y l IH]; intros seen x; cbn; [tauto|]. destruct (existsb (Nat.eqb y) seen) eqn:E.
  - rewrite IH. apply existsb_exists in E. destruct E as (z & I & Z). apply Nat.eqb_eq in Z. subst z. intuition (subst; tauto).
  - cbn. rewrite IH. cbn.
    assert (~ In y seen). { intros I. assert (existsb (Nat.eqb y) seen = true); [|congruence]. apply existsb_exists. exists y. split; [exact I|apply Nat.eqb_refl]. }
    destruct (Nat.eq_dec y x); [subst|]; intuition.
Qed.
Lemma unique_from_nodup : forall l seen, NoDup (unique_from seen l).
Proof.
  induction l as [|y l IH]; intros seen; cbn; [constructor|]. destruct (existsb (Nat.eqb y) seen); [apply IH|].
  constructor; [|apply IH]. rewrite unique_from_in. cbn. tauto.
Qed.

(** ** The map of checkers *)
Lemma get_in : forall m r c, get m r = Some c -> In c m /\ ck_root c = r.
Proof. intros m r c H. apply find_some in H. destruct H as [I E]. apply Nat.eqb_eq in E. split; assumption. Qed.
Lemma get_root : forall m c, NoDup (map ck_root m) -> In c m -> get m (ck_root c) = Some c.
Proof.
  induction m as [|d m IH]; intros c N I; [destruct I|]. cbn in *. inversion N as [|? ? N1 N2]; subst.
  destruct (ck_root d =? ck_root c) eqn:E.
  - apply Nat.eqb_eq in E. destruct I as [->|I]; [reflexivity|]. exfalso. apply N1. rewrite E. apply in_map. exact I.
  - destruct I as [->|I]; [rewrite Nat.eqb_refl in E; discriminate|]. apply IH; assumption.
Qed.

Lemma roots_nodup : forall m, NoDup (map ck_root m) -> NoDup m.
Proof. intros m. apply NoDup_map_inv. Qed.

Definition found_checkers (m : list checker) (rs : list nat) : list checker :=
  flat_map (fun r => match get m r with Some c => [c] | None => [] end) rs.
Lemma found_checkers_in : forall m rs c, NoDup (map ck_root m) ->
  In c (found_checkers m rs) <-> In c m /\ In (ck_root c) rs.
Proof.
  intros m rs c N. unfold found_checkers. rewrite in_flat_map. split.
  - intros (r & I & J). destruct (get m r) as [d|] eqn:E; [|destruct J]. destruct J as [<-|[]].
    destruct (get_in _ _ _ E) as [K <-]. split; assumption.
  - intros [I J]. exists (ck_root c). split; [exact J|]. rewrite get_root by assumption. left. reflexivity.
Qed.
Lemma found_checkers_nodup : forall m rs, NoDup rs -> NoDup (found_checkers m rs).
Proof.
  intros m. induction rs as [|r rs IH]; intros N; [constructor|]. inversion N as [|? ? N1 N2]; subst.
  cbn. destruct (get m r) as [c|] eqn:E; [|apply IH; assumption]. cbn. constructor; [|apply IH; assumption].
  unfold found_checkers. intros I. apply in_flat_map in I. destruct I as (r' & I & J). destruct (get m r') as [d|] eqn:E'; [|destruct J].
  destruct J as [->|[]]. apply get_in in E, E'. destruct E as [_ E], E' as [_ E']. apply N1. congruence.
Qed.

Lemma triggered_asked : forall s f gs,
  NoDup (map ck_root (flycheck s)) -> found_in (documents s) (includes s) gs -> compiler_on_save (config_ s) = true ->
  asked s (File f) (triggered (Task f (flycheck s)) gs).
Proof.
  intros s f gs N F O. unfold asked, triggered. cbn [saved world_flycheck]. rewrite O. cbn [negb].
  set (rs := unique (sorted (projects_for_file gs f))).
  assert (R : forall r, In r rs <-> project_with s f r).
  { intros r. unfold rs, unique. rewrite unique_from_in, sorted_in, (projects_exact (documents s) (includes s) gs f r F). unfold project_with. cbn. tauto. }
  fold (found_checkers (flycheck s) rs).
  assert (I : forall c, In c (found_checkers (flycheck s) rs) <-> In c (flycheck s) /\ project_with s f (ck_root c)).
  { intros c. rewrite found_checkers_in by exact N. rewrite R. tauto. }
  assert (D : NoDup (found_checkers (flycheck s) rs)) by (apply found_checkers_nodup, unique_from_nodup).
  destruct (found_checkers (flycheck s) rs) as [|c cs] eqn:E.
  - split; [apply roots_nodup; exact N|]. right. split; [intros c; reflexivity|]. intros c J K. exact (proj2 (I c) (conj J K)).
  - split; [exact D|]. left. split; [exact I|discriminate].
Qed.

(** ** Invariants *)
Lemma reload_nodup : forall s gs, found_in (documents s) (includes s) gs -> NoDup (map ck_root (flycheck s)) ->
  NoDup (map ck_root (flycheck (reload_flycheck s gs))).
Proof.
  intros s gs F N. unfold reload_flycheck. destruct (compiler_path (config_ s)) as [p|]; [|exact N]. cbn [flycheck].
  rewrite map_map. cbn [ck_root]. apply (found_roots _ _ _ F).
Qed.

Lemma step_nodup : forall s e, legal s e -> NoDup (map ck_root (flycheck s)) -> NoDup (map ck_root (flycheck (step s e))).
Proof.
  intros s e L N. destruct e as [u|n gs|c gs|ds is|tok]; cbn [step].
  - unfold handle_did_save. destruct u; cbn; destruct (compiler_on_save (config_ s)); exact N.
  - destruct (nth_error (tasks s) n); exact N.
  - unfold update_configuration. cbv zeta. destruct (_ && _); [apply reload_nodup; [exact L|exact N]|exact N].
  - exact N.
  - unfold handle_progress_cancel. destruct (strip_prefix _ tok); [|exact N]. destruct (parse_u32 _); [|exact N].
    destruct (get (flycheck s) _); exact N.
Qed.

Lemma runs_nodup : forall s h s', runs s h s' -> NoDup (map ck_root (flycheck s)) -> NoDup (map ck_root (flycheck s')).
Proof. intros s h s' R. induction R as [|s e h s' L R IH]; intros N; [exact N|]. apply IH, step_nodup; assumption. Qed.

Lemma session_nodup : forall h s, session h s -> NoDup (map ck_root (flycheck s)).
Proof.
  intros h s S. inversion S as [c ds is gs h' s' F R]; subst. apply (runs_nodup _ _ _ R). unfold start. apply reload_nodup; [exact F|constructor].
Qed.

(** ** Quiet histories *)
Definition same (s s' : state) : Prop :=
  documents s' = documents s /\ includes s' = includes s /\ config_ s' = config_ s /\ flycheck s' = flycheck s.

Lemma step_same : forall s e, quiet e -> same s (step s e).
Proof.
  intros s e Q. destruct e as [u|n gs|c gs|ds is|tok]; cbn [step]; try destruct Q.
  - unfold handle_did_save. destruct u; cbn; destruct (compiler_on_save (config_ s)); repeat split.
  - destruct (nth_error (tasks s) n); repeat split.
  - unfold handle_progress_cancel. destruct (strip_prefix _ tok); [|repeat split]. destruct (parse_u32 _); [|repeat split].
    destruct (get (flycheck s) _); repeat split.
Qed.

(** Each waiting task corresponds to a save whose checks are still to come *)
Definition waits (s : state) (t : task) : Prop := world_flycheck t = flycheck s /\ compiler_on_save (config_ s) = true.

Lemma asked_same : forall s s' u cs, same s s' -> asked s' u cs -> asked s u cs.
Proof.
  intros [d i c f m t r k] [d' i' c' f' m' t' r' k'] u cs (A & B & C & D). cbn in *. subst. unfold asked, project_with. cbn. tauto.
Qed.

Lemma nth_split : forall A (l : list A) n x, nth_error l n = Some x -> Permutation l (x :: firstn n l ++ skipn (S n) l).
Proof.
  intros A. induction l as [|y l IH]; intros n x H; [destruct n; discriminate H|]. destruct n as [|n]; cbn in H |- *.
  - injection H as ->. reflexivity.
  - rewrite perm_swap. constructor. apply IH. exact H.
Qed.

(** The checks asked for by the waiting tasks, then by the saves of the history, are run, or still waiting *)
Lemma quiet_runs : forall s h s', runs s h s' -> Forall quiet h ->
  NoDup (map ck_root (flycheck s)) -> Forall (waits s) (tasks s) ->
  exists done rest css,
    same s s' /\ Forall (waits s') (tasks s') /\
    Permutation (map (fun t => File (saved t)) (tasks s) ++ saves h) (done ++ rest) /\
    Forall2 (asked s) done css /\ Permutation (restarted s') (restarted s ++ List.concat css) /\
    (forall u, In u rest -> exists t, In t (tasks s') /\ u = File (saved t)).
Proof.
  intros s h s' R. induction R as [s|s e h s' L R IH]; intros Q N W.
  - exists [], (map (fun t => File (saved t)) (tasks s)), []. split; [repeat split|]. split; [exact W|]. cbn. rewrite !app_nil_r.
    split; [reflexivity|]. split; [constructor|]. split; [reflexivity|].
    intros u I. apply in_map_iff in I. destruct I as (t & <- & I). eauto.
  - inversion Q as [|? ? Q1 Q2]; subst. pose proof (step_same s e Q1) as SM.
    destruct SM as (S1 & S2 & S3 & S4).
    assert (W' : Forall (waits (step s e)) (tasks (step s e))).
    { apply Forall_forall. intros t I. unfold waits. rewrite S3, S4. rewrite Forall_forall in W.
      destruct e as [u|n gs|c gs|ds is|tok]; cbn [step] in I; try destruct Q1.
      - unfold handle_did_save, run_flycheck, restart, set_tasks in I. destruct (compiler_on_save (config_ s)) eqn:O; destruct u; cbn in I; try (destruct (W t I); split; congruence).
        apply in_app_or in I. destruct I as [I|[<-|[]]]; [destruct (W t I); split; congruence|]. split; reflexivity.
      - destruct (nth_error (tasks s) n) as [t'|] eqn:E; [|exact (W t I)]. cbn in I. apply W.
        apply (Permutation_in t (Permutation_sym (nth_split _ _ _ _ E))). right. exact I.
      - unfold handle_progress_cancel in I. destruct (strip_prefix _ tok); [|exact (W t I)]. destruct (parse_u32 _); [|exact (W t I)].
        destruct (get (flycheck s) _); exact (W t I). }
    destruct (IH Q2) as (done & rest & css & SM & W2 & P & A & Rs & K).
    { rewrite S4. exact N. } { exact W'. }
    assert (SM' : same s s').
    { destruct SM as (T1 & T2 & T3 & T4). repeat split; congruence. }
    assert (A' : Forall2 (asked s) done css).
    { clear - A S1 S2 S3 S4. induction A as [|u cs us css H A IHA]; constructor; [|exact IHA].
      apply (asked_same s (step s e)); [repeat split; assumption|exact H]. }
    destruct e as [u|n gs|c gs|ds is|tok]; try destruct Q1; cbn [saves].
    + (* Save *)
      cbn [step] in P, Rs. unfold handle_did_save in P, Rs.
      destruct u as [| |f].
      * destruct (compiler_on_save (config_ s)) eqn:O.
        -- exists (NoPath :: done), rest, (flycheck s :: css). cbn [restart tasks restarted] in P, Rs.
           split; [exact SM'|]. split; [exact W2|].
           split; [cbn [app]; rewrite <- P; symmetry; apply Permutation_middle|].
           split. { constructor; [|exact A']. split; [apply roots_nodup; exact N|]. rewrite O. cbn. intros c. reflexivity. }
           split; [cbn [List.concat]; rewrite app_assoc; exact Rs|exact K].
        -- exists (NoPath :: done), rest, ([] :: css). split; [exact SM'|]. split; [exact W2|].
           split; [cbn [app]; rewrite <- P; symmetry; apply Permutation_middle|].
           split. { constructor; [|exact A']. split; [constructor|]. rewrite O. reflexivity. }
           split; [exact Rs|exact K].
      * exists (NoFile :: done), rest, ([] :: css).
        assert (E : handle_did_save s NoFile = s) by (unfold handle_did_save, run_flycheck; destruct (compiler_on_save (config_ s)); reflexivity).
        unfold handle_did_save in E. rewrite E in P, Rs.
        split; [exact SM'|]. split; [exact W2|]. split; [cbn [app]; rewrite <- P; symmetry; apply Permutation_middle|].
        split. { constructor; [|exact A']. split; [constructor|]. destruct (negb _); reflexivity. }
        split; [exact Rs|exact K].
      * destruct (compiler_on_save (config_ s)) eqn:O; cbn [negb run_flycheck set_tasks tasks restarted] in P, Rs.
        -- exists done, rest, css. split; [exact SM'|]. split; [exact W2|].
           split. { rewrite <- P, map_app. cbn [map saved]. rewrite <- app_assoc. reflexivity. }
           split; [exact A'|]. split; [exact Rs|exact K].
        -- exists (File f :: done), rest, ([] :: css). split; [exact SM'|]. split; [exact W2|].
           split; [cbn [app]; rewrite <- P; symmetry; apply Permutation_middle|].
           split. { constructor; [|exact A']. split; [constructor|]. rewrite O. reflexivity. }
           split; [exact Rs|exact K].
    + (* RunTask *)
      cbn [step] in P, Rs. destruct (nth_error (tasks s) n) as [t|] eqn:E.
      * cbn [restart set_tasks tasks restarted] in P, Rs.
        assert (Wt : waits s t) by (rewrite Forall_forall in W; apply W, (nth_error_In _ _ E)).
        destruct Wt as [Wt O].
        exists (File (saved t) :: done), rest, (triggered t gs :: css). split; [exact SM'|]. split; [exact W2|].
        split. { cbn [app]. rewrite <- P, (nth_split _ _ _ _ E) at 1. reflexivity. }
        split. { constructor; [|exact A']. destruct t as [f m]. cbn [world_flycheck saved] in *. subst m.
                 apply triggered_asked; assumption. }
        split; [cbn [List.concat]; rewrite app_assoc; exact Rs|exact K].
      * exists done, rest, css. split; [exact SM'|]. split; [exact W2|]. split; [exact P|]. split; [exact A'|]. split; [exact Rs|exact K].
    + (* CancelProgress *)
      assert (E : tasks (step s (CancelProgress tok)) = tasks s /\ restarted (step s (CancelProgress tok)) = restarted s).
      { cbn [step]. unfold handle_progress_cancel. destruct (strip_prefix _ tok); [|split; reflexivity]. destruct (parse_u32 _); [|split; reflexivity].
        destruct (get (flycheck s) _); split; reflexivity. }
      destruct E as [E1 E2]. rewrite E1 in P. rewrite E2 in Rs.
      exists done, rest, css. split; [exact SM'|]. split; [exact W2|]. split; [exact P|]. split; [exact A'|]. split; [exact Rs|exact K].
Qed.

(** ** Numbers *)
Fixpoint value (acc : N) (d : Decimal.uint) : N :=
  match d with
  | Decimal.Nil => acc
  | Decimal.D0 d => value (10 * acc) d
  | Decimal.D1 d => value (10 * acc + 1) d
  | Decimal.D2 d => value (10 * acc + 2) d
  | Decimal.D3 d => value (10 * acc + 3) d
  | Decimal.D4 d => value (10 * acc + 4) d
  | Decimal.D5 d => value (10 * acc + 5) d
  | Decimal.D6 d => value (10 * acc + 6) d
  | Decimal.D7 d => value (10 * acc + 7) d
  | Decimal.D8 d => value (10 * acc + 8) d
  | Decimal.D9 d => value (10 * acc + 9) d
  end.
Lemma value_ge : forall d acc, (acc <= value acc d)%N.
Proof. induction d as [|d IH|d IH|d IH|d IH|d IH|d IH|d IH|d IH|d IH|d IH]; intros acc; cbn [value]; [lia|..]; eapply N.le_trans; [|apply IH| |apply IH| |apply IH| |apply IH| |apply IH| |apply IH| |apply IH| |apply IH| |apply IH| |apply IH]; lia. Qed.
Lemma value_nat : forall d acc, N.of_nat (Nat.of_uint_acc d acc) = value (N.of_nat acc) d.
Proof.
  induction d as [|d IH|d IH|d IH|d IH|d IH|d IH|d IH|d IH|d IH|d IH]; intros acc; [reflexivity|..];
    cbn [Nat.of_uint_acc value]; rewrite IH, Nat.tail_mul_spec; f_equal; lia.
Qed.
Lemma parse_value : forall d acc, (value acc d < 2 ^ 32)%N -> parse_digits acc (NilEmpty.string_of_uint d) = Some (value acc d).
Proof.
  induction d as [|d IH|d IH|d IH|d IH|d IH|d IH|d IH|d IH|d IH|d IH]; intros acc H; [reflexivity|..];
    cbn [value] in H; cbn [NilEmpty.string_of_uint parse_digits];
    match goal with |- context [digit ?c] => let v := eval vm_compute in (digit c) in change (digit c) with v end; cbv beta iota zeta;
    cbn [value]; rewrite ?N.add_0_r;
    match goal with |- context [(?x <? 2 ^ 32)%N] => replace (x <? 2 ^ 32)%N with true
      by (symmetry; apply N.ltb_lt; eapply N.le_lt_trans; [apply value_ge|exact H]) end; apply IH; exact H.
Qed.
