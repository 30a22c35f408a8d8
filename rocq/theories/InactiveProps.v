(** C26: the ranges reported as inactive code. *)
From Coq Require Import List ZArith Bool String Lia.
From Verif Require Import PreTypes MacroModel EvalModel PreModel PreLex PreSnapshots CondSpec CondProofs VisibleSpec PreEvents InactiveSpec.
Import ListNotations.
Local Open Scope Z_scope.
Local Open Scope list_scope.

(** * Merging *)
Definition whole (r : range) : range := Rng (Pos (pline (rstart r)) 0) (rend r).

Lemma covers_app a b x : covers (a ++ b) x <-> covers a x \/ covers b x.
Proof.
  unfold covers. split.
  - intros (r & H & L). apply in_app_or in H. destruct H; [left|right]; eauto.
  - intros [(r & H & L)|(r & H & L)]; exists r; rewrite in_app_iff; auto.
Qed.
Lemma covers_one r x : covers [r] x <-> pline (rstart r) <= x <= pline (rend r).
Proof.
  unfold covers. split.
  - intros (r' & [<-|[]] & L). exact L.
  - intros L. exists r. cbn. auto.
Qed.
Lemma covers_whole rs x : covers (map whole rs) x <-> covers rs x.
Proof.
  unfold covers. split.
  - intros (r & H & L). apply in_map_iff in H. destruct H as (r' & <- & H). exists r'. auto.
  - intros (r & H & L). exists (whole r). split; [apply in_map; exact H|exact L].
Qed.
Lemma covers_rev rs x : covers (rev rs) x <-> covers rs x.
Proof. unfold covers. split; intros (r & H & L); exists r; [apply in_rev in H|apply in_rev in H]; auto; rewrite <- in_rev; auto. Qed.

Lemma merge_covers l : forall acc rs, Forall single_line l -> Forall (fun r => pline (rstart r) <= pline (rend r)) acc ->
  merge_ranges l acc = Some rs ->
  (forall x, covers rs x <-> covers acc x \/ In x (map line l)) /\
  Forall (fun r => pline (rstart r) <= pline (rend r)) rs.
Proof.
  induction l as [|r tl IH]; intros acc rs Hl Hacc H.
  - injection H as <-. split.
    + intros x. rewrite covers_rev. cbn. tauto.
    + apply Forall_rev. exact Hacc.
  - inversion Hl as [|? ? S1 S2]; subst. unfold single_line in S1. cbn [merge_ranges] in H. cbn [map In].
    assert (X : forall acc', Forall (fun r => pline (rstart r) <= pline (rend r)) acc' ->
       (forall x, covers acc' x <-> covers acc x \/ x = line r) ->
       merge_ranges tl acc' = Some rs ->
       (forall x, covers rs x <-> covers acc x \/ line r = x \/ In x (map line tl)) /\
       Forall (fun r => pline (rstart r) <= pline (rend r)) rs).
    { intros acc' Ha' Hc' H'. destruct (IH acc' rs S2 Ha' H') as [A B]. split; [|exact B].
      intros x. rewrite A, Hc'. intuition congruence. }
    destruct acc as [|old acc'].
    + apply (X [r]); [repeat constructor; lia| |exact H]. intros x. rewrite covers_one. unfold line.
      split; [intros; right; lia|]. intros [(r0 & [] & _)|E]; lia.
    + inversion Hacc as [|? ? A1 A2]; subst.
      destruct (pline (rstart r) =? 0); [discriminate H|].
      destruct (Z.eqb_spec (pline (rend old)) (pline (rstart r) - 1)) as [E|E].
      * apply (X (Rng (rstart old) (rend r) :: acc')); [constructor; [cbn; lia|exact A2]| |exact H].
        intros x. change (Rng (rstart old) (rend r) :: acc') with ([Rng (rstart old) (rend r)] ++ acc').
        change (old :: acc') with ([old] ++ acc'). rewrite !covers_app, !covers_one. cbn [rstart rend]. unfold line.
        assert (pline (rstart old) <= x <= pline (rend r) <-> pline (rstart old) <= x <= pline (rend old) \/ x = pline (rstart r)) by lia.
        tauto.
      * apply (X (r :: old :: acc')); [constructor; [lia|constructor; assumption]| |exact H].
        intros x. change (r :: old :: acc') with ([r] ++ old :: acc'). rewrite covers_app, covers_one. unfold line.
        assert (pline (rstart r) <= x <= pline (rend r) <-> x = pline (rstart r)) by lia. tauto.
Qed.

(** Whatever was recorded, the ranges cover the recorded lines and no others. *)
Theorem C26_cover_exact :
  forall s rs, Forall single_line (skipped s) -> inactive_ranges s = Some rs ->
    forall x, covers rs x <-> In x (map line (skipped s)).
Proof.
  intros s rs Hs H x. unfold inactive_ranges in H.
  destruct (merge_ranges (skipped s) []) as [rs'|] eqn:E; [|discriminate H]. injection H as <-.
  change (map (fun r => Rng (Pos (pline (rstart r)) 0) (rend r)) rs') with (map whole rs').
  rewrite covers_whole. destruct (merge_covers _ _ _ Hs (Forall_nil _) E) as [A _]. rewrite A.
  split; [|auto]. intros [(r & [] & _)|X]; exact X.
Qed.
Print Assumptions C26_cover_exact.

(** newest first *)
Fixpoint apart_rev (acc : list range) : Prop :=
  match acc with
  | [] => True
  | r :: tl =>
      pline (rstart r) <= pline (rend r) /\
      match tl with [] => True | r' :: _ => pline (rend r') + 1 < pline (rstart r) end /\ apart_rev tl
  end.
Lemma apart_snoc l : forall r, apart l -> pcol (rstart r) = 0 -> pline (rstart r) <= pline (rend r) ->
  (forall l' r', l = l' ++ [r'] -> pline (rend r') + 1 < pline (rstart r)) -> apart (l ++ [r]).
Proof.
  induction l as [|a tl IH]; intros r H C W L.
  - cbn. auto.
  - cbn [apart] in H. destruct H as (H0 & H1 & H2 & H3). cbn [app apart].
    split; [exact H0|]. split; [exact H1|]. split.
    + destruct tl as [|b tl']; cbn [app]; [|exact H2]. apply (L [] a). reflexivity.
    + apply IH; auto. intros l' r' ->. apply (L (a :: l') r'). reflexivity.
Qed.
Lemma apart_of_rev acc : apart_rev acc -> apart (map whole (rev acc)).
Proof.
  induction acc as [|r tl IH]; intros H; [exact I|]. destruct H as (H1 & H2 & H3).
  cbn [rev]. rewrite map_app. cbn [map]. apply apart_snoc; auto.
  intros l' r' E. destruct tl as [|b tl']; [destruct l'; discriminate E|].
  cbn [rev] in E. rewrite map_app in E. cbn [map] in E. apply app_inj_tail in E. destruct E as [_ <-].
  exact H2.
Qed.

Lemma merge_apart l : forall acc,
  Forall single_line l -> increasing (map line l) -> Forall (fun r => 0 <= line r) l -> apart_rev acc ->
  match acc, l with old :: _, r :: _ => pline (rend old) < line r /\ 0 < line r | _, _ => True end ->
  exists acc', merge_ranges l acc = Some (rev acc') /\ apart_rev acc'.
Proof.
  induction l as [|r tl IH]; intros acc Hs Hi H0 Ha Hlt; [exists acc; auto|].
  inversion Hs as [|? ? S1 S2]; subst. inversion H0 as [|? ? Z1 Z2]; subst. unfold single_line in S1.
  cbn [map increasing] in Hi. destruct Hi as [I1 I2]. cbn [merge_ranges].
  assert (L : forall o : range, pline (rend o) = line r ->
     match tl with r0 :: _ => pline (rend o) < line r0 /\ 0 < line r0 | [] => True end).
  { intros o Ho. destruct tl as [|r0 tl']; [exact I|]. cbn [map] in I1. lia. }
  destruct acc as [|old acc'].
  - apply IH; auto.
    + cbn. split; [lia|]. auto.
    + apply L. unfold line. congruence.
  - destruct Hlt as [L1 L2]. unfold line in L1, L2.
    destruct (Z.eqb_spec (pline (rstart r)) 0); [lia|].
    destruct (Z.eqb_spec (pline (rend old)) (pline (rstart r) - 1)) as [E|E].
    + cbn [apart_rev] in Ha. destruct Ha as (A1 & A2 & A3). apply IH; auto.
      * cbn [apart_rev rstart rend]. split; [lia|]. auto.
      * apply L. cbn. unfold line. congruence.
    + apply IH; auto.
      * cbn [apart_rev] in *. destruct Ha as (A1 & A2 & A3). split; [lia|]. split; [lia|]. auto.
      * apply L. unfold line. congruence.
Qed.

(** When the recorded lines go upwards the merging neither crashes nor leaves two ranges that touch:
    they are whole lines, in order, disjoint and maximal. *)
Theorem C26_disjoint_ordered_maximal :
  forall s, Forall single_line (skipped s) -> increasing (map line (skipped s)) ->
    Forall (fun r => 0 <= line r) (skipped s) ->
    exists rs, inactive_ranges s = Some rs /\ apart rs /\ forall x, covers rs x <-> In x (map line (skipped s)).
Proof.
  intros s Hs Hi H0. destruct (merge_apart (skipped s) [] Hs Hi H0 I I) as (acc & E & A).
  exists (map whole (rev acc)). assert (inactive_ranges s = Some (map whole (rev acc))) as R.
  { unfold inactive_ranges. rewrite E. reflexivity. }
  split; [exact R|]. split; [apply apart_of_rev, A|]. exact (C26_cover_exact s _ Hs R).
Qed.
Print Assumptions C26_disjoint_ordered_maximal.

(** * What is recorded *)
Definition recorded_by (e : event) : list Z :=
  if skipped_newline e || inner_endif e then [event_line e] else [].
Definition recorded_ends (e : event) : list pos :=
  if skipped_newline e || inner_endif e then [event_end e] else [].

Lemma process_if_skipped v fuel y s s' : process_if v fuel y s = Next s' -> skipped s' = skipped s.
Proof.
  unfold process_if. destruct (directive_symbols (lex s)) as [syms l]. simpl.
  destruct (evaluate _ _ _ _ _ _) as [b o d|r nf o d| |]; try discriminate;
    destruct (rev syms); intros H; injection H as <-; try destruct b; reflexivity.
Qed.
Lemma process_elseif_skipped v fuel y s s' : process_elseif v fuel y s = Next s' -> skipped s' = skipped s.
Proof.
  unfold process_elseif. destruct (conds s) as [|[| |] c]; try discriminate.
  - intros H. apply process_if_skipped in H. rewrite H. reflexivity.
  - intros H; injection H as <-. reflexivity.
  - intros H; injection H as <-. reflexivity.
Qed.
Lemma process_else_skipped y s s' : process_else y s = Some s' -> skipped s' = skipped s.
Proof.
  unfold process_else. destruct (conds s) as [|[| |] c]; try discriminate;
    intros H; injection H as <-; reflexivity.
Qed.
Lemma process_endif_skipped y s s' : process_endif y s = Some s' ->
  exists r, skipped s' = skipped s ++ r /\ Forall single_line r /\
    map line r = (if match conds s' with Activated :: _ | NotActivated :: _ => true | _ => false end
                  then [pline (rstart (s_range y))] else []) /\
    map rend r = (if match conds s' with Activated :: _ | NotActivated :: _ => true | _ => false end
                  then [Pos (pline (rstart (s_range y))) (pcol (rend (s_range y)))] else []).
Proof.
  unfold process_endif. destruct (conds s) as [|c0 [|[| |] c]]; try discriminate;
    intros H; injection H as <-; cbn.
  - exists []. rewrite app_nil_r. auto.
  - eexists. split; [reflexivity|]. split; [repeat constructor|split; reflexivity].
  - eexists. split; [reflexivity|]. split; [repeat constructor|split; reflexivity].
  - exists []. rewrite app_nil_r. auto.
Qed.
Lemma push_symbol_skipped y s : skipped (push_symbol y s) = skipped s.
Proof. unfold push_symbol. destruct (s_kind y); reflexivity. Qed.
Lemma echo_skipped y s : skipped (echo y s) = skipped s.
Proof. unfold echo. destruct (s_kind y); reflexivity. Qed.
Lemma define_loop_skipped rest : forall d s d' s', define_loop rest d s = DOk d' s' -> skipped s' = skipped s.
Proof.
  induction rest as [|[y pp] tl IH]; intros d s d' s'; cbn [define_loop]; [discriminate|].
  assert (X : match define_symbol y d with
            | None => DBail (echo y (set_lex (Lex tl pp) s))
            | Some d0 => if pp then define_loop tl d0 (echo y (set_lex (Lex tl pp) s))
                         else DOk d0 (echo y (set_lex (Lex tl pp) s)) end = DOk d' s' -> skipped s' = skipped s).
  { destruct (define_symbol y d); [|discriminate]. destruct pp.
    - intros H. apply IH in H. rewrite H, echo_skipped. reflexivity.
    - intros H; injection H as <- <-. rewrite echo_skipped. reflexivity. }
  destruct (s_kind y); try exact X. intros H; injection H as <- <-. reflexivity.
Qed.
Lemma undef_loop_skipped rest : forall s s', undef_loop rest s = Next s' -> skipped s' = skipped s.
Proof.
  induction rest as [|[y pp] tl IH]; intros s s'; cbn [undef_loop]; [discriminate|].
  destruct (kind_eqb _ _).
  - intros H; injection H as <-. cbn. rewrite echo_skipped. reflexivity.
  - destruct pp; intros H; [apply IH in H; rewrite H|injection H as <-]; rewrite echo_skipped; reflexivity.
Qed.
Lemma include_path_skipped v p q t l s : skipped (include_path v p q t l s) = skipped s.
Proof.
  unfold include_path. destruct p; [|reflexivity]. destruct (v_inc v (incs s) (macros s) s0 q) as [[i m] ok].
  destruct (ok || t); reflexivity.
Qed.

Lemma step_skipped v fuel s t s1 s2 : fetch s = Some (t, s1) -> step v fuel s = Next s2 ->
  exists r, skipped s2 = skipped s ++ r /\ Forall single_line r /\ map line r = recorded_by (Ev (t_sym t) s1 s2) /\
    map rend r = recorded_ends (Ev (t_sym t) s1 s2).
Proof.
  intros Hf Hs. rewrite (step_fetched _ _ _ _ _ Hf) in Hs.
  assert (F : skipped s1 = skipped s).
  { revert Hf. unfold fetch. destruct (estack s) as [|t0 tl].
    - destruct (lex_next (lex s)) as [[y l]|]; [|discriminate].
      destruct (exp_sym s) as [[es [i f]]|]; intros H; injection H as _ <-; reflexivity.
    - intros H; injection H as _ <-. reflexivity. }
  assert (R : skipped (record_arg t s1) = skipped s /\ conds (record_arg t s1) = conds s1).
  { unfold record_arg. destruct (t_orig t); cbn; auto. }
  destruct R as [R Rc]. set (s0 := record_arg t s1) in *.
  assert (Q : skipped s2 = skipped s0 -> recorded_by (Ev (t_sym t) s1 s2) = [] ->
     exists r, skipped s2 = skipped s ++ r /\ Forall single_line r /\ map line r = recorded_by (Ev (t_sym t) s1 s2) /\
       map rend r = recorded_ends (Ev (t_sym t) s1 s2)).
  { intros A B. assert (B' : recorded_ends (Ev (t_sym t) s1 s2) = []).
    { unfold recorded_by in B. unfold recorded_ends. destruct (_ || _); [discriminate B|reflexivity]. }
    exists []. rewrite app_nil_r, B, B', A, R. auto. }
  assert (Hend : forall s', process_endif (t_sym t) s0 = Some s' -> s_kind (t_sym t) = KDir MEndif -> s2 = s' ->
     exists r, skipped s2 = skipped s ++ r /\ Forall single_line r /\ map line r = recorded_by (Ev (t_sym t) s1 s2) /\
       map rend r = recorded_ends (Ev (t_sym t) s1 s2)).
  { intros s' H K ->. apply process_endif_skipped in H. destruct H as (r & A & B & C & D).
    exists r. rewrite A, R. split; [reflexivity|]. split; [exact B|]. rewrite C, D.
    unfold recorded_by, recorded_ends, skipped_newline, inner_endif, event_end, event_line. cbn [e_sym e_after]. rewrite K.
    replace (kind_eqb (KDir MEndif) KNewline) with false by reflexivity.
    replace (kind_eqb (KDir MEndif) (KDir MEndif)) with true by reflexivity.
    rewrite andb_false_r. cbn [orb andb]. split; reflexivity. }
  destruct (skipping s1) eqn:Sk.
  - unfold process_negative in Hs.
    assert (N : s_kind (t_sym t) <> KNewline -> s_kind (t_sym t) <> KDir MEndif -> recorded_by (Ev (t_sym t) s1 s2) = []).
    { intros A B. unfold recorded_by, skipped_newline, inner_endif. cbn [e_sym e_after].
      assert (X : forall k, s_kind (t_sym t) <> k -> kind_eqb (s_kind (t_sym t)) k = false).
      { intros k Hk. destruct (kind_eqb (s_kind (t_sym t)) k) eqn:E; [|reflexivity]. apply kind_eqb_eq in E. contradiction. }
      rewrite (X _ A), (X _ B), andb_false_r. reflexivity. }
    destruct (s_kind (t_sym t)) as [| [] | | | | | | | | | | | | | | | | | |] eqn:K;
      try (apply Q; [injection Hs as <-; reflexivity|apply N; discriminate]).
    + apply Q; [apply process_elseif_skipped in Hs; exact Hs|apply N; discriminate].
    + apply Q; [|apply N; discriminate]. destruct (process_else _ _) as [s'|] eqn:E; [|discriminate Hs].
      injection Hs as <-. apply process_else_skipped in E. exact E.
    + destruct (process_endif _ _) as [s'|] eqn:E; [|discriminate Hs].
      injection Hs as <-. eapply Hend; eauto.
    + injection Hs as <-. cbn [skipped set_skipped reset_current_line set_cur_line push_current_line set_out set_cur_pos].
      rewrite R. eexists. split; [reflexivity|]. split; [repeat constructor|].
      unfold recorded_by, recorded_ends, skipped_newline, kept, event_end, event_line. cbn [e_before e_sym]. rewrite Sk, K. split; reflexivity.
  - assert (N : s_kind (t_sym t) <> KDir MEndif -> recorded_by (Ev (t_sym t) s1 s2) = []).
    { intros B. unfold recorded_by, skipped_newline, inner_endif, kept. cbn [e_sym e_after e_before]. rewrite Sk.
      destruct (kind_eqb (s_kind (t_sym t)) (KDir MEndif)) eqn:E; [|reflexivity]. apply kind_eqb_eq in E. contradiction. }
    unfold process_active in Hs.
    destruct (s_kind (t_sym t)) as [| d | | | | | | | | | | | | | | | | | |] eqn:K; try discriminate Hs;
      try (apply Q; [injection Hs as <-; apply push_symbol_skipped|apply N; discriminate]).
    + destruct d; cbn [process_directive] in Hs.
      * apply Q; [apply process_if_skipped in Hs; exact Hs|apply N; discriminate].
      * apply Q; [apply process_elseif_skipped in Hs; exact Hs|apply N; discriminate].
      * apply Q; [|apply N; discriminate]. destruct (process_else _ _) as [s'|] eqn:E; [|discriminate Hs].
        injection Hs as <-. apply process_else_skipped in E. exact E.
      * destruct (process_endif _ _) as [s'|] eqn:E; [|discriminate Hs].
        injection Hs as <-. eapply Hend; eauto.
      * apply Q; [|apply N; discriminate]. unfold process_define in Hs.
        destruct (lx_pp _); [|injection Hs as <-; cbn; apply push_symbol_skipped].
        destruct (define_loop _ _ _) as [d s'|s'|] eqn:E; try discriminate Hs.
        injection Hs as <-. apply define_loop_skipped in E. rewrite push_symbol_skipped in E. cbn. exact E.
      * apply Q; [|apply N; discriminate]. unfold process_undef in Hs.
        destruct (lx_pp _); [|injection Hs as <-; apply push_symbol_skipped].
        apply undef_loop_skipped in Hs. rewrite push_symbol_skipped in Hs. exact Hs.
      * apply Q; [|apply N; discriminate]. injection Hs as <-. unfold process_include. cbv zeta.
        destruct (0 <? _); cbn; rewrite push_symbol_skipped, !include_path_skipped; reflexivity.
      * apply Q; [|apply N; discriminate]. injection Hs as <-. unfold process_include. cbv zeta.
        destruct (0 <? _); cbn; rewrite push_symbol_skipped, !include_path_skipped; reflexivity.
      * apply Q; [injection Hs as <-; apply push_symbol_skipped|apply N; discriminate].
    + apply Q; [injection Hs as <-; reflexivity|apply N; discriminate].
    + apply Q; [|apply N; discriminate].
      assert (X : match mget (macros s0) (s_text (t_sym t)) with
          | None => Next (push_symbol (t_sym t) s0)
          | Some m =>
              if dmem m (disabled s0)
              then Next (push_symbol (t_sym t) (set_disabled (drem m (disabled s0)) s0))
              else
                match expand_identifier fuel (lex s0) (macros s0) t true (disabled s0) with
                | XOk diff pushed l dis =>
                    Next (set_adiff diff (set_exp_sym (Some ((t_sym t), (m_idx m, m_file m)))
                      (set_estack (pushed ++ estack s0) (set_lex l (set_disabled dis s0)))))
                | XNotFound name r l dis =>
                    Stop (FError (set_err_notfound (err_notfound s0 ++ [(name, r)]) s0))
                | XParse _ _ _ => Stop (FError s0)
                | XFuel => Stop FFuel
                end
          end = Next s2 -> skipped s2 = skipped s0).
      { destruct (mget _ _) as [m|].
        - destruct (dmem _ _); [intros H; injection H as <-; rewrite push_symbol_skipped; reflexivity|].
          destruct (expand_identifier _ _ _ _ _ _); try discriminate. intros H; injection H as <-. reflexivity.
        - intros H; injection H as <-. apply push_symbol_skipped. }
      destruct (intr s0) as [[]|]; try (apply X; exact Hs).
      injection Hs as <-. destruct (String.eqb _ _); reflexivity.
    + apply Q; [injection Hs as <-; reflexivity|apply N; discriminate].
    + apply Q; [injection Hs as <-; reflexivity|apply N; discriminate].
    + apply Q; [|apply N; discriminate].
      destruct (intr s0) as [[]|]; injection Hs as <-; rewrite ?push_symbol_skipped; reflexivity.
    + apply Q; [|apply N; discriminate].
      destruct (intr s0) as [[]|]; injection Hs as <-; rewrite ?push_symbol_skipped; reflexivity.
Qed.

Lemma reads_skipped v fuel s tr s' : reads v fuel s tr s' ->
  exists r, skipped s' = skipped s ++ r /\ Forall single_line r /\ map line r = flat_map recorded_by tr /\
    map rend r = flat_map recorded_ends tr.
Proof.
  induction 1 as [s|s t s1 s2 tr s3 Hf Hs _ (r & A & B & C & D)].
  - exists []. rewrite app_nil_r. auto.
  - destruct (step_skipped _ _ _ _ _ _ Hf Hs) as (r0 & A0 & B0 & C0 & D0).
    exists (r0 ++ r). rewrite A, A0, app_assoc, !map_app, C0, C, D0, D. split; [reflexivity|]. split; [|split; reflexivity].
    apply Forall_app. auto.
Qed.

Lemma recorded_newlines tr : Forall (fun e => inner_endif e = false) tr ->
  flat_map recorded_by tr = skipped_lines tr.
Proof.
  unfold skipped_lines. induction 1 as [|e tr He _ IH]; [reflexivity|]. cbn [flat_map filter].
  unfold recorded_by at 1. rewrite He, orb_false_r, IH. destruct (skipped_newline e); reflexivity.
Qed.

(** From the run to the report: for a run that reads the line ends in order and meets no #endif of a
    chain nested in inactive code, the ranges reported cover exactly the lines whose end was read
    in inactive code; they are whole lines, disjoint, in order and maximal.
    Missing from the full statement: nested chains (C26_overlap_refuted) and comments over several
    lines (C26_comment_refuted). *)
Theorem C26_report_exact_partial :
  forall v fuel i m syms tr s,
    reads v fuel (init_st i m syms) tr s ->
    Forall (fun e => inner_endif e = false) tr ->
    increasing (skipped_lines tr) -> Forall (fun x => 0 <= x) (skipped_lines tr) ->
    exists rs, inactive_ranges s = Some rs /\ apart rs /\
      forall x, covers rs x <-> exists e, In e tr /\ skipped_newline e = true /\ event_line e = x.
Proof.
  intros v fuel i m syms tr s H Hin Hi H0.
  destruct (reads_skipped _ _ _ _ _ H) as (r & A & B & C & _). cbn [init_st skipped app] in A. subst r.
  rewrite (recorded_newlines tr Hin) in C.
  destruct (C26_disjoint_ordered_maximal s B) as (rs & R1 & R2 & R3).
  - rewrite C. exact Hi.
  - rewrite <- Forall_map with (f := line) (P := fun x => 0 <= x). rewrite C. exact H0.
  - exists rs. split; [exact R1|]. split; [exact R2|]. intros x. rewrite R3, C.
    unfold skipped_lines. rewrite in_map_iff. split.
    + intros (e & E & Hx). apply filter_In in Hx. exists e. tauto.
    + intros (e & E & Hx & Hy). exists e. split; [exact Hy|]. apply filter_In. auto.
Qed.
Print Assumptions C26_report_exact_partial.

(** Nested chains or not: the lines covered are those whose end was read in inactive code and those
    with an #endif of a nested chain. *)
Theorem C26_report_covers :
  forall v fuel i m syms tr s rs,
    reads v fuel (init_st i m syms) tr s -> inactive_ranges s = Some rs ->
    forall x, covers rs x <->
      exists e, In e tr /\ (skipped_newline e = true \/ inner_endif e = true) /\ event_line e = x.
Proof.
  intros v fuel i m syms tr s rs H Hr x.
  destruct (reads_skipped _ _ _ _ _ H) as (r & A & B & C & _). cbn [init_st skipped app] in A. subst r.
  rewrite (C26_cover_exact s rs B Hr), C, in_flat_map. split.
  - intros (e & He & Hx). exists e. split; [exact He|]. unfold recorded_by in Hx.
    destruct (skipped_newline e) eqn:E1; destruct (inner_endif e) eqn:E2; cbn in Hx; try contradiction; destruct Hx as [Hx|[]]; auto.
  - intros (e & He & Hx & <-). exists e. split; [exact He|]. unfold recorded_by.
    destruct Hx as [-> | ->]; rewrite ?orb_true_r; left; reflexivity.
Qed.
Print Assumptions C26_report_covers.

(** Where a range ends. *)
Lemma merge_ends l : forall acc rs, merge_ranges l acc = Some rs ->
  forall r, In r rs -> exists x, In x (acc ++ l) /\ rend r = rend x.
Proof.
  induction l as [|r0 tl IH]; intros acc rs H r Hr.
  - injection H as <-. rewrite <- in_rev in Hr. exists r. rewrite app_nil_r. auto.
  - assert (X : forall acc', merge_ranges tl acc' = Some rs ->
       (forall x, In x acc' -> exists y, In y (acc ++ r0 :: tl) /\ rend x = rend y) ->
       exists x, In x (acc ++ r0 :: tl) /\ rend r = rend x).
    { intros acc' H' Ha. destruct (IH _ _ H' r Hr) as (x & Hx & E). apply in_app_or in Hx. destruct Hx as [Hx|Hx].
      - destruct (Ha x Hx) as (y & Hy & E'). exists y. split; [exact Hy|congruence].
      - exists x. rewrite in_app_iff. cbn. auto. }
    cbn [merge_ranges] in H. destruct acc as [|old acc'].
    + apply (X _ H). intros x [<-|[]]. exists r0. cbn. auto.
    + destruct (_ =? 0); [discriminate H|]. destruct (_ =? _); apply (X _ H); intros x [<-|Hx].
      * exists r0. split; [apply in_or_app; right; left; reflexivity|reflexivity].
      * exists x. split; [apply in_or_app; left; right; exact Hx|reflexivity].
      * exists r0. split; [apply in_or_app; right; left; reflexivity|reflexivity].
      * exists x. split; [apply in_or_app; left; exact Hx|reflexivity].
Qed.
(** A range reported begins with its line and ends with the text of a line whose end was read in inactive code, or with
    the #endif of a nested chain. *)
Theorem C26_ends :
  forall v fuel i m syms tr s rs,
    reads v fuel (init_st i m syms) tr s -> inactive_ranges s = Some rs ->
    forall r, In r rs -> pcol (rstart r) = 0 /\
      exists e, In e tr /\ (skipped_newline e = true \/ inner_endif e = true) /\ rend r = event_end e.
Proof.
  intros v fuel i m syms tr s rs H Hr r Hin.
  destruct (reads_skipped _ _ _ _ _ H) as (r0 & A & _ & _ & D). cbn [init_st skipped app] in A. subst r0.
  unfold inactive_ranges in Hr. destruct (merge_ranges (skipped s) []) as [rs'|] eqn:E; [|discriminate Hr].
  injection Hr as <-. apply in_map_iff in Hin. destruct Hin as (r' & <- & Hin). split; [reflexivity|]. cbn [rend].
  destruct (merge_ends _ _ _ E r' Hin) as (x & Hx & ->). cbn [app] in Hx.
  apply (in_map rend) in Hx. rewrite D, in_flat_map in Hx. destruct Hx as (e & He & Hx). exists e. split; [exact He|].
  unfold recorded_ends in Hx. destruct (skipped_newline e) eqn:E1; destruct (inner_endif e) eqn:E2; cbn in Hx;
    try contradiction; destruct Hx as [Hx|[]]; auto.
Qed.
Print Assumptions C26_ends.

Definition reported (src : string) : option (list (Z * Z)) :=
  match preprocess snap_env 500 no_incs [] (lex_source src) with
  | FResult s | FError s =>
      option_map (map (fun r => (pline (rstart r), pline (rend r)))) (inactive_ranges s)
  | _ => None
  end.
Local Open Scope string_scope.

(** Two chains, one with three parts. *)
Example C26_nontrivial : reported
"#if 0
a
b
#endif
c
#if 1
d
#else
e
f
#endif
#if 0
g
#endif
" = Some [(1, 2); (7, 9); (12, 12)]%Z.
Proof. vm_compute. reflexivity. Qed.

(** Where they end. *)
Example C26_ends_nontrivial :
  match preprocess snap_env 500 no_incs [] (lex_source
"#if 0
a
bcd
#endif
") with FResult s => option_map (map rend) (inactive_ranges s) | _ => None end = Some [Pos 2 3].
Proof. vm_compute. reflexivity. Qed.

(** The #endif of a nested chain (line 4) is recorded besides the end of its line: the two ranges
    reported overlap in that line. *)
Theorem C26_overlap_refuted : reported
"#if 0
a
#if 1
b
#endif
c
#endif
" = Some [(1, 4); (4, 5)]%Z.
Proof. vm_compute. reflexivity. Qed.
Print Assumptions C26_overlap_refuted.

(** Inside a comment over several lines there is no line end to be read: line 1 is inactive and not
    reported. *)
Theorem C26_comment_refuted : reported
"#if 0
/* a
b */
#endif
" = Some [(2, 2)]%Z.
Proof. vm_compute. reflexivity. Qed.
Print Assumptions C26_comment_refuted.
