From Coq Require Import List ZArith Bool String Lia.
From Verif Require Import PreTypes MacroModel EvalModel PreModel CondSpec.
Import ListNotations.
Local Open Scope Z_scope.

Scheme forest_rec2 := Induction for forest Sort Prop
  with chain_rec2 := Induction for chain Sort Prop.
Combined Scheme forest_chain_ind from forest_rec2, chain_rec2.

(** * How one iteration changes the stack of conditions *)

Definition branch_state (b : bool) : cond_state := if b then Active else NotActivated.

Definition next_conds (k : kind) (holds : bool) (c : list cond_state) : option (list cond_state) :=
  match k with
  | KDir MIf =>
      match c with
      | Activated :: _ | NotActivated :: _ => Some (Activated :: c)
      | _ => Some (branch_state holds :: c)
      end
  | KDir MElseif =>
      match c with
      | [] => None
      | NotActivated :: tl => Some (branch_state holds :: tl)
      | _ :: tl => Some (Activated :: tl)
      end
  | KDir MElse =>
      match c with
      | [] => None
      | NotActivated :: tl => Some (Active :: tl)
      | _ :: tl => Some (Activated :: tl)
      end
  | KDir MEndif => match c with [] => None | _ :: tl => Some tl end
  | _ => Some c
  end.

Lemma fetch_conds s t s1 : fetch s = Some (t, s1) -> conds s1 = conds s.
Proof.
  unfold fetch. destruct (estack s) as [|t0 tl].
  - destruct (lex_next (lex s)) as [[y l]|]; [|discriminate].
    destruct (exp_sym s) as [[es [i f]]|]; intros H; injection H as _ <-; reflexivity.
  - intros H; injection H as _ <-. reflexivity.
Qed.
Lemma record_conds t s : conds (record_arg t s) = conds s.
Proof. unfold record_arg. destruct (t_orig t); reflexivity. Qed.
Lemma skipping_conds s s' : conds s = conds s' -> skipping s = skipping s'.
Proof. intros H. unfold skipping. rewrite H. reflexivity. Qed.

Lemma push_ws_conds y s : conds (push_ws y s) = conds s.
Proof. reflexivity. Qed.
Lemma push_symbol_conds y s : conds (push_symbol y s) = conds s.
Proof. unfold push_symbol. destruct (s_kind y); reflexivity. Qed.
Lemma echo_conds y s : conds (echo y s) = conds s.
Proof. unfold echo. destruct (s_kind y); reflexivity. Qed.

Lemma define_loop_conds rest : forall d s,
  match define_loop rest d s with DOk _ s' => conds s' = conds s | DBail s' => conds s' = conds s | DHang => True end.
Proof.
  induction rest as [|[y pp] tl IH]; intros d s; simpl; [exact I|].
  destruct (s_kind y) eqn:E; try reflexivity;
    (destruct (define_symbol y d) as [d'|]; [|rewrite echo_conds; reflexivity]);
    (destruct pp; [|rewrite echo_conds; reflexivity]);
    specialize (IH d' (echo y (set_lex (Lex tl true) s)));
    (destruct (define_loop tl d' _); [rewrite IH, echo_conds; reflexivity|rewrite IH, echo_conds; reflexivity|exact I]).
Qed.

Lemma process_define_conds v y s s' : process_define v y s = Next s' -> conds s' = conds s.
Proof.
  unfold process_define. destruct (lx_pp _).
  - pose proof (define_loop_conds (lx_rest (lex (push_symbol y s))) def0 (push_symbol y s)) as H.
    destruct (define_loop _ _ _) as [d s1|s1|]; try discriminate. intros E; injection E as <-.
    rewrite push_symbol_conds in H. unfold define_finish. destruct (d_found d); simpl; exact H.
  - intros E; injection E as <-. simpl. apply push_symbol_conds.
Qed.
Lemma undef_loop_conds rest : forall s s', undef_loop rest s = Next s' -> conds s' = conds s.
Proof.
  induction rest as [|[y pp] tl IH]; intros s s'; simpl; [discriminate|].
  destruct (kind_eqb _ _).
  - intros E; injection E as <-. simpl. rewrite echo_conds. reflexivity.
  - destruct pp.
    + intros E. apply IH in E. rewrite E, echo_conds. reflexivity.
    + intros E; injection E as <-. rewrite echo_conds. reflexivity.
Qed.
Lemma process_undef_conds y s s' : process_undef y s = Next s' -> conds s' = conds s.
Proof.
  unfold process_undef. destruct (lx_pp _).
  - intros E. apply undef_loop_conds in E. rewrite E. apply push_symbol_conds.
  - intros E; injection E as <-. apply push_symbol_conds.
Qed.
Lemma include_path_conds v p q i l s : conds (include_path v p q i l s) = conds s.
Proof.
  unfold include_path. destruct p; [|reflexivity]. destruct (v_inc _ _ _ _ _) as [[i' m] ok].
  destruct (ok || i); reflexivity.
Qed.
Lemma process_include_conds v y i s : conds (process_include v y i s) = conds s.
Proof.
  unfold process_include. destruct (0 <? _); simpl; rewrite ?push_symbol_conds, ?include_path_conds; reflexivity.
Qed.

(** the value [process_if] uses *)
Definition eval_at v fuel y s : bool :=
  match evaluate fuel (v_chk v) (macros s) (disabled s) (pline (rstart (s_range y)))
          (fst (directive_symbols (lex s))) with EOk b _ _ => b | _ => false end.

Lemma process_if_conds v fuel y s s' :
  process_if v fuel y s = Next s' -> conds s' = branch_state (eval_at v fuel y s) :: conds s.
Proof.
  unfold process_if, eval_at. destruct (directive_symbols (lex s)) as [syms l]. simpl.
  destruct (evaluate _ _ _ _ _ _) as [b o d|r nf o d| |]; try discriminate;
    destruct (rev syms); intros H; injection H as <-; try destruct b; reflexivity.
Qed.

Lemma process_endif_conds y s :
  match process_endif y s with Some s' => conds s' = tl (conds s) /\ conds s <> [] | None => conds s = [] end.
Proof.
  unfold process_endif. destruct (conds s) as [|c tl]; [reflexivity|].
  destruct tl as [|[| |] tl']; (split; [reflexivity|discriminate]).
Qed.

Lemma process_elseif_conds v fuel y s s' :
  process_elseif v fuel y s = Next s' ->
  match conds s with
  | [] => False
  | NotActivated :: tl => conds s' = branch_state (eval_at v fuel y s) :: tl
  | _ :: tl => conds s' = Activated :: tl
  end.
Proof.
  unfold process_elseif. destruct (conds s) as [|[| |] tl]; try discriminate.
  - intros H. apply process_if_conds in H. exact H.
  - intros H; injection H as <-. reflexivity.
  - intros H; injection H as <-. reflexivity.
Qed.

(** The state a step works on, once the symbol was fetched. *)
Lemma step_fetched v fuel s t s1 :
  fetch s = Some (t, s1) ->
  step v fuel s = if skipping s1 then process_negative v fuel (t_sym t) (record_arg t s1)
                  else process_active v fuel t (record_arg t s1).
Proof.
  intros H. unfold step. rewrite H, (skipping_conds _ _ (record_conds t s1)). reflexivity.
Qed.

Lemma eval_at_record v fuel y t s : eval_at v fuel y (record_arg t s) = eval_at v fuel y s.
Proof. unfold record_arg. destruct (t_orig t); reflexivity. Qed.

Lemma step_conds v fuel s t s1 s2 :
  fetch s = Some (t, s1) -> step v fuel s = Next s2 ->
  next_conds (s_kind (t_sym t)) (cond_holds v fuel (Ev (t_sym t) s1 s2)) (conds s1) = Some (conds s2).
Proof.
  intros Hf Hs. rewrite (step_fetched _ _ _ _ _ Hf) in Hs.
  change (cond_holds v fuel (Ev (t_sym t) s1 s2)) with (eval_at v fuel (t_sym t) s1).
  rewrite <- (eval_at_record v fuel (t_sym t) t s1), <- (record_conds t s1).
  rewrite <- (skipping_conds _ _ (record_conds t s1)) in Hs.
  set (s0 := record_arg t s1) in *. clearbody s0. clear Hf s1 s.
  assert (Helse : forall s', opt_step s0 (process_else (t_sym t) s0) = Next s' ->
     match conds s0 with [] => None | NotActivated :: tl => Some (Active :: tl) | _ :: tl => Some (Activated :: tl) end
     = Some (conds s')).
  { intros s'. unfold process_else. destruct (conds s0) as [|[| |] tl]; simpl; intros H; try discriminate;
      injection H as <-; reflexivity. }
  assert (Hend : forall s', opt_step s0 (process_endif (t_sym t) s0) = Next s' ->
     match conds s0 with [] => None | _ :: tl => Some tl end = Some (conds s')).
  { intros s'. pose proof (process_endif_conds (t_sym t) s0) as H. destruct (process_endif _ _) as [s''|]; simpl.
    - destruct H as [H N]. intros E; injection E as <-. destruct (conds s0); [congruence|]. simpl in H. congruence.
    - discriminate. }
  assert (Hif : forall s', process_elseif v fuel (t_sym t) s0 = Next s' ->
     match conds s0 with [] => None | NotActivated :: tl => Some (branch_state (eval_at v fuel (t_sym t) s0) :: tl)
       | _ :: tl => Some (Activated :: tl) end = Some (conds s')).
  { intros s' H. apply process_elseif_conds in H. destruct (conds s0) as [|[| |] tl]; [contradiction| | |]; congruence. }
  destruct (skipping s0) eqn:Hk.
  - unfold process_negative in Hs. unfold skipping in Hk.
    destruct (s_kind (t_sym t)) as [| [] | | | | | | | | | | | | | | | | | |]; cbn [next_conds];
      try (injection Hs as <-; reflexivity); auto.
    destruct (conds s0) as [|[| |] tl]; try discriminate; injection Hs as <-; reflexivity.
  - unfold process_active in Hs.
    destruct (s_kind (t_sym t)) as [| d | | | | | | | | | | | | | | | | | |]; cbn [next_conds];
      try (injection Hs as <-; rewrite ?push_symbol_conds; reflexivity); try discriminate.
    + unfold process_directive in Hs. destruct d; auto.
      * apply process_if_conds in Hs. rewrite Hs. unfold skipping in Hk.
        destruct (conds s0) as [|[| |] tl]; try discriminate; reflexivity.
      * apply process_define_conds in Hs. congruence.
      * apply process_undef_conds in Hs. congruence.
      * injection Hs as <-. rewrite process_include_conds. reflexivity.
      * injection Hs as <-. rewrite process_include_conds. reflexivity.
      * injection Hs as <-. rewrite push_symbol_conds. reflexivity.
    + assert (Hx : match mget (macros s0) (s_text (t_sym t)) with
          | None => Next (push_symbol (t_sym t) s0)
          | Some m =>
              if dmem m (disabled s0)
              then Next (push_symbol (t_sym t) (set_disabled (drem m (disabled s0)) s0))
              else
                match expand_identifier fuel (lex s0) (macros s0) t true (disabled s0) with
                | XOk diff pushed l dis =>
                    Next (set_adiff diff (set_exp_sym (Some ((t_sym t), (m_idx m, m_file m)))
                      (set_estack (pushed ++ estack s0) (set_lex l (set_disabled dis s0)))))
                | XNotFound name r l dis =>
                    Stop (FError (set_err_notfound (err_notfound s0 ++ [(name, r)]) s0))
                | XParse _ _ _ => Stop (FError s0)
                | XFuel => Stop FFuel
                end
          end = Next s2 -> Some (conds s0) = Some (conds s2)).
      { destruct (mget _ _) as [m|].
        - destruct (dmem _ _).
          + intros E; injection E as <-. rewrite push_symbol_conds. reflexivity.
          + destruct (expand_identifier _ _ _ _ _ _); try discriminate. intros E; injection E as <-. reflexivity.
        - intros E; injection E as <-. rewrite push_symbol_conds. reflexivity. }
      destruct (intr s0) as [[| | |]|]; try (apply Hx; exact Hs).
      injection Hs as <-. destruct (String.eqb _ _); reflexivity.
    + destruct (intr s0) as [[| | |]|]; injection Hs as <-; rewrite ?push_symbol_conds; reflexivity.
    + destruct (intr s0) as [[| | |]|]; injection Hs as <-; rewrite ?push_symbol_conds; reflexivity.
Qed.

(** * Directives that are not evaluated *)

Lemma record_not_evaluated y t s s' :
  not_evaluated (Ev y (record_arg t s) s') -> not_evaluated (Ev y s s').
Proof. unfold not_evaluated, record_arg; simpl. destruct (t_orig t); simpl; tauto. Qed.

Lemma skipped_if_quiet v fuel s t s1 s2 :
  fetch s = Some (t, s1) -> step v fuel s = Next s2 -> s_kind (t_sym t) = KDir MIf ->
  skipping s = true -> not_evaluated (Ev (t_sym t) s1 s2).
Proof.
  intros Hf Hs Hk Hn. rewrite (step_fetched _ _ _ _ _ Hf) in Hs.
  rewrite (skipping_conds s1 s (fetch_conds _ _ _ Hf)), Hn in Hs.
  unfold process_negative in Hs. rewrite Hk in Hs. injection Hs as <-.
  apply (record_not_evaluated _ t). repeat split.
Qed.

Lemma process_elseif_quiet v fuel y s s' :
  process_elseif v fuel y s = Next s' -> (forall tl, conds s <> NotActivated :: tl) ->
  not_evaluated (Ev y s s').
Proof.
  unfold process_elseif. destruct (conds s) as [|[| |] tl]; try discriminate.
  - intros _ H. exfalso. apply (H tl). reflexivity.
  - intros E _; injection E as <-. repeat split.
  - intros E _; injection E as <-. repeat split.
Qed.
Lemma process_else_quiet y s s' :
  opt_step s (process_else y s) = Next s' -> not_evaluated (Ev y s s').
Proof.
  unfold process_else. destruct (conds s) as [|[| |] tl]; simpl; intros E; try discriminate;
    injection E as <-; repeat split.
Qed.

Lemma alt_quiet v fuel s t s1 s2 :
  fetch s = Some (t, s1) -> step v fuel s = Next s2 ->
  s_kind (t_sym t) = KDir MElseif \/ s_kind (t_sym t) = KDir MElse ->
  (forall tl, conds s <> NotActivated :: tl) -> not_evaluated (Ev (t_sym t) s1 s2).
Proof.
  intros Hf Hs Hk Hn. rewrite (step_fetched _ _ _ _ _ Hf) in Hs.
  rewrite <- (fetch_conds _ _ _ Hf), <- (record_conds t s1) in Hn.
  apply (record_not_evaluated _ t).
  destruct (skipping s1); [unfold process_negative in Hs|unfold process_active in Hs];
    destruct Hk as [Hk|Hk]; rewrite Hk in Hs; cbn [process_directive] in Hs;
    first [apply (process_elseif_quiet v fuel); assumption|apply process_else_quiet; assumption].
Qed.

(** * Trees *)

Lemma reads_inv v fuel s e tr s3 :
  reads v fuel s (e :: tr) s3 -> exists t s1 s2,
    e = Ev (t_sym t) s1 s2 /\ fetch s = Some (t, s1) /\ step v fuel s = Next s2 /\ reads v fuel s2 tr s3.
Proof. intros H. inversion H; subst. do 3 eexists. repeat split; eassumption. Qed.

(** the top of the stack inside a part *)
Definition part_state (here earlier cond : bool) : cond_state :=
  if here then if earlier then Activated else branch_state cond else Activated.

Lemma part_state_here here earlier cond tl s :
  conds s = part_state here earlier cond :: tl ->
  negb (skipping s) = here && negb earlier && cond.
Proof. unfold skipping. intros ->. destruct here, earlier, cond; reflexivity. Qed.

Lemma trees v fuel :
  (forall f s tr s3, nested f -> reads v fuel s (flat f ++ tr) s3 ->
     exists s', reads v fuel s' tr s3 /\ conds s' = conds s /\
       selected (cond_holds v fuel) (negb (skipping s)) f) /\
  (forall c here earlier cond tl s tr s3, nested_chain c -> reads v fuel s (flat_chain c ++ tr) s3 ->
     conds s = part_state here earlier cond :: tl ->
     exists s', reads v fuel s' tr s3 /\ conds s' = tl /\
       selected_chain (cond_holds v fuel) here earlier cond c).
Proof.
  apply forest_chain_ind.
  - intros s tr s3 _ H. exists s. repeat split. exact H.
  - intros e rest IH s tr s3 [Hk Hn] H. simpl in H.
    apply reads_inv in H. destruct H as (t & s1 & s2 & -> & Hf & Hs & Hr).
    pose proof (step_conds _ _ _ _ _ _ Hf Hs) as Hc. simpl in Hk.
    assert (Hc' : conds s2 = conds s).
    { rewrite <- (fetch_conds _ _ _ Hf).
      destruct (s_kind (t_sym t)) as [| [] | | | | | | | | | | | | | | | | | |]; try discriminate Hk;
        cbn [next_conds] in Hc; congruence. }
    destruct (IH _ _ _ Hn Hr) as (s' & R & C & S). exists s'.
    split; [exact R|]. split; [congruence|]. simpl. split.
    + unfold kept. simpl. f_equal. apply skipping_conds. apply (fetch_conds _ _ _ Hf).
    + rewrite (skipping_conds s s2) by congruence. exact S.
  - intros i c IHc rest IHr s tr s3 (Hk & Hnc & Hnr) H. simpl in H. rewrite <- app_assoc in H.
    apply reads_inv in H. destruct H as (t & s1 & s2 & -> & Hf & Hs & Hr). simpl in Hk.
    pose proof (step_conds _ _ _ _ _ _ Hf Hs) as Hc. rewrite Hk in Hc.
    assert (Hc2 : conds s2 = part_state (negb (skipping s)) false (cond_holds v fuel (Ev (t_sym t) s1 s2)) :: conds s).
    { cbn [next_conds] in Hc. rewrite (fetch_conds _ _ _ Hf) in Hc. unfold skipping.
      destruct (conds s) as [|[| |] tl]; injection Hc as <-; reflexivity. }
    destruct (IHc _ _ _ _ _ _ _ Hnc Hr Hc2) as (s4 & R4 & C4 & S4).
    destruct (IHr _ _ _ Hnr R4) as (s5 & R5 & C5 & S5).
    exists s5. split; [exact R5|]. split; [congruence|]. cbn [selected]. split; [|split].
    + intros Hh. apply negb_false_iff in Hh. eapply skipped_if_quiet; eassumption.
    + unfold branch_condition. simpl. rewrite Hk. exact S4.
    + rewrite (skipping_conds s s4) by congruence. exact S5.
  - intros part IH e here earlier cond tl s tr s3 [Hn Hk] H Hc. simpl in H. rewrite <- app_assoc in H.
    destruct (IH _ _ _ Hn H) as (s4 & R & C & S). simpl in R.
    apply reads_inv in R. destruct R as (t & s1 & s2 & -> & Hf & Hs & Hr). simpl in Hk.
    pose proof (step_conds _ _ _ _ _ _ Hf Hs) as Hc2. rewrite Hk in Hc2.
    rewrite (fetch_conds _ _ _ Hf), C, Hc in Hc2. cbn [next_conds] in Hc2. injection Hc2 as Hc2.
    exists s2. split; [exact Hr|]. split; [congruence|]. cbn [selected_chain].
    rewrite <- (part_state_here _ _ _ _ _ Hc). exact S.
  - intros part IHp e others IHo here earlier cond tl s tr s3 (Hn & Hk & Hno) H Hc.
    simpl in H. rewrite <- app_assoc in H.
    destruct (IHp _ _ _ Hn H) as (s4 & R & C & S). simpl in R.
    apply reads_inv in R. destruct R as (t & s1 & s2 & -> & Hf & Hs & Hr). simpl in Hk.
    pose proof (step_conds _ _ _ _ _ _ Hf Hs) as Hc2.
    rewrite (fetch_conds _ _ _ Hf), C, Hc in Hc2.
    assert (Hc3 : conds s2 = part_state here (earlier || cond)
               (branch_condition (cond_holds v fuel) (Ev (t_sym t) s1 s2)) :: tl).
    { unfold branch_condition. simpl. destruct Hk as [Hk|Hk]; rewrite Hk in Hc2 |- *; cbn [next_conds] in Hc2;
        destruct here, earlier, cond; simpl in Hc2 |- *; congruence. }
    destruct (IHo _ _ _ _ _ _ _ Hno Hr Hc3) as (s5 & R5 & C5 & S5).
    exists s5. split; [exact R5|]. split; [exact C5|]. cbn [selected_chain]. split; [|split].
    + rewrite <- (part_state_here _ _ _ _ _ Hc). exact S.
    + intros Hq. eapply alt_quiet; try eassumption. rewrite C, Hc. intros tl'. clear - Hq.
      destruct here, earlier, cond; try discriminate Hq; simpl; congruence.
    + exact S5.
Qed.

Lemma selected_run v fuel i m syms tr s' f :
  reads v fuel (init_st i m syms) tr s' -> flat f = tr -> nested f ->
  selected (cond_holds v fuel) true f.
Proof.
  intros H <- Hn. destruct (trees v fuel) as [T _].
  rewrite <- (app_nil_r (flat f)) in H.
  destruct (T f _ _ _ Hn H) as (_ & _ & _ & S). exact S.
Qed.

(** * Inactive code leaves nothing behind *)

Lemma skipped_nothing v fuel s t s1 s2 :
  fetch s = Some (t, s1) -> step v fuel s = Next s2 -> skipping s1 = true ->
  conditional (s_kind (t_sym t)) = false ->
  macros s2 = macros s1 /\ lex s2 = lex s1 /\ estack s2 = estack s1 /\ offsets s2 = offsets s1 /\
  disabled s2 = disabled s1 /\ err_eval s2 = err_eval s1 /\ err_notfound s2 = err_notfound s1 /\
  err_include s2 = err_include s1 /\ idx s2 = idx s1 /\
  (if is_newline (s_kind (t_sym t))
   then out s2 = out s1 ++ [cur_line s1] /\ cur_line s2 = EmptyString
   else out s2 = out s1 /\ cur_line s2 = cur_line s1).
Proof.
  intros Hf Hs Hk Hn. rewrite (step_fetched _ _ _ _ _ Hf), Hk in Hs. unfold process_negative in Hs.
  unfold record_arg in Hs.
  destruct (s_kind (t_sym t)) as [| [] | | | | | | | | | | | | | | | | | |]; try discriminate Hn;
    destruct (t_orig t); injection Hs as <-; repeat split.
Qed.

(** * Unbalanced directives *)

Lemma next_conds_open k h c : forall ks,
  open_ifs (List.length c) (k :: ks) =
  match next_conds k h c with Some c' => open_ifs (List.length c') ks | None => None end.
Proof.
  intros ks. destruct k as [| [] | | | | | | | | | | | | | | | | | |]; try reflexivity;
    destruct c as [|[| |] c]; reflexivity.
Qed.

Definition kinds (tr : list event) : list kind := map (fun e => s_kind (e_sym e)) tr.

Lemma reads_open v fuel s tr s3 :
  reads v fuel s tr s3 -> open_ifs (List.length (conds s)) (kinds tr) = Some (List.length (conds s3)).
Proof.
  induction 1 as [s|s t s1 s2 tr s3 Hf Hs Hr IH]; [reflexivity|].
  unfold kinds. cbn [map]. rewrite <- (fetch_conds _ _ _ Hf).
  rewrite (next_conds_open _ (cond_holds v fuel (Ev (t_sym t) s1 s2)) (conds s1)).
  cbn [e_sym]. rewrite (step_conds _ _ _ _ _ _ Hf Hs). exact IH.
Qed.
