(** Proofs about the preprocessing queries. *)
From Coq Require Import List ZArith Bool String Lia.
From Verif Require Import PreTypes MacroModel EvalModel PreModel CondSpec CondProofs VisibleSpec PreEvents PreDbModel PreDbSpec.
Import ListNotations.
Local Open Scope Z_scope.
Local Open Scope list_scope.

(** * How a run ends *)
Lemma stop_tables v fuel s f : step v fuel s = Stop f ->
  match f with FResult s' | FError s' => tables s' = tables s | _ => True end.
Proof.
  unfold step. destruct (fetch s) as [[t s1]|] eqn:Hf; [|intros H; injection H as <-; reflexivity].
  apply fetch_tables in Hf. pose proof (record_tables t s1) as R.
  cbv zeta. set (s2 := record_arg t s1) in *. rewrite Hf in R.
  assert (L : lex s2 = lex s1) by apply record_lex.
  assert (Hif : forall y s0, process_if v fuel y s0 = Stop f ->
     match f with FResult s' | FError s' => tables s' = tables s | _ => True end).
  { intros y s0. unfold process_if. destruct (directive_symbols (lex s0)) as [syms l]. cbv zeta.
    destruct (evaluate _ _ _ _ _ _); try (destruct (rev syms); discriminate);
      intros H; injection H as <-; exact I. }
  assert (Hei : forall y, process_elseif v fuel y s2 = Stop f ->
     match f with FResult s' | FError s' => tables s' = tables s | _ => True end).
  { intros y. unfold process_elseif. destruct (conds s2) as [|[| |] c].
    - intros H; injection H as <-. exact R.
    - apply Hif.
    - discriminate.
    - discriminate. }
  assert (Ho : forall o, opt_step s2 o = Stop f ->
     match f with FResult s' | FError s' => tables s' = tables s | _ => True end).
  { intros [s'|]; cbn [opt_step]; [discriminate|]. intros H; injection H as <-. exact R. }
  destruct (skipping s2).
  - unfold process_negative.
    destruct (s_kind (t_sym t)) as [| [] | | | | | | | | | | | | | | | | | |]; try discriminate; first [apply Hei | apply Ho].
  - unfold process_active.
    destruct (s_kind (t_sym t)) as [| [] | | | | | | | | | | | | | | | | | |]; cbn [process_directive];
      try discriminate; try first [apply Hei | apply Ho].
    + intros H; injection H as <-. exact R.
    + apply Hif.
    + unfold process_define. destruct (lx_pp (lex (push_symbol (t_sym t) s2))); [|discriminate].
      destruct (define_loop _ _ _) as [d s'|s'|] eqn:E; try discriminate.
      * intros H; injection H as <-.
        assert (B : forall rest d0 s0 s3, define_loop rest d0 s0 = DBail s3 -> tables s3 = tables s0).
        { clear. induction rest as [|[y pp] tl IH]; intros d0 s0 s3; cbn [define_loop]; [discriminate|].
          assert (X : match define_symbol y d0 with
            | None => DBail (echo y (set_lex (Lex tl pp) s0))
            | Some d1 => if pp then define_loop tl d1 (echo y (set_lex (Lex tl pp) s0))
                         else DOk d1 (echo y (set_lex (Lex tl pp) s0)) end = DBail s3 -> tables s3 = tables s0).
          { destruct (define_symbol y d0).
            - destruct pp; [|discriminate]. intros H. apply IH in H. rewrite H, echo_tables. reflexivity.
            - intros H; injection H as <-. rewrite echo_tables. reflexivity. }
          destruct (s_kind y); try exact X. discriminate. }
        apply B in E. rewrite E, push_symbol_tables. exact R.
      * intros H; injection H as <-. exact I.
    + unfold process_undef. destruct (lx_pp (lex (push_symbol (t_sym t) s2))); [|discriminate].
      assert (B : forall rest s0, undef_loop rest s0 = Stop f ->
        match f with FResult s' | FError s' => tables s' = tables s | _ => True end).
      { clear. induction rest as [|[y pp] tl IH]; intros s0; cbn [undef_loop].
        - intros H; injection H as <-. exact I.
        - destruct (kind_eqb _ _); [discriminate|]. destruct pp; [apply IH|discriminate]. }
      apply B.
    + assert (X : match mget (macros s2) (s_text (t_sym t)) with
          | None => Next (push_symbol (t_sym t) s2)
          | Some m =>
              if dmem m (disabled s2)
              then Next (push_symbol (t_sym t) (set_disabled (drem m (disabled s2)) s2))
              else
                match expand_identifier fuel (lex s2) (macros s2) t true (disabled s2) with
                | XOk diff pushed l dis =>
                    Next (set_adiff diff (set_exp_sym (Some ((t_sym t), (m_idx m, m_file m)))
                      (set_estack (pushed ++ estack s2) (set_lex l (set_disabled dis s2)))))
                | XNotFound name r l dis =>
                    Stop (FError (set_err_notfound (err_notfound s2 ++ [(name, r)]) s2))
                | XParse _ _ _ => Stop (FError s2)
                | XFuel => Stop FFuel
                end
          end = Stop f -> match f with FResult s' | FError s' => tables s' = tables s | _ => True end).
      { destruct (mget _ _) as [m|]; [|discriminate]. destruct (dmem _ _); [discriminate|].
        destruct (expand_identifier _ _ _ _ _ _); try discriminate; intros H; injection H as <-; auto. }
      destruct (intr s2) as [[]|]; try exact X. discriminate.
    + destruct (intr s2) as [[]|]; discriminate.
    + destruct (intr s2) as [[]|]; discriminate.
    + intros H; injection H as <-. exact R.
Qed.

Lemma run_reads v fuel n : forall s f, run n v fuel s = f -> f <> FFuel ->
  exists tr s1, reads v fuel s tr s1 /\ step v fuel s1 = Stop f.
Proof.
  induction n as [|n IH]; intros s f H Hf; [exfalso; apply Hf; symmetry; exact H|].
  cbn [run] in H. destruct (step v fuel s) as [s'|f'] eqn:E.
  - destruct (IH _ _ H Hf) as (tr & s1 & A & B).
    unfold step in E. destruct (fetch s) as [[t s0]|] eqn:F; [|discriminate E].
    exists (Ev (t_sym t) s0 s' :: tr), s1. split; [|exact B].
    eapply reads_cons; [exact F| |exact A]. unfold step. rewrite F. exact E.
  - subst f'. exists [], s. split; [constructor|exact E].
Qed.

(** * An invariant of what the callback captured *)
Section invariant.
Variable v : env.
Variable P : list (string * bool) -> incs_t -> Prop.
Hypothesis Hstep : forall l i m p q, P l i -> P (l ++ [(p, q)]) (fst (fst (v_inc v i m p q))).

Lemma calls_inv y l im : P l (fst im) -> P (l ++ paths_of v y) (fst (inc_calls v y im)).
Proof.
  intros H. unfold paths_of, inc_calls. cbv zeta.
  assert (C : forall p q l im, P l (fst im) -> P (l ++ map (fun p => (p, q)) (opt_list p)) (fst (inc_call v p q im))).
  { clear -Hstep. intros [p|] q l im H; cbn [inc_call opt_list map].
    - apply Hstep. exact H.
    - rewrite app_nil_r. exact H. }
  rewrite app_assoc. apply C, C, H.
Qed.

Lemma reads_inv_incs fuel s tr s' : reads v fuel s tr s' -> forall l, P l (incs s) ->
  P (l ++ flat_map (fun e => paths_of v (e_sym e)) (filter is_include tr)) (incs s').
Proof.
  intros H. induction H as [s|s t s1 s2 tr s3 Hf Hs _ IH]; intros l Hl.
  { cbn. rewrite app_nil_r. exact Hl. }
  pose proof (step_effect v fuel s t s1 s2 Hf Hs) as E.
  pose proof (fetch_tables _ _ _ Hf) as T. injection T as T1 T2 T3.
  assert (Hinc : forall d1 d2 e, is_dir d1 e = true -> d1 <> d2 -> is_dir d2 e = false).
  { intros d1 d2 e A B. unfold is_dir in *. apply andb_true_iff in A. destruct A as [A1 A2]. rewrite A1.
    apply kind_eqb_eq in A2. rewrite A2. unfold kind_eqb.
    destruct (kind_eq_dec (KDir d1) (KDir d2)); [congruence|reflexivity]. }
  cbn [filter]. destruct E as [mac D M F I N J | D M I J | D M I | D U Y M].
  - unfold is_include at 1. rewrite !(Hinc MDefine _ _ D) by discriminate. cbn [orb].
    apply IH. cbn [e_after e_before] in J. congruence.
  - unfold is_include at 1. rewrite !(Hinc MUndef _ _ D) by discriminate. cbn [orb].
    apply IH. cbn [e_after e_before] in J. congruence.
  - rewrite D. cbn [flat_map e_sym]. rewrite app_assoc. apply IH.
    cbn [e_after e_before e_sym] in M. rewrite T3 in M.
    pose proof (calls_inv (t_sym t) l (incs s, macros s1) Hl) as C. rewrite <- M in C. exact C.
  - rewrite Y. apply IH. cbn [e_after e_before] in M. injection M as M1 M2 M3. congruence.
Qed.

Lemma preprocess_inv fuel i m syms s :
  preprocess v fuel i m syms = FResult s \/ preprocess v fuel i m syms = FError s ->
  P [] i ->
  exists i1 m1 ok tr s1 fin, v_inc v i m "sourcemod"%string false = (i1, m1, ok) /\
    reads v fuel (init_st i1 m1 syms) tr s1 /\ step v fuel s1 = Stop fin /\ P (asked v tr) (incs s).
Proof.
  intros H Hi. unfold preprocess in H.
  pose proof (Hstep [] i m "sourcemod"%string false Hi) as H1.
  destruct (v_inc v i m "sourcemod"%string false) as [[i1 m1] ok]. cbn [fst app] in H1.
  assert (H' : exists fin, run fuel v fuel (init_st i1 m1 syms) = fin /\ (fin = FResult s \/ fin = FError s)).
  { destruct H; eauto. }
  destruct H' as (fin & Hr & Hfin).
  destruct (run_reads v fuel fuel _ _ Hr) as (tr & s1 & A & B); [destruct Hfin; subst; congruence|].
  exists i1, m1, ok, tr, s1, fin. split; [reflexivity|]. split; [exact A|]. split; [exact B|].
  apply stop_tables in B.
  assert (tables s = tables s1) as T by (destruct Hfin as [Hfin|Hfin]; rewrite Hfin in B; exact B).
  injection T as _ _ T. rewrite T. unfold asked.
  apply (reads_inv_incs fuel _ _ _ A [("sourcemod"%string, false)] H1).
Qed.
End invariant.

(** * The first query *)
Lemma zmem_In x l : zmem x l = true <-> In x l.
Proof.
  unfold zmem. rewrite existsb_exists. split.
  - intros (y & A & B). apply Z.eqb_eq in B. subst y. exact A.
  - intros H. exists x. split; [exact H|apply Z.eqb_refl].
Qed.
Lemma zget_app {A} (a b : list (Z * A)) k :
  zget (a ++ b) k = match zget a k with Some x => Some x | None => zget b k end.
Proof. induction a as [|[j x] tl IH]; cbn; [reflexivity|]. destruct (j =? k); auto. Qed.

(** The keys of [t] are [l]. *)
Definition keys {A} (t : list (Z * A)) (l : list Z) : Prop := forall k, zget t k <> None <-> In k l.
Lemma keys_app {A} (a b : list (Z * A)) la lb : keys a la -> keys b lb -> keys (a ++ b) (lb ++ la).
Proof.
  intros Ha Hb k. rewrite zget_app, in_app_iff. specialize (Ha k). specialize (Hb k).
  destruct (zget a k) as [x|].
  - split; [intros _; right; apply Ha; discriminate|discriminate].
  - rewrite Hb. split; [auto|]. intros [X|X]; [exact X|]. apply Ha in X. congruence.
Qed.
Lemma keys_cons {A} (a : list (Z * A)) la k x : keys a la -> keys ((k, x) :: a) (k :: la).
Proof.
  intros Ha j. cbn [zget In]. destruct (Z.eqb_spec k j) as [->|N].
  - split; [auto|discriminate].
  - rewrite (Ha j). split; [auto|]. intros [X|X]; [congruence|exact X].
Qed.

(** What holds of a query that returned. *)
Record answered (w : world) (being : list Z) (f : Z) (res : list (Z * params)) (visits : list Z) : Prop := {
  a_runs : exists runs, map fst runs = visits /\ collected w being f runs;
  a_res : keys res visits;
  a_own : exists p, zget res f = Some p /\ keys (p_outputs p) visits /\
            forall x, In x (p_being p) <-> In x being \/ In x visits
}.

(** The invariant inside the query for [f]. *)
Definition inside (w : world) (being : list Z) (f : Z) (l : list (string * bool)) (i : incs_t) : Prop :=
  i_bad i = None ->
  exists rs : list (Z * list event),
    i_visits i = f :: map fst rs /\
    (forall g tr, In (g, tr) rs -> whole_run w g tr) /\
    NoDup (f :: map fst rs) /\
    (forall g, In g (f :: map fst rs) -> ~ In g being) /\
    (forall x, In x (i_being i) <-> In x being \/ In x (f :: map fst rs)) /\
    (forall a g tr b, rs = a ++ (g, tr) :: b ->
       (exists p q, In (p, q) l /\ w_resolve w f p q = Some g) \/
       exists h tr', In (h, tr') a /\ includes w h tr' g) /\
    (forall g tr h, In (g, tr) rs -> includes w g tr h -> In h (i_being i)) /\
    (forall p q h, In (p, q) l -> w_resolve w f p q = Some h -> In h (i_being i)) /\
    keys (i_results i) (map fst rs) /\ keys (i_outputs i) (map fst rs).

Lemma app_split {A} (a b c d : list A) x : a ++ b = c ++ x :: d ->
  (exists d', a = c ++ x :: d' /\ d = d' ++ b) \/ (exists c', c = a ++ c' /\ b = c' ++ x :: d).
Proof.
  revert c. induction a as [|y a IH]; intros c H.
  - right. exists c. auto.
  - destruct c as [|z c]; cbn in H.
    + injection H as <- <-. left. exists a. auto.
    + injection H as <- H. destruct (IH _ H) as [(d' & -> & ->)|(c' & -> & ->)].
      * left. exists d'. auto.
      * right. exists c'. auto.
Qed.

Lemma NoDup_apart {A} (a b : list A) :
  NoDup a -> NoDup b -> (forall x, In x a -> ~ In x b) -> NoDup (a ++ b).
Proof.
  induction 1 as [|x a N _ IH]; intros Hb D; [exact Hb|]. cbn. constructor.
  - rewrite in_app_iff. intros [X|X]; [auto|]. apply (D x); cbn; auto.
  - apply IH; [exact Hb|]. intros y Y. apply D. right. exact Y.
Qed.

Lemma inside_step w rec being f :
  (forall g m b res visits, ~ In g b -> rec g m b = QOk res visits -> answered w b g res visits) ->
  forall l i m p q, inside w being f l i ->
    inside w being f (l ++ [(p, q)]) (fst (fst (params_inc w rec f i m p q))).
Proof.
  intros Hrec l i m p q H. unfold params_inc.
  assert (Hno : forall h0, w_resolve w f p q = h0 -> (forall h, h0 = Some h -> i_bad i = None -> In h (i_being i)) ->
     inside w being f (l ++ [(p, q)]) i).
  { intros h0 E Hin B. specialize (H B). destruct H as (rs & V & W & N & D & S & A & C & K & R & O).
    exists rs. repeat (split; [assumption|]). split; [|split; [assumption|split; [|split; assumption]]].
    - intros a g tr b E'. destruct (A a g tr b E') as [(p' & q' & X & Y)|X]; [left|right; exact X].
      exists p', q'. rewrite in_app_iff. auto.
    - intros p' q' h X Y. rewrite in_app_iff in X. destruct X as [X|[X|[]]]; [apply (K p' q'); auto|].
      injection X as <- <-. apply (Hin h); congruence. }
  destruct (w_resolve w f p q) as [inc|] eqn:E; cbn [fst].
  2: { apply (Hno None); [reflexivity|discriminate]. }
  destruct (zmem inc (i_being i)) eqn:M; cbn [fst].
  { apply (Hno (Some inc)); [reflexivity|]. intros h X _. injection X as <-. apply zmem_In, M. }
  destruct (rec inc m (i_being i)) as [res visits|t] eqn:Q; cbn [fst].
  2: { intros B. unfold set_bad in B. cbn [i_bad] in B. destruct (i_bad i); discriminate B. }
  assert (Hn : ~ In inc (i_being i)) by (rewrite <- zmem_In; congruence).
  destruct (Hrec _ _ _ _ _ Hn Q) as [(runs & Vr & Cr) Kr (p0 & Zp & Ko & Kb)].
  rewrite Zp. cbn [fst]. intros B. cbn [i_bad] in B. specialize (H B).
  destruct H as (rs & V & W & N & D & S & A & C & K & R & O).
  exists (rs ++ runs). cbn [i_visits i_being i_results i_outputs].
  rewrite map_app, V, Vr, app_comm_cons. split; [reflexivity|].
  destruct Cr as [Cw Co Cn Ca Cl]. rewrite Vr in *.
  split; [intros g tr X; rewrite in_app_iff in X; destruct X; eauto|].
  split.
  { apply NoDup_apart; auto. intros x X Y. apply (Cn x Y). apply S. right. exact X. }
  split.
  { intros g X. rewrite in_app_iff in X. destruct X as [X|X]; [apply D; exact X|].
    intros Z. apply (Cn g X). apply S. left. exact Z. }
  assert (Sb : forall x, In x (p_being p0 ++ i_being i) <-> In x being \/ In x (f :: map fst rs ++ visits)).
  { intros x. rewrite in_app_iff, Kb, S. rewrite app_comm_cons, in_app_iff. tauto. }
  split; [exact Sb|]. split.
  { intros a g tr b E'. apply app_split in E'.
    destruct E' as [(d' & E1 & _)|(c' & -> & E1)].
    - destruct (A a g tr d' E1) as [(p' & q' & X & Y)|X]; [left|right; exact X].
      exists p', q'. rewrite in_app_iff. auto.
    - destruct (Ca c' g tr b E1) as [[-> ->]|(h & tr' & X & Y)].
      + left. exists p, q. rewrite in_app_iff. cbn. auto.
      + right. exists h, tr'. rewrite in_app_iff. auto. }
  split.
  { intros g tr h X Y. rewrite in_app_iff in X. rewrite in_app_iff. destruct X as [X|X].
    - right. eapply C; eauto.
    - left. rewrite Kb. destruct (Cl _ _ _ X Y); auto. }
  split.
  { intros p' q' h X Y. rewrite in_app_iff in X. rewrite in_app_iff.
    destruct X as [X|[X|[]]].
    - right. eapply K; eauto.
    - injection X as <- <-. rewrite E in Y. injection Y as <-. left. rewrite Kb. right.
      destruct runs as [|[g0 tr0] runs'].
      + exfalso. cbn in Vr. subst visits. destruct (Kr inc) as [_ X].
        assert (zget res inc <> None) as Z by congruence. apply Kr in Z. destruct Z.
      + apply Kr. congruence. }
  split; apply keys_app; assumption.
Qed.

Lemma params_answered w n : forall f m being res visits,
  ~ In f being -> params_query n w f m being = QOk res visits -> answered w being f res visits.
Proof.
  induction n as [|n IH]; intros f m being res visits Hf H; [discriminate H|].
  cbn [params_query] in H.
  set (v := file_env w f (params_inc w (params_query n w) f)) in *.
  assert (H' : exists s, (preprocess v (w_fuel w) (Incs [] (f :: being) [] [f] None) m (w_syms w f) = FResult s \/
      preprocess v (w_fuel w) (Incs [] (f :: being) [] [f] None) m (w_syms w f) = FError s) /\
      params_finish f m s = QOk res visits).
  { destruct (preprocess v _ _ _ _); try discriminate H; eauto. }
  clear H. destruct H' as (s & Hp & Hfin).
  destruct (preprocess_inv v (inside w being f) (inside_step w _ being f IH) _ _ _ _ _ Hp)
    as (i1 & m1 & ok & tr & s1 & fin & Hv & Hr & Hst & Hin).
  { intros _. exists []. cbn [i_visits i_being i_results i_outputs map In].
    split; [reflexivity|]. split; [intros g tr []|].
    split; [repeat constructor; intros []|].
    split; [intros g [<-|[]]; exact Hf|].
    split; [intros x; cbn [In]; tauto|].
    split; [intros a g tr b E; destruct a; discriminate E|].
    split; [intros g tr h []|]. split; [intros p q h []|].
    split; intros k; cbn; split; [congruence|intros []|congruence|intros []]. }
  unfold params_finish in Hfin. destruct (i_bad (incs s)) eqn:B; [discriminate Hfin|].
  injection Hfin as <- <-. specialize (Hin B).
  destruct Hin as (rs & V & W & N & D & S & A & C & K & R & O).
  constructor.
  - exists ((f, tr) :: rs). cbn [map fst]. split; [symmetry; exact V|]. constructor.
    + intros g tr' [X|X]; [|eauto]. injection X as <- <-.
      exists (params_query n w), (Incs [] (f :: being) [] [f] None), m, i1, m1, ok, s1, fin. auto.
    + exact N.
    + exact D.
    + intros a g tr' b E. destruct a as [|x a]; cbn in E.
      * injection E as <- _ _. auto.
      * injection E as <- E. right.
        destruct (A _ _ _ _ E) as [(p & q & X & Y)|(h & tr0 & X & Y)].
        -- exists f, tr. split; [left; reflexivity|]. exists p, q. split; [exact X|exact Y].
        -- exists h, tr0. split; [right; exact X|exact Y].
    + intros g tr' h [X|X] Y.
      * injection X as <- <-. destruct Y as (p & q & X & Y). apply S. eapply K; [exact X|exact Y].
      * apply S. eapply C; eauto.
  - rewrite V. apply keys_cons, R.
  - eexists. cbn [zget]. rewrite Z.eqb_refl. split; [reflexivity|]. cbn [p_outputs p_being]. rewrite V.
    split; [apply keys_cons, O|exact S].
Qed.
