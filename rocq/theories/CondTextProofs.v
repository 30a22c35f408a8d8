From Coq Require Import List ZArith Bool String Lia.
From Verif Require Import PreTypes MacroModel EvalModel EvalSpec EvalProofs PreModel CondProofs CondTextSpec.
Import ListNotations.
Local Open Scope Z_scope.
Local Open Scope list_scope.

Lemma sapp_assoc (a b c : string) : ((a ++ b) ++ c)%string = (a ++ (b ++ c))%string.
Proof. induction a as [|x a IH]; simpl; [reflexivity|]. rewrite IH. reflexivity. Qed.
Lemma sapp_nil (a : string) : (a ++ EmptyString)%string = a.
Proof. induction a as [|x a IH]; simpl; [reflexivity|]. rewrite IH. reflexivity. Qed.

(** What the theorem needs to know of a state. *)
Record at_ (rest : list fsym) (d : names) (c : list cond_state) (line : string) (ls : list string)
    (s : st) : Prop := At {
  a_rest : lx_rest (lex s) = rest;
  a_estack : estack s = [];
  a_exp : exp_sym s = None;
  a_intr : intr s = None;
  a_line : cur_line s = line;
  a_out : out s = ls;
  a_conds : conds s = c;
  a_names : forall x, d x = def_in (macros s) x
}.

Definition off (c : list cond_state) : bool :=
  match c with Activated :: _ | NotActivated :: _ => true | _ => false end.

(** several iterations *)
Fixpoint goes (k : nat) (v : env) (fuel : nat) (s s' : st) : Prop :=
  match k with
  | O => s = s'
  | S k => exists s1, step v fuel s = Next s1 /\ goes k v fuel s1 s'
  end.
Lemma goes_app v fuel : forall j k s s1 s2, goes j v fuel s s1 -> goes k v fuel s1 s2 -> goes (j + k) v fuel s s2.
Proof.
  induction j as [|j IH]; simpl; intros k s s1 s2 H1 H2; [subst; exact H2|].
  destruct H1 as (s' & Hs & H1). exists s'. split; [exact Hs|]. eapply IH; eassumption.
Qed.
Lemma goes_run v fuel : forall k n s s', goes k v fuel s s' -> run (k + n) v fuel s = run n v fuel s'.
Proof.
  induction k as [|k IH]; simpl; intros n s s' H; [subst; reflexivity|].
  destruct H as (s1 & -> & H). apply IH. exact H.
Qed.
(** [reaches P]: some iterations later [P] holds *)
(** ..., each of them reads at least a symbol *)
Definition left_ (s : st) : nat := List.length (lx_rest (lex s)).
Definition reaches (v : env) (fuel : nat) (P : st -> Prop) (s : st) : Prop :=
  exists k s', goes k v fuel s s' /\ P s' /\ (k + left_ s' <= left_ s)%nat.
Lemma reaches_refl v fuel (P : st -> Prop) s : P s -> reaches v fuel P s.
Proof. intros H. exists O, s. split; [reflexivity|]. split; [exact H|lia]. Qed.
Lemma reaches_step v fuel (P : st -> Prop) s s1 :
  step v fuel s = Next s1 -> (left_ s1 < left_ s)%nat -> reaches v fuel P s1 -> reaches v fuel P s.
Proof.
  intros Hs Hl (k & s' & H & HP & Hk). exists (S k), s'. split; [exists s1; split; assumption|].
  split; [exact HP|lia].
Qed.
Lemma reaches_trans v fuel (P Q : st -> Prop) s :
  reaches v fuel P s -> (forall s1, P s1 -> reaches v fuel Q s1) -> reaches v fuel Q s.
Proof.
  intros (j & s1 & H1 & HP & Hj) H. destruct (H _ HP) as (k & s2 & H2 & HQ & Hk).
  exists (j + k)%nat, s2. split; [eapply goes_app; eassumption|]. split; [exact HQ|lia].
Qed.

(** * Single iterations *)

Lemma at_fetch y rest d c line ls s :
  at_ (y :: rest) d c line ls s ->
  exists s1, fetch s = Some (tok (fst y), s1) /\ lex s1 = Lex rest (snd y) /\ at_ rest d c line ls s1.
Proof.
  intros [A B C D E F G H]. destruct y as [y b]. eexists. split.
  - unfold fetch, lex_next. rewrite B, A, C. reflexivity.
  - split; [reflexivity|]. constructor; simpl; try assumption; reflexivity.
Qed.

Lemma at_step v fuel y rest d c line ls s (P : step_res -> Prop) :
  at_ (y :: rest) d c line ls s ->
  (forall s1, lex s1 = Lex rest (snd y) -> at_ rest d c line ls s1 ->
     P (if off c then process_negative v fuel (fst y) s1 else process_active v fuel (tok (fst y)) s1)) ->
  P (step v fuel s).
Proof.
  intros H HP. destruct (at_fetch _ _ _ _ _ _ _ H) as (s1 & Hf & Hl & H1).
  rewrite (step_fetched _ _ _ _ _ Hf). specialize (HP s1 Hl H1).
  unfold record_arg. cbn [t_orig tok t_sym]. unfold skipping. rewrite (a_conds _ _ _ _ _ _ H1). exact HP.
Qed.

Definition nexts (P : st -> Prop) (r : step_res) : Prop := exists s', r = Next s' /\ P s'.
Lemma reaches_nexts v fuel rest d c line ls rest' d' c' line' ls' (Q : st -> Prop) s :
  at_ rest d c line ls s -> nexts (at_ rest' d' c' line' ls') (step v fuel s) ->
  (List.length rest' < List.length rest)%nat ->
  (forall s1, at_ rest' d' c' line' ls' s1 -> reaches v fuel Q s1) -> reaches v fuel Q s.
Proof.
  intros HA (s1 & Hs & HP) Hl H. eapply reaches_step; [exact Hs| |apply H; exact HP].
  unfold left_. rewrite (a_rest _ _ _ _ _ _ HA), (a_rest _ _ _ _ _ _ HP). exact Hl.
Qed.
Ltac shorter := unfold fsym; repeat (cbn [List.length] || rewrite app_length); lia.

Lemma push_symbol_at y rest d c line ls s :
  s_kind y <> KEof -> at_ rest d c line ls s ->
  at_ rest d c (line ++ blanks y ++ s_text y)%string ls (push_symbol y s).
Proof.
  intros Hk [A B C D E F G H]. unfold push_symbol. destruct (s_kind y); try congruence;
    (constructor; simpl; try assumption; rewrite E; unfold blanks; rewrite sapp_assoc; reflexivity).
Qed.

Lemma plain_step v fuel y rest d c line ls s :
  off c = false -> plain d y -> at_ (y :: rest) d c line ls s ->
  nexts (at_ rest d c (line ++ blanks (fst y) ++ s_text (fst y))%string ls) (step v fuel s).
Proof.
  intros Ho Hp H. eapply at_step; [exact H|]. intros s1 _ H1. rewrite Ho.
  unfold process_active, plain, fkind in *. cbn [t_sym tok].
  assert (Hn : s_kind (fst y) <> KEof) by (intros E; rewrite E in Hp; exact Hp).
  pose proof (push_symbol_at (fst y) _ _ _ _ _ _ Hn H1) as HP.
  destruct (s_kind (fst y)) eqn:E; try contradiction; try (eexists; split; [reflexivity|exact HP]).
  - rewrite (a_intr _ _ _ _ _ _ H1). pose proof (a_names _ _ _ _ _ _ H1 (s_text (fst y))) as Hd.
    unfold def_in in Hd. rewrite Hp in Hd. destruct (mget _ _); [discriminate|].
    eexists; split; [reflexivity|exact HP].
  - rewrite (a_intr _ _ _ _ _ _ H1). eexists; split; [reflexivity|].
    apply push_symbol_at; [congruence|]. destruct H1; constructor; assumption || reflexivity.
  - rewrite (a_intr _ _ _ _ _ _ H1). eexists; split; [reflexivity|exact HP].
Qed.

Lemma newline_step v fuel y rest d c line ls s :
  off c = false -> newline y -> at_ (y :: rest) d c line ls s ->
  nexts (at_ rest d c EmptyString (ls ++ [line ++ blanks (fst y)]%string)) (step v fuel s).
Proof.
  intros Ho Hp H. eapply at_step; [exact H|]. intros s1 _ H1. rewrite Ho.
  unfold process_active, newline, fkind in *. cbn [t_sym tok]. rewrite Hp.
  eexists; split; [reflexivity|]. destruct H1 as [A B C D E F G I]. constructor; simpl; try assumption; try reflexivity.
  rewrite F, E. reflexivity.
Qed.

Lemma skip_step v fuel y rest d c line ls s :
  off c = true -> skippable y -> at_ (y :: rest) d c line ls s ->
  nexts (at_ rest d c line ls) (step v fuel s).
Proof.
  intros Ho Hp H. eapply at_step; [exact H|]. intros s1 _ H1. rewrite Ho.
  unfold process_negative, skippable, fkind in *.
  destruct (s_kind (fst y)) as [| [] | | | | | | | | | | | | | | | | | |]; try contradiction;
    (eexists; split; [reflexivity|exact H1]).
Qed.

Lemma skip_newline_step v fuel y rest d c line ls s :
  off c = true -> newline y -> at_ (y :: rest) d c line ls s ->
  nexts (at_ rest d c EmptyString (ls ++ [line])) (step v fuel s).
Proof.
  intros Ho Hp H. eapply at_step; [exact H|]. intros s1 _ H1. rewrite Ho.
  unfold process_negative, newline, fkind in *. rewrite Hp.
  eexists; split; [reflexivity|]. destruct H1 as [A B C D E F G I]. constructor; simpl; try assumption; try reflexivity.
  rewrite F, E. reflexivity.
Qed.

(** * Lines *)

Lemma plain_goes v fuel ys : forall rest d c line ls s,
  off c = false -> Forall (plain d) ys -> at_ (ys ++ rest) d c line ls s ->
  reaches v fuel (at_ rest d c (line ++ line_text ys)%string ls) s.
Proof.
  induction ys as [|[y b] ys IH]; intros rest d c line ls s Ho Hp H; simpl in H |- *.
  - rewrite sapp_nil. apply reaches_refl. exact H.
  - inversion Hp; subst. eapply reaches_nexts; [exact H|eapply plain_step; eassumption|shorter|].
    intros s1 H1. cbn [fst] in H1. rewrite <- !sapp_assoc, (sapp_assoc line). apply IH; assumption.
Qed.
Lemma plain_line v fuel ys nl rest d c line ls s :
  off c = false -> Forall (plain d) ys -> newline nl -> at_ (ys ++ nl :: rest) d c line ls s ->
  reaches v fuel (at_ rest d c EmptyString (ls ++ [line ++ whole_line ys nl]%string)) s.
Proof.
  intros Ho Hp Hn H. eapply reaches_trans; [eapply plain_goes; eassumption|].
  intros s1 H1. eapply reaches_nexts; [exact H1|eapply newline_step; eassumption|shorter|].
  intros s2 H2. apply reaches_refl. unfold whole_line. rewrite <- sapp_assoc. exact H2.
Qed.
Lemma skip_goes v fuel ys : forall rest d c line ls s,
  off c = true -> Forall skippable ys -> at_ (ys ++ rest) d c line ls s ->
  reaches v fuel (at_ rest d c line ls) s.
Proof.
  induction ys as [|y ys IH]; intros rest d c line ls s Ho Hp H; simpl in H |- *.
  - apply reaches_refl. exact H.
  - inversion Hp; subst. eapply reaches_nexts; [exact H|eapply skip_step; eassumption|shorter|].
    intros s1 H1. eapply IH; eassumption.
Qed.
Lemma skip_line v fuel ys nl rest d c line ls s :
  off c = true -> Forall skippable ys -> newline nl -> at_ (ys ++ nl :: rest) d c line ls s ->
  reaches v fuel (at_ rest d c EmptyString (ls ++ [line])) s.
Proof.
  intros Ho Hp Hn H. eapply reaches_trans; [eapply skip_goes; eassumption|].
  intros s1 H1. eapply reaches_nexts; [exact H1|eapply skip_newline_step; eassumption|shorter|].
  intros s2 H2. apply reaches_refl. exact H2.
Qed.

(** * #define and #undef *)

Lemma echo_at y rest d c line ls s :
  s_kind y <> KNewline -> s_kind y <> KEof -> at_ rest d c line ls s ->
  at_ rest d c (line ++ blanks y ++ s_text y)%string ls (echo y s).
Proof.
  intros Hk Hk' [A B C D E F G H]. unfold echo. destruct (s_kind y); try congruence;
    (constructor; simpl; try assumption; rewrite E; unfold blanks; rewrite sapp_assoc; reflexivity).
Qed.
Lemma echo_nl_at y rest d c line ls s :
  s_kind y = KNewline -> at_ rest d c line ls s ->
  at_ rest d c (line ++ blanks y)%string ls (echo y s).
Proof.
  intros Hk [A B C D E F G H]. unfold echo. rewrite Hk.
  constructor; simpl; try assumption. rewrite E. reflexivity.
Qed.
Lemma set_lex_at l rest d c line ls s : at_ rest d c line ls s -> at_ (lx_rest l) d c line ls (set_lex l s).
Proof. intros [A B C D E F G H]. constructor; simpl; try assumption. reflexivity. Qed.

Lemma body_loop body : forall nl rest d c line ls R s dd,
  d_state dd = DBody ->
  Forall (fun y => fkind y <> KEof /\ fkind y <> KNewline) body -> Forall (fun z : fsym => snd z = true) body ->
  newline nl -> snd nl = false -> at_ R d c line ls s ->
  exists d' s', define_loop (body ++ nl :: rest) dd s = DOk d' s' /\ d_name d' = d_name dd /\
    at_ rest d c (line ++ whole_line body nl)%string ls s'.
Proof.
  induction body as [|[y b] body IH]; intros nl rest d c line ls R s dd Hd Hk Hb Hn Hf H.
  - destruct nl as [y b]. cbn [app snd] in *. subst b. unfold newline, fkind in Hn. cbn [fst] in Hn.
    cbn [define_loop]. rewrite Hn. unfold define_symbol. rewrite Hd. eexists _, _.
    split; [reflexivity|]. split; [reflexivity|]. unfold whole_line. simpl line_text. cbn [fst].
    apply echo_nl_at; [exact Hn|]. eapply (set_lex_at (Lex rest false)). exact H.
  - inversion Hk as [|? ? [He Hnl] Hk']; subst. inversion Hb as [|? ? Hb1 Hb2]; subst. cbn [snd] in Hb1. subst b.
    unfold fkind in He, Hnl. cbn [fst] in He, Hnl.
    pose proof (set_lex_at (Lex (body ++ nl :: rest) true) _ _ _ _ _ _ H) as H1.
    pose proof (echo_at y _ _ _ _ _ _ Hnl He H1) as H2.
    destruct (IH nl rest d c _ ls _ _ (Def (d_name dd) (d_body dd ++ [rsym_of y]) (d_args dd) (d_found dd) DBody (d_idx dd))
                eq_refl Hk' Hb2 Hn Hf H2) as (d' & s' & E & N & A).
    exists d', s'. cbn [app define_loop].
    assert (Es : define_symbol y dd = Some (Def (d_name dd) (d_body dd ++ [rsym_of y]) (d_args dd) (d_found dd) DBody (d_idx dd)))
      by (unfold define_symbol; rewrite Hd; reflexivity).
    destruct (s_kind y) eqn:Ek; try congruence; rewrite Es; (split; [exact E|]); (split; [exact N|]);
      unfold whole_line in A |- *; simpl line_text; rewrite !sapp_assoc in *; exact A.
Qed.

Lemma define_loop_object name body nl rest d c line ls R s :
  fkind name = KIdent -> s_text (fst name) <> EmptyString -> object_body body ->
  Forall (fun z : fsym => snd z = true) (name :: body) -> newline nl -> snd nl = false ->
  at_ R d c line ls s ->
  exists d' s', define_loop (name :: body ++ nl :: rest) def0 s = DOk d' s' /\ d_name d' = s_text (fst name) /\
    at_ rest d c (line ++ whole_line (name :: body) nl)%string ls s'.
Proof.
  intros Hk He [Ho1 Ho2] Hf Hn Hnf H. destruct name as [y b]. inversion Hf as [|? ? Hb Hf']; subst.
  cbn [fst snd] in *. subst b. unfold fkind in Hk. cbn [fst] in Hk.
  pose proof (set_lex_at (Lex (body ++ nl :: rest) true) _ _ _ _ _ _ H) as H1.
  pose proof (echo_at y _ _ _ _ _ _ ltac:(congruence) ltac:(congruence) H1) as H2.
  cbn [define_loop]. rewrite Hk. unfold define_symbol at 1. cbn [d_state def0 d_name].
  change (String.eqb EmptyString EmptyString) with true. unfold kind_eqb at 1.
  destruct (kind_eq_dec (s_kind y) KIdent) as [_|N]; [|contradiction]. cbn [andb].
  set (dd := Def (s_text y) _ _ _ _ _).
  assert (Hds : forall z, ~ (s_kind z = KLParen /\ dcol (s_delta z) = 0) ->
            define_symbol z dd = define_symbol z (Def (s_text y) [] (repeat (-1) 10) false DBody 0)).
  { intros z Hz. unfold define_symbol. cbn [d_state dd d_name].
    destruct (String.eqb (s_text y) EmptyString) eqn:E; [apply String.eqb_eq in E; contradiction|]. cbn [andb].
    destruct (dcol (s_delta z) =? 0) eqn:E0; cbn [andb]; [|reflexivity].
    unfold kind_eqb. destruct (kind_eq_dec (s_kind z) KLParen) as [E1|_]; [|reflexivity].
    exfalso. apply Hz. split; [exact E1|]. apply Z.eqb_eq. exact E0. }
  assert (Hfirst : define_loop (body ++ nl :: rest) dd (echo y (set_lex (Lex (body ++ nl :: rest) true) s)) =
                   define_loop (body ++ nl :: rest) (Def (s_text y) [] (repeat (-1) 10) false DBody 0)
                     (echo y (set_lex (Lex (body ++ nl :: rest) true) s))).
  { destruct body as [|[z bz] body]; cbn [app].
    - destruct nl as [z bz]. cbn [define_loop]. unfold newline, fkind in Hn. cbn [fst] in Hn.
      rewrite (Hds z) by (intros [E _]; congruence). rewrite Hn. reflexivity.
    - cbn [define_loop]. rewrite (Hds z) by exact Ho2.
      inversion Ho1 as [|? ? [E1 E2] _]; subst. unfold fkind in E1; cbn [fst] in E1.
      destruct (s_kind z); try reflexivity; congruence. }
  rewrite Hfirst.
  destruct (body_loop body nl rest d c _ ls _ _ (Def (s_text y) [] (repeat (-1) 10) false DBody 0)
              eq_refl Ho1 Hf' Hn Hnf H2) as (d' & s' & E & N & A).
  exists d', s'. split; [exact E|]. split; [exact N|].
  unfold whole_line in A |- *. simpl line_text. rewrite !sapp_assoc in *. exact A.
Qed.

Lemma mget_mset_ m x y v : mget (mset m x v) y = if String.eqb x y then Some v else mget m y.
Proof.
  unfold mset. cbn [mget]. destruct (String.eqb x y) eqn:E; [reflexivity|].
  unfold mdel. induction m as [|[n w] m IH]; [reflexivity|]. cbn [filter fst mget].
  destruct (String.eqb n x) eqn:Ex; cbn [negb].
  - apply String.eqb_eq in Ex. subst n. rewrite E. exact IH.
  - cbn [mget]. rewrite IH. reflexivity.
Qed.
Lemma mget_mdel_ m x y : mget (mdel m x) y = if String.eqb x y then None else mget m y.
Proof.
  unfold mdel. induction m as [|[n w] m IH]; cbn [filter fst mget].
  - destruct (String.eqb x y); reflexivity.
  - destruct (String.eqb n x) eqn:Ex; cbn [negb].
    + apply String.eqb_eq in Ex. subst n. rewrite IH. destruct (String.eqb x y); reflexivity.
    + cbn [mget]. rewrite IH. destruct (String.eqb n y) eqn:Ey; [|reflexivity].
      apply String.eqb_eq in Ey. subst n. rewrite String.eqb_sym, Ex. reflexivity.
Qed.

Lemma define_step v fuel y name body nl rest d c ls s :
  off c = false ->
  fkind y = KDir MDefine -> directive_flags y (name :: body) nl -> newline nl ->
  fkind name = KIdent -> s_text (fst name) <> EmptyString -> object_body body ->
  at_ (y :: name :: body ++ nl :: rest) d c EmptyString ls s ->
  nexts (at_ rest (add (s_text (fst name)) d) c EmptyString (ls ++ [whole_line (y :: name :: body) nl]))
    (step v fuel s).
Proof.
  intros Ho Hk (Hf1 & Hf2 & Hf3) Hn Hkn He Hb H. eapply at_step; [exact H|]. intros s1 Hl H1. rewrite Ho.
  unfold process_active. cbn [t_sym tok]. unfold fkind in Hk. rewrite Hk. cbn [process_directive].
  unfold process_define.
  pose proof (push_symbol_at (fst y) _ _ _ _ _ _ ltac:(congruence) H1) as H2.
  assert (Hl2 : lex (push_symbol (fst y) s1) = lex s1) by (unfold push_symbol; rewrite Hk; reflexivity).
  rewrite Hl2, Hl, Hf1. cbn [lx_pp lx_rest].
  destruct (define_loop_object name body nl rest d c _ ls _ _ Hkn He Hb Hf2 Hn Hf3 H2) as (d' & s' & E & N & A).
  rewrite E. eexists; split; [reflexivity|].
  destruct A as [A1 A2 A3 A4 A5 A6 A7 A8]. unfold define_finish. rewrite N.
  assert (X : forall mm, at_ rest (add (s_text (fst name)) d) c EmptyString (ls ++ [whole_line (y :: name :: body) nl])
      (set_macros (mset (macros (reset_current_line (push_current_line s'))) (s_text (fst name)) mm)
         (set_idx (idx (reset_current_line (push_current_line s')) + 1) (reset_current_line (push_current_line s'))))).
  { intros mm. constructor; cbn -[mset]; try assumption; try reflexivity.
    - rewrite A6, A5. unfold whole_line. cbn [line_text]. destruct y as [y b]. cbn [fst].
      simpl append. rewrite !sapp_assoc. reflexivity.
    - intros x. unfold add, def_in. rewrite mget_mset_. destruct (String.eqb _ x); [reflexivity|]. apply A8. }
  destruct (d_found d'); apply X.
Qed.

Lemma undef_step v fuel y name rest d c ls s :
  off c = false ->
  fkind y = KDir MUndef -> snd y = true -> fkind name = KIdent ->
  at_ (y :: name :: rest) d c EmptyString ls s ->
  nexts (at_ rest (del (s_text (fst name)) d) c (line_text [y; name]) ls) (step v fuel s).
Proof.
  intros Ho Hk Hf Hkn H. eapply at_step; [exact H|]. intros s1 Hl H1. rewrite Ho.
  unfold process_active. cbn [t_sym tok]. unfold fkind in Hk, Hkn. rewrite Hk. cbn [process_directive].
  unfold process_undef.
  pose proof (push_symbol_at (fst y) _ _ _ _ _ _ ltac:(congruence) H1) as H2.
  assert (Hl2 : lex (push_symbol (fst y) s1) = lex s1) by (unfold push_symbol; rewrite Hk; reflexivity).
  rewrite Hl2, Hl, Hf. cbn [lx_pp lx_rest]. destruct name as [z bz]. cbn [fst] in *. cbn [undef_loop].
  unfold kind_eqb. destruct (kind_eq_dec (s_kind z) KIdent) as [_|N]; [|contradiction].
  eexists; split; [reflexivity|].
  pose proof (set_lex_at (Lex rest bz) _ _ _ _ _ _ H2) as H3.
  pose proof (echo_at z _ _ _ _ _ _ ltac:(congruence) ltac:(congruence) H3) as [A1 A2 A3 A4 A5 A6 A7 A8].
  constructor; cbn -[mdel echo push_symbol line_text]; try assumption.
  - rewrite A5. destruct y as [y b]. cbn [line_text fst]. simpl append. rewrite sapp_nil, !sapp_assoc. reflexivity.
  - intros x. unfold del, def_in. rewrite mget_mdel_. destruct (String.eqb _ x); [reflexivity|]. apply A8.
Qed.

(** * Conditional directives *)

Lemma take_directive_line ys : forall (nl : fsym) rest, Forall (fun z : fsym => snd z = true) ys -> snd nl = false ->
  take_directive (ys ++ nl :: rest) = (map fst ys ++ [fst nl], Lex rest false).
Proof.
  induction ys as [|[y b] ys IH]; intros nl rest Hf Hn.
  - destruct nl as [z bz]. cbn [snd] in Hn. subst bz. reflexivity.
  - inversion Hf; subst. cbn [snd] in *. subst b. cbn [app take_directive]. rewrite (IH nl rest) by assumption.
    reflexivity.
Qed.

Lemma value_ext d d' e : (forall x, d x = d' x) -> value d e = value d' e.
Proof.
  intros H. induction e as [z| | |x|x|e IH|u e IH|b l IHl r IHr]; simpl; try reflexivity;
    try (rewrite H; reflexivity).
  - exact IH.
  - rewrite IH. reflexivity.
  - rewrite IHl, IHr. reflexivity.
Qed.

Lemma process_if_at v fuel y cond nl rest d c ls s b :
  condition d y cond nl b -> (S (List.length cond) < fuel)%nat ->
  lex s = Lex (cond ++ nl :: rest) (snd y) ->
  at_ (cond ++ nl :: rest) d c EmptyString ls s ->
  nexts (at_ rest d (branch_state b :: c) EmptyString (ls ++ [EmptyString])) (process_if v fuel (fst y) s).
Proof.
  intros ((Hf1 & Hf2 & Hf3) & Hn & Hline & e & z & Hsp & Hwf & Hl & Hv & ->) Hfuel Hlex H.
  unfold process_if. rewrite Hlex, Hf1. cbn [directive_symbols lx_pp lx_rest].
  unfold directive_symbols. cbn [lx_pp lx_rest]. rewrite (take_directive_line _ _ _ Hf2 Hf3).
  assert (Hsp' : spells e (map fst cond ++ [fst nl])).
  { apply sp_noise_r; [apply noise_newline; exact Hn|exact Hsp]. }
  pose proof (evaluate_value (v_chk v) (macros s) (disabled s) (pline (rstart (s_range (fst y)))) e _ fuel Hsp' Hwf Hl) as HE.
  rewrite app_length, map_length in HE. cbn [List.length] in HE.
  rewrite <- (value_ext d (def_in (macros s)) e (a_names _ _ _ _ _ _ H)), Hv in HE.
  destruct HE as (offs & HE); [unfold fsym in *; lia|left; discriminate|].
  change (macros (set_lex (Lex rest false) s)) with (macros s).
  change (disabled (set_lex (Lex rest false) s)) with (disabled s).
  rewrite HE, rev_app_distr. cbn [rev app]. rewrite Hline.
  replace (Z.to_nat (_ + 1 - _)) with 1%nat by lia.
  eexists; split; [reflexivity|]. destruct H as [A1 A2 A3 A4 A5 A6 A7 A8].
  destruct (holds z); constructor; simpl; try assumption; try reflexivity;
    rewrite ?A6, ?A7; reflexivity.
Qed.

Lemma if_step v fuel y cond nl rest d c ls s b :
  off c = false -> fkind y = KDir MIf -> condition d y cond nl b -> (S (List.length cond) < fuel)%nat ->
  at_ (y :: cond ++ nl :: rest) d c EmptyString ls s ->
  nexts (at_ rest d (branch_state b :: c) EmptyString (ls ++ [EmptyString])) (step v fuel s).
Proof.
  intros Ho Hk Hc Hfuel H. eapply at_step; [exact H|]. intros s1 Hl H1. rewrite Ho.
  unfold process_active. cbn [t_sym tok]. unfold fkind in Hk. rewrite Hk. cbn [process_directive].
  eapply process_if_at; eassumption.
Qed.
Lemma if_skip_step v fuel y rest d c line ls s :
  off c = true -> fkind y = KDir MIf -> at_ (y :: rest) d c line ls s ->
  nexts (at_ rest d (Activated :: c) line ls) (step v fuel s).
Proof.
  intros Ho Hk H. eapply at_step; [exact H|]. intros s1 Hl H1. rewrite Ho.
  unfold process_negative, fkind in *. rewrite Hk. eexists; split; [reflexivity|].
  destruct H1 as [A1 A2 A3 A4 A5 A6 A7 A8]; constructor; simpl; try assumption. congruence.
Qed.

Lemma endif_step v fuel y rest d t c line ls s :
  fkind y = KDir MEndif -> at_ (y :: rest) d (t :: c) line ls s ->
  nexts (at_ rest d c line ls) (step v fuel s).
Proof.
  intros Hk H. eapply at_step; [exact H|]. intros s1 Hl H1.
  unfold process_negative, process_active, fkind in *. cbn [t_sym tok]. rewrite Hk. cbn [process_directive].
  assert (X : nexts (at_ rest d c line ls) (opt_step s1 (process_endif (fst y) s1))).
  { unfold process_endif. rewrite (a_conds _ _ _ _ _ _ H1).
    destruct H1 as [A1 A2 A3 A4 A5 A6 A7 A8].
    destruct c as [|[| |] c]; (eexists; split; [reflexivity|constructor; simpl; try assumption; reflexivity]). }
  destruct (off (t :: c)); exact X.
Qed.
Lemma else_step v fuel y rest d h earlier b c line ls s :
  fkind y = KDir MElse -> at_ (y :: rest) d (part_state h earlier b :: c) line ls s ->
  nexts (at_ rest d (part_state h (earlier || b) true :: c) line ls) (step v fuel s).
Proof.
  intros Hk H. eapply at_step; [exact H|]. intros s1 Hl H1.
  unfold process_negative, process_active, fkind in *. cbn [t_sym tok]. rewrite Hk. cbn [process_directive].
  assert (X : nexts (at_ rest d (part_state h (earlier || b) true :: c) line ls) (opt_step s1 (process_else (fst y) s1))).
  { unfold process_else. rewrite (a_conds _ _ _ _ _ _ H1).
    destruct H1 as [A1 A2 A3 A4 A5 A6 A7 A8].
    destruct h, earlier, b; (eexists; split; [reflexivity|constructor; simpl; try assumption; reflexivity]). }
  destruct (off (_ :: c)); exact X.
Qed.
Lemma elseif_off_step v fuel y rest d h earlier b c line ls s b' :
  fkind y = KDir MElseif -> h && negb (earlier || b) = false ->
  at_ (y :: rest) d (part_state h earlier b :: c) line ls s ->
  nexts (at_ rest d (part_state h (earlier || b) b' :: c) line ls) (step v fuel s).
Proof.
  intros Hk Hh H. eapply at_step; [exact H|]. intros s1 Hl H1.
  unfold process_negative, process_active, fkind in *. cbn [t_sym tok]. rewrite Hk. cbn [process_directive].
  assert (X : nexts (at_ rest d (part_state h (earlier || b) b' :: c) line ls) (process_elseif v fuel (fst y) s1)).
  { unfold process_elseif. rewrite (a_conds _ _ _ _ _ _ H1).
    destruct H1 as [A1 A2 A3 A4 A5 A6 A7 A8].
    destruct h, earlier, b; try discriminate Hh;
      (eexists; split; [reflexivity|constructor; simpl; try assumption; reflexivity]). }
  destruct (off (_ :: c)); exact X.
Qed.
Lemma elseif_step v fuel y cond nl rest d c ls s b :
  fkind y = KDir MElseif -> condition d y cond nl b -> (S (List.length cond) < fuel)%nat ->
  at_ (y :: cond ++ nl :: rest) d (NotActivated :: c) EmptyString ls s ->
  nexts (at_ rest d (branch_state b :: c) EmptyString (ls ++ [EmptyString])) (step v fuel s).
Proof.
  intros Hk Hc Hfuel H. eapply at_step; [exact H|]. intros s1 Hl H1.
  cbn [off]. unfold process_negative, fkind in *. rewrite Hk.
  unfold process_elseif. rewrite (a_conds _ _ _ _ _ _ H1).
  eapply process_if_at; try eassumption.
  destruct H1 as [A1 A2 A3 A4 A5 A6 A7 A8]; constructor; simpl; try assumption. reflexivity.
Qed.

(** * Files *)

Scheme renders_ind2 := Induction for renders Sort Prop
  with renders_parts_ind2 := Induction for renders_parts Sort Prop.
Combined Scheme renders_both from renders_ind2, renders_parts_ind2.

(** enough fuel for every condition *)
Fixpoint conds_len (f : file) : nat :=
  match f with
  | LEnd => O
  | LLine _ _ rest | LDefine _ _ _ _ rest | LUndef _ _ _ _ rest => conds_len rest
  | LIf _ cond _ p rest => Nat.max (List.length cond) (Nat.max (conds_len_parts p) (conds_len rest))
  end
with conds_len_parts (p : parts) : nat :=
  match p with
  | PEndif part _ _ _ => conds_len part
  | PElse part _ _ _ p => Nat.max (conds_len part) (conds_len_parts p)
  | PElseif part _ cond _ p => Nat.max (List.length cond) (Nat.max (conds_len part) (conds_len_parts p))
  end.

Lemma off_part h earlier b c : off (part_state h earlier b :: c) = negb (h && negb earlier && b).
Proof. destruct h, earlier, b; reflexivity. Qed.

Lemma renders_run v fuel :
  (forall h d f d' ls, renders h d f d' ls -> forall rest c ls0 s,
     (S (conds_len f) < fuel)%nat -> off c = negb h ->
     at_ (symbols f ++ rest) d c EmptyString ls0 s ->
     reaches v fuel (at_ rest d' c EmptyString (ls0 ++ ls)) s) /\
  (forall h earlier b d p d' ls, renders_parts h earlier b d p d' ls -> forall rest c ls0 s,
     (S (conds_len_parts p) < fuel)%nat -> off c = negb h ->
     at_ (symbols_parts p ++ rest) d (part_state h earlier b :: c) EmptyString ls0 s ->
     reaches v fuel (at_ rest d' c EmptyString (ls0 ++ ls)) s).
Proof.
  apply renders_both.
  - intros h d rest c ls0 s _ _ H. rewrite app_nil_r. apply reaches_refl. exact H.
  - intros d d' ys nl fr ls Hp Hn _ IH rest c ls0 s Hfu Ho H. cbn [symbols] in H.
    rewrite <- app_assoc in H. cbn [app] in H.
    eapply reaches_trans; [eapply plain_line; eassumption|]. intros s1 H1. cbn [append] in H1.
    eapply reaches_trans; [eapply IH; [exact Hfu|exact Ho|exact H1]|].
    intros s2 H2. apply reaches_refl. rewrite <- app_assoc in H2. exact H2.
  - intros d d' ys nl fr ls Hp Hn _ IH rest c ls0 s Hfu Ho H. cbn [symbols] in H.
    rewrite <- app_assoc in H. cbn [app] in H.
    eapply reaches_trans; [eapply skip_line; eassumption|]. intros s1 H1.
    eapply reaches_trans; [eapply IH; [exact Hfu|exact Ho|exact H1]|].
    intros s2 H2. apply reaches_refl. rewrite <- app_assoc in H2. exact H2.
  - intros d d' y name body nl fr ls Hk Hf Hn Hkn He Hb _ IH rest c ls0 s Hfu Ho H. cbn [symbols app] in H.
    rewrite <- app_assoc in H. cbn [app] in H.
    eapply reaches_nexts; [exact H|eapply define_step; eassumption|shorter|]. intros s1 H1.
    eapply reaches_trans; [eapply IH; [exact Hfu|exact Ho|exact H1]|].
    intros s2 H2. apply reaches_refl. rewrite <- app_assoc in H2. exact H2.
  - intros d d' y name body nl fr ls Hp Hn _ IH rest c ls0 s Hfu Ho H. cbn [symbols app] in H.
    rewrite <- app_assoc in H. cbn [app] in H.
    eapply reaches_trans; [eapply (skip_line v fuel (y :: name :: body) nl); [exact Ho|exact Hp|exact Hn|exact H]|]. intros s1 H1.
    eapply reaches_trans; [eapply IH; [exact Hfu|exact Ho|exact H1]|].
    intros s2 H2. apply reaches_refl. rewrite <- app_assoc in H2. exact H2.
  - intros d d' y name trail nl fr ls Hk Hf Hkn Hp Hn _ IH rest c ls0 s Hfu Ho H. cbn [symbols app] in H.
    rewrite <- app_assoc in H. cbn [app] in H.
    eapply reaches_nexts; [exact H|eapply undef_step; eassumption|shorter|]. intros s1 H1.
    eapply reaches_trans; [eapply plain_line; eassumption|]. intros s2 H2.
    eapply reaches_trans; [eapply IH; [exact Hfu|exact Ho|exact H2]|].
    intros s3 H3. apply reaches_refl. rewrite <- app_assoc in H3. cbn [app] in H3.
    replace (whole_line (y :: name :: trail) nl) with (line_text [y; name] ++ whole_line trail nl)%string; [exact H3|].
    unfold whole_line. destruct y, name. cbn [line_text fst]. rewrite sapp_nil, !sapp_assoc. reflexivity.
  - intros d d' y name trail nl fr ls Hp Hn _ IH rest c ls0 s Hfu Ho H. cbn [symbols app] in H.
    rewrite <- app_assoc in H. cbn [app] in H.
    eapply reaches_trans; [eapply (skip_line v fuel (y :: name :: trail) nl); [exact Ho|exact Hp|exact Hn|exact H]|]. intros s1 H1.
    eapply reaches_trans; [eapply IH; [exact Hfu|exact Ho|exact H1]|].
    intros s2 H2. apply reaches_refl. rewrite <- app_assoc in H2. exact H2.
  - intros d d1 d2 y cond nl p fr b ls1 ls2 Hk Hc _ IHp _ IHr rest c ls0 s Hfu Ho H.
    cbn [symbols app conds_len] in H, Hfu. rewrite <- app_assoc in H. cbn [app] in H. rewrite <- app_assoc in H.
    eapply reaches_nexts; [exact H|eapply if_step; try eassumption; lia|shorter|]. intros s1 H1.
    eapply reaches_trans; [eapply (IHp (symbols fr ++ rest) c); [lia|exact Ho|exact H1]|]. intros s2 H2.
    eapply reaches_trans; [eapply IHr; [lia|exact Ho|exact H2]|].
    intros s3 H3. apply reaches_refl. rewrite <- !app_assoc in H3. exact H3.
  - intros d d1 d2 y cond nl p fr ls1 ls2 Hk Hc Hn _ IHp _ IHr rest c ls0 s Hfu Ho H.
    cbn [symbols app conds_len] in H, Hfu. rewrite <- app_assoc in H. cbn [app] in H. rewrite <- app_assoc in H.
    eapply reaches_nexts; [exact H|eapply if_skip_step; eassumption|shorter|]. intros s1 H1.
    eapply reaches_trans; [eapply (fun A => skip_line v fuel _ _ _ _ _ _ _ _ A Hc Hn H1); reflexivity|]. intros s2 H2.
    eapply reaches_trans; [eapply (IHp (symbols fr ++ rest) c); [lia|exact Ho|exact H2]|]. intros s3 H3.
    eapply reaches_trans; [eapply IHr; [lia|exact Ho|exact H3]|].
    intros s4 H4. apply reaches_refl. rewrite <- !app_assoc in H4. exact H4.
  - intros h earlier b d d' part y trail nl ls _ IH Hk Hn Ht rest c ls0 s Hfu Ho H.
    cbn [symbols_parts conds_len_parts] in H, Hfu. rewrite <- app_assoc in H. cbn [app] in H.
    rewrite <- app_assoc in H.
    eapply reaches_trans; [eapply IH; [exact Hfu|apply off_part|exact H]|]. intros s1 H1.
    eapply reaches_nexts; [exact H1|eapply endif_step; eassumption|shorter|]. intros s2 H2. cbn [app] in H2.
    rewrite app_assoc. destruct h; cbn [negb] in Ho.
    + exact (plain_line v fuel _ _ _ _ _ _ _ _ Ho Ht Hn H2).
    + exact (skip_line v fuel _ _ _ _ _ _ _ _ Ho Ht Hn H2).
  - intros h earlier b d d1 d2 part y trail nl p ls1 ls2 _ IH Hk Hn Ht _ IHp rest c ls0 s Hfu Ho H.
    cbn [symbols_parts conds_len_parts] in H, Hfu. rewrite <- app_assoc in H. cbn [app] in H.
    rewrite <- app_assoc in H. cbn [app] in H.
    eapply reaches_trans; [eapply IH; [lia|apply off_part|exact H]|]. intros s1 H1.
    eapply reaches_nexts; [exact H1|eapply else_step; eassumption|shorter|]. intros s2 H2.
    pose proof (off_part h (earlier || b) true c) as Ho2. rewrite andb_true_r in Ho2.
    rewrite (app_assoc ls0 ls1). 
    assert (H3 : reaches v fuel (at_ (symbols_parts p ++ rest) d1 (part_state h (earlier || b) true :: c) EmptyString
                   ((ls0 ++ ls1) ++ [if h && negb (earlier || b) then whole_line trail nl else EmptyString])) s2).
    { destruct (h && negb (earlier || b)); cbn [negb] in Ho2.
      - exact (plain_line v fuel _ _ _ _ _ _ _ _ Ho2 Ht Hn H2).
      - exact (skip_line v fuel _ _ _ _ _ _ _ _ Ho2 Ht Hn H2). }
    eapply reaches_trans; [exact H3|]. intros s3 H4.
    eapply reaches_trans; [eapply IHp; [lia|exact Ho|exact H4]|].
    intros s4 H5. apply reaches_refl. rewrite <- (app_assoc (ls0 ++ ls1)) in H5. exact H5.
  - intros h earlier b b' d d1 d2 part y cond nl p ls1 ls2 _ IH Hk Hn Ht _ IHp rest c ls0 s Hfu Ho H.
    cbn [symbols_parts conds_len_parts] in H, Hfu. rewrite <- app_assoc in H. cbn [app] in H.
    rewrite <- app_assoc in H. cbn [app] in H.
    eapply reaches_trans; [eapply IH; [lia|apply off_part|exact H]|]. intros s1 H1.
    rewrite (app_assoc ls0 ls1).
    assert (H3 : reaches v fuel (at_ (symbols_parts p ++ rest) d1 (part_state h (earlier || b) b' :: c) EmptyString
                   ((ls0 ++ ls1) ++ [EmptyString])) s1).
    { destruct (h && negb (earlier || b)) eqn:Eh.
      - destruct h, earlier, b; try discriminate Eh. simpl part_state in *.
        eapply reaches_nexts; [exact H1|eapply elseif_step; try eassumption; lia|shorter|]. intros s2 H2.
        apply reaches_refl. exact H2.
      - eapply reaches_nexts; [exact H1|eapply elseif_off_step; eassumption|shorter|]. intros s2 H2.
        eapply skip_line; [|exact Ht|exact Hn|exact H2].
        rewrite off_part, Eh. reflexivity. }
    eapply reaches_trans; [exact H3|]. intros s3 H4.
    eapply reaches_trans; [eapply IHp; [lia|exact Ho|exact H4]|].
    intros s4 H5. apply reaches_refl. rewrite <- (app_assoc (ls0 ++ ls1)) in H5. exact H5.
Qed.

(** a file followed by an unfinished line and the end of the file *)
Lemma renders_final v d f d' ls ys eof i m :
  renders true d f d' ls -> Forall (plain d') ys -> fkind eof = KEof ->
  (forall x, d x = match mget m x with Some _ => true | None => false end) ->
  exists n, forall fuel, (n <= fuel)%nat -> exists s,
    run fuel v fuel (init_st i m (symbols f ++ ys ++ [eof])) = FResult s /\
    out s = ls ++ [whole_line ys eof] /\
    forall x, d' x = match mget (macros s) x with Some _ => true | None => false end.
Proof.
  intros Hr Hp He Hd. set (s0 := init_st i m _).
  assert (H0 : at_ (symbols f ++ ys ++ [eof]) d [] EmptyString [] s0) by (constructor; try reflexivity; exact Hd).
  exists (S (S (conds_len f) + List.length (symbols f ++ ys ++ [eof])))%nat. intros fuel Hf.
  destruct (renders_run v fuel) as [T _].
  assert (HR : reaches v fuel (at_ [eof] d' [] (line_text ys) ls) s0).
  { eapply reaches_trans; [eapply (T _ _ _ _ _ Hr (ys ++ [eof]) [] [] s0); [lia|reflexivity|exact H0]|].
    intros s1 H1. exact (plain_goes v fuel ys [eof] d' [] EmptyString ([] ++ ls) s1 eq_refl Hp H1). }
  destruct HR as (k & s1 & G & A & Hk).
  assert (Hle : (k < fuel)%nat).
  { unfold left_ in Hk at 2. rewrite (a_rest _ _ _ _ _ _ H0) in Hk. unfold fsym in *; lia. }
  assert (ER : run fuel v fuel s0 = run (S (fuel - k - 1)) v fuel s1).
  { rewrite <- (goes_run _ _ _ _ _ _ G). f_equal. lia. }
  rewrite ER. cbn [run].
  destruct (at_fetch _ _ _ _ _ _ _ A) as (s2 & Hfe & _ & A2).
  rewrite (step_fetched _ _ _ _ _ Hfe). unfold skipping. rewrite (a_conds _ _ _ _ _ _ A2).
  unfold record_arg. cbn [t_orig tok]. unfold process_active. cbn [t_sym tok].
  unfold fkind in He. rewrite He. eexists. split; [reflexivity|].
  destruct A2 as [A1 A3 A4 A5 A6 A7 A8 A9]. split; [|exact A9].
  simpl. rewrite A7, A6. reflexivity.
Qed.
