(** A file on which the preprocessor does not end (C21): a function-like macro named without
    arguments in the body of an object-like one. *)
From Coq Require Import List ZArith Bool String Ascii Lia.
From Verif Require Import PreTypes MacroModel EvalModel PreModel PreLex PreSnapshots.
Import ListNotations.
Local Open Scope Z_scope.

Definition hang_text : string :=
  "#define F(%1) %1
#define G F G
G
"%string.

Definition hang_macros : macros_map := Eval vm_compute in
  match run 2 snap_env 0 (init_st no_incs [] (lex_source hang_text)) with
  | FFuel =>
      match step snap_env 0 (init_st no_incs [] (lex_source hang_text)) with
      | Next s => match step snap_env 0 s with Next s => macros s | _ => [] end
      | _ => []
      end
  | _ => []
  end.
Definition hang_F : macro := Eval vm_compute in match mget hang_macros "F" with Some m => m | None => Macro 0 0 None 0 [] end.

(** the token [G] *)
Definition is_G (t : token) : Prop := t_kind t = KIdent /\ t_text t = "G"%string.
Definition is_F (t : token) : Prop := t_kind t = KIdent /\ t_text t = "F"%string.

Lemma hang_expand t l : is_G t -> exists f g,
  is_F f /\ is_G g /\
  forall n, expand_identifier (S (S (S (S (S (S n)))))) l hang_macros t true [] = XOk 0 [f; g] l [hang_F].
Proof.
  destruct t as [[k tx inl i r d] o]. intros (Hk & Ht). cbv in Hk, Ht. subst k tx.
  eexists _, _. split; [|split].
  3:{ intros n. cbv -[Z.add Z.max sat lx_rest lx_pp]. reflexivity. }
  all: split; reflexivity.
Qed.
Lemma hang_expand_short t l : is_G t -> forall n, (n < 6)%nat ->
  expand_identifier n l hang_macros t true [] = XFuel \/
  exists f g, is_F f /\ is_G g /\ expand_identifier n l hang_macros t true [] = XOk 0 [f; g] l [hang_F].
Proof.
  destruct t as [[k tx inl i r d] o]. intros (Hk & Ht) n Hn. cbv in Hk, Ht. subst k tx.
  destruct n as [|[|[|[|[|[|n]]]]]]; [| | | | | |lia];
    first [left; cbv -[Z.add Z.max sat]; reflexivity
          |right; eexists _, _; split; [|split]; [| |cbv -[Z.add Z.max sat lx_rest lx_pp]; reflexivity]; split; reflexivity].
Qed.

Record around (s : st) : Prop := {
  a_macros : macros s = hang_macros;
  a_conds : conds s = [];
  a_intr : intr s = None
}.

Lemma around_record t s : around s -> around (record_arg t s).
Proof. intros [A B C]. unfold record_arg. destruct (t_orig t); constructor; assumption. Qed.

(** [s] is about to read G *)
Definition at_G (s : st) : Prop :=
  around s /\ disabled s = [] /\ exists t s', fetch s = Some (t, s') /\ is_G t /\
    around s' /\ disabled s' = [] /\ estack s' = [].

Lemma hang v : forall n xf s, at_G s -> run n v xf s = FFuel.
Proof.
  induction n as [n IH] using (well_founded_induction Wf_nat.lt_wf). intros xf s (Ha & Hd & t & s' & Hf & HG & Ha' & Hd' & He').
  destruct n as [|n]; [reflexivity|].
  simpl run. unfold step. rewrite Hf.
  pose proof (around_record t s' Ha') as [Am Ac Ai].
  assert (Hd2 : disabled (record_arg t s') = []) by (unfold record_arg; destruct (t_orig t); exact Hd').
  assert (He2 : estack (record_arg t s') = []) by (unfold record_arg; destruct (t_orig t); exact He').
  set (s2 := record_arg t s') in *. unfold skipping. rewrite Ac.
  unfold process_active. destruct HG as (HGk & HGt). unfold t_kind in HGk. unfold t_text in HGt.
  rewrite HGk, Ai, HGt, Am, Hd2. change (mget hang_macros "G") with (Some (nth 0 (map snd hang_macros) hang_F)).
  cbv beta iota. simpl dmem. cbv iota.
  assert (Hx : expand_identifier xf (lex s2) hang_macros t true [] = XFuel \/
    exists f g, is_F f /\ is_G g /\ expand_identifier xf (lex s2) hang_macros t true [] = XOk 0 [f; g] (lex s2) [hang_F]).
  { destruct (le_lt_dec 6 xf) as [H|H].
    - destruct (hang_expand t (lex s2) (conj HGk HGt)) as (f & g & Hff & Hg & E). right. exists f, g.
      repeat split; try apply Hff; try apply Hg. do 6 (destruct xf; [lia|]). apply E.
    - apply hang_expand_short; [split; assumption|exact H]. }
  destruct Hx as [-> | (f & g & (HFk & HFt) & HG2 & ->)]; [reflexivity|].
  rewrite He2. simpl app.
  (* F, disabled, is written *)
  destruct n as [|n]; [reflexivity|].
  simpl run. unfold step, fetch. simpl estack. cbv iota beta.
  match goal with |- context [record_arg f ?x] => set (s3 := x) end.
  assert (Ha3 : around s3) by (constructor; assumption).
  pose proof (around_record f s3 Ha3) as [Bm Bc Bi].
  assert (Hd3 : disabled (record_arg f s3) = [hang_F]) by (unfold record_arg; destruct (t_orig f); reflexivity).
  assert (He3 : estack (record_arg f s3) = [g]) by (unfold record_arg; destruct (t_orig f); reflexivity).
  set (s4 := record_arg f s3) in *. unfold skipping. rewrite Bc. unfold process_active.
  unfold t_kind in HFk. unfold t_text in HFt.
  rewrite HFk, Bi, HFt, Bm, Hd3. change (mget hang_macros "F") with (Some hang_F). cbv beta iota.
  replace (dmem hang_F [hang_F]) with true by (vm_compute; reflexivity).
  replace (drem hang_F [hang_F]) with (@nil macro) by (vm_compute; reflexivity).
  apply IH; [lia|].
  assert (Hpush : forall y s, s_kind y = KIdent ->
     macros (push_symbol y s) = macros s /\ conds (push_symbol y s) = conds s /\
     intr (push_symbol y s) = intr s /\ disabled (push_symbol y s) = disabled s /\
     estack (push_symbol y s) = estack s).
  { intros y s0 Hy. unfold push_symbol. rewrite Hy. repeat split. }
  destruct (Hpush (t_sym f) (set_disabled [] s4) HFk) as (P1 & P2 & P3 & P4 & P5).
  set (s5 := push_symbol (t_sym f) (set_disabled [] s4)) in *. simpl in P1, P2, P3, P4, P5.
  assert (Ha5 : around s5) by (constructor; congruence).
  split; [exact Ha5|]. split; [exact P4|].
  exists g. eexists. split; [unfold fetch; rewrite P5, He3; reflexivity|].
  split; [exact HG2|]. destruct Ha5. split; [constructor; assumption|]. split; [exact P4|reflexivity].
Qed.

Lemma run_next n v xf s s' : step v xf s = Next s' -> run (S n) v xf s = run n v xf s'.
Proof. intros H. simpl. rewrite H. reflexivity. Qed.

Lemma hangs : forall fuel, preprocess snap_env fuel no_incs [] (lex_source hang_text) = FFuel.
Proof.
  intros fuel. unfold preprocess.
  assert (H : forall n xf, run n snap_env xf (init_st no_incs [] (lex_source hang_text)) = FFuel).
  { intros n xf. destruct n as [|[|n]]; [reflexivity|vm_compute; reflexivity|].
    assert (E1 : exists s1, step snap_env xf (init_st no_incs [] (lex_source hang_text)) = Next s1 /\
                 exists s2, step snap_env xf s1 = Next s2 /\ at_G s2).
    { eexists. split; [vm_compute; reflexivity|]. eexists. split; [vm_compute; reflexivity|].
      split; [constructor; vm_compute; reflexivity|]. split; [reflexivity|].
      eexists _, _. split; [vm_compute; reflexivity|].
      split; [split; reflexivity|]. split; [constructor; vm_compute; reflexivity|]. split; reflexivity. }
    destruct E1 as (s1 & E1 & s2 & E2 & H2).
    rewrite (run_next _ _ _ _ _ E1), (run_next _ _ _ _ _ E2). apply hang. exact H2. }
  apply H.
Qed.
