From Coq Require Import List Bool Arith.
From Verif Require Import FlycheckModel FlycheckSpec.
Import ListNotations.

Section Proofs.
Variable diagnostic : Type.
Notation state := (state diagnostic).
Notation step := (step diagnostic).
Notation run := (run diagnostic).
Notation checks := (checks diagnostic).
Notation faithful := (faithful diagnostic).

(** not dead: the messages, the process and the outputs fit *)
Definition live (s : state) : Prop :=
  exists d op, checks (sent _ s) d op /\
    match proc _ s with
    | None => op = None /\ Forall2 faithful d (rev (outputs _ s))
    | Some p => exists ds o os, op = Some ds /\ outputs _ s = o :: os /\ o = ds ++ buffer _ p /\ Forall2 faithful d (rev os)
    end.

Definition inv (s : state) : Prop :=
  match control_ _ s with
  | Waiting => live s
  | Collecting => live s /\ proc _ s = None
  | Exited => live s /\ proc _ s = None /\ dropped _ s = true /\ inbox _ s = []
  | Dead => exists d ds, checks (sent _ s) d (Some ds)
  end.

Lemma live_ext : forall s s' : state, sent _ s' = sent _ s -> proc _ s' = proc _ s -> outputs _ s' = outputs _ s -> live s -> live s'.
Proof. unfold live. intros s s' -> -> ->. auto. Qed.

Lemma live_cancel : forall s, live s -> live (cancel_check_process _ s) /\ proc _ (cancel_check_process _ s) = None /\
  control_ _ (cancel_check_process _ s) = control_ _ s /\ inbox _ (cancel_check_process _ s) = inbox _ s /\
  dropped _ (cancel_check_process _ s) = dropped _ s.
Proof.
  intros s (d & op & C & P). unfold cancel_check_process. destruct (proc _ s) as [p|] eqn:E.
  - destruct P as (ds & o & os & -> & O & Eo & F). repeat split.
    exists (d ++ [(ds, Cancelled)]), None. cbn [sent proc outputs]. split; [apply ch_cancel; exact C|]. split; [reflexivity|].
    rewrite O. cbn [rev]. apply Forall2_app; [exact F|]. constructor; [|constructor]. exists (buffer _ p). exact Eo.
  - split; [|repeat split; exact E]. exists d, op. rewrite E. split; assumption.
Qed.

Lemma step_inv : forall s e, inv s -> inv (step s e).
Proof.
  intros s e I. destruct e as [c| |x|e| | |sp]; cbn [FlycheckModel.step].
  - destruct (dropped _ s) eqn:D; [exact I|]. unfold inv in *. cbn [control_ proc dropped inbox sent]. destruct (control_ _ s) eqn:Q.
    + eapply live_ext; [..|exact I]; reflexivity.
    + split; [|apply I]. eapply live_ext; [..|apply I]; reflexivity.
    + destruct I as (_ & _ & K & _). congruence.
    + exact I.
  - unfold inv in *. cbn [control_ proc dropped inbox sent]. destruct (control_ _ s).
    + eapply live_ext; [..|exact I]; reflexivity.
    + split; [|apply I]. eapply live_ext; [..|apply I]; reflexivity.
    + destruct I as (K & L & _ & M). repeat split; try assumption.
    + exact I.
  - destruct (proc _ s) as [[b [c|]]|] eqn:P; try exact I. destruct (outputs _ s) as [|o os] eqn:O; [exact I|].
    unfold inv in *. cbn [control_ proc dropped inbox sent]. destruct (control_ _ s).
    + destruct I as (d & op & C & Pp). rewrite P in Pp. destruct Pp as (ds & o' & os' & -> & O' & Eo & F).
      exists d, (Some ds). cbn [sent proc outputs]. split; [exact C|]. rewrite O in O'. injection O' as -> ->.
      exists ds, (o' ++ [x]), os'. repeat split; try assumption. rewrite Eo. cbn [buffer]. rewrite app_assoc. reflexivity.
    + destruct I. congruence.
    + destruct I as (_ & K & _). congruence.
    + exact I.
  - destruct (proc _ s) as [[b [c|]]|] eqn:P; try exact I. unfold inv in *. cbn [control_ proc dropped inbox sent].
    destruct (control_ _ s).
    + destruct I as (d & op & C & Pp). rewrite P in Pp. exists d, op. cbn [sent proc outputs]. split; [exact C|exact Pp].
    + destruct I. congruence.
    + destruct I as (_ & K & _). congruence.
    + exact I.
  - unfold inv in I. destruct (control_ _ s) eqn:Q.
    + destruct (inbox _ s) as [|[] tl] eqn:B.
      * destruct (dropped _ s) eqn:D; [|unfold inv; rewrite Q; exact I].
        destruct (live_cancel s I) as (L & P & C & Bx & Dr). unfold inv, goto. cbn [control_ proc dropped inbox].
        split; [eapply live_ext; [..|exact L]; reflexivity|]. rewrite P, Dr, Bx. auto.
      * destruct (live_cancel (State _ tl (dropped _ s) (proc _ s) Waiting (sent _ s) (outputs _ s))) as (L & P & C & _).
        { eapply live_ext; [..|exact I]; reflexivity. }
        unfold inv, goto. cbn [control_ proc]. split; [eapply live_ext; [..|exact L]; reflexivity|exact P].
      * destruct (live_cancel (State _ tl (dropped _ s) (proc _ s) Waiting (sent _ s) (outputs _ s))) as (L & P & C & _).
        { eapply live_ext; [..|exact I]; reflexivity. }
        unfold inv. rewrite C. exact L.
    + destruct (inbox _ s) as [|[] tl] eqn:B.
      * unfold inv. rewrite Q. exact I.
      * unfold inv. cbn [control_ proc]. split; [|apply I]. eapply live_ext; [..|apply I]; reflexivity.
      * unfold inv. cbn [control_ proc]. eapply live_ext; [..|apply I]; reflexivity.
    + unfold inv. rewrite Q. exact I.
    + unfold inv. rewrite Q. exact I.
  - unfold inv in I. destruct (control_ _ s) eqn:Q; try (unfold inv; rewrite Q; exact I).
    destruct (proc _ s) as [[[|x b] c]|] eqn:P; try (unfold inv; rewrite Q; exact I).
    + destruct c as [[ok|]|]; [| |unfold inv; rewrite Q; exact I].
      * destruct I as (d & op & C & Pp). rewrite P in Pp. destruct Pp as (ds & o & os & -> & O & Eo & F).
        unfold inv. cbn [control_]. exists (d ++ [(ds, Finished)]), None. cbn [sent proc outputs].
        split; [apply ch_finish; exact C|]. split; [reflexivity|]. rewrite O. cbn [rev]. apply Forall2_app; [exact F|].
        constructor; [|constructor]. cbn [buffer] in Eo. rewrite app_nil_r in Eo. symmetry. exact Eo.
      * destruct I as (d & op & C & Pp). rewrite P in Pp. destruct Pp as (ds & o & os & -> & O & Eo & F).
        unfold inv. cbn [control_ sent]. eauto.
    + destruct I as (d & op & C & Pp). rewrite P in Pp. destruct Pp as (ds & o & os & -> & O & Eo & F).
      unfold inv. cbn [control_]. exists d, (Some (ds ++ [x])). cbn [sent proc outputs]. split; [apply ch_diag; exact C|].
      exists (ds ++ [x]), o, os. repeat split; try assumption. rewrite Eo, <- app_assoc. reflexivity.
  - unfold inv in I. destruct (control_ _ s) eqn:Q; try (unfold inv; rewrite Q; exact I).
    destruct (inbox _ s) eqn:B; [|unfold inv; rewrite Q; exact I].
    destruct I as [(d & op & C & Pp) P]. rewrite P in Pp. destruct Pp as [-> F]. destruct sp.
    + unfold inv. cbn [control_]. exists d, (Some []). cbn [sent proc outputs]. split; [apply ch_start; exact C|].
      exists [], [], (outputs _ s). repeat split; assumption || reflexivity.
    + unfold inv. cbn [control_]. exists d, None. cbn [sent proc outputs]. split; [apply ch_fail; exact C|]. rewrite P. auto.
Qed.

Lemma run_inv : forall h, inv (run h).
Proof.
  intros h. unfold run. assert (inv (start diagnostic)) as I.
  { exists [], None. cbn. repeat split; constructor. }
  revert I. generalize (start diagnostic). induction h as [|e h IH]; intros s I; [exact I|].
  cbn [fold_left]. apply IH. apply step_inv. exact I.
Qed.
End Proofs.
