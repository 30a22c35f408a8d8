(** C79: a panic is reported with exactly the contexts that are open around it on its thread. *)

From Coq Require Import List Arith Bool String.
From Verif Require Import PanicContextModel.
Import ListNotations.
Open Scope string_scope.

(** ** Specification: panics by the blocks written around them *)

(** [panics c ctx l out]: the panics of [c] inside the contexts [ctx], in order, each with the contexts around it, and whether it gets out. *)
Inductive panics : code -> list string -> list (list string) -> bool -> Prop :=
| p_done ctx : panics Done ctx [] false
| p_boom ctx : panics Boom ctx [ctx] true
| p_out a b ctx l : panics a ctx l true -> panics (Seq a b) ctx l true
| p_seq a b ctx l l' x : panics a ctx l false -> panics b ctx l' x -> panics (Seq a b) ctx (l ++ l')%list x
| p_scope s b ctx l x : panics b (ctx ++ [s])%list l x -> panics (Scope s b) ctx l x
| p_catch b ctx l x : panics b ctx l x -> panics (Catch b) ctx l false.

(** The report of a panic. *)
Definition report (ctx : list string) : string :=
  if Nat.eqb (List.length ctx) 0 then ""
  else String.concat "" ("Panic context:" :: newline :: flat_map (fun f => ["> "; f; newline; newline]) ctx).

(** What thread [t] has in a list. *)
Definition of_thread {A} (t : nat) (l : list (nat * A)) : list A := map snd (filter (fun x => Nat.eqb (fst x) t) l).

(** ** Proofs *)
Lemma concat_cons (x : string) l : String.concat "" (x :: l) = x ++ String.concat "" l.
Proof. destruct l; cbn; [| reflexivity]. induction x; cbn; congruence. Qed.

Lemma frames_concat ctx : frames_text ctx = String.concat "" (flat_map (fun f => ["> "; f; newline; newline]) ctx).
Proof.
  induction ctx as [| f r IH]; [reflexivity |]. cbn [flat_map app frames_text]. rewrite !concat_cons, IH. reflexivity.
Qed.

Lemma hook_report ctx : hook ctx = report ctx.
Proof.
  destruct ctx as [| f r]; [reflexivity |]. unfold hook, report. cbn [List.length Nat.eqb]. rewrite frames_concat, !concat_cons. reflexivity.
Qed.

(** One thread alone. *)
Fixpoint run1 (l : list event) (ctx : list string) : option (list string * list string) :=
  match l with
  | [] => Some (ctx, [])
  | Enter s :: r => run1 r (ctx ++ [s])%list
  | Leave :: r => match pop ctx with Some c => run1 r c | None => None end
  | Panic :: r => match run1 r ctx with Some (c, o) => Some (c, hook ctx :: o) | None => None end
  end.

Lemma run1_app a b ctx c o : run1 a ctx = Some (c, o) ->
  run1 (a ++ b) ctx = match run1 b c with Some (c', o') => Some (c', o ++ o')%list | None => None end.
Proof.
  revert ctx c o. induction a as [| [s | |] a IH]; intros ctx c o H; cbn in *.
  - injection H as <- <-. destruct (run1 b ctx) as [[? ?] |]; reflexivity.
  - exact (IH _ _ _ H).
  - destruct (pop ctx); [exact (IH _ _ _ H) | discriminate].
  - destruct (run1 a ctx) as [[c1 o1] |] eqn:R; [| discriminate]. injection H as <- <-. rewrite (IH _ _ _ R).
    destruct (run1 b c1) as [[? ?] |]; reflexivity.
Qed.

Lemma run1_prefix a b ctx r : run1 (a ++ b) ctx = Some r -> exists r', run1 a ctx = Some r'.
Proof.
  revert ctx r. induction a as [| [s | |] a IH]; intros ctx r H; cbn in *; eauto.
  - destruct (pop ctx); [eauto | discriminate].
  - destruct (run1 (a ++ b) ctx) as [[c o] |] eqn:R; [| discriminate]. destruct (IH _ _ R) as [[? ?] ->]. eauto.
Qed.

Lemma pop_last ctx s : pop (ctx ++ [s]) = Some ctx.
Proof. unfold pop. rewrite removelast_last. destruct ctx; reflexivity. Qed.

Lemma events_run1 c : forall ctx l x, panics c ctx l x -> snd (events c) = x /\ run1 (fst (events c)) ctx = Some (ctx, map report l).
Proof.
  intros ctx l x P. induction P; cbn [events].
  - split; reflexivity.
  - cbn. rewrite hook_report. split; reflexivity.
  - destruct (events a) as [ea pa]. cbn in IHP. destruct IHP as [-> R]. split; [reflexivity | exact R].
  - destruct (events a) as [ea pa], (events b) as [eb pb]. cbn in IHP1, IHP2. destruct IHP1 as [-> R1], IHP2 as [-> R2].
    cbn. split; [reflexivity |]. rewrite (run1_app _ _ _ _ _ R1), R2, map_app. reflexivity.
  - destruct (events b) as [e p]. cbn in IHP. destruct IHP as [-> R]. cbn. split; [reflexivity |].
    rewrite (run1_app _ _ _ _ _ R). cbn [run1]. rewrite pop_last. now rewrite app_nil_r.
  - destruct (events b) as [e p]. cbn in *. destruct IHP as [_ R]. split; [reflexivity | exact R].
Qed.

Lemma panics_total c : forall ctx, exists l x, panics c ctx l x.
Proof.
  induction c as [| a IHa b IHb | s b IH | b IH |]; intro ctx.
  - eauto using panics.
  - destruct (IHa ctx) as (l & [|] & P); [eauto using panics |]. destruct (IHb ctx) as (l' & x & Q). eauto using panics.
  - destruct (IH (ctx ++ [s])%list) as (l & x & P). eauto using panics.
  - destruct (IH ctx) as (l & x & P). eauto using panics.
  - eauto using panics.
Qed.

Lemma of_thread_cons {A} t u (e : A) r : of_thread t ((u, e) :: r) = if Nat.eqb u t then e :: of_thread t r else of_thread t r.
Proof. unfold of_thread. cbn. destruct (Nat.eqb u t); reflexivity. Qed.
Lemma of_thread_app {A} t (a b : list (nat * A)) : of_thread t (a ++ b) = (of_thread t a ++ of_thread t b)%list.
Proof. unfold of_thread. now rewrite filter_app, map_app. Qed.

(** Threads do not disturb one another. *)
Lemma run_threads l : forall st, (forall t, exists r, run1 (of_thread t l) (st t) = Some r) ->
  exists st' out, run l st = Some (st', out) /\ forall t, run1 (of_thread t l) (st t) = Some (st' t, of_thread t out).
Proof.
  induction l as [| [u e] l IH]; intros st H.
  - exists st, []. split; reflexivity.
  - assert (S1 : exists st1 o, step st u e = Some (st1, o) /\ (forall t, t <> u -> st1 t = st t) /\
      (forall r, run1 (e :: r) (st u) = match run1 r (st1 u) with Some (c, o') => Some (c, o ++ o')%list | None => None end)).
    { destruct (H u) as [r Hr]. rewrite of_thread_cons, Nat.eqb_refl in Hr.
      assert (W : forall ctx t, t <> u -> with_ctx st u ctx t = st t).
      { intros ctx t N. unfold with_ctx. apply Nat.eqb_neq in N. now rewrite N. }
      assert (V : forall ctx, with_ctx st u ctx u = ctx) by (intro; unfold with_ctx; now rewrite Nat.eqb_refl).
      destruct e as [s | |]; cbn [step].
      - eexists _, _. split; [reflexivity |]. split; [apply W |]. intro q. cbn [run1]. rewrite V. destruct (run1 q _) as [[? ?] |]; reflexivity.
      - cbn [run1] in Hr. destruct (pop (st u)) as [ctx |] eqn:P; [| discriminate]. eexists _, _. split; [reflexivity |].
        split; [apply W |]. intro q. cbn [run1]. rewrite P, V. destruct (run1 q _) as [[? ?] |]; reflexivity.
      - eexists _, _. split; [reflexivity |]. split; [reflexivity |]. intro q. reflexivity. }
    destruct S1 as (st1 & o & E & O & R). destruct (IH st1) as (st2 & out & Q & T).
    { intro t. destruct (H t) as [r Hr]. rewrite of_thread_cons in Hr. destruct (Nat.eqb u t) eqn:X.
      - apply Nat.eqb_eq in X. subst t. rewrite R in Hr. destruct (run1 _ (st1 u)) as [x |]; [eauto | discriminate].
      - apply Nat.eqb_neq in X. rewrite O by congruence. eauto. }
    exists st2, (map (pair u) o ++ out)%list. cbn [run]. rewrite E, Q. split; [reflexivity |]. intro t.
    rewrite of_thread_cons, of_thread_app. specialize (T t). destruct (Nat.eqb u t) eqn:X.
    + apply Nat.eqb_eq in X. subst t. rewrite R, T. do 2 f_equal. f_equal. clear.
      induction o as [| a o IH]; [reflexivity |]. cbn [map]. rewrite of_thread_cons, Nat.eqb_refl. now f_equal.
    + assert (Z : of_thread t (map (pair u) o) = []).
      { clear - X. induction o as [| a o IH]; [reflexivity |]. cbn [map]. now rewrite of_thread_cons, X. }
      rewrite Z. apply Nat.eqb_neq in X. rewrite <- (O t) by congruence. exact T.
Qed.

(** However the calls of the threads are mixed, no assertion fails, every thread ends with no context left over, and
    it prints for each of its panics, in order, the contexts written around that panic. *)
Theorem C79_report : forall prog l, (forall t, of_thread t l = fst (events (prog t))) ->
  exists st out, run l start = Some (st, out) /\
    forall t, st t = [] /\ exists ps x, panics (prog t) [] ps x /\ of_thread t out = map report ps.
Proof.
  intros prog l H. destruct (run_threads l start) as (st & out & R & T).
  { intro t. rewrite H. destruct (panics_total (prog t) []) as (ps & x & P). destruct (events_run1 _ _ _ _ P) as [_ E]. unfold start. eauto. }
  exists st, out. split; [exact R |]. intro t. specialize (T t). rewrite H in T.
  destruct (panics_total (prog t) []) as (ps & x & P). destruct (events_run1 _ _ _ _ P) as [_ E]. unfold start in T. rewrite E in T.
  injection T as T1 T2. split; [now symmetry |]. exists ps, x. split; [exact P | now symmetry].
Qed.
Print Assumptions C79_report.

(** Nor does an assertion fail at any moment before the threads have ended. *)
Theorem C79_always : forall prog l, (forall t, exists rest, (of_thread t l ++ rest)%list = fst (events (prog t))) ->
  exists r, run l start = Some r.
Proof.
  intros prog l H. destruct (run_threads l start) as (st & out & R & _); [| eauto].
  intro t. destruct (H t) as [rest E]. destruct (panics_total (prog t) []) as (ps & x & P).
  destruct (events_run1 _ _ _ _ P) as [_ Q]. rewrite <- E in Q. exact (run1_prefix _ _ _ _ Q).
Qed.
Print Assumptions C79_always.

(** The panics of a program are determined by it. *)
Theorem C79_unique : forall c ctx l x l' x', panics c ctx l x -> panics c ctx l' x' -> l = l' /\ x = x'.
Proof.
  intros c ctx l x l' x' P. revert l' x'. induction P; intros m y Q; inversion Q; subst; auto;
    repeat match goal with
    | IH : (forall l' x', panics ?a ?ctx l' x' -> _), B : panics ?a ?ctx _ _ |- _ =>
        let F := fresh in pose proof (IH _ _ B) as F; clear B; destruct F as [? ?]
    end; subst; try discriminate; auto.
Qed.
Print Assumptions C79_unique.

(** A request that panics does not get out of its worker, and is named in the report. *)
Theorem C79_request : forall context body ctx l x, panics (request context body) ctx l x ->
  x = false /\ forall p, In p l -> exists inner, p = (ctx ++ context :: inner)%list.
Proof.
  assert (G : forall c ctx l x, panics c ctx l x -> forall p, In p l -> exists inner, p = (ctx ++ inner)%list).
  { intros c ctx l x P. induction P; intros q I; cbn in I; auto.
    - destruct I.
    - destruct I as [<- | []]. exists []. now rewrite app_nil_r.
    - apply in_app_or in I as [I | I]; auto.
    - destruct (IHP q I) as [i ->]. exists (s :: i). now rewrite <- app_assoc. }
  intros context body ctx l x P. inversion P; subst. split; [reflexivity |]. intros p I.
  match goal with B : panics (Scope _ _) _ _ _ |- _ => inversion B; subst end.
  match goal with B : panics body _ _ _ |- _ => destruct (G _ _ _ _ B p I) as [i ->] end.
  exists i. now rewrite <- app_assoc.
Qed.
Print Assumptions C79_request.

(** Two workers: one panics inside a nested scope and goes on with a second request, the other is in a request of its own. *)
Definition two (t : nat) : code :=
  match t with
  | 0 => Seq (request "hover" (Seq (Scope "parse" Boom) (Scope "never" Boom))) (Seq (request "status" Done) Boom)
  | 1 => request "rename" Boom
  | _ => Done
  end.
Example C79_nontrivial :
  let l := [(0, Enter "hover"); (1, Enter "rename"); (0, Enter "parse"); (0, Panic); (1, Panic); (0, Leave); (0, Leave);
            (0, Enter "status"); (1, Leave); (0, Leave); (0, Panic)] in
  (forall t, of_thread t l = fst (events (two t))) /\
  option_map snd (run l start) =
    Some [(0, report ["hover"; "parse"]); (1, report ["rename"]); (0, "")] /\
  run [(0, Enter "a"); (1, Leave)] start = None.
Proof. split; [| split; reflexivity]. intros [| [| t]]; reflexivity. Qed.
