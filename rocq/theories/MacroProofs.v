From Coq Require Import List ZArith Bool String Lia.
From Verif Require Import PreTypes MacroModel.
Import ListNotations.
Local Open Scope Z_scope.

(** * Argument collection always ends *)

Lemma pull_len q t q' : pull q = Some (t, q') -> S (src_len q') = src_len q.
Proof.
  unfold pull, src_len. destruct q as [c p l]; simpl.
  destruct c as [|x c].
  - destruct p as [|y p].
    + unfold lex_next. destruct l as [[|[s b] r] pp]; simpl; [discriminate|].
      intros H; injection H as <- <-. simpl. reflexivity.
    + intros H; injection H as <- <-. simpl. reflexivity.
  - intros H; injection H as <- <-. simpl. reflexivity.
Qed.

Lemma pull_ctx q t q' : pull q = Some (t, q') -> (List.length (q_ctx q') <= List.length (q_ctx q))%nat.
Proof.
  unfold pull. destruct q as [c p l]; simpl.
  destruct c as [|x c].
  - destruct p as [|y p].
    + unfold lex_next. destruct l as [[|[s b] r] pp]; simpl; [discriminate|].
      intros H; injection H as <- <-. simpl. lia.
    + intros H; injection H as <- <-. simpl. lia.
  - intros H; injection H as <- <-. simpl. lia.
Qed.

(** what [collect] returns, when it has enough fuel *)
Definition collected_ctx (c : collected) (n : nat) : Prop :=
  match c with
  | CNone q => (List.length (q_ctx q) <= n)%nat
  | CSome _ _ q => (List.length (q_ctx q) <= n)%nat
  | CFuel => False
  end.

Lemma collect_total fuel : forall sym nb q temp depth argi args first n,
  (src_len q < fuel)%nat -> (List.length (q_ctx q) <= n)%nat ->
  collected_ctx (collect fuel sym nb q temp depth argi args first) n.
Proof.
  induction fuel as [|fuel IH]; intros sym nb q temp depth argi args first n Hf Hn; [lia|].
  simpl. destruct (pull q) as [[t q']|] eqn:E; [|simpl; exact Hn].
  pose proof (pull_len _ _ _ E) as Hlen. pose proof (pull_ctx _ _ _ E) as Hctx.
  assert (Hn' : (List.length (q_ctx q') <= n)%nat) by lia.
  assert (Hf' : (src_len q' < fuel)%nat) by lia.
  assert (Hgive : collected_ctx (CNone (Src (q_ctx q') ((temp ++ [t]) ++ q_popped q') (q_lex q'))) n)
    by exact Hn'.
  destruct first as [f|].
  - destruct (t_kind t); try (apply IH; assumption).
    + destruct (depth - 1 =? 0); [exact Hn'|apply IH; assumption].
    + destruct (depth =? 1); [destruct (S argi <? nb)%nat; apply IH; assumption|].
      destruct (1 <? depth); apply IH; assumption.
  - destruct (t_kind t); try exact Hgive.
    + destruct (_ =? _); [|exact Hgive]. apply IH; assumption.
    + destruct block; [apply IH; assumption|exact Hgive].
Qed.

Lemma collect_arguments_total sym nb q :
  collected_ctx (collect_arguments sym nb q) (List.length (q_ctx q)).
Proof. apply collect_total; lia. Qed.

(** * Expansion always ends *)

Definition x_ends (m : macros_map) (t0 : token) (allow : bool) (s : xstate) : Prop :=
  exists n, x_loop n m t0 allow s <> XFuel.

Lemma x_ends_step m t0 allow s s' :
  x_iter m t0 allow s = XNext s' -> x_ends m t0 allow s' -> x_ends m t0 allow s.
Proof. intros H (n & Hn). exists (S n). simpl. rewrite H. exact Hn. Qed.
Lemma x_ends_stop m t0 allow s r :
  x_iter m t0 allow s = XStop r -> r <> XFuel -> x_ends m t0 allow s.
Proof. intros H Hn. exists 1%nat. simpl. rewrite H. exact Hn. Qed.

(** every state with this context stack ends *)
Definition stack_ends m t0 allow (stk : list (list qtok)) : Prop :=
  forall o p l d i, x_ends m t0 allow (XSt stk o p l d i).

Lemma deep_ends m t0 allow stk : (6 <=? List.length stk)%nat = true -> stack_ends m t0 allow stk.
Proof.
  intros H o p l d i. exists 1%nat. simpl x_loop. unfold x_iter. simpl x_ctx.
  destruct stk as [|c stk]; [discriminate H|]. rewrite H. discriminate.
Qed.
Lemma empty_ends m t0 allow below :
  stack_ends m t0 allow below -> stack_ends m t0 allow ([] :: below).
Proof.
  intros Hb. destruct (6 <=? List.length (@nil qtok :: below))%nat eqn:E6.
  - apply deep_ends. exact E6.
  - intros o p l d i. eapply x_ends_step; [|apply Hb].
    unfold x_iter; simpl x_ctx. cbv iota beta. rewrite E6. reflexivity.
Qed.

Lemma stack_ends_cons m t0 allow n : forall below,
  (6 <= List.length below + n)%nat -> stack_ends m t0 allow below ->
  forall cur, stack_ends m t0 allow (cur :: below).
Proof.
  induction n as [|n IHn]; intros below Hlen Hb cur.
  - apply deep_ends. apply Nat.leb_le. simpl. lia.
  - assert (H : forall k cur, (List.length cur <= k)%nat -> stack_ends m t0 allow (cur :: below)).
    2:{ exact (H (List.length cur) cur (le_n _)). }
    clear cur. induction k as [|k IHk]; intros cur Hk.
    + destruct cur; [|simpl in Hk; lia]. apply empty_ends. exact Hb.
    + destruct cur as [|[t dl] cur]; [apply empty_ends; exact Hb|].
      intros o p l d i.
      simpl in Hk.
      assert (Hcur : forall c, (List.length c <= List.length cur)%nat -> stack_ends m t0 allow (c :: below))
        by (intros c Hc; apply IHk; lia).
      assert (Hnew : forall new c, (List.length c <= List.length cur)%nat ->
                stack_ends m t0 allow (new :: c :: below)).
      { intros new c Hc. apply IHn; [simpl; lia|]. apply Hcur; exact Hc. }
      destruct (x_iter m t0 allow (XSt ((QTok t dl :: cur) :: below) o p l d i)) as [s'|r] eqn:E;
        unfold x_iter in E; simpl x_ctx in E; cbv iota beta in E;
        destruct (6 <=? List.length ((QTok t dl :: cur) :: below))%nat eqn:E6;
        try discriminate E.
      * (* a step *)
        eapply x_ends_step.
        { unfold x_iter; simpl x_ctx. cbv iota beta. rewrite E6. exact E. }
        simpl in E.
        assert (Hsame : stack_ends m t0 allow (cur :: below)) by (apply Hcur; lia).
        destruct (t_kind t); try (injection E as <-; apply Hsame).
        -- destruct (mget m (t_text t)) as [mc|].
           ++ destruct (m_params mc) as [ps|].
              ** pose proof (collect_arguments_total (t_sym t) (m_nb mc) (Src cur p l)) as Hc.
                 destruct (collect_arguments _ _ _) as [q|args diff q|]; simpl in Hc.
                 --- injection E as <-. apply Hcur. exact Hc.
                 --- destruct (expand_macro _ _ _ _ _ _); [|discriminate]. injection E as <-.
                     apply Hnew. exact Hc.
                 --- contradiction.
              ** injection E as <-. apply Hnew. lia.
           ++ destruct allow; [injection E as <-; apply Hsame|discriminate].
        -- destruct l0; injection E as <-; apply Hsame.
      * apply deep_ends. exact E6.
      * (* a stop *)
        eapply x_ends_stop.
        { unfold x_iter; simpl x_ctx. cbv iota beta. rewrite E6. exact E. }
        simpl in E. destruct (t_kind t); try discriminate E.
        -- destruct (mget m (t_text t)) as [mc|].
           ++ destruct (m_params mc) as [ps|]; [|discriminate].
              pose proof (collect_arguments_total (t_sym t) (m_nb mc) (Src cur p l)) as Hc.
              destruct (collect_arguments _ _ _) as [q|args diff q|]; [discriminate| |contradiction].
              destruct (expand_macro _ _ _ _ _ _); [discriminate|]. injection E as <-. discriminate.
           ++ destruct allow; [discriminate|]. injection E as <-. discriminate.
        -- destruct l0; discriminate E.
Qed.

Lemma stack_ends_all m t0 allow stk : stack_ends m t0 allow stk.
Proof.
  induction stk as [|c stk IH].
  - intros o p l d i. eapply x_ends_stop; [reflexivity|discriminate].
  - eapply stack_ends_cons; [|exact IH]. instantiate (1 := 6%nat). lia.
Qed.

Lemma x_loop_mono m t0 allow n : forall s k, x_loop n m t0 allow s <> XFuel ->
  x_loop (n + k) m t0 allow s = x_loop n m t0 allow s.
Proof.
  induction n as [|n IH]; intros s k H; [contradiction H; reflexivity|].
  simpl in *. destruct (x_iter m t0 allow s); [apply IH; exact H|reflexivity].
Qed.

Lemma expand_identifier_ends l m t allow dis :
  exists n r, r <> XFuel /\ forall fuel, (n <= fuel)%nat -> expand_identifier fuel l m t allow dis = r.
Proof.
  destruct (stack_ends_all m t allow [[QTok t (t_delta t)]] [] [] l dis 0) as (n & Hn).
  exists n, (x_loop n m t allow (XSt [[QTok t (t_delta t)]] [] [] l dis 0)). split; [exact Hn|].
  intros fuel Hf. unfold expand_identifier.
  replace fuel with (n + (fuel - n))%nat by lia. apply x_loop_mono. exact Hn.
Qed.
