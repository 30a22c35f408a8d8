From Coq Require Import List ZArith Bool String Lia.
From Verif Require Import PreTypes MacroModel EvalModel EvalSpec.
Import ListNotations.
Local Open Scope Z_scope.

(** * Arithmetic: the operators of the model compute the values of the specification *)

Definition i32 (z : Z) : Prop := -2147483648 <= z <= 2147483647.

Lemma in_i32_iff z : in_i32 z = true <-> i32 z.
Proof. unfold in_i32, i32, i32_min, i32_max. rewrite andb_true_iff, !Z.leb_le. tauto. Qed.

Lemma fits_some z v : fits z = Some v -> v = z /\ i32 z.
Proof.
  unfold fits. destruct ((_ <=? z) && (z <=? _)) eqn:E; [|discriminate].
  intros H; injection H as <-. split; [reflexivity|]. apply in_i32_iff. exact E.
Qed.
Lemma fits_arith_some chk z v : fits z = Some v -> arith chk z = OpOk v.
Proof.
  intros H. apply fits_some in H. destruct H as [-> H]. unfold arith.
  rewrite (proj2 (in_i32_iff z) H). reflexivity.
Qed.
Lemma fits_arith_none z : fits z = None -> arith true z = OpPanic.
Proof.
  unfold fits, arith, in_i32, i32_min, i32_max. destruct (_ && _); [discriminate|reflexivity].
Qed.

Lemma truth_i32 b : i32 (truth b).
Proof. destruct b; unfold truth, i32; lia. Qed.

Definition un_pre (u : unary) : preop :=
  match u with UNot => PNot | UTilde => PTilde | UMinus => PNegate | UPlus => PConfirm end.
Definition bin_pre (b : binary) : preop :=
  match b with
  | BMul => PStar | BDiv => PSlash | BMod => PPercent | BAdd => PPlus | BSub => PMinus
  | BShl => PShl | BShr => PShr | BUshr => PUshr | BAnd => PAmp | BXor => PXor | BOr => PBitor
  | BLt => PLt | BLe => PLe | BGt => PGt | BGe => PGe | BEq => PEq | BNe => PNe
  | BLAnd => PAnd | BLOr => POr
  end.

Lemma un_value_some chk u x v : un_value u x = Some v -> unop chk (un_pre u) x = OpOk v.
Proof.
  destruct u; simpl; intros H.
  - injection H as <-. unfold b2z, to_bool, truth. rewrite negb_involutive. reflexivity.
  - injection H as <-. replace (Z.lnot x) with (- x - 1) by (unfold Z.lnot; lia). reflexivity.
  - apply fits_arith_some; assumption.
  - injection H as <-. reflexivity.
Qed.
Lemma un_value_none u x : un_value u x = None -> unop true (un_pre u) x = OpPanic.
Proof. destruct u; simpl; try discriminate. apply fits_arith_none. Qed.

Lemma un_value_i32 u x v : i32 x -> un_value u x = Some v -> i32 v.
Proof.
  intros Hx. destruct u; simpl; intros H.
  - injection H as <-. apply truth_i32.
  - injection H as <-. unfold i32 in *. lia.
  - apply fits_some in H. destruct H as [-> H]; exact H.
  - injection H as <-. exact Hx.
Qed.

Lemma wrap32_small z : i32 z -> wrap32 z = z.
Proof. unfold i32, wrap32, two32. intros H. rewrite Z.mod_small; lia. Qed.

Lemma wrap32_signed z : wrap32 z = signed (z mod 4294967296).
Proof.
  unfold wrap32, signed, two32.
  pose proof (Z.mod_pos_bound z 4294967296 ltac:(lia)) as B.
  pose proof (Z.div_mod z 4294967296 ltac:(lia)) as D.
  set (q := z / 4294967296) in *. set (r := z mod 4294967296) in *.
  destruct (Z.leb_spec r 2147483647).
  - replace (z + 2147483648) with (r + 2147483648 + q * 4294967296) by lia.
    rewrite Z.mod_add by lia. rewrite Z.mod_small by lia. lia.
  - replace (z + 2147483648) with (r - 2147483648 + (q + 1) * 4294967296) by lia.
    rewrite Z.mod_add by lia. rewrite Z.mod_small by lia. lia.
Qed.

Lemma as_u32_unsigned x : i32 x -> as_u32 x = unsigned x.
Proof.
  unfold i32, as_u32, unsigned, two32. intros H. destruct (Z.ltb_spec x 0).
  - replace x with (x + 4294967296 + (-1) * 4294967296) at 1 by lia.
    rewrite Z.mod_add by lia. apply Z.mod_small. lia.
  - apply Z.mod_small. lia.
Qed.

Lemma signed_i32 x : 0 <= x < 4294967296 -> i32 (signed x).
Proof. unfold signed, i32. destruct (Z.leb_spec x 2147483647); lia. Qed.

Lemma unsigned_bound x : i32 x -> 0 <= unsigned x < 4294967296.
Proof. unfold unsigned, i32. destruct (Z.ltb_spec x 0); lia. Qed.

Lemma pow_bound y : (0 <=? y) && (y <? 32) = true -> 0 <= y /\ 1 <= 2 ^ y.
Proof.
  rewrite andb_true_iff, Z.leb_le, Z.ltb_lt. intros [A B]. split; [lia|].
  apply (Z.pow_le_mono_r 2 0 y); lia.
Qed.

Lemma div_pow_bound x y m M : m <= 0 -> 0 <= M -> 1 <= y -> m <= x <= M -> m <= x / y <= M.
Proof.
  intros Hm HM Hy Hx. split.
  - apply Z.div_le_lower_bound; nia.
  - apply Z.div_le_upper_bound; nia.
Qed.

Lemma quot_i32 x y : i32 x -> y <> 0 -> ~ (x = -2147483648 /\ y = -1) -> i32 (Z.quot x y).
Proof.
  unfold i32. intros Hx Hy Hn.
  assert (Habs : Z.abs (Z.quot x y) <= Z.abs x).
  { rewrite <- Z.quot_abs by assumption. apply Z.quot_le_upper_bound; nia. }
  destruct (Z.eq_dec x (-2147483648)) as [->|]; [|lia].
  destruct (Z.eq_dec y (-1)) as [->|]; [tauto|].
  destruct (Z_lt_le_dec 0 y).
  - assert (Z.quot (-2147483648) y <= 0) by (rewrite Z.quot_opp_l with (a := 2147483648) by lia;
      pose proof (Z.quot_pos 2147483648 y ltac:(lia) ltac:(lia)); lia). lia.
  - assert (Z.abs (Z.quot (-2147483648) y) <= 1073741824).
    { rewrite <- Z.quot_abs by assumption. simpl (Z.abs (-2147483648)).
      apply Z.quot_le_upper_bound; lia. }
    lia.
Qed.

Lemma rem_i32 x y : i32 x -> y <> 0 -> i32 (Z.rem x y).
Proof.
  unfold i32. intros Hx Hy.
  pose proof (Z.rem_bound_abs x y Hy).
  assert (Z.abs (Z.rem x y) <= Z.abs x).
  { rewrite <- Z.rem_abs by assumption. apply Z.rem_le; lia. }
  destruct (Z_le_gt_dec 0 x).
  - pose proof (Z.rem_nonneg x y Hy ltac:(lia)). lia.
  - pose proof (Z.rem_nonpos x y Hy ltac:(lia)). lia.
Qed.

Lemma div_guard x y : i32 x -> y <> 0 ->
  (exists q, fits (Z.quot x y) = Some q) <-> ((x =? i32_min) && (y =? -1)) = false.
Proof.
  intros Hx Hy. unfold i32_min. split.
  - intros (q & H). apply fits_some in H. destruct H as [_ H].
    apply not_true_iff_false. rewrite andb_true_iff, !Z.eqb_eq. intros [-> ->].
    unfold i32 in H. vm_compute in H. destruct H as [_ H]; apply H; reflexivity.
  - intros H. exists (Z.quot x y). unfold fits.
    assert (i32 (Z.quot x y)) as [A B].
    { apply quot_i32; auto. intros [-> ->]. discriminate. }
    rewrite (proj2 (Z.leb_le _ _) A), (proj2 (Z.leb_le _ _) B). reflexivity.
Qed.

(** i32 as "all bits from 31 on are equal" *)
Lemma i32_shiftr z : i32 z <-> (Z.shiftr z 31 = 0 \/ Z.shiftr z 31 = -1).
Proof.
  rewrite Z.shiftr_div_pow2 by lia. change (2 ^ 31) with 2147483648. unfold i32. split.
  - intros H. destruct (Z_lt_le_dec z 0).
    + right. symmetry. apply (Z.div_unique z 2147483648 (-1) (z + 2147483648)); lia.
    + left. apply Z.div_small. lia.
  - intros H. pose proof (Z.div_mod z 2147483648 ltac:(lia)).
    pose proof (Z.mod_pos_bound z 2147483648 ltac:(lia)). destruct H as [H|H]; rewrite H in *; lia.
Qed.

Lemma land_i32 x y : i32 x -> i32 y -> i32 (Z.land x y).
Proof.
  rewrite !i32_shiftr, Z.shiftr_land. intros [-> | ->] [-> | ->]; vm_compute; auto.
Qed.
Lemma lor_i32 x y : i32 x -> i32 y -> i32 (Z.lor x y).
Proof.
  rewrite !i32_shiftr, Z.shiftr_lor. intros [-> | ->] [-> | ->]; vm_compute; auto.
Qed.
Lemma lxor_i32 x y : i32 x -> i32 y -> i32 (Z.lxor x y).
Proof.
  rewrite !i32_shiftr, Z.shiftr_lxor. intros [-> | ->] [-> | ->]; vm_compute; auto.
Qed.

Lemma shift_ok chk y : (0 <=? y) && (y <? 32) = true -> shift_amount chk y = Some y.
Proof. unfold shift_amount. intros ->. reflexivity. Qed.
Lemma shift_ko y : (0 <=? y) && (y <? 32) = false -> shift_amount true y = None.
Proof. unfold shift_amount. intros ->. reflexivity. Qed.

Lemma bin_value_some chk b x y v :
  i32 x -> i32 y -> bin_value b x y = Some v -> binop chk (bin_pre b) x y = OpOk v.
Proof.
  intros Hx Hy. destruct b; simpl; intros H;
    try (apply fits_arith_some; assumption); try (injection H as <-; reflexivity).
  - destruct (Z.eqb_spec y 0) as [E|E]; [discriminate|]. simpl.
    rewrite (proj1 (div_guard x y Hx E)) by eauto.
    apply fits_some in H. destruct H as [-> _]. reflexivity.
  - destruct (Z.eqb_spec y 0) as [E|E]; [discriminate|]. simpl.
    destruct (fits (Z.quot x y)) eqn:F; [|discriminate].
    rewrite (proj1 (div_guard x y Hx E)) by eauto. injection H as <-. reflexivity.
  - destruct ((0 <=? y) && (y <? 32)) eqn:E; [|discriminate].
    rewrite (shift_ok _ _ E). injection H as <-. apply pow_bound in E.
    rewrite Z.shiftl_mul_pow2 by lia. rewrite wrap32_signed. reflexivity.
  - destruct ((0 <=? y) && (y <? 32)) eqn:E; [|discriminate].
    rewrite (shift_ok _ _ E). injection H as <-. apply pow_bound in E.
    rewrite Z.shiftr_div_pow2 by lia. reflexivity.
  - destruct ((0 <=? y) && (y <? 32)) eqn:E; [|discriminate].
    rewrite (shift_ok _ _ E). injection H as <-. apply pow_bound in E.
    rewrite Z.shiftr_div_pow2 by lia. rewrite as_u32_unsigned by assumption.
    rewrite wrap32_signed. f_equal. f_equal. apply Z.mod_small.
    pose proof (unsigned_bound x Hx).
    pose proof (div_pow_bound (unsigned x) (2 ^ y) 0 4294967295 ltac:(lia) ltac:(lia) ltac:(lia) ltac:(lia)).
    lia.
Qed.

Lemma bin_value_none b x y :
  i32 x -> bin_value b x y = None -> binop true (bin_pre b) x y = OpPanic.
Proof.
  intros Hx. destruct b; simpl; intros H; try discriminate; try (apply fits_arith_none; assumption).
  - destruct (Z.eqb_spec y 0) as [E|E]; [reflexivity|]. simpl.
    destruct ((x =? i32_min) && (y =? -1)) eqn:G; [reflexivity|].
    apply (div_guard x y Hx E) in G. destruct G as (q & G). congruence.
  - destruct (Z.eqb_spec y 0) as [E|E]; [reflexivity|]. simpl.
    destruct ((x =? i32_min) && (y =? -1)) eqn:G; [reflexivity|].
    apply (div_guard x y Hx E) in G. destruct G as (q & G). rewrite G in H. discriminate.
  - destruct ((0 <=? y) && (y <? 32)) eqn:E; [discriminate|]. rewrite (shift_ko _ E). reflexivity.
  - destruct ((0 <=? y) && (y <? 32)) eqn:E; [discriminate|]. rewrite (shift_ko _ E). reflexivity.
  - destruct ((0 <=? y) && (y <? 32)) eqn:E; [discriminate|]. rewrite (shift_ko _ E). reflexivity.
Qed.

Lemma bin_value_i32 b x y v : i32 x -> i32 y -> bin_value b x y = Some v -> i32 v.
Proof.
  intros Hx Hy. destruct b; simpl; intros H;
    try (apply fits_some in H; destruct H as [-> H]; exact H);
    try (injection H as <-; apply truth_i32).
  - destruct (y =? 0); [discriminate|]. apply fits_some in H; destruct H as [-> H]; exact H.
  - destruct (Z.eqb_spec y 0) as [E|E]; [discriminate|]. destruct (fits _); [|discriminate].
    injection H as <-. apply rem_i32; assumption.
  - destruct (_ && _); [|discriminate]. injection H as <-. apply signed_i32, Z.mod_pos_bound. lia.
  - destruct (_ && _) eqn:E; [|discriminate]. injection H as <-. apply pow_bound in E.
    unfold i32 in *. apply div_pow_bound; lia.
  - destruct (_ && _) eqn:E; [|discriminate]. injection H as <-. apply pow_bound in E.
    apply signed_i32. pose proof (unsigned_bound x Hx).
    pose proof (div_pow_bound (unsigned x) (2 ^ y) 0 4294967295 ltac:(lia) ltac:(lia) ltac:(lia) ltac:(lia)).
    lia.
  - injection H as <-. apply land_i32; assumption.
  - injection H as <-. apply lxor_i32; assumption.
  - injection H as <-. apply lor_i32; assumption.
Qed.

(** * The value a build finds *)
Definition un_of (chk : bool) : unary -> Z -> option Z := if chk then un_value else un_cut.
Definition bin_of (chk : bool) : binary -> Z -> Z -> option Z := if chk then bin_value else bin_cut.
Fixpoint value_of (chk : bool) (def : string -> bool) (e : expr) : option Z :=
  match e with
  | ELit z => Some z
  | ETrue => Some 1
  | EFalse => Some 0
  | EDefined x | EDefinedP x => Some (truth (def x))
  | EParen e => value_of chk def e
  | EUn u e => bind (value_of chk def e) (un_of chk u)
  | EBin b l r => bind (value_of chk def l) (fun x => bind (value_of chk def r) (bin_of chk b x))
  end.
Lemma value_of_true def e : value_of true def e = value def e.
Proof. induction e as [z| | |y|y|e IH|u e IH|b l IHl r IHr]; cbn [value_of value]; rewrite ?IH, ?IHl, ?IHr; reflexivity. Qed.
Lemma value_of_false def e : value_of false def e = value_cut def e.
Proof. induction e as [z| | |y|y|e IH|u e IH|b l IHl r IHr]; cbn [value_of value_cut]; rewrite ?IH, ?IHl, ?IHr; reflexivity. Qed.

Lemma cut_wrap z : cut z = wrap32 z.
Proof. unfold cut. symmetry. apply wrap32_signed. Qed.
Lemma cut_i32 z : i32 (cut z).
Proof. unfold cut. apply signed_i32, Z.mod_pos_bound. lia. Qed.
Lemma cut_fits z v : fits z = Some v -> cut z = v.
Proof.
  intros H. apply fits_some in H as (-> & H). rewrite cut_wrap. unfold wrap32, two32, i32 in *. rewrite Z.mod_small; lia.
Qed.
Lemma arith_cut z : arith false z = OpOk (cut z).
Proof.
  unfold arith. destruct (in_i32 z) eqn:E; [|rewrite cut_wrap; reflexivity]. apply in_i32_iff in E.
  rewrite (cut_fits z z); [reflexivity|]. unfold fits. apply in_i32_iff in E. unfold in_i32, i32_min, i32_max in E. rewrite E. reflexivity.
Qed.
Lemma mod32 y : (0 <=? y mod 32) && (y mod 32 <? 32) = true.
Proof. pose proof (Z.mod_pos_bound y 32 ltac:(lia)). apply andb_true_iff. rewrite Z.leb_le, Z.ltb_lt. lia. Qed.
Lemma shift_mod y : shift_amount false y = Some (y mod 32).
Proof.
  unfold shift_amount. destruct ((0 <=? y) && (y <? 32)) eqn:E; [|reflexivity]. apply andb_true_iff in E. rewrite Z.leb_le, Z.ltb_lt in E.
  rewrite Z.mod_small by lia. reflexivity.
Qed.
Lemma mod32_i32 y : i32 (y mod 32).
Proof. pose proof (Z.mod_pos_bound y 32 ltac:(lia)). unfold i32. lia. Qed.

Lemma un_of_some chk u x v : un_of chk u x = Some v -> unop chk (un_pre u) x = OpOk v.
Proof.
  destruct chk; [apply un_value_some|]. cbn [un_of]. destruct u; cbn [un_cut]; intros H; try (apply un_value_some; exact H).
  injection H as <-. apply arith_cut.
Qed.
Lemma un_of_none chk u x : un_of chk u x = None -> unop chk (un_pre u) x = OpPanic.
Proof. destruct chk; [apply un_value_none|]. destruct u; discriminate. Qed.
Lemma un_of_i32 chk u x v : i32 x -> un_of chk u x = Some v -> i32 v.
Proof.
  intros Hx. destruct chk; [apply un_value_i32; exact Hx|]. destruct u; cbn [un_of un_cut]; intros H; try (eapply un_value_i32; [exact Hx|exact H]).
  injection H as <-. apply cut_i32.
Qed.
Lemma shift_same b x y : In b [BShl; BShr; BUshr] -> binop false (bin_pre b) x y = binop false (bin_pre b) x (y mod 32).
Proof. intros [<-|[<-|[<-|[]]]]; cbn [bin_pre binop]; rewrite !shift_mod, Z.mod_mod by lia; reflexivity. Qed.
Lemma bin_of_some chk b x y v : i32 x -> i32 y -> bin_of chk b x y = Some v -> binop chk (bin_pre b) x y = OpOk v.
Proof.
  intros Hx Hy. destruct chk; [apply bin_value_some; assumption|]. cbn [bin_of].
  destruct b; cbn [bin_cut]; intros H; try (apply bin_value_some; assumption); try (injection H as <-; apply arith_cut);
    rewrite shift_same by (cbn; auto); apply bin_value_some; auto using mod32_i32.
Qed.
Lemma bin_of_none chk b x y : i32 x -> bin_of chk b x y = None -> binop chk (bin_pre b) x y = OpPanic.
Proof.
  intros Hx. destruct chk; [apply bin_value_none; exact Hx|]. cbn [bin_of].
  destruct b; cbn [bin_cut]; try discriminate; intros H; try (cbn [bin_value] in H; rewrite mod32 in H; discriminate H);
    exact (bin_value_none _ x y Hx H).
Qed.
Lemma bin_of_i32 chk b x y v : i32 x -> i32 y -> bin_of chk b x y = Some v -> i32 v.
Proof.
  intros Hx Hy. destruct chk; [apply bin_value_i32; assumption|]. cbn [bin_of].
  destruct b; cbn [bin_cut]; intros H; try (injection H as <-; apply cut_i32);
    first [eapply bin_value_i32; [exact Hx|exact Hy|exact H]|eapply bin_value_i32; [exact Hx|apply mod32_i32|exact H]].
Qed.
Lemma value_of_i32 chk def e v : lits_ok e -> value_of chk def e = Some v -> i32 v.
Proof.
  revert v. induction e; simpl; intros v Hl H.
  - injection H as <-. exact Hl.
  - injection H as <-. unfold i32; lia.
  - injection H as <-. unfold i32; lia.
  - injection H as <-. apply truth_i32.
  - injection H as <-. apply truth_i32.
  - auto.
  - destruct (value_of chk def e) as [x|]; [|discriminate]. simpl in H.
    eapply un_of_i32; [|exact H]. auto.
  - destruct Hl as [H1 H2].
    destruct (value_of chk def e1) as [x|]; [|discriminate].
    destruct (value_of chk def e2) as [y|]; [|discriminate]. simpl in H.
    eapply bin_of_i32; [| |exact H]; auto.
Qed.
(** A condition that has a value has the same value in release builds. *)
Lemma un_same u x v : un_value u x = Some v -> un_cut u x = Some v.
Proof. destruct u; cbn [un_cut]; auto. intros H. f_equal. apply cut_fits. exact H. Qed.
Lemma bin_same b x y v : bin_value b x y = Some v -> bin_cut b x y = Some v.
Proof.
  destruct b; cbn [bin_cut]; auto; try (intros H; f_equal; apply cut_fits; exact H); cbn [bin_value]; rewrite mod32;
    (destruct ((0 <=? y) && (y <? 32)) eqn:E; [|discriminate]); apply andb_true_iff in E; rewrite Z.leb_le, Z.ltb_lt in E; rewrite (Z.mod_small y 32) by lia; auto.
Qed.
Lemma value_same def e v : value def e = Some v -> value_cut def e = Some v.
Proof.
  revert v. induction e as [z| | |y|y|e IH|u e IH|b l IHl r IHr]; intros v H; cbn [value value_cut] in *.
  1-5: exact H.
  - exact (IH v H).
  - destruct (value def e) as [x|]; [|discriminate]. rewrite (IH x eq_refl). cbn [bind] in *. apply un_same. exact H.
  - destruct (value def l) as [x|]; [|discriminate]. destruct (value def r) as [y|]; [|discriminate]. rewrite (IHl x eq_refl), (IHr y eq_refl).
    cbn [bind] in *. apply bin_same. exact H.
Qed.

(** * The operator stack *)

Lemma drain_app chk a b stk :
  drain chk (a ++ b) stk =
  match drain chk a stk with PrOk s => drain chk b s | r => r end.
Proof.
  revert stk. induction a as [|o a IH]; intros stk; simpl; [reflexivity|].
  destruct (process_op chk o stk); auto.
Qed.

Definition stops (cur : preop) (ops : list preop) : Prop :=
  match ops with
  | [] => True
  | PLParen :: _ => True
  | o :: _ => pops cur o = false
  end.

Lemma reduce_stop chk cur ops stk : stops cur ops -> reduce chk cur ops stk = (PrOk stk, ops).
Proof.
  destruct ops as [|o ops]; simpl; [reflexivity|].
  destruct o; simpl; try reflexivity; intros H; rewrite H; reflexivity.
Qed.

Lemma reduce_pend chk cur pend ops stk :
  (forall o, In o pend -> o <> PLParen /\ pops cur o = true) -> stops cur ops ->
  match drain chk pend stk with
  | PrOk s => reduce chk cur (pend ++ ops) stk = (PrOk s, ops)
  | r => fst (reduce chk cur (pend ++ ops) stk) = r
  end.
Proof.
  revert stk. induction pend as [|o pend IH]; intros stk Hp Hs; simpl.
  - apply reduce_stop; assumption.
  - destruct (Hp o (or_introl eq_refl)) as [Hn Hpop].
    assert (Hrest : forall o, In o pend -> o <> PLParen /\ pops cur o = true) by (intros; apply Hp; right; assumption).
    destruct (process_op chk o stk) eqn:E.
    + specialize (IH stk0 Hrest Hs).
      destruct o; try congruence; rewrite Hpop; exact IH.
    + destruct o; try congruence; rewrite Hpop; reflexivity.
    + destruct o; try congruence; rewrite Hpop; reflexivity.
Qed.

Lemma close_pend chk pend ops stk un :
  (forall o, In o pend -> o <> PLParen) ->
  match drain chk pend stk with
  | PrOk s => close_paren chk (pend ++ PLParen :: ops) stk un = (PrOk s, ops, false)
  | r => fst (fst (close_paren chk (pend ++ PLParen :: ops) stk un)) = r
  end.
Proof.
  revert stk. induction pend as [|o pend IH]; intros stk Hp; simpl; [reflexivity|].
  assert (Hn : o <> PLParen) by (apply Hp; left; reflexivity).
  assert (Hrest : forall o, In o pend -> o <> PLParen) by (intros; apply Hp; right; assumption).
  destruct (process_op chk o stk) eqn:E.
  - specialize (IH stk0 Hrest). destruct o; try congruence; exact IH.
  - destruct o; try congruence; reflexivity.
  - destruct o; try congruence; reflexivity.
Qed.

Lemma bin_pre_facts b :
  is_unary (bin_pre b) = false /\ priority (bin_pre b) = level b /\ bin_pre b <> PLParen /\
  convert (bin_op b) = Some (bin_pre b).
Proof. destruct b; repeat split; discriminate. Qed.
Lemma un_pre_facts u :
  is_unary (un_pre u) = true /\ priority (un_pre u) = 2 /\ un_pre u <> PLParen /\
  unary_of (un_op u) = Some (un_pre u) /\ exists c, convert (un_op u) = Some c.
Proof. destruct u; repeat split; try discriminate; eexists; reflexivity. Qed.

Lemma priority_ge o : o <> PLParen -> 2 <= priority o.
Proof. destruct o; simpl; try lia. congruence. Qed.
Lemma prec_ge e : 1 <= prec e.
Proof. destruct e; simpl; try lia. destruct b; simpl; lia. Qed.

(** * Running the loop *)
Section Run.
Variables (chk : bool) (xf : nat) (m : macros_map).
Definition def_in (x : string) : bool := match mget m x with Some _ => true | None => false end.

Definition goes (n : nat) (s s' : evst) : Prop :=
  forall fuel, e_loop (n + fuel) chk xf m s = e_loop fuel chk xf m s'.
Definition dies (n : nat) (s : evst) : Prop :=
  forall fuel, e_loop (n + S fuel) chk xf m s = EPanic.

Lemma goes_refl s : goes 0 s s.
Proof. intros fuel; reflexivity. Qed.
Lemma goes_trans a b s s' s'' : goes a s s' -> goes b s' s'' -> goes (a + b) s s''.
Proof. intros H1 H2 fuel. rewrite <- Nat.add_assoc, H1, H2. reflexivity. Qed.
Lemma goes_dies a b s s' : goes a s s' -> dies b s' -> dies (a + b) s.
Proof. intros H1 H2 fuel. rewrite <- Nat.add_assoc, H1, H2. reflexivity. Qed.
Lemma goes_one s s' : e_iter1 chk xf m s = ENext s' -> goes 1 s s'.
Proof. intros H fuel. simpl. rewrite H. reflexivity. Qed.
Lemma dies_one s : e_iter1 chk xf m s = EStop EPanic -> dies 0 s.
Proof. intros H fuel. simpl. rewrite H. reflexivity. Qed.

(** the state with the symbols [ys] to come *)
Definition mk (out : list Z) (ops : list preop) (un : bool) (ys : list symbol) (cur : range) offs dis :=
  EvSt out ops un false [] (Lex (map (fun y => (y, false)) ys) false) cur offs dis.

Lemma noise_step n out ops un ys cur offs dis : noise n ->
  e_iter1 chk xf m (mk out ops un (n :: ys) cur offs dis) = ENext (mk out ops un ys (s_range n) offs dis).
Proof. intros [y b H|y H|y H]; unfold e_iter1; simpl; rewrite H; reflexivity. Qed.

Definition ok_top (ops : list preop) (e : expr) : Prop :=
  match ops with
  | [] => True
  | PLParen :: _ => True
  | o :: _ => prec e < priority o \/ prec e <= 2
  end.

Definition claim (e : expr) (ys : list symbol) : Prop :=
  forall out ops rest cur offs dis, ok_top ops e ->
  (exists n, (n < List.length ys)%nat /\ value_of chk def_in e = None /\
     dies n (mk out ops true (ys ++ rest) cur offs dis)) \/
  (exists pend vals cur' offs',
     goes (List.length ys) (mk out ops true (ys ++ rest) cur offs dis)
                      (mk (vals ++ out) (pend ++ ops) false rest cur' offs' dis) /\
     (forall o, In o pend -> o <> PLParen /\ priority o <= prec e) /\
     drain chk pend (vals ++ out) =
       match value_of chk def_in e with Some v => PrOk (v :: out) | None => PrPanic end).

Lemma process_un u x tl v : un_of chk u x = Some v ->
  process_op chk (un_pre u) (x :: tl) = PrOk (v :: tl).
Proof.
  intros H. unfold process_op. destruct (un_pre_facts u) as (-> & _).
  rewrite (un_of_some chk u x v H). reflexivity.
Qed.
Lemma process_un_none u x tl : un_of chk u x = None ->
  process_op chk (un_pre u) (x :: tl) = PrPanic.
Proof.
  intros H. unfold process_op. destruct (un_pre_facts u) as (-> & _).
  rewrite (un_of_none chk u x H). reflexivity.
Qed.
Lemma process_bin b x y tl v : i32 x -> i32 y -> bin_of chk b x y = Some v ->
  process_op chk (bin_pre b) (y :: x :: tl) = PrOk (v :: tl).
Proof.
  intros Hx Hy H. unfold process_op. destruct (bin_pre_facts b) as (-> & _).
  rewrite (bin_of_some chk b x y v Hx Hy H). reflexivity.
Qed.
Lemma process_bin_none b x y tl : i32 x -> bin_of chk b x y = None ->
  process_op chk (bin_pre b) (y :: x :: tl) = PrPanic.
Proof.
  intros Hx H. unfold process_op. destruct (bin_pre_facts b) as (-> & _).
  rewrite (bin_of_none chk b x y Hx H). reflexivity.
Qed.

Lemma op_step_bin b o out ops un ys cur offs dis :
  s_kind o = KOp (bin_op b) ->
  e_iter1 chk xf m (mk out ops false (o :: ys) cur offs dis) =
  match reduce chk (bin_pre b) ops out with
  | (PrOk stk, ops') => ENext (mk stk (bin_pre b :: ops') true ys (s_range o) offs dis)
  | (PrErr, _) => EStop (e_err (mk out ops un ys (s_range o) offs dis))
  | (PrPanic, _) => EStop EPanic
  end.
Proof.
  intros H. unfold e_iter1; simpl. rewrite H.
  destruct (bin_pre_facts b) as (_ & _ & _ & ->).
  destruct (reduce chk (bin_pre b) ops out) as [[stk| |] ops']; reflexivity.
Qed.

Lemma ok_top_stops_bin b l r ops : ok_top ops (EBin b l r) -> stops (bin_pre b) ops.
Proof.
  destruct ops as [|o ops]; simpl; [auto|].
  assert (3 <= level b) by (destruct b; simpl; lia).
  destruct (bin_pre_facts b) as (Hu & Hp & _ & _).
  intros Ho. destruct o; auto; unfold pops; rewrite Hu, Hp;
    (destruct Ho as [Ho|Ho]; [apply Z.leb_gt; exact Ho | lia]).
Qed.

Lemma ok_top_un u ops : stops (un_pre u) ops.
Proof.
  destruct ops as [|o ops]; simpl; [auto|].
  destruct (un_pre_facts u) as (Hu & Hp & _).
  destruct o; auto; unfold pops; rewrite Hu, Hp; apply Z.ltb_ge; simpl; lia.
Qed.

Lemma ok_top_sub_left b l r ops : ok_top ops (EBin b l r) -> prec l <= level b -> ok_top ops l.
Proof.
  assert (3 <= level b) by (destruct b; simpl; lia).
  destruct ops as [|o ops]; simpl; auto. destruct o; auto; simpl; lia.
Qed.

Lemma main e ys : spells e ys -> wf e -> lits_ok e -> claim e ys.
Proof.
  induction 1 as [y z Hk Hi|y Hk|y Hk|d y Hd Hk|d o y c Hd Ho Hk Hc|o c e ys Ho Hc Hsp IH
    |u o e ys Ho Hsp IH|b o l r ys zs Ho Hl IHl Hr IHr|n e ys Hn Hsp IH|n e ys Hn Hsp IH];
    intros Hwf Hli out ops rest cur offs dis Htop.
  - (* literal *)
    right. exists [], [z], (s_range y), offs. split; [|split; [intros ? []|reflexivity]].
    apply goes_one. unfold e_iter1, mk; simpl in *.
    destruct Hk as [-> |[-> |[-> |[-> | ->]]]]; unfold e_push; simpl; rewrite Hi, wrap32_small by exact Hli;
      reflexivity.
  - right. exists [], [1], (s_range y), offs. split; [|split; [intros ? []|reflexivity]].
    apply goes_one. unfold e_iter1, mk; simpl. rewrite Hk. reflexivity.
  - right. exists [], [0], (s_range y), offs. split; [|split; [intros ? []|reflexivity]].
    apply goes_one. unfold e_iter1, mk; simpl. rewrite Hk. reflexivity.
  - (* defined X *)
    right. exists [], [truth (def_in (s_text y))], (s_range y),
      (match mget m (s_text y) with
        | Some x => offs ++ [(pline (rstart (s_range y)), Offset (s_range y) 0 0 (m_idx x) (m_file x))]
        | None => offs end).
    split; [|split; [intros ? []|reflexivity]].
    apply (goes_trans 1 1) with (s' := EvSt out ops true true [] (Lex (map (fun y => (y, false)) (y :: rest)) false) (s_range d) offs dis).
    + apply goes_one. unfold e_iter1, mk; simpl. rewrite Hd. reflexivity.
    + apply goes_one. unfold e_iter1, mk; simpl. rewrite Hk.
      unfold def_in. destruct (mget m (s_text y)) as [x|]; reflexivity.
  - (* defined (X) *)
    right. exists [], [truth (def_in (s_text y))], (s_range c),
      (match mget m (s_text y) with
        | Some x => offs ++ [(pline (rstart (s_range y)), Offset (s_range y) 0 0 (m_idx x) (m_file x))]
        | None => offs end).
    split; [|split; [intros ? []|reflexivity]].
    apply (goes_trans 1 3) with (s' := EvSt out ops true true [] (Lex (map (fun y => (y, false)) (o :: y :: c :: rest)) false) (s_range d) offs dis).
    { apply goes_one. unfold e_iter1, mk; simpl. rewrite Hd. reflexivity. }
    apply (goes_trans 1 2) with (s' := EvSt out (PLParen :: ops) true true [] (Lex (map (fun y => (y, false)) (y :: c :: rest)) false) (s_range o) offs dis).
    { apply goes_one. unfold e_iter1, mk; simpl. rewrite Ho. reflexivity. }
    apply (goes_trans 1 1) with (s' := mk (truth (def_in (s_text y)) :: out) (PLParen :: ops) false (c :: rest) (s_range y) 
      (match mget m (s_text y) with
        | Some x => offs ++ [(pline (rstart (s_range y)), Offset (s_range y) 0 0 (m_idx x) (m_file x))]
        | None => offs end) dis).
    { apply goes_one. unfold e_iter1, mk; simpl. rewrite Hk.
      unfold def_in. destruct (mget m (s_text y)) as [x|]; reflexivity. }
    apply goes_one. unfold e_iter1, mk; simpl. rewrite Hc. reflexivity.
  - (* ( e ) *)
    simpl in Hwf, Hli.
    assert (Hopen : goes 1 (mk out ops true ((o :: ys ++ [c]) ++ rest) cur offs dis)
                           (mk out (PLParen :: ops) true (ys ++ c :: rest) (s_range o) offs dis)).
    { apply goes_one. unfold e_iter1, mk; simpl. rewrite Ho. simpl. rewrite <- app_assoc. reflexivity. }
    destruct (IH Hwf Hli out (PLParen :: ops) (c :: rest) (s_range o) offs dis I)
      as [(n & Hn & Hv & Hdie)|(pend & vals & cur' & offs' & Hgo & Hpend & Hdr)].
    + left. exists (1 + n)%nat. split; [simpl; rewrite app_length; simpl; lia|]. split; [exact Hv|].
      eapply goes_dies; eauto.
    + pose proof (close_pend chk pend ops (vals ++ out) false (fun o H => proj1 (Hpend o H))) as Hcl.
      rewrite Hdr in Hcl.
      destruct (value_of chk def_in e) as [v|] eqn:Ev.
      * right. exists [], [v], (s_range c), offs'. split; [|split; [intros ? []|]].
        -- replace (List.length (o :: ys ++ [c])) with (1 + (List.length ys + 1))%nat
             by (simpl; rewrite app_length; reflexivity).
           eapply goes_trans; [exact Hopen|]. eapply goes_trans; [exact Hgo|].
           apply goes_one. unfold e_iter1, mk; simpl. rewrite Hc. simpl. rewrite Hcl. reflexivity.
        -- simpl. rewrite Ev. reflexivity.
      * left. exists (1 + List.length ys)%nat. split; [simpl; rewrite app_length; simpl; lia|].
        split; [exact Ev|]. 
        replace (1 + List.length ys)%nat with (1 + List.length ys + 0)%nat by lia.
        eapply goes_dies; [eapply goes_trans; [exact Hopen|exact Hgo]|].
        apply dies_one. unfold e_iter1, mk; simpl. rewrite Hc. simpl.
        destruct (close_paren chk (pend ++ PLParen :: ops) (vals ++ out) false) as [[r o1] u1].
        simpl in Hcl. subst r. reflexivity.
  - (* unary *)
    simpl in Hwf, Hli. destruct Hwf as [Hwf Hprec].
    destruct (un_pre_facts u) as (Hu & Hp & Hnp & Hun & conv & Hconv).
    assert (Hopen : goes 1 (mk out ops true ((o :: ys) ++ rest) cur offs dis)
                           (mk out (un_pre u :: ops) true (ys ++ rest) (s_range o) offs dis)).
    { apply goes_one. unfold e_iter1, mk; simpl. rewrite Ho, Hconv, Hun.
      rewrite (reduce_stop chk (un_pre u) ops out (ok_top_un u ops)). reflexivity. }
    assert (Htop' : ok_top (un_pre u :: ops) e).
    { simpl. destruct (un_pre u); auto. }
    destruct (IH Hwf Hli out (un_pre u :: ops) rest (s_range o) offs dis Htop')
      as [(n & Hn & Hv & Hdie)|(pend & vals & cur' & offs' & Hgo & Hpend & Hdr)].
    + left. exists (1 + n)%nat. split; [simpl; lia|]. split; [simpl; rewrite Hv; reflexivity|].
      eapply goes_dies; eauto.
    + right. exists (pend ++ [un_pre u]), vals, cur', offs'. split; [|split].
      * rewrite <- app_assoc. apply (goes_trans 1 (List.length ys)) with (1 := Hopen). exact Hgo.
      * intros p Hp'. apply in_app_or in Hp'. destruct Hp' as [Hp'|[<-|[]]].
        -- destruct (Hpend p Hp') as [A B]. split; [exact A|]. simpl. lia.
        -- split; [exact Hnp|]. simpl. lia.
      * rewrite drain_app, Hdr. simpl. destruct (value_of chk def_in e) as [x|] eqn:Ev; simpl; [|reflexivity].
        destruct (un_of chk u x) as [v|] eqn:Eu.
        -- rewrite (process_un u x out v Eu). reflexivity.
        -- rewrite (process_un_none u x out); auto.
  - (* binary *)
    simpl in Hwf, Hli. destruct Hwf as (Hwl & Hwr & Hpl & Hpr). destruct Hli as [Hll Hlr].
    destruct (bin_pre_facts b) as (Hu & Hp & Hnp & Hconv).
    rewrite <- app_assoc. simpl app at 2.
    destruct (IHl Hwl Hll out ops (o :: zs ++ rest) cur offs dis (ok_top_sub_left b l r ops Htop Hpl))
      as [(n & Hn & Hv & Hdie)|(pend & vals & cur' & offs' & Hgo & Hpend & Hdr)].
    + left. exists n. split; [rewrite app_length; lia|]. split; [simpl; rewrite Hv; reflexivity|]. exact Hdie.
    + pose proof (reduce_pend chk (bin_pre b) pend ops (vals ++ out)) as Hred.
      assert (Hpops : forall o, In o pend -> o <> PLParen /\ pops (bin_pre b) o = true).
      { intros p Hp'. destruct (Hpend p Hp') as [A B]. split; [exact A|].
        unfold pops. rewrite Hu, Hp. apply Z.leb_le. lia. }
      specialize (Hred Hpops (ok_top_stops_bin b l r ops Htop)). rewrite Hdr in Hred.
      pose proof (op_step_bin b o (vals ++ out) (pend ++ ops) false (zs ++ rest) cur' offs' dis Ho) as Hop.
      destruct (value_of chk def_in l) as [x|] eqn:Evl.
      2:{ left. exists (List.length ys + 0)%nat. split; [rewrite app_length; simpl; lia|].
          split; [simpl; rewrite Evl; reflexivity|].
          eapply goes_dies; [exact Hgo|]. apply dies_one. rewrite Hop.
          destruct (reduce chk (bin_pre b) (pend ++ ops) (vals ++ out)) as [r0 ops0].
          simpl in Hred. subst r0. reflexivity. }
      rewrite Hred in Hop. apply goes_one in Hop.
      assert (Htop' : ok_top (bin_pre b :: ops) r).
      { simpl. destruct (bin_pre b) eqn:E; auto; left; rewrite <- Hp in Hpr; exact Hpr. }
      destruct (IHr Hwr Hlr (x :: out) (bin_pre b :: ops) rest (s_range o) offs' dis Htop')
        as [(n & Hn & Hv & Hdie)|(pend2 & vals2 & cur2 & offs2 & Hgo2 & Hpend2 & Hdr2)].
      * left. exists (List.length ys + (1 + n))%nat. split; [rewrite app_length; simpl; lia|].
        split; [simpl; rewrite Evl; simpl; rewrite Hv; reflexivity|].
        eapply goes_dies; [exact Hgo|]. eapply goes_dies; eauto.
      * right. exists (pend2 ++ [bin_pre b]), (vals2 ++ [x]), cur2, offs2. split; [|split].
        -- rewrite <- !app_assoc. rewrite app_length.
           eapply goes_trans; [exact Hgo|].
           change (List.length (o :: zs)) with (1 + List.length zs)%nat.
           eapply goes_trans; [exact Hop|]. exact Hgo2.
        -- intros p Hp'. apply in_app_or in Hp'. destruct Hp' as [Hp'|[<-|[]]].
           ++ destruct (Hpend2 p Hp') as [A B]. split; [exact A|]. simpl. lia.
           ++ split; [exact Hnp|]. simpl. lia.
        -- rewrite <- app_assoc. simpl app at 3. rewrite drain_app, Hdr2. simpl. rewrite Evl. simpl.
           destruct (value_of chk def_in r) as [y|] eqn:Evr; simpl; [|reflexivity].
           pose proof (value_of_i32 _ _ _ _ Hll Evl) as Hx. pose proof (value_of_i32 _ _ _ _ Hlr Evr) as Hy.
           destruct (bin_of chk b x y) as [v|] eqn:Eb.
           ++ rewrite (process_bin b x y out v Hx Hy Eb). reflexivity.
           ++ rewrite (process_bin_none b x y out); auto.
  - (* noise before *)
    assert (Hopen : goes 1 (mk out ops true ((n :: ys) ++ rest) cur offs dis)
                           (mk out ops true (ys ++ rest) (s_range n) offs dis)).
    { apply goes_one. apply noise_step. exact Hn. }
    destruct (IH Hwf Hli out ops rest (s_range n) offs dis Htop)
      as [(k & Hk & Hv & Hdie)|(pend & vals & cur' & offs' & Hgo & Hpend & Hdr)].
    + left. exists (1 + k)%nat. split; [simpl; lia|]. split; [exact Hv|]. eapply goes_dies; eauto.
    + right. exists pend, vals, cur', offs'. split; [|split; assumption].
      apply (goes_trans 1 (List.length ys)) with (1 := Hopen). exact Hgo.
  - (* noise after *)
    rewrite <- app_assoc. simpl app at 2.
    destruct (IH Hwf Hli out ops (n :: rest) cur offs dis Htop)
      as [(k & Hk & Hv & Hdie)|(pend & vals & cur' & offs' & Hgo & Hpend & Hdr)].
    + left. exists k. split; [rewrite app_length; simpl; lia|]. split; assumption.
    + right. exists pend, vals, (s_range n), offs'. split; [|split; assumption].
      rewrite app_length. eapply goes_trans; [exact Hgo|]. apply goes_one, noise_step. exact Hn.
Qed.

End Run.

Lemma evaluate_value_of chk m dis line e ys fuel :
  spells e ys -> wf e -> lits_ok e -> (List.length ys < fuel)%nat ->
  match value_of chk (def_in m) e with
  | Some v => exists offs, evaluate fuel chk m dis line ys = EOk (holds v) offs dis
  | None => evaluate fuel chk m dis line ys = EPanic
  end.
Proof.
  intros Hsp Hwf Hli Hfuel. unfold evaluate.
  destruct (main chk fuel m e ys Hsp Hwf Hli [] [] [] (Rng (Pos line 0) (Pos line 1000)) [] dis I)
    as [(n & Hn & Hv & Hdie)|(pend & vals & cur' & offs' & Hgo & Hpend & Hdr)];
    rewrite app_nil_r in *; unfold mk in *.
  - rewrite Hv. specialize (Hdie (fuel - n - 1)%nat).
    replace (n + S (fuel - n - 1))%nat with fuel in Hdie by lia. exact Hdie.
  - specialize (Hgo (S (fuel - List.length ys - 1))%nat).
    replace (List.length ys + S (fuel - List.length ys - 1))%nat with fuel in Hgo by lia.
    rewrite !app_nil_r in *.
    destruct (value_of chk (def_in m) e) as [v|].
    + exists offs'. rewrite Hgo. simpl. unfold e_finish. simpl. rewrite Hdr. reflexivity.
    + rewrite Hgo. simpl. unfold e_finish. simpl. rewrite Hdr. reflexivity.
Qed.

Lemma evaluate_value chk m dis line e ys fuel :
  spells e ys -> wf e -> lits_ok e -> (List.length ys < fuel)%nat ->
  (value (def_in m) e <> None \/ chk = true) ->
  match value (def_in m) e with
  | Some v => exists offs, evaluate fuel chk m dis line ys = EOk (holds v) offs dis
  | None => evaluate fuel chk m dis line ys = EPanic
  end.
Proof.
  intros Hsp Hwf Hli Hfuel Hgood. pose proof (evaluate_value_of chk m dis line e ys fuel Hsp Hwf Hli Hfuel) as H.
  destruct (value (def_in m) e) as [v|] eqn:E.
  - replace (value_of chk (def_in m) e) with (Some v) in H; [exact H|]. symmetry.
    destruct chk; [rewrite value_of_true; exact E|rewrite value_of_false; apply value_same; exact E].
  - destruct Hgood as [Hgood|Hgood]; [congruence|]. subst chk. rewrite value_of_true, E in H. exact H.
Qed.
