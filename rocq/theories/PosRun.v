(** C27, second part: what the preprocessor records while it writes a line describes that line, so the
    mapping leads from a symbol in the editor to the same symbol in the preprocessed text. *)
From Coq Require Import List ZArith Bool String Ascii Lia.
From Verif Require Import PreTypes MacroModel EvalModel PreModel PreLex PreSnapshots CondSpec VisibleSpec VisibleProps MacroSpec MacroUseProps LinesProps PosModel PosSpec PosProofs.
Import ListNotations.
Local Open Scope list_scope.
Local Open Scope Z_scope.

Arguments on_line : simpl never.
Definition len (w : string) : Z := Z.of_nat (String.length w).
Lemma len_app a b : len (a ++ b) = len a + len b.
Proof. unfold len. induction a as [|x a IH]; [reflexivity|]. cbn [String.append String.length]. lia. Qed.
Lemma len_spaces n : len (spaces n) = Z.of_nat n.
Proof. unfold len. f_equal. induction n as [|n IH]; [reflexivity|]. cbn. congruence. Qed.
Lemma len_nonneg w : 0 <= len w. Proof. unfold len. lia. Qed.

(** The entry which the next symbol read from the file will add. *)
Definition pending (s : st) : list offset :=
  match exp_sym s with
  | None => []
  | Some (es, (i, f)) =>
      [Offset (s_range es)
         (match col_off s with Some o => o | None => 0 end - (pcol (rend (s_range es)) - pcol (rstart (s_range es))))
         (adiff s) i f]
  end.

(** The original range of an argument lies between the parentheses of a use. *)
Definition in_use (L : Z) (ps : list piece) (r : range) : Prop :=
  exists before n a w i after, ps = before ++ Use n a w i :: after /\
    pline (rstart r) = L /\ pline (rend r) = L /\
    edit_end before + n <= pcol (rstart r) /\ pcol (rend r) < edit_end before + n + a.

(** All symbols of line [L] up to column [edit_end ps] were read, in active code. *)
Record at_col (s : st) (L : Z) (ps : list piece) : Prop := AtCol {
  ac_stack : estack s = []; ac_active : skipping s = false; ac_intr : intr s = None;
  ac_proper : Forall proper ps;
  ac_offsets : on_line (offsets s) L ++ pending s = entries L 0 ps;
  ac_off : exp_sym s = None -> col_off s = None;
  ac_line : len (cur_line s) = text_end ps;
  ac_pos : pcol (cur_pos s) = text_end ps;
  ac_args : Forall (fun a => in_use L ps (fst a)) (on_line (args_map s) L) }.

(** A symbol on line [L] that follows the column [e] and is as wide as its text. *)
Definition follows (L e : Z) (y : symbol) : Prop :=
  pline (rstart (s_range y)) = L /\ pline (rend (s_range y)) = L /\
  0 <= dcol (s_delta y) /\ pcol (rstart (s_range y)) = e + dcol (s_delta y) /\
  pcol (rend (s_range y)) = pcol (rstart (s_range y)) + len (s_text y).

Lemma on_line_app {A} (a b : list (Z * A)) L : on_line (a ++ b) L = on_line a L ++ on_line b L.
Proof. unfold on_line. rewrite filter_app, map_app. reflexivity. Qed.
Lemma on_line_one {A} (x : A) L : on_line [(L, x)] L = [x].
Proof. unfold on_line. cbn. rewrite Z.eqb_refl. reflexivity. Qed.

(** Reading a symbol of the file. *)
Lemma fetch_symbol s L ps y pp rest : at_col s L ps -> lx_rest (lex s) = (y, pp) :: rest -> pline (rstart (s_range y)) = L ->
  exists s1, fetch s = Some (tok y, s1) /\ at_col s1 L ps /\ exp_sym s1 = None /\ lex s1 = Lex rest pp /\
    macros s1 = macros s /\ disabled s1 = disabled s /\ cur_line s1 = cur_line s /\ out s1 = out s /\
    pline (cur_pos s1) = pline (cur_pos s) /\ args_map s1 = args_map s.
Proof.
  intros [E S I P O CO CL CP AR] N Y. unfold fetch, lex_next. rewrite E, N. unfold pending in O.
  destruct (exp_sym s) as [[es [i f]]|] eqn:X.
  - eexists. split; [reflexivity|]. split; [|repeat split]. constructor; cbn; auto.
    rewrite on_line_app, Y, on_line_one, app_nil_r. exact O.
  - eexists. split; [reflexivity|]. split; [|repeat split]. constructor; cbn; auto.
Qed.

Lemma in_use_app L ps more r : in_use L ps r -> in_use L (ps ++ more) r.
Proof. intros (b & n & a & w & i & af & -> & H). exists b, n, a, w, i, (af ++ more). rewrite <- app_assoc. split; [reflexivity|exact H]. Qed.

(** What writing a symbol does. *)
Record wrote (s s' : st) (d : Z) (w : string) : Prop := Wrote {
  w_line : cur_line s' = (cur_line s ++ spaces (Z.to_nat d) ++ w)%string;
  w_pos : cur_pos s' = Pos (pline (cur_pos s)) (pcol (cur_pos s) + d + len w);
  w_same : same s s'; w_stack : estack s' = estack s; w_offsets : offsets s' = offsets s;
  w_exp : exp_sym s' = exp_sym s; w_adiff : adiff s' = adiff s; w_off : col_off s' = col_off s;
  w_args : args_map s' = args_map s }.
Lemma push_symbol_wrote y s : s_kind y <> KEof -> 0 <= dcol (s_delta y) -> wrote s (push_symbol y s) (dcol (s_delta y)) (s_text y).
Proof.
  intros K D. destruct (push_symbol_same y s K) as (A & B & C). unfold push_symbol in *.
  destruct (s_kind y); try congruence; (constructor; try reflexivity; [cbn; rewrite string_assoc, Z.abs_eq by exact D; reflexivity|cbn; rewrite Z.abs_eq by exact D; reflexivity|exact A]).
Qed.

Lemma write_active v fuel t s : skipping s = false -> intr s = None -> writable (macros s) t -> 0 <= dcol (t_delta t) ->
  exists s', process_active v fuel t s = Next s' /\ wrote s s' (dcol (t_delta t)) (t_text t).
Proof.
  intros S I [C W] D. unfold process_active. fold (t_kind t).
  assert (P : t_kind t <> KEof -> exists s', Next (push_symbol (t_sym t) s) = Next s' /\ wrote s s' (dcol (t_delta t)) (t_text t)).
  { intros K. eexists. split; [reflexivity|]. apply push_symbol_wrote; assumption. }
  destruct (t_kind t) eqn:K; try discriminate C; rewrite ?I; try (apply P; discriminate).
  - change (s_text (t_sym t)) with (t_text t). rewrite (W eq_refl). apply P. discriminate.
  - eexists. split; [reflexivity|]. pose proof (push_symbol_wrote (t_sym t) (set_intr None s)) as X. fold (t_kind t) in X. rewrite K in X. specialize (X ltac:(discriminate) D).
    destruct X as [x1 x2 x3 x4 x5 x6 x7 x8 x9]. constructor; auto.
    destruct x3 as (a & b & c & d & e & f & g). repeat split; auto. rewrite e. cbn. symmetry; exact I.
Qed.

Lemma same_skipping s s' : same s s' -> skipping s' = skipping s.
Proof. intros (_ & _ & _ & A & _). unfold skipping. rewrite A. reflexivity. Qed.

(** A symbol that is copied. *)
Lemma copy_symbol v fuel s L ps y pp rest : at_col s L ps -> lx_rest (lex s) = (y, pp) :: rest -> follows L (edit_end ps) y ->
  writable (macros s) (tok y) ->
  exists s1 s2, fetch s = Some (tok y, s1) /\ step v fuel s = Next s2 /\ at_col s2 L (ps ++ [Code (dcol (s_delta y) + len (s_text y))]) /\
    cur_line s2 = (cur_line s ++ spaces (Z.to_nat (dcol (s_delta y))) ++ s_text y)%string /\ macros s2 = macros s /\ disabled s2 = disabled s /\ lex s2 = Lex rest pp /\ out s2 = out s /\
    pline (cur_pos s2) = pline (cur_pos s) /\ args_map s2 = args_map s.
Proof.
  intros AC N (F1 & F2 & F3 & F4 & F5) W. destruct (fetch_symbol s L ps y pp rest AC N F1) as (s1 & FE & AC1 & X1 & L1 & M1 & D1 & C1 & O1 & P1 & R1).
  destruct AC1 as [E S I P O CO CL CP AR].
  destruct (write_active v fuel (tok y) s1 S I) as (s2 & PA & [w1 w2 w3 w4 w5 w6 w7 w8 w9]); [rewrite M1; exact W|exact F3|].
  exists s1, s2. split; [exact FE|]. split; [unfold step; rewrite FE; change (record_arg (tok y) s1) with s1; rewrite S; exact PA|].
  assert (TE : text_end (ps ++ [Code (dcol (s_delta y) + len (s_text y))]) = text_end ps + dcol (s_delta y) + len (s_text y)).
  { rewrite text_end_app. cbn. lia. }
  change (t_delta (tok y)) with (s_delta y) in *. change (t_text (tok y)) with (s_text y) in *.
  split.
  - constructor.
    + congruence.
    + rewrite (same_skipping _ _ w3). exact S.
    + destruct w3 as (_ & _ & _ & _ & -> & _). exact I.
    + apply Forall_app. split; [exact P|]. constructor; [|constructor]. cbn. pose proof (len_nonneg (s_text y)). lia.
    + unfold pending. rewrite w5, w6, X1, app_nil_r. unfold pending in O. rewrite X1, app_nil_r in O. rewrite O, entries_app. cbn. rewrite app_nil_r. reflexivity.
    + rewrite w6, w8. exact CO.
    + rewrite TE, w1, !len_app, len_spaces, CL. lia.
    + rewrite TE, w2. cbn. lia.
    + rewrite w9. eapply Forall_impl; [|exact AR]. intros a A. apply in_use_app, A.
  - split; [rewrite w1, C1; reflexivity|]. destruct w3 as (a & b & c & d & e & f & g). rewrite w2, w9. cbn. repeat split; congruence.
Qed.

(** What the preprocessor expands a use to: the tokens [pushed]. They are written one after the other,
    the first as far from the text before it as the macro's name; [adiff] is the width of what follows
    the name in the editor. *)
Fixpoint spread (l : list token) : Z :=
  match l with [] => 0 | t :: tl => dcol (t_delta t) + len (t_text t) + spread tl end.
Definition tidy (m : macros_map) (L : Z) (y : symbol) (adiff : Z) (pushed : list token) : Prop :=
  0 <= adiff /\ 0 < len (s_text y) /\ (match pushed with [] => False | t :: _ => dcol (t_delta t) = dcol (s_delta y) /\ 0 < len (t_text t) end) /\
  Forall (fun t => writable m t /\ 0 <= dcol (t_delta t) /\ t_inline t = t_text t /\
    forall r, t_orig t = Some r -> pline (rstart r) = L /\ pline (rend r) = L /\
      pcol (rend (s_range y)) <= pcol (rstart r) /\ pcol (rend r) < pcol (rend (s_range y)) + adiff) pushed.

(** Where the arguments end up: the range in the editor and the columns in the line. *)
Fixpoint arg_places (line c : Z) (l : list token) : list (Z * (range * range)) :=
  match l with
  | [] => []
  | t :: tl =>
      match t_orig t with
      | Some r => [(pline (rstart r), (r, Rng (Pos line (c + dcol (t_delta t)))
                       (Pos line (c + dcol (t_delta t) + Z.max 0 (pcol (rend (t_range t)) - pcol (rstart (t_range t)))))))]
      | None => []
      end ++ arg_places line (c + dcol (t_delta t) + len (t_text t)) tl
  end.
Fixpoint written (l : list token) : string :=
  match l with [] => EmptyString | t :: tl => (spaces (Z.to_nat (dcol (t_delta t))) ++ t_text t ++ written tl)%string end.
Lemma len_written l : Forall (fun t => 0 <= dcol (t_delta t)) l -> len (written l) = spread l.
Proof. induction 1 as [|t l T _ IH]; [reflexivity|]. cbn [written spread]. rewrite !len_app, len_spaces, IH. lia. Qed.

Lemma write_pushed v fuel : forall l s, estack s = l -> skipping s = false -> intr s = None -> 0 <= pcol (cur_pos s) ->
  Forall (fun t => writable (macros s) t /\ 0 <= dcol (t_delta t) /\ t_inline t = t_text t) l ->
  exists tr s', reads v fuel s tr s' /\ same s s' /\ estack s' = [] /\ offsets s' = offsets s /\ exp_sym s' = exp_sym s /\ adiff s' = adiff s /\
    cur_line s' = (cur_line s ++ written l)%string /\
    cur_pos s' = Pos (pline (cur_pos s)) (pcol (cur_pos s) + spread l) /\
    (match l with [] => col_off s' = col_off s
     | t :: _ => col_off s' = Some (match col_off s with None => spread l - dcol (t_delta t) | Some o => o + spread l end) end) /\
    args_map s' = args_map s ++ arg_places (pline (cur_pos s)) (pcol (cur_pos s)) l.
Proof.
  induction l as [|t l IH]; intros s E S I C0 F.
  - exists [], s. split; [constructor|]. split; [repeat split|]. cbn. rewrite app_nil_r. repeat split; auto.
    + clear. induction (cur_line s); cbn; congruence.
    + destruct (cur_pos s); cbn; f_equal; lia.
  - inversion F as [|? ? (W & D & IT) F']; subst.
    set (s1 := set_col_off (Some (match col_off s with None => len (t_inline t) | Some o => o + dcol (t_delta t) + len (t_inline t) end)) (set_estack l s)).
    assert (FE : fetch s = Some (t, s1)) by (unfold fetch; rewrite E; reflexivity).
    set (s1' := record_arg t s1).
    assert (R : same s s1' /\ estack s1' = l /\ offsets s1' = offsets s /\ exp_sym s1' = exp_sym s /\ adiff s1' = adiff s /\
       cur_line s1' = cur_line s /\ cur_pos s1' = cur_pos s /\ col_off s1' = col_off s1 /\
       args_map s1' = args_map s ++ match t_orig t with Some r => [(pline (rstart r), (r, current_range t s))] | None => [] end).
    { unfold s1', record_arg. destruct (t_orig t); cbn; rewrite ?app_nil_r; repeat split. }
    destruct R as (R1 & R2 & R3 & R4 & R5 & R6 & R7 & R8 & R9).
    assert (S1 : skipping s1' = false) by (rewrite (same_skipping _ _ R1); exact S).
    assert (I1 : intr s1' = None) by (destruct R1 as (_ & _ & _ & _ & -> & _); exact I).
    assert (M1 : macros s1' = macros s) by apply R1.
    destruct (write_active v fuel t s1' S1 I1) as (s2 & PA & [w1 w2 w3 w4 w5 w6 w7 w8 w9]); [rewrite M1; exact W|exact D|].
    assert (ST : step v fuel s = Next s2) by (unfold step; rewrite FE; fold s1'; rewrite S1; exact PA).
    pose proof (same_trans _ _ _ R1 w3) as SA.
    destruct (IH s2) as (tr & s' & G1 & G2 & G3 & G4 & G5 & G6 & G7 & G8 & G9 & G10).
    + congruence.
    + rewrite (same_skipping _ _ SA). exact S.
    + destruct SA as (_ & _ & _ & _ & -> & _). exact I.
    + rewrite w2, R7. cbn. pose proof (len_nonneg (t_text t)). lia.
    + replace (macros s2) with (macros s) by (symmetry; apply SA). exact F'.
    + exists (Ev (t_sym t) s1 s2 :: tr), s'. split; [econstructor; eauto|]. split; [eapply same_trans; eauto|]. split; [exact G3|].
      split; [congruence|]. split; [congruence|]. split; [congruence|].
      split; [rewrite G7, w1, R6; cbn [written]; rewrite !string_assoc; reflexivity|].
      split; [rewrite G8, w2, R7; cbn [spread pline pcol]; f_equal; lia|].
      split.
      * rewrite w8, R8 in G9. cbn [s1 col_off set_col_off] in G9. cbn [spread]. rewrite IT in G9. destruct l as [|t2 l].
        -- rewrite G9. cbn. f_equal. destruct (col_off s); lia.
        -- rewrite G9. f_equal. destruct (col_off s); lia.
      * rewrite G10, w9, R9, w2, R7. cbn [arg_places pline pcol]. rewrite <- app_assoc. f_equal. f_equal.
        destruct (t_orig t); [|reflexivity]. unfold current_range, sat. rewrite Z.max_r by lia. reflexivity.
Qed.

(** A macro use. *)
Lemma use_macro_at v fuel s L ps y pp rest m diff pushed l dis : at_col s L ps -> lx_rest (lex s) = (y, pp) :: rest -> follows L (edit_end ps) y ->
  s_kind y = KIdent -> mget (macros s) (s_text y) = Some m -> dmem m (disabled s) = false ->
  expand_identifier fuel (Lex rest pp) (macros s) (tok y) true (disabled s) = XOk diff pushed l dis ->
  tidy (macros s) L y diff pushed ->
  exists tr s', reads v fuel s tr s' /\
    at_col s' L (ps ++ [Code (dcol (s_delta y)); Use (len (s_text y)) diff (spread pushed - dcol (s_delta y)) (m_idx m, m_file m)]) /\
    cur_line s' = (cur_line s ++ written pushed)%string /\ lex s' = l /\ macros s' = macros s /\ disabled s' = dis /\ out s' = out s /\
    pline (cur_pos s') = pline (cur_pos s) /\
    args_map s' = args_map s ++ arg_places (pline (cur_pos s)) (text_end ps) pushed.
Proof.
  intros AC N FO K M D X (T1 & T2 & T3 & T4). pose proof FO as (F1 & F2 & F3 & F4 & F5).
  destruct (fetch_symbol s L ps y pp rest AC N F1) as (s1 & FE & AC1 & X1 & L1 & M1 & D1 & C1 & O1 & P1 & R1).
  destruct AC1 as [E S I P O CO CL CP AR].
  set (s2 := set_adiff diff (set_exp_sym (Some (y, (m_idx m, m_file m))) (set_estack (pushed ++ []) (set_lex l (set_disabled dis s1))))).
  assert (ST : step v fuel s = Next s2).
  { unfold step. rewrite FE. change (record_arg (tok y) s1) with s1. rewrite S. unfold process_active. cbn [tok t_sym].
    rewrite K, I, M1, M, D1, D, L1. change {| t_sym := y; t_orig := None |} with (tok y). rewrite X, E. reflexivity. }
  pose proof (ends_nonneg ps P) as EN.
  destruct (write_pushed v fuel pushed s2) as (tr & s' & G1 & G2 & G3 & G4 & G5 & G6 & G7 & G8 & G9 & G10).
  - cbn. apply app_nil_r.
  - exact S.
  - exact I.
  - cbn. lia.
  - cbn. rewrite M1. eapply Forall_impl; [|exact T4]. cbn. tauto.
  - assert (SP : dcol (s_delta y) <= spread pushed).
    { destruct pushed as [|t pushed]; [contradiction|]. cbn [spread]. inversion T4 as [|? ? Q1 Q2]; subst.
      assert (0 <= spread pushed). { clear -Q2. induction Q2 as [|t l T _ IH]; [cbn; lia|]. cbn [spread]. pose proof (len_nonneg (t_text t)). lia. }
      pose proof (len_nonneg (t_text t)). lia. }
    exists (Ev (t_sym (tok y)) s1 s2 :: tr), s'. split; [econstructor; eauto|]. cbn [s2 cur_pos set_adiff set_exp_sym set_estack set_lex set_disabled cur_line] in *.
    set (more := [Code (dcol (s_delta y)); Use (len (s_text y)) diff (spread pushed - dcol (s_delta y)) (m_idx m, m_file m)]).
    assert (TE : text_end (ps ++ more) = text_end ps + spread pushed) by (rewrite text_end_app; cbn; lia).
    assert (PR : Forall proper (ps ++ more)).
    { apply Forall_app. split; [exact P|]. constructor; [cbn; lia|]. constructor; [|constructor]. cbn. lia. }
    split.
    + constructor.
      * exact G3.
      * rewrite (same_skipping _ _ G2). exact S.
      * destruct G2 as (_ & _ & _ & _ & -> & _). exact I.
      * exact PR.
      * unfold pending in *. rewrite G4, G5, G6. cbn [s2 offsets exp_sym adiff set_adiff set_exp_sym set_estack set_lex set_disabled].
        rewrite X1, app_nil_r in O. rewrite O, entries_app. f_equal. cbn [more entries].
        destruct pushed as [|t pushed]; [contradiction|]. rewrite G9. cbn [s2 col_off set_adiff set_exp_sym set_estack set_lex set_disabled].
        rewrite (CO X1). destruct T3 as [T3 _]. destruct (s_range y) as [[a b] [c d]]. cbn in *. subst a c. subst b. rewrite F5, T3.
        repeat f_equal; lia.
      * rewrite G5. cbn. discriminate.
      * rewrite TE, G7, len_app, CL, len_written; [reflexivity|]. eapply Forall_impl; [|exact T4]. cbn. tauto.
      * rewrite TE, G8. cbn. lia.
      * rewrite G10, on_line_app. apply Forall_app. split.
        { cbn. eapply Forall_impl; [|exact AR]. intros a A. apply in_use_app, A. }
        { apply Forall_forall. intros a A. unfold on_line in A. apply in_map_iff in A as ((la & a') & <- & A). apply filter_In in A as [A _].
          assert (Y : exists t, In t pushed /\ t_orig t = Some (fst a')).
          { clear -A. revert A. generalize (pline (cur_pos s1)) (pcol (cur_pos s1)).
            induction pushed as [|t l IH]; intros z c A; [destruct A|]. cbn [arg_places] in A. apply in_app_iff in A as [A|A].
            - destruct (t_orig t) eqn:Q; [|destruct A]. destruct A as [A|[]]. injection A as _ <-. exists t. split; [left; reflexivity|exact Q].
            - destruct (IH _ _ A) as (t' & B & C). exists t'. split; [right; exact B|exact C]. }
          destruct Y as (t & T & Q). rewrite Forall_forall in T4. destruct (T4 t T) as (_ & _ & _ & Z). destruct (Z _ Q) as (z1 & z2 & z3 & z4).
          exists (ps ++ [Code (dcol (s_delta y))]), (len (s_text y)), diff, (spread pushed - dcol (s_delta y)), (m_idx m, m_file m), [].
          unfold more. rewrite <- app_assoc. split; [reflexivity|]. cbn [snd]. rewrite edit_end_app. cbn [edit_end map fold_right edit_width]. repeat split; auto; lia. }
    + split; [rewrite G7, C1; reflexivity|]. destruct G2 as (a & b & c & d & e & f & g). cbn in a, b, f.
      split; [exact a|]. split; [congruence|]. split; [exact c|]. split; [congruence|]. split; [rewrite G8; exact P1|].
      rewrite G10, CP. cbn [s2 args_map set_adiff set_exp_sym set_estack set_lex set_disabled]. rewrite R1, P1. reflexivity.
Qed.

(** * A whole line *)
(** What is seen in a line: a symbol copied, at a column of the editor, or a macro use and its expansion. *)
Inductive mark := Copied (u : Z) (text : string) | Used (o : offset) (text : string).

(** [shape]: reading the symbols of a line. [ps] and [w] are the pieces and the text so far. *)
Inductive shape (m : macros_map) (dis : list macro) (fuel : nat) (L : Z)
  : lexer -> list piece -> string -> list mark -> lexer -> list piece -> string -> Prop :=
| sh_end l ps w : shape m dis fuel L l ps w [] l ps w
| sh_copy l y pp rest ps w marks l' ps' w' :
    lx_rest l = (y, pp) :: rest -> follows L (edit_end ps) y -> writable m (tok y) ->
    shape m dis fuel L (Lex rest pp) (ps ++ [Code (dcol (s_delta y) + len (s_text y))])
      (w ++ spaces (Z.to_nat (dcol (s_delta y))) ++ s_text y)%string marks l' ps' w' ->
    shape m dis fuel L l ps w (Copied (pcol (rstart (s_range y))) (s_text y) :: marks) l' ps' w'
| sh_use l y pp rest x diff pushed l1 ps w marks l' ps' w' :
    lx_rest l = (y, pp) :: rest -> follows L (edit_end ps) y ->
    s_kind y = KIdent -> mget m (s_text y) = Some x -> dmem x dis = false ->
    expand_identifier fuel (Lex rest pp) m (tok y) true dis = XOk diff pushed l1 dis ->
    tidy m L y diff pushed ->
    shape m dis fuel L l1
      (ps ++ [Code (dcol (s_delta y)); Use (len (s_text y)) diff (spread pushed - dcol (s_delta y)) (m_idx x, m_file x)])
      (w ++ written pushed)%string marks l' ps' w' ->
    shape m dis fuel L l ps w
      (Used (Offset (s_range y) (spread pushed - dcol (s_delta y) - len (s_text y)) diff (m_idx x) (m_file x))
            (String.substring (Z.to_nat (dcol (s_delta y))) (String.length (written pushed)) (written pushed)) :: marks) l' ps' w'.

Lemma shape_reads v m dis fuel L l ps w marks l' ps' w' : shape m dis fuel L l ps w marks l' ps' w' -> forall s,
  macros s = m -> disabled s = dis -> lex s = l -> at_col s L ps -> cur_line s = w ->
  exists tr s', reads v fuel s tr s' /\ at_col s' L ps' /\ cur_line s' = w' /\ lex s' = l' /\ macros s' = m /\ disabled s' = dis /\
    out s' = out s /\ pline (cur_pos s') = pline (cur_pos s).
Proof.
  induction 1 as [l ps w|l y pp rest ps w marks l' ps' w' N F W _ IH|l y pp rest x diff pushed l1 ps w marks l' ps' w' N F K G D X T _ IH];
    intros s M DI LE AC CL.
  - exists [], s. split; [constructor|]. auto 8.
  - subst m dis l w. destruct (copy_symbol v fuel s L ps y pp rest AC N F W) as (s1 & s2 & FE & ST & AC2 & C2 & M2 & D2 & L2 & O2 & P2 & _).
    destruct (IH s2 M2 D2 L2 AC2 C2) as (tr & s' & R & B1 & B2 & B3 & B4 & B5 & B6 & B7).
    exists (Ev (t_sym (tok y)) s1 s2 :: tr), s'. split; [econstructor; eauto|]. repeat split; auto; try apply B1; congruence.
  - subst m dis l w. destruct (use_macro_at v fuel s L ps y pp rest x diff pushed l1 (disabled s) AC N F K G D X T) as (tr1 & s2 & R1 & AC2 & C2 & L2 & M2 & D2 & O2 & P2 & _).
    destruct (IH s2 M2 D2 L2 AC2 C2) as (tr & s' & R & B1 & B2 & B3 & B4 & B5 & B6 & B7).
    exists (tr1 ++ tr), s'. split; [|repeat split; auto; try apply B1; congruence].
    clear - R1 R. induction R1 as [|? ? ? ? ? ? Hf Hs _ IH]; [exact R|]. cbn. econstructor; eauto.
Qed.

Lemma string_len_app a b : String.length (a ++ b) = (String.length a + String.length b)%nat.
Proof. induction a as [|x a IH]; [reflexivity|]. cbn. congruence. Qed.
Lemma substring_0 x b : String.substring 0 (String.length x) (x ++ b) = x.
Proof. induction x as [|c x IH]; [destruct b; reflexivity|]. cbn. f_equal. exact IH. Qed.
Lemma substring_mid a x b : String.substring (String.length a) (String.length x) (a ++ x ++ b) = x.
Proof. induction a as [|c a IH]; [exact (substring_0 x b)|]. cbn. exact IH. Qed.

(** The place of a mark: pieces before it and text before it. *)
Lemma visible_app a b i : uses_visible a (text_end b + i) -> uses_visible b i -> uses_visible (a ++ b) i.
Proof.
  induction a as [|p a IH]; intros A B; [exact B|]. destruct p as [n|n ar w inf]; cbn [app uses_visible] in *; [auto|].
  destruct A as [A1 A2]. split; [rewrite text_end_app; lia|auto].
Qed.
(** Every use of the line shows something. *)
Definition shows (p : piece) : Prop := match p with Use _ _ w _ => 0 < w | _ => True end.
Lemma shows_visible l i : Forall shows l -> Forall proper l -> 0 <= i -> uses_visible l i.
Proof.
  induction l as [|p l IH]; intros S P I; [exact Logic.I|]. inversion S; inversion P; subst. destruct p; cbn; [auto|].
  split; [|auto]. cbn in *. pose proof (ends_nonneg l ltac:(assumption)). lia.
Qed.

Definition mark_ok (L : Z) (ps : list piece) (w : string) (k : mark) : Prop :=
  match k with
  | Copied u x => exists before n after i b t,
      ps = before ++ Code n :: after /\ 0 <= i /\ i + len x <= n /\ u = edit_end before + i /\
      w = String.append b (String.append x t) /\ len b = text_end before + i
  | Used o x => exists before n a after b t,
      ps = before ++ Use n a (len x) (o_idx o, o_file o) :: after /\
      o = Offset (Rng (Pos L (edit_end before)) (Pos L (edit_end before + n))) (len x - n) a (o_idx o) (o_file o) /\
      w = String.append b (String.append x t) /\ len b = text_end before
  end.

Lemma app_empty w : (w ++ "")%string = w.
Proof. induction w as [|c w IH]; [reflexivity|]. cbn. congruence. Qed.
Lemma substring_tail a : forall b n, (String.length b <= n)%nat -> String.substring (String.length a) n (a ++ b) = b.
Proof.
  induction a as [|c a IH]; intros b n L; [|cbn; apply IH, L]. revert n L. induction b as [|c b IH]; intros [|n] L; cbn in *; try reflexivity; try lia.
  f_equal. apply IH. lia.
Qed.

Lemma shape_marks m dis fuel L l ps w marks l' ps' w' : shape m dis fuel L l ps w marks l' ps' w' -> len w = text_end ps ->
  exists more t, ps' = ps ++ more /\ w' = (w ++ t)%string /\ Forall shows more /\ len w' = text_end ps' /\ Forall (mark_ok L ps' w') marks.
Proof.
  induction 1 as [l ps w|l y pp rest ps w marks l' ps' w' N F W _ IH|l y pp rest x diff pushed l1 ps w marks l' ps' w' N F K G D X T _ IH]; intros LW.
  - exists [], EmptyString. rewrite app_nil_r, app_empty. auto.
  - destruct F as (F1 & F2 & F3 & F4 & F5).
    destruct IH as (more & t & E1 & E2 & SH & E3 & MK).
    { rewrite !len_app, len_spaces, text_end_app, LW. cbn. lia. }
    exists (Code (dcol (s_delta y) + len (s_text y)) :: more), (spaces (Z.to_nat (dcol (s_delta y))) ++ s_text y ++ t)%string.
    split; [rewrite E1, <- app_assoc; reflexivity|]. split; [rewrite E2, !string_assoc; reflexivity|].
    split; [constructor; [exact Logic.I|exact SH]|]. split; [exact E3|]. constructor; [|exact MK].
    exists ps, (dcol (s_delta y) + len (s_text y)), more, (dcol (s_delta y)), (w ++ spaces (Z.to_nat (dcol (s_delta y))))%string, t.
    split; [rewrite E1, <- app_assoc; reflexivity|]. split; [lia|]. split; [lia|]. split; [exact F4|].
    split; [rewrite E2, !string_assoc; reflexivity|]. rewrite len_app, len_spaces. lia.
  - destruct F as (F1 & F2 & F3 & F4 & F5). destruct T as (T1 & T2 & T3 & T4).
    assert (LP : len (written pushed) = spread pushed) by (apply len_written; eapply Forall_impl; [|exact T4]; cbn; tauto).
    destruct IH as (more & t & E1 & E2 & SH & E3 & MK).
    { rewrite len_app, text_end_app, LW, LP. cbn. lia. }
    destruct pushed as [|p pushed]; [contradiction|]. destruct T3 as [T3 T5].
    set (g := spaces (Z.to_nat (dcol (s_delta y)))). set (r := (t_text p ++ written pushed)%string).
    assert (WR : written (p :: pushed) = (g ++ r)%string) by (cbn [written]; rewrite T3; reflexivity).
    assert (SB : String.substring (Z.to_nat (dcol (s_delta y))) (String.length (written (p :: pushed))) (written (p :: pushed)) = r).
    { rewrite WR. replace (Z.to_nat (dcol (s_delta y))) with (String.length g).
      - apply substring_tail. rewrite string_len_app. lia.
      - apply Nat2Z.inj. change (len g = Z.of_nat (Z.to_nat (dcol (s_delta y)))). unfold g. apply len_spaces. }
    assert (LR : len r = spread (p :: pushed) - dcol (s_delta y)) by (rewrite <- LP, WR, len_app; unfold g; rewrite len_spaces; lia).
    eexists (_ :: _ :: more), (written (p :: pushed) ++ t)%string.
    split; [rewrite E1, <- app_assoc; reflexivity|]. split; [rewrite E2, !string_assoc; reflexivity|].
    split; [constructor; [exact Logic.I|constructor; [|exact SH]]|].
    { cbn [shows]. rewrite <- LR. unfold r. rewrite len_app. pose proof (len_nonneg (written pushed)). lia. }
    split; [exact E3|]. constructor; [|exact MK].
    cbn [mark_ok o_idx o_file]. rewrite SB, LR. exists (ps ++ [Code (dcol (s_delta y))]), (len (s_text y)), diff, more, (w ++ g)%string, t.
    split; [rewrite E1, <- !app_assoc; reflexivity|]. rewrite edit_end_app, text_end_app. cbn [edit_end text_end map fold_right edit_width text_width].
    split; [|split; [rewrite E2, WR, !string_assoc; reflexivity|rewrite len_app; unfold g; rewrite len_spaces; lia]].
    destruct (s_range y) as [[a b] [c d]]. cbn in *. subst. repeat f_equal; lia.
Qed.

(** In a line without macro uses being read twice: a place in the code is in no argument. *)
Lemma place_no_arg L ps r u s : Forall proper ps -> in_use L ps r -> same_place ps u s -> range_contains_pos r (Pos L u) = false.
Proof.
  intros P (b & n & a & w & i & af & E & L1 & L2 & C1 & C2) (b2 & n2 & af2 & i2 & E' & I & U & _).
  unfold range_contains_pos. cbn [pline pcol]. rewrite L1, L2, Z.ltb_irrefl, Z.eqb_refl. cbn [orb andb].
  destruct (Z.ltb_spec u (pcol (rstart r))) as [|G1]; [reflexivity|]. destruct (Z.ltb_spec (pcol (rend r)) u) as [|G2]; [reflexivity|]. exfalso.
  subst ps. apply app_eq_app in E' as (m & [[A B]|[A B]]).
  - (* the code comes first *) destruct m as [|q m]; cbn in B; [discriminate|]. injection B as <- B. subst b.
    apply Forall_app in P as [P1 P2]. apply Forall_app in P1 as [P0 P1]. inversion P1; subst. inversion P2; subst.
    pose proof (ends_nonneg m ltac:(assumption)). rewrite edit_end_app, edit_end_cons in C1. cbn [edit_width proper] in *. lia.
  - destruct m as [|q m]; cbn in B; [discriminate|]. injection B as <- B. subst b2 af. 
    apply Forall_app in P as [P1 P2]. inversion P2 as [|? ? P3 P4]; subst. apply Forall_app in P4 as [P4 _].
    pose proof (ends_nonneg m P4). rewrite edit_end_app, edit_end_cons in G2. cbn [edit_width proper] in *. lia.
Qed.

Definition col_of (o : option range * pos) : Z := pcol (snd o).

(** A line read from its beginning to its newline: a symbol copied to the preprocessed line is found
    there at the mapped position, and mapped back its range is the one in the editor; hovering a macro
    use shows its expansion.
    Missing from the full statement: what is assumed of the line by [shape]: its symbols are on one line
    and as wide as their texts (no block comment or string over several lines, no character that
    takes more than one byte), and every macro use is [tidy]: it expands to something, its
    expansion begins at the distance of its name, no further use comes out of it and its arguments
    follow the name at once; the positions within the names and the arguments of uses. *)
Theorem C27_line_mapped_partial :
  forall v s fuel L marks l' ps w y pp rest,
    at_col s L [] -> cur_line s = EmptyString -> short ps ->
    shape (macros s) (disabled s) fuel L (lex s) [] EmptyString marks l' ps w ->
    lx_rest l' = (y, pp) :: rest -> s_kind y = KNewline -> pline (rstart (s_range y)) = L ->
    exists tr s' line, reads v fuel s tr s' /\ out s' = out s ++ [line] /\ lex s' = Lex rest pp /\
      Forall (fun k => match k with
        | Copied u x =>
            let c := col_of (u_pos_to_s_pos (args_map s') (offsets s') (Pos L u)) in
            u_pos_to_s_pos (args_map s') (offsets s') (Pos L u) = (None, Pos L c) /\
            String.substring (Z.to_nat c) (String.length x) line = x /\
            s_range_to_u_range (offsets s') (Rng (Pos L c) (Pos L (c + len x))) = Rng (Pos L u) (Pos L (u + len x))
        | Used o x =>
            In o (on_line (offsets s') L) /\
            let (a, b) := hover_slice (offsets s') L o in
            String.substring (Z.to_nat a) (Z.to_nat (b - a)) line = x
        end) marks.
Proof.
  intros v s fuel L marks l' ps w y pp rest AC CL SH SP N K Y.
  destruct (shape_marks _ _ _ _ _ _ _ _ _ _ _ SP eq_refl) as (more & t & E1 & E2 & SW & LW & MK). cbn [app String.append] in E1, E2. subst more t.
  destruct (shape_reads v _ _ _ _ _ _ _ _ _ _ _ SP s eq_refl eq_refl eq_refl AC CL) as (tr & s1 & R & AC1 & C1 & L1 & _ & _ & O1 & _).
  rewrite <- L1 in N. destruct (fetch_symbol s1 L ps y pp rest AC1 N Y) as (s2 & FE & AC2 & X2 & L2 & _ & _ & C2 & O2 & _ & _).
  set (s3 := reset_current_line (push_current_line (push_ws y s2))).
  assert (ST : step v fuel s1 = Next s3).
  { unfold step. rewrite FE. change (record_arg (tok y) s2) with s2. rewrite (ac_active _ _ _ AC2). unfold process_active. cbn [tok t_sym]. rewrite K. reflexivity. }
  exists (tr ++ [Ev (t_sym (tok y)) s2 s3]), s3, (w ++ spaces (Z.to_nat (Z.abs (dcol (s_delta y)))))%string.
  split.
  { clear - R FE ST. induction R as [|? ? ? ? ? ? Hf Hs _ IH]; cbn [app].
    - eapply (reads_cons v fuel s (tok y)); eauto. constructor.
    - econstructor; eauto. }
  split; [cbn; rewrite C2, C1, O2, O1; reflexivity|]. split; [exact L2|].
  assert (OF : on_line (offsets s3) L = entries L 0 ps).
  { pose proof (ac_offsets _ _ _ AC2) as O. unfold pending in O. rewrite X2, app_nil_r in O. exact O. }
  pose proof (ac_proper _ _ _ AC2) as PR. pose proof (ac_args _ _ _ AC2) as AR. change (args_map s2) with (args_map s3) in AR.
  eapply Forall_impl; [|exact MK]. intros [u x|o x].
  - intros (before & n & after & i & b & t & E & I1 & I2 & U & EW & LB).
    assert (PB : Forall proper before /\ Forall shows before) by (rewrite E in PR, SW; apply Forall_app in PR as [? _]; apply Forall_app in SW as [? _]; split; assumption).
    assert (S1 : seen ps u (text_end before + i)).
    { exists before, n, after, i. repeat split; auto; try (pose proof (len_nonneg x); lia). apply shows_visible; tauto. }
    assert (S2 : seen ps (u + len x) (text_end before + i + len x)).
    { exists before, n, after, (i + len x). pose proof (len_nonneg x). repeat split; auto; try lia. apply shows_visible; try tauto; lia. }
    assert (NA : Forall (fun a => range_contains_pos (fst a) (Pos L u) = false) (on_line (args_map s3) L)).
    { eapply Forall_impl; [|exact AR]. intros a A. eapply place_no_arg; eauto. apply seen_place, S1. }
    rewrite (C27_forward (args_map s3) (offsets s3) L ps u (text_end before + i) PR SH OF (seen_place _ _ _ S1) NA).
    cbn [col_of snd pcol]. split; [reflexivity|]. split.
    + rewrite EW, <- LB, !string_assoc. unfold len. rewrite Nat2Z.id. apply substring_mid.
    + apply (C27_back_partial _ _ ps); assumption.
  - intros (before & n & a & after & b & t & E & EO & EW & LB). set (ix := o_idx o) in *. set (fi := o_file o) in *. clearbody ix fi. subst o.
    split.
    + rewrite OF, E, entries_app. apply in_app_iff. right. left. change (0 + edit_end before) with (edit_end before). reflexivity.
    + pose proof (C27_hover_shows_expansion (offsets s3) L ps before n a (len x) (ix, fi) after PR SH E OF) as HS. cbn [fst snd] in HS. rewrite HS.
      rewrite EW, <- LB, !string_assoc. replace (len b + len x - len b) with (len x) by lia. unfold len. rewrite !Nat2Z.id. apply substring_mid.
Qed.
Print Assumptions C27_line_mapped_partial.

(** The place of an argument in the preprocessed line is the one recorded for it. *)
Theorem C27_argument_recorded :
  forall line c l e, In e (arg_places line c l) ->
    exists before t after, l = before ++ t :: after /\ t_orig t = Some (fst (snd e)) /\
      rstart (snd (snd e)) = Pos line (c + spread before + dcol (t_delta t)).
Proof.
  intros line c l. revert c. induction l as [|t l IH]; intros c e H; [destruct H|]. cbn [arg_places] in H. apply in_app_iff in H as [H|H].
  - destruct (t_orig t) eqn:O; [|destruct H]. destruct H as [<-|[]]. exists [], t, l. split; [reflexivity|]. split; [exact O|]. cbn. f_equal. lia.
  - destruct (IH _ _ H) as (b & t' & a & -> & O & R). exists (t :: b), t', a. split; [reflexivity|]. split; [exact O|]. rewrite R. cbn [spread]. f_equal. lia.
Qed.
Print Assumptions C27_argument_recorded.

(** * Examples *)
Local Open Scope string_scope.
Definition run_of (src : string) : option st :=
  match preprocess snap_env 500 no_incs [] (lex_source src) with FResult s => Some s | _ => None end.
(** The position of the preprocessed text to which a position of the editor is mapped. *)
Definition mapped (src : string) (line c : Z) : option pos :=
  option_map (fun s => snd (u_pos_to_s_pos (args_map s) (offsets s) (Pos line c))) (run_of src).
Definition mapped_back (src : string) (line c : Z) : option Z :=
  option_map (fun s => pcol (rstart (s_range_to_u_range (offsets s) (Rng (Pos line c) (Pos line c))))) (run_of src).

Definition map_source := "#define F(%1) (%1)
#define PI 314
int a = F(b+c) - PI * d;
".
Definition map_state := snd (trace 2 snap_env 500 (init_st no_incs [] (lex_source map_source))).
Ltac shape_tac :=
  repeat first
    [ eapply sh_copy; [vm_compute; reflexivity|repeat split; vm_compute; congruence|split; [vm_compute; reflexivity|intros _; vm_compute; reflexivity]|]
    | eapply sh_copy; [vm_compute; reflexivity|repeat split; vm_compute; congruence|split; [vm_compute; reflexivity|intros Q; vm_compute in Q; discriminate Q]|]
    | eapply sh_use; [vm_compute; reflexivity|repeat split; vm_compute; congruence|vm_compute; reflexivity|vm_compute; reflexivity|vm_compute; reflexivity
        |vm_compute; reflexivity| |] ].
Ltac tidy_tac :=
  split; [vm_compute; congruence|]; split; [vm_compute; reflexivity|]; split; [split; vm_compute; reflexivity|];
  repeat (constructor;
    [ split; [split; [vm_compute; reflexivity|intros Q; first [discriminate Q|vm_compute; reflexivity]]
             |split; [vm_compute; congruence|split; [reflexivity|]]];
      intros r Q; cbn [t_orig] in Q; first [discriminate Q|injection Q as <-; repeat split; vm_compute; congruence]
    |]); constructor.
Example C27_nontrivial :
  at_col map_state 2 [] /\ cur_line map_state = "" /\
  (exists marks l ps w, shape (macros map_state) (disabled map_state) 100 2 (lex map_state) [] "" marks l ps w /\ short ps /\
     w = "int a = (b+c) - 314 * d;" /\
     map (fun k => match k with Copied u x => (u, x) | Used o x => (pcol (rstart (o_range o)), x) end) marks =
       [(0%Z, "int"); (4%Z, "a"); (6%Z, "="); (8%Z, "(b+c)"); (15%Z, "-"); (17%Z, "314"); (20%Z, "*"); (22%Z, "d"); (23%Z, ";")]) /\
  mapped map_source 2 22 = Some (Pos 2 22) /\ mapped map_source 2 15 = Some (Pos 2 14) /\ mapped_back map_source 2 14 = Some 15%Z.
Proof.
  split; [constructor; vm_compute; auto|]. split; [vm_compute; reflexivity|]. split; [|split; [vm_compute; reflexivity|split; vm_compute; reflexivity]].
  do 4 eexists. split; [shape_tac; [tidy_tac|tidy_tac|apply sh_end]|]. split; [split; vm_compute; reflexivity|]. split; vm_compute; reflexivity.
Qed.

(** A macro that expands to nothing takes the space before its name with it: x, in column 6 of the
    editor and 4 of the text, is mapped to column 5, which is the semicolon. *)
Theorem C27_empty_refuted :
  preprocessed "#define E
int E x;" = Some "#define E
int x;" /\ mapped "#define E
int E x;" 1 6 = Some (Pos 1 5) /\
  (* mapped back, the semicolon behind an empty macro is found one column too early *)
  mapped "#define E
E;" 1 1 = Some (Pos 1 0) /\ mapped_back "#define E
E;" 1 0 = Some 0%Z.
Proof. vm_compute. auto. Qed.
Print Assumptions C27_empty_refuted.
(** A space between the macro's name and the parenthesis is not counted: x, in column 9 of the editor
    and 5 of the text, is mapped to column 6. *)
Theorem C27_space_refuted :
  preprocessed "#define F(%1) %1
 F (1) + x;" = Some "#define F(%1) %1
 1 + x;" /\ mapped "#define F(%1) %1
 F (1) + x;" 1 9 = Some (Pos 1 6).
Proof. vm_compute. auto. Qed.
Print Assumptions C27_space_refuted.
(** Arguments taken by a macro that comes out of another one are not counted: x, in column 8 of the
    editor and 5 of the text, stays in column 8. *)
Theorem C27_indirect_refuted :
  preprocessed "#define F(%1) %1
#define A F
 A(1) + x;" = Some "#define F(%1) %1
#define A F
 1 + x;" /\ mapped "#define F(%1) %1
#define A F
 A(1) + x;" 2 8 = Some (Pos 2 8).
Proof. vm_compute. auto. Qed.
Print Assumptions C27_indirect_refuted.
(** The lines left for #if and #endif are not counted for arguments: b, in line 3, is mapped to line 2. *)
Theorem C27_argument_line_refuted :
  preprocessed "#if 1
#endif
#define F(%1) (%1)
int a = F(b);" = Some "

#define F(%1) (%1)
int a = (b);" /\ mapped "#if 1
#endif
#define F(%1) (%1)
int a = F(b);" 3 10 = Some (Pos 2 9).
Proof. vm_compute. auto. Qed.
Print Assumptions C27_argument_line_refuted.
(** Within a use the mapping is not monotone: the parenthesis comes out before the name. *)
Theorem C27_monotone_refuted :
  let src := "#define F(%1) %1
 F(1234567);" in mapped src 1 1 = Some (Pos 1 1) /\ mapped src 1 2 = Some (Pos 1 0).
Proof. vm_compute. auto. Qed.
Print Assumptions C27_monotone_refuted.
