(** Lemmas for C58. *)
From Coq Require Import List ZArith NArith Bool String Sorting.Sorted Lia.
From Verif Require Import SemTokensModel SemTokensSpec SemTokensProps.
From Verif Require Import PreTypes MacroModel EvalModel PreModel LinesExpand LinesProofs PosModel RangesModel RangesSpec
  HighlightModel HighlightSpec.
Import ListNotations.
Local Open Scope Z_scope.
Local Open Scope list_scope.

(** * Order of positions *)

Lemma before_trans p q r : before p q -> before q r -> before p r.
Proof. unfold before. intros [A|[A B]] [C|[C D]]; lia. Qed.
Lemma before_line p q : before p q -> pline p <= pline q.
Proof. unfold before. lia. Qed.
Lemma beforeb_spec p q : beforeb p q = true <-> before p q.
Proof. unfold beforeb, before. rewrite orb_true_iff, andb_true_iff, Z.ltb_lt, Z.eqb_eq, Z.leb_le. reflexivity. Qed.

Lemma beforeb_false p q : beforeb p q = false <-> pline q < pline p \/ (pline q = pline p /\ pcol q < pcol p).
Proof.
  destruct (beforeb p q) eqn:E.
  - apply beforeb_spec in E. unfold before in E. split; [discriminate|lia].
  - split; [intros _|reflexivity].
    unfold beforeb in E. apply orb_false_iff in E. destruct E as [A B]. apply Z.ltb_ge in A.
    apply andb_false_iff in B. destruct B as [B|B]; [apply Z.eqb_neq in B; lia|]. apply Z.leb_gt in B. lia.
Qed.

Lemma intersects_touches r o : intersects r o = touches (o_range o) r.
Proof.
  unfold intersects, intersect, touches. destruct (o_range o) as [[al ac] [bl bc]]. destruct r as [[cl cc] [dl dc]].
  unfold beforeb. cbn [rstart rend pline pcol].
  destruct ((cl <? al) || ((al =? cl) && (cc <? ac))) eqn:E1;
    destruct ((bl <? dl) || ((bl =? dl) && (bc <? dc))) eqn:E2;
    cbn [pline pcol];
    match goal with |- match (if ?c then _ else _) with _ => _ end = _ => destruct c eqn:E3 end;
    cbv beta iota;
    repeat match goal with
    | H : _ || _ = true |- _ => apply orb_true_iff in H
    | H : _ || _ = false |- _ => apply orb_false_iff in H; destruct H
    end;
    symmetry;
    first [ rewrite !andb_true_iff, !orb_true_iff, !andb_true_iff, !Z.ltb_lt, !Z.eqb_eq, !Z.leb_le
          | rewrite !andb_false_iff, !orb_false_iff, !andb_false_iff, !Z.ltb_ge, !Z.eqb_neq, !Z.leb_gt ];
    repeat match goal with
    | H : _ \/ _ |- _ => rewrite ?andb_true_iff, ?Z.ltb_lt, ?Z.eqb_eq in H
    | H : (_ <? _) = false |- _ => apply Z.ltb_ge in H
    | H : _ && _ = false |- _ => apply andb_false_iff in H; rewrite ?Z.ltb_ge, ?Z.eqb_neq in H
    end; lia.
Qed.

(** * The grouping by line *)

Lemma keys_in {A} (l : list (Z * A)) k : In k (keys l) <-> In k (map fst l).
Proof.
  induction l as [|[x a] l IH]; [reflexivity|]. cbn [keys map fst In].
  destruct (existsb (Z.eqb x) (keys l)) eqn:E.
  - apply existsb_exists in E. destruct E as (z & I & Q). apply Z.eqb_eq in Q. subst z.
    rewrite IH. split; [auto|]. intros [->|H]; [apply IH, I|exact H].
  - cbn [In]. rewrite IH. reflexivity.
Qed.
Lemma keys_nodup {A} (l : list (Z * A)) : NoDup (keys l).
Proof.
  induction l as [|[x a] l IH]; [constructor|]. cbn [keys].
  destruct (existsb (Z.eqb x) (keys l)) eqn:E; [exact IH|]. constructor; [|exact IH].
  intros I. assert (X : existsb (Z.eqb x) (keys l) = true) by (apply existsb_exists; exists x; split; [exact I|apply Z.eqb_refl]).
  congruence.
Qed.
Lemma insert_in k l x : In x (insert k l) <-> x = k \/ In x l.
Proof.
  induction l as [|y l IH]; cbn; [intuition|]. destruct (k <=? y); cbn; [intuition|]. rewrite IH. intuition.
Qed.
Lemma sort_in l x : In x (sort l) <-> In x l.
Proof. induction l as [|y l IH]; [reflexivity|]. cbn [sort]. rewrite insert_in, IH. cbn. intuition. Qed.
Lemma insert_sorted k l : ~ In k l -> StronglySorted Z.lt l -> StronglySorted Z.lt (insert k l).
Proof.
  induction l as [|y l IH]; intros N S; [repeat constructor|]. cbn [insert].
  inversion S as [|? ? S1 S2]; subst. destruct (Z.leb_spec k y).
  - assert (k < y) by (cbn in N; lia). constructor; [exact S|]. constructor; [exact H0|].
    eapply Forall_impl; [|exact S2]. intros; lia.
  - constructor; [apply IH; [intros I; apply N; right; exact I|exact S1]|].
    apply Forall_forall. intros x I. apply insert_in in I. destruct I as [->|I]; [exact H|].
    rewrite Forall_forall in S2. apply S2, I.
Qed.
Lemma sort_sorted l : NoDup l -> StronglySorted Z.lt (sort l).
Proof.
  induction 1 as [|x l N _ IH]; [constructor|]. cbn [sort]. apply insert_sorted; [rewrite sort_in; exact N|exact IH].
Qed.

Lemma filter_all {A} (f : A -> bool) l : Forall (fun x => f x = true) l -> filter f l = l.
Proof. induction 1 as [|x l E _ IH]; [reflexivity|]. cbn. rewrite E, IH. reflexivity. Qed.
Lemma filter_none {A} (f : A -> bool) l : Forall (fun x => f x = false) l -> filter f l = [].
Proof. induction 1 as [|x l E _ IH]; [reflexivity|]. cbn. rewrite E, IH. reflexivity. Qed.
Lemma filter_filter {A} (f g : A -> bool) l : filter f (filter g l) = filter (fun x => g x && f x) l.
Proof. induction l as [|x l IH]; [reflexivity|]. cbn. destruct (g x); cbn; [|exact IH]. destruct (f x); rewrite IH; reflexivity. Qed.

(** the entries of the least key come first *)
Lemma split_least {A} (l : list (Z * A)) k : StronglySorted Z.le (map fst l) -> Forall (fun x => k <= fst x) l ->
  filter (fun p => fst p =? k) l ++ filter (fun p => negb (fst p =? k)) l = l.
Proof.
  induction l as [|[x a] l IH]; intros S F; [reflexivity|]. cbn [map fst] in S. inversion S as [|? ? S1 S2]; subst.
  inversion F as [|? ? F1 F2]; subst. cbn [fst] in F1. cbn [filter fst]. destruct (Z.eqb_spec x k) as [->|N]; cbn [negb].
  - cbn [app]. rewrite (IH S1 F2). reflexivity.
  - rewrite filter_none, filter_all; [reflexivity| |]; apply Forall_forall; intros [y b] I; cbn [fst];
      rewrite Forall_forall in S2; specialize (S2 y (in_map fst _ _ I)).
    + destruct (Z.eqb_spec y k); [lia|reflexivity].
    + apply Z.eqb_neq. lia.
Qed.

Lemma flat_map_ext_in {A B} (f g : A -> list B) l : (forall x, In x l -> f x = g x) -> flat_map f l = flat_map g l.
Proof. induction l as [|x l IH]; intros H; [reflexivity|]. cbn. rewrite (H x (or_introl eq_refl)), IH; [reflexivity|]. intros y I. apply H. right. exact I. Qed.

Lemma grouped {A} ks : forall (l : list (Z * A)), StronglySorted Z.lt ks -> StronglySorted Z.le (map fst l) ->
  (forall p, In p l -> In (fst p) ks) -> flat_map (fun k => filter (fun p => fst p =? k) l) ks = l.
Proof.
  induction ks as [|k ks IH]; intros l Sk Sl C.
  - destruct l as [|p l]; [reflexivity|]. destruct (C p (or_introl eq_refl)).
  - inversion Sk as [|? ? Sk1 Sk2]; subst. cbn [flat_map]. rewrite Forall_forall in Sk2.
    assert (SL : filter (fun p => fst p =? k) l ++ filter (fun p => negb (fst p =? k)) l = l).
    { apply split_least; [exact Sl|]. apply Forall_forall. intros p I. specialize (C p I). cbn in C. destruct C as [->|C]; [lia|]. specialize (Sk2 _ C). lia. }
    etransitivity; [|exact SL]. f_equal.
    +  etransitivity; [|apply (IH (filter (fun p => negb (fst p =? k)) l))].
      * apply flat_map_ext_in. intros x I. rewrite filter_filter. apply filter_ext. intros p.
        specialize (Sk2 x I). destruct (Z.eqb_spec (fst p) k), (Z.eqb_spec (fst p) x); cbn; try reflexivity. lia.
      * exact Sk1.
      * clear - Sl. induction l as [|p l IH]; [constructor|]. cbn [map] in Sl. inversion Sl as [|? ? S1 S2]; subst.
        cbn [filter]. destruct (negb _); [|apply IH, S1]. cbn [map]. constructor; [apply IH, S1|].
        apply Forall_forall. intros z I. apply in_map_iff in I. destruct I as (q & <- & I). apply filter_In in I.
        rewrite Forall_forall in S2. apply S2, in_map, I.
      * intros p I. apply filter_In in I. destruct I as [I N]. specialize (C p I). cbn in C. destruct C as [->|C]; [|exact C].
        rewrite Z.eqb_refl in N. discriminate N.
Qed.

Lemma flat_map_filter_map {A B C} (g : A -> C) (f : B -> A) (P : A -> bool) (h : Z -> list B) ks :
  flat_map (fun k => map g (filter P (map f (h k)))) ks = map g (filter P (map f (flat_map h ks))).
Proof.
  induction ks as [|k ks IH]; [reflexivity|]. cbn [flat_map]. rewrite IH, map_app, filter_app, map_app. reflexivity.
Qed.

(** What is highlighted when the entries were pushed line by line. *)
Lemma highlight_sorted offs asked root : StronglySorted Z.le (map fst offs) ->
  highlight offs asked root =
  filter (fun r => touches r (match asked with Some r => r | None => root end)) (map (fun p => o_range (snd p)) offs).
Proof.
  intros S. unfold highlight. set (r := match asked with Some r => r | None => root end). unfold on_line.
  rewrite (flat_map_filter_map o_range snd (intersects r) (fun k => filter (fun p => fst p =? k) offs)).
  rewrite grouped; [|apply sort_sorted, keys_nodup|exact S|].
  2:{ intros p I. apply sort_in, keys_in, in_map, I. }
  clear S. induction offs as [|p offs IH]; [reflexivity|]. cbn [map filter].
  rewrite intersects_touches. destruct (touches _ _); cbn [map]; rewrite IH; reflexivity.
Qed.

(** * What is sent *)

Definition good (r : range) : Prop :=
  pline (rend r) = pline (rstart r) /\ pcol (rstart r) <= pcol (rend r) /\ exists_pos (rstart r).
Definition starts (a b : range) : Prop := before (rstart a) (rstart b).

Lemma sorted_filter {A} (R : A -> A -> Prop) f l : StronglySorted R l -> StronglySorted R (filter f l).
Proof.
  induction 1 as [|x l S IH F]; [constructor|]. cbn. destruct (f x); [|exact IH]. constructor; [exact IH|].
  apply Forall_forall. intros y I. apply filter_In in I. rewrite Forall_forall in F. apply F, I.
Qed.
Lemma sorted_app {A} (R : A -> A -> Prop) a b : StronglySorted R a -> StronglySorted R b ->
  (forall x y, In x a -> In y b -> R x y) -> StronglySorted R (a ++ b).
Proof.
  induction 1 as [|x a S IH F]; intros Sb C; [exact Sb|]. cbn. constructor.
  - apply IH; [exact Sb|]. intros u w I J. apply C; [right; exact I|exact J].
  - apply Forall_app. split; [exact F|]. apply Forall_forall. intros y I. apply C; [left; reflexivity|exact I].
Qed.

Lemma hl_in_order rs : Forall good rs -> StronglySorted starts rs -> in_order (map to_hl rs).
Proof.
  intros G S. induction S as [|a l S IH F]; [exact I|]. inversion G as [|? ? G1 G2]; subst.
  destruct l as [|b l]; [exact I|]. cbn [map in_order] in *. split; [|apply IH, G2].
  inversion F as [|? ? B _]; subst. inversion G2 as [|? ? Gb _]; subst.
  destruct G1 as (_ & _ & A1 & A2), Gb as (_ & _ & B1 & B2).
  unfold starts, before in B. unfold starts_le. cbn [to_hl hl_range s_line s_char]. lia.
Qed.

Lemma tokens_shown rs : Forall good rs -> StronglySorted starts rs ->
  exists ts, tokens_of rs = Some ts /\ decode ts = map shown rs.
Proof.
  intros G S. destruct (C02_tokens_decode (map to_hl rs)) as (ts & E & D).
  - apply Forall_forall. intros h I. apply in_map_iff in I. destruct I as (r & <- & I). rewrite Forall_forall in G.
    destruct (G r I) as (_ & A & B & C). unfold forward_line. cbn [to_hl hl_range s_char e_char]. lia.
  - apply hl_in_order; assumption.
  - exists ts. split; [exact E|]. rewrite D, map_map. apply map_ext_in. intros r I. rewrite Forall_forall in G.
    destruct (G r I) as (_ & A & B & C). unfold abs_of, shown. cbn [to_hl hl_range hl_type hl_mods s_line s_char e_char].
    rewrite Z2N.inj_sub by exact C. reflexivity.
Qed.

(** * Conditions *)

Definition off_use (p : Z * offset) : use := (o_range (snd p), (o_idx (snd p), o_file (snd p))).

Lemma e_fetch_cases s y s1 : e_fetch s = Some (y, s1) ->
  e_offs s1 = e_offs s /\ e_def s1 = e_def s /\ e_dis s1 = e_dis s /\
  ((exists t, e_stack s = t :: e_stack s1 /\ y = t_sym t /\ e_iter s1 = e_iter s) \/
   (e_stack s = [] /\ lex_next (e_iter s) = Some (y, e_iter s1))).
Proof.
  unfold e_fetch. destruct (e_stack s) as [|t tl].
  - destruct (lex_next (e_iter s)) as [[z l]|]; [|discriminate]. intros H; injection H as <- <-. cbn.
    repeat (split; [reflexivity|]). right. auto.
  - intros H; injection H as <- <-. cbn. repeat (split; [reflexivity|]). left. exists t. auto.
Qed.

Lemma e_iter1_none chk xf macros s : e_fetch s = None -> e_iter1 chk xf macros s = EEnd s.
Proof. unfold e_iter1. intros ->. reflexivity. Qed.

Lemma expand_suffix fuel l macros t allow dis diff pushed lf dis' :
  expand_identifier fuel l macros t allow dis = XOk diff pushed lf dis' -> exists C, lx_rest l = C ++ lx_rest lf.
Proof. intros H. apply x_loop_suffix in H. exact H. Qed.

(** What an iteration of the evaluator records. *)
Lemma e_iter1_records chk xf macros s0 y s s' : e_fetch s0 = Some (y, s) -> e_iter1 chk xf macros s0 = ENext s' ->
  (exists D, lx_rest (e_iter s) = D ++ lx_rest (e_iter s')) /\
  match known_in_cond macros s0 y with
  | Some m => exists d, e_offs s' = e_offs s0 ++ [(pline (rstart (s_range y)), Offset (s_range y) 0 d (m_idx m) (m_file m))]
  | None => e_offs s' = e_offs s0
  end.
Proof.
  intros F. destruct (e_fetch_cases _ _ _ F) as (O & Df & Di & _). unfold e_iter1. rewrite F.
  unfold known_in_cond. rewrite <- O, <- Df, <- Di.
  destruct (s_kind y) as [| | | | | | | | | | | | | | |op|[]| | |];
    try (intros H; injection H as <-; cbn [wordless e_offs e_iter e_push]; split; [exists []; reflexivity|reflexivity]);
    try discriminate; cbn [wordless].
  all: try (destruct (close_paren _ _ _ _) as [[[stk| |] ops] un]; try discriminate; intros H; injection H as <-; split; [exists []; reflexivity|reflexivity]).
  all: try (destruct (convert op) as [c|]; [|discriminate]; destruct (reduce _ _ _ _) as [[stk| |] ops]; try discriminate;
        intros H; injection H as <-; split; [exists []; reflexivity|reflexivity]).
  all: destruct (mget macros (s_text y)) as [m|]; destruct (e_def s);
    try (intros H; injection H as <-; cbn [e_offs e_iter]; split; [exists []; reflexivity|]; try (exists 0); reflexivity);
    try (destruct (dmem m (e_dis s));
         [intros H; injection H as <-; cbn [e_offs e_iter]; split; [exists []; reflexivity|reflexivity]|]);
    (destruct (expand_identifier _ _ _ _ _ _) as [diff pushed l dis|? ? ? ?|? ? ?|] eqn:X; try discriminate;
     intros H; injection H as <-; cbn [e_offs e_iter]; apply expand_suffix in X; split; [exact X|];
     try (exists diff; reflexivity); apply app_nil_r).
Qed.

Definition recorded (r : eres) : option (list (Z * offset)) :=
  match r with EOk _ offs _ => Some offs | EErr _ _ offs _ => Some offs | _ => None end.

Lemma e_iter1_stops chk xf macros s r offs : e_iter1 chk xf macros s = EStop r -> recorded r = Some offs -> offs = e_offs s.
Proof.
  unfold e_iter1. destruct (e_fetch s) as [[y s1]|] eqn:F; [|discriminate].
  destruct (e_fetch_cases _ _ _ F) as (O & _). rewrite <- O.
  destruct (s_kind y) as [| | | | | | | | | | | | | | |op|[]| | |]; try discriminate;
    try (intros H; injection H as <-; intros H; injection H as <-; reflexivity).
  all: try (destruct (close_paren _ _ _ _) as [[[stk| |] ops] un]; try discriminate; intros H; injection H as <-; try discriminate;
        intros H; injection H as <-; reflexivity).
  all: try (destruct (convert op) as [c|]; [|intros H; injection H as <-; intros H; injection H as <-; reflexivity];
        destruct (reduce _ _ _ _) as [[stk| |] ops]; try discriminate; intros H; injection H as <-; try discriminate;
        intros H; injection H as <-; reflexivity).
  all: destruct (mget macros (s_text y)) as [m|]; destruct (e_def s1); try discriminate;
    try (destruct (dmem m (e_dis s1)); try discriminate);
    (destruct (expand_identifier _ _ _ _ _ _) as [diff pushed l dis|? ? ? ?|? ? ?|] eqn:X; try discriminate;
     intros H; injection H as <-; try discriminate; intros H; injection H as <-; reflexivity).
Qed.
Lemma e_finish_records chk s offs : recorded (e_finish chk s) = Some offs -> offs = e_offs s.
Proof.
  unfold e_finish. destruct (drain _ _ _) as [[|v l]| |]; cbn; try discriminate; intros H; injection H as <-; reflexivity.
Qed.

(** the entries are those of these symbols, keyed by their lines *)
Definition entry_of (y : symbol) (p : Z * offset) : Prop :=
  fst p = pline (rstart (s_range y)) /\ o_range (snd p) = s_range y.
Definition word (y : symbol) : Prop := in_line y /\ match s_kind y with KComment _ | KDir _ | KLit _ | KNewline | KEof | KLineCont => False | _ => True end.

Lemma ordered_app a b : ordered (a ++ b) <->
  ordered a /\ ordered b /\ (forall x y, In x a -> In y b -> before (rstart (s_range x)) (rstart (s_range y))).
Proof.
  induction a as [|x a IH]; cbn [app ordered].
  - split; [intros H; split; [exact I|split; [exact H|intros ? ? []]]|tauto].
  - rewrite IH, Forall_app. split.
    + intros (A & B & (C & D) & E & F & G). split; [auto|]. split; [exact F|].
      intros u w [<-|J] K; [rewrite Forall_forall in D; apply D, K|apply G; assumption].
    + intros ((A & B & C & D) & E & F). split; [exact A|]. split; [exact B|]. split; [split; [exact C|]|].
      * apply Forall_forall. intros w K. apply F; [left; reflexivity|exact K].
      * split; [exact D|]. split; [exact E|]. intros u w J K. apply F; [right; exact J|exact K].
Qed.
Lemma ordered_in l y : ordered l -> In y l -> in_line y /\ exists_pos (rstart (s_range y)).
Proof. induction l as [|x l IH]; intros O I; [destruct I|]. cbn in O. destruct I as [<-|I]; [tauto|apply IH; tauto]. Qed.

Lemma known_word macros s y m : known_in_cond macros s y = Some m -> s_kind y <> KLineCont -> in_line y -> word y.
Proof.
  unfold known_in_cond, word. destruct (s_kind y); cbn; try discriminate; intros; split; auto; congruence.
Qed.

(** The evaluator records the uses of the condition, in their order. *)
Lemma e_loop_records fuel : forall chk xf macros s offs,
  ordered (map fst (lx_rest (e_iter s))) -> cond_settled fuel chk xf macros s = true ->
  recorded (e_loop fuel chk xf macros s) = Some offs ->
  exists ys more, offs = e_offs s ++ more /\ Forall2 entry_of ys more /\
    map off_use more = cond_uses fuel chk xf macros s /\
    incl ys (map fst (lx_rest (e_iter s))) /\ Forall word ys /\
    StronglySorted starts (map s_range ys).
Proof.
  induction fuel as [|fuel IH]; intros chk xf macros s offs O Q R; [discriminate R|].
  cbn [e_loop cond_uses cond_settled] in *.
  destruct (e_iter1 chk xf macros s) as [s'|s'|r] eqn:E.
  - apply andb_true_iff in Q. destruct Q as [Q1 Q2].
    destruct (e_fetch s) as [[y s1]|] eqn:F; [|rewrite (e_iter1_none _ _ _ _ F) in E; discriminate E].
    destruct (e_iter1_records _ _ _ _ _ _ _ F E) as ((D & SD) & K).
    destruct (e_fetch_cases _ _ _ F) as (_ & _ & _ & C).
    destruct C as [(t & C1 & -> & C2)|(C1 & C2)].
    + rewrite C1 in *. rewrite C2 in SD. destruct (known_in_cond macros s (t_sym t)); [discriminate Q1|].
      assert (O' : ordered (map fst (lx_rest (e_iter s')))).
      { rewrite SD, map_app in O. apply ordered_app in O. tauto. }
      destruct (IH _ _ _ _ _ O' Q2 R) as (ys & more & A1 & A2 & A3 & A4 & A5 & A6).
      exists ys, more. rewrite A1, K. repeat (split; [assumption||reflexivity|]). split; [|auto].
      rewrite SD, map_app. apply incl_appr, A4.
    + rewrite C1, C2 in *. unfold lex_next in C2. destruct (lx_rest (e_iter s)) as [|[z pp] tl] eqn:L; [discriminate C2|].
      injection C2 as -> C2. rewrite <- C2 in SD. cbn [lx_rest] in SD. cbn [map fst ordered] in O. destruct O as (O1 & O2 & O3 & O4).
      assert (O' : ordered (map fst (lx_rest (e_iter s')))).
      { rewrite SD, map_app in O4. apply ordered_app in O4. tauto. }
      destruct (IH _ _ _ _ _ O' Q2 R) as (ys & more & A1 & A2 & A3 & A4 & A5 & A6).
      assert (SU : incl ys (map fst tl)) by (rewrite SD, map_app; apply incl_appr, A4).
      destruct (known_in_cond macros s y) as [m|] eqn:KN.
      * destruct K as (d & K). exists (y :: ys), ((pline (rstart (s_range y)), Offset (s_range y) 0 d (m_idx m) (m_file m)) :: more).
        split; [rewrite A1, K, <- app_assoc; reflexivity|].
        split; [constructor; [split; reflexivity|exact A2]|].
        split; [cbn [map app]; rewrite A3; reflexivity|].
        split; [intros u [<-|J]; [left; reflexivity|right; apply SU, J]|].
        split.
        -- constructor; [|exact A5]. eapply known_word; [exact KN| |exact O1]. intros X. rewrite X in Q1. discriminate Q1.
        -- cbn [map]. constructor; [exact A6|]. apply Forall_forall. intros r J. apply in_map_iff in J. destruct J as (u & <- & J).
           rewrite Forall_forall in O3. apply O3, SU, J.
      * exists ys, more. rewrite A1, K. repeat (split; [assumption||reflexivity|]). split; [|auto].
        intros u J. right. apply SU, J.
  - exists [], []. assert (X : s' = s).
    { revert E. unfold e_iter1. destruct (e_fetch s) as [[y s1]|]; [|intros H; injection H as <-; reflexivity].
      destruct (s_kind y) as [| | | | | | | | | | | | | | |op|[]| | |]; try discriminate;
        try (destruct (close_paren _ _ _ _) as [[[?| |] ?] ?]; discriminate);
        try (destruct (convert op); [destruct (reduce _ _ _ _) as [[?| |] ?]|]; discriminate);
        destruct (e_def s1), (mget macros (s_text y)) as [m|]; try discriminate;
        try (destruct (dmem m (e_dis s1)); try discriminate);
        destruct (expand_identifier _ _ _ _ _ _); discriminate. }
    subst s'. apply e_finish_records in R. rewrite app_nil_r. repeat split; auto; try constructor. intros u [].
  - exists [], []. rewrite (e_iter1_stops _ _ _ _ _ _ E R), app_nil_r. repeat split; auto; try constructor. intros u [].
Qed.

(** * The preprocessor *)

(** Nothing was recorded, and the file was read on. *)
Definition read_on (s s' : st) : Prop :=
  offsets s' = offsets s /\ exp_sym s' = exp_sym s /\ exists D, lx_rest (lex s) = D ++ lx_rest (lex s').
(** Nor was anything replaced. *)
Definition frame (s s' : st) : Prop := read_on s s' /\ estack s' = estack s.
Ltac same := split; [split; [reflexivity|]; split; [reflexivity|]; exists []; reflexivity|reflexivity].
Lemma frame_refl s : frame s s.
Proof. same. Qed.
Lemma frame_trans a b c : frame a b -> frame b c -> frame a c.
Proof.
  intros [(A1 & A2 & D & A3) A4] [(B1 & B2 & E & B3) B4]. split; [|congruence]. split; [congruence|]. split; [congruence|].
  exists (D ++ E). rewrite A3, B3, app_assoc. reflexivity.
Qed.

Lemma push_symbol_frame y s : frame s (push_symbol y s).
Proof. unfold push_symbol. destruct (s_kind y); same. Qed.
Lemma echo_frame y s : frame s (echo y s).
Proof. unfold echo. destruct (s_kind y); same. Qed.

Lemma set_lex_frame s y pp tl : lx_rest (lex s) = (y, pp) :: tl -> frame s (set_lex (Lex tl pp) s).
Proof. intros E. split; [|reflexivity]. split; [reflexivity|]. split; [reflexivity|]. exists [(y, pp)]. exact E. Qed.

Lemma define_loop_frame rest : forall d s, lx_rest (lex s) = rest ->
  (forall d' s', define_loop rest d s = DOk d' s' -> frame s s') /\
  (forall s', define_loop rest d s = DBail s' -> frame s s').
Proof.
  induction rest as [|[y pp] tl IH]; intros d s E; [split; discriminate|]. cbn [define_loop].
  pose proof (set_lex_frame _ _ _ _ E) as F0.
  set (s1 := set_lex (Lex tl pp) s) in *.
  assert (F1 : frame s (echo y s1)) by (eapply frame_trans; [exact F0|apply echo_frame]).
  assert (L1 : lx_rest (lex (echo y s1)) = tl) by (unfold echo; destruct (s_kind y); reflexivity).
  assert (C : forall (P : Prop), (s_kind y = KEof -> P) -> (s_kind y <> KEof -> P) -> P).
  { intros P A B. destruct (kind_eq_dec (s_kind y) KEof); auto. }
  apply C; intros K.
  - rewrite K. split; [|discriminate]. intros d' s' H. injection H as _ <-. exact F0.
  - assert (X : (match s_kind y with KEof => DOk d s1 | _ => match define_symbol y d with
        | None => DBail (echo y s1) | Some d0 => if pp then define_loop tl d0 (echo y s1) else DOk d0 (echo y s1) end end)
        = match define_symbol y d with None => DBail (echo y s1) | Some d0 => if pp then define_loop tl d0 (echo y s1) else DOk d0 (echo y s1) end).
    { destruct (s_kind y); try reflexivity. congruence. }
    rewrite X. clear X. destruct (define_symbol y d) as [d0|].
    + destruct pp.
      * destruct (IH d0 _ L1) as [A B]. split; intros; (eapply frame_trans; [exact F1|]); eauto.
      * split; [|discriminate]. intros d' s' H. injection H as _ <-. exact F1.
    + split; [discriminate|]. intros s' H. injection H as <-. exact F1.
Qed.

Lemma undef_loop_frame rest : forall s s', lx_rest (lex s) = rest -> undef_loop rest s = Next s' -> frame s s'.
Proof.
  induction rest as [|[y pp] tl IH]; intros s s' E; [discriminate|]. cbn [undef_loop].
  pose proof (set_lex_frame _ _ _ _ E) as F0. set (s1 := set_lex (Lex tl pp) s) in *.
  assert (F1 : frame s (echo y s1)) by (eapply frame_trans; [exact F0|apply echo_frame]).
  assert (L1 : lx_rest (lex (echo y s1)) = tl) by (unfold echo; destruct (s_kind y); reflexivity).
  destruct (kind_eqb (s_kind y) KIdent).
  - intros H. injection H as <-. eapply frame_trans; [exact F1|same].
  - destruct pp; [|intros H; injection H as <-; exact F1].
    intros H. eapply frame_trans; [exact F1|]. apply IH; assumption.
Qed.
Lemma undef_loop_stops rest : forall s f, undef_loop rest s = Stop f -> f = FFuel.
Proof.
  induction rest as [|[y pp] tl IH]; intros s f; cbn; [intros H; injection H as <-; reflexivity|].
  destruct (kind_eqb (s_kind y) KIdent); [discriminate|]. destruct pp; [apply IH|discriminate].
Qed.

Lemma include_path_frame v p q t line s : frame s (include_path v p q t line s).
Proof.
  unfold include_path. destruct p as [p|]; [|apply frame_refl]. destruct (v_inc v _ _ _ _) as [[i m] ok].
  destruct (ok || t); same.
Qed.
Lemma process_include_frame v y t s : frame s (process_include v y t s).
Proof.
  unfold process_include. cbv zeta.
  assert (A : forall y' s', frame s s' -> forall b n, frame s (if (b : bool) then push_blank n (reset_current_line (push_current_line (push_symbol y' s'))) else push_symbol y' s')).
  { intros y' s' F b n. destruct b; (eapply frame_trans; [exact F|]); [eapply frame_trans; [apply push_symbol_frame|same]|apply push_symbol_frame]. }
  apply A. eapply frame_trans; apply include_path_frame.
Qed.

Lemma process_endif_frame y s s' : process_endif y s = Some s' -> frame s s'.
Proof.
  unfold process_endif. destruct (conds s) as [|c0 [|[| |] c]]; try discriminate; intros H; injection H as <-; same.
Qed.
Lemma process_else_frame y s s' : process_else y s = Some s' -> frame s s'.
Proof. unfold process_else. destruct (conds s) as [|[| |] c]; try discriminate; intros H; injection H as <-; same. Qed.
Lemma opt_step_frame s r s' : opt_step s r = Next s' -> (forall x, r = Some x -> frame s x) -> frame s s'.
Proof. destruct r as [x|]; cbn; [|discriminate]. intros H; injection H as <-. auto. Qed.
Lemma opt_step_stop s r f : opt_step s r = Stop f -> f = FError s.
Proof. destruct r as [x|]; cbn; [discriminate|]. intros H; injection H as <-. reflexivity. Qed.

(** a directive other than one whose condition is looked at *)
Lemma directive_frame v fuel d y s s' : s_kind y = KDir d -> skipping s = false -> looks_at_condition s y = false ->
  process_directive v fuel d y s = Next s' -> frame s s'.
Proof.
  intros K S N. unfold looks_at_condition in N. rewrite K, S in N. destruct d; cbn [process_directive]; try discriminate N.
  - unfold process_elseif. destruct (conds s) as [|[| |] c]; try discriminate; intros H; injection H as <-; same.
  - intros H. eapply opt_step_frame; [exact H|]. intros x. apply process_else_frame.
  - intros H. eapply opt_step_frame; [exact H|]. intros x. apply process_endif_frame.
  - unfold process_define. cbv zeta. destruct (lx_pp _).
    + destruct (define_loop _ _ _) as [d s1|s1|] eqn:D; try discriminate. intros H. injection H as <-.
      eapply frame_trans; [apply push_symbol_frame|]. eapply frame_trans.
      * eapply (proj1 (define_loop_frame _ _ _ eq_refl)). exact D.
      * unfold define_finish. cbv zeta. destruct (d_found d); same.
    + intros H. injection H as <-. eapply frame_trans; [apply push_symbol_frame|same].
  - unfold process_undef. cbv zeta. destruct (lx_pp _); intros H.
    + eapply frame_trans; [apply push_symbol_frame|]. eapply undef_loop_frame; [|exact H]. reflexivity.
    + injection H as <-. apply push_symbol_frame.
  - intros H. injection H as <-. apply process_include_frame.
  - intros H. injection H as <-. apply process_include_frame.
  - intros H. injection H as <-. apply push_symbol_frame.
Qed.

Definition is_dir (k : kind) : bool := match k with KDir _ => true | _ => false end.

Lemma negative_frame v fuel y s s' : skipping s = true -> looks_at_condition s y = false ->
  process_negative v fuel y s = Next s' -> frame s s'.
Proof.
  intros S N. unfold process_negative, looks_at_condition in *.
  destruct (s_kind y) as [|[]| | | | | | | | | | | | | | | | | |]; try (intros H; injection H as <-; same);
    rewrite ?S in N.
  - unfold process_elseif. destruct (conds s) as [|[| |] c]; try discriminate; intros H; injection H as <-; same.
  - intros H. eapply opt_step_frame; [exact H|]. intros x. apply process_else_frame.
  - intros H. eapply opt_step_frame; [exact H|]. intros x. apply process_endif_frame.
Qed.

(** active code that is neither a macro nor a condition *)
Lemma active_frame v fuel t s s' : skipping s = false -> looks_at_condition s (t_sym t) = false ->
  known_in_code s (t_sym t) = None -> process_active v fuel t s = Next s' -> frame s s'.
Proof.
  intros S N K. unfold process_active, known_in_code in *. rewrite S in K.
  destruct (s_kind (t_sym t)) eqn:E;
    try (intros H; injection H as <-; first [same|apply push_symbol_frame]); try discriminate.
  - eapply directive_frame; eassumption.
  - destruct (intr s) as [[]|] eqn:I;
      try (destruct (mget (macros s) (s_text (t_sym t))) as [m|];
           [destruct (dmem m (disabled s)); [|discriminate K]|];
           intros H; injection H as <-; (eapply frame_trans; [|apply push_symbol_frame]); same).
    intros H. injection H as <-. destruct (String.eqb _ _); same.
  - destruct (intr s) as [[]|]; intros H; injection H as <-; try same; (eapply frame_trans; [|apply push_symbol_frame]; same).
  - destruct (intr s) as [[]|]; intros H; injection H as <-; try same; apply push_symbol_frame.
Qed.

(** a macro *)
Lemma active_use v fuel t s s' m : known_in_code s (t_sym t) = Some m -> process_active v fuel t s = Next s' ->
  offsets s' = offsets s /\ exp_sym s' = Some (t_sym t, (m_idx m, m_file m)) /\
  exists D, lx_rest (lex s) = D ++ lx_rest (lex s').
Proof.
  unfold known_in_code, process_active. destruct (s_kind (t_sym t)); try discriminate.
  destruct (skipping s); [discriminate|].
  destruct (intr s) as [[]|]; try discriminate;
    (destruct (mget (macros s) (s_text (t_sym t))) as [m0|]; [|discriminate];
     destruct (dmem m0 (disabled s)); [discriminate|]; intros H; injection H as <-;
     destruct (expand_identifier _ _ _ _ _ _) as [diff pushed l dis|? ? ? ?|? ? ?|] eqn:X; try discriminate;
     intros H; injection H as <-; cbn; apply expand_suffix in X; auto).
Qed.

(** a condition *)
Lemma take_directive_split rest : forall ys l, take_directive rest = (ys, l) -> map fst rest = ys ++ map fst (lx_rest l).
Proof.
  induction rest as [|[y pp] tl IH]; intros ys l; cbn; [intros H; injection H as <- <-; reflexivity|].
  destruct pp.
  - destruct (take_directive tl) as [ys' l']. intros H; injection H as <- <-. cbn. rewrite (IH _ _ eq_refl). reflexivity.
  - intros H; injection H as <- <-. reflexivity.
Qed.
Lemma directive_symbols_split l ys l' : directive_symbols l = (ys, l') -> map fst (lx_rest l) = ys ++ map fst (lx_rest l').
Proof.
  unfold directive_symbols. destruct (lx_pp l); [apply take_directive_split|]. intros H; injection H as <- <-. reflexivity.
Qed.
Lemma cond_records v fuel y s s' : process_if v fuel y s = Next s' ->
  let (ys, l) := directive_symbols (lex s) in
  exists offs, recorded (evaluate fuel (v_chk v) (macros s) (disabled s) (pline (rstart (s_range y))) ys) = Some offs /\
    offsets s' = offsets s ++ offs /\ exp_sym s' = exp_sym s /\ lex s' = l.
Proof.
  unfold process_if. destruct (directive_symbols (lex s)) as [ys l]. cbv zeta.
  destruct (evaluate _ _ _ _ _ _) as [b offs dis|r nf offs dis| |]; try discriminate; intros H; exists offs;
    (split; [reflexivity|]); revert H; [destruct b|]; destruct (rev ys); intros H; injection H as <-; repeat split.
Qed.

(** * The invariant *)

Definition pend (s : st) : list use :=
  match exp_sym s with Some (es, n) => [(s_range es, n)] | None => [] end.
Definition rest_of (s : st) : list symbol := map fst (lx_rest (lex s)).

Record inv (s : st) (us : list use) : Prop := Inv {
  i_us : map off_use (offsets s) ++ pend s = us;
  i_lex : ordered (rest_of s);
  i_starts : StronglySorted starts (map fst us);
  i_next : forall u y, In u us -> In y (rest_of s) -> before (rstart (fst u)) (rstart (s_range y));
  i_keys : StronglySorted Z.le (map fst (offsets s));
  i_keys_next : forall p y, In p (offsets s) -> In y (rest_of s) -> fst p <= pline (rstart (s_range y));
  i_good : Forall (fun u => good (fst u)) us }.

Lemma rest_app s s' D : lx_rest (lex s) = D ++ lx_rest (lex s') -> rest_of s = map fst D ++ rest_of s'.
Proof. unfold rest_of. intros ->. apply map_app. Qed.

Lemma inv_read_on s s' us : inv s us -> read_on s s' -> inv s' us.
Proof.
  intros [A B C D E F G] (F1 & F2 & X & F3). apply rest_app in F3. rewrite F3 in B. apply ordered_app in B.
  constructor; rewrite ?F1; auto.
  - unfold pend. rewrite F2. exact A.
  - tauto.
  - intros u y I J. apply D; [exact I|]. rewrite F3. apply in_or_app. auto.
  - intros p y I J. apply F; [exact I|]. rewrite F3. apply in_or_app. auto.
Qed.
Lemma inv_frame s s' us : inv s us -> frame s s' -> inv s' us.
Proof. intros I [F _]. eapply inv_read_on; eassumption. Qed.

(** Reading a symbol from the file. *)
Lemma fetch_file s us y l t s1 : inv s us -> estack s = [] -> lex_next (lex s) = Some (y, l) -> fetch s = Some (t, s1) ->
  t = tok y /\ lex s1 = l /\ exp_sym s1 = None /\ estack s1 = [] /\ skipping s1 = skipping s /\ macros s1 = macros s /\ disabled s1 = disabled s /\
  conds s1 = conds s /\ intr s1 = intr s /\ inv s1 us /\ in_line y /\ exists_pos (rstart (s_range y)) /\
  (forall u, In u us -> before (rstart (fst u)) (rstart (s_range y))) /\
  (forall p, In p (offsets s1) -> fst p <= pline (rstart (s_range y))) /\
  (forall z, In z (rest_of s1) -> before (rstart (s_range y)) (rstart (s_range z))).
Proof.
  intros [A B C D E F G] N L. unfold fetch. rewrite N, L. unfold lex_next in L.
  destruct (lx_rest (lex s)) as [|[z pp] tl] eqn:R; [discriminate L|]. injection L as -> <-.
  assert (RS : rest_of s = y :: map fst tl) by (unfold rest_of; rewrite R; reflexivity).
  rewrite RS in *. cbn [ordered] in B. destruct B as (B1 & B2 & B3 & B4). rewrite Forall_forall in B3.
  unfold pend in A. destruct (exp_sym s) as [[es [i f]]|]; intros H; injection H as <- <-;
    cbn [skipping conds set_adiff set_col_off set_offsets set_lex set_exp_sym lex exp_sym macros disabled intr].
  - repeat (split; [reflexivity||exact N|]). split; [constructor|].
    + cbn [offsets set_adiff set_col_off set_offsets set_lex set_exp_sym pend exp_sym].
      rewrite map_app, app_nil_r. exact A.
    + exact B4.
    + exact C.
    + intros u w I J. apply D; [exact I|]. right. exact J.
    + cbn [offsets set_adiff set_col_off set_offsets set_lex set_exp_sym]. rewrite map_app. apply sorted_app; [exact E|repeat constructor|].
      intros x w I J. apply in_map_iff in I. destruct I as (p & <- & I). cbn in J. destruct J as [<-|[]].
      apply F; [exact I|left; reflexivity].
    + cbn [offsets set_adiff set_col_off set_offsets set_lex set_exp_sym]. intros p w I J. apply in_app_or in I.
      destruct I as [I|[<-|[]]]; [apply F; [exact I|right; exact J]|]. cbn [fst]. apply before_line, B3, J.
    + exact G.
    + split; [exact B1|]. split; [exact B2|]. split; [intros u I; apply D; [exact I|left; reflexivity]|]. split.
      * cbn [offsets set_adiff set_col_off set_offsets set_lex set_exp_sym]. intros p I. apply in_app_or in I.
        destruct I as [I|[<-|[]]]; [apply F; [exact I|left; reflexivity]|]. cbn [fst]. lia.
      * exact B3.
  - repeat (split; [reflexivity||exact N|]). split; [constructor|].
    + exact A.
    + exact B4.
    + exact C.
    + intros u w I J. apply D; [exact I|]. right. exact J.
    + exact E.
    + intros p w I J. apply F; [exact I|right; exact J].
    + exact G.
    + split; [exact B1|]. split; [exact B2|]. split; [intros u I; apply D; [exact I|left; reflexivity]|]. split.
      * intros p I. apply F; [exact I|left; reflexivity].
      * exact B3.
Qed.

Lemma word_good y : word y -> exists_pos (rstart (s_range y)) -> good (s_range y).
Proof. unfold word, in_line, good. destruct (s_kind y); tauto. Qed.

Lemma entries_uses ys more : Forall2 entry_of ys more ->
  map (fun u => fst u) (map off_use more) = map s_range ys /\
  map fst more = map (fun y => pline (rstart (s_range y))) ys.
Proof.
  induction 1 as [|y p ys more [A B] _ [IH1 IH2]]; [split; reflexivity|]. cbn [map off_use fst]. rewrite IH1, IH2, A, B. auto.
Qed.

(** Looking at a condition. *)
Lemma inv_cond v fuel y s s' us : inv s us -> exp_sym s = None ->
  (forall u, In u us -> before (rstart (fst u)) (rstart (s_range y))) ->
  process_if v fuel y s = Next s' ->
  cond_settled fuel (v_chk v) fuel (macros s)
    (cond_start (disabled s) (pline (rstart (s_range y))) (fst (directive_symbols (lex s)))) = true ->
  inv s' (us ++ cond_uses fuel (v_chk v) fuel (macros s)
                  (cond_start (disabled s) (pline (rstart (s_range y))) (fst (directive_symbols (lex s))))) /\
  exp_sym s' = None.
Proof.
  intros I X _ P Q. pose proof (cond_records _ _ _ _ _ P) as R. destruct I as [A B C D E F G].
  destruct (directive_symbols (lex s)) as [ys l] eqn:DS. cbn [fst] in *. destruct R as (offs & R1 & R2 & R3 & R4).
  pose proof (directive_symbols_split _ _ _ DS) as SP. fold (rest_of s) in SP. rewrite SP in *.
  apply ordered_app in B. destruct B as (B1 & B2 & B3).
  unfold evaluate in R1. fold (cond_start (disabled s) (pline (rstart (s_range y))) ys) in R1.
  assert (Z0 : map fst (lx_rest (e_iter (cond_start (disabled s) (pline (rstart (s_range y))) ys))) = ys).
  { cbn [cond_start e_iter lx_rest]. rewrite map_map. cbn [fst]. apply map_id. }
  destruct (e_loop_records fuel _ _ _ _ _ ltac:(rewrite Z0; exact B1) Q R1) as (zs & more & M1 & M2 & M3 & M4 & M5 & M6).
  rewrite Z0 in M4. cbn [cond_start e_offs app] in M1. subst offs.
  destruct (entries_uses _ _ M2) as [U1 U2].
  assert (PE : pend s = []) by (unfold pend; rewrite X; reflexivity).
  assert (PE' : pend s' = []) by (unfold pend; rewrite R3, X; reflexivity).
  assert (RS : rest_of s' = map fst (lx_rest l)) by (unfold rest_of; rewrite R4; reflexivity).
  rewrite PE, app_nil_r in A.
  assert (W : forall u, In u (cond_uses fuel (v_chk v) fuel (macros s) (cond_start (disabled s) (pline (rstart (s_range y))) ys)) ->
     exists z, In z zs /\ fst u = s_range z).
  { intros u J. rewrite <- M3 in J. apply (in_map (fun u => fst u)) in J. rewrite U1 in J. apply in_map_iff in J.
    destruct J as (z & J1 & J2). exists z. auto. }
  split; [|rewrite R3; exact X]. constructor.
  - rewrite R2, map_app, PE', app_nil_r, A, M3. reflexivity.
  - rewrite RS. exact B2.
  - rewrite map_app. apply sorted_app; [exact C| |].
    + rewrite <- M3. change (map fst (map off_use more)) with (map (fun u => fst u) (map off_use more)). rewrite U1. exact M6.
    + intros a b J K. apply in_map_iff in J, K. destruct J as (u & <- & J), K as (w & <- & K).
      destruct (W w K) as (z & Z1 & Z2). unfold starts. rewrite Z2. apply D; [exact J|]. apply in_or_app. left. apply M4, Z1.
  - rewrite RS. intros u w J K. apply in_app_or in J. destruct J as [J|J].
    + apply D; [exact J|]. apply in_or_app. auto.
    + destruct (W u J) as (z & Z1 & Z2). rewrite Z2. apply B3; [apply M4, Z1|exact K].
  - rewrite R2, map_app, U2. apply sorted_app; [exact E| |].
    + clear - M6. induction zs as [|z zs IH]; [constructor|]. cbn [map] in *. inversion M6 as [|? ? S1 S2]; subst. constructor; [apply IH, S1|].
      apply Forall_forall. intros k J. apply in_map_iff in J. destruct J as (w & <- & J). apply before_line.
      rewrite Forall_forall in S2. apply S2, in_map, J.
    + intros a b J K. apply in_map_iff in J, K. destruct J as (p & <- & J), K as (z & <- & K).
      apply F; [exact J|]. apply in_or_app. left. apply M4, K.
  - rewrite R2, RS. intros p w J K. apply in_app_or in J. destruct J as [J|J].
    + apply F; [exact J|]. apply in_or_app. auto.
    + apply (in_map fst) in J. rewrite U2 in J. apply in_map_iff in J. destruct J as (z & <- & J).
      apply before_line, B3; [apply M4, J|exact K].
  - apply Forall_app. split; [exact G|]. apply Forall_forall. intros u J. destruct (W u J) as (z & Z1 & Z2). rewrite Z2.
    apply word_good; [rewrite Forall_forall in M5; apply M5, Z1|]. apply (ordered_in ys); [exact B1|apply M4, Z1].
Qed.

(** One iteration that goes on. *)
Definition new_uses (v : env) (fuel : nat) (s : st) : list use :=
  match estack s, lex_next (lex s) with [], Some (y, l) => uses_at v fuel s y l | _, _ => [] end.
Definition settled_here (v : env) (fuel : nat) (s : st) : bool :=
  match estack s with
  | t :: _ => match t_kind t, known_in_code s (t_sym t) with KDir _, _ | _, Some _ => false | _, None => true end
  | [] =>
      match lex_next (lex s) with
      | Some (y, l) =>
          if looks_at_condition s y
          then cond_settled fuel (v_chk v) fuel (macros s)
                 (cond_start (disabled s) (pline (rstart (s_range y))) (fst (directive_symbols l)))
          else true
      | None => true
      end
  end.

Lemma known_same s s1 y : skipping s1 = skipping s -> macros s1 = macros s -> disabled s1 = disabled s -> intr s1 = intr s ->
  known_in_code s1 y = known_in_code s y.
Proof. unfold known_in_code. intros -> -> -> ->. reflexivity. Qed.
Lemma looks_same s s1 y : skipping s1 = skipping s -> conds s1 = conds s -> looks_at_condition s1 y = looks_at_condition s y.
Proof. unfold looks_at_condition. intros -> ->. reflexivity. Qed.

Lemma stack_fetch s t tl : estack s = t :: tl -> exists s1, fetch s = Some (t, s1) /\ read_on s (record_arg t s1) /\ estack (record_arg t s1) = tl /\
  skipping (record_arg t s1) = skipping s /\ macros (record_arg t s1) = macros s /\ disabled (record_arg t s1) = disabled s /\
  conds (record_arg t s1) = conds s /\ intr (record_arg t s1) = intr s.
Proof.
  intros E. unfold fetch. rewrite E. eexists. split; [reflexivity|]. unfold record_arg. destruct (t_orig t);
    (split; [split; [reflexivity|]; split; [reflexivity|]; exists []; reflexivity|]); repeat split.
Qed.

Lemma step_inv v fuel s us s' : inv s us -> settled_here v fuel s = true -> step v fuel s = Next s' ->
  inv s' (us ++ new_uses v fuel s).
Proof.
  intros I Q H. unfold step in H. unfold settled_here in Q. unfold new_uses.
  destruct (estack s) as [|t tl] eqn:E.
  - destruct (lex_next (lex s)) as [[y l]|] eqn:L.
    2:{ unfold fetch in H. rewrite E, L in H. discriminate H. }
    destruct (fetch s) as [[t s1]|] eqn:FE; [|discriminate H].
    destruct (fetch_file _ _ _ _ _ _ I E L FE) as (-> & L1 & X1 & E1 & S1 & M1 & D1 & C1 & N1 & I1 & IL & EP & B1 & B2 & B3).
    change (record_arg (tok y) s1) with s1 in H. change (t_sym (tok y)) with y in H. unfold uses_at.
    pose proof (looks_same s s1 y S1 C1) as LS. pose proof (known_same s s1 y S1 M1 D1 N1) as KS.
    destruct (looks_at_condition s y) eqn:LC.
    + (* a condition *)
      rewrite <- L1, <- M1, <- D1 in Q |- *.
      assert (P : exists s2, frame s1 s2 /\ macros s2 = macros s1 /\ disabled s2 = disabled s1 /\ lex s2 = lex s1 /\ process_if v fuel y s2 = Next s').
      { unfold looks_at_condition in LS. destruct (s_kind y) as [|[]| | | | | | | | | | | | | | | | | |] eqn:K; try discriminate LS.
        - destruct (skipping s1) eqn:SK; [discriminate LS|]. exists s1. split; [apply frame_refl|]. repeat split.
          unfold process_active in H. cbn [t_sym tok] in H. rewrite K in H. exact H.
        - destruct (conds s1) as [|[| |] c] eqn:CC; try discriminate LS. exists (set_conds c s1). split; [same|]. repeat split.
          unfold skipping in H. rewrite CC in H. unfold process_negative in H. rewrite K in H. unfold process_elseif in H. rewrite CC in H. exact H. }
      destruct P as (s2 & P1 & P2 & P3 & P4 & P5). pose proof (inv_frame _ _ _ I1 P1) as I2.
      rewrite <- P2, <- P3, <- P4 in *. destruct P1 as [(_ & PX & _) _].
      eapply inv_cond; [exact I2|congruence|exact B1|exact P5|exact Q].
    + destruct (known_in_code s y) as [m|] eqn:KN.
      * (* a macro *)
        assert (SK : skipping s1 = false).
        { unfold known_in_code in KS. destruct (s_kind y); try discriminate KS. destruct (skipping s1); [discriminate KS|reflexivity]. }
        rewrite SK in H. destruct (active_use v fuel (tok y) s1 s' m KS H) as (A1 & A2 & D & A3). cbn [t_sym tok] in A2.
        destruct I1 as [J1 J2 J3 J4 J5 J6 J7]. apply rest_app in A3. rewrite A3 in *.
        apply ordered_app in J2. destruct J2 as (_ & J2 & _).
        assert (W : word y).
        { split; [exact IL|]. unfold known_in_code in KN. destruct (s_kind y); try discriminate KN. exact Logic.I. }
        unfold pend in J1. rewrite X1, app_nil_r in J1.
        constructor; rewrite ?A1.
        -- unfold pend. rewrite A2, J1. reflexivity.
        -- exact J2.
        -- rewrite map_app. apply sorted_app; [exact J3|repeat constructor|]. intros a b J K. apply in_map_iff in J. destruct J as (u & <- & J).
           cbn in K. destruct K as [<-|[]]. apply B1, J.
        -- intros u w J K. apply in_app_or in J. destruct J as [J|[<-|[]]].
           ++ apply J4; [exact J|]. apply in_or_app. auto.
           ++ cbn [use_of fst]. apply B3. apply in_or_app. auto.
        -- exact J5.
        -- intros p w J K. apply J6; [exact J|]. apply in_or_app. auto.
        -- apply Forall_app. split; [exact J7|]. repeat constructor; cbn [use_of fst]; apply (word_good y W EP).
      * (* anything else *)
        rewrite app_nil_r. eapply inv_frame; [exact I1|].
        destruct (skipping s1) eqn:SK; [eapply negative_frame; eassumption|].
        eapply (active_frame v fuel (tok y)); [exact SK|exact LS|exact KS|exact H].
  - rewrite app_nil_r.
    destruct (stack_fetch _ _ _ E) as (s1 & FE & FR & _ & S1 & M1 & D1 & C1 & N1). rewrite FE in H.
    pose proof (inv_read_on _ _ _ I FR) as I1. eapply inv_frame; [exact I1|].
    pose proof (known_same s _ (t_sym t) S1 M1 D1 N1) as KS.
    assert (ND : looks_at_condition (record_arg t s1) (t_sym t) = false).
    { unfold looks_at_condition. unfold t_kind in Q. destruct (s_kind (t_sym t)); try reflexivity. discriminate Q. }
    assert (KN : known_in_code (record_arg t s1) (t_sym t) = None).
    { rewrite KS. destruct (t_kind t); destruct (known_in_code s (t_sym t)); try discriminate Q; reflexivity. }
    destruct (skipping (record_arg t s1)) eqn:SK; [eapply negative_frame; eassumption|].
    eapply active_frame; eassumption.
Qed.

(** One iteration that ends. *)
Definition ended (f : final) : option st := match f with FResult s | FError s => Some s | _ => None end.

Lemma directive_stop v fuel d y s f s' : process_directive v fuel d y s = Stop f -> ended f = Some s' -> offsets s' = offsets s.
Proof.
  destruct d; cbn [process_directive].
  - unfold process_if. destruct (directive_symbols (lex s)) as [ys l]. cbv zeta.
    destruct (evaluate _ _ _ _ _ _) as [b offs dis|r nf offs dis| |]; [destruct b| | |]; destruct (rev ys); try discriminate; intros H; injection H as <-; discriminate.
  - unfold process_elseif. destruct (conds s) as [|[| |] c]; try discriminate.
    + intros H; injection H as <-. intros H; injection H as <-. reflexivity.
    + unfold process_if. destruct (directive_symbols _) as [ys l]. cbv zeta.
      destruct (evaluate _ _ _ _ _ _) as [b offs dis|r nf offs dis| |]; [destruct b| | |]; destruct (rev ys); try discriminate; intros H; injection H as <-; discriminate.
  - intros H. apply opt_step_stop in H. subst f. intros H; injection H as <-. reflexivity.
  - intros H. apply opt_step_stop in H. subst f. intros H; injection H as <-. reflexivity.
  - unfold process_define. cbv zeta. destruct (lx_pp _); [|discriminate].
    destruct (define_loop _ _ _) as [d s1|s1|] eqn:D; try discriminate; intros H; injection H as <-; [|discriminate].
    intros H; injection H as <-. apply (proj2 (define_loop_frame _ _ _ eq_refl)) in D.
    destruct (push_symbol_frame y s) as [(A & _) _], D as [(B & _) _]. congruence.
  - unfold process_undef. cbv zeta. destruct (lx_pp _); [|discriminate]. intros H. apply undef_loop_stops in H. subst f. discriminate.
  - discriminate.
  - discriminate.
  - discriminate.
Qed.

Lemma negative_stop v fuel y s f s' : process_negative v fuel y s = Stop f -> ended f = Some s' -> offsets s' = offsets s.
Proof.
  unfold process_negative. destruct (s_kind y) as [|[]| | | | | | | | | | | | | | | | | |]; try discriminate.
  - exact (directive_stop v fuel MElseif y s f s').
  - exact (directive_stop v fuel MElse y s f s').
  - exact (directive_stop v fuel MEndif y s f s').
Qed.

Lemma active_stop v fuel t s f s' : process_active v fuel t s = Stop f -> ended f = Some s' -> offsets s' = offsets s.
Proof.
  unfold process_active. destruct (s_kind (t_sym t)) eqn:K; try discriminate.
  - intros H; injection H as <-. intros H; injection H as <-. reflexivity.
  - apply directive_stop.
  - destruct (intr s) as [[]|]; try discriminate;
      (destruct (mget _ _) as [m|]; [|discriminate]; destruct (dmem _ _); [discriminate|];
       destruct (expand_identifier _ _ _ _ _ _); try discriminate; intros H; injection H as <-; try discriminate;
       intros H; injection H as <-; reflexivity).
  - destruct (intr s) as [[]|]; discriminate.
  - destruct (intr s) as [[]|]; discriminate.
  - intros H; injection H as <-. intros H; injection H as <-. reflexivity.
Qed.

Lemma step_end v fuel s us f s' : inv s us -> step v fuel s = Stop f -> ended f = Some s' ->
  exists lost, us = map off_use (offsets s') ++ lost /\ (List.length lost <= 1)%nat /\
    (match estack s, lex_next (lex s) with [], Some _ => lost = [] | _, _ => True end) /\
    StronglySorted Z.le (map fst (offsets s')) /\ StronglySorted starts (map fst us) /\ Forall (fun u => good (fst u)) us.
Proof.
  intros I H En. unfold step in H.
  assert (PL : (List.length (pend s) <= 1)%nat) by (unfold pend; destruct (exp_sym s) as [[]|]; cbn; lia).
  destruct (estack s) as [|t tl] eqn:E.
  - destruct (lex_next (lex s)) as [[y l]|] eqn:L.
    + destruct (fetch s) as [[t s1]|] eqn:FE; [|unfold fetch in FE; rewrite E, L in FE; destruct (exp_sym s) as [[? [? ?]]|]; discriminate FE].
      destruct (fetch_file _ _ _ _ _ _ I E L FE) as (-> & L1 & X1 & E1 & S1 & M1 & D1 & C1 & N1 & I1 & _).
      change (record_arg (tok y) s1) with s1 in H.
      assert (O : offsets s' = offsets s1) by (destruct (skipping s1); [eapply negative_stop|eapply active_stop]; eassumption).
      destruct I1 as [J1 J2 J3 J4 J5 J6 J7]. unfold pend in J1. rewrite X1 in J1.
      exists []. rewrite O. repeat split; auto.
    + unfold fetch in H. rewrite E, L in H. injection H as <-. injection En as <-. cbn [offsets set_exp_sym].
      destruct I as [J1 J2 J3 J4 J5 J6 J7]. exists (pend s). repeat split; auto.
  - destruct (stack_fetch _ _ _ E) as (s1 & FE & FR & _). rewrite FE in H.
    assert (O : offsets s' = offsets s).
    { destruct FR as (FO & _). rewrite <- FO. destruct (skipping (record_arg t s1)); [eapply negative_stop|eapply active_stop]; eassumption. }
    destruct I as [J1 J2 J3 J4 J5 J6 J7]. exists (pend s). rewrite O. repeat split; auto.
Qed.

Lemma run_uses n : forall v fuel s us f s', inv s us -> settled n v fuel s = true -> run n v fuel s = f -> ended f = Some s' ->
  exists lost, us ++ uses n v fuel s = map off_use (offsets s') ++ lost /\ (List.length lost <= 1)%nat /\
    (stops_in_file n v fuel s = true -> lost = []) /\
    StronglySorted Z.le (map fst (offsets s')) /\ StronglySorted starts (map fst (us ++ uses n v fuel s)) /\
    Forall (fun u => good (fst u)) (us ++ uses n v fuel s).
Proof.
  induction n as [|n IH]; intros v fuel s us f s' I Q R En; cbn [run] in R; [subst f; discriminate En|].
  cbn [settled] in Q. fold (settled_here v fuel s) in Q. apply andb_true_iff in Q. destruct Q as [Q1 Q2].
  cbn [uses stops_in_file]. fold (new_uses v fuel s).
  destruct (step v fuel s) as [s1|g] eqn:ST.
  - pose proof (step_inv _ _ _ _ _ I Q1 ST) as I1. destruct (IH _ _ _ _ _ _ I1 Q2 R En) as (lost & X).
    exists lost. rewrite app_assoc. exact X.
  - subst g. rewrite app_nil_r. destruct (step_end _ _ _ _ _ _ I ST En) as (lost & A1 & A2 & A3 & A4 & A5 & A6).
    exists lost. repeat (split; [assumption|]). split; [|auto]. destruct (estack s); [|discriminate].
    destruct (lex_next (lex s)); [auto|discriminate].
Qed.

Lemma inv_init i m syms : ordered (map fst syms) -> inv (init_st i m syms) [].
Proof. intros O. constructor; [reflexivity|exact O|constructor|intros ? ? []|constructor|intros ? ? []|constructor]. Qed.
