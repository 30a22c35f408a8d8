(** How macros.rs collects the arguments of a call and fills a body, for C22. *)
From Coq Require Import List ZArith Bool String Ascii Lia.
From Verif Require Import PreTypes MacroModel MacroProofs LinesExpand MacroSpec.
Import ListNotations.
Local Open Scope list_scope.

Definition look (t : token) : stok := see (t_sym t).
Definition looks (c : list qtok) : list stok := map (fun q => look (q_tok q)) c.

Lemma pulls_ctx_app a : forall b p l, pulls (Src (a ++ b) p l) (map q_tok a) (Src b p l).
Proof. induction a as [|x a IH]; intros b p l; [constructor|]. cbn [map]. econstructor; [reflexivity|apply IH]. Qed.

Fixpoint last_flag (d : bool) (a : list (symbol * bool)) : bool :=
  match a with [] => d | (_, b) :: tl => last_flag b tl end.
Lemma pulls_lex_app a : forall b pp,
  pulls (Src [] [] (Lex (a ++ b) pp)) (map (fun p => tok (fst p)) a) (Src [] [] (Lex b (last_flag pp a))).
Proof. induction a as [|[x f] a IH]; intros b pp; [constructor|]. cbn [map last_flag]. econstructor; [reflexivity|apply IH]. Qed.

Lemma pulls_len q T q' : pulls q T q' -> src_len q = (List.length T + src_len q')%nat.
Proof. induction 1 as [|q t q1 l q2 Hp _ IH]; [reflexivity|]. apply pull_len in Hp. cbn. lia. Qed.

Lemma push_arg_at d : forall c r t, push_arg (d ++ c :: r) (List.length d) t = d ++ (c ++ [t]) :: r.
Proof. induction d as [|x d IH]; intros c r t; [reflexivity|]. cbn. rewrite IH. reflexivity. Qed.

Lemma pulls_split a : forall q b q', pulls q (a ++ b) q' -> exists q1, pulls q a q1 /\ pulls q1 b q'.
Proof.
  induction a as [|t a IH]; intros q b q' H; [exists q; split; [constructor|exact H]|].
  inversion H as [|? ? q1 ? ? E H1]; subst. destruct (IH _ _ _ H1) as (q2 & A & B).
  exists q2. split; [econstructor; eauto|exact B].
Qed.

Lemma look_kind t : k_ (look t) = t_kind t. Proof. reflexivity. Qed.

(** One argument. *)
Lemma collect_argument sym nb temp c done rest : forall T q q' depth cur fuel,
  pulls q T q' -> one_argument depth (map look T) = true ->
  collect (List.length T + fuel) sym nb q temp (1 + Z.of_nat depth) (List.length done) (done ++ cur :: rest) (Some c)
  = collect fuel sym nb q' temp 1 (List.length done) (done ++ (cur ++ T) :: rest) (Some c).
Proof.
  induction T as [|t T IH]; intros q q' depth cur fuel P O.
  - inversion P; subst. cbn in O. apply Nat.eqb_eq in O as ->. rewrite app_nil_r. reflexivity.
  - inversion P as [|? ? q1 ? ? E P1]; subst. cbn [List.length Nat.add collect]. rewrite E.
    cbn [map one_argument] in O. rewrite look_kind in O.
    assert (F : forall d, (1 <? 1 + Z.of_nat (S d))%Z = true) by (intros; apply Z.ltb_lt; lia).
    assert (G : forall d, (0 <? 1 + Z.of_nat d)%Z = true) by (intros; apply Z.ltb_lt; lia).
    assert (H : forall d, (1 + Z.of_nat d + 1 = 1 + Z.of_nat (S d))%Z) by (intros; lia).
    assert (D : forall d fuel,
        one_argument d (map look T) = true ->
        collect (List.length T + fuel) sym nb q1 temp (1 + Z.of_nat d) (List.length done)
          (push_arg (done ++ cur :: rest) (List.length done) t) (Some c)
        = collect fuel sym nb q' temp 1 (List.length done) (done ++ (cur ++ t :: T) :: rest) (Some c)).
    { intros d f O'. rewrite push_arg_at, (IH _ _ _ _ _ P1 O'), <- app_assoc. reflexivity. }
    destruct (t_kind t) eqn:K; cbv zeta; try (rewrite G; apply D; exact O).
    + rewrite H, F. apply D. exact O.
    + destruct depth as [|d]; [discriminate|]. rewrite F.
      replace (1 + Z.of_nat (S d) - 1)%Z with (1 + Z.of_nat d)%Z by lia.
      destruct (Z.eqb_spec (1 + Z.of_nat d) 0); [lia|]. apply D. exact O.
    + destruct depth as [|d]; [discriminate|].
      destruct (Z.eqb_spec (1 + Z.of_nat (S d)) 1); [lia|]. rewrite F. apply D. exact O.
Qed.

Definition fine_more (more : list (token * list token)) : Prop :=
  Forall (fun ca => t_kind (fst ca) = KComma /\ one_argument 0 (map look (snd ca)) = true) more.

(** The surplus: everything goes to the last argument. *)
Lemma collect_surplus sym nb temp c done rest : (nb <= S (List.length done))%nat ->
  forall more q q' cur fuel, pulls q (joined more) q' -> fine_more more ->
  collect (List.length (joined more) + fuel) sym nb q temp 1 (List.length done) (done ++ cur :: rest) (Some c)
  = collect fuel sym nb q' temp 1 (List.length done) (done ++ (cur ++ joined more) :: rest) (Some c).
Proof.
  intros N. induction more as [|[co a] more IH]; intros q q' cur fuel P F.
  - inversion P; subst. cbn. rewrite app_nil_r. reflexivity.
  - change (joined ((co, a) :: more)) with (co :: a ++ joined more) in *. inversion F as [|? ? [F1 F2] F3]; subst. cbn [fst snd] in *.
    inversion P as [|? ? q1 ? ? E P1]; subst. destruct (pulls_split _ _ _ _ P1) as (q2 & PA & PM).
    cbn [List.length Nat.add collect]. rewrite E, F1, Z.eqb_refl.
    replace (S (List.length done) <? nb)%nat with false by (symmetry; apply Nat.ltb_ge; exact N).
    rewrite push_arg_at, app_length, <- Nat.add_assoc.
    rewrite (collect_argument sym nb temp c done rest a _ _ 0 (cur ++ [co]) _ PA F2).
    rewrite (IH _ _ _ _ PM F3), <- !app_assoc. reflexivity.
Qed.

(** The arguments up to the closing parenthesis. *)
Lemma collect_rest sym nb temp c rp : t_kind rp = KRParen ->
  forall more q q' done cur k fuel, pulls q (joined more ++ [rp]) q' -> fine_more more ->
  (nb <= S (List.length done) + k)%nat ->
  exists k', collect (List.length (joined more ++ [rp]) + fuel) sym nb q temp 1 (List.length done)
      (done ++ cur :: repeat [] k) (Some c)
    = CSome (done ++ shared (nb - S (List.length done)) cur more ++ repeat [] k')
        (paren_diff (Some c) (Some (pcol (rend (t_range rp))))) q'.
Proof.
  intros KR. induction more as [|[co a] more IH]; intros q q' done cur k fuel P F N.
  - cbn [joined map List.concat app] in *. inversion P as [|? ? q1 ? ? E P1]; subst. inversion P1; subst.
    exists k. cbn [List.length Nat.add collect]. rewrite E, KR. cbn [Z.ltb Z.compare Pos.compare Pos.compare_cont Z.sub Z.eqb Z.add Z.opp Pos.sub_mask Z.pos_sub]. reflexivity.
  - cbn [shared]. destruct (nb - S (List.length done))%nat as [|e] eqn:L.
    + destruct (pulls_split _ _ _ _ P) as (q1 & PM & PR).
      exists k. rewrite app_length, <- Nat.add_assoc.
      rewrite (collect_surplus sym nb temp c done _ ltac:(lia) _ _ _ _ _ PM F).
      inversion PR as [|? ? q2 ? ? E P1]; subst. inversion P1; subst.
      cbn [List.length Nat.add collect]. rewrite E, KR. cbn [Z.ltb Z.compare Pos.compare Pos.compare_cont Z.sub Z.eqb Z.add Z.opp Pos.sub_mask Z.pos_sub]. reflexivity.
    + change (joined ((co, a) :: more)) with (co :: a ++ joined more) in *. cbn [app] in P. rewrite <- app_assoc in P.
      inversion F as [|? ? [F1 F2] F3]; subst. cbn [fst snd] in *.
      inversion P as [|? ? q1 ? ? E P1]; subst. destruct (pulls_split _ _ _ _ P1) as (q2 & PA & PM).
      destruct k as [|k]; [lia|]. cbn [repeat].
      replace (done ++ cur :: [] :: repeat [] k) with ((done ++ [cur]) ++ [] :: repeat [] k) by (rewrite <- app_assoc; reflexivity).
      destruct (IH q2 q' (done ++ [cur]) a k fuel PM F3) as (k' & R); [rewrite app_length; cbn; lia|].
      exists k'. cbn [List.length Nat.add app collect]. rewrite E, F1, Z.eqb_refl.
      replace (S (List.length done) <? nb)%nat with true by (symmetry; apply Nat.ltb_lt; lia).
      replace (S (List.length done)) with (List.length (done ++ [cur])) by (rewrite app_length; cbn; lia).
      rewrite <- app_assoc, app_length, <- Nat.add_assoc.
      rewrite (collect_argument sym nb temp c (done ++ [cur]) (repeat [] k) a _ _ 0 [] _ PA F2).
      cbn [app]. rewrite R. f_equal. replace (nb - S (List.length (done ++ [cur])))%nat with e by (rewrite app_length; cbn; lia).
      rewrite <- app_assoc. reflexivity.
Qed.

Lemma collect_comments sym nb : forall com q q' temp args fuel, pulls q com q' ->
  Forall (fun t => t_kind t = KComment true) com ->
  collect (List.length com + fuel) sym nb q temp 0 0 args None
  = collect fuel sym nb q' (temp ++ com) 0 0 args None.
Proof.
  induction com as [|t com IH]; intros q q' temp args fuel P F.
  - inversion P; subst. rewrite app_nil_r. reflexivity.
  - inversion P as [|? ? q1 ? ? E P1]; subst. inversion F as [|? ? F1 F2]; subst.
    cbn [List.length Nat.add collect]. rewrite E, F1. rewrite (IH _ _ _ _ _ P1 F2), <- app_assoc. reflexivity.
Qed.

Theorem collect_call sym nb q q' com lp first more rp :
  pulls q (com ++ lp :: first ++ joined more ++ [rp]) q' -> (nb <= 10)%nat ->
  Forall (fun t => t_kind t = KComment true) com -> t_kind lp = KLParen -> t_kind rp = KRParen ->
  pline (rstart (t_range lp)) = pline (rend (s_range sym)) ->
  one_argument 0 (map look first) = true -> fine_more more ->
  exists k, collect_arguments sym nb q
    = CSome (shared (pred nb) first more ++ repeat [] k)
        (Z.max 0 (pcol (rend (t_range rp)) - pcol (rstart (t_range lp)))) q'.
Proof.
  intros P N FC KL KR LI FO FM. unfold collect_arguments. rewrite (pulls_len _ _ _ P).
  destruct (pulls_split _ _ _ _ P) as (q1 & PC & P1). inversion P1 as [|? ? q2 ? ? E P2]; subst.
  destruct (pulls_split _ _ _ _ P2) as (q3 & PF & PM).
  rewrite app_length. cbn [List.length]. rewrite app_length.
  set (LM := List.length (joined more ++ [rp])).
  replace (S (List.length com + S (List.length first + LM) + src_len q'))
    with (List.length com + S (List.length first + (LM + S (src_len q')))) by lia.
  rewrite (collect_comments _ _ _ _ _ _ _ _ PC FC). cbn [collect]. rewrite E, KL.
  rewrite LI, Z.eqb_refl. cbn [Z.add Z.ltb Z.compare Pos.compare Pos.compare_cont].
  change no_args with ([] ++ [] :: repeat (@nil token) 9).
  change 0%nat with (List.length (@nil (list token))) at 1.
  change 1%Z with (1 + Z.of_nat 0)%Z at 1.
  rewrite (collect_argument sym nb ([] ++ com) (pcol (rstart (t_range lp))) [] (repeat [] 9) first _ _ 0 [] _ PF FO).
  destruct (collect_rest sym nb ([] ++ com) (pcol (rstart (t_range lp))) rp KR more _ _ [] ([] ++ first) 9 (S (src_len q')) PM FM) as (k & R); [cbn; lia|].
  exists k. unfold LM. etransitivity; [exact R|]. cbn [app List.length paren_diff].
  rewrite Nat.sub_1_r. reflexivity.
Qed.

(** * The body *)
Lemma look_body body : forall prev, map see (body_symbols body prev) = lay (pline (rend prev)) body.
Proof. induction body as [|r tl IH]; intros prev; [reflexivity|]. cbn [body_symbols map lay]. rewrite IH. reflexivity. Qed.

Lemma looks_app a b : looks (a ++ b) = looks a ++ looks b. Proof. apply map_app. Qed.
Lemma look_arg_tokens a : forall j i d1 d2 depth, looks (arg_tokens a j i d1 d2 depth) = map look a.
Proof.
  induction a as [|t a IH]; intros j i d1 d2 depth; [reflexivity|]. cbn [arg_tokens map]. unfold looks in *. cbn [map]. rewrite IH. f_equal.
  cbn [q_tok]. destruct (t_orig t); [reflexivity|]. destruct depth; reflexivity.
Qed.
Lemma spelled_args a : stringize_args false a = spelled (map look a).
Proof.
  induction a as [|t a IH]; [reflexivity|]. cbn [stringize_args map spelled negb andb]. rewrite IH.
  change (gap_ (look t)) with (dcol (t_delta t)). change (inline_ (look t)) with (t_inline t).
  destruct (Z.ltb_spec 0 (dcol (t_delta t))); [reflexivity|].
  replace (Z.to_nat (dcol (t_delta t))) with 0%nat by lia. reflexivity.
Qed.
Lemma stringize_look a : stringize a = in_quotes (map look a).
Proof. unfold stringize, in_quotes. destruct a as [|t a]; [reflexivity|]. cbn [stringize_args map negb andb]. rewrite spelled_args. reflexivity. Qed.

Definition head_plain (b : list stok) : Prop :=
  match b with [] => True | t :: _ => is_percent t = false /\ is_hash t = false /\ is_int t = false end.

Definition almost (c : list qtok) (r : list stok) : Prop :=
  looks c = r \/ exists n, k_ n = KNewline /\ looks c ++ [n] = r.

Lemma almost_cons c r x : almost c r -> almost (x :: c) (look (q_tok x) :: r).
Proof. intros [E|(n & K & E)]; [left|right; exists n; split; [exact K|]]; cbn; rewrite <- E; reflexivity. Qed.
Lemma almost_app a c r l : looks a = l -> almost c r -> almost (a ++ c) (l ++ r).
Proof.
  intros A [E|(n & K & E)]; [left|right; exists n; split; [exact K|]]; rewrite looks_app, A; [rewrite E; reflexivity|].
  rewrite <- app_assoc, E. reflexivity.
Qed.

Section Fill.
Variables (args : list (list token)) (params : list Z) (sym : symbol) (d : delta) (depth len : nat).
Let arg := argument params (map (map look) args).

Lemma arg_some v x : arg v = Some x -> exists n, v = Some n /\ ((n <? 0) || (10 <=? n))%Z = false /\
  let a := nth (Z.to_nat n) params (-1)%Z in ((a <? 0) || (10 <=? a))%Z = false /\ map look (nth (Z.to_nat a) args []) = x.
Proof.
  unfold arg, argument. destruct v as [n|]; [|discriminate].
  destruct (Z.leb_spec 0 n), (Z.ltb_spec n 10); cbn [andb]; try discriminate.
  cbv zeta. destruct (Z.leb_spec 0 (nth (Z.to_nat n) params (-1)%Z)), (Z.ltb_spec (nth (Z.to_nat n) params (-1)%Z) 10); cbn [andb]; try discriminate.
  intros E. exists n. split; [reflexivity|]. split; [apply orb_false_iff; split; [apply Z.ltb_ge; lia|apply Z.leb_gt; lia]|].
  split; [apply orb_false_iff; split; [apply Z.ltb_ge; lia|apply Z.leb_gt; lia]|].
  injection E as <-. change (@nil stok) with (map look []). symmetry. apply map_nth.
Qed.

Lemma loop_percent y tl i ctx cp sd : s_kind y = KOp OPercent ->
  expand_macro_loop args params sym d depth len (y :: tl) i ctx cp sd =
  expand_macro_loop args params sym d depth len tl (S i)
    (if (cp + 1) mod 2 =? 1 then ctx ++ [QTok (tok y) (s_delta y)] else ctx)%Z (cp + 1) sd.
Proof. intros K. cbn [expand_macro_loop]. rewrite K. reflexivity. Qed.
Lemma loop_hash y tl i ctx cp sd : s_kind y = KOp OStringize ->
  expand_macro_loop args params sym d depth len (y :: tl) i ctx cp sd =
  expand_macro_loop args params sym d depth len tl (S i) (ctx ++ [QTok (tok y) (s_delta y)]) cp (Some (s_delta y)).
Proof. intros K. cbn [expand_macro_loop]. rewrite K. reflexivity. Qed.
Lemma loop_int y tl i ctx sd : s_kind y = KLit LInt ->
  expand_macro_loop args params sym d depth len (y :: tl) i ctx 0 sd =
  expand_macro_loop args params sym d depth len tl (S i) (ctx ++ [QTok (tok y) (s_delta y)]) 0 sd.
Proof. intros K. cbn [expand_macro_loop]. rewrite K. reflexivity. Qed.
Lemma loop_arg y tl i ctx p n : s_kind y = KLit LInt -> s_int y = Some n ->
  ((n <? 0) || (10 <=? n))%Z = false ->
  (let a := nth (Z.to_nat n) params (-1)%Z in ((a <? 0) || (10 <=? a))%Z = false) ->
  expand_macro_loop args params sym d depth len (y :: tl) i (ctx ++ [p]) 1 None =
  expand_macro_loop args params sym d depth len tl (S i)
    (ctx ++ arg_tokens (nth (Z.to_nat (nth (Z.to_nat n) params (-1)%Z)) args []) 0 i (s_delta sym) (q_delta p) depth) 0 None.
Proof.
  intros K V B1 B2. cbn [expand_macro_loop]. rewrite K. cbn [Z.eqb Pos.eqb]. rewrite rev_app_distr. cbn [rev app].
  unfold pop_back. rewrite V, B1. cbv zeta in *. rewrite B2, removelast_last. reflexivity.
Qed.
Definition quoted_token (i : nat) (sdelta : delta) (a : list token) : qtok :=
  let dl := match i with 2%nat => s_delta sym | _ => sdelta end in
  QTok (tok (Sym (KLit LStr) (stringize a) (stringize a) None
     (Rng (rstart (s_range sym)) (Pos (pline (rstart (s_range sym)))
        (pcol (rstart (s_range sym)) + Z.of_nat (String.length (stringize a))))) dl)) dl.
Lemma loop_quote y tl i ctx h p n sdelta : s_kind y = KLit LInt -> s_int y = Some n ->
  ((n <? 0) || (10 <=? n))%Z = false ->
  (let a := nth (Z.to_nat n) params (-1)%Z in ((a <? 0) || (10 <=? a))%Z = false) ->
  expand_macro_loop args params sym d depth len (y :: tl) i ((ctx ++ [h]) ++ [p]) 1 (Some sdelta) =
  expand_macro_loop args params sym d depth len tl (S i)
    (ctx ++ [quoted_token i sdelta (nth (Z.to_nat (nth (Z.to_nat n) params (-1)%Z)) args [])]) 0 None.
Proof.
  intros K V B1 B2. cbn [expand_macro_loop]. rewrite K. cbn [Z.eqb Pos.eqb]. rewrite rev_app_distr. cbn [rev app].
  unfold pop_back. rewrite V, B1. cbv zeta in *. rewrite B2, !removelast_last. reflexivity.
Qed.

Lemma fill n : forall body i ctx cp r, (List.length body <= n)%nat -> (i + List.length body = len)%nat ->
  regular (map see body) = true -> filled arg (see sym) (Nat.eqb i 0) (map see body) = Some r ->
  (cp = 0%Z \/ head_plain (map see body)) ->
  exists c, expand_macro_loop args params sym d depth len body i ctx cp None = Some (ctx ++ c) /\ almost c r.
Proof.
  induction n as [|n IH]; intros body i ctx cp r L I R F H.
  { destruct body; [|cbn in L; lia]. cbn in F. injection F as <-. exists []. cbn. rewrite app_nil_r. split; [reflexivity|left; reflexivity]. }
  destruct body as [|y tl]. { cbn in F. injection F as <-. exists []. cbn. rewrite app_nil_r. split; [reflexivity|left; reflexivity]. }
  cbn [List.length] in L, I. cbn [map regular filled] in R, F. apply andb_true_iff in R as [R1 R2].
  assert (PLAIN : is_percent (see y) = false -> is_hash (see y) = false -> is_int (see y) = false ->
     exists c, expand_macro_loop args params sym d depth len (y :: tl) i ctx cp None = Some (ctx ++ c) /\ almost c r).
  { intros N1 N2 N3. rewrite N1, N2 in F.
    destruct (filled arg (see sym) false (map see tl)) as [r'|] eqn:F'; [|discriminate]. cbn in F. injection F as <-.
    assert (G : forall q, q_tok q = tok y -> forall cp', cp' = 0%Z ->
       exists c, expand_macro_loop args params sym d depth len tl (S i) (ctx ++ [q]) cp' None = Some (ctx ++ c) /\ almost c (see y :: r')).
    { intros q Q cp' ->. destruct (IH tl (S i) (ctx ++ [q]) 0%Z r') as (c & E & A); [lia|lia|exact R2|exact F'|left; reflexivity|].
      exists (q :: c). rewrite E, <- app_assoc. split; [reflexivity|]. apply (almost_cons _ _ q) in A. rewrite Q in A. exact A. }
    unfold is_percent, is_hash, is_int, see, k_ in N1, N2, N3. fold (k_ (see y)) in *.
    destruct (is_newline (s_kind y)) eqn:NL.
    - destruct (s_kind y) eqn:K; try discriminate NL. cbn [expand_macro_loop]. rewrite K. cbn [is_newline andb].
      destruct (Nat.eqb_spec i (len - 1)) as [EI|NI].
      + assert (tl = []) as -> by (destruct tl; [reflexivity|cbn in I; lia]). cbn in F'. injection F' as <-.
        exists []. cbn. rewrite app_nil_r. split; [reflexivity|]. right. exists (see y). split; [exact K|reflexivity].
      + apply G; [destruct i; reflexivity|reflexivity].
    - assert (X : expand_macro_loop args params sym d depth len (y :: tl) i ctx cp None =
        expand_macro_loop args params sym d depth len tl (S i)
          (ctx ++ [match i with O => QTok (tok y) d | _ => QTok (tok y) (s_delta y) end]) 0 None \/
        (exists l, s_kind y = KLit l /\ l <> LInt) \/ (exists o, s_kind y = KOp o /\ o <> OPercent /\ o <> OStringize)).
      { cbn [expand_macro_loop]. destruct (s_kind y) as [| | | | | | | | | | | | | | |o|l| | |] eqn:K; try (left; reflexivity); try discriminate NL.
        - right. right. exists o. split; [reflexivity|]. split; intros ->; discriminate.
        - right. left. exists l. split; [reflexivity|]. intros ->; discriminate. }
      destruct X as [X|[(l & K & X)|(o & K & X1 & X2)]].
      + rewrite X. apply G; [destruct i; reflexivity|reflexivity].
      + cbn [expand_macro_loop]. rewrite K. destruct l; try congruence; apply G; solve [destruct i; reflexivity|reflexivity].
      + cbn [expand_macro_loop]. rewrite K. destruct o; try congruence; apply G; solve [destruct i; reflexivity|reflexivity]. }
  destruct (is_hash (see y)) eqn:HH.
  - assert (K : s_kind y = KOp OStringize).
    { unfold is_hash, see, k_ in HH. destruct (s_kind y) as [| | | | | | | | | | | | | | |o| | | |]; try discriminate. destruct o; congruence. }
    destruct tl as [|p [|nn tl]]; [discriminate|discriminate|]. cbn [map] in R1, F, R2.
    rewrite R1 in F. unfold is_param in R1. apply andb_true_iff in R1 as [R1 _]. apply andb_true_iff in R1 as [P1 P2].
    assert (KP : s_kind p = KOp OPercent).
    { unfold is_percent, see, k_ in P1. destruct (s_kind p) as [| | | | | | | | | | | | | | |o| | | |]; try discriminate. destruct o; congruence. }
    assert (KI : s_kind nn = KLit LInt).
    { unfold is_int, see, k_ in P2. destruct (s_kind nn) as [| | | | | | | | | | | | | | | |l| | |]; try discriminate. destruct l; congruence. }
    destruct H as [->|[_ [H _]]]; [|congruence].
    destruct (arg (val_ (see nn))) as [x|] eqn:A; [|discriminate].
    destruct (filled arg (see sym) false (map see tl)) as [r'|] eqn:F'; [|discriminate]. injection F as <-.
    destruct (arg_some _ _ A) as (v & V & B1 & B2 & B3). change (val_ (see nn)) with (s_int nn) in V.
    cbn [regular] in R2. apply andb_true_iff in R2 as [_ R2]. apply andb_true_iff in R2 as [_ R2].
    rewrite (loop_hash _ _ _ _ _ _ K), (loop_percent _ _ _ _ _ _ KP).
    change ((0 + 1) mod 2 =? 1)%Z with true. change (0 + 1)%Z with 1%Z. cbv iota.
    rewrite (loop_quote _ _ _ _ _ _ _ _ KI V B1 B2).
    cbn [List.length] in L, I.
    match goal with |- context [expand_macro_loop _ _ _ _ _ _ tl _ (ctx ++ [?q]) _ _] =>
      destruct (IH tl (S (S (S i))) (ctx ++ [q]) 0%Z r') as (c & E & AL); [lia|lia|exact R2|exact F'|left; reflexivity|];
      exists (q :: c); rewrite E, <- app_assoc; split; [reflexivity|];
      apply (almost_cons _ _ q) in AL;
      replace (quoted (see sym) (see y) (Nat.eqb i 0) x) with (look (q_tok q)); [exact AL|]
    end.
    unfold quoted_token, look, quoted, see, t_sym, q_tok, tok. cbn [s_kind s_text s_inline s_int s_delta s_range rstart rend pline]. rewrite stringize_look, B3.
    f_equal. destruct i; reflexivity.
  - destruct (is_percent (see y)) eqn:HP.
    + assert (K : s_kind y = KOp OPercent).
      { unfold is_percent, see, k_ in HP. destruct (s_kind y) as [| | | | | | | | | | | | | | |o| | | |]; try discriminate. destruct o; congruence. }
      destruct H as [->|[H _]]; [|congruence].
      assert (LONE : head_plain (map see tl) -> option_map (cons (see y)) (filled arg (see sym) false (map see tl)) = Some r ->
        exists c, expand_macro_loop args params sym d depth len (y :: tl) i ctx 0 None = Some (ctx ++ c) /\ almost c r).
      { intros HD FF. destruct (filled arg (see sym) false (map see tl)) as [r'|] eqn:F'; [|discriminate]. injection FF as <-.
        rewrite (loop_percent _ _ _ _ _ _ K). change ((0 + 1) mod 2 =? 1)%Z with true. change (0 + 1)%Z with 1%Z. cbv iota.
        destruct (IH tl (S i) (ctx ++ [QTok (tok y) (s_delta y)]) 1%Z r') as (c & E & AL); [lia|lia|exact R2|exact F'|right; exact HD|].
        exists (QTok (tok y) (s_delta y) :: c). rewrite E, <- app_assoc. split; [reflexivity|]. apply (almost_cons _ _ (QTok (tok y) (s_delta y))) in AL. exact AL. }
      destruct tl as [|nn tl]; [apply LONE; [exact Logic.I|exact F]|].
      cbn [map] in F, R1, R2. destruct (is_param (see y) (see nn)) eqn:HI.
      * unfold is_param in HI. apply andb_true_iff in HI as [HI _]. apply andb_true_iff in HI as [_ HI].
        assert (KI : s_kind nn = KLit LInt).
        { unfold is_int, see, k_ in HI. destruct (s_kind nn) as [| | | | | | | | | | | | | | | |l| | |]; try discriminate. destruct l; congruence. }
        destruct (arg (val_ (see nn))) as [x|] eqn:A; [|discriminate].
        destruct (filled arg (see sym) false (map see tl)) as [r'|] eqn:F'; [|discriminate]. injection F as <-.
        destruct (arg_some _ _ A) as (v & V & B1 & B2 & B3). change (val_ (see nn)) with (s_int nn) in V.
        cbn [regular] in R2. apply andb_true_iff in R2 as [_ R2].
        rewrite (loop_percent _ _ _ _ _ _ K). change ((0 + 1) mod 2 =? 1)%Z with true. change (0 + 1)%Z with 1%Z. cbv iota.
        rewrite (loop_arg _ _ _ _ _ _ KI V B1 B2).
        cbn [List.length] in L, I.
        match goal with |- context [expand_macro_loop _ _ _ _ _ _ tl _ (ctx ++ ?q) _ _] =>
          destruct (IH tl (S (S i)) (ctx ++ q) 0%Z r') as (c & E & AL); [lia|lia|exact R2|exact F'|left; reflexivity|];
          exists (q ++ c); rewrite E, <- app_assoc; split; [reflexivity|]; apply almost_app; [|exact AL]
        end.
        rewrite look_arg_tokens. exact B3.
      * apply LONE; [|exact F]. cbn. cbn [orb] in R1. apply negb_true_iff, orb_false_iff in R1 as [R1 R1'']. apply orb_false_iff in R1 as [R1 R1']. repeat split; assumption.
    + destruct (is_int (see y)) eqn:HI; [|apply PLAIN; reflexivity].
      assert (K : s_kind y = KLit LInt).
      { unfold is_int, see, k_ in HI. destruct (s_kind y) as [| | | | | | | | | | | | | | | |l| | |]; try discriminate. destruct l; congruence. }
      destruct H as [->|[_ [_ H]]]; [|cbn in H; congruence].
      destruct (filled arg (see sym) false (map see tl)) as [r'|] eqn:F'; [|discriminate]. injection F as <-.
      rewrite (loop_int _ _ _ _ _ K).
      destruct (IH tl (S i) (ctx ++ [QTok (tok y) (s_delta y)]) 0%Z r') as (c & E & AL); [lia|lia|exact R2|exact F'|left; reflexivity|].
      exists (QTok (tok y) (s_delta y) :: c). rewrite E, <- app_assoc. split; [reflexivity|]. apply (almost_cons _ _ (QTok (tok y) (s_delta y))) in AL. exact AL.
Qed.
End Fill.

Theorem expand_filled args m params sym d depth r :
  regular (lay (pline (rend (s_range sym))) (m_body m)) = true ->
  filled (argument params (map (map look) args)) (see sym) true (lay (pline (rend (s_range sym))) (m_body m)) = Some r ->
  exists c, expand_macro args m params sym d depth = Some c /\ almost c r.
Proof.
  rewrite <- !look_body. intros R F. unfold expand_macro.
  destruct (fill args params sym d depth (List.length (m_body m)) _ (body_symbols (m_body m) (s_range sym)) 0 [] 0%Z r (le_n _)) as (c & E & A);
    [cbn; apply body_symbols_len|exact R|exact F|left; reflexivity|].
  exists c. split; [exact E|exact A].
Qed.

Lemma non_macro_almost m d prev : almost (expand_non_macro_define m d prev) (lay (pline (rend prev)) (m_body m)).
Proof.
  rewrite <- look_body. unfold expand_non_macro_define.
  set (ctx := match body_symbols (m_body m) prev with [] => [] | s :: tl => QTok (tok s) d :: map (fun s0 => QTok (tok s0) (s_delta s0)) tl end).
  assert (E : looks ctx = map see (body_symbols (m_body m) prev)).
  { unfold ctx. destruct (body_symbols (m_body m) prev) as [|s tl]; [reflexivity|]. unfold looks. cbn [map]. rewrite map_map. reflexivity. }
  destruct (rev ctx) as [|x y] eqn:R; [left; exact E|].
  destruct (is_newline (t_kind (q_tok x))) eqn:N; [|left; exact E].
  apply rev_cons_inv in R. unfold pop_back. rewrite R, removelast_last. right. exists (look (q_tok x)). split.
  - rewrite look_kind. destruct (t_kind (q_tok x)); try discriminate N; reflexivity.
  - rewrite <- E, R, looks_app. reflexivity.
Qed.
