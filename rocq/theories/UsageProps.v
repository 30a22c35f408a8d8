(** C77: the status shows what the tables hold. *)

From Coq Require Import String Ascii List NArith ZArith Bool Lia DecimalString DecimalN DecimalPos DecimalZ Permutation.
From Verif Require Import UsageModel UsageSpec.
Import ListNotations.
Local Open Scope string_scope.

(** * Sizes *)

Lemma quot_bounds z u : (0 < u)%Z ->
  (Z.abs (Z.quot z u) * u <= Z.abs z < (Z.abs (Z.quot z u) + 1) * u)%Z /\ (0 <= Z.quot z u * z)%Z.
Proof.
  intro U. pose proof (Z.quot_abs z u ltac:(lia)) as A. rewrite (Z.abs_eq u) in A by lia.
  rewrite <- A. rewrite Z.quot_div_nonneg by lia.
  pose proof (Z.mul_div_le (Z.abs z) u U). pose proof (Z.mul_succ_div_gt (Z.abs z) u U).
  split; [nia |].
  destruct (Z_le_gt_dec 0 z) as [P | P].
  - pose proof (Z.quot_pos z u P U). nia.
  - pose proof (Z.quot_pos (- z) u ltac:(lia) U) as Q. rewrite Z.quot_opp_l in Q by lia. nia.
Qed.

Theorem C77_size : forall z, size_shown z (bytes_text z).
Proof.
  intro z. unfold bytes_text. destruct (4096 <? Z.abs z)%Z eqn:E.
  - apply Z.ltb_lt in E. destruct (4096 <? Z.abs (Z.quot z 1024))%Z eqn:F.
    + apply Z.ltb_lt in F. destruct (quot_bounds z 1024 ltac:(lia)) as [[B1 B2] _].
      rewrite Z.quot_quot by lia. destruct (quot_bounds z (1024 * 1024) ltac:(lia)) as [C1 C2].
      exists (Z.quot z (1024 * 1024)), (1024 * 1024)%Z, "mb". split; [reflexivity |]. split; [exact C1 |]. split; [exact C2 |].
      right. right. split; [lia | auto].
    + apply Z.ltb_ge in F. destruct (quot_bounds z 1024 ltac:(lia)) as [[B1 B2] B3].
      exists (Z.quot z 1024), 1024%Z, "kb". split; [reflexivity |]. split; [lia |]. split; [exact B3 |].
      right. left. split; [lia | auto].
  - apply Z.ltb_ge in E. exists z, 1%Z, "b". split; [reflexivity |]. split; [lia |]. split; [nia |]. left. auto.
Qed.
Print Assumptions C77_size.

(** The number shown is read as the number it is. *)
Theorem C77_number : forall z, option_map Z.of_int (NilZero.int_of_string (show z)) = Some z.
Proof.
  intro z. assert (E : show z = NilZero.string_of_int (Z.to_int z)).
  { destruct z as [| p | p]; [reflexivity | |]; cbn [show Z.to_int NilZero.string_of_int]; unfold dec, NilZero.string_of_uint; cbn [Z.to_N N.to_uint];
      pose proof (DecimalPos.Unsigned.to_uint_nonnil p); destruct (Pos.to_uint p); try reflexivity; congruence. }
  rewrite E, NilZero.isi.
  - cbn [option_map]. f_equal. apply DecimalZ.of_to.
  - destruct z as [| p | p]; cbn; try discriminate. intro H. injection H. apply DecimalPos.Unsigned.to_uint_nonnil.
  - destruct z as [| p | p]; cbn; try discriminate. intro H. injection H. apply DecimalPos.Unsigned.to_uint_nonnil.
Qed.
Print Assumptions C77_number.

(** * Collecting *)

Lemma sum_total l : sum l = total l.
Proof.
  unfold sum, total. apply fold_symmetric; intros; lia.
Qed.

Lemma files_sum l : Forall (fun o => there o = true) l -> forall n z,
  fold_left (fun acc value =>
    match acc, value with
    | Some (total, size), Some len => Some ((total + 1)%N, (size + Z.of_N len)%Z)
    | _, _ => None
    end) l (Some (n, z)) = Some ((n + N.of_nat (List.length l))%N, (z + Z.of_N (total (those l)))%Z).
Proof.
  induction 1 as [| [x |] r Hx Hr IH]; intros n z; [| | discriminate Hx].
  - cbn. f_equal. f_equal; lia.
  - cbn [fold_left]. rewrite IH. f_equal. cbn [List.length those flat_map app total fold_right]. fold (those r). fold (total (those r)). f_equal; lia.
Qed.

Lemma trees_sum l : forall n m,
  fold_left (fun '(total, retained) value => ((total + 1)%N, (retained + (if value : bool then 1 else 0))%N)) l (n, m) =
  ((n + N.of_nat (List.length l))%N, (m + N.of_nat (List.length (filter (fun b => b) l)))%N).
Proof.
  induction l as [| [] r IH]; intros n m; cbn [fold_left].
  - cbn. f_equal; lia.
  - rewrite IH. cbn [filter List.length]. f_equal; lia.
  - rewrite IH. cbn [filter List.length]. f_equal; lia.
Qed.

Lemma data_eq a b c d e a' b' c' d' e' : a = a' -> b = b' -> c = c' -> d = d' -> e = e' ->
  DataStats a b c d e = DataStats a' b' c' d' e'.
Proof. congruence. Qed.

Lemma total_app a b : total (a ++ b) = (total a + total b)%N.
Proof. unfold total. induction a as [| x a IH]; [reflexivity |]. cbn [app fold_right]. rewrite IH. lia. Qed.

Lemma data_sum l : forall s,
  fold_left collect_data l s =
  DataStats (ds_total s + N.of_nat (List.length l))
    (ds_macros s + N.of_nat (List.length (flat_map d_macros (those l))))
    (ds_size s + Z.of_N (total (flat_map d_macros (those l))))
    (ds_offsets s + total (map d_offsets (those l)))
    (ds_retained s + N.of_nat (List.length (filter there l))).
Proof.
  induction l as [| o r IH]; intro s.
  - destruct s. cbn. apply data_eq; lia.
  - cbn [fold_left]. rewrite IH. destruct o as [d |];
      cbn [collect_data ds_total ds_macros ds_size ds_offsets ds_retained those flat_map app filter there List.length map];
      fold (those r); try rewrite app_length, total_app, sum_total;
      try change (total (d_offsets d :: map d_offsets (those r))) with (d_offsets d + total (map d_offsets (those r)))%N;
      apply data_eq; lia.
Qed.

Lemma params_eq a b c d e a' b' c' d' e' : a = a' -> b = b' -> c = c' -> d = d' -> e = e' ->
  ParamsStats a b c d e = ParamsStats a' b' c' d' e'.
Proof. congruence. Qed.

Lemma params_sum l : forall s,
  fold_left collect_params l s =
  ParamsStats (ps_total s + N.of_nat (List.length l))
    (ps_busy s + total (map p_busy l))
    (ps_macros s + N.of_nat (List.length (flat_map p_macros l)))
    (ps_size s + Z.of_N (total (map table_size l)))
    (ps_retained s + N.of_nat (List.length (filter p_value l))).
Proof.
  induction l as [| p r IH]; intro s.
  - destruct s. cbn. apply params_eq; lia.
  - cbn [fold_left]. rewrite IH.
    cbn [collect_params ps_total ps_busy ps_macros ps_size ps_retained flat_map filter List.length map].
    rewrite app_length.
    change (total (p_busy p :: map p_busy r)) with (p_busy p + total (map p_busy r))%N.
    change (total (table_size p :: map table_size r)) with (table_size p + total (map table_size r))%N.
    assert (E : forall z, ps_size (collect_params (ParamsStats 0 0 0 z 0) p) = (z + Z.of_N (table_size p))%Z).
    { intro z. unfold table_size. rewrite <- sum_total. cbn [collect_params ps_size]. destruct (p_macros p); reflexivity. }
    specialize (E (ps_size s)). cbn [collect_params ps_size List.length] in E. rewrite E.
    destruct (p_value p); cbn [List.length]; apply params_eq; lia.
Qed.

(** * Trimming *)

Lemma app_assoc_s a b c : (a ++ b) ++ c = a ++ (b ++ c).
Proof. induction a as [| x a IH]; [reflexivity |]. cbn. now rewrite IH. Qed.

Lemma trim_end_app a b : trim_end b <> "" -> trim_end (a ++ b) = a ++ trim_end b.
Proof.
  intro H. induction a as [| c a IH]; [reflexivity |]. cbn [append trim_end]. rewrite IH.
  destruct (a ++ trim_end b) eqn:E; [| reflexivity]. destruct a; [cbn in E; congruence | discriminate E].
Qed.

Lemma digit_first u : u <> Decimal.Nil -> exists c r, NilEmpty.string_of_uint u = String c r /\ white c = false.
Proof. destruct u; intro H; [congruence | | | | | | | | | |]; cbn; do 2 eexists; split; reflexivity. Qed.

Lemma to_uint_nonnil n : N.to_uint n <> Decimal.Nil.
Proof.
  intro E. pose proof (DecimalN.Unsigned.of_to n) as R. rewrite E in R. cbn in R. subst n. discriminate E.
Qed.

Lemma show_first z : exists c r, show z = String c r /\ white c = false.
Proof.
  unfold show. destruct z as [| p | p].
  - apply digit_first, to_uint_nonnil.
  - apply digit_first, to_uint_nonnil.
  - do 2 eexists. split; reflexivity.
Qed.

Lemma bytes_first z : exists c r, bytes_text z = String c r /\ white c = false.
Proof.
  unfold bytes_text. destruct (if (4096 <? Z.abs z)%Z then _ else _) as [v s].
  destruct (show_first v) as [c [r [E W]]]. rewrite E. exists c, (r ++ s). split; [reflexivity | exact W].
Qed.

Lemma trim_ends s : (exists c r, s = String c r /\ white c = false) -> (exists p, s = p ++ " infer") -> trim (s ++ nl) = s.
Proof.
  intros [c [r [E W]]] [p P]. unfold trim.
  assert (T : trim_start (s ++ nl) = s ++ nl) by (rewrite E; cbn; rewrite W; reflexivity).
  rewrite T, P, app_assoc_s. rewrite trim_end_app by discriminate. reflexivity.
Qed.

(** * The text *)

(** Every number is the number of entries it speaks of, every size the sum of theirs, and
    the answer fails only if a text is missing in the table of texts. *)
Theorem C77_status : forall t,
  (Forall (fun o => there o = true) (t_files t) ->
   exists files macros table,
     size_shown (Z.of_N (total (those (t_files t)))) files /\
     size_shown (Z.of_N (total (flat_map d_macros (those (t_data t))))) macros /\
     size_shown (Z.of_N (total (map table_size (t_params t)))) table /\
     status t = Some (String.concat nl (status_lines t files macros table))) /\
  (In None (t_files t) -> status t = None).
Proof.
  intro t. split.
  - intro F. do 3 eexists. split; [apply C77_size |]. split; [apply C77_size |]. split; [apply C77_size |].
    unfold status, files_stats. rewrite (files_sum _ F).
    unfold tree_stats. rewrite trees_sum, data_sum, params_sum.
    cbn [ds_total ds_macros ds_size ds_offsets ds_retained ps_total ps_busy ps_macros ps_size ps_retained].
    rewrite !N.add_0_l, !Z.add_0_l. f_equal.
    unfold files_line, tree_line, data_line, params_line.
    cbn [fst snd ds_total ds_macros ds_size ds_offsets ds_retained ps_total ps_busy ps_macros ps_size ps_retained].
    set (files := bytes_text (Z.of_N (total (those (t_files t))))).
    set (macros := bytes_text (Z.of_N (total (flat_map d_macros (those (t_data t)))))).
    set (table := bytes_text (Z.of_N (total (map table_size (t_params t))))).
    assert (L : forall s, s = String.concat nl (status_lines t files macros table) ++ nl ->
                trim s = String.concat nl (status_lines t files macros table)).
    { intros s ->. apply trim_ends.
      - destruct (bytes_first (Z.of_N (total (those (t_files t))))) as [c [r [E W]]].
        fold files in E. exists c. eexists. split; [| exact W]. unfold status_lines. cbn [String.concat]. rewrite E. cbn [append]. reflexivity.
      - eexists. unfold status_lines. cbn [String.concat]. rewrite <- !app_assoc_s. reflexivity. }
    apply L. unfold status_lines, number, count. cbn [String.concat]. rewrite !app_assoc_s. reflexivity.
  - intro I. unfold status.
    assert (E : forall l acc, In None l \/ acc = None ->
      fold_left (fun acc value =>
        match acc, value with
        | Some (total, size), Some len => Some ((total + 1)%N, (size + Z.of_N len)%Z)
        | _, _ => None
        end) l acc = None).
    { induction l as [| o r IH]; intros acc [H | H]; cbn [fold_left].
      - destruct H.
      - exact H.
      - apply IH. destruct H as [-> | H]; [right; destruct acc as [[] |]; reflexivity | left; exact H].
      - apply IH. right. subst acc. reflexivity. }
    unfold files_stats. rewrite E by (left; exact I). reflexivity.
Qed.
Print Assumptions C77_status.

Lemma those_perm {A} (l l' : list (option A)) : Permutation l l' -> Permutation (those l) (those l').
Proof. intro P. unfold those. now apply Permutation_flat_map. Qed.

Lemma total_perm l l' : Permutation l l' -> total l = total l'.
Proof. unfold total. induction 1; cbn; lia. Qed.

Lemma filter_perm {A} (f : A -> bool) l l' : Permutation l l' -> List.length (filter f l) = List.length (filter f l').
Proof.
  induction 1 as [| x l l' P IH | x y l | l l' l'' P IH Q IH']; cbn.
  - reflexivity.
  - destruct (f x); cbn; congruence.
  - destruct (f x), (f y); reflexivity.
  - congruence.
Qed.

Lemma option_dec (a b : option N) : {a = b} + {a <> b}.
Proof. decide equality. apply N.eq_dec. Qed.

(** The tables come in no particular order, and the text does not depend on it. *)
Theorem C77_order : forall t t',
  Permutation (t_files t) (t_files t') -> Permutation (t_trees t) (t_trees t') ->
  Permutation (t_data t) (t_data t') -> Permutation (t_params t) (t_params t') ->
  t_ast_ids t = t_ast_ids t' -> t_def_maps t = t_def_maps t' -> t_bodies t = t_bodies t' ->
  t_scopes t = t_scopes t' -> t_infer t = t_infer t' ->
  status t = status t'.
Proof.
  intros t t' Pf Pt Pd Pp E1 E2 E3 E4 E5. unfold status.
  assert (F : files_stats (t_files t) = files_stats (t_files t')).
  { unfold files_stats. destruct (in_dec option_dec None (t_files t)) as [I | I].
    - assert (E : forall u, In None (t_files u) -> files_stats (t_files u) = None).
      { intros u J. pose proof (proj2 (C77_status u) J) as K. unfold status in K. destruct (files_stats (t_files u)); [discriminate K | reflexivity]. }
      transitivity (@None (N * Z)); [apply (E t I) | symmetry; apply (E t')]. eapply Permutation_in; eassumption.
    - assert (G : forall l : list (option N), ~ In None l -> Forall (fun o => there o = true) l).
      { intros l H. apply Forall_forall. intros [x |] J; [reflexivity | destruct (H J)]. }
      rewrite (files_sum _ (G _ I)).
      rewrite (files_sum (t_files t')).
      2: { apply G. intro J. apply I. eapply Permutation_in; [apply Permutation_sym |]; eassumption. }
      rewrite (Permutation_length Pf), (total_perm _ _ (those_perm _ _ Pf)). reflexivity. }
  rewrite F, E1, E2, E3, E4, E5. unfold tree_stats. rewrite !trees_sum, !data_sum, !params_sum.
  rewrite (Permutation_length Pt), (filter_perm _ _ _ Pt), (Permutation_length Pd), (filter_perm _ _ _ Pd), (Permutation_length Pp), (filter_perm _ _ _ Pp).
  pose proof (Permutation_flat_map d_macros (those_perm _ _ Pd)) as Q. rewrite (Permutation_length Q), (total_perm _ _ Q).
  pose proof (Permutation_flat_map p_macros Pp) as R. rewrite (Permutation_length R).
  rewrite (total_perm _ _ (Permutation_map d_offsets (those_perm _ _ Pd))).
  rewrite (total_perm _ _ (Permutation_map p_busy Pp)), (total_perm _ _ (Permutation_map table_size Pp)). reflexivity.
Qed.
Print Assumptions C77_order.

(** What the request answers around it. *)
Theorem C77_answer : forall missing vfs answer, exists size, size_shown vfs size /\
  handle_analyzer_status missing vfs answer =
  String.concat nl
    [match missing with Some uri => "file " ++ uri ++ " not found in vfs" | None => "" end;
     "Vfs memory usage: " ++ size; ""; "Analysis:";
     match answer with Some s => s | None => "Analysis retrieval was cancelled" end].
Proof.
  intros missing vfs answer. exists (bytes_text vfs). split; [apply C77_size |].
  unfold handle_analyzer_status. cbn [String.concat]. rewrite !app_assoc_s. reflexivity.
Qed.
Print Assumptions C77_answer.

Definition tables_x : tables :=
  Tables [Some 3000; Some 2000]%N [true; false; true] [Some (Data [100; 60] 4); None; Some (Data [5000000] 1)]%N
    [Params [100; 61] 8 2 true; Params [] 0 0 false]%N 2 2 5 5 7.

Example C77_nontrivial :
  status tables_x = Some (String.concat nl
    ["4kb of files"; "3 trees, 2 preserved"; "3 preprocessed file data, 2 preserved, 3 macros (4mb), 5 offsets";
     "2 preprocessed file params, 1 preserved, 2 being preprocessed, 2 macros (640b)"; ""; "Debug info:";
     "2 ast id maps"; "2 file def maps"; "5 body with sourcemap"; "5 expr scopes"; "7 infer"]) /\
  bytes_text 4096 = "4096b" /\ bytes_text 4097 = "4kb" /\ bytes_text (-5000000000) = "-4768mb".
Proof. repeat split; vm_compute; reflexivity. Qed.
