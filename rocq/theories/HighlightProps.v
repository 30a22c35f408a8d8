(** C58: what an editor is told about the macro uses of a file. *)
From Coq Require Import List ZArith NArith Bool String Ascii Lia Sorted Permutation.
From Verif Require SemTokensModel SemTokensProps.
From Verif Require Import SemTokensSpec.
From Verif Require Import PreTypes MacroModel EvalModel PreModel PreLex PreSnapshots RangesSpec PosModel HighlightModel HighlightSpec HighlightProofs HighlightFlat.
Import ListNotations.
Local Open Scope string_scope.
Local Open Scope Z_scope.
Local Open Scope list_scope.

(** The state in which the preprocessor starts on a file, after the implicit include. *)
Definition begin (v : env) (i : incs_t) (m : macros_map) (syms : list (symbol * bool)) : st :=
  let '(i, m, _) := v_inc v i m "sourcemod" false in init_st i m syms.
(** The part of the file the editor asks for. *)
Definition part (asked : option range) (root : range) : range := match asked with Some r => r | None => root end.

Lemma ss_left {A} (R : A -> A -> Prop) l1 l2 : StronglySorted R (l1 ++ l2) -> StronglySorted R l1.
Proof.
  induction l1 as [|x l1 IH]; intros H; [constructor|]. inversion H as [|? ? H1 H2]; subst. apply Forall_app in H2. constructor; [auto|tauto].
Qed.
Lemma split_permutation {A} (f : A -> bool) l : Permutation (filter f l ++ filter (fun x => negb (f x)) l) l.
Proof.
  induction l as [|x l IH]; [constructor|]. cbn. destruct (f x); cbn; [constructor; exact IH|].
  etransitivity; [symmetry; apply Permutation_middle|constructor; exact IH].
Qed.
Lemma filter_negb_other {A} (l : list (Z * A)) k k' : k <> k' ->
  filter (fun p => fst p =? k') (filter (fun p => negb (fst p =? k)) l) = filter (fun p => fst p =? k') l.
Proof.
  intros N. induction l as [|p l IH]; [reflexivity|]. cbn. destruct (Z.eqb_spec (fst p) k) as [E|E]; cbn; rewrite IH.
  - destruct (Z.eqb_spec (fst p) k'); [congruence|reflexivity].
  - reflexivity.
Qed.
Lemma flat_map_ext_in' {A B} (f g : A -> list B) l : (forall x, In x l -> f x = g x) -> flat_map f l = flat_map g l.
Proof. intros H. induction l as [|x l IH]; [reflexivity|]. cbn. rewrite H, IH; [reflexivity| |left; reflexivity]. intros y I. apply H. right. exact I. Qed.
Lemma filter_permutation {A} (f : A -> bool) l l' : Permutation l l' -> Permutation (filter f l) (filter f l').
Proof.
  induction 1 as [|x l l' _ IH|x y l|l1 l2 l3 _ IH1 _ IH2]; cbn.
  - constructor.
  - destruct (f x); [constructor|]; exact IH.
  - destruct (f x), (f y); try reflexivity. constructor.
  - etransitivity; eassumption.
Qed.
Lemma ss_nodup l : StronglySorted Z.lt l -> NoDup l.
Proof.
  induction 1 as [|x l _ IH H]; [constructor|]. constructor; [|exact IH]. intros I. rewrite Forall_forall in H. specialize (H x I). lia.
Qed.
Lemma grouped_permutation {A} ks : forall l : list (Z * A), NoDup ks -> (forall p, In p l -> In (fst p) ks) ->
  Permutation (flat_map (fun k => filter (fun p => fst p =? k) l) ks) l.
Proof.
  induction ks as [|k ks IH]; intros l N C.
  - destruct l as [|p l]; [constructor|]. destruct (C p (or_introl eq_refl)).
  - inversion N as [|? ? N1 N2]; subst. cbn [flat_map].
    etransitivity; [|apply (split_permutation (fun p => fst p =? k) l)]. apply Permutation_app_head.
    etransitivity; [|apply (IH (filter (fun p => negb (fst p =? k)) l) N2)].
    + apply Permutation_refl'. apply flat_map_ext_in'. intros k' I. symmetry. apply filter_negb_other. intros ->. contradiction.
    + intros p I. apply filter_In in I. destruct I as [I E]. destruct (C p I) as [X|X]; [|exact X].
      rewrite <- X, Z.eqb_refl in E. discriminate E.
Qed.
Lemma highlight_permutation offs asked root :
  Permutation (highlight offs asked root)
              (filter (fun r => touches r (part asked root)) (map (fun p => o_range (snd p)) offs)).
Proof.
  unfold highlight, on_line. fold (part asked root). set (r := part asked root).
  rewrite (flat_map_filter_map o_range snd (intersects r) (fun k => filter (fun p => fst p =? k) offs)).
  etransitivity.
  - apply Permutation_map, filter_permutation, Permutation_map. apply grouped_permutation.
    + apply ss_nodup, sort_sorted, keys_nodup.
    + intros p I. apply sort_in, keys_in, in_map, I.
  - apply Permutation_refl'. induction offs as [|p offs IH]; [reflexivity|]. cbn [map filter].
    rewrite intersects_touches. destruct (touches _ _); cbn [map]; rewrite IH; reflexivity.
Qed.

(** * Exactly the uses, in the order of the file *)

Lemma told_exact v fuel i m syms f s asked root :
  ordered (map fst syms) -> settled fuel v fuel (begin v i m syms) = true ->
  preprocess v fuel i m syms = f -> ended f = Some s ->
  exists told lost ts,
    uses fuel v fuel (begin v i m syms) = told ++ lost /\ (List.length lost <= 1)%nat /\
    (stops_in_file fuel v fuel (begin v i m syms) = true -> lost = []) /\
    macro_tokens (offsets s) asked root = Some ts /\
    decode ts = map shown (filter (fun r => touches r (part asked root)) (map fst told)).
Proof.
  intros O Q R En. unfold preprocess, begin in *. destruct (v_inc v i m "sourcemod" false) as [[i' m'] x].
  destruct (run_uses _ _ _ _ _ _ _ (inv_init i' m' syms O) Q R En) as (lost & A1 & A2 & A3 & A4 & A5 & A6).
  cbn [app] in *. exists (map off_use (offsets s)), lost. rewrite A1 in A5, A6.
  rewrite map_app in A5. apply ss_left in A5. apply Forall_app in A6. destruct A6 as [A6 _].
  assert (M : forall P, P (map (fun p => o_range (snd p)) (offsets s)) -> P (map fst (map off_use (offsets s)))).
  { intros P. rewrite map_map. auto. }
  apply M. unfold macro_tokens. rewrite (highlight_sorted _ _ _ A4).
  fold (part asked root). rewrite map_map in A5.
  set (rs := filter _ _). destruct (tokens_shown rs) as (ts & T1 & T2).
  - apply Forall_forall. intros r I. apply filter_In in I. destruct I as [I _]. apply in_map_iff in I.
    destruct I as (u & <- & I). rewrite Forall_forall in A6. apply (A6 (off_use u)), in_map, I.
  - apply sorted_filter, A5.
  - exists ts. auto.
Qed.

(** In a run during which nothing that a macro was replaced by is a macro in turn, the editor is told of
    the uses of macros in the part it asked for: each once, where the name is, in the order of the file.
    At most the last use of the file may be missing, and none if the file does not end in the middle of
    what a macro was replaced by. *)
Theorem C58_exact_partial :
  forall v fuel i m syms f s asked root,
    ordered (map fst syms) -> settled fuel v fuel (begin v i m syms) = true ->
    preprocess v fuel i m syms = f -> f = FResult s \/ f = FError s ->
    exists told lost ts,
      uses fuel v fuel (begin v i m syms) = told ++ lost /\ (List.length lost <= 1)%nat /\
      (stops_in_file fuel v fuel (begin v i m syms) = true -> lost = []) /\
      macro_tokens (offsets s) asked root = Some ts /\
      decode ts = map shown (filter (fun r => touches r (part asked root)) (map fst told)).
Proof.
  intros v fuel i m syms f s asked root O Q R En. apply (told_exact v fuel i m syms f s asked root O Q R).
  destruct En as [->| ->]; reflexivity.
Qed.
Print Assumptions C58_exact_partial.

(** That is so in every file whose macros have no parameters and mention no macro, whatever the
    directives, the conditions and the code are. *)
Theorem C58_flat :
  forall name v fuel i m syms f s asked root,
    ordered (map fst syms) -> Forall (lexed name) (map fst syms) ->
    always_flat name fuel v fuel (begin v i m syms) = true ->
    preprocess v fuel i m syms = f -> f = FResult s \/ f = FError s ->
    exists told lost ts,
      uses fuel v fuel (begin v i m syms) = told ++ lost /\ (List.length lost <= 1)%nat /\
      (stops_in_file fuel v fuel (begin v i m syms) = true -> lost = []) /\
      macro_tokens (offsets s) asked root = Some ts /\
      decode ts = map shown (filter (fun r => touches r (part asked root)) (map fst told)).
Proof.
  intros name v fuel i m syms f s asked root O L F R En. apply (C58_exact_partial v fuel i m syms f s asked root O); auto.
  apply (flat_settled fuel name); [|exact F]. unfold begin. destruct (v_inc v i m "sourcemod" false) as [[i' m'] x].
  constructor; [constructor|exact L].
Qed.
Print Assumptions C58_flat.

(** * What is recorded *)

(** Whatever is recorded, the highlights are the recorded places that touch the part asked for, each as often
    as it was recorded. *)
Theorem C58_recorded :
  forall offs asked root,
    Permutation (highlight offs asked root)
                (filter (fun r => touches r (part asked root)) (map (fun p => o_range (snd p)) offs)).
Proof. intros. apply highlight_permutation. Qed.
Print Assumptions C58_recorded.

(** They are sent unless they are out of order. *)
Theorem C58_sent_iff :
  forall offs asked root,
    macro_tokens offs asked root = None <->
    ~ (Forall SemTokensSpec.forward_line (map to_hl (highlight offs asked root)) /\
       SemTokensSpec.in_order (map to_hl (highlight offs asked root))).
Proof. intros. apply SemTokensProps.C02_tokens_fail_iff. Qed.
Print Assumptions C58_sent_iff.

(** * Examples *)

(** What is told about a source text, as (line, column, length). *)
Definition run_of (src : string) : option st :=
  match preprocess snap_env 500 no_incs [] (lex_source src) with FResult s => Some s | _ => None end.
Definition whole := Rng (Pos 0 0) (Pos 1000 0).
Definition place (t : abs_token) : N * N * N := (a_line t, a_char t, a_len t).
Definition told (src : string) (asked : option range) : option (option (list (N * N * N))) :=
  option_map (fun s => option_map (fun ts => map place (decode ts)) (macro_tokens (offsets s) asked whole)) (run_of src).
Definition uses_of (src : string) : list (N * N * N) :=
  map (fun u => place (shown (fst u))) (uses 500 snap_env 500 (begin snap_env no_incs [] (lex_source src))).

(** the identifiers of a file *)
Definition name_in (l : list symbol) (x : string) : bool :=
  existsb (fun y => match s_kind y with KIdent => String.eqb (s_text y) x | _ => false end) l.
Definition lexedb (name : string -> bool) (y : symbol) : bool :=
  match s_kind y with KIdent => true | k => wordless k || negb (name (s_text y)) end.
Definition in_lineb (y : symbol) : bool :=
  match s_kind y with
  | KComment _ | KDir _ | KLit _ | KNewline | KEof | KLineCont => true
  | _ => (pline (rend (s_range y)) =? pline (rstart (s_range y))) && (pcol (rstart (s_range y)) <=? pcol (rend (s_range y)))
  end.
Fixpoint orderedb (l : list symbol) : bool :=
  match l with
  | [] => true
  | y :: tl => in_lineb y && ((0 <=? pline (rstart (s_range y))) && (0 <=? pcol (rstart (s_range y)))) &&
      forallb (fun z => beforeb (rstart (s_range y)) (rstart (s_range z))) tl && orderedb tl
  end.
Lemma lexedb_ok name l : forallb (lexedb name) l = true -> Forall (lexed name) l.
Proof.
  intros H. rewrite forallb_forall in H. apply Forall_forall. intros y I. specialize (H y I). unfold lexedb in H. unfold lexed.
  destruct (s_kind y); auto; apply orb_true_iff in H; destruct H as [H|H]; auto; apply negb_true_iff in H; auto.
Qed.
Lemma beforeb_ok p q : beforeb p q = true -> before p q.
Proof. unfold beforeb, before. intros H. apply orb_true_iff in H. rewrite andb_true_iff in H. lia. Qed.
Lemma orderedb_ok l : orderedb l = true -> ordered l.
Proof.
  induction l as [|y l IH]; [intros; exact Logic.I|]. cbn [orderedb ordered]. rewrite !andb_true_iff. intros (((H & P1 & P2) & F) & R).
  split; [|split; [unfold exists_pos; lia|split; [|auto]]].
  - unfold in_lineb in H. unfold in_line. destruct (s_kind y); auto; apply andb_true_iff in H; destruct H; lia.
  - apply Forall_forall. intros z I. rewrite forallb_forall in F. apply beforeb_ok, F, I.
Qed.

Definition flat_source := "#define E
#define N 2
#if defined E && N > 1
E int x = N;
#else
int y = N;
#endif
int z[N] = { N, E N, M };
#undef N
int w = N;
".
Example C58_nontrivial :
  let syms := lex_source flat_source in let name := name_in (map fst syms) in
  ordered (map fst syms) /\ Forall (lexed name) (map fst syms) /\
  always_flat name 500 snap_env 500 (begin snap_env no_incs [] syms) = true /\
  stops_in_file 500 snap_env 500 (begin snap_env no_incs [] syms) = true /\
  told flat_source None = Some (Some
    [(2, 12, 1); (2, 17, 1); (3, 0, 1); (3, 10, 1); (7, 6, 1); (7, 13, 1); (7, 16, 1); (7, 18, 1)]%N) /\
  uses_of flat_source = [(2, 12, 1); (2, 17, 1); (3, 0, 1); (3, 10, 1); (7, 6, 1); (7, 13, 1); (7, 16, 1); (7, 18, 1)]%N /\
  told flat_source (Some (Rng (Pos 3 5) (Pos 7 6))) = Some (Some [(3, 10, 1); (7, 6, 1)]%N).
Proof.
  cbv zeta. split; [apply orderedb_ok; vm_compute; reflexivity|]. split; [apply lexedb_ok; vm_compute; reflexivity|].
  vm_compute. auto 10.
Qed.
(** With parameters and macros in macros. *)
Definition nested_source := "#define F(%1) (%1+N)
#define N 2
#define U F(N)
int x = U + F(1);
#if U > F(3)
#endif
".
Example C58_nontrivial_nested :
  ordered (map fst (lex_source nested_source)) /\
  settled 500 snap_env 500 (begin snap_env no_incs [] (lex_source nested_source)) = true /\
  uses_of nested_source = [(3, 8, 1); (3, 12, 1); (4, 4, 1); (4, 8, 1)]%N /\
  told nested_source None = Some (Some [(3, 8, 1); (3, 12, 1); (4, 4, 1); (4, 8, 1)]%N).
Proof. split; [apply orderedb_ok; vm_compute; reflexivity|]. vm_compute. auto. Qed.

(** * Where it fails *)

(** A macro whose text asks whether a macro with parameters is defined: the place recorded for that name is
    behind the next use in the condition, and the request for the tokens of the file fails. *)
Definition asks_source := "#define FOO(%1) %1
#define HAS        defined FOO
#define BAR 1
#if HAS && BAR
#endif
".
Theorem C58_condition_refuted :
  uses_of asks_source = [(3, 4, 3); (3, 11, 3)]%N /\ told asks_source None = Some None.
Proof. vm_compute. auto. Qed.
Print Assumptions C58_condition_refuted.
(** The name of a macro with parameters in the text of another, without parentheses: the macro after it is
    recorded in place of the use, here behind the following one. *)
Definition bare_source := "#define FOO(%1) %1
#define BAR 1
#define U      FOO BAR
int x = U + BAR;
".
Theorem C58_code_refuted :
  uses_of bare_source = [(3, 8, 1); (3, 12, 3)]%N /\ told bare_source None = Some None.
Proof. vm_compute. auto. Qed.
Print Assumptions C58_code_refuted.
(** With less space the request succeeds, but the use is not shown and the next one is, twice. *)
Definition twice_source := "#define F(%1) %1
#define G 1
#define U F G
int x = U+G;
".
Theorem C58_twice_refuted :
  uses_of twice_source = [(3, 8, 1); (3, 10, 1)]%N /\ told twice_source None = Some (Some [(3, 10, 1); (3, 10, 1)]%N).
Proof. vm_compute. auto. Qed.
Print Assumptions C58_twice_refuted.
(** A name in an argument is not shown, whatever it stands for: it is taken from the file by the macro
    that is replaced. *)
Definition argument_source := "#define F(%1) %1
#define G 1
int x = F(G)+G;
".
Theorem C58_argument_refuted :
  preprocessed argument_source = Some "#define F(%1) %1
#define G 1
int x = 1+1;
" /\ told argument_source None = Some (Some [(2, 8, 1); (2, 13, 1)]%N).
Proof. vm_compute. auto. Qed.
Print Assumptions C58_argument_refuted.
(** A name that is not replaced since its arguments are missing is shown; one whose parenthesis is not
    closed at the end of the file is replaced and not shown. *)
Definition open_source := "#define F(%1) %1
int x = F;
int y = F(1
".
Theorem C58_open_refuted :
  uses_of open_source = [(1, 8, 1); (2, 8, 1)]%N /\ told open_source None = Some (Some [(1, 8, 1)]%N).
Proof. vm_compute. auto. Qed.
Print Assumptions C58_open_refuted.
