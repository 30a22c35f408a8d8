(** C24, C45: which macro a name stands for, and its number. *)
From Coq Require Import List ZArith Bool String Lia.
From Verif Require Import PreTypes MacroModel EvalModel PreModel PreLex CondSpec CondProofs VisibleSpec PreEvents PreDbModel.
Import ListNotations.
Local Open Scope Z_scope.
Local Open Scope list_scope.

(** * The table *)
Lemma mget_mdel m x y : mget (mdel m x) y = if String.eqb x y then None else mget m y.
Proof.
  induction m as [|[n v] tl IH]; cbn [mdel filter mget fst].
  - destruct (String.eqb x y); reflexivity.
  - destruct (String.eqb n x) eqn:E; cbn [negb].
    + apply String.eqb_eq in E. subst n. change (filter _ tl) with (mdel tl x). rewrite IH.
      destruct (String.eqb x y); reflexivity.
    + cbn [mget]. change (filter _ tl) with (mdel tl x). rewrite IH.
      destruct (String.eqb x y) eqn:E1; [|reflexivity].
      apply String.eqb_eq in E1. subst y. rewrite E. reflexivity.
Qed.
Lemma mget_mset m x v y : mget (mset m x v) y = if String.eqb x y then Some v else mget m y.
Proof.
  unfold mset. cbn [mget]. rewrite mget_mdel. destruct (String.eqb x y); reflexivity.
Qed.
Lemma mget_mextend m t y : mget (mextend m t) y = match mget t y with Some v => Some v | None => mget m y end.
Proof.
  unfold mextend. induction t as [|[n v] tl IH]; cbn [fold_right mget fst snd]; [reflexivity|].
  rewrite mget_mset. destruct (String.eqb n y); [reflexivity|]. exact IH.
Qed.

(** * What an include brings, for a callback that only adds *)
Definition exports (v : env) (table : incs_t -> macros_map -> string -> bool -> macros_map)
    (e : event) (x : string) : option macro :=
  let text := v_trim v (s_inline (e_sym e)) in
  let first := inc_call v (v_chevron v text) false (incs (e_before e), macros (e_before e)) in
  let brought p q (im : incs_t * macros_map) :=
    match p with Some p => mget (table (fst im) (snd im) p q) x | None => None end in
  match brought (v_quote v text) true first with
  | Some m => Some m
  | None => brought (v_chevron v text) false (incs (e_before e), macros (e_before e))
  end.

Lemma exports_get v table e x : only_adds v table ->
  mget (snd (inc_calls v (e_sym e) (incs (e_before e), macros (e_before e)))) x =
  match exports v table e x with Some m => Some m | None => mget (macros (e_before e)) x end.
Proof.
  intros H. unfold exports, inc_calls. cbv zeta.
  set (text := v_trim v (s_inline (e_sym e))).
  assert (C : forall p q im, mget (snd (inc_call v p q im)) x =
    match match p with Some p => mget (table (fst im) (snd im) p q) x | None => None end with
    | Some m => Some m | None => mget (snd im) x end).
  { intros [p|] q im; cbn [inc_call]; [|reflexivity]. rewrite H, mget_mextend. reflexivity. }
  rewrite C.
  destruct (match v_quote v text with Some p => _ | None => _ end); [reflexivity|]. rewrite C. reflexivity.
Qed.

(** [x] is as the latest directive about it left it. *)
Definition as_left (v : env) (x : string) (before now : macros_map) (o : option origin) : Prop :=
  match o with
  | None => mget now x = mget before x
  | Some (Bound n) => exists m, mget now x = Some m /\ m_file m = v_file v /\ m_idx m = n
  | Some Removed => mget now x = None
  | Some (Brought m) => mget now x = Some m
  end.

Lemma reads_latest v fuel table : only_adds v table -> forall s tr s', reads v fuel s tr s' ->
  forall m x o, as_left v x m (macros s) o ->
  as_left v x m (macros s') (latest (exports v table) (idx s) tr x o) /\
  idx s' = idx s + Z.of_nat (List.length (defines tr)).
Proof.
  intros Ha s tr s' H.
  induction H as [s|s t s1 s2 tr s3 Hf Hs _ IH]; intros m x o Ho.
  { cbn. split; [exact Ho|lia]. }
  pose proof (step_effect v fuel s t s1 s2 Hf Hs) as E.
  pose proof (fetch_tables _ _ _ Hf) as T. injection T as T1 T2 T3.
  set (e := Ev (t_sym t) s1 s2) in *.
  assert (Hinc : forall d1 d2, is_dir d1 e = true -> d1 <> d2 -> is_dir d2 e = false).
  { intros d1 d2 A B. unfold is_dir in *. apply andb_true_iff in A. destruct A as [A1 A2]. rewrite A1.
    apply kind_eqb_eq in A2. rewrite A2. unfold kind_eqb.
    destruct (kind_eq_dec (KDir d1) (KDir d2)); [congruence|reflexivity]. }
  cbn [latest defines filter]. change (filter (is_dir MDefine) tr) with (defines tr).
  destruct E as [mac D M F I N _ | D M I _ | D M I | D U Y M].
  - rewrite D in *. cbn [List.length]. cbn [e e_after e_before] in M, I, N. rewrite T1, T2 in *.
    rewrite <- N. specialize (IH m x (if String.eqb (define_name (line_of e)) x then Some (Bound (idx s)) else o)).
    destruct IH as [A B].
    + rewrite M. destruct (String.eqb (define_name (line_of e)) x) eqn:Q.
      * exists mac. rewrite mget_mset, Q. auto.
      * destruct o as [[n| |mm]|]; cbn [as_left] in *; rewrite ?mget_mset, ?Q; auto.
    + split; [exact A|]. rewrite B, N. lia.
  - rewrite (Hinc MUndef MDefine) in * by (auto; discriminate). rewrite D in *.
    cbn [e e_after e_before] in M, I. rewrite T1, T2 in *. rewrite <- I in *.
    apply IH. rewrite M. destruct (undef_name (line_of e)) as [y|]; [|exact Ho].
    destruct (String.eqb y x) eqn:Q.
    * cbn [as_left]. rewrite mget_mdel, Q. reflexivity.
    * destruct o as [[n| |mm]|]; cbn [as_left] in *; rewrite ?mget_mdel, ?Q; auto.
  - assert (D' : is_dir MDefine e = false /\ is_dir MUndef e = false).
    { unfold is_include in D. apply orb_true_iff in D. destruct D as [D|D]; split;
        (eapply Hinc; [exact D|discriminate]). }
    destruct D' as [D1 D2]. rewrite D1, D2, D in *. cbn [e_after e_before] in I.
    change (e_after e) with s2 in *. change (idx (e_before e)) with (idx s1) in I. rewrite T2 in I. rewrite <- I in *.
    apply IH. assert (G : mget (macros s2) x = match exports v table e x with Some m => Some m | None => mget (macros s) x end).
    { rewrite <- T1. change (macros s1) with (macros (e_before e)). rewrite <- (exports_get v table e x Ha).
      rewrite <- M. reflexivity. }
    destruct (exports v table e x) as [mm|]; [exact G|].
    destruct o as [[n| |mm]|]; cbn [as_left] in *; rewrite G; auto.
  - rewrite D, U, Y in *. change (e_after e) with s2 in *. change (e_before e) with s1 in *.
    injection M as M1 M2 M3. assert (idx s2 = idx s) as Q by congruence. rewrite <- Q in *.
    apply IH. rewrite M1, T1. exact Ho.
Qed.

(** ** C24 *)

(** After any number of symbols, a name stands for what the latest active directive about it says:
    the most recent active #define, nothing after an #undef, or what an include brought; without
    one, for what it stood for before the file. Directives in inactive code do not appear: [latest]
    passes over events that are not kept. *)
Theorem C24_latest_directive_wins :
  forall v fuel table i m syms tr s' x,
    only_adds v table -> reads v fuel (init_st i m syms) tr s' ->
    as_left v x m (macros s') (latest (exports v table) 0 tr x None).
Proof.
  intros v fuel table i m syms tr s' x Ha H.
  apply (reads_latest v fuel table Ha _ _ _ H m x None). reflexivity.
Qed.
Print Assumptions C24_latest_directive_wins.

(** The symbol is written as it is. *)
Definition as_is (s1 s2 : st) (y : symbol) : Prop :=
  cur_line s2 = (cur_line s1 ++ spaces (Z.to_nat (Z.abs (dcol (s_delta y)))) ++ s_text y)%string /\
  estack s2 = estack s1 /\ exp_sym s2 = exp_sym s1.
(** The symbol is replaced by the body of macro [n] of file [f]. *)
Definition replaced (s1 s2 : st) (y : symbol) (n f : Z) : Prop :=
  cur_line s2 = cur_line s1 /\ exp_sym s2 = Some (y, (n, f)).

Lemma string_assoc a b c : ((a ++ b) ++ c)%string = (a ++ b ++ c)%string.
Proof. induction a; cbn; congruence. Qed.

Lemma ident_used v fuel s t s1 s2 :
  fetch s = Some (t, s1) -> step v fuel s = Next s2 -> skipping s1 = false ->
  s_kind (t_sym t) = KIdent -> intr s1 <> Some IDot ->
  match mget (macros s1) (s_text (t_sym t)) with
  | None => as_is s1 s2 (t_sym t)
  | Some m => if dmem m (disabled s1) then as_is s1 s2 (t_sym t)
              else replaced s1 s2 (t_sym t) (m_idx m) (m_file m)
  end.
Proof.
  intros Hf Hs Sk K I. rewrite (step_fetched _ _ _ _ _ Hf), Sk in Hs.
  assert (R : macros (record_arg t s1) = macros s1 /\ disabled (record_arg t s1) = disabled s1 /\
     cur_line (record_arg t s1) = cur_line s1 /\ estack (record_arg t s1) = estack s1 /\
     exp_sym (record_arg t s1) = exp_sym s1 /\ intr (record_arg t s1) = intr s1).
  { unfold record_arg. destruct (t_orig t); repeat split. }
  destruct R as (R1 & R2 & R3 & R4 & R5 & R6).
  assert (P : forall s', cur_line s' = cur_line s1 -> estack s' = estack s1 -> exp_sym s' = exp_sym s1 ->
     as_is s1 (push_symbol (t_sym t) s') (t_sym t)).
  { intros s' A B C. unfold push_symbol, as_is. rewrite K. cbn. rewrite A, B, C, string_assoc. auto. }
  unfold process_active in Hs. rewrite K, R6 in Hs.
  assert (Hs' : match mget (macros s1) (s_text (t_sym t)) with
          | None => Next (push_symbol (t_sym t) (record_arg t s1))
          | Some m =>
              if dmem m (disabled s1)
              then Next (push_symbol (t_sym t) (set_disabled (drem m (disabled s1)) (record_arg t s1)))
              else
                match expand_identifier fuel (lex (record_arg t s1)) (macros s1) t true (disabled s1) with
                | XOk diff pushed l dis =>
                    Next (set_adiff diff (set_exp_sym (Some ((t_sym t), (m_idx m, m_file m)))
                      (set_estack (pushed ++ estack (record_arg t s1)) (set_lex l (set_disabled dis (record_arg t s1))))))
                | XNotFound name r l dis =>
                    Stop (FError (set_err_notfound (err_notfound (record_arg t s1) ++ [(name, r)]) (record_arg t s1)))
                | XParse _ _ _ => Stop (FError (record_arg t s1))
                | XFuel => Stop FFuel
                end
          end = Next s2).
  { rewrite <- Hs, R1, R2. destruct (intr s1) as [[]|]; try reflexivity. exfalso. apply I. reflexivity. }
  clear Hs. destruct (mget (macros s1) (s_text (t_sym t))) as [m|].
  - destruct (dmem m (disabled s1)).
    + injection Hs' as <-. apply P; cbn; auto.
    + destruct (expand_identifier _ _ _ _ _ _); try discriminate. injection Hs' as <-. split; cbn; auto.
  - injection Hs' as <-. apply P; auto.
Qed.

(** A use in active code: after [#undef] the name is written as it is; after [#define] it is replaced
    by the body of that very macro, unless that macro is being expanded (C21); after an include
    that brought it, by what was brought. [m] are the macros known before the file. *)
Theorem C24_use_follows_latest :
  forall v fuel table i m syms tr s t s1 s2,
    only_adds v table -> reads v fuel (init_st i m syms) tr s ->
    fetch s = Some (t, s1) -> step v fuel s = Next s2 -> skipping s1 = false ->
    s_kind (t_sym t) = KIdent -> intr s1 <> Some IDot ->
    match latest (exports v table) 0 tr (s_text (t_sym t)) None with
    | None => match mget m (s_text (t_sym t)) with
              | None => as_is s1 s2 (t_sym t)
              | Some mac => as_is s1 s2 (t_sym t) /\ dmem mac (disabled s1) = true \/
                            replaced s1 s2 (t_sym t) (m_idx mac) (m_file mac)
              end
    | Some Removed => as_is s1 s2 (t_sym t)
    | Some (Bound n) =>
        as_is s1 s2 (t_sym t) /\
          (exists mac, m_file mac = v_file v /\ m_idx mac = n /\ dmem mac (disabled s1) = true) \/
        replaced s1 s2 (t_sym t) n (v_file v)
    | Some (Brought mac) => as_is s1 s2 (t_sym t) /\ dmem mac (disabled s1) = true \/
                            replaced s1 s2 (t_sym t) (m_idx mac) (m_file mac)
    end.
Proof.
  intros v fuel table i m syms tr s t s1 s2 Ha H Hf Hs Sk K I.
  pose proof (C24_latest_directive_wins v fuel table i m syms tr s (s_text (t_sym t)) Ha H) as L.
  pose proof (ident_used v fuel s t s1 s2 Hf Hs Sk K I) as U.
  pose proof (fetch_tables _ _ _ Hf) as T. injection T as T1 T2 T3. rewrite T1 in U.
  destruct (latest (exports v table) 0 tr (s_text (t_sym t)) None) as [[n| |mac]|]; cbn [as_left] in L.
  - destruct L as (mac & A & B & C). rewrite A in U. destruct (dmem mac (disabled s1)) eqn:D.
    + left. split; [exact U|]. exists mac. auto.
    + right. rewrite B, C in U. exact U.
  - rewrite L in U. exact U.
  - rewrite L in U. destruct (dmem mac (disabled s1)) eqn:D; auto.
  - rewrite L in U. destruct (mget m (s_text (t_sym t))) as [mac|]; [|exact U].
    destruct (dmem mac (disabled s1)) eqn:D; auto.
Qed.
Print Assumptions C24_use_follows_latest.

(** Both callbacks of the queries only add to the table, so the theorems apply to them. *)
Theorem C24_queries_only_add :
  (forall w p f, only_adds (file_env w f (data_inc w p f))
     (fun _ _ path q => match w_resolve w f path q with Some inc => outputs_of (p_outputs p) inc | None => [] end)) /\
  (forall w n f, only_adds (file_env w f (params_inc w (params_query n w) f))
     (fun i m path q => match w_resolve w f path q with
                        | None => []
                        | Some inc =>
                            if zmem inc (i_being i) then []
                            else match params_query n w inc m (i_being i) with
                                 | QBad _ => []
                                 | QOk res _ => match zget res inc with
                                                | None => [] | Some p => outputs_of (p_outputs p) inc end
                                 end
                        end)).
Proof.
  split.
  - intros w p f i m path q. cbn [file_env v_inc]. unfold data_inc.
    destruct (w_resolve w f path q); reflexivity.
  - intros w n f i m path q. cbn [file_env v_inc]. unfold params_inc.
    destruct (w_resolve w f path q) as [inc|]; [|reflexivity].
    destruct (zmem inc (i_being i)); [reflexivity|].
    destruct (params_query n w inc m (i_being i)) as [res vis|]; [|reflexivity].
    destruct (zget res inc); reflexivity.
Qed.
Print Assumptions C24_queries_only_add.

(** What a first include brings is the table that the included file leaves when it starts with the
    table of the includer at that point. *)
Theorem C24_first_include :
  forall n w f m being res vis,
    params_query (S n) w f m being = QOk res vis ->
    exists s, (preprocess (file_env w f (params_inc w (params_query n w) f)) (w_fuel w)
                 (Incs [] (f :: being) [] [f] None) m (w_syms w f) = FResult s \/
               preprocess (file_env w f (params_inc w (params_query n w) f)) (w_fuel w)
                 (Incs [] (f :: being) [] [f] None) m (w_syms w f) = FError s) /\
      exists p, zget res f = Some p /\ p_input p = m /\ outputs_of (p_outputs p) f = macros s.
Proof.
  intros n w f m being res vis. cbn [params_query].
  destruct (preprocess _ _ _ _ _) as [s|s| |]; try discriminate; unfold params_finish;
    (destruct (i_bad (incs s)); [discriminate|]; intros H; injection H as <- _;
     exists s; split; [auto|]; eexists; cbn [zget]; rewrite Z.eqb_refl; split; [reflexivity|];
     cbn [p_input p_outputs]; unfold outputs_of; cbn [zget]; rewrite Z.eqb_refl; auto).
Qed.
Print Assumptions C24_first_include.

(** A project written as named sources; file [k] is the [k]-th. *)
Fixpoint index_of (x : string) (k : Z) (l : list (string * string)) : option Z :=
  match l with
  | [] => None
  | (n, _) :: tl => if String.eqb n x then Some k else index_of x (k + 1) tl
  end.
Definition project (files : list (string * string)) : world :=
  World (fun f => match nth_error files (Z.to_nat f) with Some (_, t) => lex_source t | None => [] end)
    (fun _ path _ => index_of path 0 files) chevron_path quote_path (fun s => s) false 300.
Definition text_of (r : presult) : option string :=
  match r with PRun (FResult s) => Some (join_lines (out s)) | _ => None end.

Local Open Scope string_scope.
(** Definition, redefinition, #undef, inactive code and an include; each line shows the macro that
    holds there. *)
Example C24_nontrivial :
  text_of (preprocess_file 10 (project
    [("main",
"X
#define X 1
X Y
#include <inc>
X Y
#if 0
#define X 7
#undef Y
#endif
X Y
#undef X
X Y");
     ("inc",
"#define Y X 5
#if defined X
#undef X
#define X 3
#endif")]) (Some 0) 0) =
  Some
"X
#define X 1
1 Y
#include <inc>
3 3 5




3 3 5
#undef X
X X 5".
Proof. vm_compute. reflexivity. Qed.

(** Not true across files: an #undef in an included file does not reach the includer, whose table
    is only added to (db.rs:118-124, 163-170). After the include [X] should be unknown; it is
    replaced by 1. *)
Theorem C24_undef_in_include_refuted :
  text_of (preprocess_file 10 (project
    [("main",
"#define X 1
#include <inc>
X"); ("inc", "#undef X")]) (Some 0) 0) =
  Some
"#define X 1
#include <inc>
1".
Proof. vm_compute. reflexivity. Qed.
Print Assumptions C24_undef_in_include_refuted.

(** A second include of a file that has nothing to do with [X] brings back an older definition of
    [X]: the table of the file was recorded when it was first included and holds the macros of the
    includer of that time. The most recent #define says 2, the use is replaced by 1. *)
Theorem C24_second_include_refuted :
  text_of (preprocess_file 10 (project
    [("main",
"#define X 1
#include <inc>
#undef X
#define X 2
X
#include <inc>
X"); ("inc", "int a;")]) (Some 0) 0) =
  Some
"#define X 1
#include <inc>
#undef X
#define X 2
2
#include <inc>
1".
Proof. vm_compute. reflexivity. Qed.
Print Assumptions C24_second_include_refuted.

