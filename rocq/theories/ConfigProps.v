(** C37: configuration errors are reported and other settings survive. *)
From Coq Require Import List Ascii String Bool NArith Lia.
From Verif Require Import ConfigModel ConfigSpec.
Import ListNotations.

(** ** Pointers *)

Fixpoint look (toks : list string) (j : json) : option json :=
  match toks with
  | [] => Some j
  | t :: ts => match j with JObj kvs => match member t kvs with Some c => look ts c | None => None end | _ => None end
  end.
Definition not_indices (toks : list string) : Prop := Forall (fun t => parse_index t = None) toks.

Lemma member_set_same k v kvs c : member k kvs = Some c -> member k (set_member k v kvs) = Some v.
Proof.
  induction kvs as [|[k' v'] kvs IH]; simpl; [discriminate|]. destruct (String.eqb k' k) eqn:E; simpl; rewrite E; [reflexivity|exact IH].
Qed.
Lemma member_set_other k k2 v kvs : k <> k2 -> member k2 (set_member k v kvs) = member k2 kvs.
Proof.
  intros N. induction kvs as [|[k' v'] kvs IH]; simpl; [reflexivity|].
  destruct (String.eqb_spec k' k) as [->|Hk]; simpl; [|destruct (String.eqb k' k2); [reflexivity|exact IH]].
  destruct (String.eqb_spec k k2) as [E|_]; [contradiction|reflexivity].
Qed.
Lemma take_look toks : forall j, not_indices toks ->
  match take_at toks j with Some (v, _) => look toks j = Some v | None => look toks j = None end.
Proof.
  induction toks as [|t ts IH]; intros j H; cbn [take_at look]; [reflexivity|]. inversion H as [|? ? Ht Hts]; subst.
  destruct j; try reflexivity; [rewrite Ht; reflexivity|]. destruct (member t kvs) as [c|]; [|reflexivity].
  specialize (IH c Hts). destruct (take_at ts c) as [[v c']|]; exact IH.
Qed.

(** Neither is a prefix of the other. *)
Fixpoint apart (p q : list string) : Prop :=
  match p, q with
  | x :: p', y :: q' => x <> y \/ apart p' q'
  | _, _ => False
  end.
Lemma take_apart p : forall q j v j', not_indices p -> apart p q -> take_at p j = Some (v, j') -> look q j' = look q j.
Proof.
  induction p as [|x p IH]; intros [|y q] j v j' Hp Ha E; try contradiction. inversion Hp as [|? ? Hx Hp']; subst. cbn [take_at] in E.
  destruct j; try discriminate E; [rewrite Hx in E; discriminate E|]. destruct (member x kvs) as [c|] eqn:Em; [|discriminate E].
  destruct (take_at p c) as [[v' c']|] eqn:Et; [|discriminate E]. injection E as <- <-. cbn [look].
  destruct (string_dec x y) as [->|N].
  - rewrite (member_set_same _ _ _ _ Em), Em. destruct Ha as [Ha|Ha]; [contradiction|]. eapply IH; eassumption.
  - rewrite member_set_other by exact N. reflexivity.
Qed.

Lemma member_in kvs : NoDup (map fst kvs) -> forall k c, member k kvs = Some c <-> In (k, c) kvs.
Proof.
  induction kvs as [|[k' v'] kvs IH]; intros Hd k c; simpl; [split; [discriminate|tauto]|]. inversion Hd as [|? ? Hn Hd']; subst.
  destruct (String.eqb_spec k' k) as [->|N].
  - split; [intros E; injection E as ->; left; reflexivity|]. intros [E|I]; [congruence|].
    exfalso. apply Hn. apply in_map_iff. exists (k, c). tauto.
  - rewrite (IH Hd' k c). split; [tauto|]. intros [E|I]; [congruence|exact I].
Qed.
Lemma look_holds ks : forall j v, sound j -> (look ks j = Some v <-> holds j ks v).
Proof.
  induction ks as [|k ks IH]; intros j v Hs; cbn [look].
  - split; [intros E; injection E as ->; constructor|]. intros H. inversion H. reflexivity.
  - destruct j; try (split; [discriminate|intros H; inversion H]). inversion Hs as [j Ha Hb E| |kvs' Hd Hf E]; subst; [exfalso; exact (Hb kvs eq_refl)|].
    destruct (member k kvs) as [c|] eqn:Em.
    + apply member_in in Em; [|exact Hd]. pose proof (proj1 (Forall_forall _ _) Hf (k, c) Em) as Hc. cbn in Hc.
      rewrite (IH c v Hc). split; [intros H; econstructor; eassumption|]. intros H. inversion H as [|? ? c2 ? ? I H' E1 E2]; subst.
      apply member_in in I; [|exact Hd]. apply member_in in Em; [|exact Hd]. assert (c = c2) by congruence. subst c2. exact H'.
    + split; [discriminate|]. intros H. inversion H as [|? ? c2 ? ? I H' E1 E2]; subst. apply member_in in I; [|exact Hd]. congruence.
Qed.

(** ** One setting *)

Definition decodes {T} (de : decode T) (R : json -> T -> Prop) : Prop := forall j x, de j = Some x <-> R j x.
Lemma decodes_bool : decodes de_bool is_bool.
Proof. intros [] x; unfold is_bool; simpl; split; intros E; try discriminate E; injection E as ->; reflexivity. Qed.
Lemma decodes_string : decodes de_string is_string.
Proof. intros [] x; unfold is_string; simpl; split; intros E; try discriminate E; injection E as ->; reflexivity. Qed.
Lemma decodes_u8 : decodes de_u8 (is_below 256).
Proof.
  intros [] x; unfold is_below; simpl; split; intros E; try discriminate E; try (destruct E as (E & _); discriminate E).
  - destruct (N.leb_spec n 255); [|discriminate E]. injection E as ->. split; [reflexivity|lia].
  - destruct E as (E & L). injection E as ->. destruct (N.leb_spec x 255); [reflexivity|lia].
Qed.
Lemma decodes_usize : decodes de_usize (is_below (2 ^ 64)).
Proof.
  intros [] x; unfold is_below, de_usize; split; intros E; try discriminate E; try (destruct E as (E & _); discriminate E).
  - destruct (N.ltb_spec n (2 ^ 64)); [|discriminate E]. injection E as ->. split; [reflexivity|assumption].
  - destruct E as (E & L). injection E as ->. destruct (N.ltb_spec x (2 ^ 64)); [reflexivity|lia].
Qed.
Lemma decodes_vec {T} (de : decode T) R : decodes de R -> decodes (de_vec de) (is_list R).
Proof.
  intros H. assert (G : forall l xs, all_some de l = Some xs <-> Forall2 R l xs).
  { induction l as [|j l IH]; intros xs; simpl.
    - split; [intros E; injection E as <-; constructor|]. intros F. inversion F. reflexivity.
    - split.
      + destruct (de j) as [x|] eqn:Ej; [|discriminate]. destruct (all_some de l) as [ys|]; [|discriminate]. intros E. injection E as <-.
        constructor; [apply H; exact Ej|apply IH; reflexivity].
      + intros F. inversion F as [|? x ? ys Hx Hl]; subst. apply H in Hx. apply IH in Hl. rewrite Hx, Hl. reflexivity. }
  intros [] xs; unfold is_list; simpl; try (split; [discriminate|intros (l' & E & _); discriminate E]).
  rewrite G. split; [intros F; exists l; tauto|]. intros (l' & E & F). injection E as ->. exact F.
Qed.
Lemma decodes_option {T} (de : decode T) R : decodes de R -> de JNull = None -> decodes (de_option de) (is_optional R).
Proof.
  intros H Hn j x. unfold de_option, is_optional.
  assert (G : option_map Some (de j) = Some x <-> exists y, x = Some y /\ R j y).
  { destruct (de j) as [z|] eqn:E; simpl.
    - split; [intros X; injection X as <-; exists z; split; [reflexivity|apply H; exact E]|]. intros (y & -> & Hy). apply H in Hy. congruence.
    - split; [discriminate|]. intros (y & -> & Hy). apply H in Hy. congruence. }
  destruct j; try (rewrite G; destruct x as [y|]; [split; [intros (z & E & Hz); injection E as ->; exact Hz|intros Hy; exists y; tauto]|split; [intros (y & E & _); discriminate E|discriminate]]).
  destruct x as [y|]; [|tauto]. split; [discriminate|]. intros Hy. apply H in Hy. congruence.
Qed.

(** What [get_field] does, with the pointer already split. *)
Lemma get_field_eq {T} (de : decode T) field toks def d st :
  pointer_tokens (String "/" (replace "_" "/" field)) = toks -> not_indices toks -> de def = Some d ->
  exists j', get_field de field None def st =
    Some (match look toks (fst st) with Some v => match de v with Some x => x | None => d end | None => d end, (j', snd st)) /\
    forall q, apart toks q -> look q j' = look q (fst st).
Proof.
  intros Ht Hn Hd. destruct st as [j errs]. unfold get_field. cbn [app get_candidates]. rewrite Ht.
  pose proof (take_look toks j Hn) as L. destruct (take_at toks j) as [[v j']|] eqn:E; cbn [fst snd].
  - rewrite L. exists j'. split; [|intros q Hq; eapply take_apart; eassumption].
    destruct (de v); cbn [option_map]; [reflexivity|]. rewrite Hd. reflexivity.
  - rewrite L. exists j. split; [cbn [option_map]; rewrite Hd; reflexivity|reflexivity].
Qed.

Lemma setting_look {T} (de : decode T) R j ks d : decodes de R -> sound j ->
  setting R j ks d (match look ks j with Some v => match de v with Some x => x | None => d end | None => d end).
Proof.
  intros H Hs. unfold setting. destruct (look ks j) as [v|] eqn:E.
  - apply look_holds in E; [|exact Hs]. destruct (de v) as [x|] eqn:Ev.
    + left. exists v. split; [exact E|apply H; exact Ev].
    + right. split; [|reflexivity]. intros v' y Hv Hy. apply look_holds in Hv; [|exact Hs]. apply look_holds in E; [|exact Hs].
      assert (v' = v) by congruence. subst v'. apply H in Hy. congruence.
  - right. split; [|reflexivity]. intros v y Hv _. apply look_holds in Hv; [|exact Hs]. congruence.
Qed.

(** ** The whole document *)

Definition value {T} (de : decode T) (d : T) (ks : list string) (j : json) : T :=
  match look ks j with Some v => match de v with Some x => x | None => d end | None => d end.
Local Open Scope string_scope.

Lemma from_json_eq j : from_json j = Some
  (ConfigData (value de_bool true ["cachePriming"; "enable"] j) (value de_u8 0%N ["cachePriming"; "numThreads"] j)
     (value (de_vec de_string) [] ["compiler"; "arguments"] j) (value de_bool true ["compiler"; "onSave"] j)
     (value (de_option de_string) None ["compiler"; "path"] j) (value (de_vec de_string) [] ["includeDirectories"] j)
     (value de_bool false ["linter"; "disable"] j) (value (de_option de_usize) None ["numThreads"] j), []).
Proof.
  unfold from_json, value.
  Ltac ap := simpl; repeat (first [left; discriminate | right]).
  Ltac fld H := lazymatch goal with |- match get_field ?de ?f None ?def (?j, ?e) with _ => _ end = _ =>
     let toks := eval vm_compute in (pointer_tokens (String "/" (replace "_" "/" f))) in
     let d := eval cbv in (de def) in
     lazymatch d with Some ?dv =>
     let E := fresh "E" in let j' := fresh "j" in
     destruct (get_field_eq de f toks def dv (j, e) eq_refl ltac:(repeat constructor) eq_refl) as (j' & E & H);
     cbn [fst snd] in E, H; rewrite E; clear E end end.
  fld H1. fld H2. fld H3. fld H4. fld H5. fld H6. fld H7. fld H8.
  rewrite (H7 ["numThreads"] ltac:(ap)), (H6 ["numThreads"] ltac:(ap)), (H5 ["numThreads"] ltac:(ap)), (H4 ["numThreads"] ltac:(ap)),
    (H3 ["numThreads"] ltac:(ap)), (H2 ["numThreads"] ltac:(ap)), (H1 ["numThreads"] ltac:(ap)).
  rewrite (H6 ["linter"; "disable"] ltac:(ap)), (H5 ["linter"; "disable"] ltac:(ap)), (H4 ["linter"; "disable"] ltac:(ap)),
    (H3 ["linter"; "disable"] ltac:(ap)), (H2 ["linter"; "disable"] ltac:(ap)), (H1 ["linter"; "disable"] ltac:(ap)).
  rewrite (H5 ["includeDirectories"] ltac:(ap)), (H4 ["includeDirectories"] ltac:(ap)), (H3 ["includeDirectories"] ltac:(ap)),
    (H2 ["includeDirectories"] ltac:(ap)), (H1 ["includeDirectories"] ltac:(ap)).
  rewrite (H4 ["compiler"; "path"] ltac:(ap)), (H3 ["compiler"; "path"] ltac:(ap)), (H2 ["compiler"; "path"] ltac:(ap)), (H1 ["compiler"; "path"] ltac:(ap)).
  rewrite (H3 ["compiler"; "onSave"] ltac:(ap)), (H2 ["compiler"; "onSave"] ltac:(ap)), (H1 ["compiler"; "onSave"] ltac:(ap)).
  rewrite (H2 ["compiler"; "arguments"] ltac:(ap)), (H1 ["compiler"; "arguments"] ltac:(ap)).
  rewrite (H1 ["cachePriming"; "numThreads"] ltac:(ap)).
  reflexivity.
Qed.

(** Every well-typed setting takes its value, every other its default, whatever the rest of the
    document is; an empty document changes nothing. *)
Theorem C37_settings :
  forall data j, sound j ->
    exists data' errs, update data j = Some (data', errs) /\
      (j = JNull \/ j = JObj [] -> data' = data) /\
      (j <> JNull -> j <> JObj [] -> configured j data').
Proof.
  intros data j Hs.
  assert (G : exists data' errs, from_json j = Some (data', errs) /\ configured j data').
  { rewrite from_json_eq. do 2 eexists. split; [reflexivity|]. unfold configured. cbn [cachePriming_enable cachePriming_numThreads
      compiler_arguments compiler_onSave compiler_path includeDirectories linter_disable numThreads].
    pose proof decodes_bool. pose proof decodes_string. pose proof decodes_u8. pose proof decodes_usize.
    repeat apply conj; apply setting_look; try assumption; try (apply decodes_vec; assumption); apply decodes_option; assumption || reflexivity. }
  destruct G as (d & e & E & Hc). destruct j as [| | | | | | |[|kv kvs]]; cbn [update];
    try (exists d, e; split; [exact E|split; [intros [X|X]; discriminate X|intros _ _; exact Hc]]);
    exists data, []; (split; [reflexivity|split; [reflexivity|intros H1 H2; congruence]]).
Qed.
Print Assumptions C37_settings.

(** The meaning of a document leaves no choice. *)
Theorem C37_determined : forall j c c', sound j -> configured j c -> configured j c' -> c = c'.
Proof.
  intros j c c' Hs H H'.
  assert (U : forall T (de : decode T) R ks d x y, decodes de R -> setting R j ks d x -> setting R j ks d y -> x = y).
  { intros T de R ks d x y Hd [(v & Hv & Hx)|(Hx & Ex)] [(w & Hw & Hy)|(Hy & Ey)].
    - apply look_holds in Hv; [|exact Hs]. apply look_holds in Hw; [|exact Hs]. assert (v = w) by congruence. subst w.
      apply Hd in Hx. apply Hd in Hy. congruence.
    - exfalso. exact (Hy v x Hv Hx).
    - exfalso. exact (Hx w y Hw Hy).
    - congruence. }
  destruct c as [x1 x2 x3 x4 x5 x6 x7 x8], c' as [y1 y2 y3 y4 y5 y6 y7 y8]. unfold configured in *. cbn [cachePriming_enable cachePriming_numThreads
      compiler_arguments compiler_onSave compiler_path includeDirectories linter_disable numThreads] in *.
  decompose [and] H. decompose [and] H'.
  f_equal; eapply U; try eassumption; try apply decodes_bool; try apply decodes_u8; try (apply decodes_vec; apply decodes_string);
    apply decodes_option; try apply decodes_string; try apply decodes_usize; reflexivity.
Qed.
Print Assumptions C37_determined.

(** No update ever reports an error, and it never panics. *)
Theorem C37_no_errors : forall data j, exists data', update data j = Some (data', []).
Proof.
  intros data j. destruct j as [| | | | | | |[|kv kvs]]; cbn [update]; try rewrite from_json_eq; eexists; reflexivity.
Qed.
Print Assumptions C37_no_errors.

(** So a setting of the wrong type is not reported. *)
Theorem C37_reported_refuted :
  exists data j ks data', sound j /\ ill_typed j ks /\ update data j = Some (data', []).
Proof.
  destruct default_data as [d0|] eqn:E; [|discriminate E].
  exists d0, (JObj [("compiler", JObj [("path", JPos 3)])]), ["compiler"; "path"].
  eexists. split; [|split; [|reflexivity]].
  - apply sound_obj; [repeat constructor; intros []|]. constructor; [|constructor]. cbn [snd].
    apply sound_obj; [repeat constructor; intros []|]. constructor; [|constructor]. apply sound_atom; discriminate.
  - exists (JPos 3). split; [|intros [s|]; discriminate].
    eapply holds_in; [left; reflexivity|]. eapply holds_in; [left; reflexivity|]. constructor.
Qed.
Print Assumptions C37_reported_refuted.

(** The number of priming threads: the configured one, else one per processor up to 255, so never
    zero when there is a processor. Relative include directories are dropped. *)
Theorem C37_derived :
  forall cpus d,
    (cachePriming_numThreads d <> 0%N -> prime_caches_num_threads cpus d = cachePriming_numThreads d) /\
    (cachePriming_numThreads d = 0%N -> prime_caches_num_threads cpus d = N.min cpus 255) /\
    ((0 < cpus)%N -> (0 < prime_caches_num_threads cpus d)%N) /\
    (forall p, In p (include_directories d) <-> In p (includeDirectories d) /\ exists q, p = String "/" q).
Proof.
  intros cpus d. unfold prime_caches_num_threads, include_directories. split; [|split; [|split]].
  - intros H. destruct (cachePriming_numThreads d); [contradiction|reflexivity].
  - intros ->. destruct (N.leb_spec cpus 255); lia.
  - intros H. destruct (cachePriming_numThreads d); [|lia]. destruct (N.leb_spec cpus 255); lia.
  - intros p. rewrite filter_In. split; intros (I & H); (split; [exact I|]).
    + destruct p as [|c p]; [discriminate H|]. apply Ascii.eqb_eq in H. subst c. exists p. reflexivity.
    + destruct H as (q & ->). reflexivity.
Qed.
Print Assumptions C37_derived.

Example C37_nontrivial :
  option_map fst (update (ConfigData true 0 [] true None [] false None)
    (JObj [("compiler", JObj [("path", JPos 3); ("onSave", JBool false); ("arguments", JArr [JStr "-O2"])]);
           ("numThreads", JPos 4); ("linter", JStr "x"); ("cachePriming", JObj [("numThreads", JPos 256); ("enable", JBool false)])]))
  = Some (ConfigData false 0 ["-O2"] false None [] false (Some 4%N)).
Proof. reflexivity. Qed.
