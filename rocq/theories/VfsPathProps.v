(** C64: paths of files name places. *)
From Coq Require Import List Ascii String Bool Arith Lia.
From Verif Require Import PathsModel PathsSpec PathsProps VfsPathModel VfsPathSpec VfsPathProofs.
Import ListNotations.
Local Open Scope list_scope.

(** Every path made for a file on disk names one place: the one its pieces lead to from the root. *)
Theorem C64_made : forall s, is_absolute s = true ->
  exists v l, new_real_path s = Some v /\ shows v l /\ walk True [] (split s) l.
Proof.
  intros s A. unfold new_real_path. rewrite A. apply absolute_slash in A. destruct A as (q & ->).
  destruct (normalize_abs q) as (N & F). exists (from_abs (slash :: q)), (fold_left keep (split q) []). split; [reflexivity|]. split.
  - apply shows_iff. split; [exact F|]. left. unfold from_abs. rewrite N. reflexivity.
  - change (split (slash :: q)) with ([] :: split q). apply walk_empty. apply keep_walk; [|constructor]. apply (written_free _ q). apply split_written.
Qed.
Print Assumptions C64_made.

(** A path on disk joined with a relative one names the place the pieces lead to from it. *)
Theorem C64_join : forall p l ps q, shows (Real p) l -> written ps q -> is_absolute q = false ->
  exists r m, vfs_join (Real p) q = Some (Some (Real r)) /\ shows (Real r) m /\ walk True l ps m.
Proof.
  intros p l ps q S W A. apply shows_iff in S. destruct S as (F & [E|E]); [|discriminate]. inversion E; subst.
  destruct (real_join l q F A) as (r & J & N & G). cbn [vfs_join]. rewrite J. exists (normalize r), (fold_left keep (split q) l).
  split; [reflexivity|]. split; [apply shows_iff; split; [exact G|left; rewrite N; reflexivity]|].
  rewrite <- (written_split _ _ W). apply keep_walk; [|exact F]. apply (written_free _ q). apply split_written.
Qed.
Print Assumptions C64_join.
(** With an absolute one it is that path. *)
Theorem C64_join_absolute : forall p l q, shows (Real p) l -> is_absolute q = true ->
  exists v, new_real_path q = Some v /\ vfs_join (Real p) q = Some (Some v).
Proof.
  intros p l q _ A. exists (from_abs q). unfold new_real_path. rewrite A. split; [reflexivity|]. cbn [vfs_join]. unfold abs_join, push. rewrite A, A. reflexivity.
Qed.
Print Assumptions C64_join_absolute.

(** A path in memory joined with one that goes up, then stays, then names places: the place the pieces
    lead to, or nothing if they lead above the root. *)
Theorem C64_join_virtual_partial : forall s l ps q, shows (Virtual s) l -> written ps q -> plain ps ->
  exists o, vfs_join (Virtual s) q = Some o /\
    match o with
    | Some r => exists m, walk False l ps m /\ shows r m /\ same_kind (Virtual s) r
    | None => forall m, ~ walk False l ps m
    end.
Proof.
  intros s l ps q S W P. apply shows_iff in S. destruct S as (F & [E|E]); [discriminate|]. inversion E; subst.
  pose proof (virtual_join_plain ps P q l F W) as J. cbn [vfs_join]. eexists. split; [reflexivity|].
  destruct (virtual_join (vrender l) q) as [r|]; [|exact J]. destruct J as (m & K & ->). exists m. split; [exact K|]. split; [|exact I].
  apply shows_iff. split; [|right; reflexivity]. exact (walk_proper _ _ _ _ K F).
Qed.
Print Assumptions C64_join_virtual_partial.

(** So paths on disk and in memory agree on such paths that stay below the root. *)
Lemma walk_weaken : forall l ps m, walk False l ps m -> walk True l ps m.
Proof.
  induction 1 as [l|l ps m W IH|l ps m W IH|l x ps m W IH|ps m S W IH|l x ps m P W IH].
  - constructor.
  - apply walk_empty. exact IH.
  - apply walk_here. exact IH.
  - apply walk_up. exact IH.
  - destruct S.
  - apply walk_name; assumption.
Qed.
Corollary C64_join_agree_partial : forall p s l ps q m, shows (Real p) l -> shows (Virtual s) l -> written ps q -> plain ps -> is_absolute q = false ->
  walk False l ps m ->
  exists r r', vfs_join (Real p) q = Some (Some r) /\ vfs_join (Virtual s) q = Some (Some r') /\ shows r m /\ shows r' m.
Proof.
  intros p s l ps q m Sp Ss W P A K. destruct (C64_join p l ps q Sp W A) as (r & m1 & J1 & S1 & K1).
  destruct (C64_join_virtual_partial s l ps q Ss W P) as ([r'|] & J2 & H); [|destruct (H m K)].
  destruct H as (m2 & K2 & S2 & _). rewrite (walk_fun _ _ _ _ K1 m (walk_weaken _ _ _ K)) in S1. rewrite (walk_fun _ _ _ _ K2 m K) in S2.
  exists (Real r), r'. repeat split; assumption.
Qed.
Print Assumptions C64_join_agree_partial.

(** In memory, going up behind a name, at the end of the path or after staying is not understood, nor is an empty
    path; and from the path "/" itself every path is a wrong one. *)
Definition b (s : string) : list ascii := list_ascii_of_string s.
Theorem C64_join_virtual_refuted :
  (exists s l ps q m r, shows (Virtual s) l /\ written ps q /\ walk False l ps m /\ vfs_join (Virtual s) q = Some (Some r) /\ ps = [b "b"; b ".."; b "c"] /\ ~ shows r m) /\
  (exists s l ps q m r, shows (Virtual s) l /\ written ps q /\ walk False l ps m /\ vfs_join (Virtual s) q = Some (Some r) /\ ps = [b ".."] /\ ~ shows r m) /\
  (exists s l ps q m r, shows (Virtual s) l /\ written ps q /\ walk False l ps m /\ vfs_join (Virtual s) q = Some (Some r) /\ ps = [b "."; b ".."; b "c"] /\ ~ shows r m) /\
  (exists s l ps q m r, shows (Virtual s) l /\ written ps q /\ walk False l ps m /\ vfs_join (Virtual s) q = Some (Some r) /\ q = [] /\ ~ shows r m) /\
  (exists v r, new_virtual_path (b "/") = Some v /\ vfs_join v (b "a") = Some (Some r) /\ ~ shows r [b "a"]).
Proof.
  assert (G : forall v l, shows v l -> Forall proper_name l /\ (v = Real (render l) \/ v = Virtual (vrender l))) by (intros v l; apply shows_iff).
  assert (Sa : shows (Virtual (b "/a")) [b "a"]).
  { apply shows_iff. split; [|right; reflexivity]. constructor; [|constructor]. repeat split; try discriminate. intros [H|[]]; discriminate. }
  assert (W : forall q, written (split q) q) by apply split_written.
  assert (Pc : forall c, c <> "."%char -> c <> sl -> proper_name [c]).
  { intros c D1 D2. repeat split; try discriminate; [intros E; inversion E; auto|]. intros [H|[]]; congruence. }
  split; [|split; [|split; [|split]]].
  - exists (b "/a"), [b "a"], [b "b"; b ".."; b "c"], (b "b/../c"), [b "a"; b "c"], (Virtual (b "/a/b/../c")). split; [exact Sa|]. split; [exact (W (b "b/../c"))|].
    split; [|split; [reflexivity|split; [reflexivity|]]].
    + apply walk_name; [apply Pc; discriminate|]. apply (walk_up False [b "a"] (b "b")). apply walk_name; [apply Pc; discriminate|]. apply walk_end.
    + intros H. apply G in H. destruct H as (_ & [H|H]); discriminate.
  - exists (b "/a"), [b "a"], [b ".."], (b ".."), [], (Virtual (b "/a/..")). split; [exact Sa|]. split; [exact (W (b ".."))|].
    split; [|split; [reflexivity|split; [reflexivity|]]].
    + apply (walk_up False [] (b "a")). apply walk_end.
    + intros H. apply G in H. destruct H as (_ & [H|H]); discriminate.
  - exists (b "/a"), [b "a"], [b "."; b ".."; b "c"], (b "./../c"), [b "c"], (Virtual (b "/a/../c")). split; [exact Sa|]. split; [exact (W (b "./../c"))|].
    split; [|split; [reflexivity|split; [reflexivity|]]].
    + apply walk_here. apply (walk_up False [] (b "a")). apply walk_name; [apply Pc; discriminate|]. apply walk_end.
    + intros H. apply G in H. destruct H as (_ & [H|H]); discriminate.
  - exists (b "/a"), [b "a"], [[]], [], [b "a"], (Virtual (b "/a/")). split; [exact Sa|]. split; [exact (W [])|].
    split; [|split; [reflexivity|split; [reflexivity|]]].
    + apply walk_empty. apply walk_end.
    + intros H. apply G in H. destruct H as (_ & [H|H]); discriminate.
  - exists (Virtual (b "/")), (Virtual (b "//a")). split; [reflexivity|]. split; [reflexivity|].
    intros H. apply G in H. destruct H as (_ & [H|H]); discriminate.
Qed.
Print Assumptions C64_join_virtual_refuted.

(** Leaving a place leads to the one around it; the root cannot be left. *)
Theorem C64_pop : forall v l, shows v l ->
  match vfs_pop v with
  | (true, w) => exists x m, l = m ++ [x] /\ shows w m /\ same_kind v w
  | (false, w) => l = [] /\ w = v
  end.
Proof.
  intros v l S. apply shows_iff in S. destruct S as (F & E).
  destruct l as [|x l _] using rev_ind.
  - destruct E as [-> | ->]; (split; reflexivity).
  - apply Forall_app in F. destruct F as (F & Fx). inversion Fx as [|? ? P _]; subst. destruct E as [-> | ->].
    + cbn [vfs_pop]. pose proof (pop_render l x F P) as Q. unfold pop in Q.
      pose proof (C34_parent (render (l ++ [x])) eq_refl) as A. unfold abs_parent in A.
      destruct (parent (render (l ++ [x]))) as [p|].
      * subst p. exists x, l. split; [reflexivity|]. split; [|exact I]. apply shows_iff. split; [exact F|left; reflexivity].
      * exfalso. rewrite components_render in A by (apply Forall_app; auto). rewrite map_app in A. inversion A as [A1]. apply app_eq_nil in A1. destruct A1 as (_ & A1). discriminate A1.
    + cbn [vfs_pop]. unfold virtual_pop. rewrite rsplit_vrender by exact P. exists x, l. split; [reflexivity|]. split; [|exact I].
      apply shows_iff. split; [exact F|right; reflexivity].
Qed.
Print Assumptions C64_pop.
Theorem C64_parent : forall v l, shows v l ->
  match vfs_parent v with
  | Some w => exists x m, l = m ++ [x] /\ shows w m /\ same_kind v w
  | None => l = []
  end.
Proof.
  intros v l S. pose proof (C64_pop v l S) as P. unfold vfs_parent. destruct (vfs_pop v) as [[|] w]; [exact P|apply P].
Qed.
Print Assumptions C64_parent.

(** [starts_with] says for paths on disk whether the place is in or below the other one; for those in
    memory the last name of the other path may be a beginning of the name only. *)
Theorem C64_prefix : forall v w l m, shows v l -> shows w m ->
  (vfs_starts_with v w = true <->
   same_kind v w /\
   ((exists rest, l = m ++ rest) \/
    match v with
    | Real _ => False
    | Virtual _ => exists m' y x rest t, m = m' ++ [y] /\ l = m' ++ x :: rest /\ x = y ++ t
    end)).
Proof.
  intros v w l m S T. apply shows_iff in S, T. destruct S as (F & S), T as (G & T).
  destruct S as [-> | ->], T as [-> | ->]; cbn [vfs_starts_with same_kind].
  - rewrite starts_with_render by assumption. tauto.
  - split; [discriminate|intros ([] & _)].
  - split; [discriminate|intros ([] & _)].
  - rewrite vrender_prefix by assumption. split.
    + intros [->|H]; (split; [exact I|]); [left; exists l; reflexivity|right; exact H].
    + intros (_ & [(rest & ->)|H]); [|right; exact H]. destruct m as [|y m _] using rev_ind; [left; reflexivity|right].
      exists m, y, y, rest, []. rewrite app_nil_r, <- app_assoc. repeat split.
Qed.
Print Assumptions C64_prefix.
Theorem C64_prefix_refuted : exists v w l m, shows v l /\ shows w m /\ same_kind v w /\ vfs_starts_with v w = true /\ ~ exists rest, l = m ++ rest.
Proof.
  exists (Virtual (b "/foobar")), (Virtual (b "/foo")), [b "foobar"], [b "foo"].
  assert (P : forall s, s = b "foo" \/ s = b "foobar" -> proper_name s).
  { intros s [-> | ->]; (split; [discriminate|split; [discriminate|split; [discriminate|]]]); unfold slash_free; cbn; intros H; repeat (destruct H as [H|H]; [discriminate H|]); exact H. }
  split; [apply shows_iff; split; [constructor; [apply P; auto|constructor]|right; reflexivity]|].
  split; [apply shows_iff; split; [constructor; [apply P; auto|constructor]|right; reflexivity]|].
  split; [exact I|]. split; [reflexivity|]. intros (rest & E). apply (f_equal (fun l => hd [] l)) in E. discriminate E.
Qed.
Print Assumptions C64_prefix_refuted.

(** [strip_prefix] gives the names left, exactly if the place is in or below the other one; for paths
    in memory unless the other one is the root, where the whole path is left, slash included. *)
Theorem C64_strip_partial : forall v w l m, shows v l -> shows w m -> w <> Virtual [] ->
  forall r, vfs_strip_prefix v w = Some r <->
    same_kind v w /\ exists rest, l = m ++ rest /\ (rest = [] /\ r = [] \/ written rest r).
Proof.
  intros v w l m S T N r. apply shows_iff in S, T. destruct S as (F & S), T as (G & T).
  assert (K : forall rest, Forall proper_name rest -> (Some (join_pieces rest) = Some r <-> (rest = [] /\ r = [] \/ written rest r))).
  { intros rest Fr. split.
    - intros E. inversion E; subst. destruct rest as [|x rest]; [left; split; reflexivity|right]. apply join_written; [discriminate|apply proper_free; exact Fr].
    - intros [(-> & ->)|W]; [reflexivity|]. rewrite (written_join _ _ W). reflexivity. }
  assert (R : forall l m, Forall proper_name l -> Forall proper_name m ->
    (std_strip (render l) (render m) = Some r <-> exists rest, l = m ++ rest /\ (rest = [] /\ r = [] \/ written rest r))).
  { clear - K. intros l m F G. rewrite std_strip_render by assumption. destruct (starts_with (render l) (render m)) eqn:S.
    - apply starts_with_render in S; [|assumption|assumption]. destruct S as (rest & ->). rewrite skipn_app, skipn_all, Nat.sub_diag. cbn [app skipn].
      apply Forall_app in F. destruct F as (_ & F). rewrite (K rest F). split; [intros H; exists rest; split; [reflexivity|exact H]|].
      intros (rest' & E & H). apply app_inv_head in E. subst. exact H.
    - split; [discriminate|]. intros (rest & E & _). exfalso. pose proof (proj2 (starts_with_render l m F G) (ex_intro _ rest E)) as Q. rewrite S in Q. discriminate. }
  destruct S as [-> | ->], T as [-> | ->]; cbn [vfs_strip_prefix same_kind].
  - rewrite R by assumption. tauto.
  - split; [discriminate|intros ([] & _)].
  - split; [discriminate|intros ([] & _)].
  - destruct m as [|y m]; [contradiction N; reflexivity|]. rewrite (vrender_cons y m). destruct l as [|x l].
    + unfold std_strip, starts_with. rewrite components_render by assumption. split; [discriminate|]. intros (_ & rest & E & _). discriminate.
    + rewrite (vrender_cons x l). rewrite R by assumption. tauto.
Qed.
Print Assumptions C64_strip_partial.
Theorem C64_strip_refuted : forall s l, shows (Virtual s) l -> l <> [] -> vfs_strip_prefix (Virtual s) (Virtual []) = Some s /\ is_absolute s = true.
Proof.
  intros s l S N. apply shows_iff in S. destruct S as (F & [E|E]); [discriminate|]. inversion E; subst. destruct l as [|x l]; [contradiction|].
  split; [|reflexivity]. cbn [vfs_strip_prefix]. rewrite vrender_cons. unfold std_strip.
  assert (Q : starts_with (render (x :: l)) [] = true) by reflexivity. rewrite Q.
  unfold render. change (components []) with (@nil component). cbv iota. f_equal. f_equal.
  rewrite split_join by (try discriminate; apply proper_free; exact F). rewrite trim_right_proper by exact F. reflexivity.
Qed.
Print Assumptions C64_strip_refuted.

(** What is stripped, joined again, gives the path back. *)
Theorem C64_strip_join_partial : forall v w l m r, shows v l -> shows w m -> w <> Virtual [] -> vfs_strip_prefix v w = Some r -> r <> [] ->
  vfs_join w r = Some (Some v).
Proof.
  intros v w l m r S T N E Nr. pose proof (proj1 (C64_strip_partial v w l m S T N r) E) as (K & rest & -> & [(_ & ->)|W]); [contradiction|].
  apply shows_iff in S, T. destruct S as (F & S), T as (G & T). apply Forall_app in F. destruct F as (_ & Fr).
  assert (x_rest : exists x xs, rest = x :: xs) by (inversion W; eauto). destruct x_rest as (x & xs & ->).
  assert (A : is_absolute r = false).
  { destruct r as [|c r]; [reflexivity|]. cbn. destruct (Ascii.eqb_spec c slash) as [->|]; [|reflexivity]. exfalso.
    pose proof (written_split _ _ W) as Q. cbn in Q. inversion Q; subst. inversion Fr as [|? ? P _]; subst. destruct (proper_cases P). }
  destruct S as [-> | ->], T as [-> | ->]; cbn [same_kind] in K; try contradiction.
  - destruct (real_join m r G A) as (q & J & Nq & _). cbn [vfs_join]. rewrite J, Nq, (written_split _ _ W), keep_names by exact Fr. reflexivity.
  - pose proof (virtual_join_plain (x :: xs) (plain_names x xs Fr) r m G W) as J. cbn [vfs_join].
    destruct (virtual_join (vrender m) r) as [q|].
    + destruct J as (m' & K' & ->). rewrite (walk_fun _ _ _ _ K' _ (names_walk False (x :: xs) m Fr)). reflexivity.
    + exfalso. exact (J _ (names_walk False (x :: xs) m Fr)).
Qed.
Print Assumptions C64_strip_join_partial.

(** The name and extension are those of the last name on the way. *)
Theorem C64_name : forall v l, shows v l ->
  (forall m x, l = m ++ [x] -> forall s e, vfs_name v = Some (s, e) <-> named x s e) /\
  (l = [] -> vfs_name v = None).
Proof.
  intros v l S. apply shows_iff in S. destruct S as (F & S). split.
  - intros m x -> s e. assert (P : proper_name x) by (apply Forall_app in F; destruct F as (_ & F); inversion F; assumption).
    rewrite <- (name_parts x s e P). destruct S as [-> | ->]; cbn [vfs_name]; [rewrite real_name_snoc by exact F|rewrite virtual_name_snoc by exact P]; reflexivity.
  - intros ->. destruct S as [-> | ->]; reflexivity.
Qed.
Print Assumptions C64_name.
(** Every name has one. *)
Theorem C64_name_total : forall v l, shows v l -> l <> [] -> exists p, vfs_name v = Some p.
Proof.
  intros v l S N. apply shows_iff in S. destruct S as (F & S). destruct l as [|x l _] using rev_ind; [contradiction|].
  assert (P : proper_name x) by (apply Forall_app in F; destruct F as (_ & F); inversion F; assumption).
  assert (Q : exists p, match rsplit dot x with None | Some ([], _) => Some (x, None) | Some (s, e) => Some (s, Some e) end = Some p).
  { destruct (rsplit dot x) as [[[|c a] e]|]; eexists; reflexivity. }
  destruct S as [-> | ->]; cbn [vfs_name]; [rewrite real_name_snoc by exact F|rewrite virtual_name_snoc by exact P]; exact Q.
Qed.
Print Assumptions C64_name_total.

(** Paths are equal, and have the same encoding, if they are of one kind and name one place. *)
Theorem C64_equal : forall v w l m, shows v l -> shows w m ->
  (vfs_eqb v w = true <-> same_kind v w /\ l = m) /\ (vfs_encode v = vfs_encode w <-> same_kind v w /\ l = m).
Proof.
  intros v w l m S T. apply shows_iff in S, T. destruct S as (F & S), T as (G & T).
  destruct S as [-> | ->], T as [-> | ->]; cbn [vfs_eqb vfs_encode same_kind].
  - split.
    + rewrite components_eqb_spec, !components_render by assumption. split.
      * intros E. split; [exact I|]. apply render_inj; [assumption|assumption|].
        assert (E2 : map Normal l = map Normal m) by congruence. f_equal. clear -E2. revert m E2.
        induction l as [|x l IH]; intros [|y m] E; try reflexivity; try discriminate. cbn in E. inversion E; subst. f_equal. apply IH. assumption.
      * intros (_ & ->). reflexivity.
    + split; [|intros (_ & ->); reflexivity]. intros E. split; [exact I|]. apply render_inj; [assumption|assumption|]. congruence.
  - split; (split; [discriminate|intros ([] & _)]).
  - split; (split; [discriminate|intros ([] & _)]).
  - split.
    + destruct (path_eqb_spec (vrender l) (vrender m)) as [E|E].
      * split; [|reflexivity]. intros _. split; [exact I|]. apply vrender_inj; assumption.
      * split; [discriminate|]. intros (_ & ->). contradiction E. reflexivity.
    + split; [|intros (_ & ->); reflexivity]. intros E. split; [exact I|]. apply vrender_inj; [assumption|assumption|]. congruence.
Qed.
Print Assumptions C64_equal.

Example C64_nontrivial :
  new_real_path (b "/srv//scripting/./include/../a.sp") = Some (Real (b "/srv/scripting/a.sp")) /\
  vfs_join (Real (b "/srv/scripting")) (b "../../../x.inc") = Some (Some (Real (b "/x.inc"))) /\
  vfs_join (Virtual (b "/srv/scripting")) (b ".././../x.inc") = Some (Some (Virtual (b "/srv/../x.inc"))) /\
  vfs_join (Virtual (b "/srv/scripting")) (b "../.././x.inc") = Some (Some (Virtual (b "/x.inc"))) /\
  vfs_join (Virtual (b "/srv/scripting")) (b "../../../x.inc") = Some None /\
  vfs_pop (Virtual (b "/srv")) = (true, Virtual []) /\
  vfs_strip_prefix (Real (b "/srv/a/b.sp")) (Real (b "/srv")) = Some (b "a/b.sp") /\
  vfs_name (Virtual (b "/srv/a.b.sp")) = Some (b "a.b", Some (b "sp")) /\
  vfs_name (Real (b "/srv/.git")) = Some (b ".git", None).
Proof. repeat split. Qed.
