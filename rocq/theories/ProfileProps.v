(** C76: what the profiler prints is how the spans were nested. *)

From Coq Require Import String List Arith NArith Bool Lia Sorted OrderedTypeEx.
From Verif Require Import ProfileModel ProfileSpec ProfileProofs.
Import ListNotations.

(** Spans opened and closed one inside the other never make the tree panic, and
    what is printed of the tree is the report of the spans. *)
Theorem C76_tree : forall s limit, timed s ->
  exists t lines,
    follow (events s) empty_tree = Some t /\ t_path t = [] /\ List.length (t_nodes t) = size s /\
    root t = Some 0 /\
    (forall level fuel, size s <= fuel -> exists lines, print fuel t 0 level limit = Some lines /\ report limit level s lines) /\
    print (S (List.length (t_nodes t))) t 0 0 limit = Some lines /\ report limit 0 s lines.
Proof.
  intros s limit T.
  assert (A : sits (place 0 None s) 0 s).
  { exists [], None, []. rewrite app_nil_r. split; reflexivity. }
  exists (Tree (place 0 None s) []).
  destruct (all_print limit (place 0 None s) s T (S (size s)) 0 0 A ltac:(lia)) as [lines [P R]].
  exists lines. rewrite root_hangs. cbn [t_path t_nodes]. rewrite place_length. repeat split; auto.
  - unfold root. cbn [t_nodes]. destruct s as [m l]. reflexivity.
  - intros level fuel F. exact (all_print limit _ s T fuel 0 level A F).
Qed.
Print Assumptions C76_tree.

Lemma call_rect' (P : call -> Prop) (H : forall m l, Forall P l -> P (Call m l)) : forall c, P c.
Proof.
  fix IH 1. intros [m l]. apply H. induction l as [| c r IHr]; constructor; [apply IH | exact IHr].
Qed.

(** A tree in which a span is open. *)
Definition open_tree (t : tree) : Prop :=
  exists ns p last r, t = Tree ns ((p, last) :: r) /\ slot_free ns p last.

Lemma slot_again ns p last s :
  slot_free (hang p last (List.length ns) ns ++ place (List.length ns) None s) p (Some (List.length ns)).
Proof.
  cbn [slot_free]. destruct s as [m k]. rewrite place_eq. eexists. split; [apply nth_at_eq, hang_length | reflexivity].
Qed.

Lemma open_event s t : open_tree t -> exists t', follow (events s) t = Some t' /\ open_tree t'.
Proof.
  intros (ns & p & last & r & -> & F). eexists. split; [apply (all_hang s ns p last r F) |].
  do 4 eexists. split; [reflexivity |]. apply slot_again.
Qed.

Lemma start_open t : t = empty_tree \/ open_tree t -> exists t1, start t = Some t1 /\ open_tree t1.
Proof.
  intros [-> | (ns & p & last & r & -> & F)].
  - eexists. split; [reflexivity |]. do 4 eexists. split; [reflexivity |]. eexists. split; reflexivity.
  - rewrite (start_in _ _ _ _ F). eexists. split; [reflexivity |]. do 4 eexists. split; [reflexivity |].
    cbn [slot_free]. eexists. split; [apply nth_at_eq, hang_length | reflexivity].
Qed.

Lemma exec_eq f m inner st : f_depth f <> 0 ->
  exec f (Call m inner) st =
  match push f (m_label m) st with
  | None => None
  | Some (false, st) => exec_all f inner st
  | Some (true, st) => match exec_all f inner st with Some st => pop f m st | None => None end
  end.
Proof. intro H. destruct f as [[| d] al lo]; [cbn in H; congruence |]. reflexivity. Qed.

Lemma exec_cons f c r st : exec_all f (c :: r) st = match exec f c st with Some st => exec_all f r st | None => None end.
Proof. reflexivity. Qed.

(** Inside an open span. *)
Definition within (f : filter) (c : call) : Prop :=
  forall d st, s_frames st = S d -> open_tree (s_messages st) ->
  exists t, follow (flat_map events (kept f (S d) c)) (s_messages st) = Some t /\ open_tree t /\
            exec f c st = Some (Stack (S d) t (s_printed st)).

Lemma within_list f l : Forall (within f) l -> forall d st, s_frames st = S d -> open_tree (s_messages st) ->
  exists t, follow (flat_map events (flat_map (kept f (S d)) l)) (s_messages st) = Some t /\ open_tree t /\
            exec_all f l st = Some (Stack (S d) t (s_printed st)).
Proof.
  induction 1 as [| c r Hc Hr IH]; intros d st E O.
  - exists (s_messages st). destruct st as [fr t pr]. cbn in E. subst fr. repeat split; auto.
  - destruct (Hc d st E O) as [t [A [B C]]].
    destruct (IH d (Stack (S d) t (s_printed st)) eq_refl B) as [t' [A' [B' C']]].
    exists t'. rewrite exec_cons, C, C'. split; [| auto].
    cbn [flat_map]. rewrite flat_map_app, follow_app, A. exact A'.
Qed.

Lemma too_deep f d l : f_depth f < d -> flat_map (kept f d) l = [].
Proof.
  intro H. induction l as [| [m k] r IH]; [reflexivity |]. cbn [flat_map kept].
  rewrite (proj2 (Nat.ltb_lt _ _) H). exact IH.
Qed.

Lemma all_within f c : f_depth f <> 0 -> within f c.
Proof.
  intro D. induction c as [m inner IH] using call_rect'. intros d st E O.
  rewrite exec_eq by exact D. unfold push. rewrite E. cbn [kept].
  destruct (f_depth f <? S d) eqn:L.
  - apply Nat.ltb_lt in L.
    destruct (within_list f inner IH d st E O) as [t [A [B C]]].
    rewrite (too_deep f (S d) inner L) in A. exists t. auto.
  - cbn [Nat.eqb andb]. destruct (start_open _ (or_intror O)) as [t1 [S1 O1]]. rewrite S1.
    destruct (within_list f inner IH (S d) (Stack (S (S d)) t1 (s_printed st)) eq_refl O1) as [t2 [A [B C]]].
    rewrite C. cbn [s_messages] in A.
    destruct (open_event (Span m (flat_map (kept f (S (S d))) inner)) _ O) as [t3 [F3 O3]].
    exists t3. cbn [flat_map]. rewrite app_nil_r. split; [exact F3 |]. split; [exact O3 |].
    cbn [events follow] in F3. rewrite S1, follow_app, A in F3. cbn [follow] in F3.
    unfold pop. cbn [s_frames s_messages]. destruct (finish m t2); [| discriminate]. injection F3 as ->. reflexivity.
Qed.

(** Outside of all spans. *)
Definition without (f : filter) (c : call) : Prop :=
  forall printed, Forall timed (kept f 0 c) ->
  exists out, Forall2 (report (f_longer f) 0) (List.filter (long (f_longer f)) (kept f 0 c)) out /\
              exec f c (Stack 0 empty_tree printed) = Some (Stack 0 empty_tree (printed ++ out)).

Lemma without_list f l : Forall (without f) l -> forall printed, Forall timed (flat_map (kept f 0) l) ->
  exists out, Forall2 (report (f_longer f) 0) (List.filter (long (f_longer f)) (flat_map (kept f 0) l)) out /\
              exec_all f l (Stack 0 empty_tree printed) = Some (Stack 0 empty_tree (printed ++ out)).
Proof.
  induction 1 as [| c r Hc Hr IH]; intros printed T.
  - exists []. rewrite app_nil_r. split; [constructor | reflexivity].
  - cbn [flat_map] in *. apply Forall_app in T. destruct T as [T1 T2].
    destruct (Hc printed T1) as [o1 [A B]]. destruct (IH (printed ++ o1) T2) as [o2 [A' B']].
    exists (o1 ++ o2). rewrite exec_cons, B, B', app_assoc. split; [| reflexivity].
    rewrite filter_app. apply Forall2_app; assumption.
Qed.

Lemma all_without f c : f_depth f <> 0 -> without f c.
Proof.
  intro D. induction c as [m inner IH] using call_rect'. intros printed T.
  rewrite exec_eq by exact D. unfold push. cbn [s_frames s_messages]. cbn [kept] in *.
  cbn [Nat.ltb Nat.leb] in *.
  assert (W : (negb (match f_allowed f with [] => true | _ => false end) && negb (existsb (String.eqb (m_label m)) (f_allowed f)))%bool
              = negb (wanted f (m_label m))).
  { unfold wanted. destruct (f_allowed f); reflexivity. }
  cbn [Nat.eqb andb] in *. rewrite W. destruct (negb (wanted f (m_label m))).
  - exact (without_list f inner IH printed T).
  - destruct (start_open empty_tree (or_introl eq_refl)) as [t1 [S1 O1]]. rewrite S1.
    assert (IW : Forall (within f) inner) by (apply Forall_forall; intros c _; apply all_within, D).
    destruct (within_list f inner IW 0 (Stack 1 t1 printed) eq_refl O1) as [t2 [A [B C]]].
    cbn [s_printed] in *. rewrite C. cbn [s_messages] in A.
    set (s := Span m (flat_map (kept f 1) inner)) in *.
    apply Forall_inv in T. destruct (C76_tree s (f_longer f) T) as (t & lines & F & P & L & R & _ & Q & G).
    unfold s in F. cbn [events follow] in F. rewrite S1, follow_app, A in F. cbn [follow] in F.
    unfold pop. cbn [s_frames s_messages s_printed]. destruct (finish m t2) as [t' |]; [| discriminate]. injection F as ->.
    cbn [Nat.eqb]. rewrite R, Q. cbn [List.filter].
    change ((millis (f_longer f) <? millis (m_duration m))%N) with (long (f_longer f) s).
    destruct (long (f_longer f) s).
    + exists [lines]. split; [repeat constructor; exact G | reflexivity].
    + exists []. rewrite app_nil_r. split; [constructor | reflexivity].
Qed.

Definition call_took (c : call) : N := let 'Call m _ := c in m_duration m.

Lemma kept_total f d l : (total (flat_map (kept f (S d)) l) <= fold_right N.add 0 (map call_took l))%N.
Proof.
  induction l as [| [m k] r IH]; [reflexivity |]. cbn [flat_map map fold_right call_took]. rewrite total_app.
  cbn [kept]. destruct (f_depth f <? S d); cbn [Nat.eqb andb].
  - change (total []) with 0%N. lia.
  - assert (E : total [Span m (flat_map (kept f (S (S d))) k)] = m_duration m) by apply N.add_0_r.
    rewrite E. lia.
Qed.

Lemma kept_timed f c : punctual c -> forall d, Forall timed (kept f d c).
Proof.
  induction c as [m inner IH] using call_rect'. intros P d. inversion P as [m' i' Pi Pd]; subst. cbn [kept].
  assert (G : forall d, Forall timed (flat_map (kept f d) inner)).
  { clear Pd P. intro e. induction inner as [| c r IHr]; [constructor |]. cbn [flat_map].
    inversion IH; inversion Pi; subst. apply Forall_app. split; auto. }
  destruct (f_depth f <? d); [constructor |].
  destruct (Nat.eqb d 0 && negb (wanted f (m_label m)))%bool; [apply G |].
  repeat constructor; [apply G |]. etransitivity; [apply kept_total | exact Pd].
Qed.

(** A run of a program that opens and closes spans never makes the profiler
    panic; it prints the report of each outermost span kept that took longer than the
    limit, in the order in which they are closed, and nothing else. *)
Theorem C76_run : forall f calls, f_depth f <> 0 -> Forall punctual calls ->
  exists out,
    exec_all f calls empty_stack = Some (Stack 0 empty_tree out) /\
    Forall2 (report (f_longer f) 0) (List.filter (long (f_longer f)) (flat_map (kept f 0) calls)) out.
Proof.
  intros f calls D P.
  assert (T : Forall timed (flat_map (kept f 0) calls)).
  { induction P as [| c r Hc Hr IH]; [constructor |]. cbn [flat_map]. apply Forall_app. split; [apply kept_timed, Hc | exact IH]. }
  destruct (without_list f calls (proj2 (Forall_forall _ _) (fun c _ => all_without f c D)) [] T) as [out [A B]].
  exists out. split; assumption.
Qed.
Print Assumptions C76_run.

(** The disabled profiler, whose depth is zero, does nothing. *)
Theorem C76_off : forall f calls st, f_depth f = 0 -> exec_all f calls st = Some st.
Proof.
  intros f calls st D.
  assert (E : forall c st, exec f c st = Some st).
  { induction c as [m inner IH] using call_rect'. intro st0. cbn [exec]. rewrite D. cbn [Nat.eqb].
    induction IH as [| c r Hc Hr IHr]; [reflexivity |]. rewrite Hc. exact IHr. }
  revert st. induction calls as [| c r IH]; intro st; [reflexivity |]. rewrite exec_cons, E. apply IH.
Qed.
Print Assumptions C76_off.

(** No more spans are kept inside each other than one more than the depth asked for. *)
Theorem C76_depth : forall f c d s, In s (kept f d c) -> levels s + d <= S (f_depth f).
Proof.
  intros f c. induction c as [m inner IH] using call_rect'. intros d s I. cbn [kept] in I.
  destruct (f_depth f <? d) eqn:L; [destruct I |]. apply Nat.ltb_ge in L.
  destruct (Nat.eqb d 0 && negb (wanted f (m_label m)))%bool.
  - apply in_flat_map in I. destruct I as [c [J K]]. exact (proj1 (Forall_forall _ _) IH c J d s K).
  - destruct I as [<- | []]. cbn [levels].
    assert (H : list_max (map levels (flat_map (kept f (S d)) inner)) <= f_depth f - d); [| lia].
    apply list_max_le, Forall_forall. intros n N. apply in_map_iff in N. destruct N as [s [<- K]].
    apply in_flat_map in K. destruct K as [c [J K]].
    pose proof (proj1 (Forall_forall _ _) IH c J (S d) s K). lia.
Qed.
Print Assumptions C76_depth.

Open Scope string_scope.

(** A run with a span of two milliseconds that holds a long span, three short ones
    of two names and time of its own, and a span of a name that is not asked for. *)
Definition calls_x : list call :=
  [Call (Message 9000000 "other" None)
     [Call (Message 8000000 "diagnostics" (Some "a.sp"))
        [Call (Message 300000 "parse" None) [];
         Call (Message 4000000 "infer" None) [Call (Message 3500000 "lower" None) [Call (Message 3000000 "deep" None) []]];
         Call (Message 200000 "names" None) [];
         Call (Message 900000 "parse" None) []]];
   Call (Message 500000 "diagnostics" None) []].

Definition filter_x : filter := Filter 2 ["diagnostics"] 1000000.

Example C76_nontrivial :
  exec_all filter_x calls_x empty_stack =
  Some (Stack 0 empty_tree
    [["    8ms - diagnostics @ a.sp";
      "        4ms - infer";
      "            3ms - lower";
      "        0   - names (1 calls)";
      "        1ms - parse (2 calls)";
      "        2ms - ???"]]) /\
  Forall punctual calls_x /\ f_depth filter_x <> 0.
Proof.
  split; [vm_compute; reflexivity |]. split; [| discriminate].
  repeat (constructor; [| try (vm_compute; discriminate)]); repeat constructor; try (vm_compute; discriminate).
Qed.
