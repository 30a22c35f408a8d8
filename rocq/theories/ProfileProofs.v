(** The arena of the profiler holds the spans in the order in which they open. *)

From Coq Require Import String Ascii List Arith NArith Bool Lia Sorted OrderedTypeEx.
From Verif Require Import ProfileModel ProfileSpec.
Import ListNotations.

Lemma span_rect' (P : span -> Prop) (H : forall m l, Forall P l -> P (Span m l)) : forall s, P s.
Proof.
  fix IH 1. intros [m l]. apply H. induction l as [| s r IHr]; constructor; [apply IH | exact IHr].
Qed.

(** The nodes of a span put at [base], with what its last link is. *)
Fixpoint place (base : nat) (nx : option nat) (s : span) : list node :=
  match s with
  | Span m l =>
      Node m (match l with [] => None | _ => Some (S base) end) nx ::
      (fix go (b : nat) (l : list span) : list node :=
         match l with
         | [] => []
         | s :: r => place b (match r with [] => None | _ => Some (b + size s) end) s ++ go (b + size s) r
         end) (S base) l
  end.

Fixpoint place_all (b : nat) (l : list span) : list node :=
  match l with
  | [] => []
  | s :: r => place b (match r with [] => None | _ => Some (b + size s) end) s ++ place_all (b + size s) r
  end.

Lemma place_eq base nx m l :
  place base nx (Span m l) = Node m (match l with [] => None | _ => Some (S base) end) nx :: place_all (S base) l.
Proof.
  reflexivity.
Qed.

Lemma place_length s : forall base nx, List.length (place base nx s) = size s.
Proof.
  induction s as [m l IH] using span_rect'. intros base nx. rewrite place_eq. cbn [List.length size]. f_equal.
  generalize (S base). induction IH as [| s r Hs Hr IHr]; intro b; [reflexivity |].
  cbn. rewrite app_length, Hs. f_equal. apply IHr.
Qed.

Lemma place_all_length l : forall b, List.length (place_all b l) = list_sum (map size l).
Proof.
  induction l as [| s r IH]; intro b; [reflexivity |]. cbn. rewrite app_length, place_length. f_equal. apply IH.
Qed.

Lemma size_pos s : 0 < size s.
Proof. destruct s. cbn. lia. Qed.

Lemma place_next base i s ns :
  List.length ns = base ->
  upd base (set_next i) (ns ++ place base None s) = ns ++ place base (Some i) s.
Proof.
  intros E. destruct s as [m l]. rewrite !place_eq. subst base.
  generalize (place_all (S (List.length ns)) l). intro tl.
  set (fst := match l with [] => None | _ => _ end). clearbody fst.
  induction ns as [| n r IH]; [reflexivity |]. cbn. now rewrite IH.
Qed.

Lemma upd_app_l i f l r : i < List.length l -> upd i f (l ++ r) = upd i f l ++ r.
Proof.
  revert i; induction l as [| n l IH]; intros [| i] H; cbn in *; try lia; [reflexivity |].
  rewrite IH by lia. reflexivity.
Qed.

Lemma upd_at f l n r : upd (List.length l) f (l ++ n :: r) = l ++ f n :: r.
Proof. induction l as [| a l IH]; [reflexivity |]. cbn. now rewrite IH. Qed.

Lemma upd_length i f l : List.length (upd i f l) = List.length l.
Proof. revert i; induction l as [| n l IH]; intros [| i]; cbn; auto. Qed.

Lemma nth_at (l : list node) n r : nth_error (l ++ n :: r) (List.length l) = Some n.
Proof. induction l; [reflexivity | assumption]. Qed.

Lemma nth_at_eq (l : list node) i n r : List.length l = i -> nth_error (l ++ n :: r) i = Some n.
Proof. intros <-. apply nth_at. Qed.

Lemma upd_at_eq i f l n r : List.length l = i -> upd i f (l ++ n :: r) = l ++ f n :: r.
Proof. intros <-. apply upd_at. Qed.

Lemma nth_lt (l : list node) i n : nth_error l i = Some n -> i < List.length l.
Proof. intro H. apply nth_error_Some. congruence. Qed.

(** The link the next span is hung on. *)
Definition hang (p : nat) (last : option nat) (i : nat) (ns : list node) : list node :=
  match last with Some x => upd x (set_next i) ns | None => upd p (set_first i) ns end.

Definition slot_free (ns : list node) (p : nat) (last : option nat) : Prop :=
  match last with
  | Some x => exists n, nth_error ns x = Some n /\ n_next n = None
  | None => exists n, nth_error ns p = Some n /\ n_first n = None
  end.

Lemma hang_length p last i ns : List.length (hang p last i ns) = List.length ns.
Proof. destruct last; apply upd_length. Qed.

Lemma start_in ns p last r :
  slot_free ns p last ->
  start (Tree ns ((p, last) :: r)) =
  Some (Tree (hang p last (List.length ns) ns ++ [Node no_message None None])
             ((List.length ns, None) :: (p, Some (List.length ns)) :: r)).
Proof.
  unfold start, slot_free, hang. cbn [t_nodes t_path].
  destruct last as [x |]; intros [n [E F]]; pose proof (nth_lt _ _ _ E) as L;
    rewrite nth_error_app1 by exact L; rewrite E, F, upd_app_l by exact L; reflexivity.
Qed.

Lemma follow_app a b t : follow (a ++ b) t = match follow a t with Some t => follow b t | None => None end.
Proof.
  revert t; induction a as [| [| m] a IH]; intro t; [reflexivity | |]; cbn.
  - destruct (start t); auto.
  - destruct (finish m t); auto.
Qed.

Definition hangs (s : span) : Prop :=
  forall ns p last r, slot_free ns p last ->
  follow (events s) (Tree ns ((p, last) :: r)) =
  Some (Tree (hang p last (List.length ns) ns ++ place (List.length ns) None s) ((p, Some (List.length ns)) :: r)).

Definition hang_all (p : nat) (last : option nat) (ns : list node) (l : list span) : list node :=
  match l with [] => ns | _ => hang p last (List.length ns) ns end.

(** The last child of a list hung at [b]. *)
Fixpoint last_of (last : option nat) (b : nat) (l : list span) : option nat :=
  match l with [] => last | s :: r => last_of (Some b) (b + size s) r end.

Lemma hangs_list l : Forall hangs l -> forall ns p last r, slot_free ns p last ->
  follow (flat_map events l) (Tree ns ((p, last) :: r)) =
  Some (Tree (hang_all p last ns l ++ place_all (List.length ns) l) ((p, last_of last (List.length ns) l) :: r)).
Proof.
  induction 1 as [| s l Hs Hl IH]; intros ns p last r F.
  - cbn. now rewrite app_nil_r.
  - cbn [flat_map]. rewrite follow_app, (Hs ns p last r F).
    set (ns1 := hang p last (List.length ns) ns ++ place (List.length ns) None s).
    assert (L1 : List.length ns1 = List.length ns + size s).
    { unfold ns1. now rewrite app_length, hang_length, place_length. }
    assert (F1 : slot_free ns1 p (Some (List.length ns))).
    { cbn [slot_free]. destruct s as [m k]. unfold ns1. rewrite place_eq.
      eexists. split; [apply nth_at_eq, hang_length | reflexivity]. }
    rewrite (IH ns1 p (Some (List.length ns)) r F1). f_equal. rewrite L1. cbn [last_of place_all hang_all]. f_equal.
    rewrite app_assoc. f_equal. unfold hang_all. destruct l as [| s2 l2].
    + reflexivity.
    + cbn [hang]. rewrite L1. apply place_next. apply hang_length.
Qed.

Lemma inside m l : Forall hangs l -> forall ns, let me := List.length ns in forall r,
  follow (flat_map events l ++ [Close m]) (Tree (ns ++ [Node no_message None None]) ((me, None) :: r)) =
  Some (Tree (ns ++ place me None (Span m l)) r).
Proof.
  intros H ns me r. rewrite follow_app.
  rewrite (hangs_list l H).
  2: { cbn. eexists. split; [apply nth_at | reflexivity]. }
  cbn [follow]. unfold finish. cbn [t_path t_nodes].
  rewrite place_eq. rewrite app_length. cbn [List.length]. rewrite Nat.add_1_r. fold me.
  destruct l as [| s l].
  - cbn [hang_all place_all]. rewrite app_nil_r.
    unfold me. rewrite nth_at, upd_at. reflexivity.
  - unfold hang_all, hang. rewrite app_length. cbn [List.length]. rewrite Nat.add_1_r.
    rewrite (upd_at_eq me) by reflexivity. rewrite <- !app_assoc. cbn [app].
    rewrite nth_at_eq by reflexivity. rewrite upd_at_eq by reflexivity. reflexivity.
Qed.

Lemma all_hang s : hangs s.
Proof.
  induction s as [m l IH] using span_rect'. intros ns p last r F. cbn [events follow].
  rewrite (start_in _ _ _ _ F).
  pose proof (inside m l IH (hang p last (List.length ns) ns) ((p, Some (List.length ns)) :: r)) as E.
  cbn zeta in E. rewrite hang_length in E. exact E.
Qed.

Lemma root_hangs s : follow (events s) empty_tree = Some (Tree (place 0 None s) []).
Proof.
  destruct s as [m l]. cbn [events follow]. unfold start, empty_tree. cbn [t_nodes t_path List.length app].
  apply (inside m l (proj2 (Forall_forall _ _) (fun s _ => all_hang s)) []).
Qed.

(** * Lines *)

Lemma app_assoc_s a b c : ((a ++ b) ++ c = a ++ (b ++ c))%string.
Proof. induction a as [| x a IH]; [reflexivity |]. cbn. now rewrite IH. Qed.

Lemma app_empty_r s : (s ++ "")%string = s.
Proof. induction s as [| a s IH]; [reflexivity |]. cbn. now rewrite IH. Qed.

Lemma blanks_spaces n : blanks n = spaces n.
Proof. induction n as [| n IH]; [reflexivity |]. cbn. now rewrite IH. Qed.

Lemma indent_spaces n : indent n = spaces (4 * n).
Proof.
  induction n as [| n IH]; [reflexivity |]. replace (4 * S n) with (S (S (S (S (4 * n))))) by lia. cbn [indent]. rewrite IH. reflexivity.
Qed.

Lemma ms_time d : ms d = time d.
Proof.
  unfold ms, time, millis. destruct (N.eqb_spec (d / 1000000) 0) as [-> | _]; [reflexivity |].
  rewrite blanks_spaces. reflexivity.
Qed.

Lemma span_line_eq level m : span_line level m = line level (m_duration m) (titled m).
Proof.
  unfold span_line, line, titled. rewrite indent_spaces, ms_time. destruct (m_detail m); [reflexivity |]. now rewrite app_empty_r.
Qed.

Lemma deeper_eq level r : ("    " ++ indent level ++ r)%string = (spaces (4 * S level) ++ r)%string.
Proof. rewrite <- indent_spaces. cbn [indent]. rewrite app_assoc_s. reflexivity. Qed.

Lemma short_line_eq level x t c : short_line level (x, (t, c)) = line (S level) t (x ++ " (" ++ number c ++ " calls)")%string.
Proof. unfold short_line, line. rewrite deeper_eq, ms_time. reflexivity. Qed.

Lemma unknown_line_eq level d : unknown_line level d = line (S level) d "???".
Proof. unfold unknown_line, line. rewrite deeper_eq, ms_time. reflexivity. Qed.

(** * Short children *)

Notation lts := String_as_OT.lt.

Lemma lts_irrefl x : ~ lts x x.
Proof. intro H. exact (String_as_OT.lt_not_eq x x H eq_refl). Qed.

Lemma cmp_gt x y : String_as_OT.cmp x y = Gt -> lts y x.
Proof. intro H. apply String_as_OT.cmp_lt. rewrite String_as_OT.cmp_antisym, H. reflexivity. Qed.

Lemma count_keys k d l x : In x (map fst (count_short k d l)) <-> x = k \/ In x (map fst l).
Proof.
  induction l as [| [y [t c]] r IH]; cbn [count_short].
  - cbn. intuition.
  - destruct (String_as_OT.cmp k y) eqn:E; cbn.
    + apply String_as_OT.cmp_eq in E. subst. intuition.
    + intuition.
    + rewrite IH. intuition.
Qed.

Lemma count_sorted k d l : StronglySorted lts (map fst l) -> StronglySorted lts (map fst (count_short k d l)).
Proof.
  induction l as [| [y [t c]] r IH]; cbn [count_short]; intro H.
  - repeat constructor.
  - destruct (String_as_OT.cmp k y) eqn:E; cbn in *.
    + exact H.
    + apply String_as_OT.cmp_lt in E. constructor; [exact H |]. apply StronglySorted_inv in H. destruct H as [_ H].
      constructor; [exact E |]. eapply Forall_impl; [| exact H]. intros z Z. eapply String_as_OT.lt_trans; eassumption.
    + apply StronglySorted_inv in H. destruct H as [H1 H2]. constructor; [apply IH, H1 |].
      apply Forall_forall. intros z Z. apply count_keys in Z. destruct Z as [-> | Z].
      * apply cmp_gt, E.
      * exact (proj1 (Forall_forall _ _) H2 z Z).
Qed.

Lemma count_entry k d l x t c : StronglySorted lts (map fst l) -> In (x, (t, c)) (count_short k d l) ->
  (x <> k /\ In (x, (t, c)) l) \/
  (x = k /\ ((exists t0 c0, In (k, (t0, c0)) l /\ t = (t0 + d)%N /\ c = (c0 + 1)%N) \/
             (~ In k (map fst l) /\ t = d /\ c = 1%N))).
Proof.
  induction l as [| [y [t1 c1]] r IH]; cbn [count_short]; intros H I.
  - destruct I as [I | []]. injection I as <- <- <-. right. split; [reflexivity |]. right. cbn. intuition.
  - cbn in H. apply StronglySorted_inv in H. destruct H as [H1 H2].
    destruct (String_as_OT.cmp k y) eqn:E.
    + apply String_as_OT.cmp_eq in E. subst y. destruct I as [I | I].
      * injection I as <- <- <-. right. split; [reflexivity |]. left. exists t1, c1. cbn. intuition.
      * left. split; [| now right]. intros ->. apply (lts_irrefl k).
        apply (proj1 (Forall_forall _ _) H2). apply (in_map fst) in I. exact I.
    + apply String_as_OT.cmp_lt in E.
      assert (N : ~ In k (y :: map fst r)).
      { intros [<- | N]; [exact (lts_irrefl _ E) |].
        apply (lts_irrefl k). eapply String_as_OT.lt_trans; [exact E |]. exact (proj1 (Forall_forall _ _) H2 _ N). }
      destruct I as [I | I].
      * injection I as <- <- <-. right. split; [reflexivity |]. right. auto.
      * left. split; [| exact I]. intros ->. apply N. apply (in_map fst) in I. exact I.
    + apply cmp_gt in E. destruct I as [I | I].
      * injection I as <- <- <-. left. split; [| now left]. intros ->. exact (lts_irrefl _ E).
      * destruct (IH H1 I) as [[A B] | [A [[t0 [c0 [B [C D]]]] | [B [C D]]]]].
        -- left. split; [exact A | now right].
        -- right. split; [exact A |]. left. exists t0, c0. split; [now right | auto].
        -- right. split; [exact A |]. right. split; [| auto]. cbn. intros [Q | N]; [rewrite Q in E; exact (lts_irrefl _ E) | auto].
Qed.

Definition shorts (l : list span) (acc : list (string * (N * N))) : list (string * (N * N)) :=
  fold_left (fun acc s => count_short (named s) (took s) acc) l acc.

Definition tells (l : list span) (acc : list (string * (N * N))) : Prop :=
  StronglySorted lts (map fst acc) /\
  (forall x, In x (map fst acc) <-> exists s, In s l /\ named s = x) /\
  (forall x t c, In (x, (t, c)) acc ->
     t = total (List.filter (called x) l) /\ c = N.of_nat (List.length (List.filter (called x) l))).

Lemma total_app a b : total (a ++ b) = (total a + total b)%N.
Proof. unfold total. induction a as [| s a IH]; [reflexivity |]. cbn in *. rewrite IH. lia. Qed.

Lemma tells_step l acc s : tells l acc -> tells (l ++ [s]) (count_short (named s) (took s) acc).
Proof.
  intros [A [B C]]. split; [apply count_sorted, A |]. split.
  - intro x. rewrite count_keys, B. split.
    + intros [-> | [s' [I E]]]; [exists s | exists s']; rewrite in_app_iff; cbn; intuition.
    + intros [s' [I E]]. rewrite in_app_iff in I. destruct I as [I | [<- | []]]; [right; exists s'; auto | left; auto].
  - intros x t c I. destruct (count_entry _ _ _ _ _ _ A I) as [[D E] | [-> [[t0 [c0 [D [-> ->]]]] | [D [-> ->]]]]].
    + rewrite filter_app. cbn. unfold called at 2 4. destruct (String.eqb_spec (named s) x) as [F | _]; [congruence |].
      rewrite app_nil_r. apply C, E.
    + rewrite filter_app. cbn. unfold called at 2 4. rewrite String.eqb_refl. rewrite total_app, app_length.
      destruct (C _ _ _ D) as [-> ->]. cbn. unfold total. cbn. lia.
    + rewrite filter_app. cbn. unfold called at 2 4. rewrite String.eqb_refl. rewrite total_app, app_length.
      assert (List.filter (called (named s)) l = []) as ->.
      { destruct (List.filter (called (named s)) l) as [| s' r] eqn:E; [reflexivity |]. exfalso. apply D. apply B.
        exists s'. assert (In s' (List.filter (called (named s)) l)) as F by (rewrite E; now left).
        apply filter_In in F. destruct F as [F G]. split; [exact F |]. apply String.eqb_eq, G. }
      cbn. unfold total. cbn. lia.
Qed.

Lemma shorts_tell l : forall l0 acc, tells l0 acc -> tells (l0 ++ l) (shorts l acc).
Proof.
  induction l as [| s l IH]; intros l0 acc H; cbn.
  - now rewrite app_nil_r.
  - change (s :: l) with ([s] ++ l). rewrite app_assoc. apply IH. apply tells_step, H.
Qed.

Lemma shorts_all l : tells l (shorts l []).
Proof.
  apply (shorts_tell l [] []). split; [constructor |]. split.
  - intro x. cbn. split; [intros [] | intros [s [[] _]]].
  - intros x t c [].
Qed.

(** * Reading the arena *)

Definition sits (A : list node) (b : nat) (s : span) : Prop :=
  exists pre nx post, A = pre ++ place b nx s ++ post /\ List.length pre = b.

Fixpoint starts (b : nat) (l : list span) : list nat :=
  match l with [] => [] | s :: r => b :: starts (b + size s) r end.

Lemma sits_all l : forall A b pre post, A = pre ++ place_all b l ++ post -> List.length pre = b ->
  Forall2 (sits A) (starts b l) l.
Proof.
  induction l as [| s r IH]; intros A b pre post E L; cbn; constructor.
  - cbn in E. rewrite <- app_assoc in E. exists pre. eexists. eexists. split; [exact E | exact L].
  - cbn in E. rewrite <- app_assoc in E. rewrite app_assoc in E. eapply IH; [exact E |].
    rewrite app_length, place_length. lia.
Qed.

Lemma siblings_all l : forall A b pre post fuel, A = pre ++ place_all b l ++ post -> List.length pre = b ->
  List.length l <= fuel ->
  siblings fuel A (match l with [] => None | _ => Some b end) = Some (starts b l).
Proof.
  induction l as [| s r IH]; intros A b pre post fuel E L F; [destruct fuel; reflexivity |].
  destruct fuel as [| fuel]; [cbn in F; lia |]. cbn [siblings starts].
  cbn [place_all] in E. destruct s as [m k].
  assert (N : nth_error A b = Some (Node m (match k with [] => None | _ => Some (S b) end) (match r with [] => None | _ => Some (b + size (Span m k)) end))).
  { rewrite E, place_eq, <- app_assoc. cbn [app]. apply nth_at_eq, L. }
  rewrite N. cbn [n_next].
  rewrite <- app_assoc in E. rewrite app_assoc in E.
  erewrite IH; [reflexivity | exact E | | cbn in F; lia].
  rewrite app_length, place_length. lia.
Qed.

Lemma kids_few l : List.length l <= list_sum (map size l).
Proof. induction l as [| s r IH]; [cbn; lia |]. cbn [List.length map]. pose proof (size_pos s). change (list_sum (size s :: map size r)) with (size s + list_sum (map size r)). lia. Qed.

Lemma sits_reads A b m l : sits A b (Span m l) ->
  option_map n_data (nth_error A b) = Some m /\
  children (Tree A []) b = Some (starts (S b) l) /\ Forall2 (sits A) (starts (S b) l) l.
Proof.
  intros [pre [nx [post [E L]]]]. rewrite place_eq in E. cbn [app] in E.
  assert (E2 : A = (pre ++ [Node m (match l with [] => None | _ => Some (S b) end) nx]) ++ place_all (S b) l ++ post).
  { rewrite <- app_assoc. exact E. }
  assert (L2 : List.length (pre ++ [Node m (match l with [] => None | _ => Some (S b) end) nx]) = S b).
  { rewrite app_length. cbn. lia. }
  assert (N : nth_error A b = Some (Node m (match l with [] => None | _ => Some (S b) end) nx)).
  { rewrite E. apply nth_at_eq, L. }
  repeat split.
  - rewrite N. reflexivity.
  - unfold children. cbn [t_nodes]. rewrite N. cbn [n_first]. eapply siblings_all; [exact E2 | exact L2 |].
    rewrite E2, !app_length, place_all_length. pose proof (kids_few l). lia.
  - eapply sits_all; eassumption.
Qed.

Definition prints (limit : N) (A : list node) (s : span) : Prop :=
  forall fuel b level, sits A b s -> size s <= fuel ->
  exists lines, print fuel (Tree A []) b level limit = Some lines /\ report limit level s lines.

Lemma tell_all limit A fuel level l : Forall (prints limit A) l -> forall bs a sh out,
  Forall2 (sits A) bs l -> list_sum (map size l) <= fuel ->
  exists below, Forall2 (report limit (S level)) (List.filter (long limit) l) below /\
  fold_left (tell_child (Tree A []) limit (fun c => print fuel (Tree A []) c (S level) limit)) bs (Some (a, sh, out)) =
  Some ((a + total l)%N, shorts (List.filter (fun s => negb (long limit s)) l) sh, out ++ List.concat below).
Proof.
  induction 1 as [| s l Hs Hl IH]; intros bs a sh out B F; inversion B as [| b s' bs' l' Hb Hbs]; subst.
  - exists []. split; [constructor |]. cbn. unfold total. cbn. rewrite N.add_0_r, app_nil_r. reflexivity.
  - cbn [map] in F. change (list_sum (size s :: map size l)) with (size s + list_sum (map size l)) in F.
    assert (M : message_at (Tree A []) b = Some (said s)).
    { destruct s as [m k]. exact (proj1 (sits_reads _ _ _ _ Hb)). }
    cbn [fold_left]. unfold tell_child at 2. rewrite M. cbn [List.filter].
    change ((millis limit <? millis (m_duration (said s)))%N) with (long limit s).
    assert (T : total (s :: l) = (m_duration (said s) + total l)%N) by reflexivity. rewrite T.
    destruct (long limit s); cbn [negb].
    + destruct (Hs fuel b (S level) Hb ltac:(lia)) as [lines [P R]]. rewrite P. cbn [option_map].
      destruct (IH bs' (a + m_duration (said s))%N sh (out ++ lines) Hbs ltac:(lia)) as [below [G E]].
      exists (lines :: below). split; [constructor; assumption |]. rewrite E. cbn [List.concat].
      rewrite N.add_assoc, app_assoc. reflexivity.
    + destruct (IH bs' (a + m_duration (said s))%N (count_short (m_label (said s)) (m_duration (said s)) sh) out Hbs ltac:(lia)) as [below [G E]].
      exists below. split; [exact G |]. rewrite E. rewrite N.add_assoc. reflexivity.
Qed.

Lemma filter_filter' {T} (f g : T -> bool) l : List.filter f (List.filter g l) = List.filter (fun x => g x && f x)%bool l.
Proof. induction l as [| x l IH]; [reflexivity |]. cbn. destruct (g x); cbn; rewrite IH; reflexivity. Qed.

Lemma all_print limit A s : timed s -> prints limit A s.
Proof.
  induction s as [m l IH] using span_rect'. intros T fuel b level Hb F.
  inversion T as [m' l' Tl Td]; subst.
  destruct fuel as [| fuel]; [cbn in F; lia |]. cbn [size] in F.
  destruct (sits_reads _ _ _ _ Hb) as [M [C K]].
  assert (P : Forall (prints limit A) l).
  { rewrite Forall_forall in *. intros s I. apply IH; auto. }
  destruct (tell_all limit A fuel level l P _ 0%N [] [span_line level m] K ltac:(lia)) as [below [G E]].
  cbn [print]. unfold message_at. cbn [t_nodes]. rewrite M, C, E. rewrite N.add_0_l.
  rewrite (proj2 (N.ltb_ge _ _) Td).
  destruct (shorts_all (List.filter (fun s => negb (long limit s)) l)) as [S1 [S2 S3]].
  set (sh := shorts _ []) in *. clearbody sh.
  eexists. split; [reflexivity |].
  assert (Q : map (short_line level) sh =
    map (fun x =>
      let short := List.filter (fun s => negb (long limit s) && called x s)%bool l in
      line (S level) (total short) (x ++ " (" ++ number (N.of_nat (List.length short)) ++ " calls)")%string) (map fst sh)).
  { rewrite map_map. apply map_ext_in. intros [x [t c]] I. cbn [fst]. destruct (S3 _ _ _ I) as [-> ->].
    rewrite filter_filter', short_line_eq. reflexivity. }
  rewrite Q. cbn [app]. rewrite span_line_eq, unknown_line_eq.
  assert (R : (match starts (S b) l with [] => true | _ => false end) = Nat.eqb (List.length l) 0) by (destruct l; reflexivity).
  rewrite R. constructor.
  - exact G.
  - exact S1.
  - intro x. rewrite S2. split.
    + intros [s [I N]]. apply filter_In in I. exists s. destruct I as [I J]. repeat split; auto.
      now destruct (long limit s).
    + intros [s [I [J N]]]. exists s. split; [| exact N]. apply filter_In. now rewrite J.
Qed.
