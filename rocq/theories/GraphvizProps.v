(** C67: the picture of the projects. *)
From Coq Require Import List String Ascii Bool Arith Permutation Lia DecimalString DecimalNat.
From Verif Require Import GraphModel GraphSpec GraphProps ItemTreeModel GraphvizModel GraphvizSpec.
From Verif Require VfsPathModel.
Import ListNotations.
Local Open Scope string_scope.
Local Open Scope nat_scope.
Local Open Scope list_scope.

(** ** Lines *)
Lemma string_app_assoc : forall a b c, ((a ++ b) ++ c = a ++ (b ++ c))%string.
Proof. induction a as [|x a IH]; intros b c; [reflexivity|]. cbn. rewrite IH. reflexivity. Qed.
Fixpoint free (s : string) : Prop := match s with "" => True | String c tl => c <> line_end /\ free tl end.
Lemma lines_some : forall s, lines s <> [].
Proof. intros [|c s]; cbn [lines]; [discriminate|]. destruct (Ascii.eqb c line_end); [discriminate|]. destruct (lines s); discriminate. Qed.
Lemma lines_free : forall s, free s -> lines s = [s].
Proof.
  induction s as [|c s IH]; intros H; [reflexivity|]. destruct H as [H1 H2]. cbn [lines]. apply Ascii.eqb_neq in H1. rewrite H1, (IH H2). reflexivity.
Qed.
Lemma lines_app : forall a b, lines (a ++ nl ++ b) = lines a ++ lines b.
Proof.
  induction a as [|c a IH]; intros b; [reflexivity|]. change (String c a ++ nl ++ b)%string with (String c (a ++ nl ++ b)). cbn [lines]. rewrite IH.
  destruct (Ascii.eqb c line_end); [reflexivity|]. pose proof (lines_some a) as N. destruct (lines a) as [|l ls]; [contradiction|reflexivity].
Qed.
Lemma lines_concat : forall ls, ls <> [] -> lines (String.concat nl ls) = flat_map lines ls.
Proof.
  induction ls as [|l [|m ls] IH]; intros H; [contradiction| |].
  - cbn. rewrite app_nil_r. reflexivity.
  - change (String.concat nl (l :: m :: ls)) with (l ++ nl ++ String.concat nl (m :: ls))%string. rewrite lines_app, IH by discriminate. reflexivity.
Qed.
Lemma free_app : forall a b, free a -> free b -> free (a ++ b)%string.
Proof. induction a as [|c a IH]; intros b Ha Hb; [exact Hb|]. destruct Ha as [H1 H2]. split; [exact H1|exact (IH b H2 Hb)]. Qed.
Lemma plain_free : forall s, plain s -> free s.
Proof. induction s as [|c s IH]; intros H; [exact Logic.I|]. destruct H as (_ & H1 & H2). split; [exact H1|exact (IH H2)]. Qed.
Lemma decimal_free : forall i, free (decimal i).
Proof. intros i. unfold decimal. induction (Nat.to_uint i) as [|d IH|d IH|d IH|d IH|d IH|d IH|d IH|d IH|d IH|d IH]; cbn; try exact Logic.I; split; try discriminate; exact IH. Qed.
Lemma color_free : forall i, free (nth i COLORS "").
Proof.
  intros i. assert (H : forall c, In c COLORS -> free c) by (intros c; unfold COLORS; cbn [In]; intros H; repeat (destruct H as [<-|H]; [repeat (split; [discriminate|]); exact Logic.I|]); destruct H).
  destruct (nth_in_or_default i COLORS "") as [I| ->]; [exact (H _ I)|exact Logic.I].
Qed.

(** The lines that name a group of nodes, and those that title one. *)
Definition group_line (i : nat) : string := ("  subgraph cluster_" ++ decimal i ++ " {")%string.
Definition title_line (i : nat) : string := ("    label = " ++ quote ++ "Project n" ++ degree ++ decimal i ++ quote ++ ";")%string.
Lemma head_are : forall i, lines (cluster_head i) = [group_line i; "    style=filled;"; ("    color=" ++ nth (i mod List.length COLORS) COLORS "" ++ ";")%string; "    node [style=filled,color=white];"; title_line i].
Proof.
  intros i. unfold cluster_head.
  unfold group_line, title_line.
  set (d := decimal i). set (c := nth (i mod List.length COLORS) COLORS "").
  assert (Fd : free d) by apply decimal_free. assert (Fc : free c) by apply color_free.
  replace ("  subgraph cluster_" ++ d ++ " {" ++ nl ++ "    style=filled;" ++ nl ++ "    color=" ++ c ++ ";" ++ nl ++ "    node [style=filled,color=white];" ++ nl ++ "    label = " ++ quote ++ "Project n" ++ degree ++ d ++ quote ++ ";")%string
    with (("  subgraph cluster_" ++ d ++ " {") ++ nl ++ ("    style=filled;" ++ nl ++ (("    color=" ++ c ++ ";") ++ nl ++ ("    node [style=filled,color=white];" ++ nl ++ ("    label = " ++ quote ++ "Project n" ++ degree ++ d ++ quote ++ ";")))))%string.
  2: { rewrite !string_app_assoc. reflexivity. }
  rewrite !lines_app. rewrite !lines_free.
  - reflexivity.
  - apply free_app; [repeat (split; [discriminate|]); exact Logic.I|]. apply free_app; [split; [discriminate|exact Logic.I]|]. apply free_app; [repeat (split; [discriminate|]); exact Logic.I|].
    apply free_app; [repeat (split; [discriminate|]); exact Logic.I|]. apply free_app; [exact Fd|]. repeat (split; [discriminate|]); exact Logic.I.
  - repeat (split; [discriminate|]); exact Logic.I.
  - apply free_app; [repeat (split; [discriminate|]); exact Logic.I|]. apply free_app; [exact Fc|]. repeat (split; [discriminate|]); exact Logic.I.
  - repeat (split; [discriminate|]); exact Logic.I.
  - apply free_app; [repeat (split; [discriminate|]); exact Logic.I|]. apply free_app; [exact Fd|]. repeat (split; [discriminate|]); exact Logic.I.
Qed.
Lemma head_lines : forall i, exists l1 l2 l3 l4 l5, lines (cluster_head i) = [("  subgraph " ++ l1)%string; ("    " ++ l2)%string; ("    " ++ l3)%string; ("    " ++ l4)%string; ("    " ++ l5)%string].
Proof.
  intros i.
  exists ("cluster_" ++ decimal i ++ " {")%string, "style=filled;", ("color=" ++ nth (i mod List.length COLORS) COLORS "" ++ ";")%string, "node [style=filled,color=white];",
    ("label = " ++ quote ++ "Project n" ++ degree ++ decimal i ++ quote ++ ";")%string.
  rewrite head_are. reflexivity.
Qed.

(** ** Reading the text *)
Lemma mark_app : forall a r, plain a -> up_to_mark (a ++ quote ++ r) = Some (a, r).
Proof.
  induction a as [|c a IH]; intros r H; [reflexivity|]. destruct H as (H1 & _ & H2). change (String c a ++ quote ++ r)%string with (String c (a ++ quote ++ r)). cbn [up_to_mark].
  apply Ascii.eqb_neq in H1. rewrite H1, (IH r H2). reflexivity.
Qed.
Lemma quoted_app : forall a r, plain a -> quoted (quote ++ a ++ quote ++ r) = Some (a, r).
Proof. intros a r H. change (quote ++ a ++ quote ++ r)%string with (String "034" (a ++ quote ++ r)). cbn [quoted]. exact (mark_app a r H). Qed.
Lemma arrow_read : forall a b, plain a -> plain b -> arrow (edge_line a b) = Some (a, b).
Proof.
  intros a b Ha Hb. unfold arrow, edge_line. rewrite (quoted_app a _ Ha). change (prefix " -> " (" -> " ++ quote ++ b ++ quote ++ ";")) with (prefix "" (quote ++ b ++ quote ++ ";")).
  change (prefix "" (quote ++ b ++ quote ++ ";")) with true. change (drop 4 (" -> " ++ quote ++ b ++ quote ++ ";")) with (quote ++ b ++ quote ++ ";")%string.
  rewrite (quoted_app b ";" Hb). reflexivity.
Qed.
Lemma diamond_read : forall a, plain a -> diamond (root_line a) = Some a.
Proof. intros a Ha. unfold diamond, root_line. rewrite (quoted_app a _ Ha). reflexivity. Qed.
Lemma edge_free : forall a b, plain a -> plain b -> free (edge_line a b).
Proof.
  intros a b Ha Hb. unfold edge_line. apply free_app; [split; [discriminate|exact Logic.I]|]. apply free_app; [exact (plain_free a Ha)|].
  apply free_app; [split; [discriminate|exact Logic.I]|]. apply free_app; [repeat (split; [discriminate|]); exact Logic.I|]. apply free_app; [split; [discriminate|exact Logic.I]|].
  apply free_app; [exact (plain_free b Hb)|]. repeat (split; [discriminate|]); exact Logic.I.
Qed.
Lemma root_free : forall a, plain a -> free (root_line a).
Proof.
  intros a Ha. unfold root_line. apply free_app; [split; [discriminate|exact Logic.I]|]. apply free_app; [exact (plain_free a Ha)|]. repeat (split; [discriminate|]); exact Logic.I.
Qed.

(** The arrows of a project and the names they stand for. *)
Definition named (name : nat -> option string) (f : nat) : string := match name f with Some x => x | None => "" end.
Definition arrows (name : nat -> option string) (es : list edge) : list (string * string) :=
  map (fun e => (named name (file_id (source e)), named name (file_id (target e)))) es.
Definition plain_names (name : nat -> option string) : Prop := forall f x, name f = Some x -> plain x.

Section read.
Variable name : nat -> option string.
Hypothesis P : plain_names name.

Lemma edges_read : forall es ls rest, edge_lines name es = Some ls -> forall p as_, body true rest = Some (as_, p) ->
  body true (flat_map lines ls ++ rest) = Some (arrows name es ++ as_, p).
Proof.
  induction es as [|e es IH]; intros ls rest E p as_ R; cbn [edge_lines] in E.
  - injection E as <-. exact R.
  - destruct (name (file_id (source e))) as [a|] eqn:Ea; [|discriminate]. destruct (name (file_id (target e))) as [b|] eqn:Eb; [|discriminate].
    destruct (edge_lines name es) as [ls'|] eqn:El; [|discriminate]. injection E as <-. pose proof (P _ _ Ea) as Pa. pose proof (P _ _ Eb) as Pb.
    assert (St : forall t, body true (edge_line a b :: t) = match arrow (edge_line a b), body true t with Some x, Some (as0, q) => Some (x :: as0, q) | _, _ => None end)
      by (intros t; reflexivity).
    cbn [flat_map]. rewrite (lines_free _ (edge_free a b Pa Pb)). cbn [app]. rewrite St, (arrow_read a b Pa Pb), (IH ls' rest eq_refl p as_ R).
    cbn [arrows map app]. unfold named at 1 2. rewrite Ea, Eb. reflexivity.
Qed.
Lemma clusters_read : forall gs i ls rest, clusters name i gs = Some ls -> forall as_ p, body false rest = Some (as_, p) ->
  exists as', body false (flat_map lines ls ++ rest) = Some (as', Picture (map (fun g => arrows name (sg_edges g)) gs ++ projects p) (diamonds p)).
Proof.
  induction gs as [|g gs IH]; intros i ls rest E as_ p R; cbn [clusters] in E.
  - injection E as <-. exists as_. destruct p. exact R.
  - destruct (edge_lines name (sg_edges g)) as [l1|] eqn:E1; [|discriminate]. destruct (clusters name (S i) gs) as [l2|] eqn:E2; [|discriminate]. injection E as <-.
    destruct (IH (S i) l2 rest E2 as_ p R) as [as' R']. destruct (head_lines i) as (h1 & h2 & h3 & h4 & h5 & Eh).
    exists []. cbn [flat_map]. rewrite Eh, flat_map_app. cbn [flat_map]. rewrite <- !app_assoc.
    assert (Q : body true (flat_map lines l1 ++ lines "}" ++ flat_map lines l2 ++ rest) = Some (arrows name (sg_edges g), Picture (map (fun g => arrows name (sg_edges g)) gs ++ projects p) (diamonds p))).
    { rewrite <- (app_nil_r (arrows name (sg_edges g))). apply (edges_read _ _ _ E1). change (lines "}" ++ flat_map lines l2 ++ rest) with ("}" :: flat_map lines l2 ++ rest). cbn [body].
      change (String.eqb "}" "}") with true. cbv iota. rewrite R'. reflexivity. }
    change ([("  subgraph " ++ h1)%string; ("    " ++ h2)%string; ("    " ++ h3)%string; ("    " ++ h4)%string; ("    " ++ h5)%string] ++ flat_map lines l1 ++ lines "}" ++ flat_map lines l2 ++ rest)
      with (("  subgraph " ++ h1)%string :: ("    " ++ h2)%string :: ("    " ++ h3)%string :: ("    " ++ h4)%string :: ("    " ++ h5)%string :: (flat_map lines l1 ++ lines "}" ++ flat_map lines l2 ++ rest)).
    set (tl := flat_map lines l1 ++ lines "}" ++ flat_map lines l2 ++ rest) in *.
    assert (Sk : forall h t, body true (("    " ++ h)%string :: t) = body true t) by (intros h t; destruct h; reflexivity).
    assert (Hd : forall h t, body false (("  subgraph " ++ h)%string :: t) = match body true t with Some (as_, p) => Some ([], Picture (as_ :: projects p) (diamonds p)) | None => None end) by (intros h t; destruct h; reflexivity).
    rewrite Hd, !Sk, Q. reflexivity.
Qed.
Lemma roots_read : forall gs ls rest, Forall (fun g => ext (sg_root g) = Sp) gs -> root_lines name gs = Some ls -> forall as_ p, body false rest = Some (as_, p) ->
  exists as', body false (flat_map lines ls ++ rest) = Some (as', Picture (projects p) (map (fun g => named name (file_id (sg_root g))) gs ++ diamonds p)).
Proof.
  induction gs as [|g gs IH]; intros ls rest F E as_ p R; cbn [root_lines] in E.
  - injection E as <-. exists as_. destruct p. exact R.
  - inversion F as [|? ? F1 F2]; subst. rewrite F1 in E. cbn [ext_eqb] in E. destruct (name (file_id (sg_root g))) as [a|] eqn:Ea; [|discriminate].
    destruct (root_lines name gs) as [l2|] eqn:E2; [|discriminate]. injection E as <-. pose proof (P _ _ Ea) as Pa. destruct (IH l2 rest F2 eq_refl as_ p R) as [as' R'].
    exists []. cbn [flat_map]. rewrite (lines_free _ (root_free a Pa)). cbn [app].
    assert (St : forall t, body false (root_line a :: t) = match diamond (root_line a), body false t with Some a, Some (_, p) => Some ([], Picture (projects p) (a :: diamonds p)) | _, _ => None end)
      by (intros t; reflexivity).
    rewrite St, (diamond_read a Pa), R'. cbn [projects diamonds map app]. unfold named at 2. rewrite Ea. reflexivity.
Qed.
End read.

(** The text reads as one project for each plugin that is a root, with its arrows, and one diamond for each of them. *)
Theorem C67_read : forall name gs t, plain_names name -> to_graphviz name gs = Some t ->
  let plugins := filter (fun g => ext_eqb (ext (sg_root g)) Sp) gs in
  read t = Some (Picture (map (fun g => arrows name (sg_edges g)) plugins) (map (fun g => named name (file_id (sg_root g))) plugins)).
Proof.
  intros name gs t Pn E plugins. unfold to_graphviz in E. fold plugins in E. destruct (clusters name 0 plugins) as [cs|] eqn:Ec; [|discriminate].
  destruct (root_lines name plugins) as [rs|] eqn:Er; [|discriminate]. assert (Et : t = String.concat nl ("digraph G {" :: cs ++ rs ++ ["}"])) by congruence. rewrite Et. unfold read.
  rewrite lines_concat by discriminate. cbn [flat_map].
  change (lines "digraph G {") with ["digraph G {"]. cbn [app]. change (String.eqb "digraph G {" "digraph G {") with true. cbv iota. rewrite !flat_map_app.
  assert (F : Forall (fun g => ext (sg_root g) = Sp) plugins).
  { apply Forall_forall. intros g I. apply filter_In in I. destruct I as [_ I]. destruct (ext (sg_root g)); [reflexivity|discriminate I]. }
  destruct (roots_read name Pn plugins rs ["}"] F Er [] (Picture [] []) eq_refl) as [a1 R1].
  destruct (clusters_read name Pn plugins 0 cs _ Ec _ _ R1) as [a2 R2]. change (flat_map lines ["}"]) with ["}"]. rewrite R2. cbn [option_map snd projects diamonds].
  rewrite !app_nil_r. reflexivity.
Qed.
Print Assumptions C67_read.

(** ** The projects are told apart *)
(** The lines that begin with [q]. *)
Definition beginning (q : string) (t : string) : list string := filter (prefix q) (lines t).

Lemma decimal_inj : forall i j, decimal i = decimal j -> i = j.
Proof.
  intros i j H. unfold decimal in H. apply Unsigned.to_uint_inj.
  assert (E : forall u, NilEmpty.uint_of_string (NilEmpty.string_of_uint u) = Some u) by exact NilEmpty.usu.
  pose proof (E (Nat.to_uint i)) as A. rewrite H, E in A. congruence.
Qed.
Lemma app_inj : forall a b c, (a ++ b = a ++ c)%string -> b = c.
Proof. induction a as [|x a IH]; intros b c H; [exact H|]. injection H as H. exact (IH b c H). Qed.
Lemma app_end : forall a b c, (a ++ c = b ++ c)%string -> a = b.
Proof.
  intros a b c H. assert (E : list_ascii_of_string a ++ list_ascii_of_string c = list_ascii_of_string b ++ list_ascii_of_string c).
  { assert (A : forall x y, list_ascii_of_string (x ++ y) = list_ascii_of_string x ++ list_ascii_of_string y) by (induction x as [|z x IH]; intros y; [reflexivity|cbn; rewrite IH; reflexivity]).
    rewrite <- !A, H. reflexivity. }
  apply app_inv_tail in E. rewrite <- (string_of_list_ascii_of_string a), E. apply string_of_list_ascii_of_string.
Qed.
Lemma edge_lines_begin : forall q name es ls, (forall a b, prefix q (edge_line a b) = false) -> plain_names name -> edge_lines name es = Some ls -> filter (prefix q) (flat_map lines ls) = [].
Proof.
  intros q name es ls Q P. revert ls. induction es as [|e es IH]; intros ls E; cbn [edge_lines] in E; [injection E as <-; reflexivity|].
  destruct (name (file_id (source e))) as [a|] eqn:Ea; [|discriminate]. destruct (name (file_id (target e))) as [b|] eqn:Eb; [|discriminate].
  destruct (edge_lines name es) as [l|]; [|discriminate]. injection E as <-. cbn [flat_map]. rewrite (lines_free _ (edge_free a b (P _ _ Ea) (P _ _ Eb))).
  cbn [app filter]. rewrite Q. exact (IH l eq_refl).
Qed.
Lemma root_lines_begin : forall q name gs ls, (forall a, prefix q (root_line a) = false) -> plain_names name -> Forall (fun g => ext (sg_root g) = Sp) gs -> root_lines name gs = Some ls -> filter (prefix q) (flat_map lines ls) = [].
Proof.
  intros q name gs ls Q P. revert ls. induction gs as [|g gs IH]; intros ls F E; cbn [root_lines] in E; [injection E as <-; reflexivity|]. inversion F as [|? ? F1 F2]; subst. rewrite F1 in E. cbn [ext_eqb] in E.
  destruct (name (file_id (sg_root g))) as [a|] eqn:Ea; [|discriminate]. destruct (root_lines name gs) as [l|]; [|discriminate]. injection E as <-. cbn [flat_map]. rewrite (lines_free _ (root_free a (P _ _ Ea))).
  cbn [app filter]. rewrite Q. exact (IH l F2 eq_refl).
Qed.
Lemma clusters_begin : forall q name f gs i ls, (forall a b, prefix q (edge_line a b) = false) -> plain_names name -> prefix q "}" = false ->
  (forall i, filter (prefix q) (lines (cluster_head i)) = [f i]) -> clusters name i gs = Some ls -> filter (prefix q) (flat_map lines ls) = map f (seq i (List.length gs)).
Proof.
  intros q name f gs i ls Q P B H. revert i ls. induction gs as [|g gs IH]; intros i ls E; cbn [clusters] in E; [injection E as <-; reflexivity|].
  destruct (edge_lines name (sg_edges g)) as [l1|] eqn:E1; [|discriminate]. destruct (clusters name (S i) gs) as [l2|] eqn:E2; [|discriminate]. injection E as <-.
  cbn [flat_map List.length seq map]. rewrite filter_app, H, flat_map_app, filter_app, (edge_lines_begin q name _ _ Q P E1). cbn [app flat_map]. change (lines "}") with ["}"]. cbn [app filter]. rewrite B.
  rewrite (IH _ _ E2). reflexivity.
Qed.
(** There is one group for each project, all with different names, and each has its own title. *)
Theorem C67_projects : forall name gs t, plain_names name -> to_graphviz name gs = Some t ->
  let n := List.length (filter (fun g => ext_eqb (ext (sg_root g)) Sp) gs) in
  beginning "  subgraph " t = map group_line (seq 0 n) /\ beginning "    label = " t = map title_line (seq 0 n) /\
  NoDup (beginning "  subgraph " t) /\ NoDup (beginning "    label = " t).
Proof.
  intros name gs t P E. cbv zeta. unfold to_graphviz in E. set (plugins := filter (fun g => ext_eqb (ext (sg_root g)) Sp) gs) in *. destruct (clusters name 0 plugins) as [cs|] eqn:Ec; [|discriminate].
  destruct (root_lines name plugins) as [rs|] eqn:Er; [|discriminate]. assert (Et : t = String.concat nl ("digraph G {" :: cs ++ rs ++ ["}"])) by congruence. rewrite Et.
  assert (F : Forall (fun g => ext (sg_root g) = Sp) plugins).
  { apply Forall_forall. intros g I. apply filter_In in I. destruct I as [_ I]. destruct (ext (sg_root g)); [reflexivity|discriminate I]. }
  assert (A : forall q f, (forall a b, prefix q (edge_line a b) = false) -> (forall a, prefix q (root_line a) = false) -> prefix q "}" = false -> prefix q "digraph G {" = false ->
    (forall i, filter (prefix q) (lines (cluster_head i)) = [f i]) -> beginning q (String.concat nl ("digraph G {" :: cs ++ rs ++ ["}"])) = map f (seq 0 (List.length plugins))).
  { intros q f Q1 Q2 Q3 Q4 Q5. unfold beginning. rewrite lines_concat by discriminate. cbn [flat_map]. change (lines "digraph G {") with ["digraph G {"]. cbn [app filter]. rewrite Q4, !flat_map_app, !filter_app.
    rewrite (clusters_begin q name f plugins 0 cs Q1 P Q3 Q5 Ec), (root_lines_begin q name plugins rs Q2 P F Er). cbn [flat_map app]. change (lines "}") with ["}"]. cbn [app filter]. rewrite Q3. apply app_nil_r. }
  assert (A1 : beginning "  subgraph " (String.concat nl ("digraph G {" :: cs ++ rs ++ ["}"])) = map group_line (seq 0 (List.length plugins))).
  { apply A; try reflexivity. intros i. rewrite head_are. reflexivity. }
  assert (A2 : beginning "    label = " (String.concat nl ("digraph G {" :: cs ++ rs ++ ["}"])) = map title_line (seq 0 (List.length plugins))).
  { apply A; try reflexivity. intros i. rewrite head_are. cbn [filter].
    change (prefix "    label = " (title_line i)) with (prefix "" (quote ++ "Project n" ++ degree ++ decimal i ++ quote ++ ";")).
    change (prefix "    label = " (group_line i)) with false. change (prefix "    label = " ("    color=" ++ nth (i mod List.length COLORS) COLORS "" ++ ";")%string) with false.
    reflexivity. }
  rewrite A1, A2. split; [reflexivity|]. split; [reflexivity|].
  assert (I1 : forall i j, group_line i = group_line j -> i = j) by (intros i j H; unfold group_line in H; apply app_inj in H; apply app_end in H; exact (decimal_inj i j H)).
  assert (I2 : forall i j, title_line i = title_line j -> i = j) by (intros i j H; unfold title_line in H; do 4 apply app_inj in H; apply app_end in H; exact (decimal_inj i j H)).
  split; apply FinFun.Injective_map_NoDup; auto using seq_NoDup.
Qed.
Print Assumptions C67_projects.

(** ** What is drawn *)
(** The files joined by arrows. *)
Inductive joined (es : list edge) : nat -> nat -> Prop :=
| joined_itself a : joined es a a
| joined_by e b : In e es -> joined es (file_id (target e)) b -> joined es (file_id (source e)) b.
Lemma joined_incl : forall es es' a b, incl es es' -> joined es a b -> joined es' a b.
Proof. intros es es' a b I H. induction H as [a|e b J _ IH]; [constructor|apply (joined_by es' e b (I e J) IH)]. Qed.
Lemma joined_trans : forall es a b c, joined es a b -> joined es b c -> joined es a c.
Proof. intros es a b c H. induction H as [a|e b J _ IH]; intros K; [exact K|exact (joined_by es e c J (IH K))]. Qed.

Lemma insert_new : forall vs n, ~ In (file_id n) (ids vs) -> insert node_eqb vs n = vs ++ [n].
Proof. intros vs n H. unfold insert. destruct (existsb (node_eqb n) vs) eqn:E; [elim H; apply mem_ids; exact E|reflexivity]. Qed.
Lemma insert_new_edge : forall es e, ~ In (file_id (target e)) (ids (map target es)) -> insert edge_eqb es e = es ++ [e].
Proof.
  intros es e H. unfold insert. destruct (existsb (edge_eqb e) es) eqn:E; [|reflexivity]. apply edge_mem in E. destruct E as (x & I & _ & E). elim H. rewrite <- E. apply in_map. apply in_map. exact I.
Qed.

Section tree.
Variable adj : node -> list node.
(** What one call adds: an arrow to each file it adds, but the first. *)
Definition adds (n : node) (vs : list node) (es : list edge) (vs' : list node) (es' : list edge) : Prop :=
  exists new es1, vs' = vs ++ new /\ es' = es ++ es1 /\ map target es1 = new /\
    (forall e, In e es1 -> In (target e) (adj (source e)) /\ In (source e) (n :: new)) /\
    (forall x, In x new -> joined es1 (file_id n) (file_id x)).
Lemma dfs_tree : forall fuel n vs es vs' es', dfs fuel adj n (vs, es) = Some (vs', es') -> ~ In (file_id n) (ids vs) ->
  incl (ids (map target es)) (file_id n :: ids vs) -> adds n (vs ++ [n]) es vs' es'.
Proof.
  induction fuel as [|fuel IH]; intros n vs es vs' es' D N I; [discriminate|]. cbn [dfs fst snd] in D. rewrite (insert_new vs n N) in D.
  assert (Iv : incl (ids (map target es)) (ids (vs ++ [n]))).
  { intros x J. rewrite map_app. apply in_or_app. destruct (I x J) as [<-|K]; [right; left; reflexivity|left; exact K]. }
  clear I N. revert D Iv. generalize (vs ++ [n]). clear vs. intros vs D Iv. pose proof (incl_refl (adj n)) as Im. revert D Iv Im. generalize (adj n) at 1 2 as ms. intros ms. revert vs es.
  assert (Fn : forall ms, fold_left (fun acc m => match acc with None => None | Some (vs, es) => if existsb (node_eqb m) vs then Some (vs, es) else dfs fuel adj m (vs, insert edge_eqb es (Edge n m)) end) ms None = None)
    by (clear; induction ms as [|m ms IHm]; [reflexivity|exact IHm]).
  induction ms as [|m ms IHm]; intros vs es F Ie Im; cbn [fold_left] in F.
  - injection F as <- <-. exists [], []. rewrite !app_nil_r. split; [reflexivity|]. split; [reflexivity|]. split; [reflexivity|]. split; intros ? [].
  - destruct (existsb (node_eqb m) vs) eqn:Em; [exact (IHm vs es F Ie (fun x H => Im x (or_intror H)))|].
    assert (Nm : ~ In (file_id m) (ids vs)) by (intros J; apply mem_ids in J; congruence).
    rewrite insert_new_edge in F by (cbn [target]; intros J; exact (Nm (Ie _ J))).
    destruct (dfs fuel adj m (vs, es ++ [Edge n m])) as [[vs2 es2]|] eqn:Dm; [|rewrite Fn in F; discriminate].
    destruct (IH m vs (es ++ [Edge n m]) vs2 es2 Dm Nm) as (w1 & f1 & -> & -> & T1 & S1 & J1).
    { intros x J. rewrite !map_app in J. apply in_app_or in J. destruct J as [J|[<-|[]]]; [right; exact (Ie x J)|left; reflexivity]. }
    destruct (IHm ((vs ++ [m]) ++ w1) ((es ++ [Edge n m]) ++ f1) F) as (w2 & f2 & -> & -> & T2 & S2 & J2).
    { intros x J. rewrite !map_app in J. rewrite !map_app. apply in_app_or in J. destruct J as [J|J].
      - apply in_or_app. left. apply in_app_or in J. apply in_or_app. destruct J as [J|[<-|[]]]; [left; exact (Ie x J)|right; left; reflexivity].
      - apply in_or_app. right. rewrite T1 in J. exact J. }
    { intros x H. exact (Im x (or_intror H)). }
    exists (m :: w1 ++ w2), (Edge n m :: f1 ++ f2). rewrite <- !app_assoc. cbn [app]. split; [reflexivity|]. split; [reflexivity|]. split; [|split].
    + cbn [map target]. rewrite map_app, T1, T2. reflexivity.
    + intros e [<-|J].
      * cbn [source target]. split; [apply Im; left; reflexivity|left; reflexivity].
      * apply in_app_or in J. destruct J as [J|J].
        -- destruct (S1 e J) as [A B]. split; [exact A|]. right. destruct B as [<-|B]; [left; reflexivity|right; apply in_or_app; left; exact B].
        -- destruct (S2 e J) as [A B]. split; [exact A|]. destruct B as [<-|B]; [left; reflexivity|right; right; apply in_or_app; right; exact B].
    + assert (Q : joined (Edge n m :: f1 ++ f2) (file_id n) (file_id m)) by (apply (joined_by _ (Edge n m)); [left; reflexivity|constructor]).
      intros x [<-|J]; [exact Q|]. apply in_app_or in J. destruct J as [J|J].
      * apply (joined_trans _ _ _ _ Q). apply (joined_incl f1); [|exact (J1 x J)]. intros e K. right. apply in_or_app. left. exact K.
      * apply (joined_incl f2); [|exact (J2 x J)]. intros e K. right. apply in_or_app. right. exact K.
Qed.
End tree.

Lemma subgraphs_in : forall fuel adj roots gs s, subgraphs fuel adj roots = Some gs -> In s gs -> dfs fuel adj (sg_root s) ([], []) = Some (sg_nodes s, sg_edges s).
Proof.
  intros fuel adj. induction roots as [|r roots IH]; intros gs s E I; cbn [subgraphs] in E; [injection E as <-; destruct I|].
  destruct (dfs fuel adj r ([], [])) as [[vs es]|] eqn:D; [|discriminate]. destruct (subgraphs fuel adj roots) as [gs'|] eqn:G; [|discriminate]. injection E as <-.
  destruct I as [<-|I]; [exact D|exact (IH gs' s eq_refl I)].
Qed.

(** The arrows of a project are includes among its files; each file of the project has exactly one arrow to it, the root none, and
    the arrows join the root with each of them. *)
Theorem C67_tree : forall documents includes g adj roots fuel gs s,
  reordered (graph_query documents includes) g -> adjacency (edges g) adj -> Permutation (find_roots g) roots -> List.length (nodes g) < fuel ->
  subgraphs fuel adj roots = Some gs -> In s gs -> forall es, Permutation (sg_edges s) es ->
  (forall e, In e es -> includes_directly documents includes (file_id (source e)) (file_id (target e)) /\ In (file_id (source e)) (ids (sg_nodes s))) /\
  NoDup (file_id (sg_root s) :: ids (map target es)) /\
  (forall f, reaches documents includes (file_id (sg_root s)) f <-> In f (file_id (sg_root s) :: ids (map target es))) /\
  (forall f, reaches documents includes (file_id (sg_root s)) f -> joined es (file_id (sg_root s)) f).
Proof.
  intros documents includes g adj roots fuel gs s Hg Ha Hr Hf E I es Pe.
  destruct (C28_subgraphs documents includes g adj roots fuel Hg Ha Hr Hf) as (gs' & E' & _ & _ & H). rewrite E in E'. injection E' as <-. destruct (H s I) as [N R].
  pose proof (dfs_tree adj fuel _ _ _ _ _ (subgraphs_in _ _ _ _ _ E I) (fun x => x)) as T. destruct T as (new & es1 & Ev & Ee & Tg & S & J).
  { intros x []. }
  cbn [app] in Ev, Ee. subst es1. assert (Pt : Permutation (ids (map target (sg_edges s))) (ids (map target es))) by (apply Permutation_map, Permutation_map; exact Pe).
  assert (Ei : ids (sg_nodes s) = file_id (sg_root s) :: ids (map target (sg_edges s))) by (rewrite Ev, Tg; reflexivity).
  split; [|split; [|split]].
  - intros e K. apply (Permutation_in _ (Permutation_sym Pe)) in K. destruct (S e K) as [A B]. split.
    + apply (adj_E documents includes g adj Hg Ha). apply in_map. exact A.
    + rewrite Ev. apply in_map. exact B.
  - apply (Permutation_NoDup (perm_skip (file_id (sg_root s)) Pt)). rewrite <- Ei. exact N.
  - intros f. rewrite <- R, Ei. split; apply Permutation_in; [|apply Permutation_sym]; exact (perm_skip _ Pt).
  - intros f K. apply (joined_incl (sg_edges s)); [intros e; apply (Permutation_in _ Pe)|]. apply R in K. rewrite Ev in K. destruct K as [<-|K]; [constructor|].
    apply in_map_iff in K. destruct K as (x & <- & K). exact (J x K).
Qed.
Print Assumptions C67_tree.

(** ** When there is no picture *)
Lemma edge_lines_none : forall name es, edge_lines name es = None <-> exists e, In e es /\ (name (file_id (source e)) = None \/ name (file_id (target e)) = None).
Proof.
  intros name. induction es as [|e es IH]; cbn [edge_lines]; [split; [discriminate|intros (e & [] & _)]|].
  destruct (name (file_id (source e))) as [a|] eqn:Ea; [|split; [intros _; exists e; split; [left; reflexivity|left; exact Ea]|reflexivity]].
  destruct (name (file_id (target e))) as [b|] eqn:Eb; [|split; [intros _; exists e; split; [left; reflexivity|right; exact Eb]|reflexivity]].
  destruct (edge_lines name es) as [ls|].
  - split; [discriminate|]. intros (x & [<-|I] & H); [destruct H as [H|H]; congruence|]. assert (N : Some ls = None) by (apply (proj2 IH); exists x; split; assumption). discriminate N.
  - split; [|reflexivity]. intros _. destruct (proj1 IH eq_refl) as (x & I & H). exists x. split; [right; exact I|exact H].
Qed.
Lemma clusters_none : forall name gs i, clusters name i gs = None <-> exists s, In s gs /\ edge_lines name (sg_edges s) = None.
Proof.
  intros name. induction gs as [|s gs IH]; intros i; cbn [clusters]; [split; [discriminate|intros (s & [] & _)]|].
  destruct (edge_lines name (sg_edges s)) as [ls|] eqn:E; [|split; [intros _; exists s; split; [left; reflexivity|exact E]|reflexivity]].
  specialize (IH (S i)). destruct (clusters name (S i) gs) as [r|].
  - split; [discriminate|]. intros (x & [<-|I] & H); [congruence|]. assert (N : Some r = None) by (apply (proj2 IH); exists x; split; assumption). discriminate N.
  - split; [|reflexivity]. intros _. destruct (proj1 IH eq_refl) as (x & I & H). exists x. split; [right; exact I|exact H].
Qed.
Lemma root_lines_none : forall name gs, Forall (fun g => ext (sg_root g) = Sp) gs ->
  (root_lines name gs = None <-> exists s, In s gs /\ name (file_id (sg_root s)) = None).
Proof.
  intros name. induction gs as [|s gs IH]; intros F; cbn [root_lines]; [split; [discriminate|intros (s & [] & _)]|]. inversion F as [|? ? F1 F2]; subst. rewrite F1. cbn [ext_eqb].
  destruct (name (file_id (sg_root s))) as [a|] eqn:E; [|split; [intros _; exists s; split; [left; reflexivity|exact E]|reflexivity]].
  specialize (IH F2). destruct (root_lines name gs) as [r|].
  - split; [discriminate|]. intros (x & [<-|I] & H); [congruence|]. assert (N : Some r = None) by (apply (proj2 IH); exists x; split; assumption). discriminate N.
  - split; [|reflexivity]. intros _. destruct (proj1 IH eq_refl) as (x & I & H). exists x. split; [right; exact I|exact H].
Qed.

(** There is no picture exactly if a file reached from a plugin that is a root has no name; the sets of arrows may come in any order. *)
Definition shuffled (s s' : subgraph) : Prop := sg_root s = sg_root s' /\ Permutation (sg_edges s) (sg_edges s').
Theorem C67_error : forall documents includes g adj roots fuel gs gs' name,
  reordered (graph_query documents includes) g -> adjacency (edges g) adj -> Permutation (find_roots g) roots -> List.length (nodes g) < fuel ->
  subgraphs fuel adj roots = Some gs -> Forall2 shuffled gs gs' ->
  (to_graphviz name gs' = None <-> exists r f, In r roots /\ ext r = Sp /\ reaches documents includes (file_id r) f /\ name f = None).
Proof.
  intros documents includes g adj roots fuel gs gs' name Hg Ha Hr Hf E Sh.
  assert (Rt : map sg_root gs' = roots).
  { assert (R0 : map sg_root gs = roots).
    { clear - E. revert gs E. induction roots as [|r roots IH]; intros gs E; cbn [subgraphs] in E; [injection E as <-; reflexivity|].
      destruct (dfs fuel adj r ([], [])) as [[vs es]|]; [|discriminate]. destruct (subgraphs fuel adj roots) as [l|]; [|discriminate]. injection E as <-. cbn [map sg_root]. rewrite (IH l eq_refl). reflexivity. }
    rewrite <- R0. clear - Sh. induction Sh as [|a b l l' [H _] _ IH]; [reflexivity|]. cbn [map]. rewrite H, IH. reflexivity. }
  assert (Tr : forall s', In s' gs' -> exists s, In s gs /\ shuffled s s').
  { clear - Sh. induction Sh as [|a b l l' H _ IH]; intros s' I; [destruct I|]. destruct I as [<-|I]; [exists a; split; [left; reflexivity|exact H]|].
    destruct (IH s' I) as (s & J & K). exists s. split; [right; exact J|exact K]. }
  assert (Pl : forall s', In s' gs' -> forall f, reaches documents includes (file_id (sg_root s')) f <-> In f (file_id (sg_root s') :: ids (map target (sg_edges s')))).
  { intros s' I. destruct (Tr s' I) as (s & J & [Er Pe]). rewrite <- Er. exact (proj1 (proj2 (proj2 (C67_tree documents includes g adj roots fuel gs s Hg Ha Hr Hf E J _ Pe)))). }
  assert (Sc : forall s' e, In s' gs' -> In e (sg_edges s') -> reaches documents includes (file_id (sg_root s')) (file_id (source e))).
  { intros s' e I Ie. destruct (Tr s' I) as (s & J & [Er Pe]). destruct (C67_tree documents includes g adj roots fuel gs s Hg Ha Hr Hf E J _ Pe) as (A & _). destruct (A e Ie) as [_ B].
    rewrite <- Er. destruct (C28_subgraphs documents includes g adj roots fuel Hg Ha Hr Hf) as (gs2 & E2 & _ & _ & H). rewrite E in E2. injection E2 as <-. apply (H s J). exact B. }
  set (plugins := filter (fun g => ext_eqb (ext (sg_root g)) Sp) gs').
  assert (F : Forall (fun g => ext (sg_root g) = Sp) plugins).
  { apply Forall_forall. intros x I. apply filter_In in I. destruct I as [_ I]. destruct (ext (sg_root x)); [reflexivity|discriminate I]. }
  assert (B : to_graphviz name gs' = None <-> clusters name 0 plugins = None \/ root_lines name plugins = None).
  { unfold to_graphviz. fold plugins. destruct (clusters name 0 plugins); [destruct (root_lines name plugins)|]; split; try discriminate; try tauto. intros [H|H]; discriminate. }
  rewrite B, clusters_none, (root_lines_none name plugins F). split.
  - intros [(s & I & H)|(s & I & H)]; apply filter_In in I; destruct I as [I X].
    + apply edge_lines_none in H. destruct H as (e & Ie & H). exists (sg_root s).
      assert (Q : exists f, reaches documents includes (file_id (sg_root s)) f /\ name f = None).
      { destruct H as [H|H]; [exists (file_id (source e)); split; [exact (Sc s e I Ie)|exact H]|exists (file_id (target e)); split; [|exact H]]. apply (Pl s I). right. apply in_map, in_map. exact Ie. }
      destruct Q as (f & Q1 & Q2). exists f. split; [rewrite <- Rt; apply in_map; exact I|]. split; [destruct (ext (sg_root s)); [reflexivity|discriminate X]|]. split; assumption.
    + exists (sg_root s), (file_id (sg_root s)). split; [rewrite <- Rt; apply in_map; exact I|]. split; [destruct (ext (sg_root s)); [reflexivity|discriminate X]|]. split; [constructor|exact H].
  - intros (r & f & Ir & X & R & H). rewrite <- Rt in Ir. apply in_map_iff in Ir. destruct Ir as (s & <- & I).
    assert (Ip : In s plugins) by (apply filter_In; split; [exact I|rewrite X; reflexivity]). apply (Pl s I) in R. destruct R as [<-|R]; [right; exists s; split; assumption|].
    left. exists s. split; [exact Ip|]. apply edge_lines_none. apply in_map_iff in R. destruct R as (x & <- & R). apply in_map_iff in R. destruct R as (e & <- & R). exists e. split; [exact R|right; exact H].
Qed.
Print Assumptions C67_error.

(** ** What is not in the picture *)
(** 1 includes 2 and 3, and 2 includes 3 as well: only one of the two includes of 3 is drawn, and which one
    depends on the order in which a hash table iterates. *)
Definition pic_docs : list (nat * extension) := [(1, Sp); (2, Inc); (3, Inc)].
Definition pic_incs (f : nat) : list (nat * extension) := match f with 1 => [(2, Inc); (3, Inc)] | 2 => [(3, Inc)] | _ => [] end.
Definition pic_name (f : nat) : option string := match f with 1 => Some "a.sp" | 2 => Some "b.inc" | _ => Some "c.inc" end.
Definition pic_graph := graph_query pic_docs pic_incs.
Theorem C67_arrows_refuted : exists adj1 adj2 gs1 gs2 t1 t2,
  adjacency (edges pic_graph) adj1 /\ adjacency (edges pic_graph) adj2 /\
  subgraphs 4 adj1 (find_roots pic_graph) = Some gs1 /\ subgraphs 4 adj2 (find_roots pic_graph) = Some gs2 /\
  to_graphviz pic_name gs1 = Some t1 /\ to_graphviz pic_name gs2 = Some t2 /\
  read t1 = Some (Picture [[("a.sp", "b.inc"); ("b.inc", "c.inc")]] ["a.sp"]) /\
  read t2 = Some (Picture [[("a.sp", "c.inc"); ("a.sp", "b.inc")]] ["a.sp"]) /\
  includes_directly pic_docs pic_incs 1 3 /\ includes_directly pic_docs pic_incs 2 3.
Proof.
  exists (targets (edges pic_graph)), (fun n => rev (targets (edges pic_graph) n)). do 4 eexists.
  split; [intros n; apply Permutation_refl|]. split; [intros n; apply Permutation_rev|].
  split; [vm_compute; reflexivity|]. split; [vm_compute; reflexivity|]. split; [vm_compute; reflexivity|]. split; [vm_compute; reflexivity|].
  split; [vm_compute; reflexivity|]. split; [vm_compute; reflexivity|]. unfold includes_directly, known. cbn. intuition.
Qed.
Print Assumptions C67_arrows_refuted.

(** Files are drawn by the last part of their path: scripting/a.sp that includes include/b.inc, which includes old/b.inc, is
    drawn with an arrow from b.inc to itself. *)
Definition real (s : string) : VfsPathModel.vfs_path := VfsPathModel.Real (list_ascii_of_string s).
Theorem C67_names_refuted : exists gs t,
  let docs := [(1, Sp); (2, Inc); (3, Inc)] in
  let incs := fun f => match f with 1 => [(2, Inc)] | 2 => [(3, Inc)] | _ => [] end in
  let g := graph_query docs incs in
  let path := fun f => match f with 1 => real "/scripting/a.sp" | 2 => real "/include/b.inc" | _ => real "/old/b.inc" end in
  subgraphs 4 (targets (edges g)) (find_roots g) = Some gs /\ to_graphviz (fun f => file_label (path f)) gs = Some t /\
  read t = Some (Picture [[("a.sp", "b.inc"); ("b.inc", "b.inc")]] ["a.sp"]).
Proof. do 2 eexists. cbv zeta. split; [vm_compute; reflexivity|]. split; vm_compute; reflexivity. Qed.
Print Assumptions C67_names_refuted.

(** A quotation mark in the name of a file is not escaped, and the text cannot be read. *)
Theorem C67_quote_refuted : exists gs t,
  let g := graph_query [(1, Sp)] (fun _ => []) in
  subgraphs 4 (targets (edges g)) (find_roots g) = Some gs /\ to_graphviz (fun _ => file_label (real (String "/" (quote ++ "a" ++ quote ++ ".sp")))) gs = Some t /\ read t = None.
Proof. do 2 eexists. cbv zeta. split; [vm_compute; reflexivity|]. split; vm_compute; reflexivity. Qed.
Print Assumptions C67_quote_refuted.

(** * A concrete case *)
(** Two plugins that share an include, and an include of their own. *)
Example C67_nontrivial : exists gs t,
  let docs := [(1, Sp); (2, Inc); (3, Sp); (4, Inc)] in
  let incs := fun f => match f with 1 => [(2, Inc); (4, Inc)] | 3 => [(2, Inc)] | 4 => [(1, Sp)] | _ => [] end in
  let g := graph_query docs incs in
  let name := fun f => file_label (real match f with 1 => "/p/one.sp" | 2 => "/i/shared.inc" | 3 => "/p/two.sp" | _ => "/i/own.inc" end) in
  reordered g g /\ adjacency (edges g) (targets (edges g)) /\ List.length (nodes g) < 5 /\
  subgraphs 5 (targets (edges g)) (find_roots g) = Some gs /\ to_graphviz name gs = Some t /\
  read t = Some (Picture [[("one.sp", "shared.inc"); ("one.sp", "own.inc")]; [("two.sp", "shared.inc")]] ["one.sp"; "two.sp"]) /\
  nth_error (lines t) 3 = Some "    color=aliceblue;" /\ to_graphviz (fun f => if f =? 4 then None else name f) gs = None.
Proof.
  do 2 eexists. cbv zeta. split; [split; apply Permutation_refl|]. split; [intros n; apply Permutation_refl|]. split; [vm_compute; lia|].
  split; [vm_compute; reflexivity|]. split; [vm_compute; reflexivity|]. split; [vm_compute; reflexivity|]. split; vm_compute; reflexivity.
Qed.
