(** What the answers to "hover" look like to the editor, and what the cutting of the text gives. *)
From Coq Require Import List ZArith Bool String Ascii Arith Lia.
From Verif Require Import PreTypes PosModel AstIdModel TypeRefModel ItemTreeModel FindDefModel GotoModel.
Import ListNotations.
Local Open Scope string_scope.
Local Open Scope nat_scope.
Local Open Scope list_scope.

(** * Specification *)
Fixpoint line_ends (s : string) : nat :=
  match s with EmptyString => 0 | String c r => (if Ascii.eqb c newline then 1 else 0) + line_ends r end.
Definition one_line (s : string) : Prop := line_ends s = 0.
(** The text is a number of whole lines. *)
Definition whole_lines (s : string) : Prop := s = "" \/ exists s', s = (s' ++ nl)%string.
Fixpoint all_white (s : string) : Prop := match s with EmptyString => True | String c r => white c = true /\ all_white r end.
Definition begins_black (s : string) : Prop := exists c r, s = String c r /\ white c = false.
Definition ends_black (s : string) : Prop := exists c r, s = (r ++ String c "")%string /\ white c = false.

(** The lines of a text. *)
Fixpoint split (s : string) : list string :=
  match s with
  | EmptyString => [""]
  | String c r => if Ascii.eqb c newline then "" :: split r
                  else match split r with [] => [] | l :: ls => String c l :: ls end
  end.
(** Fenced code blocks as a reader of markdown finds them: a line that begins with three backquotes opens a block, a
    line of three or more backquotes and white space closes it, and so does the end of the text. *)
Definition backquote : ascii := ascii_of_nat 96.
Definition opens (l : string) : bool := String.prefix fence l.
Fixpoint only_backquotes (s : string) : bool :=
  match s with EmptyString => true | String c r => Ascii.eqb c backquote && only_backquotes r end.
Definition closes (l : string) : bool := String.prefix fence (trim l) && only_backquotes (trim l).
Fixpoint read_blocks (open : option (list string)) (ls : list string) : list (list string) :=
  match ls, open with
  | [], None => []
  | [], Some b => [b]
  | l :: r, None => if opens l then read_blocks (Some []) r else read_blocks None r
  | l :: r, Some b => if closes l then b :: read_blocks None r else read_blocks (Some (b ++ [l])) r
  end.
Definition blocks (s : string) : list (list string) := read_blocks None (split s).
Definition no_fence (s : string) : Prop := Forall (fun l => closes l = false) (split s).

(** * Cutting *)
Lemma append_assoc : forall a b c, ((a ++ b) ++ c = a ++ (b ++ c))%string.
Proof. induction a; intros; cbn; f_equal; auto. Qed.
Lemma append_nil : forall a, (a ++ "" = a)%string.
Proof. induction a; cbn; f_equal; auto. Qed.
Lemma length_append : forall a b, String.length (a ++ b) = String.length a + String.length b.
Proof. induction a; intros; cbn; f_equal; auto. Qed.
Lemma line_ends_app : forall a b, line_ends (a ++ b) = line_ends a + line_ends b.
Proof. induction a; intros; cbn; auto. rewrite IHa. lia. Qed.

Lemma point_from_app : forall a b n p, point_from (a ++ b) (String.length a + n) p = point_from b n (point_from a (String.length a) p).
Proof. induction a as [|c a IH]; intros b n p; [reflexivity|]. cbn [append String.length Nat.add point_from]. apply IH. Qed.
Lemma point_from_line : forall a p, one_line a -> point_from a (String.length a) p = Pos (pline p) (pcol p + Z.of_nat (String.length a)).
Proof.
  unfold one_line. induction a as [|c a IH]; intros [l k] H.
  - cbn. f_equal. lia.
  - cbn [line_ends] in H. cbn [String.length point_from]. destruct (Ascii.eqb c newline); [discriminate|]. rewrite IH by exact H. cbn [pline pcol].
    f_equal. lia.
Qed.
Lemma point_from_ends : forall a p, pline (point_from a (String.length a) p) = (pline p + Z.of_nat (line_ends a))%Z.
Proof.
  induction a as [|c a IH]; intros p; [cbn; lia|]. cbn [String.length point_from line_ends]. rewrite IH. destruct (Ascii.eqb c newline); cbn [pline]; lia.
Qed.

(** The place of a byte: the number of line ends before it, and the bytes since the last of them. *)
Theorem C60_point : forall a b r, whole_lines a -> one_line b ->
  point (a ++ b ++ r) (String.length a + String.length b) = Pos (Z.of_nat (line_ends a)) (Z.of_nat (String.length b)).
Proof.
  intros a b r W O. unfold point. rewrite point_from_app. rewrite <- (Nat.add_0_r (String.length b)), point_from_app, Nat.add_0_r, point_from_line by exact O.
  assert (E : forall p, point_from r 0 p = p) by (destruct r; reflexivity). rewrite E.
  rewrite point_from_ends. cbn [pline]. f_equal.
  destruct W as [->|(a' & ->)]; [reflexivity|].
  rewrite length_append. rewrite point_from_app. cbn. reflexivity.
Qed.
Print Assumptions C60_point.

(** [str::lines].nth: the text between the line ends. *)
Theorem C60_line : forall a x r, whole_lines a -> one_line x -> (r = "" /\ x <> "") \/ (exists r', r = (nl ++ r')%string) ->
  line_from (a ++ x ++ r) (line_ends a) = Some x.
Proof.
  assert (Z : forall x r, one_line x -> (r = "" /\ x <> "") \/ (exists r', r = (nl ++ r')%string) -> line_from (x ++ r) 0 = Some x).
  { unfold one_line. intros x r. induction x as [|c x IH]; intros O R.
    - destruct R as [(_ & X)|(r' & ->)]; [congruence|]. reflexivity.
    - cbn [line_ends] in O. cbn [append line_from]. destruct (Ascii.eqb c newline); [discriminate|].
      destruct x as [|c' x].
      + destruct R as [(-> & _)|(r' & ->)]; reflexivity.
      + rewrite IH; [reflexivity|exact O|]. destruct R as [(-> & _)|R]; [left; split; [auto|discriminate]|right; auto]. }
  intros a x r W O R. destruct W as [->|(a' & ->)]; [exact (Z x r O R)|].
  rewrite line_ends_app. change (line_ends nl) with 1. rewrite append_assoc.
  induction a' as [|c a' IH].
  - exact (Z x r O R).
  - cbn [append line_ends]. destruct (Ascii.eqb c newline) eqn:E.
    + cbn [Nat.add line_from]. rewrite E. exact IH.
    + cbn [Nat.add]. replace (line_ends a' + 1) with (S (line_ends a')) in * by lia. cbn [line_from]. rewrite E. exact IH.
Qed.
Print Assumptions C60_line.

Lemma trim_start_spec : forall s, exists a, s = (a ++ trim_start s)%string /\ all_white a /\ (trim_start s = "" \/ begins_black (trim_start s)).
Proof.
  induction s as [|c s (a & E & W & B)]; [exists ""; cbn; auto|]. cbn [trim_start]. destruct (white c) eqn:K.
  - exists (String c a). cbn. rewrite <- E. auto.
  - exists "". split; [reflexivity|]. split; [exact I|]. right. exists c, s. auto.
Qed.
Lemma trim_end_spec : forall s, exists b, s = (trim_end s ++ b)%string /\ all_white b /\ (trim_end s = "" \/ ends_black (trim_end s)).
Proof.
  induction s as [|c s (b & E & W & B)]; [exists ""; cbn; auto|]. cbn [trim_end]. destruct (trim_end s) as [|d t] eqn:T.
  - destruct (white c) eqn:K.
    + exists (String c b). cbn in *. subst s. auto.
    + exists b. cbn in *. subst s. split; [auto|]. split; [auto|]. right. exists c, "". auto.
  - exists b. split; [cbn in *; congruence|]. split; auto. right. destruct B as [B|(e & r & B & Kb)]; [discriminate|].
    exists e, (String c r). rewrite B. auto.
Qed.
Lemma ends_begins : forall s b, begins_black s -> all_white b -> forall t, s = (t ++ b)%string -> t = "" \/ begins_black t.
Proof.
  intros s b (c & r & -> & K) W [|d t] E; [auto|]. right. injection E as <- _. exists c, t. auto.
Qed.
(** [str::trim]: white space goes from both ends, nothing else. *)
Theorem C60_trim : forall s, exists a b, s = (a ++ trim s ++ b)%string /\ all_white a /\ all_white b /\
  (trim s = "" \/ (begins_black (trim s) /\ ends_black (trim s))).
Proof.
  intros s. destruct (trim_start_spec s) as (a & E & W & B). destruct (trim_end_spec (trim_start s)) as (b & E' & W' & B').
  exists a, b. unfold trim. rewrite <- E'. split; [exact E|]. split; [exact W|]. split; [exact W'|].
  destruct B' as [B'|B']; [auto|]. destruct B as [B|B]; [rewrite B; auto|].
  destruct (ends_begins _ _ B W' _ E') as [X|X]; auto.
Qed.
Print Assumptions C60_trim.

Lemma substring_app : forall a x r, substring (String.length a) (String.length x) (a ++ x ++ r) = x.
Proof.
  induction a as [|c a IH]; intros x r; [|exact (IH x r)]. cbn [String.length append].
  induction x as [|c x IHx]; [destruct r; reflexivity|]. cbn. f_equal. exact IHx.
Qed.
(** The text of a node is what stands between its first and its last byte. *)
Theorem C60_text : forall a x r n, start_of (plain n) = String.length a -> stop_of (plain n) = String.length a + String.length x ->
  text_of (a ++ x ++ r) n = x.
Proof.
  intros a x r n S E. unfold text_of. rewrite S, E. replace (String.length a + String.length x - String.length a) with (String.length x) by lia.
  apply substring_app.
Qed.
Print Assumptions C60_text.

(** * Fences *)
Lemma split_cons : forall s, exists l ls, split s = l :: ls.
Proof.
  induction s as [|c s (l & ls & E)]; [exists "", []; reflexivity|]. cbn [split]. rewrite E.
  destruct (Ascii.eqb c newline); do 2 eexists; reflexivity.
Qed.
Lemma split_line : forall a b, one_line a -> split (a ++ nl ++ b) = a :: split b.
Proof.
  unfold one_line. induction a as [|c a IH]; intros b O; [reflexivity|]. cbn [line_ends] in O. cbn [append split].
  destruct (Ascii.eqb c newline); [discriminate|]. rewrite (IH b O). reflexivity.
Qed.
Lemma split_app : forall a b, split (a ++ nl ++ b) = split a ++ split b.
Proof.
  induction a as [|c a IH]; intros b; [reflexivity|]. cbn [append split]. rewrite IH. destruct (Ascii.eqb c newline); [reflexivity|].
  destruct (split_cons a) as (l & ls & E). rewrite E. reflexivity.
Qed.
Lemma read_inside : forall ls b r, Forall (fun l => closes l = false) ls -> read_blocks (Some b) (ls ++ r) = read_blocks (Some (b ++ ls)) r.
Proof.
  induction ls as [|l ls IH]; intros b r F; [rewrite app_nil_r; reflexivity|]. inversion F as [|? ? C F']; subst.
  cbn [app read_blocks]. rewrite C, IH by exact F'. rewrite <- app_assoc. reflexivity.
Qed.
Lemma closes_fence : closes fence = true.
Proof. reflexivity. Qed.
Lemma read_fenced : forall s r, no_fence s -> read_blocks None (split (fenced_block s) ++ r) = split s :: read_blocks None r.
Proof.
  intros s r F. unfold fenced_block.
  change (fence ++ "sourcepawn" ++ nl ++ s ++ nl ++ fence)%string with ("```sourcepawn" ++ nl ++ (s ++ nl ++ fence))%string.
  rewrite split_line by reflexivity. rewrite split_app. cbn [app read_blocks]. replace (opens "```sourcepawn") with true by reflexivity.
  rewrite <- app_assoc, read_inside by exact F. cbn [app]. change (split fence) with [fence]. cbn [app read_blocks]. rewrite closes_fence. reflexivity.
Qed.
(** A block that holds no fence is read as it was meant, whatever follows. *)
Theorem C60_block : forall s, no_fence s -> blocks (fenced_block s) = [split s] /\
  forall rest, blocks (fenced_block s ++ nl ++ rest) = split s :: blocks rest.
Proof.
  intros s F. unfold blocks. split; [|intros rest; rewrite split_app; apply read_fenced; exact F].
  rewrite <- (app_nil_r (split (fenced_block s))). rewrite read_fenced by exact F. reflexivity.
Qed.
Print Assumptions C60_block.

Lemma val_inj : forall A (x y : A), Val x = Val y -> x = y.
Proof. congruence. Qed.
Section world.
Variable D : Type.
Variable sources : nat -> source.
Variable find_def : nat -> spot -> res D.
Variable macro_def : Z -> Z -> option D.
Variable def_file : D -> nat.
Variable def_source : D -> res syn.
Variable docs : nat -> syn -> string.
(** Every answer begins with the definition, as one block; for a macro at most one other block follows, which is a part
    of the line asked about without the white space around it. A macro's definition always has a node. *)
Theorem C60_blocks : forall b f p a, (forall file i d, macro_def file i = Some d -> def_source d <> Nothing) ->
  hover D sources find_def macro_def def_file def_source docs b f p = Val a ->
  exists d n, def_source d = Val n /\
  let def := text_of (so_text (sources (def_file d))) n in
  (no_fence def ->
  match find_macro_def D macro_def (so_offsets (sources f)) p with
  | Some (o, d') => d' = d /\
      (blocks (an_info a) = [split def] \/
       exists line i j x, line_from (so_text (sources f)) (Z.to_nat (pline p)) = Some line /\ slice line i j = Some x /\
         (no_fence (trim x) -> blocks (an_info a) = [split def; split (trim x)]))
  | None => if b then blocks (an_info a) = split def :: blocks (docs (def_file d) n) else blocks (an_info a) = [split def]
  end).
Proof.
  intros b f p a Mn. unfold hover, find_macro_hover.
  destruct (find_macro_def D macro_def (so_offsets (sources f)) p) as [[o d]|] eqn:M; cbn [ask bind].
  - assert (Nn : def_source d <> Nothing).
    { unfold find_macro_def in M. destruct (find_use _ _) as [o'|]; [|discriminate]. destruct (macro_def _ _) as [d'|] eqn:Md; [|discriminate].
      injection M as <- <-. exact (Mn _ _ _ Md). }
    destruct (def_source d) as [n| |] eqn:S; cbn [bind]; [|congruence|discriminate].
    destruct (hover_slice (so_offsets (sources f)) (pline p) o) as [i j]. intros H. apply val_inj in H. subst a. exists d, n. split; [exact S|]. cbn [an_info].
    intros F. split; [reflexivity|]. destruct (C60_block _ F) as (B1 & B2).
    destruct (line_from (so_text (sources f)) (Z.to_nat (pline p))) as [line|]; [|left; exact B1].
    destruct (slice line i j) as [x|] eqn:Sl; [|left; exact B1]. right. exists line, i, j, x. split; [reflexivity|]. split; [exact Sl|].
    intros F'. rewrite B2. f_equal. unfold blocks. rewrite split_line by reflexivity. cbn [read_blocks]. replace (opens "Expands to:") with false by reflexivity.
    apply C60_block. exact F'.
  - destruct (ask_code D sources find_def f p) as [[u d]| |]; cbn [bind]; try discriminate.
    destruct (def_source d) as [n| |] eqn:S; cbn [bind]; try discriminate. intros H. apply val_inj in H. subst a. exists d, n. split; [exact S|]. cbn [an_info].
    intros F. destruct (C60_block _ F) as (B1 & B2). destruct b; [|exact B1].
    cbv iota. rewrite B2. f_equal.
Qed.
End world.
Print Assumptions C60_blocks.

(** A line of backquotes in a comment inside the definition ends the block early. *)
Theorem C60_fence_refuted : exists s, blocks (fenced_block s) <> [split s].
Proof. exists ("void f() {" ++ nl ++ "/*" ++ nl ++ "```" ++ nl ++ "*/" ++ nl ++ "}")%string. vm_compute. discriminate. Qed.
Print Assumptions C60_fence_refuted.

Example C60_markup_nontrivial :
  no_fence ("void f()" ++ nl ++ "{}")%string /\ blocks (fenced_block ("void f()" ++ nl ++ "{}"))%string = [["void f()"; "{}"]] /\
  trim "  a b " = "a b" /\ line_from ("ab" ++ nl ++ "cd" ++ nl)%string 1 = Some "cd" /\ point ("ab" ++ nl ++ "cd")%string 4 = Pos 1 1.
Proof. split; [repeat constructor|]. repeat split. Qed.
