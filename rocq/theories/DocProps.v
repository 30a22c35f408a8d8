(** C54: the documentation shown for a declaration. *)
From Coq Require Import List Bool Arith String Ascii Lia.
From Verif Require Import DocModel DocSpec.
Import ListNotations.
Local Open Scope string_scope.
Local Open Scope nat_scope.
Local Open Scope list_scope.

Lemma kind_eqb_spec a b : kind_eqb a b = true <-> a = b.
Proof. destruct a, b; simpl; split; congruence. Qed.

(** what [climb] takes, as nodes, nearest first; comments and pragmas *)
Fixpoint taken (row : nat) (pragma : bool) (prevs : list node) : list node :=
  match prevs with
  | [] => []
  | p :: prevs' =>
      if negb (row - end_row p =? 1) then []
      else if kind_eqb (k p) Pragma then if pragma then [] else p :: taken (start_row p) true prevs'
      else if negb (kind_eqb (k p) Comment) then []
      else p :: (if negb (start_row p =? end_row p) then [] else taken (start_row p) pragma prevs')
  end.

Lemma climb_taken prevs : forall row pragma,
  climb row pragma prevs = map (fun n => comment_to_doc (text n)) (comments (taken row pragma prevs)).
Proof.
  induction prevs as [|p prevs IH]; intros row pragma; [reflexivity|]. cbn [climb taken].
  destruct (negb (row - end_row p =? 1)); [reflexivity|]. destruct (kind_eqb (k p) Pragma) eqn:Ep.
  - destruct pragma; [reflexivity|]. unfold comments. cbn [filter].
    assert (kind_eqb (k p) Comment = false) as -> by (destruct (k p); try discriminate; reflexivity).
    apply IH.
  - destruct (kind_eqb (k p) Comment) eqn:Ec; cbn [negb]; [|reflexivity].
    unfold comments. cbn [filter]. rewrite Ec. cbn [map]. f_equal.
    destruct (negb (start_row p =? end_row p)); [reflexivity|]. apply IH.
Qed.

Lemma taken_prefix prevs : forall row pragma, exists rest, prevs = taken row pragma prevs ++ rest.
Proof.
  induction prevs as [|p prevs IH]; intros row pragma; [now exists []|]. cbn [taken].
  destruct (negb (row - end_row p =? 1)); [now exists (p :: prevs)|]. destruct (kind_eqb (k p) Pragma).
  - destruct pragma; [now exists (p :: prevs)|]. destruct (IH (start_row p) true) as [rest Hr]. exists rest.
    cbn [List.app]. now rewrite <- Hr.
  - destruct (negb (kind_eqb (k p) Comment)); [now exists (p :: prevs)|].
    destruct (negb (start_row p =? end_row p)); [now exists prevs|].
    destruct (IH (start_row p) pragma) as [rest Hr]. exists rest. cbn [List.app]. now rewrite <- Hr.
Qed.

(** nearest first, below a node that starts in [row] *)
Fixpoint hangs (row : nat) (l : list node) : Prop :=
  match l with [] => True | p :: l' => row = S (end_row p) /\ hangs (start_row p) l' end.
(** all but the last are of one row if they are comments *)
Fixpoint flat (l : list node) : Prop :=
  match l with
  | [] => True
  | p :: l' => (l' = [] \/ k p <> Comment \/ one_row p) /\ flat l'
  end.
Definition fits (pragma : bool) (l : list node) : Prop :=
  (forall n, In n l -> k n = Comment \/ k n = Pragma) /\ pragmas l <= (if pragma then 0 else 1) /\ flat l.

Lemma taken_fits prevs : forall row pragma, hangs row (taken row pragma prevs) /\ fits pragma (taken row pragma prevs).
Proof.
  assert (H0 : forall row pragma, hangs row [] /\ fits pragma []).
  { intros row pragma. split; [exact I|]. split; [intros n []|]. split; [apply Nat.le_0_l|exact I]. }
  unfold fits, pragmas in *. induction prevs as [|p prevs IH]; intros row pragma; cbn [taken].
  - apply H0.
  - destruct (Nat.eqb_spec (row - end_row p) 1) as [He|He]; cbn [negb]; [|apply H0].
    destruct (kind_eqb (k p) Pragma) eqn:Ep.
    + destruct pragma; [exact (H0 row true)|].
      apply kind_eqb_spec in Ep. destruct (IH (start_row p) true) as (H1 & H2 & H3 & H4).
      cbn [hangs filter flat]. split; [split; [lia|exact H1]|]. split; [|split].
      * intros n [<-|Hn]; auto.
      * rewrite Ep. cbn [kind_eqb List.length]. lia.
      * split; [|exact H4]. right. left. congruence.
    + destruct (kind_eqb (k p) Comment) eqn:Ec; cbn [negb]; [|apply H0].
      apply kind_eqb_spec in Ec. destruct (Nat.eqb_spec (start_row p) (end_row p)) as [Ho|Ho]; cbn [negb].
      * destruct (IH (start_row p) pragma) as (H1 & H2 & H3 & H4). cbn [hangs filter flat].
        split; [split; [lia|exact H1]|]. split; [|split].
        -- intros n [<-|Hn]; auto.
        -- rewrite Ec. cbn [kind_eqb]. exact H3.
        -- split; [|exact H4]. right. right. exact Ho.
      * cbn [hangs filter flat]. rewrite Ec. cbn [kind_eqb List.length]. split; [split; [lia|exact I]|].
        split; [intros n [<-|[]]; now left|]. split; [apply Nat.le_0_l|]. split; [now left|exact I].
Qed.

Lemma hangs_app_tail row l m : hangs row (l ++ m) -> hangs row l.
Proof. revert row. induction l as [|p l IH]; intros row; simpl; [tauto|]. intros [H1 H2]. split; [exact H1|eauto]. Qed.

(** every other way to take nodes above the declaration takes fewer *)
Lemma taken_longest prevs : forall row pragma l rest,
  prevs = l ++ rest -> hangs row l -> fits pragma l -> exists more, taken row pragma prevs = l ++ more.
Proof.
  unfold fits, pragmas. induction prevs as [|p prevs IH]; intros row pragma l rest Hl Hh (Hk & Hp & Hf).
  - symmetry in Hl. apply app_eq_nil in Hl. destruct Hl as [-> ->]. now exists [].
  - destruct l as [|q l]; [now exists (taken row pragma (p :: prevs))|].
    cbn [List.app] in Hl. injection Hl as <- Hl. cbn [hangs flat filter] in *. destruct Hh as [Hr Hh]. destruct Hf as [Hf1 Hf].
    cbn [taken]. assert (row - end_row p =? 1 = true) as -> by (apply Nat.eqb_eq; lia). cbn [negb].
    destruct (Hk p (or_introl eq_refl)) as [Hc|Hc]; rewrite Hc in *; cbn [kind_eqb negb List.length] in *.
    + destruct (Nat.eqb_spec (start_row p) (end_row p)) as [Ho|Ho]; cbn [negb].
      * destruct (IH (start_row p) pragma l rest Hl Hh) as [more Hm].
        { split; [intros n Hn; apply Hk; now right|]. split; [exact Hp|exact Hf]. }
        exists more. cbn [List.app]. now rewrite Hm.
      * destruct Hf1 as [->|[H|H]]; [now exists []|congruence|contradiction].
    + destruct pragma; [lia|]. destruct (IH (start_row p) true l rest Hl Hh) as [more Hm].
      { split; [intros n Hn; apply Hk; now right|]. split; [lia|exact Hf]. }
      exists more. cbn [List.app]. now rewrite Hm.
Qed.

(** ** In the order of the file *)
Lemma stacked_hangs l d : stacked (rev l ++ [d]) <-> hangs (start_row d) l.
Proof.
  revert d. induction l as [|p l IH]; intros d; [simpl; tauto|].
  cbn [rev hangs]. rewrite <- app_assoc. cbn [List.app].
  assert (H : forall m a b, stacked (m ++ [a; b]) <-> stacked (m ++ [a]) /\ start_row b = S (end_row a)).
  { clear. induction m as [|x m IH]; intros a b; [simpl; tauto|]. cbn [List.app stacked]. rewrite IH.
    destruct m; simpl; tauto. }
  rewrite H, IH. tauto.
Qed.
Lemma pragmas_rev l : pragmas (rev l) = pragmas l.
Proof.
  unfold pragmas. induction l as [|p l IH]; [reflexivity|]. cbn [rev filter]. rewrite filter_app, app_length. cbn [filter].
  destruct (kind_eqb (k p) Pragma); simpl; lia.
Qed.
Lemma flat_rev l : flat l <-> (forall n rest, rev l = n :: rest -> forall c, In c rest -> k c = Comment -> one_row c).
Proof.
  induction l as [|p l IH]; [simpl; split; [discriminate|auto]|]. cbn [flat rev]. split.
  - intros [Hp Hf] n rest Heq c Hc Hk. destruct (rev l) as [|n' rest'] eqn:El.
    + cbn [List.app] in Heq. injection Heq as _ <-. contradiction.
    + cbn [List.app] in Heq. injection Heq as <- <-. apply in_app_iff in Hc. destruct Hc as [Hc|[<-|[]]].
      * apply (proj1 IH Hf n' rest' eq_refl c Hc Hk).
      * destruct Hp as [->|[Hp|Hp]]; [discriminate|contradiction|exact Hp].
  - intros H. split.
    + destruct l as [|q l]; [now left|]. right. destruct (kind_eqb (k p) Comment) eqn:Ek.
      * apply kind_eqb_spec in Ek. right. destruct (rev (q :: l)) as [|n' rest'] eqn:El.
        -- apply (f_equal (@List.length node)) in El. rewrite rev_length in El. discriminate.
        -- apply (H n' (rest' ++ [p]) eq_refl); [apply in_app_iff; right; now left|exact Ek].
      * left. intros Hc. rewrite Hc in Ek. discriminate.
    + apply IH. intros n rest Heq c Hc Hk. apply (H n (rest ++ [p])); [rewrite Heq; reflexivity| |exact Hk].
      apply in_app_iff. now left.
Qed.
Lemma comments_rev l : comments (rev l) = rev (comments l).
Proof.
  unfold comments. induction l as [|p l IH]; [reflexivity|]. cbn [rev filter]. rewrite filter_app, IH. cbn [filter].
  destruct (kind_eqb (k p) Comment); [reflexivity|now rewrite app_nil_r].
Qed.

(** The documentation of a declaration is made of the comments of the longest block of rows above it that can be
    documentation, in the order of the file. *)
Theorem C54_block : forall d above,
  k d = Declaration ->
  exists before block, above = before ++ block /\ documents block d /\
    from_node d (rev above) = String.concat (String "010" EmptyString) (map (fun n => comment_to_doc (text n)) (comments block)) /\
    forall before' block', above = before' ++ block' -> documents block' d -> exists x, block = x ++ block'.
Proof.
  intros d above Hd. destruct (taken_prefix (rev above) (start_row d) false) as [rest Hr].
  destruct (taken_fits (rev above) (start_row d) false) as (H1 & H2 & H3 & H4).
  set (t := taken (start_row d) false (rev above)) in *.
  exists (rev rest), (rev t). split; [|split; [|split]].
  - rewrite <- (rev_involutive above), Hr, rev_app_distr. reflexivity.
  - split; [now apply stacked_hangs|]. split; [intros n Hn; apply H2; now apply in_rev in Hn|].
    split; [rewrite pragmas_rev; exact H3|]. now apply flat_rev.
  - unfold from_node. rewrite Hd, climb_taken. fold t. rewrite comments_rev, map_rev. reflexivity.
  - intros before' block' Ha (D1 & D2 & D3 & D4).
    assert (Hrev : rev above = rev block' ++ rev before') by (rewrite Ha; apply rev_app_distr).
    destruct (taken_longest (rev above) (start_row d) false (rev block') (rev before') Hrev) as [more Hm].
    + apply stacked_hangs. now rewrite rev_involutive.
    + split; [intros n Hn; apply D2; now apply in_rev|]. split; [rewrite pragmas_rev; exact D3|].
      apply flat_rev. rewrite rev_involutive. exact D4.
    + fold t in Hm. exists (rev more). rewrite Hm, rev_app_distr, rev_involutive. reflexivity.
Qed.
Print Assumptions C54_block.

(** Other nodes have none: variables, constants, macros, values of enums. *)
Theorem C54_others : forall n above, k n <> Declaration -> from_node n above = "".
Proof. intros n above H. unfold from_node. destruct (k n); try reflexivity. now elim H. Qed.
Print Assumptions C54_others.

(** ** What a comment says *)
Lemma skip_spaces_app sp s : spaces sp -> ~ begins_with is_space s -> skip_spaces (sp ++ s) = s.
Proof.
  induction sp as [|c sp IH]; intros Hs Hb.
  - cbn [String.append]. destruct s as [|c s]; [reflexivity|]. cbn [skip_spaces].
    destruct (is_space c) eqn:E; [|reflexivity]. elim Hb. exists c, s. auto.
  - cbn [String.append skip_spaces]. rewrite (Hs c) by now left. apply IH; [|exact Hb]. intros x Hx. apply Hs. now right.
Qed.
Lemma skip_spaces_none s : ~ begins_with is_space s -> skip_spaces s = s.
Proof.
  intros H. destruct s as [|c s]; [reflexivity|]. cbn [skip_spaces]. destruct (is_space c) eqn:E; [|reflexivity].
  elim H. exists c, s. auto.
Qed.
Lemma skip_stars_app st s : stars st -> ~ begins_with (fun c => Ascii.eqb c "*") s -> skip_stars (st ++ s) = s.
Proof.
  induction st as [|c st IH]; intros Hs Hb.
  - cbn [String.append]. destruct s as [|c s]; [reflexivity|]. cbn [skip_stars].
    destruct (Ascii.eqb c "*") eqn:E; [|reflexivity]. elim Hb. exists c, s. auto.
  - cbn [String.append skip_stars]. rewrite (Hs c) by now left. rewrite Ascii.eqb_refl. apply IH; [|exact Hb].
    intros x Hx. apply Hs. now right.
Qed.

Lemma re2_step c s : s <> "" -> (c <> "*"%char \/ s <> "/") -> re2 (String c s) = String c (re2 s).
Proof.
  intros Hn Hor. destruct s as [|c2 s]; [now elim Hn|].
  destruct c as [[] [] [] [] [] [] [] []]; try reflexivity.
  destruct c2 as [[] [] [] [] [] [] [] []]; try reflexivity.
  destruct s as [|c3 s]; [|reflexivity]. destruct Hor as [H|H]; now elim H.
Qed.
Lemma re2_one c : re2 (String c "") = String c "".
Proof. destruct c as [[] [] [] [] [] [] [] []]; reflexivity. Qed.
Lemma re2_keeps s : ~ ends_with "*/" s -> re2 s = s.
Proof.
  induction s as [|c s IH]; intros H; [reflexivity|]. destruct s as [|c2 s]; [apply re2_one|].
  rewrite re2_step.
  - f_equal. apply IH. intros [s' Hs]. apply H. exists (String c s'). simpl. now rewrite <- Hs.
  - discriminate.
  - destruct (Ascii.ascii_dec c "*") as [->|Hne]; [|now left]. right. intros Heq. apply H. exists "". simpl. now rewrite Heq.
Qed.
Lemma re2_cuts s : re2 (s ++ "*/") = s.
Proof.
  induction s as [|c s IH]; [reflexivity|]. cbn [String.append]. rewrite re2_step.
  - now rewrite IH.
  - destruct s; discriminate.
  - right. destruct s as [|x [|y s]]; discriminate.
Qed.

(** A line comment says what follows the slashes. *)
Theorem C54_line_comment : forall sp body,
  spaces sp -> ~ begins_with is_space body -> ~ ends_with "*/" body ->
  comment_to_doc ("//" ++ sp ++ body) = body.
Proof.
  intros sp body Hs Hb He. unfold comment_to_doc.
  assert (H1 : re1 ("//" ++ sp ++ body) = ("//" ++ sp ++ body)%string) by reflexivity.
  rewrite H1. rewrite re2_keeps.
  - unfold re3. cbn [String.append skip_spaces]. change (is_space "/") with false. cbn iota.
    now apply skip_spaces_app.
  - intros [s' Hs']. destruct (string_dec body "") as [->|Hne].
    + assert (Hsp : ("//" ++ sp)%string = (s' ++ "*/")%string).
      { rewrite <- Hs'. f_equal. clear. induction sp as [|c sp IH]; [reflexivity|]. simpl. now rewrite <- IH. }
      clear Hs'. assert (Hin : forall s, In "/"%char (list_ascii_of_string (s ++ "*/"))).
      { induction s as [|c s IH]; simpl; auto. }
      assert (Hst : forall s, In "*"%char (list_ascii_of_string (s ++ "*/"))).
      { induction s as [|c s IH]; simpl; auto. }
      specialize (Hst s'). rewrite <- Hsp in Hst. cbn in Hst. destruct Hst as [H|[H|H]]; try discriminate.
      apply Hs in H. discriminate.
    + assert (Hlast : forall a b, b <> "" -> ends_with "*/" (a ++ b) -> a = "" \/ ends_with "*/" b \/ (b = "/" /\ ends_with "*" a)).
      { clear. intros a b Hb [s Hs]. right. revert s b Hb Hs. induction a as [|c a IH]; intros s b Hb Hs.
        - left. exists s. exact Hs.
        - destruct s as [|c' s].
          + cbn [String.append] in Hs. injection Hs as -> Hs. right.
            destruct a as [|c2 a]; cbn [String.append] in Hs.
            * split; [exact Hs|]. now exists "".
            * injection Hs as _ Hs. destruct a; [|discriminate]. cbn in Hs. congruence.
          + cbn [String.append] in Hs. injection Hs as -> Hs. destruct (IH s b Hb Hs) as [H|[H1 [s2 H2]]]; [now left|].
            right. split; [exact H1|]. exists (String c' s2). simpl. now rewrite H2. }
      assert (Hen : ends_with "*/" (("//" ++ sp) ++ body)) by (exists s'; rewrite <- Hs'; reflexivity).
      destruct (Hlast ("//" ++ sp)%string body Hne Hen) as [H|[H|[H3 [s2 H2]]]]; [discriminate|contradiction|].
      assert (Hst : forall s, In "*"%char (list_ascii_of_string (s ++ "*"))) by (induction s as [|c s IH]; simpl; auto).
      specialize (Hst s2). rewrite <- H2 in Hst. cbn in Hst. destruct Hst as [H|[H|H]]; try discriminate.
      apply Hs in H. discriminate.
Qed.
Print Assumptions C54_line_comment.

(** A block comment says what stands between its marks, but for white space after the opening mark. *)
Theorem C54_block_comment : forall st sp body,
  stars st -> spaces sp -> ~ begins_with is_space body -> (sp = "" -> ~ begins_with (fun c => Ascii.eqb c "*") body) ->
  body <> "" -> ~ begins_with (fun c => Ascii.eqb c "/") body ->
  comment_to_doc ("/*" ++ st ++ sp ++ body ++ "*/") = body.
Proof.
  intros st sp body Hst Hsp Hb Hb2 Hne Hsl. unfold comment_to_doc.
  assert (Hcons : exists c b, body = String c b) by (destruct body as [|c b]; [now elim Hne|eauto]).
  destruct Hcons as (c & b & Hc).
  assert (Hspc : ~ begins_with is_space (body ++ "*/")).
  { rewrite Hc. intros (c' & s' & Heq & Hs). cbn [String.append] in Heq. injection Heq as <- _. apply Hb. rewrite Hc. exists c, b. auto. }
  assert (H1 : re1 ("/*" ++ st ++ sp ++ body ++ "*/") = (body ++ "*/")%string).
  { unfold re1. cbn [String.append skip_spaces]. change (is_space "/") with false. cbn iota.
    rewrite skip_stars_app; [now apply skip_spaces_app|exact Hst|].
    intros (c' & s' & Heq & Hs). apply Ascii.eqb_eq in Hs. destruct sp as [|x sp].
    - cbn [String.append] in Heq. rewrite Hc in Heq. cbn [String.append] in Heq. injection Heq as <- _.
      apply (Hb2 eq_refl). rewrite Hc. exists c, b. split; [reflexivity|]. now apply Ascii.eqb_eq.
    - cbn [String.append] in Heq. injection Heq as <- _. rewrite Hs in Hsp.
      assert (is_space "*" = true) by (apply Hsp; now left). discriminate. }
  rewrite H1, re2_cuts. unfold re3. rewrite skip_spaces_none by exact Hb. rewrite Hc.
  assert (Hns : c <> "/"%char).
  { intros ->. apply Hsl. rewrite Hc. exists "/"%char, b. split; reflexivity. }
  destruct c as [[] [] [] [] [] [] [] []]; try reflexivity. now elim Hns.
Qed.
Print Assumptions C54_block_comment.

(** ** Where it goes wrong *)
(** A comment at the end of the line of one declaration is shown as the documentation of the next. *)
Theorem C54_trailing_refuted : exists a c d,
  k a = Other /\ k d = Declaration /\ end_row a = start_row c /\ from_node d [c; a] = comment_to_doc (text c) /\
  comment_to_doc (text c) = "about a".
Proof.
  exists (Node Other 3 3 "int a;"), (Node Comment 3 3 "// about a"), (Node Declaration 4 6 "void f() {}").
  repeat split.
Qed.
Print Assumptions C54_trailing_refuted.

(** A line comment whose text ends like a block comment loses that end; an empty block comment says a slash; a comment on
    the line of the declaration is not shown and hides the ones above. *)
Theorem C54_text_refuted :
  comment_to_doc "// see sound/*/" = "see sound/" /\
  comment_to_doc "/**/" = "/" /\
  from_node (Node Declaration 4 4 "void f();") [Node Comment 4 4 "/* old */"; Node Comment 3 3 "// does f"] = "".
Proof. repeat split. Qed.
Print Assumptions C54_text_refuted.

(** Any pragma between the comment and the declaration is passed, but a second is not. *)
Theorem C54_pragma_refuted : exists c p1 p2 d,
  k c = Comment /\ k p1 = Pragma /\ k p2 = Pragma /\ k d = Declaration /\ stacked [c; p1; p2; d] /\
  comment_to_doc (text c) = "does f" /\ from_node d [p2; p1; c] = "".
Proof.
  exists (Node Comment 0 0 "// does f"), (Node Pragma 1 1 "#pragma deprecated Use g"),
    (Node Pragma 2 2 "#pragma unused"), (Node Declaration 3 3 "void f();").
  repeat split.
Qed.
Print Assumptions C54_pragma_refuted.

(** A text without backslashes is shown with its brackets as they are: none is read as a tag. *)
Theorem C54_escape : forall s,
  ~ In "\"%char (list_ascii_of_string s) -> markdown (escape s) = map Plain (list_ascii_of_string s).
Proof.
  unfold markdown, escape. induction s as [|c s IH]; intros H; [reflexivity|].
  assert (Hc : c <> "\"%char) by (intros ->; apply H; now left).
  assert (Hs : ~ In "\"%char (list_ascii_of_string s)) by (intros Hin; apply H; now right).
  specialize (IH Hs). cbn [escape_char list_ascii_of_string map].
  destruct (Ascii.eqb_spec c "<") as [->|Hlt].
  - cbn [escape_char]. change (Ascii.eqb "\" ">") with false. change (Ascii.eqb "<" ">") with false. cbn iota.
    cbn [signs]. change (Ascii.eqb "\" "\") with true. change (bracket "<" || Ascii.eqb "<" "\")%bool with true. cbn iota.
    now rewrite IH.
  - cbn [escape_char]. destruct (Ascii.eqb_spec c ">") as [->|Hgt].
    + cbn [signs]. change (Ascii.eqb "\" "\") with true. change (bracket ">" || Ascii.eqb ">" "\")%bool with true.
      cbn iota. now rewrite IH.
    + cbn [signs]. apply Ascii.eqb_neq in Hc, Hlt, Hgt. unfold bracket. rewrite Hc, Hlt, Hgt. cbn [orb].
      now rewrite IH.
Qed.
Print Assumptions C54_escape.

(** With a backslash before the bracket the tag is read as one. *)
Theorem C54_escape_refuted : In (Tag "<") (markdown (escape "\<img src=x>")).
Proof. vm_compute. tauto. Qed.
Print Assumptions C54_escape_refuted.

Example C54_nontrivial :
  from_node (Node Declaration 8 9 "void f();")
    (rev [Node Other 0 0 "int x;"; Node Comment 2 4 "/** about x */"; Node Comment 5 5 "// one"; Node Comment 6 6 "//two";
          Node Pragma 7 7 "#pragma deprecated no"])
  = String.concat (String "010" EmptyString) ["about x "; "one"; "two"].
Proof. reflexivity. Qed.
