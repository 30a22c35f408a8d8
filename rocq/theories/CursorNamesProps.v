(** C72: the cursor on a name that is declared in the file. *)
From Coq Require Import List ZArith String Bool Arith Lia.
From Verif Require Import PreTypes PosModel PosSpec AstIdModel AstIdSpec AstIdProps TypeRefModel ItemTreeModel ItemTreeSpec ItemTreeProofs FindDefModel FindDefSpec FindDefProofs FindDefProps GotoModel GotoSpec GotoProofs GotoProps MethodModel CursorModel CursorSpec CursorProps CursorNames CursorNamesSpec.
From Verif Require OffsetProps OffsetSpec LowerModel LowerSpec WrittenSpec OffsetModel HirModel HirNames.
Import ListNotations.
Local Open Scope string_scope.
Local Open Scope nat_scope.
Local Open Scope list_scope.

(** ** The entries of a name *)
Lemma assoc_map : forall (g : file_item -> HirModel.file_def) vs nm,
  HirModel.assoc nm (map (fun e : string * list file_item => (fst e, map g (snd e))) vs) = option_map (map g) (get nm vs).
Proof.
  intros g vs nm. induction vs as [|[n l] r IH]; [reflexivity|]. cbn [map fst snd HirModel.assoc get]. destruct (String.eqb n nm); [reflexivity|exact IH].
Qed.
Lemma assoc_silent : forall A nm (l : list (string * A)), ~ In nm (map fst l) -> HirModel.assoc nm l = None.
Proof.
  intros A nm l. induction l as [|[n x] r IH]; intros N; [reflexivity|]. cbn [HirModel.assoc map fst In] in *. destruct (String.eqb_spec n nm); [tauto|auto].
Qed.
Lemma entries_silent : forall nm l, (forall g, In g l -> silent nm g) -> HirModel.global_entries l nm = [].
Proof.
  intros nm l. induction l as [|g r IH]; intros H; [reflexivity|]. unfold HirModel.global_entries. cbn [flat_map].
  rewrite (assoc_silent _ nm (HirModel.dm_values g)) by (apply H; cbn; auto). apply IH. intros h I. apply H. cbn. auto.
Qed.
Lemma entries_app : forall nm a b, HirModel.global_entries (a ++ b) nm = HirModel.global_entries a nm ++ HirModel.global_entries b nm.
Proof. intros. unfold HirModel.global_entries. apply flat_map_app. Qed.
Lemma kind_eqb_iff : forall a b, HirModel.kind_eqb a b = true -> a = b.
Proof. intros [] [] H; cbn in H; congruence. Qed.
Lemma entry_eqb_iff : forall a b, HirModel.entry_eqb a b = true -> a = b.
Proof.
  intros [[k i] f] [[k' i'] f'] H. unfold HirModel.entry_eqb, HirModel.def_eqb in H. cbn [fst snd] in H.
  apply andb_prop in H as (H & F). apply andb_prop in H as (K & I). apply kind_eqb_iff in K. apply Nat.eqb_eq in F, I. subst. reflexivity.
Qed.
Lemma dedup_nodup : forall l, NoDup l -> HirModel.dedup l = l.
Proof.
  induction l as [|x l IH]; intros N; [reflexivity|]. inversion N as [|? ? Nx Nl]; subst. destruct l as [|y r]; [reflexivity|].
  cbn [HirModel.dedup]. destruct (HirModel.entry_eqb x y) eqn:E.
  - apply entry_eqb_iff in E. subst. exfalso. apply Nx. cbn. auto.
  - f_equal. exact (IH Nl).
Qed.

(** The items of the name, and the declarations they were made from. *)
Lemma named_views : forall root t nm, ItemTreeModel.lower root = Some t ->
  Forall2 (fun x v => In x (top t) /\ In v (outline root) /\ view_item root t x = Some v) (filter (named_item t nm) (top t)) (declarations root nm).
Proof.
  intros root t nm L. pose proof (lower_written root t L) as W. unfold declarations.
  assert (G : forall l vs, incl l (top t) -> incl vs (outline root) -> all (view_item root t) l = Some vs ->
    Forall2 (fun x v => In x (top t) /\ In v (outline root) /\ view_item root t x = Some v) (filter (named_item t nm) l)
      (filter (fun v => match view_name v with Some n => String.eqb n nm | None => false end) vs)).
  { induction l as [|x l IH]; intros vs Il Iv A; cbn [all] in A; [injection A as <-; constructor|].
    destruct (view_item root t x) as [w|] eqn:V; [|discriminate]. destruct (all (view_item root t) l) as [ws|] eqn:Al; [|discriminate]. injection A as <-.
    destruct (view_facts _ _ _ _ V) as (N & _). cbn [filter]. unfold named_item at 1. rewrite N.
    assert (R : Forall2 (fun x v => In x (top t) /\ In v (outline root) /\ view_item root t x = Some v) (filter (named_item t nm) l)
      (filter (fun v => match view_name v with Some n => String.eqb n nm | None => false end) ws)).
    { apply IH; auto; intros y I; [apply Il|apply Iv]; cbn; auto. }
    destruct (view_name w) as [n|]; [|exact R]. destruct (String.eqb n nm); [|exact R]. constructor; [|exact R].
    split; [apply Il; cbn; auto|]. split; [apply Iv; cbn; auto|exact V]. }
  exact (G _ _ (incl_refl _) (incl_refl _) W).
Qed.
Lemma nodup_views : forall root t xs vs, Forall2 (fun x v => In x (top t) /\ In v (outline root) /\ view_item root t x = Some v) xs vs -> NoDup vs -> NoDup xs.
Proof.
  induction 1 as [|x v xs vs (_ & _ & V) F IH]; intros N; [constructor|]. inversion N as [|? ? Nv Nl]; subst. constructor; [|auto].
  intros I. apply Nv. clear - I F V. induction F as [|y w xs vs (_ & _ & W) F IH]; [destruct I|]. destruct I as [->|I]; [left; congruence|right; auto].
Qed.

Definition pick (l : list file_item) : option file_item :=
  match l with
  | [x] => Some x
  | _ => match find (fun x => key_eqb (key_of x) KMethodmap) l with Some x => Some x | None => find (fun x => key_eqb (key_of x) KFunction) l end
  end.
Lemma find_views : forall root t k xs vs, Forall2 (fun x v => In x (top t) /\ In v (outline root) /\ view_item root t x = Some v) xs vs ->
  match find (of_key k) vs with
  | Some v => exists x, find (fun x => key_eqb (key_of x) k) xs = Some x /\ In x (top t) /\ In v (outline root) /\ view_item root t x = Some v
  | None => find (fun x => key_eqb (key_of x) k) xs = None
  end.
Proof.
  induction 1 as [|x v xs vs (I & Iv & V) F IH]; [reflexivity|]. destruct (view_facts _ _ _ _ V) as (_ & K & _). cbn [find]. unfold of_key at 1. rewrite K.
  destruct (key_eqb (key_of x) k); [exists x; auto|exact IH].
Qed.
Lemma pick_views : forall root t xs vs, Forall2 (fun x v => In x (top t) /\ In v (outline root) /\ view_item root t x = Some v) xs vs ->
  match chosen vs with
  | Some v => exists x, pick xs = Some x /\ In x (top t) /\ In v (outline root) /\ view_item root t x = Some v
  | None => pick xs = None
  end.
Proof.
  intros root t xs vs F. pose proof (find_views root t KMethodmap _ _ F) as M. pose proof (find_views root t KFunction _ _ F) as Fn.
  destruct F as [|x v xs vs (I & Iv & V) F]; [reflexivity|]. destruct F as [|y w xs vs W F]; [exists x; auto|].
  unfold chosen, pick. destruct (find (of_key KMethodmap) _) as [m|].
  - destruct M as (z & -> & Z). exists z. auto.
  - rewrite M. exact Fn.
Qed.

(** ** What the name means *)
Section means.
Variable t : itree.
Variable m : FindDefModel.def_map.
Variable intern : file_item -> nat.
Variable f : nat.
Variable before after : list HirModel.def_map.
Variable look_up : HirModel.file_def -> FindDefModel.res resolution.
Variable member : nat -> FindDefModel.res resolution.
Notation maps := (before ++ def_map_of intern f m :: after).
Hypothesis Mapped : file_def_map t = Some m.
Hypothesis Looked_up : forall x, In x (top t) -> look_up (id_of intern x) = Val (RDef (Top x)).
Variable nm : string.
Hypothesis Before : forall g, In g before -> silent nm g.
Hypothesis After : forall g, In g after -> silent nm g.
Notation named := (filter (named_item t nm) (top t)).

Lemma entries_of : HirModel.global_entries maps nm = map (fun x => (id_of intern x, f)) named.
Proof.
  rewrite entries_app, (entries_silent nm before Before). cbn [app]. change (def_map_of intern f m :: after) with ([def_map_of intern f m] ++ after).
  rewrite entries_app, (entries_silent nm after After), app_nil_r. unfold HirModel.global_entries. cbn [flat_map def_map_of HirModel.dm_values HirModel.dm_file].
  rewrite app_nil_r. rewrite assoc_map, (proj1 (def_map_values t m Mapped) nm). destruct named as [|x l]; [reflexivity|].
  cbn [some_list option_map]. rewrite map_map. reflexivity.
Qed.
Lemma ids_nodup : forall l, incl l (top t) -> NoDup l -> NoDup (map (fun x => (id_of intern x, f)) l).
Proof.
  intros l. induction l as [|x l IH]; intros Il N; [constructor|]. inversion N as [|? ? Nx Nl]; subst. cbn [map]. constructor.
  - intros I. apply in_map_iff in I as (y & E & I). injection E as E0 E1. assert (E : id_of intern y = id_of intern x) by (unfold id_of; congruence).
    assert (Y : In y (top t)) by (apply Il; cbn; auto). assert (X : In x (top t)) by (apply Il; cbn; auto).
    apply Looked_up in X, Y. rewrite E, X in Y. injection Y as ->. contradiction.
  - apply IH; auto. intros y I. apply Il. cbn. auto.
Qed.
(** The name leads to the item that is picked, or nowhere. *)
Lemma resolved : NoDup named ->
  match pick named with
  | Some x => exists v d, HirModel.resolve_global maps nm = Some v /\ OffsetSpec.leads_to v d /\ item_def look_up member d = look_up (id_of intern x) /\
      (forall o e, d <> OffsetModel.FLocal o e)
  | None => forall v d, HirModel.resolve_global maps nm = Some v -> ~ OffsetSpec.leads_to v d
  end.
Proof.
  intros N. unfold HirModel.resolve_global. rewrite entries_of.
  rewrite dedup_nodup by (apply ids_nodup; [intros x I; apply filter_In in I; tauto|exact N]). generalize named as l. intros l.
  assert (M : forall l, find (fun e : HirModel.def_kind * nat * nat => match e with (HirModel.DMethodmap, _, _) => true | _ => false end) (map (fun x => (id_of intern x, f)) l) =
    option_map (fun x => (id_of intern x, f)) (find (fun x => key_eqb (key_of x) KMethodmap) l)).
  { clear. intros l. induction l as [|x l IH]; [reflexivity|]. cbn [map find]. destruct x; cbn [id_of sort_of key_of key_eqb]; auto. }
  assert (Fn : forall l, match find (fun x => key_eqb (key_of x) KFunction) l with
    | Some x => exists i r, flat_map (fun e : HirModel.def_kind * nat * nat => match e with (HirModel.DFunction, i, _) => [i] | _ => [] end) (map (fun x => (id_of intern x, f)) l) = i :: r /\
        id_of intern x = (HirModel.DFunction, i)
    | None => flat_map (fun e : HirModel.def_kind * nat * nat => match e with (HirModel.DFunction, i, _) => [i] | _ => [] end) (map (fun x => (id_of intern x, f)) l) = []
    end).
  { clear. intros l. induction l as [|x l IH]; [reflexivity|]. cbn [map find flat_map]. destruct x; cbn [id_of sort_of key_of key_eqb app]; auto. eexists _, _. split; reflexivity. }
  specialize (M l). specialize (Fn l). destruct l as [|x [|y l]].
  - discriminate.
  - cbn [map pick]. destruct x; cbn [id_of sort_of]; eexists _, _; (split; [reflexivity|]); (split; [constructor|]); (split; [reflexivity|discriminate]).
  - unfold pick. destruct (find (fun x => key_eqb (key_of x) KMethodmap) (x :: y :: l)) as [z|] eqn:Z.
    + cbn [option_map] in M. exists (HirModel.VDef (id_of intern z)), (OffsetModel.FItem (id_of intern z)). split.
      * cbn [map] in M |- *. unfold HirModel.file_def in *. revert M. destruct (id_of intern x) as [[] ?]; intros ->; destruct (id_of intern z); reflexivity.
      * split; [constructor|]. split; [reflexivity|discriminate].
    + cbn [option_map] in M. destruct (find (fun x => key_eqb (key_of x) KFunction) (x :: y :: l)) as [z|].
      * destruct Fn as (i & r & E & I). exists (HirModel.VFunctions (i :: r)), (OffsetModel.FFunction i). split.
        { cbn [map] in M, E |- *. unfold HirModel.file_def in *. revert M E. destruct (id_of intern x) as [[] ?]; intros -> E; [rewrite E|..]; try (rewrite E); reflexivity. }
        split; [constructor|]. split; [cbn [item_def]; rewrite I; reflexivity|discriminate].
      * intros v d E L. cbn [map] in M, Fn, E. unfold HirModel.file_def in *.
        assert (v = HirModel.VFunctions []) by (revert M Fn E; destruct (id_of intern x) as [[] ?]; intros -> Fn E; rewrite Fn in E; congruence).
        subst v. inversion L.
Qed.
End means.

(** * From the cursor to the declaration *)
Section world.
Variable sources : nat -> source.
Variable f : nat.
Notation root := (so_root (sources f)).
Variable t : itree.
Variable m : FindDefModel.def_map.
Variable es_table mm_table : def -> key -> ptr -> FindDefModel.res def.
Variable global_ident : string -> option value.
Variable in_signature : def -> string -> FindDefModel.res resolution.
Variable include_node : spot -> FindDefModel.res resolution.
Variable inherited_method : nat -> string -> option def.
Variable inherited_accessor : nat -> string -> bool -> option def.
Variable fuel : nat.
Variable parse_f64 : string -> option nat.
Variable member_node : def -> FindDefModel.res syn.
Variable owner : def -> nat.
Variable def_of : nat -> def.
Variable intern : file_item -> nat.
Variable before after : list HirModel.def_map.
Variable object : def -> option (bool * nat).
Variable db : HirModel.database.
Variable look_up : HirModel.file_def -> FindDefModel.res resolution.
Variable member : nat -> FindDefModel.res resolution.
Variable other_file : nat -> spot -> FindDefModel.res resolution.
Variable macro_def : Z -> Z -> option resolution.
Variable def_file : resolution -> nat.
(** The definitions of the file are among those the resolver has. *)
Notation maps := (before ++ def_map_of intern f m :: after).
Definition asks_name : nat -> spot -> FindDefModel.res resolution :=
  asks sources f t m es_table mm_table global_ident in_signature include_node inherited_method inherited_accessor fuel parse_f64 member_node owner def_of
    maps object db (item_def look_up member) other_file.
Notation answer := (handle_goto_definition resolution sources asks_name macro_def def_file (def_source root t parse_f64 member_node)).
Notation shows := (hover resolution sources asks_name macro_def def_file (def_source root t parse_f64 member_node)).

Hypothesis Here : forall d j, def_file (RLocal d j) = f.
Hypothesis Here_def : forall d, def_file (RDef d) = f.
Hypothesis Proper : AstIdSpec.proper (plain root).
Hypothesis Lowered : ItemTreeModel.lower root = Some t.
Hypothesis Mapped : file_def_map t = Some m.
Hypothesis Interned : forall d, of_file t d -> def_of (owner d) = d.
Hypothesis Looked_up : forall x, In x (top t) -> look_up (id_of intern x) = Val (RDef (Top x)).

Lemma resolve_file : forall this nm, nm <> "this" -> HirModel.resolve_ident (HirNames.owner_resolver maps this) nm = HirModel.resolve_global maps nm.
Proof.
  intros this nm N. unfold HirModel.resolve_ident, HirNames.owner_resolver. apply String.eqb_neq in N.
  destruct this as [[mm i]|]; cbn [rev app HirModel.resolve_in]; rewrite ?N; destruct (HirModel.resolve_global maps nm); reflexivity.
Qed.
Lemma asked_item : forall s c b, spot_in root s -> plain_use s -> in_definition root s c b -> well_written root parse_f64 (sp_node c) b ->
  let nm := s_text (sp_node s) in nm <> "this" -> means_at root (sp_node c) b (start_of (plain (sp_node s))) nm None ->
  (forall g, In g (before ++ after) -> silent nm g) -> NoDup (declarations root nm) ->
  match chosen (declarations root nm) with
  | Some v => exists x, asks_name f s = Val (RDef (Top x)) /\ In x (top t) /\ In v (outline root) /\ view_item root t x = Some v
  | None => asks_name f s = Nothing
  end.
Proof.
  intros s c b R U D Wr nm Nt Me Si Nd.
  assert (Th : s_text (sp_node s) = "this" -> HirModel.resolve_global maps "this" = None) by (intros E; destruct (Nt E)).
  destruct (C72_file_partial sources f t m es_table mm_table global_ident in_signature include_node inherited_method inherited_accessor fuel parse_f64 member_node owner def_of
    maps object db (item_def look_up member) other_file Proper Lowered Mapped Interned s c b R U D Wr Th Me) as (y & _ & _ & F & Fn).
  fold nm in F, Fn. rewrite (resolve_file (object y) nm Nt) in F, Fn. pose proof (named_views root t nm Lowered) as V.
  assert (N : NoDup (filter (named_item t nm) (top t))) by (eapply nodup_views; eauto).
  pose proof (resolved t m intern f before after look_up member Mapped Looked_up nm (fun g I => Si g (in_or_app _ _ _ (or_introl I)))
    (fun g I => Si g (in_or_app _ _ _ (or_intror I))) N) as Q.
  pose proof (pick_views root t _ _ V) as P. destruct (chosen (declarations root nm)) as [v|].
  - destruct P as (x & Px & Ix & Iv & Vx). rewrite Px in Q. destruct Q as (w & d & Rw & Lw & Id & Nl). exists x. split; [|auto].
    apply F. exists w, d. split; [exact Rw|]. split; [exact Lw|]. rewrite (Looked_up x Ix) in Id.
    destruct d as [i|i|o e|d]; [exact Id|exact Id|destruct (Nl o e eq_refl)|exact Id].
  - rewrite P in Q. apply Fn. exact Q.
Qed.

(** The cursor is on a name that is used in a function and not declared there, and no other file declares it: one link is
    sent, to the declaration of the file that is chosen. Hovering shows the text of that declaration. *)
Theorem C72_global_partial : forall lines p s c b v n u full name,
  written (sources f) lines -> cursor_on (sources f) lines p s -> plain_use s -> in_definition root s c b ->
  well_written root parse_f64 (sp_node c) b -> let nm := s_text (sp_node s) in nm <> "this" ->
  means_at root (sp_node c) b (start_of (plain (sp_node s))) nm None -> (forall g, In g (before ++ after) -> silent nm g) ->
  NoDup (declarations root nm) -> chosen (declarations root nm) = Some v ->
  spot_in root n -> alone root (sp_node n) -> view_at v = place_of (sp_node n) ->
  shown lines (node_range (so_text (sources f)) (sp_node s)) u ->
  shown lines (node_range (so_text (sources f)) (sp_node n)) full -> shown lines (node_range (so_text (sources f)) (inner_name (sp_node n))) name ->
  answer f p = Val [Link (Some u) f full name] /\ le (rstart u) p /\ le p (rend u) /\ inside name full /\
  (forall docs, shows docs false f p = Val (Answer u (fenced_block (text_of (so_text (sources f)) (sp_node n))))).
Proof.
  intros lines p s c b v n u full name W (C & A & q & Sp & Sm) U D Wr nm Nt Me Si Nd Ch Rn Al Pv Shu Shf Shn. pose proof Sm as (R & _).
  pose proof (asked_item s c b R U D Wr Nt Me Si Nd) as K. fold nm in K. rewrite Ch in K. destruct K as (x & F & Ix & Iv & Vx).
  assert (Vn : exists k, view_name v = Some k).
  { assert (Id : In v (declarations root nm)).
    { clear - Ch. unfold chosen in Ch. destruct (declarations root nm) as [|a [|a' l]]; [discriminate|injection Ch as ->; cbn; auto|].
      destruct (find (of_key KMethodmap) _) as [z|] eqn:E; [injection Ch as ->; exact (proj1 (find_some _ _ E))|exact (proj1 (find_some _ _ Ch))]. }
    apply filter_In in Id as (_ & Id). destruct (view_name v) as [k|]; [exists k; reflexivity|discriminate]. }
  destruct Vn as (k & Vk).
  assert (Src : def_source root t parse_f64 member_node (RDef (Top x)) = Val (sp_node n)).
  { cbn [def_source def_node]. apply (item_source_of root t x (sp_node n) k n Proper Rn Al eq_refl). split; [exact Ix|]. exists v. auto. }
  assert (Pn : AstIdSpec.proper (plain (sp_node n))) by (eapply proper_below; [exact Proper|apply under_below; exact (reach_under _ _ _ Rn)]).
  assert (G : forall docs, answer f p = Val [Link (Some u) f full name] /\ le (rstart u) p /\ le p (rend u) /\ inside name full /\
    shows docs false f p = Val (Answer u (fenced_block (text_of (so_text (sources f)) (sp_node n))))).
  { intros docs. destruct (C60_code_partial resolution sources asks_name macro_def def_file (def_source root t parse_f64 member_node) docs f lines p q s
      (RDef (Top x)) u (sp_node n) lines full name) as (H & B1 & B2 & B3 & B4 & _); auto; try (rewrite Here_def; auto; fail).
    rewrite Here_def in H, B4. auto. }
  destruct (G (fun _ _ => "")) as (H & B1 & B2 & B3 & _). repeat (split; [assumption|]). intros docs. apply (G docs).
Qed.

(** If neither the function nor a file declares the name, nothing is answered. So it is with a name that has several
    declarations of which none is a methodmap or a function. *)
Theorem C72_undeclared_partial : forall lines p s c b,
  written (sources f) lines -> cursor_on (sources f) lines p s -> plain_use s -> in_definition root s c b ->
  well_written root parse_f64 (sp_node c) b -> let nm := s_text (sp_node s) in nm <> "this" ->
  means_at root (sp_node c) b (start_of (plain (sp_node s))) nm None -> (forall g, In g (before ++ after) -> silent nm g) ->
  NoDup (declarations root nm) -> chosen (declarations root nm) = None ->
  answer f p = Nothing /\ forall docs b, shows docs b f p = Nothing.
Proof.
  intros lines p s c b W (C & A & q & Sp & Sm) U D Wr nm Nt Me Si Nd Ch. pose proof Sm as (R & _).
  pose proof (asked_item s c b R U D Wr Nt Me Si Nd) as K. fold nm in K. rewrite Ch in K.
  assert (G : forall docs, answer f p = Nothing /\ forall b, shows docs b f p = Nothing) by (intros docs; eapply C60_nothing; eauto).
  split; [exact (proj1 (G (fun _ _ => "")))|]. intros docs b0. apply (G docs).
Qed.
End world.
Print Assumptions C72_global_partial.
Print Assumptions C72_undeclared_partial.

(** [h], [E] and [k] are declared twice, [z] nowhere:
<<
int g;
forward void h();
enum E {}
methodmap E {}
int k; int k;
void f() {
  g = h;
  E = k;
  z = g;
}
void h() {}
>> *)
Definition nl_n : string := String (Ascii.ascii_of_nat 10) "".
Definition text_n : string :=
  ("int g;" ++ nl_n ++ "forward void h();" ++ nl_n ++ "enum E {}" ++ nl_n ++ "methodmap E {}" ++ nl_n ++ "int k; int k;" ++ nl_n ++
   "void f() {" ++ nl_n ++ "  g = h;" ++ nl_n ++ "  E = k;" ++ nl_n ++ "  z = g;" ++ nl_n ++ "}" ++ nl_n ++ "void h() {}" ++ nl_n)%string.
Definition leaf_n (k s e : nat) : syn := Syn k s e (substring s (e - s) text_n) [].
Definition global_n (s : nat) : syn :=
  Syn 152 s (s + 6) "" [("type", leaf_n 85 s (s + 3)); ("", Syn 156 (s + 4) (s + 5) "" [("name", leaf_n 1 (s + 4) (s + 5))]); ("", leaf_n 105 (s + 5) (s + 6))].
Definition assigns_n (s : nat) : syn :=
  Syn 210 s (s + 6) "" [("", Syn 216 s (s + 5) "" [("left", leaf_n 1 s (s + 1)); ("operator", leaf_n 45 (s + 2) (s + 3)); ("right", leaf_n 1 (s + 4) (s + 5))]); ("", leaf_n 105 (s + 5) (s + 6))].
Definition body_n : syn := Syn 201 73 103 "" [("", leaf_n 68 73 74); ("", assigns_n 77); ("", assigns_n 86); ("", assigns_n 95); ("", leaf_n 69 102 103)].
Definition function_n (s : nat) (b : syn) : syn :=
  Syn 144 s (stop_of (plain b)) "" [("returnType", leaf_n 83 s (s + 4)); ("name", leaf_n 1 (s + 5) (s + 6));
    ("parameters", Syn 147 (s + 6) (s + 8) "()" [("", leaf_n 2 (s + 6) (s + 7)); ("", leaf_n 3 (s + 7) (s + 8))]); ("body", b)].
Definition forward_n : syn :=
  Syn 145 7 24 "" [("", Syn 146 7 14 "forward" [("", leaf_n 46 7 14)]); ("returnType", leaf_n 83 15 19); ("name", leaf_n 1 20 21);
    ("parameters", Syn 147 21 23 "()" [("", leaf_n 2 21 22); ("", leaf_n 3 22 23)]); ("", leaf_n 105 23 24)].
Definition root_n : syn :=
  Syn 130 0 116 text_n [("", global_n 0); ("", forward_n);
    ("", Syn 163 25 34 "" [("name", leaf_n 1 30 31); ("entries", Syn 164 32 34 "" [("", leaf_n 68 32 33); ("", leaf_n 69 33 34)])]);
    ("", Syn 175 35 49 "" [("name", leaf_n 1 45 46); ("", leaf_n 68 47 48); ("", leaf_n 69 48 49)]); ("", global_n 50); ("", global_n 57);
    ("", function_n 64 body_n); ("", function_n 104 (Syn 201 113 115 "" [("", leaf_n 68 113 114); ("", leaf_n 69 114 115)]))].
Definition source_n : source := Source text_n root_n [] [].
Definition tree_n : itree := match ItemTreeModel.lower root_n with Some t => t | None => empty_tree end.
Definition map_n : FindDefModel.def_map := match file_def_map tree_n with Some m => m | None => DefMap [] [] [] end.
(** The id of an item is its place among those of the file. *)
Definition item_eqb (x y : file_item) : bool :=
  match x, y with
  | FFunction i, FFunction j | FVariable i, FVariable j | FMacro i, FMacro j | FEnumStruct i, FEnumStruct j | FMethodmap i, FMethodmap j
  | FEnum i, FEnum j | FVariant i, FVariant j | FTypedef i, FTypedef j | FTypeset i, FTypeset j | FFunctag i, FFunctag j | FFuncenum i, FFuncenum j => i =? j
  | _, _ => false
  end.
Fixpoint place_n (x : file_item) (l : list file_item) : nat := match l with [] => 0 | y :: r => if item_eqb x y then 0 else S (place_n x r) end.
Definition items_n : list file_item := [FVariable 0; FFunction 0; FEnum 0; FMethodmap 0; FVariable 1; FVariable 2; FFunction 1; FFunction 2].
Definition intern_n (x : file_item) : nat := place_n x items_n.
Definition look_up_n (d : HirModel.file_def) : FindDefModel.res resolution :=
  match nth_error items_n (snd d) with Some x => if HirModel.kind_eqb (sort_of x) (fst d) then Val (RDef (Top x)) else FindDefModel.Panic | None => FindDefModel.Panic end.
Definition owner_n (d : def) : nat := match d with Top x => intern_n x | _ => 0 end.
Definition def_n (i : nat) : def := match nth_error items_n i with Some x => Top x | None => Top (FFunction 0) end.
Definition other_n : HirModel.def_map := HirModel.DefMap 1 [("y", [(HirModel.DGlobal, 77)])].
Definition handle_n : nat -> pos -> FindDefModel.res (list link) :=
  handle_goto_definition resolution (fun _ => source_n)
    (asks_name (fun _ => source_n) 0 tree_n map_n (fun _ _ _ => Nothing) (fun _ _ _ => Nothing) (fun _ => None) (fun _ _ => Nothing) (fun _ => Nothing) (fun _ _ => None) (fun _ _ _ => None)
       2 float_e (fun _ => Nothing) owner_n def_n intern_n [other_n] [] (fun _ => None) OffsetProps.empty_db look_up_n (fun _ => FindDefModel.Panic) (fun _ _ => Nothing))
    (fun _ _ => None) (fun _ => 0) (def_source root_n tree_n float_e (fun _ => Nothing)).
(** The [g] of the body, [h] (the forward declaration is the first), [E] (the methodmap), [k] and [z] (nothing), and [g] again. *)
Example C72_global_nontrivial : map (handle_n 0) [Pos 6 2; Pos 6 6; Pos 7 2; Pos 7 6; Pos 8 2; Pos 8 6]%Z =
  [Val [Link (Some (at_e 6 2 3)) 0 (at_e 0 4 5) (at_e 0 4 5)]; Val [Link (Some (at_e 6 6 7)) 0 (at_e 1 0 17) (at_e 1 13 14)];
   Val [Link (Some (at_e 7 2 3)) 0 (at_e 3 0 14) (at_e 3 10 11)]; Nothing; Nothing; Val [Link (Some (at_e 8 6 7)) 0 (at_e 0 4 5) (at_e 0 4 5)]].
Proof. vm_compute. reflexivity. Qed.

(** The third of them as a case of the theorem. *)
Definition lines_n (_ : Z) : list piece := [Code 100].
Definition spot_n (path : list nat) : spot := match go root_n [] path with Some s => s | None => Spot root_n [] end.
Lemma written_n : written source_n lines_n.
Proof. intros k. unfold lines_n. repeat split; try (cbn; lia). repeat constructor; cbn; lia. Qed.
Lemma same_n : forall l c, (0 <= c <= 99)%Z -> same lines_n (Pos l c) (Pos l c).
Proof. intros l c B. split; [reflexivity|]. exists (@nil piece), 100%Z, (@nil piece), c. repeat split; cbn; lia. Qed.
Lemma shown_n : forall l c c', (0 <= c <= 99)%Z -> (0 <= c' <= 99)%Z -> shown lines_n (at_e l c c') (at_e l c c').
Proof. intros l c c' B B'. split; [apply same_n; exact B|]. split; [apply same_n; exact B'|left; reflexivity]. Qed.
Lemma alone_n : forall path s, go root_n [] path = Some s -> start_of (plain (sp_node s)) < stop_of (plain (sp_node s)) -> alone root_n (sp_node s).
Proof.
  intros path s G L. split; [exact L|]. intros a Ua E. apply (nodup_image place_of (nodes_e root_n)); auto using under_nodes_e.
  - apply nodupb_sound. vm_compute. reflexivity.
  - apply under_nodes_e. apply go_reach in G. exact (reach_under _ _ _ G).
Qed.
Lemma cursor_n : cursor_on source_n lines_n (Pos 7 2) (spot_n [6; 3; 2; 0; 0]).
Proof.
  split; [|split; [constructor|exists (Pos 7 2); split]].
  - intros b nm (a & w & i & r & E & B). unfold lines_n in E. destruct b as [|x [|y b]]; cbn in E; discriminate E.
  - apply same_n. lia.
  - split; [apply (go_reach [6; 3; 2; 0; 0]); reflexivity|]. split; [|intros c []]. split; right; vm_compute; split; try reflexivity; discriminate.
Qed.
Lemma definition_n : in_definition root_n (spot_n [6; 3; 2; 0; 0]) (spot_n [6]) body_n.
Proof.
  split; [apply (alone_n [6]); [reflexivity|vm_compute; lia]|]. split; [reflexivity|]. split; [reflexivity|].
  eexists _, _. left. split; [reflexivity|]. split; [reflexivity|]. split; [vm_compute; reflexivity|]. split; [vm_compute; reflexivity|]. split; reflexivity.
Qed.
Lemma well_written_n : well_written root_n float_e (sp_node (spot_n [6])) body_n.
Proof.
  split; [|split; [|split]].
  - let x := eval vm_compute in (ts_of root_n body_n) in change (ts_of root_n body_n) with x. WrittenProps.tid.
  - let x := eval vm_compute in (ts_of root_n body_n) in change (ts_of root_n body_n) with x. WrittenProps.tid.
  - let x := eval vm_compute in (ts_of root_n body_n) in change (ts_of root_n body_n) with x. cbn [LowerSpec.everywhere map fold_right]. repeat split; vm_compute; discriminate.
  - intros n H. vm_compute in H. injection H as <-. split.
    + match goal with |- LowerSpec.everywhere _ ?y => let x := eval vm_compute in y in change y with x end. WrittenProps.tid; destruct H; discriminate.
    + match goal with |- LowerSpec.everywhere _ ?y => let x := eval vm_compute in y in change y with x end. cbn [LowerSpec.everywhere map fold_right]. repeat split.
Qed.
Lemma means_n : means_at root_n (sp_node (spot_n [6])) body_n (start_of (plain (sp_node (spot_n [6; 3; 2; 0; 0])))) (s_text (sp_node (spot_n [6; 3; 2; 0; 0]))) None.
Proof.
  replace (start_of (plain (sp_node (spot_n [6; 3; 2; 0; 0])))) with 86 by reflexivity.
  replace (s_text (sp_node (spot_n [6; 3; 2; 0; 0]))) with "E" by reflexivity. split.
  - intros (b & H & E & _). inversion H as [n K|n y b' I Hb]; subst; [vm_compute in E; discriminate E|].
    change (WrittenSpec.statements (ts_of root_n body_n)) with [ts_of root_n (assigns_n 77); ts_of root_n (assigns_n 86); ts_of root_n (assigns_n 95)] in I.
    destruct I as [<-|[<-|[<-|[]]]]; inversion Hb as [n K|n y b' I Hc]; subst; solve [discriminate K|destruct I].
  - eexists. split.
    + eapply WrittenSpec.around_part; [right; left; reflexivity|]. apply WrittenSpec.around_own; [vm_compute; lia|vm_compute; discriminate|constructor].
    + vm_compute. reflexivity.
Qed.
Lemma items_top : top tree_n = items_n.
Proof. vm_compute. reflexivity. Qed.
Lemma text_at_n : s_text (sp_node (spot_n [6; 3; 2; 0; 0])) = "E".
Proof. vm_compute. reflexivity. Qed.
Lemma interned_n : forall d, of_file tree_n d -> def_n (owner_n d) = d.
Proof.
  pose proof items_top as T. assert (E : enum_structs tree_n = []) by (vm_compute; reflexivity).
  assert (M : map mm_items (methodmaps tree_n) = [[]]) by (vm_compute; reflexivity).
  revert T E M. generalize tree_n. intros t T E M d O. destruct d as [x|i j|i j|i j|i j]; cbn [of_file] in O.
  - rewrite T in O. repeat (destruct O as [<-|O]; [reflexivity|]). destruct O.
  - destruct O.
  - destruct O.
  - destruct O as (y & N & _). rewrite E in N. destruct i; discriminate N.
  - destruct O as (y & N & I). apply (map_nth_error mm_items) in N. rewrite M in N. destruct i as [|[|?]]; try discriminate N. injection N as N. rewrite <- N in I.
    destruct I as [[]|(p & pr & [] & _)].
Qed.
Lemma looked_up_n : forall x, In x (top tree_n) -> look_up_n (id_of intern_n x) = Val (RDef (Top x)).
Proof. rewrite items_top. intros x I. repeat (destruct I as [<-|I]; [reflexivity|]). destruct I. Qed.
Lemma plain_n : plain_use (spot_n [6; 3; 2; 0; 0]).
Proof. split; [vm_compute; reflexivity|]. eexists _, _, _. split; [vm_compute; reflexivity|]. split; [vm_compute; intuition discriminate|vm_compute; discriminate]. Qed.
Lemma chosen_n : chosen (declarations root_n (s_text (sp_node (spot_n [6; 3; 2; 0; 0])))) = Some (VMethodmap "E" None [] (place_of (sp_node (spot_n [3])))).
Proof. vm_compute. reflexivity. Qed.
Lemma nodup_n : NoDup (declarations root_n (s_text (sp_node (spot_n [6; 3; 2; 0; 0])))).
Proof. vm_compute. repeat constructor; cbn; intuition discriminate. Qed.
Lemma silent_n : forall g, In g ([other_n] ++ []) -> silent (s_text (sp_node (spot_n [6; 3; 2; 0; 0]))) g.
Proof. rewrite text_at_n. intros g [<-|[]] [I|[]]. discriminate I. Qed.
Lemma ranges_n : node_range text_n (sp_node (spot_n [6; 3; 2; 0; 0])) = at_e 7 2 3 /\ node_range text_n (sp_node (spot_n [3])) = at_e 3 0 14 /\
  node_range text_n (inner_name (sp_node (spot_n [3]))) = at_e 3 10 11.
Proof. vm_compute. repeat split; reflexivity. Qed.
Example C72_global_instance : handle_n 0 (Pos 7 2) = Val [Link (Some (at_e 7 2 3)) 0 (at_e 3 0 14) (at_e 3 10 11)].
Proof.
  pose proof (C72_global_partial (fun _ => source_n) 0 tree_n map_n (fun _ _ _ => Nothing) (fun _ _ _ => Nothing) (fun _ => None) (fun _ _ => Nothing) (fun _ => Nothing) (fun _ _ => None) (fun _ _ _ => None)
    2 float_e (fun _ => Nothing) owner_n def_n intern_n [other_n] [] (fun _ => None) OffsetProps.empty_db look_up_n (fun _ => FindDefModel.Panic) (fun _ _ => Nothing) (fun _ _ => None) (fun _ => 0)
    (fun _ => eq_refl)) as H.
  change (so_root ((fun _ : nat => source_n) 0)) with root_n in H. change (so_text ((fun _ : nat => source_n) 0)) with text_n in H.
  assert (Pr : AstIdSpec.proper (plain root_n)) by (apply properb_sound; vm_compute; reflexivity).
  assert (Lo : ItemTreeModel.lower root_n = Some tree_n) by (vm_compute; reflexivity).
  assert (Mp : file_def_map tree_n = Some map_n) by (vm_compute; reflexivity).
  specialize (H Pr Lo Mp interned_n looked_up_n lines_n (Pos 7 2) (spot_n [6; 3; 2; 0; 0]) (spot_n [6]) body_n (VMethodmap "E" None [] (place_of (sp_node (spot_n [3])))) (spot_n [3])
    (at_e 7 2 3) (at_e 3 0 14) (at_e 3 10 11) written_n cursor_n plain_n definition_n well_written_n).
  cbv zeta in H. destruct ranges_n as (R1 & R2 & R3). rewrite R1, R2, R3 in H.
  assert (Nt : s_text (sp_node (spot_n [6; 3; 2; 0; 0])) <> "this") by (vm_compute; discriminate).
  assert (Re : spot_in root_n (spot_n [3])) by (apply (go_reach [3]); vm_compute; reflexivity).
  assert (Al : alone root_n (sp_node (spot_n [3]))) by (apply (alone_n [3]); [vm_compute; reflexivity|vm_compute; lia]).
  exact (proj1 (H Nt means_n silent_n nodup_n chosen_n Re Al eq_refl (shown_n 7 2 3 ltac:(lia) ltac:(lia)) (shown_n 3 0 14 ltac:(lia) ltac:(lia)) (shown_n 3 10 11 ltac:(lia) ltac:(lia)))).
Qed.
