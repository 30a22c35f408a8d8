(** C72: names in a method of an enum struct and in a setter; and in a constructor, which is mistaken for the destructor. *)
From Coq Require Import List ZArith String Bool Arith Lia.
From Verif Require Import PreTypes PosModel PosSpec AstIdModel AstIdSpec AstIdProps TypeRefModel ItemTreeModel ItemTreeSpec FindDefModel FindDefSpec FindDefProofs FindDefProps GotoModel GotoProofs GotoProps CursorModel CursorSpec CursorProps.
From Verif Require OffsetProps LowerModel LowerSpec LowerProps LowerHir WrittenSpec WrittenLower WrittenProps OffsetModel HirModel HirNames.
Import ListNotations.
Local Open Scope string_scope.
Local Open Scope nat_scope.
Local Open Scope list_scope.

Definition text_k : string :=
  "enum struct S {" ++ nl ++
  "  int x;" ++ nl ++
  "  int m(int a) { int b; b = a; }" ++ nl ++
  "}" ++ nl ++
  "methodmap M {" ++ nl ++
  "  public M(int c) { c = 1; }" ++ nl ++
  "  public ~M() { int d; d = 1; }" ++ nl ++
  "  property int p { public set(int v) { v = 1; } }" ++ nl ++
  "}" ++ nl.
Definition leaf_k (k s e : nat) : syn := Syn k s e (substring s (e - s) text_k) [].
Definition struct_k : syn := (Syn 166 0 59 "" [("", leaf_k 57 0 4); ("", leaf_k 70 5 11); ("name", leaf_k 1 12 13); ("", leaf_k 68 14 15); ("", (Syn 167 18 24 "" [("type", leaf_k 85 18 21); ("name", leaf_k 1 22 23); ("", leaf_k 105 23 24)])); ("", (Syn 168 27 57 "" [("returnType", leaf_k 85 27 30); ("name", leaf_k 1 31 32); ("parameters", (Syn 147 32 39 "" [("", leaf_k 2 32 33); ("", (Syn 148 33 38 "" [("type", leaf_k 85 33 36); ("name", leaf_k 1 37 38)])); ("", leaf_k 3 38 39)])); ("body", (Syn 201 40 57 "" [("", leaf_k 68 40 41); ("", (Syn 153 42 48 "" [("type", leaf_k 85 42 45); ("", (Syn 156 46 47 "" [("name", leaf_k 1 46 47)])); ("", leaf_k 105 47 48)])); ("", (Syn 210 49 55 "" [("", (Syn 216 49 54 "" [("left", leaf_k 1 49 50); ("operator", leaf_k 45 51 52); ("right", leaf_k 1 53 54)])); ("", leaf_k 105 54 55)])); ("", leaf_k 69 56 57)]))])); ("", leaf_k 69 58 59)]).
Definition map_k : syn := (Syn 175 60 186 "" [("", leaf_k 76 60 69); ("name", leaf_k 1 70 71); ("", leaf_k 68 72 73); ("", (Syn 181 76 102 "" [("", leaf_k 52 76 82); ("name", leaf_k 1 83 84); ("parameters", (Syn 147 84 91 "" [("", leaf_k 2 84 85); ("", (Syn 148 85 90 "" [("type", leaf_k 85 85 88); ("name", leaf_k 1 89 90)])); ("", leaf_k 3 90 91)])); ("body", (Syn 201 92 102 "" [("", leaf_k 68 92 93); ("", (Syn 210 94 100 "" [("", (Syn 216 94 99 "" [("left", leaf_k 1 94 95); ("operator", leaf_k 45 96 97); ("right", leaf_k 115 98 99)])); ("", leaf_k 105 99 100)])); ("", leaf_k 69 101 102)]))])); ("", (Syn 182 105 134 "" [("", leaf_k 52 105 111); ("", leaf_k 5 112 113); ("name", leaf_k 1 113 114); ("parameters", (Syn 147 114 116 "" [("", leaf_k 2 114 115); ("", leaf_k 3 115 116)])); ("body", (Syn 201 117 134 "" [("", leaf_k 68 117 118); ("", (Syn 153 119 125 "" [("type", leaf_k 85 119 122); ("", (Syn 156 123 124 "" [("name", leaf_k 1 123 124)])); ("", leaf_k 105 124 125)])); ("", (Syn 210 126 132 "" [("", (Syn 216 126 131 "" [("left", leaf_k 1 126 127); ("operator", leaf_k 45 128 129); ("right", leaf_k 115 130 131)])); ("", leaf_k 105 131 132)])); ("", leaf_k 69 133 134)]))])); ("", (Syn 183 137 184 "" [("", leaf_k 78 137 145); ("type", leaf_k 85 146 149); ("name", leaf_k 1 150 151); ("", leaf_k 68 152 153); ("", (Syn 186 154 182 "" [("", leaf_k 52 154 160); ("", (Syn 188 161 171 "" [("name", leaf_k 80 161 164); ("", leaf_k 2 164 165); ("parameter", (Syn 148 165 170 "" [("type", leaf_k 85 165 168); ("name", leaf_k 1 169 170)])); ("", leaf_k 3 170 171)])); ("body", (Syn 201 172 182 "" [("", leaf_k 68 172 173); ("", (Syn 210 174 180 "" [("", (Syn 216 174 179 "" [("left", leaf_k 1 174 175); ("operator", leaf_k 45 176 177); ("right", leaf_k 115 178 179)])); ("", leaf_k 105 179 180)])); ("", leaf_k 69 181 182)]))])); ("", leaf_k 69 183 184)])); ("", leaf_k 69 185 186)]).
Definition root_k : syn := Syn 130 0 187 text_k [("", struct_k); ("", map_k)].
Definition source_k : source := Source text_k root_k [] [].
Definition tree_k : itree := match ItemTreeModel.lower root_k with Some t => t | None => empty_tree end.
Definition defs_k : FindDefModel.def_map := match file_def_map tree_k with Some m => m | None => DefMap [] [] [] end.
Definition spot_k (l : list nat) : spot := match go root_k [] l with Some s => s | None => Spot root_k [] end.
Definition ids_k : list def := [InEnumStruct 0 0; InMethodmap 0 1; InMethodmap 0 2; InMethodmap 0 3; Top (FEnumStruct 0); Top (FMethodmap 0)].
Definition owner_k (d : def) : nat :=
  match d with InEnumStruct _ _ => 0 | InMethodmap _ j => j | Top (FEnumStruct _) => 4 | _ => 5 end.
Definition def_k (i : nat) : def := nth i ids_k (Top (FMethodmap 0)).
Definition asks_k : spot -> FindDefModel.res resolution :=
  asks (fun _ => source_k) 0 tree_k defs_k (fun _ _ _ => Nothing) (fun _ _ _ => Nothing) (fun _ => None) (fun _ _ => Nothing) (fun _ => Nothing) (fun _ _ => None) (fun _ _ _ => None)
    2 float_e (fun _ => Nothing) owner_k def_k [] (fun _ => None) OffsetProps.empty_db (fun _ => Nothing) (fun _ _ => Nothing) 0.
Definition answer_k : nat -> pos -> FindDefModel.res (list link) :=
  handle_goto_definition resolution (fun _ => source_k) (fun _ => asks_k) (fun _ _ => None) (fun _ => 0) (def_source root_k tree_k float_e (fun _ => Nothing)).
(** The names [b] and [a] of the method, [d] of the destructor, [v] of the setter, and [c] of the constructor. *)
Definition b_k : spot := spot_k [0; 5; 3; 2; 0; 0].
Definition a_k : spot := spot_k [0; 5; 3; 2; 0; 2].
Definition d_k : spot := spot_k [1; 4; 4; 2; 0; 0].
Definition v_k : spot := spot_k [1; 5; 4; 2; 1; 0; 0].
Definition c_k : spot := spot_k [1; 3; 3; 1; 0; 0].

Lemma alone_k : forall n, under root_k n -> start_of (plain n) < stop_of (plain n) -> alone root_k n.
Proof.
  intros n U L. split; [exact L|]. intros a Ua E. apply (nodup_image place_of (nodes_e root_k)); auto using under_nodes_e.
  apply nodupb_sound. vm_compute. reflexivity.
Qed.
Lemma alone_spot_k : forall l s, go root_k [] l = Some s -> start_of (plain (sp_node s)) < stop_of (plain (sp_node s)) -> alone root_k (sp_node s).
Proof. intros l s G L. apply alone_k; [|exact L]. exact (reach_under _ _ _ (go_reach l _ _ _ G)). Qed.
Definition method_k : spot := spot_k [0; 5].
Definition constructor_k : spot := spot_k [1; 3].
Definition destructor_k : spot := spot_k [1; 4].
Definition setter_k : spot := spot_k [1; 5; 4].
Definition block_k (l : list nat) : syn := sp_node (spot_k l).

Lemma in_method_k : in_definition root_k b_k method_k (block_k [0; 5; 3]).
Proof.
  split; [apply (alone_spot_k [0; 5]); [reflexivity|vm_compute; lia]|]. split; [reflexivity|]. split; [reflexivity|].
  eexists _, _. right. left. split; [reflexivity|]. split; [left; reflexivity|]. split; [vm_compute; reflexivity|].
  eexists _, _. split; [reflexivity|]. split; [vm_compute; reflexivity|]. split; [vm_compute; reflexivity|]. split; vm_compute; reflexivity.
Qed.
Lemma in_destructor_k : in_definition root_k d_k destructor_k (block_k [1; 4; 4]).
Proof.
  split; [apply (alone_spot_k [1; 4]); [reflexivity|vm_compute; lia]|]. split; [reflexivity|]. split; [reflexivity|].
  eexists _, _. right. left. split; [reflexivity|]. split; [vm_compute; auto 8|]. split; [vm_compute; reflexivity|].
  eexists _, _. split; [reflexivity|]. split; [vm_compute; reflexivity|]. split; [vm_compute; reflexivity|]. split; vm_compute; reflexivity.
Qed.
Lemma in_setter_k : in_definition root_k v_k setter_k (block_k [1; 5; 4; 2]).
Proof.
  split; [apply (alone_spot_k [1; 5; 4]); [reflexivity|vm_compute; lia]|]. split; [reflexivity|]. split; [reflexivity|].
  eexists _, _. right. right. split; [right; left; reflexivity|]. split; [exists setter_k; split; [reflexivity|left; reflexivity]|]. split.
  - intros g n I F. vm_compute in I. destruct I as [<-|[<-|[<-|[]]]]; vm_compute in F; try discriminate F. injection F as <-. reflexivity.
  - eexists _, _, _, _. split; [reflexivity|]. split; [vm_compute; reflexivity|]. split; [reflexivity|]. split; [vm_compute; reflexivity|]. split; [vm_compute; reflexivity|].
    split; [vm_compute; reflexivity|]. split; vm_compute; reflexivity.
Qed.
Ltac written_k := split; [|split; [|split]];
  [match goal with |- LowerSpec.everywhere _ ?y => let x := eval vm_compute in y in change y with x end; WrittenProps.tid
  |match goal with |- LowerSpec.everywhere _ ?y => let x := eval vm_compute in y in change y with x end; WrittenProps.tid
  |match goal with |- LowerSpec.everywhere _ ?y => let x := eval vm_compute in y in change y with x end; cbn [LowerSpec.everywhere map fold_right]; repeat split; vm_compute; discriminate
  |intros n H; vm_compute in H; injection H as <-; split;
   [match goal with |- LowerSpec.everywhere _ ?y => let x := eval vm_compute in y in change y with x end; WrittenProps.tid; destruct H; discriminate
   |match goal with |- LowerSpec.everywhere _ ?y => let x := eval vm_compute in y in change y with x end; cbn [LowerSpec.everywhere map fold_right]; repeat split]].
Lemma method_written_k : well_written root_k float_e (sp_node method_k) (block_k [0; 5; 3]).
Proof. written_k. Qed.
Lemma setter_written_k : well_written root_k float_e (sp_node setter_k) (block_k [1; 5; 4; 2]).
Proof. written_k. Qed.
Lemma constructor_written_k : well_written root_k float_e (sp_node constructor_k) (block_k [1; 3; 3]).
Proof. written_k. Qed.

(** The file and its answers: the local variable and the parameter of the method, the local variable of the destructor and the
    parameter of the setter are found. *)
Example C72_methods_nontrivial :
  in_definition root_k b_k method_k (block_k [0; 5; 3]) /\ in_definition root_k d_k destructor_k (block_k [1; 4; 4]) /\
  in_definition root_k v_k setter_k (block_k [1; 5; 4; 2]) /\
  map (answer_k 0) [Pos 2 24; Pos 2 28; Pos 6 23; Pos 7 39] =
    [Val [Link (Some (at_e 2 24 25)) 0 (at_e 2 21 22) (at_e 2 21 22)]; Val [Link (Some (at_e 2 28 29)) 0 (at_e 2 8 13) (at_e 2 12 13)];
     Val [Link (Some (at_e 6 23 24)) 0 (at_e 6 20 21) (at_e 6 20 21)]; Val [Link (Some (at_e 7 39 40)) 0 (at_e 7 30 35) (at_e 7 34 35)]].
Proof. split; [exact in_method_k|]. split; [exact in_destructor_k|]. split; [exact in_setter_k|]. vm_compute. reflexivity. Qed.

Lemma constructor_means_k : means_at root_k (sp_node constructor_k) (block_k [1; 3; 3]) (start_of (plain (sp_node c_k))) (s_text (sp_node c_k)) (Some (block_k [1; 3; 2; 1])).
Proof.
  split.
  - intros (b & H & E & _). inversion H as [n K|n y b' I Hb]; subst; [vm_compute in E; discriminate E|].
    change (WrittenSpec.statements (ts_of root_k (block_k [1; 3; 3]))) with [ts_of root_k (block_k [1; 3; 3; 1])] in I. destruct I as [<-|[]].
    inversion Hb as [n K|n y b' I Hc]; subst; [discriminate K|destruct I].
  - eexists. split.
    + eapply WrittenSpec.around_part; [left; reflexivity|]. apply WrittenSpec.around_own; [vm_compute; lia|vm_compute; discriminate|constructor].
    + vm_compute. reflexivity.
Qed.
Lemma interned_k : forall d, of_file tree_k d -> def_k (owner_k d) = d.
Proof.
  assert (T : top tree_k = [FEnumStruct 0; FMethodmap 0]) by (vm_compute; reflexivity).
  assert (S : map es_items (enum_structs tree_k) = [[ESField 0; ESMethod 0]]) by (vm_compute; reflexivity).
  assert (M : map mm_items (methodmaps tree_k) = [[MMMethod 1; MMMethod 2; MMProperty 0]]) by (vm_compute; reflexivity).
  assert (P : map (fun p => indices (pr_accessors p)) (properties tree_k) = [[3]]) by (vm_compute; reflexivity).
  revert T S M P. generalize tree_k. intros t T S M P d O. destruct d as [x|i j|i j|i j|i j]; cbn [of_file] in O.
  - rewrite T in O. destruct O as [<-|[<-|[]]]; reflexivity.
  - destruct O.
  - destruct O.
  - destruct O as (y & N & I). apply (map_nth_error es_items) in N. rewrite S in N. destruct i as [|[|?]]; try discriminate N. injection N as N. rewrite <- N in I.
    destruct I as [I|[I|[]]]; try discriminate I. injection I as <-. reflexivity.
  - destruct O as (y & N & I). apply (map_nth_error mm_items) in N. rewrite M in N. destruct i as [|[|?]]; try discriminate N. injection N as N. rewrite <- N in I.
    destruct I as [I|(p & pr & I & Np & J)].
    + destruct I as [I|[I|[I|[]]]]; try discriminate I; injection I as <-; reflexivity.
    + destruct I as [I|[I|[I|[]]]]; try discriminate I. injection I as <-. apply (map_nth_error (fun p => indices (pr_accessors p))) in Np. rewrite P in Np. injection Np as Np. rewrite <- Np in J.
      destruct J as [<-|[]]. reflexivity.
Qed.
(** A constructor and a destructor have the same name: the name of the methodmap. Members are kept by name, and the later one
    stays. So a name in the constructor is asked about in the destructor, and its parameter is not found; no other
    condition of C72_local_partial is broken. *)
Theorem C72_destructor_refuted : exists s c b n o v,
  AstIdSpec.proper (plain root_k) /\ ItemTreeModel.lower root_k = Some tree_k /\ file_def_map tree_k = Some defs_k /\ (forall d, of_file tree_k d -> def_k (owner_k d) = d) /\
  spot_in root_k s /\ plain_use s /\ nearest around (sp_up s) = Some c /\ s_kind (sp_node c) = k_methodmap_method_constructor /\ alone root_k (sp_node c) /\
  child_by_field_name "body" (sp_node c) = Some b /\ s_kind b = 201 /\ parent c = Some o /\ first_named root_k "M" = Some v /\ view_at v = place_of (sp_node o) /\
  well_written root_k float_e (sp_node c) b /\ means_at root_k (sp_node c) b (start_of (plain (sp_node s))) (s_text (sp_node s)) (Some n) /\
  method_at v "M" = Some (place_of (sp_node destructor_k)) /\ asks_k s = Nothing.
Proof.
  eexists c_k, constructor_k, (block_k [1; 3; 3]), (block_k [1; 3; 2; 1]), (spot_k [1]), _.
  split; [apply properb_sound; vm_compute; reflexivity|]. split; [vm_compute; reflexivity|]. split; [vm_compute; reflexivity|]. split.
  { exact interned_k. }
  split; [apply (go_reach [1; 3; 3; 1; 0; 0]); reflexivity|]. split.
  { split; [reflexivity|]. eexists _, _, _. split; [reflexivity|]. split; [vm_compute; intuition discriminate|vm_compute; discriminate]. }
  split; [reflexivity|]. split; [reflexivity|]. split; [apply (alone_spot_k [1; 3]); [reflexivity|vm_compute; lia]|]. split; [reflexivity|]. split; [reflexivity|]. split; [reflexivity|].
  split; [vm_compute; reflexivity|]. split; [vm_compute; reflexivity|]. split; [exact constructor_written_k|]. split; [exact constructor_means_k|]. split; vm_compute; reflexivity.
Qed.
Print Assumptions C72_destructor_refuted.
