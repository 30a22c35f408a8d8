(** C72: a concrete case of a member, a method and a constructor under the cursor. *)
From Coq Require Import List ZArith String Bool Arith Lia.
From Verif Require Import PreTypes PosModel PosSpec AstIdModel AstIdSpec AstIdProps TypeRefModel ItemTreeModel ItemTreeSpec FindDefModel FindDefSpec FindDefProofs FindDefProps GotoModel GotoProofs GotoProps CursorModel CursorSpec CursorProps.
From Verif Require OffsetProps LowerModel LowerSpec LowerProps LowerHir WrittenSpec WrittenLower WrittenProps OffsetModel HirModel HirSpec HirNames SaidSpec SaidProps MemberSpec.
Import ListNotations.
Local Open Scope string_scope.
Local Open Scope nat_scope.
Local Open Scope list_scope.

(** [p] is of the enum struct [S], and in the inner block of the methodmap [M]. *)
Definition text_m : string := "void f(S p) {" ++ nl ++ "  p.x = 1;" ++ nl ++ "  { M p; p.m(new M()); }" ++ nl ++ "}" ++ nl.
Definition leaf_m (k s e : nat) : syn := Syn k s e (substring s (e - s) text_m) [].
Definition params_m : syn := Syn 147 6 11 "" [("", leaf_m 2 6 7); ("", Syn 148 7 10 "S p" [("type", leaf_m 1 7 8); ("name", leaf_m 1 9 10)]); ("", leaf_m 3 10 11)].
Definition field_m : syn := Syn 225 16 19 "" [("target", leaf_m 1 16 17); ("", leaf_m 108 17 18); ("field", leaf_m 1 18 19)].
Definition assign_m : syn := Syn 210 16 24 "" [("", Syn 216 16 23 "" [("left", field_m); ("operator", leaf_m 45 20 21); ("right", leaf_m 115 22 23)]); ("", leaf_m 105 23 24)].
Definition declare_m : syn := Syn 153 29 33 "" [("type", leaf_m 1 29 30); ("", Syn 156 31 32 "p" [("name", leaf_m 1 31 32)]); ("", leaf_m 105 32 33)].
Definition new_m : syn := Syn 159 38 45 "" [("", leaf_m 55 38 41); ("class", leaf_m 1 42 43); ("arguments", Syn 218 43 45 "" [("", leaf_m 2 43 44); ("", leaf_m 3 44 45)])].
Definition callee_m : syn := Syn 225 34 37 "" [("target", leaf_m 1 34 35); ("", leaf_m 108 35 36); ("field", leaf_m 1 36 37)].
Definition call_m : syn := Syn 217 34 46 "" [("function", callee_m); ("arguments", Syn 218 37 46 "" [("", leaf_m 2 37 38); ("", new_m); ("", leaf_m 3 45 46)])].
Definition inner_m : syn := Syn 201 27 49 "" [("", leaf_m 68 27 28); ("", declare_m); ("", Syn 210 34 47 "" [("", call_m); ("", leaf_m 105 46 47)]); ("", leaf_m 69 48 49)].
Definition body_m : syn := Syn 201 12 51 "" [("", leaf_m 68 12 13); ("", assign_m); ("", inner_m); ("", leaf_m 69 50 51)].
Definition function_m : syn := Syn 144 0 51 "" [("returnType", leaf_m 83 0 4); ("name", leaf_m 1 5 6); ("parameters", params_m); ("body", body_m)].
Definition root_m : syn := Syn 130 0 52 text_m [("", function_m)].
Definition source_m : source := Source text_m root_m [] [].
Definition tree_m : itree := match ItemTreeModel.lower root_m with Some t => t | None => empty_tree end.
Definition map_m : FindDefModel.def_map := match file_def_map tree_m with Some m => m | None => DefMap [] [] [] end.
Definition spot_m (l : list nat) : spot := match go root_m [] l with Some s => s | None => Spot root_m [] end.
Definition maps_m : list HirModel.def_map := SaidProps.said_maps.
Definition asks_m (other_def : OffsetModel.found_def -> FindDefModel.res resolution) : spot -> FindDefModel.res resolution :=
  asks (fun _ => source_m) 0 tree_m map_m (fun _ _ _ => Nothing) (fun _ _ _ => Nothing) (fun _ => None) (fun _ _ => Nothing) (fun _ => Nothing) (fun _ _ => None) (fun _ _ _ => None)
    2 float_e (fun _ => Nothing) (fun _ => 0) (fun _ => Top (FFunction 0)) maps_m (fun _ => None) SaidProps.said_db other_def (fun _ _ => Nothing) 0.
(** What is found, as a number. *)
Definition shown_m (d : OffsetModel.found_def) : FindDefModel.res resolution :=
  match d with OffsetModel.FAttribute a => Val (RFile a) | OffsetModel.FFunction m => Val (RFile (100 + m)) | _ => Nothing end.
Definition x_m : spot := spot_m [0; 3; 1; 0; 0; 2].
Definition m_m : spot := spot_m [0; 3; 2; 2; 0; 0; 2].
Definition new_name_m : spot := spot_m [0; 3; 2; 2; 0; 1; 1; 1].

Lemma alone_m : forall n, under root_m n -> start_of (plain n) < stop_of (plain n) -> alone root_m n.
Proof.
  intros n U L. split; [exact L|]. intros a Ua E. apply (nodup_image place_of (nodes_e root_m)); auto using under_nodes_e.
  apply nodupb_sound. vm_compute. reflexivity.
Qed.
Lemma definition_m : forall s, nearest around (sp_up s) = Some (spot_m [0]) -> in_definition root_m s (spot_m [0]) body_m.
Proof.
  intros s N. split; [apply alone_m; [eapply under_kid; [left; reflexivity|constructor]|vm_compute; lia]|]. split; [reflexivity|]. split; [reflexivity|].
  eexists _, _. left. split; [exact N|]. split; [reflexivity|]. split; [vm_compute; reflexivity|]. split; [vm_compute; reflexivity|]. split; reflexivity.
Qed.
Lemma well_written_m : well_written root_m float_e (sp_node (spot_m [0])) body_m.
Proof.
  split; [|split; [|split]].
  - let x := eval vm_compute in (ts_of root_m body_m) in change (ts_of root_m body_m) with x. WrittenProps.tid.
  - let x := eval vm_compute in (ts_of root_m body_m) in change (ts_of root_m body_m) with x. WrittenProps.tid.
  - let x := eval vm_compute in (ts_of root_m body_m) in change (ts_of root_m body_m) with x. cbn [LowerSpec.everywhere map fold_right]. repeat split; vm_compute; first [discriminate|right; reflexivity].
  - intros n H. vm_compute in H. injection H as <-. split.
    + match goal with |- LowerSpec.everywhere _ ?y => let x := eval vm_compute in y in change y with x end. WrittenProps.tid; destruct H; discriminate.
    + match goal with |- LowerSpec.everywhere _ ?y => let x := eval vm_compute in y in change y with x end. cbn [LowerSpec.everywhere map fold_right]. repeat split.
Qed.
Lemma regular_m : forall x, of_file tree_m x -> def_node root_m tree_m (fun _ => Nothing) x = Val (sp_node (spot_m [0])) ->
  regular_in (fun _ => source_m) 0 tree_m float_e (fun _ => Nothing) (fun _ => 0) maps_m (fun _ => None) SaidProps.said_db x.
Proof.
  intros x X _ i st w B W types d v I.
  assert (T : top tree_m = [FFunction 0]) by (vm_compute; reflexivity). destruct x as [x| | | |]; cbn [of_file] in X; try contradiction;
    [|destruct X as (y & X & _); vm_compute in X; destruct es; discriminate X|destruct X as (y & X & _); vm_compute in X; destruct mm; discriminate X].
  rewrite T in X. clear T. destruct X as [<-|[]]. vm_compute in B. injection B as <- <-. vm_compute in W. injection W as <-. exact (SaidProps.said_regular d v I).
Qed.

Ltac sub_m := eapply SaidSpec.sub_part; [vm_compute; reflexivity| |].
Lemma places_m :
  (exists d, expression_at root_m float_e (sp_node (spot_m [0])) body_m field_m (sp_node x_m) d) /\
  (exists d, expression_at root_m float_e (sp_node (spot_m [0])) body_m call_m (sp_node m_m) d) /\
  (exists d, expression_at root_m float_e (sp_node (spot_m [0])) body_m new_m (sp_node new_name_m) d).
Proof.
  split; [|split]; eexists; (split; [|vm_compute; lia]).
  - eapply SaidSpec.under_part; [left; reflexivity|]. eapply SaidSpec.under_expr; [left; reflexivity|]. sub_m; [left; reflexivity|]. sub_m; [left; reflexivity|]. apply SaidSpec.sub_here.
  - eapply SaidSpec.under_part; [right; left; reflexivity|]. eapply SaidSpec.under_part; [right; left; reflexivity|]. eapply SaidSpec.under_expr; [left; reflexivity|].
    sub_m; [left; reflexivity|]. apply SaidSpec.sub_here.
  - eapply SaidSpec.under_part; [right; left; reflexivity|]. eapply SaidSpec.under_part; [right; left; reflexivity|]. eapply SaidSpec.under_expr; [left; reflexivity|].
    sub_m; [left; reflexivity|]. sub_m; [right; left; reflexivity|]. apply SaidSpec.sub_here.
Qed.

(** [x] is the field of the enum struct, [m] the method and [M] the constructor of the methodmap. *)
Example C72_members_nontrivial :
  (behind_dot x_m field_m (leaf_m 1 16 17) /\ not_called x_m) /\ (behind_dot m_m callee_m (leaf_m 1 34 35) /\ called m_m call_m callee_m) /\ behind_new new_name_m new_m /\
  map (asks_m shown_m) [x_m; m_m; new_name_m] = [Val (RFile 1); Val (RFile 105); Val (RFile 106)].
Proof.
  split; [|split; [|split]].
  - split; [|vm_compute; discriminate]. split; [reflexivity|]. eexists _, _. repeat split; reflexivity.
  - split; [split; [reflexivity|]; eexists _, _; repeat split; reflexivity|]. eexists _, _, _. repeat split. eexists. reflexivity.
  - split; [reflexivity|]. eexists _, _. repeat split. eexists. reflexivity.
  - vm_compute. reflexivity.
Qed.
(** The first as a case of the theorem: whatever is done with what is found, the field of the struct is asked for. *)
Example C72_member_instance : forall other_def r, asks_m other_def x_m = Val r -> exists a ty u,
  MemberSpec.attribute_of SaidProps.said_db (HirModel.resolve_ident (HirNames.owner_resolver maps_m None)) ty "x" a u /\ other_def (OffsetModel.FAttribute a) = Val r.
Proof.
  intros other_def r H. destruct places_m as ((d & P) & _). destruct C72_members_nontrivial as ((B & N) & _).
  assert (Pr : AstIdSpec.proper (plain root_m)) by (apply properb_sound; vm_compute; reflexivity).
  assert (Lo : ItemTreeModel.lower root_m = Some tree_m) by (vm_compute; reflexivity).
  assert (Ma : file_def_map tree_m = Some map_m) by (vm_compute; reflexivity).
  assert (Re : spot_in root_m x_m) by (apply (go_reach [0; 3; 1; 0; 0; 2]); reflexivity).
  destruct (C72_member_partial (fun _ => source_m) 0 tree_m map_m (fun _ _ _ => Nothing) (fun _ _ _ => Nothing) (fun _ => None) (fun _ _ => Nothing) (fun _ => Nothing) (fun _ _ => None) (fun _ _ _ => None)
    2 float_e (fun _ => Nothing) (fun _ => 0) (fun _ => Top (FFunction 0)) maps_m (fun _ => None) SaidProps.said_db other_def (fun _ _ => Nothing)
    Pr Lo Ma x_m (spot_m [0]) body_m Re (definition_m x_m eq_refl) well_written_m field_m (leaf_m 1 16 17) d B N P regular_m) as (x & k & st & e & look & _ & _ & _ & _ & I).
  destruct (proj1 (I r) H) as (a & ty & u & _ & A & Q). exists a, ty, u. split; [exact A|exact Q].
Qed.
