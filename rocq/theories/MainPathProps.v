(** C70: the main file of a project. *)
From Coq Require Import List Ascii String Bool Arith Lia Permutation.
From Verif Require Import GraphModel GraphSpec GraphProps SaveModel SaveSpec SaveProofs MainPathModel MainPathSpec UrlSpec.
From Verif Require VfsModel UrlModel UrlProofs UrlProps SaveProps.
Import ListNotations.
Local Open Scope nat_scope.
Local Open Scope list_scope.

Notation run_vfs h v := (VfsModel.run VfsModel.empty h = VfsModel.Ok v).

Lemma reaches_last : forall ds is a b, reaches ds is a b -> a = b \/ exists c, includes_directly ds is c b.
Proof. intros ds is. induction 1 as [a|a b c D Re IH]; [left; reflexivity|]. right. destruct IH as [<-|IH]; [exists a; exact D|exact IH]. Qed.

(** For all files and includes, and all orders in which hash tables iterate: an address that leads to no file is refused; a file
    that no known file includes and that is not known has no project; any other is answered with the address of a file that
    starts a project with it. *)
Theorem C70_main : forall back h v ds is gs u,
  run_vfs h v -> found_in ds is gs -> in_vfs v ds is -> well_formed u ->
  (UrlModel.url_to_file_id v u = VfsModel.Ok None -> handle_project_main_path back v gs (Some u) = VfsModel.Ok NotAFile) /\
  forall f, UrlModel.url_to_file_id v u = VfsModel.Ok (Some f) ->
    (~ (known ds f \/ exists a, includes_directly ds is a f) -> handle_project_main_path back v gs (Some u) = VfsModel.Ok NoProject) /\
    (known ds f \/ (exists a, includes_directly ds is a f) ->
       exists w r, handle_project_main_path back v gs (Some u) = VfsModel.Ok (Main w) /\ starts ds is r f /\ address_of v w r).
Proof.
  intros back h v ds is gs u R F A W. unfold handle_project_main_path. split; [intros ->; reflexivity|]. intros f ->. cbn [VfsModel.bind]. split.
  - intros N. destruct (projects_for_file gs f) as [|r rs] eqn:E; [reflexivity|]. exfalso.
    assert (I : In r (projects_for_file gs f)) by (rewrite E; left; reflexivity). apply (projects_exact ds is gs f r F) in I.
    destruct I as [(K & _) Re]. apply reaches_last in Re. destruct Re as [<-|Re]; apply N; [exact K|right; exact Re].
  - intros K. destruct F as (g & adj & roots & fuel & F1 & F2 & F3 & F4 & F5).
    destruct (reached_by_root ds is g f F1 K) as (r0 & P0 & Q0).
    assert (F : found_in ds is gs) by (exists g, adj, roots, fuel; auto).
    assert (I0 : In r0 (projects_for_file gs f)) by (apply (projects_exact ds is gs f r0 F); split; assumption).
    destruct (projects_for_file gs f) as [|r rs] eqn:E; [destruct I0|].
    assert (I : In r (projects_for_file gs f)) by (rewrite E; left; reflexivity). apply (projects_exact ds is gs f r F) in I.
    destruct I as [P Q]. destruct (A r (proj1 P)) as (p & Fp & Pp).
    destruct (UrlProps.C69_back back h v r p R Fp Pp) as (w & E1 & _ & L & _). rewrite E1. cbn [VfsModel.bind].
    exists w, r. split; [reflexivity|]. split; [split; assumption|]. exists (map list_ascii_of_string p). split; [exact L|].
    rewrite UrlProofs.stored_back. exact Fp.
Qed.
Print Assumptions C70_main.

(** If only one file starts a project with [f], it is the answer whatever the order. *)
Theorem C70_one : forall back h v ds is gs u f r,
  run_vfs h v -> found_in ds is gs -> in_vfs v ds is -> well_formed u -> UrlModel.url_to_file_id v u = VfsModel.Ok (Some f) ->
  (forall x, starts ds is x f <-> x = r) ->
  exists w, handle_project_main_path back v gs (Some u) = VfsModel.Ok (Main w) /\ UrlModel.file_id_to_url back v r = VfsModel.Ok w.
Proof.
  intros back h v ds is gs u f r R F A W E H. unfold handle_project_main_path. rewrite E. cbn [VfsModel.bind].
  assert (Ir : In r (projects_for_file gs f)) by (apply (projects_exact ds is gs f r F), H; reflexivity).
  destruct (projects_for_file gs f) as [|x xs] eqn:Ex; [destruct Ir|].
  assert (Ix : In x (projects_for_file gs f)) by (rewrite Ex; left; reflexivity). apply (projects_exact ds is gs f x F) in Ix.
  assert (x = r) as -> by (apply H; exact Ix). destruct (A r (proj1 (proj1 Ix))) as (p & Fp & Pp).
  destruct (UrlProps.C69_back back h v r p R Fp Pp) as (w & E1 & _). exists w. rewrite E1. split; reflexivity.
Qed.
Print Assumptions C70_one.

(** A known file that no file includes is its own main file. *)
Theorem C70_self : forall back h v ds is gs u f,
  run_vfs h v -> found_in ds is gs -> in_vfs v ds is -> well_formed u -> UrlModel.url_to_file_id v u = VfsModel.Ok (Some f) ->
  known ds f -> (~ exists a, includes_directly ds is a f) ->
  exists w, handle_project_main_path back v gs (Some u) = VfsModel.Ok (Main w) /\ UrlModel.url_to_file_id v w = VfsModel.Ok (Some f).
Proof.
  intros back h v ds is gs u f R F A W E K N.
  destruct (C70_one back h v ds is gs u f f R F A W E) as (w & E1 & E2).
  - intros x. split.
    + intros [_ Q]. apply reaches_last in Q. destruct Q as [Q|Q]; [exact Q|contradiction].
    + intros ->. split; [|constructor]. split; [left; exact K|right; exact N].
  - exists w. split; [exact E1|]. destruct (A f (or_introl K)) as (p & Fp & Pp).
    destruct (UrlProps.C69_back back h v f p R Fp Pp) as (w' & E1' & _ & _ & C). rewrite E2 in E1'. injection E1' as <-.
    destruct (UrlProps.C69_finds h v u R W) as (o & Eo & Hf). rewrite E in Eo. assert (Eo' : o = Some f) by congruence.
    apply Hf in Eo'. destruct Eo' as (l & c & _ & _ & Cc). apply (C c Cc).
Qed.
Print Assumptions C70_self.

(** ** Where it is false *)

(** Finding: every file that includes something starts a project, and the first project found is the answer, whatever it starts
    with. a.sp includes b.inc, which includes c.inc. The main file of c.inc is a.sp or b.inc, as the hash table happens to
    iterate; the editor refuses to compile b.inc ("Not a .sp file"). The server itself takes c.inc as part of a.sp in both
    cases (C28). *)
Definition c70_history : list VfsModel.op :=
  [VfsModel.Set_ ["w"; "a.sp"]%string (Some []); VfsModel.Set_ ["w"; "b.inc"]%string (Some []); VfsModel.Set_ ["w"; "c.inc"]%string (Some [])].
Definition c70_docs : list (nat * extension) := [(0, Sp); (1, Inc); (2, Inc)].
Definition c70_incs (f : nat) : list (nat * extension) := match f with 0 => [(1, Inc)] | 1 => [(2, Inc)] | _ => [] end.
Definition c70_address (n : string) : UrlModel.url :=
  UrlModel.Url (list_ascii_of_string "file") None (Some [list_ascii_of_string "w"; list_ascii_of_string n]) None None.
Lemma c70_in_vfs : forall v, run_vfs c70_history v -> in_vfs v c70_docs c70_incs.
Proof.
  intros v R f H. vm_compute in R. injection R as <-.
  assert (Hf : f = 0 \/ f = 1 \/ f = 2).
  { destruct H as [K|(a & K & I)]; [cbn in K; intuition auto|]. cbn in K. destruct K as [<-|[<-|[<-|[]]]]; cbn in I; intuition auto. }
  destruct Hf as [->|[->| ->]]; (eexists; split; [reflexivity|]); repeat constructor; try discriminate; intros X; cbn in X; intuition discriminate.
Qed.
Theorem C70_main_refuted :
  exists v gs1 gs2 s1 s2,
    run_vfs c70_history v /\ found_in c70_docs c70_incs gs1 /\ found_in c70_docs c70_incs gs2 /\
    handle_project_main_path true v gs1 (Some (c70_address "c.inc")) = VfsModel.Ok (Main (c70_address "a.sp")) /\
    handle_project_main_path true v gs2 (Some (c70_address "c.inc")) = VfsModel.Ok (Main (c70_address "b.inc")) /\
    projet_subgraph gs1 2 = Some s1 /\ projet_subgraph gs2 2 = Some s2 /\ file_id (sg_root s1) = 0 /\ file_id (sg_root s2) = 0.
Proof.
  set (g := graph_query c70_docs c70_incs).
  eexists. exists (SaveProps.in_order c70_docs c70_incs), (rev (SaveProps.in_order c70_docs c70_incs)). do 2 eexists.
  split; [vm_compute; reflexivity|]. split; [apply SaveProps.in_order_found|]. split.
  { exists g, (targets (edges g)), (rev (find_roots g)), 4. split; [split; reflexivity|]. split; [intros n; reflexivity|].
    split; [apply Permutation_rev|]. split; [vm_compute; lia|]. vm_compute. reflexivity. }
  do 4 (split; [vm_compute; reflexivity|]). split; reflexivity.
Qed.
Print Assumptions C70_main_refuted.

(** The plugin a.sp and its include b.inc, which includes nothing; d.sp, which nothing includes. *)
Definition c70_docs2 : list (nat * extension) := [(0, Sp); (1, Inc); (2, Sp)].
Definition c70_incs2 (f : nat) : list (nat * extension) := match f with 0 => [(1, Inc)] | _ => [] end.
Example C70_nontrivial :
  exists v, run_vfs c70_history v /\
    (forall gs, found_in c70_docs2 c70_incs2 gs -> projects_for_file gs 1 = [0]) /\
    (forall gs, found_in c70_docs2 c70_incs2 gs ->
       handle_project_main_path true v gs (Some (c70_address "b.inc")) = VfsModel.Ok (Main (c70_address "a.sp"))) /\
    in_vfs v c70_docs c70_incs /\ well_formed (c70_address "b.inc").
Proof.
  eexists. split; [vm_compute; reflexivity|].
  assert (P : forall gs, found_in c70_docs2 c70_incs2 gs -> projects_for_file gs 1 = [0]).
  { intros gs F. assert (H : forall r, In r (projects_for_file gs 1) <-> r = 0).
    { intros r. rewrite (projects_exact _ _ gs 1 r F). split.
      - intros [(K & D) Q]. inversion Q as [a|a b c (K1 & D1) Re]; subst.
        + exfalso. destruct D as [(b & _ & I)|N]; [destruct I|]. apply N. exists 0. split; left; reflexivity.
        + cbn in K1. destruct K1 as [<-|[<-|[<-|[]]]]; [reflexivity|destruct D1|destruct D1].
      - intros ->. assert (D : includes_directly c70_docs2 c70_incs2 0 1) by (split; left; reflexivity). split.
        + split; [left; left; reflexivity|left; exists 1; exact D].
        + eapply reaches_step; [exact D|constructor]. }
    assert (N : NoDup (projects_for_file gs 1)).
    { destruct (found_roots _ _ gs F) as (N & _). unfold projects_for_file. clear -N. induction gs as [|g gs IH]; [constructor|].
      cbn [map] in N. inversion N as [|? ? N1 N2]; subst. cbn [filter]. destruct (contains_file g 1); [|apply IH; exact N2]. cbn [map]. constructor; [|apply IH; exact N2].
      intros I. apply N1. apply in_map_iff in I. destruct I as (x & X1 & X2). apply filter_In in X2. apply in_map_iff. exists x. split; [exact X1|apply X2]. }
    destruct (projects_for_file gs 1) as [|x [|y l]].
    - exfalso. apply (proj2 (H 0) eq_refl).
    - f_equal. apply H. left. reflexivity.
    - exfalso. assert (x = 0) by (apply H; left; reflexivity). assert (y = 0) by (apply H; right; left; reflexivity). subst. inversion N as [|? ? N1 _]. apply N1. left. reflexivity. }
  split; [exact P|]. split.
  - intros gs F. unfold handle_project_main_path. specialize (P gs F).
    match goal with |- context [UrlModel.url_to_file_id ?v ?u] => change (UrlModel.url_to_file_id v u) with (VfsModel.Ok (Some 1)) end.
    cbn [VfsModel.bind]. rewrite P. vm_compute. reflexivity.
  - split; [apply c70_in_vfs; vm_compute; reflexivity|]. discriminate.
Qed.
