(** C69: the address of a document names one file, and the address given to a file leads back to it. *)
From Coq Require Import List Ascii String Bool Arith NArith Lia.
From Verif Require Import PathsModel PathsSpec PathsProps VfsPathModel VfsPathSpec VfsPathProofs UrlModel UrlSpec UrlProofs.
From Verif Require VfsModel VfsProofs VfsProps.
Import ListNotations.
Local Open Scope list_scope.

(** No address makes the server panic, and the path it keeps has no "." or "..", no empty name and no slash in a name. *)
Theorem C69_paths : forall u, well_formed u ->
  exists o, vfs_path u = Ok o /\ (forall p, o = Some p -> proper_path p) /\
    (forall p, o = Some p <-> exists l, locates u l /\ p = stored l).
Proof.
  intros u W. destruct (segments u) as [segs|] eqn:E.
  - destruct (local_dec u) as [L|L].
    + assert (N : segs <> []) by (intros ->; apply W; exact E).
      exists (Some (stored (place segs))). split; [apply vfs_path_local; assumption|]. split.
      * intros p [= <-]. apply stored_proper, place_proper.
      * intros p. split.
        -- intros [= <-]. exists (place segs). split; [|reflexivity]. apply locates_place. split; [exact L|]. exists segs. split; [exact E|reflexivity].
        -- intros (l & Hl & ->). apply locates_place in Hl. destruct Hl as (_ & segs' & E' & ->). rewrite E in E'. injection E' as <-. reflexivity.
    + exists None. split; [apply vfs_path_other; left; exact L|]. split; [intros p H; discriminate H|]. intros p. split; [intros H; discriminate H|].
      intros (l & (Hl & _) & _). contradiction.
  - exists None. split; [apply vfs_path_other; right; exact E|]. split; [intros p H; discriminate H|]. intros p. split; [intros H; discriminate H|].
    intros (l & Hl & _). apply locates_place in Hl. destruct Hl as (_ & segs & E' & _). rewrite E in E'. discriminate E'.
Qed.
Print Assumptions C69_paths.

(** For all histories of the file system: an address is answered with a file exactly when it leads to the place of that file
    and the file has not been removed. It never panics. *)
Theorem C69_finds : forall h v u, VfsModel.run VfsModel.empty h = Ok v -> well_formed u ->
  exists o, url_to_file_id v u = Ok o /\
    forall i, o = Some i <-> exists l c, locates u l /\ VfsModel.file_path v i = Ok (stored l) /\ VfsModel.file_contents v i = Ok c.
Proof.
  intros h v u R W. destruct (C69_paths u W) as (o & E & _ & P).
  destruct (VfsProofs.run_inv h) as (v' & lg & R' & _ & I). assert (v' = v) as -> by congruence.
  unfold url_to_file_id. rewrite E. cbn [VfsModel.bind]. destruct o as [p|].
  - destruct (proj1 (P p) eq_refl) as (l & Hl & ->).
    rewrite (VfsProofs.inv_file_id _ _ _ (stored l) I). eexists. split; [reflexivity|]. intros i. split.
    + intros H. exists l. destruct (VfsSpec.current h (stored l)) as [c|] eqn:C; [|discriminate H]. exists c. split; [exact Hl|].
      unfold VfsModel.file_path, VfsModel.file_contents, VfsModel.get. rewrite (VfsProofs.index_of_nth _ _ _ H), (VfsProofs.i_data _ _ _ I _ _ H), C. split; reflexivity.
    + intros (m & c & Hm & F & G). assert (Em : stored m = stored l).
      { assert (Some (stored l) = Some (stored m)) by (apply P; exists m; split; [exact Hm|reflexivity]). congruence. }
      rewrite Em in F. unfold VfsModel.file_path in F. destruct (nth_error (VfsModel.interner v) i) as [q|] eqn:Q; [|discriminate F]. injection F as ->.
      pose proof (VfsProofs.index_of_nodup _ _ _ (VfsProofs.i_nodup _ _ _ I) Q) as X.
      unfold VfsModel.file_contents, VfsModel.get in G. rewrite (VfsProofs.i_data _ _ _ I _ _ X) in G. cbn [VfsModel.bind] in G.
      destruct (VfsSpec.current h (stored l)); [exact X|discriminate G].
  - exists None. split; [reflexivity|]. intros i. split; [intros H; discriminate H|]. intros (l & c & Hl & _).
    assert (N : None = Some (stored l)) by (apply P; exists l; split; [exact Hl|reflexivity]). discriminate N.
Qed.
Print Assumptions C69_finds.

(** However an address is spelled, what counts is the place it leads to. *)
Theorem C69_spellings : forall v u w l, well_formed u -> well_formed w -> locates u l -> locates w l -> url_to_file_id v u = url_to_file_id v w.
Proof.
  intros v u w l Wu Ww Lu Lw. destruct (C69_paths u Wu) as (o & E & _ & P). destruct (C69_paths w Ww) as (o' & E' & _ & P').
  unfold url_to_file_id. rewrite E, E'. f_equal. f_equal.
  rewrite (proj2 (P (stored l))), (proj2 (P' (stored l))); [reflexivity| |]; exists l; (split; [assumption|reflexivity]).
Qed.
Print Assumptions C69_spellings.

(** The address given to a file leads to its place; asked for, it answers with that very file. *)
Theorem C69_back : forall back h v i p, VfsModel.run VfsModel.empty h = Ok v -> VfsModel.file_path v i = Ok p -> proper_path p ->
  exists u, file_id_to_url back v i = Ok u /\ well_formed u /\ locates u (map list_ascii_of_string p) /\
    (forall c, VfsModel.file_contents v i = Ok c -> url_to_file_id v u = Ok (Some i)).
Proof.
  intros back h v i p R F P. pose proof (proper_spot p P) as S.
  set (l := map list_ascii_of_string p) in *.
  exists (Url (list_ascii_of_string "file") None (Some (address_segments back l)) None None).
  assert (E : file_id_to_url back v i = Ok (Url (list_ascii_of_string "file") None (Some (address_segments back l)) None None)).
  { unfold file_id_to_url. rewrite F. cbn [VfsModel.bind]. unfold url_from_abs_path. change (on_disk p) with (render l). rewrite (from_render back l S). reflexivity. }
  assert (W : well_formed (Url (list_ascii_of_string "file") None (Some (address_segments back l)) None None)).
  { intros X. cbn in X. injection X as X. exact (address_some back l X). }
  assert (L : locates (Url (list_ascii_of_string "file") None (Some (address_segments back l)) None None) l).
  { apply locates_place. split; [left; reflexivity|]. exists (address_segments back l). split; [reflexivity|]. symmetry. apply place_address. exact S. }
  split; [exact E|]. split; [exact W|]. split; [exact L|]. intros c C.
  destruct (C69_finds h v _ R W) as (o & Eo & H). rewrite Eo. f_equal. apply H. exists l, c. split; [exact L|]. split; [|exact C].
  rewrite F. f_equal. unfold l. symmetry. apply stored_back.
Qed.
Print Assumptions C69_back.

(** Two files never have the same address, not even as text. *)
Theorem C69_apart : forall back h v i j p q u w, VfsModel.run VfsModel.empty h = Ok v ->
  VfsModel.file_path v i = Ok p -> proper_path p -> VfsModel.file_path v j = Ok q -> proper_path q ->
  file_id_to_url back v i = Ok u -> file_id_to_url back v j = Ok w -> as_str u = as_str w -> i = j.
Proof.
  intros back h v i j p q u w R Fp Pp Fq Pq Eu Ew E.
  unfold file_id_to_url in Eu, Ew. rewrite Fp in Eu. rewrite Fq in Ew. cbn [VfsModel.bind] in Eu, Ew. unfold url_from_abs_path in Eu, Ew.
  change (on_disk p) with (render (map list_ascii_of_string p)) in Eu. change (on_disk q) with (render (map list_ascii_of_string q)) in Ew.
  pose proof (proper_spot p Pp) as Sp. pose proof (proper_spot q Pq) as Sq.
  rewrite (from_render back _ Sp) in Eu. rewrite (from_render back _ Sq) in Ew. injection Eu as <-. injection Ew as <-.
  unfold as_str in E. cbn [scheme segments] in E. apply app_inv_head, app_inv_head in E. rewrite !flat_slash in E by apply address_some. injection E as E.
  pose proof (written_address back (map list_ascii_of_string p)) as Wp. pose proof (written_address back (map list_ascii_of_string q)) as Wq.
  rewrite E in Wp. apply written_split in Wp. apply written_split in Wq. rewrite Wp in Wq.
  apply (address_inj back _ _ Sp Sq) in Wq. assert (p = q) as <- by (rewrite <- (stored_back p), <- (stored_back q), Wq; reflexivity).
  destruct (VfsProofs.run_inv h) as (v' & lg & R' & _ & I). assert (v' = v) as -> by congruence.
  unfold VfsModel.file_path in Fp, Fq. destruct (nth_error (VfsModel.interner v) i) as [a|] eqn:A; [|discriminate Fp].
  destruct (nth_error (VfsModel.interner v) j) as [b|] eqn:B; [|discriminate Fq]. injection Fp as ->. injection Fq as ->.
  apply (VfsProofs.index_of_nodup _ _ _ (VfsProofs.i_nodup _ _ _ I)) in A. apply (VfsProofs.index_of_nodup _ _ _ (VfsProofs.i_nodup _ _ _ I)) in B. congruence.
Qed.
Print Assumptions C69_apart.

(** The text of an address can be read by the editor in one way only, and holds no byte that would end the path. *)
Theorem C69_text : forall back v i p u, VfsModel.file_path v i = Ok p -> proper_path p ->
  back = true \/ Forall (fun n => ~ In "\"%char (list_ascii_of_string n)) p ->
  file_id_to_url back v i = Ok u ->
  exists segs, segments u = Some segs /\ reads (as_str u) segs /\ forall other, reads (as_str u) other -> other = segs.
Proof.
  intros back v i p u F P B E. unfold file_id_to_url in E. rewrite F in E. cbn [VfsModel.bind] in E. unfold url_from_abs_path in E.
  change (on_disk p) with (render (map list_ascii_of_string p)) in E. pose proof (proper_spot p P) as S. rewrite (from_render back _ S) in E.
  set (l := map list_ascii_of_string p) in *.
  assert (Eu : u = Url (list_ascii_of_string "file") None (Some (address_segments back l)) None None) by congruence. subst u. clear E. exists (address_segments back l). split; [reflexivity|].
  assert (T : as_str (Url (list_ascii_of_string "file") None (Some (address_segments back l)) None None) = list_ascii_of_string "file:///" ++ join_pieces (address_segments back l)).
  { unfold as_str. cbn [scheme segments]. rewrite flat_slash by apply address_some. reflexivity. }
  rewrite T. split.
  - exists (join_pieces (address_segments back l)). split; [reflexivity|]. split; [apply written_address|].
    assert (A : Forall (Forall in_address) (address_segments back l)).
    { assert (G : forall m, back = true \/ Forall (fun x => ~ In "\"%char x) m -> Forall (Forall in_address) (map (percent_encode back) m)).
      { induction m as [|x m IH]; intros H; [constructor|]. cbn [map]. constructor.
        - apply encode_in. destruct H as [H|H]; [left; exact H|right; inversion H; assumption].
        - apply IH. destruct H as [H|H]; [left; exact H|right; inversion H; assumption]. }
      assert (H : back = true \/ Forall (fun x => ~ In "\"%char x) l).
      { destruct B as [B|B]; [left; exact B|right]. unfold l. apply Forall_map. exact B. }
      unfold address_segments. destruct l as [|x m]; [constructor; [constructor|constructor]|]. apply G. exact H. }
    clear -A. revert A. generalize (address_segments back l) as segs. induction segs as [|s segs IH]; intros A; [constructor|].
    inversion A as [|? ? A1 A2]; subst. destruct segs as [|s' segs]; [exact A1|].
    change (join_pieces (s :: s' :: segs)) with (s ++ slash :: join_pieces (s' :: segs)). apply Forall_app. split; [exact A1|]. constructor; [|apply IH; exact A2].
    split; [vm_compute; split; discriminate|cbn; intuition discriminate].
  - intros other (q & Q1 & Q2 & _). apply app_inv_head in Q1. subst q. apply written_split in Q2. rewrite <- Q2.
    apply written_split. apply written_address.
Qed.
Print Assumptions C69_text.

(** ** Where it is false *)

(** Finding: the scheme is not looked at. A document that is not a file (an untitled one, or an old version shown by a version
    control system) is taken for the file on disk whose path it bears: what is done to it is done to that file. *)
Theorem C69_scheme_refuted :
  (forall v s u, url_to_file_id v (Url s (host u) (segments u) (query u) (fragment u)) = url_to_file_id v u) /\
  exists h v u i, VfsModel.run VfsModel.empty h = Ok v /\ scheme u = list_ascii_of_string "untitled" /\ url_to_file_id v u = Ok (Some i).
Proof.
  split; [intros v s u; reflexivity|].
  exists [VfsModel.Set_ ["w"; "a.sp"]%string (Some [97%N])]. eexists.
  exists (Url (list_ascii_of_string "untitled") None (Some (map list_ascii_of_string ["w"; "a.sp"]%string)) None None), 0.
  split; [vm_compute; reflexivity|]. split; reflexivity.
Qed.
Print Assumptions C69_scheme_refuted.

(** A file whose name has a space, a percent sign and a letter outside ASCII, its address, and the same place spelled otherwise. *)
Definition c69_name : string := ("my 5% pl" ++ String (ascii_of_N 195) (String (ascii_of_N 169) ".sp"))%string.
Definition c69_history : list VfsModel.op := [VfsModel.Set_ ["w"; "b.sp"]%string (Some []); VfsModel.Set_ ["w"%string; c69_name] (Some [97%N])].
Definition c69_segments (s : list string) : url := Url (list_ascii_of_string "file") (Some (list_ascii_of_string "localhost")) (Some (map list_ascii_of_string s)) None None.
Example C69_nontrivial :
  exists v u, VfsModel.run VfsModel.empty c69_history = Ok v /\ file_id_to_url true v 1 = Ok u /\
    as_str u = list_ascii_of_string "file:///w/my%205%25%20pl%C3%A9.sp" /\
    url_to_file_id v u = Ok (Some 1) /\
    url_to_file_id v (c69_segments ["x"; ""; ".."; "w%2fmy 5%25 pl%c3%A9%2Esp"]%string) = Ok (Some 1) /\
    url_to_file_id v (c69_segments ["w"; "my 5% pl%c3%A9.sp"]%string) = Ok (Some 1) /\
    url_to_file_id v (c69_segments ["w"; "my%205%25%20ple.sp"]%string) = Ok None /\
    proper_path ["w"%string; c69_name].
Proof.
  do 2 eexists. split; [vm_compute; reflexivity|]. split; [vm_compute; reflexivity|]. do 5 (split; [vm_compute; reflexivity|]).
  repeat constructor; try discriminate; intros H; cbn in H; intuition discriminate.
Qed.
