(** C71: finding included files while files and settings change. *)
From Coq Require Import List NArith Bool String Arith Lia Sorted.
From Verif Require Import VfsModel VfsSpec VfsProofs LineEndSpec Utf8 SyncModel SyncSpec SyncProofs SyncWorld SyncProps
  LifeModel LifeSpec LifeProofs.
Import ListNotations.
Local Open Scope string_scope.
Local Open Scope nat_scope.
Local Open Scope list_scope.

Lemma drained_core : forall dirs h s, live (init dirs) (h ++ [Files Drain]) = Ok s -> core (files_of h ++ [Drain]) [] s.
Proof.
  intros dirs h s H. destruct (live_reached _ _ _ H) as (h1 & b & R).
  destruct (reached_drain _ _ _ _ _ R) as (-> & ->). apply R.
Qed.

(** Changed settings leave the texts alone: C08_text_partial for these histories. *)
Theorem C71_text_partial : forall dirs h s p,
  live (init dirs) (h ++ [Files Drain]) = Ok s -> ~ flickers true (files_of h ++ [Drain]) p ->
  holds (contents_after (files_of h) p) (analysis_text s p).
Proof.
  intros dirs h s p H F. rewrite <- contents_drain. apply (c_text _ _ _ (drained_core _ _ _ H)). exact F.
Qed.
Print Assumptions C71_text_partial.

(** And the known files are all existing ones with a SourcePawn extension, also those in no
    configured directory. *)
Theorem C71_known : forall dirs h s, live (init dirs) (h ++ [Files Drain]) = Ok s ->
  forall i e, In (i, e) (known_files (st_db s)) <->
    exists p, file_id_of (st_vfs s) p = Ok (Some i) /\ contents_after (files_of h) p <> None /\ sourcepawn_file p e.
Proof.
  intros dirs h s H i e. pose proof (drained_core _ _ _ H) as W.
  rewrite (c_known _ _ _ W). destruct (c_inv _ _ _ W) as (l & I & _). rewrite app_nil_r in I.
  split; intros (p & H1 & H2 & H3); exists p; apply path_extension_file in H3.
  - rewrite there_drain in H2. apply there_not_none in H2. split; [|split; [exact H2|exact H3]].
    rewrite (inv_file_id _ _ _ p I), contents_drain, H1. destruct (contents_after (files_of h) p); [reflexivity|congruence].
  - split; [eapply file_id_index; eauto|]. split; [|exact H3]. rewrite there_drain. apply there_not_none. exact H2.
Qed.
Print Assumptions C71_known.

Lemma offers_drain : forall h q c t, offers (h ++ [Drain]) q c t <-> offers h q c t.
Proof. intros. unfold offers. rewrite contents_drain. reflexivity. Qed.
Lemma first_drain : forall h q cs t, first_offer (h ++ [Drain]) q cs t <-> first_offer h q cs t.
Proof.
  intros h q cs. induction cs as [|c cs IH]; intros t; [split; intros H; inversion H|].
  split; intros H; inversion H as [c0 cs0 u Ho|c0 cs0 u Hn Hl]; subst;
    first [apply o_here; apply offers_drain; exact Ho
          |apply o_later; [intros u Hu; apply (Hn u); apply offers_drain; exact Hu|apply IH; exact Hl]].
Qed.

(** Once the settings are taken over, an include in a file of the configured directories is found
    where it should be, and the search does not crash.
    Missing: settings that are not taken over yet (C71_added_refuted), files that are in no configured
    directory any more (C71_removed_refuted), and files that go to and fro between two drains
    (C71_to_and_fro_refuted). *)
Theorem C71_found_partial : forall dirs h s p home i quoted q,
  live (init dirs) (h ++ [Files Drain]) = Ok s -> calm (h ++ [Files Drain]) -> taken_over (h ++ [Files Drain]) ->
  file_id_of (st_vfs s) p = Ok (Some i) -> last_containing (dirs_after dirs h) p home ->
  exists o, find_include (st_db s) i quoted q = Ok o /\
    forall j, o = Some j <->
      exists t, meant (files_of h) (dirs_after dirs h) home p quoted q t /\ file_id_of (st_vfs s) t = Ok (Some j).
Proof.
  intros dirs h s p home i quoted q H C T Ei Hh.
  destruct (taken_over_settled _ _ _ H T C) as (h1 & b & R & S).
  destruct (reached_drain _ _ _ _ _ R) as (-> & ->). pose proof (drained_core _ _ _ H) as W.
  rewrite dirs_app in S. cbn [dirs_after] in S.
  destruct (c_inv _ _ _ W) as (l & I & _). rewrite app_nil_r in I.
  assert (Hp : there (files_of h ++ [Drain]) p = true).
  { apply there_not_none. intros N. rewrite (inv_file_id _ _ _ p I), N in Ei. discriminate. }
  assert (Ix : index_of p (interner (st_vfs s)) = Some i) by (eapply file_id_index; eauto).
  destruct (settled_find _ _ s p home i quoted q S W Hp Ix Hh) as (o & E & Ho). exists o. split; [exact E|].
  intros j. rewrite Ho. unfold meant. split; intros (t & Ht & Hj); exists t.
  - split; [apply first_drain; exact Ht|]. destruct (first_in _ _ _ _ Ht) as (c & _ & _ & Ex & _).
    rewrite (inv_file_id _ _ _ t I), Hj. destruct (contents_after (files_of h ++ [Drain]) t); [reflexivity|congruence].
  - split; [apply first_drain; exact Ht|]. eapply file_id_index; eauto.
Qed.
Print Assumptions C71_found_partial.

(** At any time, as long as no drain found a file outside the configured directories, searching from a
    known file does not crash, whether the settings are taken over or not. *)
Theorem C71_no_crash_partial : forall dirs h s, live (init dirs) h = Ok s -> calm h -> covered dirs h ->
  forall i e quoted q, In (i, e) (known_files (st_db s)) -> exists o, find_include (st_db s) i quoted q = Ok o.
Proof.
  intros dirs h s H C V i e quoted q Hk. destruct (live_homed _ _ _ H C V) as (h1 & b & R & Hh).
  destruct R as (_ & _ & _ & W & _). apply (c_known _ _ _ W) in Hk. destruct Hk as (p & H1 & H2 & _).
  unfold find_include. destruct quoted; cbn [bind]; [|eauto].
  destruct (homed_look h1 s p i q Hh H2 H1) as (o & ->). cbn [bind]. eauto.
Qed.
Print Assumptions C71_no_crash_partial.

(** * Histories *)
Definition lib1 : path := ["lib1"].
Definition lib2 : path := ["lib2"].
Definition x_inc : path := ["lib1"; "x.inc"].
Definition y_inc : path := ["lib2"; "sub"; "y.inc"].
Definition z_inc : path := ["lib2"; "z.inc"].
Definition some_text : option contents := Some [97%N].

(** A second library is configured together with its files: a.sp finds <sub/y.inc>, y.inc finds "../z.inc". *)
Definition second_lib : list happening :=
  [Files (Update a_sp some_text); Files (Update x_inc some_text); Files Drain;
   Configure [ws; lib1; lib2]; Files (Update y_inc some_text); Files (Update z_inc some_text)].

Definition touches (p : path) (h : list event) : nat :=
  List.length (filter (fun e => match e with Update q _ => if path_eq_dec q p then true else false | Drain => false end) h).
Lemma calm_by_count : forall h, (forall p, touches p (files_of h) < 3) -> calm h.
Proof. intros h H b p. apply no_flicker_by_count. apply H. Qed.

Example C71_nontrivial :
  (exists s, live (init [ws; lib1]) (second_lib ++ [Files Drain]) = Ok s /\
     file_id_of (st_vfs s) a_sp = Ok (Some 0) /\ file_id_of (st_vfs s) y_inc = Ok (Some 2) /\
     find_include (st_db s) 0 false ["sub"; "y.inc"] = Ok (Some 2) /\
     find_include (st_db s) 2 true [".."; "z.inc"] = Ok (Some 3) /\
     find_include (st_db s) 2 true ["z.inc"] = Ok (Some 3) /\
     find_include (st_db s) 0 true ["."; "x.inc"] = Ok (Some 1)) /\
  calm (second_lib ++ [Files Drain]) /\ taken_over (second_lib ++ [Files Drain]) /\
  covered [ws; lib1] (second_lib ++ [Files Drain]) /\
  last_containing (dirs_after [ws; lib1] second_lib) y_inc lib2 /\
  meant (files_of second_lib) (dirs_after [ws; lib1] second_lib) lib2 y_inc true [".."; "z.inc"] z_inc.
Proof.
  split; [eexists; split; [vm_compute; reflexivity|]; vm_compute; repeat split|].
  split; [|split; [|split; [|split]]].
  - apply calm_by_count. intros p. unfold touches. cbn [second_lib app files_of filter].
    destruct (path_eq_dec a_sp p) as [<-|]; [vm_compute; lia|]. destruct (path_eq_dec x_inc p) as [<-|]; [vm_compute; lia|].
    destruct (path_eq_dec y_inc p) as [<-|]; [vm_compute; lia|]. destruct (path_eq_dec z_inc p) as [<-|]; vm_compute; lia.
  - right. exists second_lib, []. split; [reflexivity|]. split.
    + exists [Update a_sp some_text; Update x_inc some_text; Drain], [Update y_inc some_text; Update z_inc some_text], y_inc.
      split; [reflexivity|]. split; [right; exists [Update a_sp some_text; Update x_inc some_text]; reflexivity|].
      split; [intros [X|[X|[]]]; discriminate X|discriminate].
    + intros (d & []).
  - assert (G : forall h0 h1, second_lib ++ [Files Drain] = h0 ++ Files Drain :: h1 ->
      h0 = firstn 2 second_lib \/ h0 = second_lib).
    { intros h0 h1 E. do 7 (destruct h0 as [|? h0]; [injection E; intros; first [discriminate|subst; auto]|injection E as <- E]).
      destruct h0; discriminate E. }
    intros h0 h1 E p Hp. destruct (G h0 h1 E) as [-> | ->].
    + destruct (path_eq_dec a_sp p) as [<-|N1]; [exists ws; split; [left; reflexivity|eexists; reflexivity]|].
      destruct (path_eq_dec x_inc p) as [<-|N2]; [exists lib1; split; [right; left; reflexivity|eexists; reflexivity]|].
      exfalso. apply Hp. unfold contents_after. cbn [firstn second_lib files_of map as_op].
      change [Set_ a_sp some_text; Set_ x_inc some_text] with ([Set_ a_sp some_text] ++ [Set_ x_inc some_text]).
      rewrite current_set, upd_other by exact N2. change [Set_ a_sp some_text] with ([] ++ [Set_ a_sp some_text]).
      rewrite current_set, upd_other by exact N1. reflexivity.
    + destruct (path_eq_dec a_sp p) as [<-|N1]; [exists ws; split; [left; reflexivity|eexists; reflexivity]|].
      destruct (path_eq_dec x_inc p) as [<-|N2]; [exists lib1; split; [right; left; reflexivity|eexists; reflexivity]|].
      destruct (path_eq_dec y_inc p) as [<-|N3]; [exists lib2; split; [right; right; left; reflexivity|eexists; reflexivity]|].
      destruct (path_eq_dec z_inc p) as [<-|N4]; [exists lib2; split; [right; right; left; reflexivity|eexists; reflexivity]|].
      exfalso. apply Hp. destruct (there (files_of second_lib) p) eqn:T.
      * destruct (there_updated _ _ T) as (c & Hc). simpl in Hc.
        repeat (destruct Hc as [Hc|Hc]; [try discriminate Hc; injection Hc; intros; congruence|]). destruct Hc.
      * unfold there in T. destruct (contents_after (files_of second_lib) p); [discriminate|reflexivity].
  - exists [ws; lib1], []. split; [reflexivity|]. split; [eexists; reflexivity|intros x []].
  - apply o_here. apply offers_iff. vm_compute. repeat split. discriminate.
Qed.

(** C71 refuted: an include directory is added whose files are all loaded already, so no file comes or
    goes. The server has the new settings, the loader has reported the files of the directory again and
    the changes are drained; still the include is not found. *)
Definition added : list happening :=
  [Files (Update a_sp some_text); Files (Update b_inc some_text); Files Drain;
   Configure [ws; inc]; Files (Update b_inc some_text); Files (Update a_sp (Some [98%N]))].
Theorem C71_added_refuted : exists s t,
  live (init [ws]) (added ++ [Files Drain]) = Ok s /\ calm (added ++ [Files Drain]) /\
  file_id_of (st_vfs s) a_sp = Ok (Some 0) /\ last_containing (dirs_after [ws] added) a_sp ws /\
  meant (files_of added) (dirs_after [ws] added) ws a_sp false ["b.inc"] t /\
  find_include (st_db s) 0 false ["b.inc"] = Ok None.
Proof.
  eexists. exists b_inc. split; [vm_compute; reflexivity|]. split; [|split; [|split; [|split]]].
  - apply calm_by_count. intros p. unfold touches. cbn [added app files_of filter].
    destruct (path_eq_dec a_sp p) as [<-|]; [vm_compute; lia|]. destruct (path_eq_dec b_inc p) as [<-|]; vm_compute; lia.
  - vm_compute. reflexivity.
  - exists [], [inc]. split; [reflexivity|]. split; [eexists; reflexivity|]. intros x [<-|[]] (r & E). discriminate E.
  - apply o_later; [|apply o_here; apply offers_iff; vm_compute; repeat split; discriminate].
    intros u Hu. apply offers_iff in Hu. destruct Hu as (<- & N & _). apply N. vm_compute. reflexivity.
  - vm_compute. reflexivity.
Qed.
Print Assumptions C71_added_refuted.

(** C71 refuted: an include directory is taken out of the settings. Its files stay known, but at the
    next new file the roots are numbered anew and they have the number of another directory: searching
    for their quoted includes, as is done for the graph of all known files, crashes. *)
Definition removed : list happening :=
  [Files (Update a_sp some_text); Files (Update x_inc some_text); Files (Update y_inc some_text); Files Drain;
   Configure [ws; lib2]; Files (Update z_inc some_text)].
Theorem C71_removed_refuted : exists s,
  live (init [ws; lib1; lib2]) (removed ++ [Files Drain]) = Ok s /\ calm (removed ++ [Files Drain]) /\
  In (1, Inc) (known_files (st_db s)) /\ file_id_of (st_vfs s) x_inc = Ok (Some 1) /\
  find_include (st_db s) 1 true ["z.inc"] = Panic.
Proof.
  eexists. split; [vm_compute; reflexivity|]. split; [|split; [|split]].
  - apply calm_by_count. intros p. unfold touches. cbn [removed app files_of filter].
    destruct (path_eq_dec a_sp p) as [<-|]; [vm_compute; lia|]. destruct (path_eq_dec x_inc p) as [<-|]; [vm_compute; lia|].
    destruct (path_eq_dec y_inc p) as [<-|]; [vm_compute; lia|]. destruct (path_eq_dec z_inc p) as [<-|]; vm_compute; lia.
  - vm_compute. right. left. reflexivity.
  - vm_compute. reflexivity.
  - vm_compute. reflexivity.
Qed.
Print Assumptions C71_removed_refuted.

(** C71 refuted, without any change of the settings: a removed file of the workspace appears, goes and
    appears again between two drains. The drain survives, as the file still has a source root, but the
    file is not in its set: searching for its quoted includes crashes. *)
Definition to_and_fro : list happening :=
  [Files (Update a_sp some_text); Files (Update b_inc some_text); Files Drain; Files (Update b_inc None); Files Drain;
   Files (Update b_inc some_text); Files (Update b_inc None); Files (Update b_inc some_text)].
Theorem C71_to_and_fro_refuted : exists s,
  live (init [ws]) (to_and_fro ++ [Files Drain]) = Ok s /\ covered [ws] (to_and_fro ++ [Files Drain]) /\
  In (1, Inc) (known_files (st_db s)) /\ file_id_of (st_vfs s) b_inc = Ok (Some 1) /\
  find_include (st_db s) 1 true ["z.inc"] = Panic.
Proof.
  eexists. split; [vm_compute; reflexivity|]. split; [|split; [|split]].
  - intros h0 h1 E p Hp. exists ws. 
    assert (D : dirs_after [ws] h0 = [ws]).
    { assert (N : forall d, ~ In (Configure d) h0).
      { intros d Hd. assert (Y : In (Configure d) (to_and_fro ++ [Files Drain])) by (rewrite E; apply in_app_iff; left; exact Hd).
        simpl in Y. repeat (destruct Y as [Y|Y]; [discriminate Y|]). destruct Y. }
      clear E Hp. induction h0 as [|[e|d] h0 IH]; [reflexivity| |exfalso; apply (N d); left; reflexivity].
      apply IH. intros d Hd. apply (N d). right. exact Hd. }
    rewrite D. split; [left; reflexivity|].
    assert (T : there (files_of h0) p = true) by (apply there_not_none; exact Hp).
    destruct (there_updated _ _ T) as (c & Hc).
    assert (Y : In (Update p (Some c)) (files_of (to_and_fro ++ [Files Drain])))
      by (rewrite E, files_app; apply in_app_iff; left; exact Hc).
    simpl in Y. repeat (destruct Y as [Y|Y]; [try discriminate Y; injection Y as <- _; eexists; reflexivity|]). destruct Y.
  - vm_compute. right. left. reflexivity.
  - vm_compute. reflexivity.
  - vm_compute. reflexivity.
Qed.
Print Assumptions C71_to_and_fro_refuted.
