(** C09: open documents win over the disk. *)
From Coq Require Import List NArith ZArith Bool String.
From Verif Require Import VfsModel VfsSpec VfsProofs TextModel TextSpec Utf8 OpenDocsModel OpenDocsSpec OpenDocsProofs.
Import ListNotations.
Local Open Scope string_scope.

(** For every interleaving of the notifications of an editor and of files loaded from disk, the
    server does not crash and uses for every open document exactly the text and version the editor
    shows. (The editor's change notifications satisfy the condition of C04.) *)
Theorem C09_open_documents_win :
  forall enc h, (forall p, exists d, editor enc h p d) ->
    exists s, serve (start enc) h = Ok s /\
      forall p t v, editor enc h p (Some (t, v)) ->
        server_contents s p = Ok (Some (encode t)) /\ doc_get (sv_docs s) p = Some v.
Proof.
  intros enc h G. destruct (serve_agrees enc h G) as (s & f & R & _ & B & A). exists s. split; [exact R|].
  intros p t v H. destruct (A p _ H) as (_ & H2 & H3). split; [|exact H2].
  rewrite (backed_contents _ _ _ B), H3. reflexivity.
Qed.
Print Assumptions C09_open_documents_win.

(** No load changes the contents of a document between its opening and its closing, whatever the
    editor does with other documents. *)
Theorem C09_loads_ignored :
  forall enc h s fs s', serve (start enc) h = Ok s -> handle s (Loaded fs) = Ok s' ->
    forall p, doc_contains (sv_docs s) p = true -> server_contents s' p = server_contents s p.
Proof.
  intros enc h s fs s' R H p Hp.
  assert (B : exists f, backed f s).
  { clear H Hp fs s'. revert s R. induction h as [|m h IH] using rev_ind; intros s R.
    - injection R as <-. exists (fun _ => None). exists []. apply inv_empty.
    - rewrite serve_app in R. destruct (serve (start enc) h) as [s0|]; [|discriminate]. cbn [bind serve] in R.
      destruct (IH _ eq_refl) as (f & l & I).
      destruct (handle s0 m) as [s1|] eqn:Eh; [|discriminate]. injection R as <-.
      assert (Set1 : forall p c r, set_file_contents (sv_vfs s0) p c = Ok r -> exists g k, inv g k (fst r)).
      { intros q c r E. destruct (set_spec _ _ _ q c I) as (w & Ew & Iw & _). rewrite E in Ew. injection Ew as ->. eauto. }
      destruct m as [q v t|q v cs|q|fs]; simpl in Eh.
      + destruct (set_file_contents _ _ _) as [r|] eqn:E; [|discriminate]. injection Eh as <-.
        destruct (Set1 _ _ _ E) as (g & k & Ig). exists g, k. exact Ig.
      + destruct (doc_contains (sv_docs s0) q); [|injection Eh as <-; exists f, l; exact I].
        destruct (file_id_of (sv_vfs s0) q) as [[i|]|]; try discriminate. cbn [bind] in Eh.
        destruct (file_contents (sv_vfs s0) i) as [bs|]; try discriminate. cbn [bind] in Eh.
        destruct (decode bs) as [t|]; try discriminate.
        destruct (apply_document_changes (sv_enc s0) t cs) as [t'|]; try discriminate.
        destruct (set_file_contents _ _ _) as [r|] eqn:E; [|discriminate]. injection Eh as <-.
        destruct (Set1 _ _ _ E) as (g & k & Ig). exists g, k. exact Ig.
      + injection Eh as <-. exists f, l. exact I.
      + destruct (load_spec (sv_docs s0) fs _ _ _ I) as (v' & g & k & El & Ig & _). rewrite El in Eh.
        injection Eh as <-. exists g, k. exact Ig. }
  destruct B as (f & l & I). simpl in H.
  destruct (load_spec (sv_docs s) fs _ _ _ I) as (v' & g & k & El & Ig & Hg). rewrite El in H. injection H as <-.
  rewrite (backed_contents f s p) by (exists l; exact I).
  rewrite (backed_contents g _ p) by (exists k; exact Ig). rewrite (Hg p Hp). reflexivity.
Qed.
Print Assumptions C09_loads_ignored.

(** A file on disk, opened, edited while reloads arrive, and another one closed again. *)
Definition a : path := ["w"; "a.sp"].
Definition b : path := ["w"; "b.sp"].
Definition c09_history : list message :=
  [Loaded [(a, Some [120]%N); (b, Some [121]%N)]; DidOpen a 1 [97; 10; 98]%N; DidOpen b 1 [98]%N;
   Loaded [(a, Some [122]%N); (b, None)];
   DidChange a 2 [Change (Some (Range (Position 1 0) (Position 1 1))) [233]%N]; DidClose b;
   Loaded [(b, Some [121; 121]%N); (a, None)]].
Lemma c09_editor : editor Utf8 c09_history a (Some ([97; 10; 233]%N, 2%Z)).
Proof.
  change c09_history with ((((((([] ++ [Loaded [(a, Some [120]%N); (b, Some [121]%N)]]) ++ [DidOpen a 1 [97; 10; 98]%N]) ++
    [DidOpen b 1 [98]%N]) ++ [Loaded [(a, Some [122]%N); (b, None)]]) ++
    [DidChange a 2 [Change (Some (Range (Position 1 0) (Position 1 1))) [233]%N]]) ++ [DidClose b]) ++
    [Loaded [(b, Some [121; 121]%N); (a, None)]])%list.
  apply ed_other; [|intros []]. apply ed_other; [|discriminate].
  eapply ed_change with (t := [97; 10; 98]%N).
  - apply ed_other; [|intros []]. apply ed_other; [|discriminate].
    eapply ed_open; [apply ed_other; [apply ed_start|intros []]|].
    repeat constructor.
  - econstructor; [|constructor].
    apply (cc_range Utf8 [97; 10]%N [98]%N [] (Range (Position 1 0) (Position 1 1)) [233]%N).
    + split; [reflexivity|]. exists [97; 10]%N, []. repeat split; auto. right. exists [97%N]. reflexivity.
    + split; [reflexivity|]. exists [97; 10]%N, [98%N]. repeat split; [right; exists [97%N]; reflexivity|].
      intros [H|[]]; discriminate.
  - repeat constructor.
  - intros cs1 f cs2 E Hf. destruct cs1 as [|x cs1]; [constructor|].
    injection E as <- E. destruct cs1; discriminate E.
Qed.
Example C09_nontrivial :
  (forall p, exists d, editor Utf8 c09_history p d) /\
  editor Utf8 c09_history a (Some ([97; 10; 233]%N, 2%Z)) /\
  (match serve (start Utf8) c09_history with
   | Ok s => server_contents s a = Ok (Some [97; 10; 195; 169]%N) /\ server_contents s b = Ok (Some [121; 121]%N)
   | Panic => False
   end).
Proof.
  split; [|split; [exact c09_editor|vm_compute; split; reflexivity]].
  intros p. destruct (path_eq_dec p a) as [->|Na]; [eexists; exact c09_editor|].
  exists None.
  change c09_history with ((((((([] ++ [Loaded [(a, Some [120]%N); (b, Some [121]%N)]]) ++ [DidOpen a 1 [97; 10; 98]%N]) ++
    [DidOpen b 1 [98]%N]) ++ [Loaded [(a, Some [122]%N); (b, None)]]) ++
    [DidChange a 2 [Change (Some (Range (Position 1 0) (Position 1 1))) [233]%N]]) ++ [DidClose b]) ++
    [Loaded [(b, Some [121; 121]%N); (a, None)]])%list.
  apply ed_other; [|intros []].
  destruct (path_eq_dec p b) as [->|Nb].
  - eapply ed_close. apply ed_other; [|simpl; congruence]. apply ed_other; [|intros []].
    eapply ed_open; [|repeat constructor]. apply ed_other; [|simpl; congruence].
    apply ed_other; [apply ed_start|intros []].
  - repeat (apply ed_other; [|simpl; try congruence; intros []]). apply ed_start.
Qed.
