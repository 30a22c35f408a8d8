From Coq Require Import List NArith ZArith Bool String.
From Verif Require Import VfsModel VfsSpec VfsProofs TextModel TextSpec TextProps Utf8 OpenDocsModel OpenDocsSpec.
Import ListNotations.

Lemma doc_get_insert : forall m p v q, doc_get (doc_insert m p v) q = if path_eq_dec p q then Some v else doc_get m q.
Proof.
  induction m as [|[x w] tl IH]; intros p v q; simpl; [reflexivity|].
  destruct (path_eq_dec x p) as [->|N]; simpl.
  - destruct (path_eq_dec p q); reflexivity.
  - rewrite IH. destruct (path_eq_dec x q) as [->|]; [|reflexivity].
    destruct (path_eq_dec p q); [congruence|reflexivity].
Qed.
Lemma doc_get_remove : forall m p q, doc_get (doc_remove m p) q = if path_eq_dec p q then None else doc_get m q.
Proof.
  induction m as [|[x w] tl IH]; intros p q; simpl; [destruct (path_eq_dec p q); reflexivity|].
  destruct (path_eq_dec x p) as [->|N]; simpl; rewrite IH.
  - destruct (path_eq_dec p q); reflexivity.
  - destruct (path_eq_dec x q) as [->|]; [|reflexivity]. destruct (path_eq_dec p q); [congruence|reflexivity].
Qed.

(** The state: an abstract file map [f] behind the vfs. *)
Definition backed (f : path -> option contents) (s : server) : Prop := exists l, inv f l (sv_vfs s).

Lemma backed_contents : forall f s p, backed f s -> server_contents s p = Ok (f p).
Proof.
  intros f s p (l & I). unfold server_contents. rewrite (inv_file_id _ _ _ p I). cbn [bind].
  destruct (f p) as [c|] eqn:E; [|reflexivity].
  destruct (index_of p (interner (sv_vfs s))) as [i|] eqn:Ei; [|rewrite (i_none _ _ _ I p Ei) in E; discriminate].
  unfold file_contents, get. rewrite (i_data _ _ _ I _ _ Ei), E. reflexivity.
Qed.

Lemma load_spec : forall m fs f l v, inv f l v ->
  exists v' g l', load m v fs = Ok v' /\ inv g l' v' /\ forall p, doc_contains m p = true -> g p = f p.
Proof.
  intros m. induction fs as [|[p c] tl IH]; intros f l v I; simpl.
  - exists v, f, l. auto.
  - destruct (doc_contains m p) eqn:E; [apply (IH _ _ _ I)|].
    destruct (set_spec _ _ _ p c I) as (w & Ew & Iw & _). rewrite Ew. cbn [bind fst].
    destruct (IH _ _ _ Iw) as (v' & g & l' & El & Ig & Hg). exists v', g, l'. repeat split; auto; try apply Ig.
    intros q Hq. rewrite (Hg q Hq). unfold upd. destruct (path_eq_dec p q) as [->|]; [congruence|reflexivity].
Qed.

Lemma serve_app : forall h1 h2 s, serve s (h1 ++ h2) = bind (serve s h1) (fun s => serve s h2).
Proof. induction h1 as [|o tl IH]; intros h2 s; simpl; [reflexivity|]. destruct (handle s o); simpl; auto. Qed.

(** The relation between the editor and the server. *)
Definition agrees enc h p f (s : server) : Prop :=
  forall d, editor enc h p d ->
    match d with
    | Some (t, v) => Forall scalar t /\ doc_get (sv_docs s) p = Some v /\ f p = Some (encode t)
    | None => doc_get (sv_docs s) p = None
    end.

Lemma client_scalar : forall enc t cs t', client enc t cs t' -> Forall scalar t ->
  Forall (fun c => Forall scalar (c_text c)) cs -> Forall scalar t'.
Proof.
  intros enc t cs t' H. induction H as [|t c t1 cs t2 H1 H2 IH]; intros Ht Hc; [exact Ht|].
  inversion Hc; subst. apply IH; [|assumption]. destruct H1 as [t new|p m s r new _ _]; simpl in *; [assumption|].
  apply Forall_app in Ht. destruct Ht as [Ha Hb]. apply Forall_app in Hb. destruct Hb as [_ Hb].
  apply Forall_app. split; [assumption|]. apply Forall_app. auto.
Qed.

Ltac last_msg H := apply app_inj_tail in H; destruct H as [-> H].

Definition good enc h := forall p, exists d, editor enc h p d.

Lemma editor_inv : forall enc h m p d, editor enc (h ++ [m]) p d ->
  (~ about m p /\ editor enc h p d) \/
  (exists v t d0, m = DidOpen p v t /\ d = Some (t, v) /\ editor enc h p d0 /\ Forall scalar t) \/
  (exists v cs t t' v0, m = DidChange p v cs /\ d = Some (t', v) /\ editor enc h p (Some (t, v0)) /\
     client enc t cs t' /\ Forall (fun c => Forall scalar (c_text c)) cs /\
     (forall cs1 f cs2, cs = cs1 ++ f :: cs2 -> c_range f = None -> Forall (fun c => c_range c = None) cs1)) \/
  (exists v cs, m = DidChange p v cs /\ d = None /\ editor enc h p None) \/
  (exists d0, m = DidClose p /\ d = None /\ editor enc h p d0).
Proof.
  intros enc h m p d H. inversion H as [q E|h0 m0 q d0 H0 N E|h0 q v t d0 H0 F E|h0 q v cs t t' v0 H0 C F R E|h0 q v cs H0 E|h0 q d0 H0 E]; subst;
    try (destruct h; discriminate); apply app_inj_tail in E; destruct E as [-> <-].
  - left. split; [exact N|exact H0].
  - right. left. eauto 10.
  - right. right. left. exists v, cs, t, t', v0. repeat (split; [assumption || reflexivity|]). exact R.
  - right. right. right. left. eauto.
  - right. right. right. right. eauto.
Qed.

Lemma serve_agrees : forall enc h, good enc h ->
  exists s f, serve (start enc) h = Ok s /\ sv_enc s = enc /\ backed f s /\ forall p, agrees enc h p f s.
Proof.
  intros enc h. induction h as [|m h IH] using rev_ind; intros G.
  - exists (start enc), (fun _ => None). split; [reflexivity|]. split; [reflexivity|].
    split; [exists []; apply inv_empty|]. intros p d H. inversion H; subst; try (destruct h; discriminate). reflexivity.
  - destruct IH as (s & f & R & En & (l & I) & A).
    { intros p. destruct (G p) as (d & H). apply editor_inv in H.
      destruct H as [(_ & H)|[(v & t & d0 & _ & _ & H & _)|[(v & cs & t & t' & v0 & _ & _ & H & _)|[(v & cs & _ & _ & H)|(d0 & _ & _ & H)]]]]; eauto. }
    rewrite serve_app, R. cbn [bind serve]. destruct m as [p v t|p v cs|p|fs].
    + simpl. destruct (set_spec _ _ _ p (Some (encode t)) I) as (w & Ew & Iw & _). rewrite Ew. cbn [bind fst].
      eexists _, _. split; [reflexivity|]. split; [exact En|]. split; [eexists; exact Iw|].
      intros q d H. cbn [sv_docs]. rewrite doc_get_insert. unfold upd. apply editor_inv in H.
      destruct H as [(N & H)|[(v1 & t1 & d0 & E & -> & _ & F)|[(? & ? & ? & ? & ? & E & _)|[(? & ? & E & _)|(? & E & _)]]]];
        try discriminate E.
      * cbn [about] in N. destruct (path_eq_dec p q); [contradiction|]. exact (A q d H).
      * injection E as -> -> ->. destruct (path_eq_dec q q); [auto|congruence].
    + simpl. destruct (G p) as (d & H). apply editor_inv in H.
      destruct H as [(N & H)|[(? & ? & ? & E & _)|[(v1 & cs1 & t & t' & v0 & E & -> & H & C & Fs & Rs)|[(v1 & cs1 & E & -> & H)|(? & E & _)]]]];
        try discriminate E; [exfalso; apply N; reflexivity| |].
      * injection E as <- <-. destruct (A p _ H) as (Ft & Hd & Hf).
        unfold doc_contains. rewrite Hd. rewrite (inv_file_id _ _ _ p I), Hf. cbn [bind].
        destruct (index_of p (interner (sv_vfs s))) as [i|] eqn:Ei; [|rewrite (i_none _ _ _ I p Ei) in Hf; discriminate].
        unfold file_contents, get. rewrite (i_data _ _ _ I _ _ Ei), Hf. cbn [bind].
        rewrite (decode_encode t Ft), En, (C04_text_in_sync_partial _ _ _ _ C Rs).
        destruct (set_spec _ _ _ p (Some (encode t')) I) as (w & Ew & Iw & _). rewrite Ew. cbn [bind fst].
        eexists _, _. split; [reflexivity|]. split; [reflexivity|]. split; [eexists; exact Iw|].
        intros q d Hq. cbn [sv_docs]. rewrite doc_get_insert. unfold upd. apply editor_inv in Hq.
        destruct Hq as [(N & Hq)|[(? & ? & ? & E & _)|[(v2 & cs2 & t2 & t2' & v02 & E & -> & Hq & C2 & Fs2 & Rs2)|[(v2 & cs2 & E & -> & Hq)|(? & E & _)]]]];
          try discriminate E.
        -- cbn [about] in N. destruct (path_eq_dec p q); [contradiction|]. exact (A q d Hq).
        -- injection E as -> -> ->. destruct (path_eq_dec q q); [|congruence].
           destruct (A q _ Hq) as (Ft2 & Hd2 & Hf2).
           assert (t2 = t) as -> .
           { rewrite Hf in Hf2. injection Hf2 as E. apply (f_equal decode) in E.
             rewrite !decode_encode in E by assumption. congruence. }
           pose proof (C04_text_in_sync_partial _ _ _ _ C Rs) as X1.
           pose proof (C04_text_in_sync_partial _ _ _ _ C2 Rs) as X2. assert (t2' = t') as -> by congruence.
           split; [eapply client_scalar; eauto|]. auto.
        -- injection E as -> _ _. pose proof (A q _ Hq) as X. simpl in X. congruence.
      * injection E as <- <-. pose proof (A p _ H) as Hd. simpl in Hd. unfold doc_contains. rewrite Hd.
        exists s, f. split; [reflexivity|]. split; [exact En|]. split; [exists l; exact I|].
        intros q d Hq. apply editor_inv in Hq.
        destruct Hq as [(N & Hq)|[(? & ? & ? & E & _)|[(v2 & cs2 & t2 & t2' & v02 & E & -> & Hq & _)|[(v2 & cs2 & E & -> & Hq)|(? & E & _)]]]];
          try discriminate E.
        -- exact (A q d Hq).
        -- injection E as -> _ _. destruct (A q _ Hq) as (_ & X & _). congruence.
        -- exact (A q _ Hq).
    + eexists _, f. split; [reflexivity|]. split; [exact En|]. split; [exists l; exact I|].
      intros q d H. cbn [sv_docs]. rewrite doc_get_remove. apply editor_inv in H.
      destruct H as [(N & H)|[(? & ? & ? & E & _)|[(? & ? & ? & ? & ? & E & _)|[(? & ? & E & _)|(d0 & E & -> & _)]]]];
        try discriminate E.
      * cbn [about] in N. destruct (path_eq_dec p q); [contradiction|]. exact (A q d H).
      * injection E as ->. destruct (path_eq_dec q q); congruence.
    + simpl. destruct (load_spec (sv_docs s) fs _ _ _ I) as (v' & g & l' & El & Ig & Hg). rewrite El. cbn [bind].
      eexists _, g. split; [reflexivity|]. split; [exact En|]. split; [exists l'; exact Ig|].
      intros q d H. cbn [sv_docs]. apply editor_inv in H.
      destruct H as [(N & H)|[(? & ? & ? & E & _)|[(? & ? & ? & ? & ? & E & _)|[(? & ? & E & _)|(? & E & _)]]]];
        try discriminate E.
      pose proof (A q d H) as X. destruct d as [[t v]|]; [|exact X]. destruct X as (X1 & X2 & X3).
      split; [exact X1|]. split; [exact X2|]. rewrite <- X3. apply Hg. unfold doc_contains. rewrite X2. reflexivity.
Qed.
