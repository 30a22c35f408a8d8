(** C59: what stops the server. *)
From Coq Require Import List NArith ZArith Bool String Arith Lia.
From Verif Require Import VfsModel VfsProofs TextModel Utf8 OpenDocsProofs TextProps LoopModel SyncSpec LoopSpec LoopDrain LoopProofs.
From Verif Require TextSpec SyncModel RequestsModel.
Import ListNotations.
Local Open Scope string_scope.
Local Open Scope nat_scope.
Local Open Scope list_scope.

Section Props.
Context {E : env}.
(** The projects are those of files known to the analysis. *)
Hypothesis Hroots : forall d ids, project_roots E d = Some ids -> incl ids (map fst (SyncModel.known_files d)).

Lemma exit_spec : forall t : turn E, is_exit t = true <-> exits t.
Proof.
  intros t. unfold exits. split.
  - destruct t as [[q|m j|r]|l|l|l]; try discriminate. cbn. intros H. apply String.eqb_eq in H. subst. eauto.
  - intros (j & ->). reflexivity.
Qed.
Lemma exit_dec : forall t : turn E, is_exit t = false -> ~ exits t.
Proof. intros t H X. apply exit_spec in X. congruence. Qed.

(** The history [k] follows [h]. *)
Lemma fate_sound : forall h w (s : state E) k e, rel w [] s -> all_tame s h -> fate w (watched s h ++ k) e ->
  match serve s h with
  | Running s' => exists w', rel w' [] s' /\ fate w' k e
  | Returned => e = Leaves
  | Crashed => e = Dies
  end.
Proof.
  induction h as [|[t|] tl IH]; intros w s k e R T F; cbn [serve watched app] in *.
  - exists w. auto.
  - destruct T as [T1 T2]. destruct (is_exit t) eqn:Ex.
    + apply exit_spec in Ex. inversion F; subst; auto; contradiction.
    + apply exit_dec in Ex. pose proof (step_exact Hroots w s t R T1) as St.
      destruct (handle_event s t) as [s'|].
      * destruct St as (Nf & _ & Nx). inversion F as [| |? ? ? ? X|? ? ? ? X Y|? ? ? ? ? ? X Y Z V]; subst; try contradiction.
        eapply IH; eauto.
      * inversion F as [| |? ? ? ? X|? ? ? ? X Y|? ? ? ? ? ? X Y Z V]; subst; try contradiction. reflexivity.
  - inversion F; subst; reflexivity.
Qed.

Lemma fate_exists : forall h w (s : state E) k, rel w [] s -> all_tame s h ->
  match serve s h with
  | Running s' => forall e, (forall w', rel w' [] s' -> fate w' k e) -> fate w (watched s h ++ k) e
  | Returned => fate w (watched s h ++ k) Leaves
  | Crashed => fate w (watched s h ++ k) Dies
  end.
Proof.
  induction h as [|[t|] tl IH]; intros w s k R T; cbn [serve watched app].
  - auto.
  - destruct T as [T1 T2]. destruct (is_exit t) eqn:Ex.
    + apply h_exit. apply exit_spec. exact Ex.
    + apply exit_dec in Ex. pose proof (step_exact Hroots w s t R T1) as St.
      destruct (handle_event s t) as [s'|]; [|apply h_fatal; assumption].
      destruct St as (Nf & (w' & Nx) & Hn). specialize (IH w' s' k (Hn _ Nx) (T2 _ eq_refl)).
      destruct (serve s' tl); [intros e He|..]; eapply h_next; eauto.
  - apply h_closed.
Qed.

Lemma lsp_tame : forall l (s : state E), all_tame s (lsp_turns l).
Proof. induction l as [|m tl IH]; intros s; cbn; [exact I|]. split; [exact I|]. intros. apply IH. Qed.

(** The server crashes exactly when something fatal arrives, and returns exactly when it is told to exit
    or the connection is closed, before that. *)
Theorem C59_exact_partial : forall (c : config E) ignored h, threads_ok c ignored h ->
  forall e, ending_of (run c ignored h) = e <-> fate (empty_world c) (watched_run c ignored h) e.
Proof.
  intros c ig h T. unfold run, watched_run, threads_ok, initialised in *.
  change (map (fun m => Some (Lsp m)) ig) with (lsp_turns ig).
  pose proof (start_rel (E := E) c) as R0. pose proof (lsp_tame ig (start c)) as T0.
  pose proof (fun k => fate_exists _ _ _ k R0 T0) as X.
  destruct (serve (start c) (lsp_turns ig)) as [s| |] eqn:Es.
  2,3: (intros e; split; [intros <-; specialize (X []); exact X|];
        intros F; pose proof (fate_sound _ _ _ _ _ R0 T0 F) as F'; rewrite Es in F'; symmetry; exact F').
  assert (Rs : exists w, rel w [] s).
  { pose proof (fate_exists _ _ _ [] R0 T0) as Y. rewrite Es in Y.
    assert (F : fate (empty_world c) (watched (start c) (lsp_turns ig) ++ []) Lives) by (apply Y; intros; constructor).
    apply (fate_sound _ _ _ _ _ R0 T0) in F. rewrite Es in F. destruct F as (w & R & _). eauto. }
  destruct Rs as (w & Rw). destruct (reload_ok Hroots _ _ _ Rw) as (s' & Er & ->). rewrite Er in *.
  set (s0 := update_status_or_notify s) in *.
  intros e. split.
  - intros <-. specialize (X (watched s0 h)). apply X. intros w' Rw'. apply status_rel in Rw'. fold s0 in Rw'.
    pose proof (fate_exists h w' s0 [] Rw' T) as Y. rewrite app_nil_r in Y.
    destruct (serve s0 h); cbn [ending_of]; [apply Y; intros; constructor|exact Y|exact Y].
  - intros F. apply (fate_sound _ _ _ _ _ R0 T0) in F. rewrite Es in F. destruct F as (w' & Rw' & F).
    apply status_rel in Rw'. fold s0 in Rw'. rewrite <- (app_nil_r (watched s0 h)) in F.
    apply (fate_sound _ _ _ _ _ Rw' T) in F. destruct (serve s0 h); cbn [ending_of]; [|auto|auto].
    destruct F as (w'' & _ & F). inversion F. reflexivity.
Qed.

(** *** Enough to keep it alive *)

Definition texts_ok (w : world E) : Prop :=
  forall p, opened w p = true -> exists x, disk w p = Some (encode x) /\ Forall scalar x.

Lemma flips_absent : forall p us f, ~ In p (map fst us) -> flips p f us = 0 /\ written f us p = f p.
Proof.
  intros p. induction us as [|u tl IH]; intros f N; [auto|]. cbn [flips]. unfold written. cbn [fold_left].
  assert (Eu : write f u p = f p) by (apply write_other; intros H; apply N; left; exact H).
  destruct (IH (write f u)) as [A B]; [intros H; apply N; right; exact H|]. fold (written (write f u) tl).
  rewrite A, B, Eu. split; [|reflexivity]. destruct (f p); reflexivity.
Qed.
Lemma once : forall p us f, NoDup (map fst us) -> f p = None -> written f us p <> None ->
  flips p f us = 1 /\ exists c, In (p, Some c) us.
Proof.
  intros p. induction us as [|u tl IH]; intros f ND Hf Hw; [exfalso; exact (Hw Hf)|].
  inversion ND as [|? ? Nu ND']; subst. destruct (path_eq_dec (fst u) p) as [<-|Np].
  - destruct (flips_absent (fst u) tl (write f u) Nu) as [A B].
    unfold written in Hw. cbn [fold_left] in Hw. fold (written (write f u) tl) in Hw. rewrite B, write_same in Hw.
    cbn [flips]. rewrite A, write_same, Hf. destruct u as [q [c|]]; cbn [fst snd] in *; [|congruence].
    split; [reflexivity|]. exists c. left. reflexivity.
  - cbn [flips]. unfold written in Hw. cbn [fold_left] in Hw. fold (written (write f u) tl) in Hw.
    assert (Eu : write f u p = f p) by (apply write_other; exact Np).
    destruct (IH (write f u) ND') as [A (c & B)]; [congruence|exact Hw|].
    rewrite A, Eu, Hf. split; [reflexivity|]. exists c. right. exact B.
Qed.
Lemma housed : forall (w : world E) us, NoDup (map fst us) ->
  (forall p c, In (p, Some c) us -> disk w p = None -> covered (settings w) p) -> ~ homeless w us.
Proof.
  intros w us ND C (p & H1 & H2 & _ & H4). destruct (once _ _ _ ND H1 H2) as (F & c & Hc).
  apply H4. split; [exists p; exact F|eapply C; eauto].
Qed.

Lemma calm_change : forall (w : world E) cs p x, disk w p = Some (encode x) -> Forall scalar x -> tidy cs ->
  (exists x', TextSpec.client (enc E) x cs x') ->
  exists x', edited w p cs = Some x' /\ TextSpec.client (enc E) x cs x'.
Proof.
  intros w cs p x Hd Hs Ht (x' & Hx). exists x'. split; [|exact Hx]. unfold edited. rewrite Hd, (decode_encode _ Hs).
  apply C04_text_in_sync_partial; assumption.
Qed.

Lemma calm_alive : forall out (w : world E) t, texts_ok w -> calm out w t -> ~ fatal out w t.
Proof.
  intros out w t O C F. destruct F as [m j Hm|r Hr|j u v cs p H1 H2 H3 H4|t us Hw Hh].
  - apply (proj1 C). exact Hm.
  - exact (Hr C).
  - destruct (O _ H3) as (x & Hd & Hs). destruct (proj2 (proj2 C) u v cs p x eq_refl H1 H2 H3 Hd Hs) as (_ & Ht & Hx).
    destruct (calm_change _ _ _ _ Hd Hs Ht Hx) as (x' & Hx' & _). congruence.
  - revert Hh. destruct Hw as [j u v x p H1 H2|j u v cs p x H1 H2 H3 H4|l].
    + apply housed; [constructor; [intros []|constructor]|]. intros q c [H|[]] _. injection H as <- _.
      destruct (proj1 (proj2 C) u v x p eq_refl H1 H2) as [_ Hc]. exact Hc.
    + apply housed; [constructor; [intros []|constructor]|]. intros q c [H|[]] Hn. injection H as <- _.
      destruct (O _ H3) as (x0 & Hd & _). congruence.
    + destruct C as [C1 C2]. apply housed; [exact C1|]. intros p c Hp _. eapply C2; eauto.
Qed.

Lemma calm_texts : forall out (w : world E) t w', texts_ok w -> calm out w t -> next out w t w' -> texts_ok w'.
Proof.
  intros out w t w' O C N. destruct N as [j u v x p us H1 H2 Hw|j us Hw|l|j u p H1 H2|r n Hr|t _ _ _].
  - apply writes_open_inv in Hw. destruct Hw as (u' & v' & x' & p' & E1 & E2 & ->).
    assert (p' = p /\ x' = x) as [-> ->] by (split; congruence).
    destruct (proj1 (proj2 C) u v x p eq_refl H1 H2) as [Hs _].
    intros q Hq. cbn [disk opened] in *. unfold file_world, written, write, set_open in *. cbn [disk fold_left fst snd] in *.
    destruct (path_eq_dec p q) as [->|Nq]; [exists x; auto|]. apply O. exact Hq.
  - apply writes_change_inv in Hw. destruct Hw as (u & v & cs & p & x' & H1 & H2 & H3 & H4 & ->).
    destruct (O _ H3) as (x & Hd & Hs). destruct (proj2 (proj2 C) u v cs p x eq_refl H1 H2 H3 Hd Hs) as (Hc & Ht & Hx).
    destruct (calm_change _ _ _ _ Hd Hs Ht Hx) as (x2 & Hx2 & Hcl). assert (x2 = x') as -> by congruence.
    intros q Hq. unfold file_world, written, write in *. cbn [disk opened fold_left fst snd] in *.
    destruct (path_eq_dec p q) as [->|Nq]; [|apply O; exact Hq]. exists x'. split; [reflexivity|].
    eapply client_scalar; eauto.
  - intros q Hq. cbn [disk opened file_world] in *. destruct (flips_absent q (loads w l) (disk w)) as [_ ->].
    + intros H. apply in_map_iff in H. destruct H as (x & <- & H). unfold loads in H. apply in_flat_map in H.
      destruct H as ([fs|a b c] & _ & H); [|destruct H]. apply filter_In in H. destruct H as [_ H].
      rewrite Hq in H. discriminate.
    + apply O. exact Hq.
  - intros q Hq. cbn [disk opened] in *. unfold set_open in Hq. destruct (path_eq_dec p q); [discriminate|]. apply O. exact Hq.
  - exact O.
  - exact O.
Qed.

Lemma polite_lives : forall h w, texts_ok w -> polite w h -> ~ fate w h Dies.
Proof.
  induction h as [|[out [t|]] tl IH]; intros w O P F; [inversion F| |inversion F].
  destruct P as [P|[C P]].
  - inversion F; subst; contradiction.
  - inversion F as [| | |? ? ? ? X Y|? ? ? ? ? ? X Y Z V]; subst.
    + exact (calm_alive _ _ _ O C Y).
    + eapply IH; [|apply P; exact Z|exact V]. eapply calm_texts; eauto.
Qed.

(** What the editor has to respect for the server never to crash *)
Theorem C59_polite_partial : forall (c : config E) ignored h, threads_ok c ignored h ->
  polite (empty_world c) (watched_run c ignored h) -> run c ignored h <> Crashed.
Proof.
  intros c ig h T P H. assert (D : ending_of (run c ig h) = Dies) by (rewrite H; reflexivity).
  apply (C59_exact_partial c ig h T) in D. revert D. apply polite_lives; [|exact P]. intros p Hp. discriminate Hp.
Qed.
End Props.
Print Assumptions C59_exact_partial.
Print Assumptions C59_polite_partial.

(** ** A server *)

(** Parameters, already read; the settings are the include directory besides /w *)
Inductive value := VOpen (p : path) (t : list char) | VChange (p : path) (cs : list change) | VPath (p : path) | VOther.
Definition demo : env := {|
  json := value; uri := path; config := list path;
  parse_error := fun _ _ => None; null := VOther;
  open_params := fun j => match j with VOpen p t => Some (p, 1%Z, t) | _ => None end;
  change_params := fun j => match j with VChange p cs => Some (p, 2%Z, cs) | _ => None end;
  close_params := fun j => match j with VPath p => Some p | _ => None end;
  save_params := fun j => match j with VPath p => Some p | _ => None end;
  config_params := fun _ => Some tt;
  watched_params := fun _ => Some [];
  cancel_params := fun _ => Some tt;
  vfs_path := fun u => Some u;
  first_setting := fun j => Some j;
  update_config := fun c j => (match j with VPath p => ["w"] :: [p] | _ => c end, false);
  cfg_roots := fun c => c;
  compiler_differs := fun _ _ => true;
  has_compiler := fun _ => true; pulls := fun _ => true; refreshes := fun _ => true; prefills := fun _ => true;
  project_roots := fun d => Some (map fst (SyncModel.known_files d));
  enc := Wide Utf16 |}.
Definition note m (j : value) : option (turn demo) := Some (Lsp (E := demo) (Notification (E := demo) m j)).
Definition answer (n : Z) (j : value) : option (turn demo) :=
  Some (Lsp (E := demo) (Reply (E := demo) (Response (E := demo) (RequestsModel.IdNum n) false (Some j)))).
Definition home : config demo := [["w"]].
Definition a_sp : path := ["w"; "a.sp"].
Definition inc : path := ["inc"; "b.inc"].
Definition at_ (l c : N) : position := Position l c.

(** "ab" is opened and becomes "aXb"; the settings add /inc, whose file is then loaded and opened; both
    files are indexed and saved, the first is closed and disappears *)
Definition session : list (option (turn demo)) :=
  [Some (Vfs [Progress 1 0 1; Loaded [(a_sp, Some (encode [97; 98]%N))]; Progress 1 1 1]);
   note "textDocument/didOpen" (VOpen a_sp [97; 98]%N);
   note "textDocument/didChange" (VChange a_sp [Change (Some (Range (at_ 0 1) (at_ 0 1))) [88]%N]);
   note "workspace/didChangeConfiguration" VOther;
   answer 3 (VPath ["inc"]);
   Some (Vfs [Progress 1 0 2; Loaded [(inc, Some [])]; Progress 1 1 2]);
   Some (Tasks [PrimeCaches (E := demo) Begin; PrimeCaches (E := demo) (Report 1 2);
                PrimeCaches (E := demo) (End true); Diagnostics (E := demo) [(0, [])]]);
   note "textDocument/didOpen" (VOpen inc []);
   note "textDocument/didSave" (VPath a_sp);
   note "textDocument/didClose" (VPath a_sp);
   Some (Vfs [Loaded [(a_sp, None)]])].

Definition contents_in (s : state demo) (p : path) : option contents :=
  match index_of p (interner (the_vfs s)) with Some i => nth i (data (the_vfs s)) None | None => None end.

(** [all_tame], computed *)
Definition tameb {E} (s : state E) (t : turn E) : bool :=
  match t with
  | Lsp _ | Flycheck _ => true
  | Vfs l => forallb (fun m => match m with Progress total done _ => done <=? total | Loaded _ => true end) l
  | Tasks l =>
      (ends l <=? jobs s) &&
      forallb (fun t => match t with
        | PrimeCaches (Report d n) => d <=? n
        | Diagnostics ds => forallb (fun x => fst x <? List.length (interner (the_vfs s))) ds
        | _ => true end) l
  end.
Fixpoint all_tameb {E} (s : state E) (h : list (option (turn E))) : bool :=
  match h with
  | Some t :: tl => tameb s t && match handle_event s t with Ok s' => all_tameb s' tl | Panic => true end
  | _ => true
  end.
Lemma tameb_ok : forall E (s : state E) t, tameb s t = true -> tame s t.
Proof.
  intros E s [m|l|l|l] H; cbn [tameb tame] in *; auto.
  - apply andb_prop in H. destruct H as [H1 H2]. apply Nat.leb_le in H1. rewrite forallb_forall in H2.
    split; [exact H1|]. split.
    + intros d n Hi. apply H2 in Hi. apply Nat.leb_le. exact Hi.
    + intros ds i x Hi Hx. apply H2 in Hi. rewrite forallb_forall in Hi. apply Hi in Hx. apply Nat.ltb_lt. exact Hx.
  - rewrite forallb_forall in H. intros total done v Hi. apply H in Hi. apply Nat.leb_le. exact Hi.
Qed.
Lemma all_tameb_ok : forall E h (s : state E), all_tameb s h = true -> all_tame s h.
Proof.
  intros E. induction h as [|[t|] tl IH]; intros s H; cbn [all_tameb all_tame] in *; auto.
  apply andb_prop in H. destruct H as [H1 H2]. split; [apply tameb_ok; exact H1|]. intros s' Hs. rewrite Hs in H2. auto.
Qed.
Lemma demo_roots : forall d ids, project_roots demo d = Some ids -> incl ids (map fst (SyncModel.known_files d)).
Proof. intros d ids H. injection H as <-. apply incl_refl. Qed.

Example C59_nontrivial :
  match run home [] (firstn 10 session) with
  | Running s => (contents_in s a_sp, contents_in s inc, List.length (sent (client_ s)), docs s)
                 = (Some [97; 88; 98]%N, Some [], 7, [(inc, 1%Z)])
  | _ => False
  end /\
  ending_of (run home [] session) = Lives /\
  ending_of (run home [] (session ++ [note "exit" VOther; note "textDocument/didSave" VOther])) = Leaves /\
  ending_of (run home [] (session ++ [None; note "textDocument/didSave" VOther])) = Leaves /\
  ending_of (run home [] (session ++ [note "textDocument/didSave" VOther; note "exit" VOther])) = Dies /\
  threads_ok home [] session.
Proof.
  repeat match goal with |- _ /\ _ => split end; [vm_compute; reflexivity..|].
  unfold threads_ok. assert (H : match initialised home [] with Some s => all_tameb s session | None => true end = true)
    by (vm_compute; reflexivity).
  destruct (initialised home []); [apply all_tameb_ok; exact H|exact I].
Qed.

(** Messages that stop the server *)

(** parameters that are not those of the method *)
Theorem C59_parameters_refuted : run home [] [note "textDocument/didSave" VOther] = Crashed.
Proof. vm_compute. reflexivity. Qed.
Print Assumptions C59_parameters_refuted.

(** an answer the server does not wait for: never asked, or given a second time *)
Theorem C59_answer_refuted :
  run home [] [answer 7 VOther] = Crashed /\
  ending_of (run home [] [note "workspace/didChangeConfiguration" VOther; answer 0 VOther]) = Lives /\
  run home [] [note "workspace/didChangeConfiguration" VOther; answer 0 VOther; answer 0 VOther] = Crashed.
Proof. repeat match goal with |- _ /\ _ => split end; vm_compute; reflexivity. Qed.
Print Assumptions C59_answer_refuted.

(** a document that is not under the workspace or an include directory; under them it is fine *)
Theorem C59_outside_refuted :
  run home [] [note "textDocument/didOpen" (VOpen inc [])] = Crashed /\
  ending_of (run home [] [note "textDocument/didOpen" (VOpen a_sp [])]) = Lives.
Proof. split; vm_compute; reflexivity. Qed.
Print Assumptions C59_outside_refuted.

(** a change after the end of the last line, which LSP takes for its end *)
Theorem C59_column_refuted :
  run home [] [note "textDocument/didOpen" (VOpen a_sp [97; 98]%N);
               note "textDocument/didChange" (VChange a_sp [Change (Some (Range (at_ 0 3) (at_ 0 3))) [88]%N])] = Crashed.
Proof. vm_compute. reflexivity. Qed.
Print Assumptions C59_column_refuted.

(** an insertion at the end of "ab", then the whole text replaced by nothing, then something inserted *)
Theorem C59_replaced_refuted :
  let cs := [Change (Some (Range (at_ 0 2) (at_ 0 2))) [88]%N; Change None [];
             Change (Some (Range (at_ 0 0) (at_ 0 0))) [89]%N] in
  TextSpec.client (enc demo) [97; 98]%N cs [89]%N /\
  run home [] [note "textDocument/didOpen" (VOpen a_sp [97; 98]%N); note "textDocument/didChange" (VChange a_sp cs)] = Crashed.
Proof.
  split; [|vm_compute; reflexivity].
  eapply TextSpec.cl_cons; [|eapply TextSpec.cl_cons; [apply TextSpec.cc_full|eapply TextSpec.cl_cons; [|apply TextSpec.cl_nil]]].
  - apply (TextSpec.cc_range _ [97; 98]%N [] [] (Range (at_ 0 2) (at_ 0 2)) [88]%N); cbn [app TextModel.r_start TextModel.r_end];
      (split; [reflexivity|]; exists [], [97; 98]%N; split; [reflexivity|]; split; [left; reflexivity|];
       split; [|reflexivity]; intros [H|[H|[]]]; discriminate).
  - apply (TextSpec.cc_range _ [] [] [] (Range (at_ 0 0) (at_ 0 0)) [89]%N); cbn [app TextModel.r_start TextModel.r_end];
      (split; [reflexivity|]; exists [], []; split; [reflexivity|]; split; [left; reflexivity|];
       split; [|reflexivity]; intros []).
Qed.
Print Assumptions C59_replaced_refuted.

(** a file of the workspace that appears, disappears and appears again before the loop looks *)
Theorem C59_flicker_refuted :
  run home [] [Some (Vfs [Loaded [(a_sp, Some []); (a_sp, None); (a_sp, Some [])]])] = Crashed /\
  ending_of (run home [] [Some (Vfs [Loaded [(a_sp, Some [])]]); Some (Vfs [Loaded [(a_sp, None); (a_sp, Some [])]])]) = Lives.
Proof. split; vm_compute; reflexivity. Qed.
Print Assumptions C59_flicker_refuted.

(** So the editor alone can stop it without exit. *)
Theorem C59_refuted : ~ (forall (E : env) (c : config E) ignored h,
  (forall d ids, project_roots E d = Some ids -> incl ids (map fst (SyncModel.known_files d))) ->
  threads_ok c ignored h -> (forall t, In (Some t) h -> exists m, t = Lsp m) -> run c ignored h <> Crashed).
Proof.
  intros H. apply (H demo home [] [note "textDocument/didSave" VOther]).
  - apply demo_roots.
  - assert (T : match initialised home [] with Some s => all_tameb s [note "textDocument/didSave" VOther] | None => true end = true)
      by (vm_compute; reflexivity).
    unfold threads_ok. destruct (initialised home []); [apply all_tameb_ok; exact T|exact I].
  - intros t [Ht|[]]. injection Ht as <-. eauto.
  - apply C59_parameters_refuted.
Qed.
Print Assumptions C59_refuted.

(** the opening and the editing of a document are polite *)
Definition edit : list (option (turn demo)) :=
  [note "textDocument/didOpen" (VOpen a_sp [97; 98]%N);
   note "textDocument/didChange" (VChange a_sp [Change (Some (Range (at_ 0 1) (at_ 0 1))) [88]%N]);
   note "exit" VOther].
Example C59_polite_nontrivial :
  polite (empty_world home) (watched_run home [] edit) /\ threads_ok home [] edit /\
  ending_of (run home [] edit) = Leaves.
Proof.
  split; [|split; [|vm_compute; reflexivity]].
  2: { assert (T : match initialised home [] with Some s => all_tameb s edit | None => true end = true) by (vm_compute; reflexivity).
       unfold threads_ok. destruct (initialised home []); [apply all_tameb_ok; exact T|exact I]. }
  assert (Ew : watched_run home [] edit = map (fun t => ([], t)) edit) by (vm_compute; reflexivity). rewrite Ew. clear Ew.
  unfold edit. cbn [map polite note].
  assert (Sc : Forall scalar [97; 98]%N) by (repeat constructor; cbv; intuition discriminate).
  right. split.
  { cbn [calm]. split; [|split].
    - intros Hm. unfold malformed in Hm. repeat destruct Hm as [Hm|Hm]; destruct Hm as [Hm1 Hm2]; discriminate.
    - intros u v x p _ H1 H2. injection H1 as <- <- <-. injection H2 as <-. split; [exact Sc|].
      exists ["w"]. split; [left; reflexivity|]. exists ["a.sp"]. reflexivity.
    - intros u v cs p x H. discriminate H. }
  intros w1 N1. apply next_open_inv in N1.
  destruct N1 as [(u & v & t & p & us & H1 & H2 & H3 & ->)|N1].
  2: { exfalso. eapply N1. eapply (w_open (E := demo)); reflexivity. }
  injection H1 as <- <- <-. injection H2 as <-. apply writes_open_inv in H3.
  destruct H3 as (u & v & t & p & H1 & H2 & ->). injection H1 as <- <- <-. injection H2 as <-.
  right. split.
  { cbn [calm]. split; [|split].
    - intros Hm. unfold malformed in Hm. repeat destruct Hm as [Hm|Hm]; destruct Hm as [Hm1 Hm2]; discriminate.
    - intros u v x p H. discriminate H.
    - intros u v cs p x _ H1 H2 _ Hd Hx. injection H1 as <- <- <-. injection H2 as <-.
      assert (x = [97; 98]%N) as ->.
      { cbv zeta in Hd. cbn [disk file_world empty_world] in Hd. unfold written, write in Hd. cbn [fold_left fst snd] in Hd.
        destruct (path_eq_dec a_sp a_sp); [|congruence]. injection Hd as Hd.
        assert (D : decode (encode x) = Some [97; 98]%N) by (rewrite <- Hd; reflexivity).
        rewrite (decode_encode _ Hx) in D. congruence. }
      split; [repeat constructor; cbv; intuition discriminate|]. split.
      + intros cs1 f cs2 Hc Hf. destruct cs1 as [|c [|c' cs1]]; [constructor|..];
          injection Hc; intros; subst; try discriminate; try (destruct cs1; discriminate).
      + exists [97; 88; 98]%N. eapply TextSpec.cl_cons; [|apply TextSpec.cl_nil].
        apply (TextSpec.cc_range _ [97]%N [] [98]%N (Range (at_ 0 1) (at_ 0 1)) [88]%N); cbn [app TextModel.r_start TextModel.r_end];
          (split; [reflexivity|]; exists [], [97]%N; split; [reflexivity|]; split; [left; reflexivity|];
           split; [|reflexivity]; intros [H|[]]; discriminate). }
  intros w2 _. left. exists VOther. reflexivity.
Qed.
