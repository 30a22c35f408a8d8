(** C65: client and server keep to what they agreed on when they started. *)
From Coq Require Import List NArith ZArith Bool String Ascii Arith Lia.
From Verif Require Import VfsModel TextModel LoopModel HandshakeModel HandshakeSpec HandshakeProofs.
From Verif Require RequestsModel RequestsSpec RequestsProofs HighlightModel LoopProps.
Import ListNotations.
Local Open Scope string_scope.
Local Open Scope nat_scope.
Local Open Scope list_scope.

(** ** Requests of the client *)

Lemma expected_known : forall c m, expected c m <-> In m RequestsModel.handled_methods.
Proof.
  intros c m. unfold expected. split.
  - intros [I|I].
    + destruct I as [H|H|t H H1|t H H1 H2|t H H1|H|H|H|H|H|H]; try discriminate H; cbn; tauto.
    + cbn in I |- *. intuition.
  - intros I. cbn in I. repeat destruct I as [<-|I]; try destruct I;
      try (right; cbn; tauto); left;
      [eapply i_full|eapply i_delta|eapply i_range|apply i_definition|apply i_hover]; reflexivity.
Qed.

(** A request is worked on exactly when the announced capabilities invite it or it is one of the server's
    own; every other one is said to be unknown. *)
Theorem C65_served : forall json parse_error null c (s : RequestsModel.state json) q,
  let m := RequestsModel.rq_method json q in
  let s' := RequestsModel.on_new_request json parse_error null s q in
  m <> "shutdown" -> RequestsModel.shutdown_requested json s = false ->
  (expected c m -> parse_error m (RequestsModel.rq_params json q) = None ->
     RequestsModel.jobs json s' = RequestsModel.jobs json s ++ [q] /\ RequestsModel.sent json s' = RequestsModel.sent json s) /\
  (forall e, expected c m -> parse_error m (RequestsModel.rq_params json q) = Some e ->
     RequestsModel.jobs json s' = RequestsModel.jobs json s /\
     RequestsModel.sent json s' = RequestsModel.sent json s ++
       [RequestsModel.Resp json (RequestsModel.rq_id json q) (RequestsModel.Error json (-32602)%Z e)]) /\
  (~ expected c m ->
     RequestsModel.jobs json s' = RequestsModel.jobs json s /\
     RequestsModel.sent json s' = RequestsModel.sent json s ++
       [RequestsModel.Resp json (RequestsModel.rq_id json q) (RequestsModel.Error json (-32601)%Z "unknown request")]).
Proof.
  intros json pe null c s q m s' Hm Hd.
  set (s0 := RequestsModel.State json (RequestsModel.register (RequestsModel.rq_id json q) (RequestsModel.pending json s))
    (RequestsModel.shutdown_requested json s) (RequestsModel.jobs json s) (RequestsModel.tasks json s) (RequestsModel.sent json s)).
  assert (Hp : RequestsModel.is_pending (RequestsModel.rq_id json q) (RequestsModel.pending json s0) = true).
  { subst s0. cbn [RequestsModel.pending]. unfold RequestsModel.is_pending, RequestsModel.register.
    destruct (in_dec _ _ (RequestsModel.pending json s)) as [I|N].
    - destruct (in_dec _ _ (RequestsModel.pending json s)); [reflexivity|contradiction].
    - destruct (in_dec _ _ _) as [I|N1]; [reflexivity|]. exfalso. apply N1. left. reflexivity. }
  assert (Hs : s' = match RequestsSpec.immediate json pe null false q with
    | Some b => RequestsProofs.answer json s0 q false b
    | None => RequestsModel.State json (RequestsModel.pending json s0) false (RequestsModel.jobs json s ++ [q])
                (RequestsModel.tasks json s) (RequestsModel.sent json s) end).
  { subst s'. unfold RequestsModel.on_new_request. fold s0. rewrite (RequestsProofs.on_request_spec json pe null s0 q Hp).
    replace (RequestsModel.shutdown_requested json s0) with false by (symmetry; exact Hd).
    assert (Hn : RequestsSpec.shuts_down json pe q = false).
    { unfold RequestsSpec.shuts_down. fold m. rewrite (proj2 (String.eqb_neq m "shutdown") Hm). reflexivity. }
    rewrite Hn. reflexivity. }
  assert (Hi : RequestsSpec.immediate json pe null false q =
    if RequestsSpec.known m then
      match pe m (RequestsModel.rq_params json q) with Some e => Some (RequestsModel.Error json (-32602)%Z e) | None => None end
    else Some (RequestsModel.Error json (-32601)%Z "unknown request")).
  { unfold RequestsSpec.immediate. fold m. rewrite (proj2 (String.eqb_neq m "shutdown") Hm). reflexivity. }
  assert (Hk : RequestsSpec.known m = true <-> expected c m).
  { rewrite expected_known. unfold RequestsSpec.known. rewrite existsb_exists. split.
    - intros (x & Hx & Ex). apply String.eqb_eq in Ex. subst x. exact Hx.
    - intros I. exists m. split; [exact I|apply String.eqb_refl]. }
  rewrite Hi in Hs. clearbody s' m. split; [|split].
  - intros X P. apply Hk in X. rewrite X, P in Hs. subst s'. split; reflexivity.
  - intros e X P. apply Hk in X. rewrite X, P in Hs. subst s'. split; reflexivity.
  - intros X. assert (K : RequestsSpec.known m = false) by (destruct (RequestsSpec.known m); [exfalso; tauto|reflexivity]).
    rewrite K in Hs. subst s'. split; reflexivity.
Qed.
Print Assumptions C65_served.

(** The announced features do not depend on the client; the unfinished ones are not announced. *)
Theorem C65_announced : forall c m, invites (server_capabilities c) m <->
  In m ["textDocument/hover"; "textDocument/definition"; "textDocument/semanticTokens/full";
        "textDocument/semanticTokens/full/delta"; "textDocument/semanticTokens/range"].
Proof.
  intros c m. split.
  - intros I. destruct I as [H|H|t H H1|t H H1 H2|t H H1|H|H|H|H|H|H]; try discriminate H; cbn; tauto.
  - intros I. cbn in I. repeat destruct I as [<-|I]; try destruct I;
      [apply i_hover|apply i_definition|eapply i_full|eapply i_delta|eapply i_range]; reflexivity.
Qed.
Print Assumptions C65_announced.

(** After a shutdown every request should be refused, but a second one is carried out. *)
Theorem C65_shutdown_refuted :
  let q i := RequestsModel.Req unit (RequestsModel.IdNum i) "shutdown" tt in
  let s := RequestsModel.run unit (fun _ _ => None) tt [RequestsModel.Arrive unit (q 1%Z); RequestsModel.Arrive unit (q 2%Z)] in
  RequestsModel.sent unit s =
    [RequestsModel.Resp unit (RequestsModel.IdNum 1) (RequestsModel.Result unit tt);
     RequestsModel.Resp unit (RequestsModel.IdNum 2) (RequestsModel.Result unit tt)].
Proof. vm_compute. reflexivity. Qed.
Print Assumptions C65_shutdown_refuted.

(** ** Requests of the server *)

(** Whatever happens, and however the settings change, the loop only sends requests that the client said it
    can answer. Missing: the creation of progress tokens is not asked about. *)
Theorem C65_consent_partial : forall E caps (d : config E) ignored h (s : state (connect E)),
  LoopModel.run (E := connect E) (caps, d) ignored h = Running s ->
  forall i m, In (i, m) (sent (client_ s)) -> m <> "window/workDoneProgress/create" -> consents caps m.
Proof.
  intros E caps d ignored h s H i m I N. destruct (keeps_run _ _ _ _ _ _ H) as [_ F].
  rewrite Forall_forall in F. destruct (F _ I) as [C|C]; [exact C|contradiction].
Qed.
Print Assumptions C65_consent_partial.

(** Before the loop starts the settings are asked for when, and only when, the client can be asked; it is the
    same when they change. *)
Theorem C65_settings : forall mode c,
  (consents c "workspace/configuration" <-> exists x, asked_at_start mode c = Some x) /\
  (consents c "workspace/configuration" <-> exists x, asked_on_change mode c = Some x) /\
  (forall x, asked_on_change mode c = Some x -> x = if mode then "AMXXPawnLanguageServer" else "SourcePawnLanguageServer").
Proof.
  intros mode c. unfold asked_at_start, asked_on_change. rewrite <- pull_spec.
  destruct (has_pull_configuration_support c); (split; [|split]).
  - split; [intros _; eexists; reflexivity|reflexivity].
  - split; [intros _; eexists; reflexivity|reflexivity].
  - intros x H. injection H as <-. reflexivity.
  - split; [discriminate|intros [x H]; discriminate H].
  - split; [discriminate|intros [x H]; discriminate H].
  - intros x H. discriminate H.
Qed.
Print Assumptions C65_settings.

(** In the mode for AMX Mod X the settings of the other language are asked for at the start. *)
Theorem C65_section_refuted : exists c x y, asked_at_start true c = Some x /\ asked_on_change true c = Some y /\ x <> y.
Proof.
  exists (ClientCaps (Some (WorkspaceCaps (Some true) None)) None None []). do 2 eexists.
  split; [reflexivity|]. split; [reflexivity|]. discriminate.
Qed.
Print Assumptions C65_section_refuted.

(** A progress token is created at a client that said nothing about progress. *)
Definition silent : client_caps := ClientCaps None None None [].
Definition scan_starts : list (option (turn (connect LoopProps.demo))) := [Some (Vfs (E := connect LoopProps.demo) [Progress 1 0 1])].
Theorem C65_progress_refuted : exists s,
  LoopModel.run (E := connect LoopProps.demo) (silent, LoopProps.home) [] scan_starts = Running s /\
  In (0%Z, "window/workDoneProgress/create") (sent (client_ s)) /\ ~ consents silent "window/workDoneProgress/create".
Proof.
  eexists. split; [vm_compute; reflexivity|]. split; [left; reflexivity|].
  intros H. inversion H as [| |H1]. discriminate H1.
Qed.
Print Assumptions C65_progress_refuted.

(** Links are sent as definitions to every client, among them those that do not know them. *)
Theorem C65_links_refuted : exists c, answers_links c = true /\ ~ accepts_links c.
Proof. exists silent. split; [reflexivity|]. intros (t & H & _). discriminate H. Qed.
Print Assumptions C65_links_refuted.

(** A hover has a format that the client listed, or the default one. *)
Theorem C65_format : forall c text,
  let k := fst (hover_content c text) in
  (forall l, formats c l -> l <> [] -> In k l) /\ ((forall l, ~ formats c l) -> k = PlainText).
Proof.
  intros c text k. subst k. unfold hover_content, hover_format, formats, and_then. cbn [fst]. split.
  - intros l (t & Ht & Hl) N. rewrite Ht, Hl. destruct (existsb (kind_eqb Markdown) l) eqn:Ex.
    + apply existsb_exists in Ex. destruct Ex as ([|] & I & Hk); [discriminate|exact I].
    + destruct l as [|[|] tl]; [contradiction|left; reflexivity|discriminate Ex].
  - intros N. destruct (c_text c) as [t|] eqn:Ht; [|reflexivity].
    destruct (t_hover t) as [[l|]|] eqn:Hl; [|reflexivity|reflexivity].
    exfalso. apply (N l). exists t. split; [reflexivity|exact Hl].
Qed.
Print Assumptions C65_format.

(** The order of the list is the preference of the client, which is not followed. *)
Theorem C65_preference_refuted : exists c l text, formats c (PlainText :: l) /\ fst (hover_content c text) = Markdown.
Proof.
  exists (ClientCaps None (Some (TextCaps None (Some (Some [PlainText; Markdown])))) None []), [Markdown], "".
  split; [eexists; split; reflexivity|reflexivity].
Qed.
Print Assumptions C65_preference_refuted.

(** A client that only shows plain text is given the text written for the others. *)
Theorem C65_plain_refuted : exists c, formats c [PlainText] /\ forall markdown, hover_content c markdown = (PlainText, markdown).
Proof.
  exists (ClientCaps None (Some (TextCaps None (Some (Some [PlainText])))) None []).
  split; [eexists; split; reflexivity|reflexivity].
Qed.
Print Assumptions C65_plain_refuted.

(** ** Semantic tokens *)

Lemma hl_mods_spec : forall mods, hl_mods mods = if N.odd mods then ["macro"] else [].
Proof.
  intros mods. unfold hl_mods, macro_mask. rewrite (N.land_ones mods 1 : N.land mods 1 = _). cbn [N.pow Pos.pow].
  change (2 ^ 1)%N with 2%N. rewrite <- N.bit0_mod, N.bit0_odd. destruct (N.odd mods); reflexivity.
Qed.

(** The numbers of a highlight are never missing from the legend, and the client reads its type and
    modifiers from them. *)
Theorem C65_legend : forall c t mods, exists i b, type_and_modifiers t mods = Some (i, b) /\
  (forall x, reads_type (server_capabilities c) i x <-> x = type_name t) /\
  (forall x, reads_modifier (server_capabilities c) b x <-> modifier_name mods x).
Proof.
  intros c t mods. unfold type_and_modifiers, modifier_name, is_macro. rewrite hl_mods_spec.
  assert (M : forall x, reads_modifier (server_capabilities c) (if N.odd mods then 16384 else 0)%N x <->
                        N.odd mods = true /\ x = "macro").
  { intros x. unfold reads_modifier. destruct (N.odd mods).
    - split.
      + intros (l & k & Hl & Hb & Hk). injection Hl as <-. split; [reflexivity|].
        assert (k = 14) as ->.
        { destruct (Nat.eq_dec k 14) as [E|E]; [exact E|]. exfalso. revert Hb.
          change 16384%N with (2 ^ 14)%N. rewrite N.pow2_bits_false; [discriminate|lia]. }
        injection Hk as <-. reflexivity.
      + intros [_ ->]. do 2 eexists. split; [reflexivity|]. split; [|instantiate (1 := 14); reflexivity]. reflexivity.
    - split; [|intros [H _]; discriminate H]. intros (l & k & _ & Hb & _). rewrite N.bits_0 in Hb. discriminate Hb. }
  assert (T : forall i n, nth_error supported_types i = Some n ->
              forall x, reads_type (server_capabilities c) i x <-> x = n).
  { intros i n Hn x. unfold reads_type. split.
    - intros (l & Hl & Hx). injection Hl as <-. cbn [legend_types] in Hx. rewrite Hn in Hx. congruence.
    - intros ->. eexists. split; [reflexivity|exact Hn]. }
  exists (match t with TagMacro => 7 | TagNone => 39 end), (if N.odd mods then 16384 else 0)%N.
  split; [destruct t, (N.odd mods); vm_compute; reflexivity|].
  split; [|exact M]. destruct t; apply T; reflexivity.
Qed.
Print Assumptions C65_legend.

(** The legend itself: no name twice, and the modifiers fit into the 32 bits of a token. *)
Theorem C65_legend_names : forall c t, s_tokens (server_capabilities c) = Some t ->
  NoDup (legend_types t) /\ NoDup (legend_modifiers t) /\ List.length (legend_modifiers t) <= 32.
Proof.
  intros c t H. injection H as <-. cbn [legend_types legend_modifiers].
  split; [|split; [|vm_compute; lia]].
  - apply (NoDup_count_occ' string_dec). apply Forall_forall.
    assert (F : forallb (fun x => Nat.eqb (count_occ string_dec supported_types x) 1) supported_types = true) by (vm_compute; reflexivity).
    rewrite Forall_forall. intros x I. rewrite forallb_forall in F. apply Nat.eqb_eq. apply F. exact I.
  - apply (NoDup_count_occ' string_dec). apply Forall_forall.
    assert (F : forallb (fun x => Nat.eqb (count_occ string_dec supported_modifiers x) 1) supported_modifiers = true) by (vm_compute; reflexivity).
    rewrite Forall_forall. intros x I. rewrite forallb_forall in F. apply Nat.eqb_eq. apply F. exact I.
Qed.
Print Assumptions C65_legend_names.

(** The tokens of a file: those of the highlights that say something, in order, and never a panic. *)
Theorem C65_tokens : forall R (l : list (R * hl_tag * N)) c, exists out, tokens l = Some out /\
  Forall2 (fun h o => let '(r, t, m) := h in let '(r', i, b) := o in
             r' = r /\ reads_type (server_capabilities c) i (type_name t) /\
             forall x, reads_modifier (server_capabilities c) b x <-> modifier_name m x)
    (filter (fun h => let '(_, t, m) := h in match t with TagMacro => true | TagNone => negb (N.eqb m 0) end) l) out.
Proof.
  intros R l c. induction l as [|[[r t] m] tl (out & Ho & IH)]; [exists []; split; [reflexivity|constructor]|].
  cbn [tokens filter]. destruct (C65_legend c t m) as (i & b & Hi & HT & HM).
  assert (X : highlight_is_empty t m = negb (match t with TagMacro => true | TagNone => negb (N.eqb m 0) end)).
  { destruct t; cbn; [reflexivity|]. rewrite negb_involutive. reflexivity. }
  rewrite X. destruct (match t with TagMacro => true | TagNone => negb (N.eqb m 0) end); cbn [negb].
  - rewrite Hi, Ho. eexists. split; [reflexivity|]. constructor; [|exact IH].
    split; [reflexivity|]. split; [apply HT; reflexivity|exact HM].
  - exists out. split; [exact Ho|exact IH].
Qed.
Print Assumptions C65_tokens.

(** The number used by the model of highlighting (C58) is the one the legend gives to macros. *)
Theorem C65_macro : option_map N.of_nat (type_index "macro") = Some HighlightModel.macro_type.
Proof. vm_compute. reflexivity. Qed.
Print Assumptions C65_macro.

(** ** Directories *)

Lemma absolute_spec : forall p, absolute p = true <-> is_absolute p.
Proof.
  intros [|a p]; unfold is_absolute; cbn.
  - split; [discriminate|]. intros [q H]. discriminate H.
  - rewrite Ascii.eqb_eq. split; [intros ->; exists p; reflexivity|]. intros [q H]. injection H as -> _. reflexivity.
Qed.

(** The root given by the client is loaded, and the working directory if it gives none that is a path. *)
Theorem C65_root : forall h dirs,
  (forall p, root_uri h = Some (Some p) -> is_absolute p -> root_path h = p) /\
  ((forall p, root_uri h = Some (Some p) -> ~ is_absolute p) -> root_path h = cwd h) /\
  In (root_path h) (source_roots h dirs) /\
  forall x, In x (source_roots h dirs) <-> In x (loaded h dirs).
Proof.
  intros h dirs. unfold root_path, and_then. split; [|split; [|split]].
  - intros p -> A. apply absolute_spec in A. rewrite A. reflexivity.
  - intros N. destruct (root_uri h) as [[p|]|]; [|reflexivity|reflexivity].
    destruct (absolute p) eqn:A; [|reflexivity]. exfalso. apply (N p eq_refl). apply absolute_spec. exact A.
  - left. reflexivity.
  - intros x. unfold source_roots, loaded. rewrite in_app_iff. cbn [In]. tauto.
Qed.
Print Assumptions C65_root.

(** The folders of the workspace are remembered but not loaded. *)
Theorem C65_folders_refuted : exists h x, In x (workspace_roots h) /\ folders h = Some [Some "/a"; Some x] /\ ~ In x (loaded h []).
Proof.
  exists (Handshake (Some (Some "/a")) (Some [Some "/a"; Some "/b"]) "/"), "/b".
  split; [cbn; tauto|]. split; [reflexivity|]. cbn. intros [H|[]]. discriminate H.
Qed.
Print Assumptions C65_folders_refuted.

(** ** Not vacuous *)

Definition full_caps : client_caps :=
  ClientCaps (Some (WorkspaceCaps (Some true) (Some (Some true))))
    (Some (TextCaps (Some (Some true)) (Some (Some [PlainText])))) (Some (Some true)) [].
Definition quiet_caps : client_caps :=
  ClientCaps (Some (WorkspaceCaps (Some false) (Some None))) None (Some (Some true)) [].
Definition talk : list (option (turn (connect LoopProps.demo))) :=
  [Some (Vfs (E := connect LoopProps.demo) [Progress 1 0 1; Progress 1 1 1]);
   Some (Lsp (E := connect LoopProps.demo) (Notification (E := connect LoopProps.demo) "workspace/didChangeConfiguration" LoopProps.VOther));
   Some (Lsp (E := connect LoopProps.demo) (Notification (E := connect LoopProps.demo) "textDocument/didOpen" (LoopProps.VOpen LoopProps.a_sp [97]%N)))].
Definition methods caps : option (list string) :=
  match LoopModel.run (E := connect LoopProps.demo) (caps, LoopProps.home) [] talk with
  | Running s => Some (map snd (sent (client_ s)))
  | _ => None
  end.
Example C65_nontrivial :
  methods full_caps = Some ["window/workDoneProgress/create"; "workspace/semanticTokens/refresh"; "workspace/configuration";
                            "workspace/semanticTokens/refresh"] /\
  methods quiet_caps = Some ["window/workDoneProgress/create"] /\
  tokens [(1, TagMacro, 0%N); (2, TagNone, 0%N); (3, TagNone, 1%N); (4, TagMacro, 1%N)]
    = Some [(1, 7, 0%N); (3, 39, 16384%N); (4, 7, 16384%N)] /\
  (hover_format full_caps, hover_format silent) = (PlainText, PlainText) /\
  root_path (Handshake (Some (Some "/a")) None "/c") = "/a" /\ root_path (Handshake (Some None) None "/c") = "/c".
Proof. repeat match goal with |- _ /\ _ => split end; vm_compute; reflexivity. Qed.
