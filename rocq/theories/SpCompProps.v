(** C15: compiler messages and the compiler's command line. *)
From Coq Require Import List NArith Bool String Ascii Lia ZifyBool ZifyN.
From Verif Require Import SpCompModel SpCompSpec SpCompProofs StreamModel StreamSpec StreamProps.
Import ListNotations.
Local Open Scope N_scope.

(** A message about a line of a file, whose name has only the usual characters, gives the diagnostic with that
    file, line (counted from 0), severity, code and text. *)
Theorem C15_message_partial :
  forall other_digit debug path line s code text,
    absolute path -> Forall path_char path ->
    decimal line -> 1 <= value line <= U32_MAX ->
    decimal code -> one_line text -> trimmed text ->
    try_from_line other_digit debug (message_line path line s code (str " ") text) =
    Diag (Diagnostic path (value line - 1) s code text).
Proof.
  intros od debug path line s code text A Fp [Ln Fl] V [_ Fc] O T. unfold try_from_line.
  rewrite (captures_here od _ (Captures path line s code text)).
  - cbn [c_path c_line c_sev c_code c_msg]. rewrite (proj1 (absolute_spec path) A).
    rewrite (proj2 (parse_u32_spec line (value line))); [|repeat split; [assumption..|lia]].
    replace (value line =? 0) with false by lia. reflexivity.
  - apply match_here_ok; auto; try discriminate.
    + revert Fl. apply Forall_impl. intros c H. unfold is_digit. rewrite (proj1 (digit_ascii c) H). reflexivity.
    + repeat constructor.
Qed.
Print Assumptions C15_message_partial.

(** Such a message is shown on its line, with its severity, code and text. *)
Theorem C15_shown :
  forall other_digit debug path line s code text,
    absolute path -> Forall path_char path ->
    decimal line -> 1 <= value line <= U32_MAX ->
    decimal code -> one_line text -> trimmed text ->
    exists d,
      try_from_line other_digit debug (message_line path line s code (str " ") text) = Diag d /\
      shown_as (value line) s code text (map_spcomp_diagnostic_to_lsp d).
Proof.
  intros. eexists. split; [apply C15_message_partial; assumption|]. unfold shown_as. simpl.
  repeat split; try lia; destruct s; simpl; congruence.
Qed.
Print Assumptions C15_shown.

(** Conversely a diagnostic is only made from a line that contains such a message, and has its contents; what
    precedes the message does not end in a character of a file name. *)
Theorem C15_only_messages :
  forall other_digit debug l d,
    try_from_line other_digit debug l = Diag d ->
    exists pre line gap rest,
      l = (pre ++ message_line (d_path d) line (d_severity d) (d_code d) gap (d_message d) ++ rest)%list /\
      absolute (d_path d) /\ Forall path_char (d_path d) /\ decimal line /\
      (d_line d + 1 = value line \/ value line = 0 /\ debug = false) /\
      (forall a c, pre = (a ++ [c])%list -> ~ path_char c) /\
      (one_line l -> rest = []).
Proof.
  intros od debug l d H. unfold try_from_line in H. destruct (captures od l) as [c|] eqn:E; [|discriminate].
  destruct (is_absolute (c_path c)) eqn:A; [|discriminate]. destruct (parse_u32 (c_line c)) as [n|] eqn:P; [|discriminate].
  apply parse_u32_spec in P. destruct P as (D & V & B).
  destruct (captures_spec od _ _ E) as (pre & l' & -> & M & L).
  destruct (match_here_spec od _ _ M) as (gap & rest & -> & Fp & Ln & Fl & Fc & Gn & Fg & Tr & O & R).
  assert (K : d_path d = c_path c /\ d_severity d = c_sev c /\ d_code d = c_code c /\ d_message d = c_msg c /\
              (d_line d + 1 = value (c_line c) \/ value (c_line c) = 0 /\ debug = false)).
  { destruct (n =? 0) eqn:Q.
    - destruct debug; [discriminate|]. injection H as <-. cbn. repeat split. right. split; [lia|reflexivity].
    - injection H as <-. cbn. repeat split. left. lia. }
  destruct K as (K1 & K2 & K3 & K4 & K5). exists pre, (c_line c), gap, rest. rewrite K1, K2, K3, K4.
  split; [reflexivity|]. split; [apply absolute_spec; exact A|]. split; [exact Fp|]. split; [exact D|]. split; [exact K5|].
  split.
  - intros a x -> Px. specialize (L a [x] eq_refl). cbn [app] in L.
    assert (M' : match_here od (message_line (x :: c_path c) (c_line c) (c_sev c) (c_code c) gap (c_msg c ++ rest)) <> None).
    { unfold match_here, message_line. rewrite span_all; [|constructor; [apply path_char_spec; exact Px|revert Fp; apply Forall_impl; intros y; apply path_char_spec]|reflexivity].
      rewrite strip_app. rewrite span_all; [|exact Fl|apply not_other; [vm_compute; discriminate|reflexivity]].
      destruct (c_line c) as [|x1 line]; [congruence|]. rewrite strip_app, match_severity_ok.
      rewrite span_all; [|revert Fc; apply Forall_impl; intros y; apply digit_ascii|reflexivity].
      rewrite strip_app. destruct gap as [|g gap]; [congruence|]. cbn [app span]. inversion Fg as [|? ? Hg Fg']; subst.
      rewrite Hg. destruct (span is_space (gap ++ c_msg c ++ rest)). discriminate. }
    apply M'. rewrite <- L by discriminate. f_equal. unfold message_line. cbn [app]. f_equal. rewrite <- !app_assoc. reflexivity.
  - intros O1. destruct rest as [|y rest]; [reflexivity|]. subst y. exfalso. apply O1. apply in_or_app. right.
    apply in_or_app. right. left. reflexivity.
Qed.
Print Assumptions C15_only_messages.

(** Together with C38: for a compiler that prints lines of text ended by line feeds, and however its output is cut
    into reads, the diagnostics sent for a stream are those of its lines, in order. *)
Theorem C15_stream :
  forall other_digit debug rounds err out ls,
    streaming_output rounds = (err, out, true) ->
    Forall plain ls ->
    printed (map snd rounds) = Utf8.encode (text ls []) ->
    Forall (fun l => try_from_line other_digit debug l <> Panic) ls ->
    report other_digit debug (called out) =
      (flat_map (fun l => match try_from_line other_digit debug l with Diag d => [d] | _ => [] end) ls, true).
Proof.
  intros od debug rounds err out ls H F E NP.
  assert (P : plain []) by (split; [intros []|split; [intros l' Q; destruct l'; discriminate|constructor]]).
  rewrite (C38_lines _ _ _ _ _ H F P E), app_nil_r. clear -NP.
  induction NP as [|l ls Hl NP IH]; [reflexivity|]. cbn [report flat_map].
  destruct (try_from_line od debug l); [exact IH|rewrite IH; reflexivity|congruence].
Qed.
Print Assumptions C15_stream.

(** Finding: a file name with any other character gives a diagnostic for another file: here the message is about
    /home/c++/a.sp and the diagnostic about /a.sp. *)
Theorem C15_path_refuted :
  forall other_digit debug,
    let path := str "/home/c++/a.sp" in
    try_from_line other_digit debug (message_line path (str "3") Error (str "001") (str " ") (str "bad")) =
    Diag (Diagnostic (str "/a.sp") 2 Error (str "001") (str "bad")).
Proof. intros od debug. vm_compute. reflexivity. Qed.
Print Assumptions C15_path_refuted.

(** Finding: a message about line 0 makes debug builds panic, and gives the largest line number in others. *)
Theorem C15_line_zero_refuted :
  forall other_digit path s code text,
    absolute path -> Forall path_char path -> decimal code -> one_line text -> trimmed text ->
    let l := message_line path (str "0") s code (str " ") text in
    try_from_line other_digit true l = Panic /\
    try_from_line other_digit false l = Diag (Diagnostic path U32_MAX s code text).
Proof.
  intros od path s code text A Fp [_ Fc] O T l.
  assert (E : captures od l = Some (Captures path (str "0") s code text)).
  { apply captures_here. apply match_here_ok; auto; try discriminate; repeat constructor. }
  unfold try_from_line. rewrite E. cbn [c_path c_line c_sev c_code c_msg]. rewrite (proj1 (absolute_spec path) A).
  split; reflexivity.
Qed.
Print Assumptions C15_line_zero_refuted.

(** The arguments prepared for the compiler begin with the plugin, then give the include directories of the settings
    in order before the directory of the plugin, and end with the user's extra arguments. *)
Theorem C15_arguments_partial :
  forall root out dirs extra parent include_exists,
    (forall tl, root <> 45 :: tl) ->
    exists middle,
      build_args root out dirs extra parent include_exists = (root :: middle ++ extra)%list /\
      include_dirs (root :: middle) =
        (dirs ++ match parent with
                 | None => []
                 | Some p => p :: if include_exists then [p ++ str "/include"] else []
                 end)%list /\
      In (str "--syntax-only") middle /\ In (str "-o" ++ out)%list middle.
Proof.
  intros root out dirs extra parent ie R.
  exists (map (fun d => (str "-i" ++ d)%list) dirs ++
    match parent with
    | Some p => [str "-i" ++ p] ++ if ie then [str "-i" ++ p ++ str "/include"] else []
    | None => []
    end ++ [str "-o" ++ out; str "--syntax-only"])%list.
  split; [unfold build_args; rewrite <- !app_assoc; reflexivity|]. split.
  - assert (Q : forall a b, include_dirs (a ++ b) = (include_dirs a ++ include_dirs b)%list) by (intros; apply flat_map_app).
    assert (D : include_dirs (map (fun d => (str "-i" ++ d)%list) dirs) = dirs).
    { clear. induction dirs as [|d dirs IH]; [reflexivity|]. cbn [map]. change (include_dirs ?x) with (include_dirs x) in IH.
      cbn. f_equal. exact IH. }
    change (root :: ?x) with ([root] ++ x)%list. rewrite !Q, D.
    assert (E : include_dirs [root] = []).
    { destruct root as [|c root]; [reflexivity|]. unfold include_dirs. cbn [flat_map]. rewrite app_nil_r.
      assert (c <> 45) by (intros ->; exact (R root eq_refl)). destruct c as [|p]; [reflexivity|].
      do 6 (destruct p as [p|p|]; try reflexivity). congruence. }
    rewrite E. cbn [app]. destruct parent as [p|]; [|cbn; rewrite !app_nil_r; reflexivity].
    destruct ie; cbn; rewrite ?app_nil_r; reflexivity.
  - split; apply in_or_app; right; apply in_or_app; right; [right; left|left]; reflexivity.
Qed.
Print Assumptions C15_arguments_partial.

(** Finding: outside macos on aarch64 the compiler receives, before these arguments, the argument "-x86_64" and its own
    file name as the first file to compile. *)
Theorem C15_command_refuted :
  forall command args,
    check_command false command args = (command, str "-x86_64" :: command :: args).
Proof. reflexivity. Qed.
Print Assumptions C15_command_refuted.

Example C15_nontrivial :
  let path := str "/home/me/my plugin.sp" in
  absolute path /\ Forall path_char path /\ decimal (str "12") /\ value (str "12") = 12 /\ decimal (str "017") /\
  one_line (str "undefined symbol ""x (1) : y""") /\ trimmed (str "undefined") /\
  try_from_line (fun _ => false) true
    (message_line path (str "12") FatalError (str "017") (str " ") (str "undefined symbol ""x (1) : y""")) =
    Diag (Diagnostic path 11 FatalError (str "017") (str "undefined symbol ""x (1) : y""")) /\
  report (fun _ => false) true [str "2 Errors."; str "x /a.sp(1) : warning 2: b"] =
    ([], true) /\
  report (fun _ => false) true [str "2 Errors."; str ">/a.sp(1) : warning 2: b"] =
    ([Diagnostic (str "/a.sp") 0 Warning (str "2") (str "b")], true).
Proof.
  cbv zeta.
  split; [eexists; reflexivity|].
  split; [apply Forall_forall; intros c H; apply path_char_spec; revert c H; apply Forall_forall; repeat constructor|].
  split; [split; [discriminate|apply Forall_forall; intros c H; apply digit_ascii; revert c H; apply Forall_forall; repeat constructor]|].
  split; [reflexivity|].
  split; [split; [discriminate|apply Forall_forall; intros c H; apply digit_ascii; revert c H; apply Forall_forall; repeat constructor]|].
  split; [intros H; vm_compute in H; repeat (destruct H as [H|H]; [discriminate H|]); exact H|].
  split; [reflexivity|]. repeat split.
Qed.
