(** C38: the compiler's output is split into lines independently of how it arrives. *)
From Coq Require Import List NArith Bool Lia.
From Verif Require Import Utf8 StreamModel StreamSpec StreamProofs.
Import ListNotations.
Local Open Scope N_scope.

(** However the bytes of each stream are cut into reads and interleaved: once reading has ended, the lines
    passed on for each stream are the lines of everything it printed, and the returned bytes are everything it printed. *)
Theorem C38_chunks :
  forall rounds err out,
    streaming_output rounds = (err, out, true) ->
    called err = str_lines (lossy (printed (map fst rounds))) /\ dst err = printed (map fst rounds) /\
    called out = str_lines (lossy (printed (map snd rounds))) /\ dst out = printed (map snd rounds).
Proof.
  intros rounds err out H. assert (I : pinv no_pipe []).
  { repeat split; [left; reflexivity|intros []]. }
  pose proof (read2_inv rounds no_pipe no_pipe [] [] I I) as R. unfold streaming_output in H. rewrite H in R.
  destruct R as [R _]. destruct (R eq_refl) as (De & Do & (Ae & Ce & We) & (Ao & Co & Wo)).
  rewrite De in We. rewrite Do in Wo. rewrite We, app_nil_r in Ae. rewrite Wo, app_nil_r in Ao.
  cbn [app rest done no_pipe] in *. rewrite Ce, Co, <- Ae, <- Ao. auto.
Qed.
Print Assumptions C38_chunks.

(** For a compiler printing UTF-8: the lines passed on are exactly the printed lines. *)
Theorem C38_lines :
  forall rounds err out ls last,
    streaming_output rounds = (err, out, true) ->
    Forall plain ls -> plain last ->
    printed (map snd rounds) = encode (text ls last) ->
    called out = ls ++ match last with [] => [] | _ => [last] end.
Proof.
  intros rounds err out ls last H F (N & _ & S) E. destruct (C38_chunks _ _ _ H) as (_ & _ & C & _).
  rewrite C, E, lossy_encode by (apply text_scalar; assumption). apply str_lines_text; assumption.
Qed.
Print Assumptions C38_lines.

(** Lines are passed on as soon as they are complete: at any time, the lines of what was read up to the last
    line feed have been passed on. *)
Theorem C38_prompt :
  forall rounds err out,
    streaming_output rounds = (err, out, false) ->
    exists complete rest,
      printed (map snd rounds) = complete ++ rest /\ called out = str_lines (lossy complete) /\
      (rest <> [] -> ~ In NL rest).
Proof.
  intros rounds err out H. assert (I : pinv no_pipe []).
  { repeat split; [left; reflexivity|intros []]. }
  pose proof (read2_inv rounds no_pipe no_pipe [] [] I I) as R. unfold streaming_output in H. rewrite H in R.
  destruct R as [_ R]. destruct (R eq_refl) as (_ & (Ao & Co & Wo)). cbn [app rest done no_pipe] in *.
  exists (dst out), (data out). split; [exact Ao|]. split; [exact Co|]. intros D. destruct (done out); [congruence|]. apply Wo.
Qed.
Print Assumptions C38_prompt.

(** "é(\r\n" + "b" on stdout cut inside the character and inside the line end, stderr ending first *)
Example C38_nontrivial :
  let rounds := [(NotReady, Read [195] false); (Read [120; 10] true, Read [169; 40; 13] false);
                 (NotReady, Read [10; 98] false); (NotReady, Read [] true); (NotReady, Read [1] true)] in
  match streaming_output rounds with
  | (err, out, fin) => fin = true /\ called err = [[120]] /\ called out = [[233; 40]; [98]]
  end /\
  printed (map snd rounds) = encode ([233; 40; 13; 10; 98]).
Proof. vm_compute. repeat split. Qed.
