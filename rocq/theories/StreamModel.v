(** Model of reading the output of the compiler process line by line: crates/stdx/src/process.rs:13-51
    (streaming_output) over the unix reader, process.rs:88-150 (read2).
    - The operating system decides what each poll round finds in the pipes: a round is, for each pipe, either
      not ready, or the bytes read and whether the end was reached. The windows reader (process.rs:152-)
      calls the same closure and is not modelled. I/O errors are not modelled.
    - String::from_utf8_lossy and str::lines of the standard library are written out below ([lossy], [str_lines]). *)
From Coq Require Import List NArith Bool.
From Verif Require Import Utf8.
Import ListNotations.
Local Open Scope N_scope.

Definition NL : N := 10.
Definition CR : N := 13.
Definition FFFD : N := 65533.

(** String::from_utf8_lossy: every maximal beginning of a character that is not continued, and every byte that
    cannot begin one, becomes U+FFFD *)
Fixpoint lossy (bs : list N) : list N :=
  match bs with
  | [] => []
  | b0 :: tl =>
      if b0 <? 128 then b0 :: lossy tl
      else if within 194 b0 223 then
        match tl with
        | [] => [FFFD]
        | b1 :: tl1 => if cont b1 then ((b0 - 192) * 64 + (b1 - 128)) :: lossy tl1 else FFFD :: lossy tl
        end
      else if within 224 b0 239 then
        match tl with
        | [] => [FFFD]
        | b1 :: tl1 =>
            if second3 b0 b1 then
              match tl1 with
              | [] => [FFFD]
              | b2 :: tl2 =>
                  if cont b2 then ((b0 - 224) * 4096 + (b1 - 128) * 64 + (b2 - 128)) :: lossy tl2
                  else FFFD :: lossy tl1
              end
            else FFFD :: lossy tl
        end
      else if within 240 b0 244 then
        match tl with
        | [] => [FFFD]
        | b1 :: tl1 =>
            if second4 b0 b1 then
              match tl1 with
              | [] => [FFFD]
              | b2 :: tl2 =>
                  if cont b2 then
                    match tl2 with
                    | [] => [FFFD]
                    | b3 :: tl3 =>
                        if cont b3 then ((b0 - 240) * 262144 + (b1 - 128) * 4096 + (b2 - 128) * 64 + (b3 - 128)) :: lossy tl3
                        else FFFD :: lossy tl2
                    end
                  else FFFD :: lossy tl1
              end
            else FFFD :: lossy tl
        end
      else FFFD :: lossy tl
  end.

(** str::lines: a line ends at "\n" or "\r\n"; a last line needs no end *)
Fixpoint strip_cr (l : list N) : list N :=
  match l with
  | [] => []
  | [c] => if c =? CR then [] else [c]
  | c :: tl => c :: strip_cr tl
  end.
(* [cur]: the line being read, reversed *)
Fixpoint lines_from (cur : list N) (t : list N) : list (list N) :=
  match t with
  | [] => match cur with [] => [] | _ => [rev cur] end
  | c :: tl => if c =? NL then strip_cr (rev cur) :: lines_from [] tl else lines_from (c :: cur) tl
  end.
Definition str_lines (t : list N) : list (list N) := lines_from [] t.

(** data.iter().rposition('\n') and drain (process.rs:23-39): the bytes up to and including the last "\n",
    and the rest *)
Fixpoint split_nl (l : list N) : list N * list N :=
  match l with
  | [] => ([], [])
  | b :: tl =>
      let (p, r) := split_nl tl in
      match p with
      | [] => if b =? NL then ([b], r) else ([], b :: r)
      | _ => (b :: p, r)
      end
  end.

(** One pipe: the bytes read and not yet handed on (out / err in read2), whether its end was reached, the bytes
    handed on (stdout / stderr in streaming_output), and the lines passed to the callback *)
Record pipe := Pipe { data : list N; done : bool; dst : list N; called : list (list N) }.
Definition no_pipe : pipe := Pipe [] false [] [].

(** The closure of streaming_output, process.rs:22-48 *)
Definition on_data (p : pipe) : pipe :=
  let (new, rest) := if done p then (data p, []) else split_nl (data p) in
  Pipe rest (done p) (dst p ++ new) (called p ++ str_lines (lossy new)).

(** What poll and read_to_end find *)
Inductive ready := NotReady | Read (bytes : list N) (eof : bool).
(** process.rs:130-147, for one pipe *)
Definition poll (p : pipe) (r : ready) : pipe :=
  on_data (match r with
           | Read bs eof => if done p then p else Pipe (data p ++ bs) eof (dst p) (called p)
           | NotReady => p
           end).

(** The loop, process.rs:113-148: a list of rounds, each with what is found for stderr and stdout; it stops
    when both pipes are done, even if rounds remain. The last component tells whether it stopped. *)
Fixpoint read2 (err out : pipe) (rounds : list (ready * ready)) : pipe * pipe * bool :=
  if done err && done out then (err, out, true)
  else match rounds with
  | [] => (err, out, false)
  | (re, ro) :: tl => read2 (poll err re) (poll out ro) tl
  end.
Definition streaming_output (rounds : list (ready * ready)) : pipe * pipe * bool := read2 no_pipe no_pipe rounds.
