(** What an address says, apart from how it is read: escapes, the place it leads to, its text. *)
From Coq Require Import List Ascii String Bool NArith.
From Verif Require Import PathsSpec VfsPathSpec UrlModel.
Import ListNotations.
Local Open Scope list_scope.

(** The value of a hexadecimal digit is its position among them. *)
Definition digit_value (c : ascii) (n : nat) : Prop :=
  nth_error (list_ascii_of_string "0123456789ABCDEF") n = Some c \/ nth_error (list_ascii_of_string "0123456789abcdef") n = Some c.
Definition pct : ascii := "%"%char.

(** [means t b]: the escaped text [t] stands for the bytes [b]. A percent sign that begins no escape stands for itself. *)
Inductive means : list ascii -> list ascii -> Prop :=
| means_nil : means [] []
| means_escape a b h l t r : digit_value a h -> digit_value b l -> means t r -> means (pct :: a :: b :: t) (ascii_of_nat (16 * h + l) :: r)
| means_plain c t r : c <> pct -> means t r -> means (c :: t) (c :: r)
| means_stray t r : (forall a b h l s, t = a :: b :: s -> digit_value a h -> digit_value b l -> False) -> means t r -> means (pct :: t) (pct :: r).

(** An address of this computer: no host, or "localhost". *)
Definition local_ (u : url) : Prop := host u = None \/ host u = Some (list_ascii_of_string "localhost").
Definition well_formed (u : url) : Prop := segments u <> Some [].

(** [locates u l]: followed from the root, the path of [u] leads to the place [l]. An escaped slash is a slash. *)
Definition locates (u : url) (l : spot) : Prop :=
  local_ u /\ exists segs raws pieces, segments u = Some segs /\ Forall2 means segs raws /\
    Forall2 (fun raw ps => written ps raw) raws pieces /\ walk True [] (List.concat pieces) l.

(** A place as the file system of the server knows it *)
Definition stored (l : spot) : list string := map string_of_list_ascii l.
Definition proper_path (p : list string) : Prop := Forall (fun n => proper_name (list_ascii_of_string n)) p.

(** [reads t segs]: a text of the form file:///a/b, without a query, a fragment, a space or a backslash, whose pieces are [segs]. *)
Definition in_address (c : ascii) : Prop := (33 <= N_of_ascii c <= 126)%N /\ ~ In c (list_ascii_of_string """<>`#?{}\").
Definition reads (t : list ascii) (segs : list (list ascii)) : Prop :=
  exists p, t = list_ascii_of_string "file:///" ++ p /\ written segs p /\ Forall in_address p.
