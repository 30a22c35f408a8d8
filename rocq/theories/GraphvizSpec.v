(** What a picture of projects shows, for C67: a reader of the text in the language of Graphviz. *)
From Coq Require Import List String Ascii Bool Arith.
Import ListNotations.
Local Open Scope string_scope.
Local Open Scope nat_scope.
Local Open Scope list_scope.

Definition line_end : ascii := "010".
Definition mark : ascii := "034".
(** The lines of a text. *)
Fixpoint lines (s : string) : list string :=
  match s with
  | "" => [""]
  | String c tl => if Ascii.eqb c line_end then "" :: lines tl
                   else match lines tl with l :: ls => String c l :: ls | [] => [String c ""] end
  end.
Fixpoint drop (n : nat) (s : string) : string :=
  match n, s with S n, String _ tl => drop n tl | _, _ => s end.
(** What stands up to the next quotation mark, and what follows it. *)
Fixpoint up_to_mark (s : string) : option (string * string) :=
  match s with
  | "" => None
  | String c tl => if Ascii.eqb c mark then Some ("", tl)
                   else match up_to_mark tl with Some (a, r) => Some (String c a, r) | None => None end
  end.
Definition quoted (s : string) : option (string * string) :=
  match s with String c tl => if Ascii.eqb c mark then up_to_mark tl else None | "" => None end.

(** A picture: for each project the arrows in it, and the files drawn as a diamond. *)
Record picture := Picture { projects : list (list (string * string)); diamonds : list string }.

Definition arrow (l : string) : option (string * string) :=
  match quoted l with
  | Some (a, r) => if prefix " -> " r then match quoted (drop 4 r) with Some (b, t) => if String.eqb t ";" then Some (a, b) else None | None => None end else None
  | None => None
  end.
Definition diamond (l : string) : option string :=
  match quoted l with Some (a, r) => if String.eqb r " [shape=Mdiamond];" then Some a else None | None => None end.
(** [body within ls]: the lines up to the last closing brace; [within] tells whether they begin within a project, whose
    remaining arrows come first in the answer. *)
Fixpoint body (within : bool) (ls : list string) : option (list (string * string) * picture) :=
  match ls with
  | [] => None
  | l :: tl =>
      if within then
        if String.eqb l "}" then match body false tl with Some (_, p) => Some ([], p) | None => None end
        else if prefix "    " l then body true tl
        else match arrow l, body true tl with Some a, Some (as_, p) => Some (a :: as_, p) | _, _ => None end
      else if String.eqb l "}" then match tl with [] => Some ([], Picture [] []) | _ => None end
      else if prefix "  subgraph " l then match body true tl with Some (as_, p) => Some ([], Picture (as_ :: projects p) (diamonds p)) | None => None end
      else match diamond l, body false tl with Some a, Some (_, p) => Some ([], Picture (projects p) (a :: diamonds p)) | _, _ => None end
  end.
Definition read (t : string) : option picture :=
  match lines t with
  | l :: ls => if String.eqb l "digraph G {" then option_map snd (body false ls) else None
  | [] => None
  end.

(** Names that can stand between quotation marks on one line. *)
Fixpoint plain (s : string) : Prop :=
  match s with "" => True | String c tl => c <> mark /\ c <> line_end /\ plain tl end.
