(** What the editor shows: the text and version of every open document, from the notifications it
    sent; loads do not appear. *)
From Coq Require Import List NArith ZArith Bool String.
From Verif Require Import VfsModel TextModel TextSpec Utf8 OpenDocsModel.
Import ListNotations.

Definition about (m : message) (p : path) : Prop :=
  match m with DidOpen q _ _ | DidChange q _ _ | DidClose q => q = p | Loaded _ => False end.

(** [editor enc h p (Some (t, v))]: after sending the notifications of [h], the document [p] is open with
    text [t] and version [v]; None: it is closed. A well-behaved editor only sends changes that make
    sense in the text it shows. *)
Inductive editor (enc : encoding) : list message -> path -> option (list char * Z) -> Prop :=
| ed_start p : editor enc [] p None
| ed_other h m p d : editor enc h p d -> ~ about m p -> editor enc (h ++ [m]) p d
| ed_open h p v t d : editor enc h p d -> Forall scalar t -> editor enc (h ++ [DidOpen p v t]) p (Some (t, v))
| ed_change h p v cs t t' v0 : editor enc h p (Some (t, v0)) -> client enc t cs t' ->
    Forall (fun c => Forall scalar (c_text c)) cs ->
    (* the restriction of C04 *)
    (forall cs1 f cs2, cs = cs1 ++ f :: cs2 -> c_range f = None -> Forall (fun c => c_range c = None) cs1) ->
    editor enc (h ++ [DidChange p v cs]) p (Some (t', v))
| ed_orphan h p v cs : editor enc h p None -> editor enc (h ++ [DidChange p v cs]) p None
| ed_close h p d : editor enc h p d -> editor enc (h ++ [DidClose p]) p None.

(** The contents the server has for a path. *)
Definition server_contents (s : server) (p : path) : res (option contents) :=
  bind (file_id_of (sv_vfs s) p) (fun i =>
    match i with None => Ok None | Some i => bind (file_contents (sv_vfs s) i) (fun c => Ok (Some c)) end).
