(** Model of how the editor is told which file to compile: crates/sourcepawn_lsp/src/handlers/request.rs:250-265
    (handle_project_main_path), lsp_ext.rs:60-75. The graph of the files is GraphModel (C28), projects_for_file is SaveModel
    (C57), addresses are UrlModel (C69). The subgraphs [gs] are those that were found, in the order in which the hash tables
    iterate. A cancelled query is answered with an error that asks for a retry; it is not modelled (C11). *)
From Coq Require Import List Ascii String Bool Arith.
From Verif Require Import GraphModel SaveModel.
From Verif Require PathsModel VfsModel UrlModel.
Import ListNotations.
Local Open Scope list_scope.

Inductive answer := NoUri | NotAFile | NoProject | Main (u : UrlModel.url).

(** request.rs:250-265; the panic is that of the address of a file without a path *)
Definition handle_project_main_path (back : bool) (v : VfsModel.vfs) (gs : list subgraph) (uri : option UrlModel.url) : VfsModel.res answer :=
  match uri with
  | None => VfsModel.Ok NoUri
  | Some u =>
      VfsModel.bind (UrlModel.url_to_file_id v u) (fun f =>
        match f with
        | None => VfsModel.Ok NotAFile
        | Some f =>
            match projects_for_file gs f with
            | [] => VfsModel.Ok NoProject
            | r :: _ => VfsModel.bind (UrlModel.file_id_to_url back v r) (fun u => VfsModel.Ok (Main u))
            end
        end)
  end.
