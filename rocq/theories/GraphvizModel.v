(** Model of the picture of the projects: crates/base-db/src/graph.rs 228-276 [to_graphviz] and the request for it,
    sourcepawn_lsp/src/handlers/request.rs 151-164. Strings are their UTF-8 bytes. *)
From Coq Require Import List String Ascii Bool Arith.
From Verif Require Import GraphModel ItemTreeModel.
From Verif Require VfsPathModel.
Import ListNotations.
Local Open Scope string_scope.
Local Open Scope nat_scope.
Local Open Scope list_scope.

(** graph.rs:300-389 *)
Definition COLORS : list string :=
  ["aliceblue"; "antiquewhite"; "aqua"; "aquamarine"; "azure"; "beige"; "bisque"; "black";
   "blanchedalmond"; "blue"; "blueviolet"; "brown"; "burlywood"; "cadetblue"; "chartreuse"; "chocolate";
   "coral"; "cornflowerblue"; "cornsilk"; "crimson"; "cyan"; "darkblue"; "darkcyan"; "darkgoldenrod";
   "darkgray"; "darkgreen"; "darkkhaki"; "darkmagenta"; "darkolivegreen"; "darkorange"; "darkorchid"; "darkred";
   "darksalmon"; "darkseagreen"; "darkslateblue"; "darkslategray"; "darkturquoise"; "darkviolet"; "deeppink"; "deepskyblue";
   "dimgray"; "dodgerblue"; "firebrick"; "floralwhite"; "forestgreen"; "fuchsia"; "gainsboro"; "ghostwhite";
   "gold"; "goldenrod"; "gray"; "green"; "greenyellow"; "honeydew"; "hotpink"; "indianred";
   "indigo"; "ivory"; "khaki"; "lavender"; "lavenderblush"; "lawngreen"; "lemonchiffon"; "lightblue";
   "lightcoral"; "lightcyan"; "lightgoldenrodyellow"; "lightgray"; "lightgreen"; "lightpink"; "lightsalmon"; "lightseagreen";
   "lightskyblue"; "lightslategray"; "lightsteelblue"; "lightyellow"; "lime"; "limegreen"; "linen"; "magenta";
   "maroon"; "mediumaquamarine"; "mediumblue"; "mediumorchid"; "mediumpurple"; "mediumseagreen"; "mediumslateblue"; "mediumspringgreen"].

Definition nl : string := String "010" "".
Definition quote : string := String "034" "".
(** graph.rs:239-248: the beginning of a project; one element of [out], of five lines. *)
Definition degree : string := String "194" (String "176" "").
Definition cluster_head (i : nat) : string :=
  ("  subgraph cluster_" ++ decimal i ++ " {" ++ nl ++
   "    style=filled;" ++ nl ++
   "    color=" ++ nth (i mod List.length COLORS) COLORS "" ++ ";" ++ nl ++
   "    node [style=filled,color=white];" ++ nl ++
   "    label = " ++ quote ++ "Project n" ++ degree ++ decimal i ++ quote ++ ";")%string.
(** graph.rs:250-254 and 266-269 *)
Definition edge_line (a b : string) : string := (quote ++ a ++ quote ++ " -> " ++ quote ++ b ++ quote ++ ";")%string.
Definition root_line (a : string) : string := (quote ++ a ++ quote ++ " [shape=Mdiamond];")%string.

Section picture.
(** [file_id_to_name] *)
Variable name : nat -> option string.

(** graph.rs:249-255: the operator [?] leaves the function. *)
Fixpoint edge_lines (es : list edge) : option (list string) :=
  match es with
  | [] => Some []
  | e :: tl =>
      match name (file_id (source e)), name (file_id (target e)), edge_lines tl with
      | Some a, Some b, Some ls => Some (edge_line a b :: ls)
      | _, _, _ => None
      end
  end.
(** graph.rs:234-257: projects that begin at a plugin, counted from [i]. *)
Fixpoint clusters (i : nat) (gs : list subgraph) : option (list string) :=
  match gs with
  | [] => Some []
  | g :: tl =>
      match edge_lines (sg_edges g), clusters (S i) tl with
      | Some ls, Some rest => Some (cluster_head i :: ls ++ ["}"] ++ rest)
      | _, _ => None
      end
  end.
(** graph.rs:258-270; the test in line 262 never holds behind the filter. *)
Fixpoint root_lines (gs : list subgraph) : option (list string) :=
  match gs with
  | [] => Some []
  | g :: tl =>
      if ext_eqb (ext (sg_root g)) Inc then root_lines tl
      else match name (file_id (sg_root g)), root_lines tl with
           | Some a, Some rest => Some (root_line a :: rest)
           | _, _ => None
           end
  end.
(** graph.rs:228-275; [gs] is the answer of [find_subgraphs]. *)
Definition to_graphviz (gs : list subgraph) : option string :=
  let plugins := filter (fun g => ext_eqb (ext (sg_root g)) Sp) gs in
  match clusters 0 plugins, root_lines plugins with
  | Some cs, Some rs => Some (String.concat nl ("digraph G {" :: cs ++ rs ++ ["}"]))
  | _, _ => None
  end.
End picture.

(** request.rs:157-162: the name of a file as it is drawn. *)
Definition file_label (p : VfsPathModel.vfs_path) : option string :=
  match VfsPathModel.vfs_name p with
  | Some (n, e) => Some (string_of_list_ascii (n ++ ["."%char] ++ match e with Some x => x | None => [] end))
  | None => None
  end.
