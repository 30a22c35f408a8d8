(** What the text of the status request should say. *)

From Coq Require Import String Ascii List NArith ZArith Bool.
From Verif Require Import UsageModel.
Import ListNotations.
Local Open Scope string_scope.

(** A size is shown in bytes up to 4096 of them, else in whole kilobytes, and from 4097 of
    those on in whole megabytes; what is cut off is less than one of the unit. *)
Definition size_shown (z : Z) (text : string) : Prop :=
  exists v unit name, text = show v ++ name /\
    (Z.abs v * unit <= Z.abs z < (Z.abs v + 1) * unit)%Z /\ (0 <= v * z)%Z /\
    ((Z.abs z <= 4096 /\ name = "b" /\ unit = 1) \/
     (4096 < Z.abs z < 4097 * 1024 /\ name = "kb" /\ unit = 1024) \/
     (4097 * 1024 <= Z.abs z /\ name = "mb" /\ unit = 1024 * 1024))%Z.

Definition total (l : list N) : N := fold_right N.add 0%N l.

Definition count {A} (f : A -> bool) (l : list A) : string := dec (N.of_nat (List.length (filter f l))).
Definition number {A} (l : list A) : string := dec (N.of_nat (List.length l)).

Definition there {A} (o : option A) : bool := match o with Some _ => true | None => false end.
Definition those {A} (l : list (option A)) : list A := flat_map (fun o => match o with Some a => [a] | None => [] end) l.

(** The room of the macros of the parameters of a file: what one takes on average, for each
    place of their table. *)
Definition table_size (p : params) : N := (total (p_macros p) / N.of_nat (List.length (p_macros p)) * p_capacity p)%N.

(** The lines, given how the three sizes are shown. *)
Definition status_lines (t : tables) (files macros table : string) : list string :=
  [files ++ " of files";
   number (t_trees t) ++ " trees, " ++ count (fun b => b) (t_trees t) ++ " preserved";
   number (t_data t) ++ " preprocessed file data, " ++ count there (t_data t) ++ " preserved, " ++
     number (flat_map d_macros (those (t_data t))) ++ " macros (" ++ macros ++ "), " ++
     dec (total (map d_offsets (those (t_data t)))) ++ " offsets";
   number (t_params t) ++ " preprocessed file params, " ++ count p_value (t_params t) ++ " preserved, " ++
     dec (total (map p_busy (t_params t))) ++ " being preprocessed, " ++
     number (flat_map p_macros (t_params t)) ++ " macros (" ++ table ++ ")";
   "";
   "Debug info:";
   dec (t_ast_ids t) ++ " ast id maps";
   dec (t_def_maps t) ++ " file def maps";
   dec (t_bodies t) ++ " body with sourcemap";
   dec (t_scopes t) ++ " expr scopes";
   dec (t_infer t) ++ " infer"].
