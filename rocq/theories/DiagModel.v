(** Model of crates/sourcepawn_lsp/src/diagnostics.rs:23-140 (DiagnosticCollection) and of the publication
    of diagnostics at the end of each turn, main_loop.rs:704-744.
    Simplifications: IntMap and IntSet are association lists and lists; the order in which a
    hash map or set is iterated is not fixed by the program, so it is an input of the publication.
    The document version attached to a publication and the conversion of a file id to its URI are left
    out. Of lsp_types::Diagnostic the code description and data, never set, are left out. *)
From Coq Require Import List Bool String Arith.
Import ListNotations.

(** lsp_types::Diagnostic; of the related information only the messages *)
Record diagnostic := Diagnostic {
  d_range : nat * nat * nat * nat; d_severity : option nat; d_code : option string; d_source : option string;
  d_message : string; d_related : option (list string); d_tags : option (list nat) }.

Definition option_eqb {A} (f : A -> A -> bool) (a b : option A) : bool :=
  match a, b with Some a, Some b => f a b | None, None => true | _, _ => false end.
Definition range_eqb (a b : nat * nat * nat * nat) : bool :=
  let '(a1, a2, a3, a4) := a in let '(b1, b2, b3, b4) := b in
  Nat.eqb a1 b1 && Nat.eqb a2 b2 && Nat.eqb a3 b3 && Nat.eqb a4 b4.

(** diagnostics.rs:142-147 *)
Definition are_diagnostics_equal (l r : diagnostic) : bool :=
  option_eqb String.eqb (d_source l) (d_source r) && option_eqb Nat.eqb (d_severity l) (d_severity r)
  && range_eqb (d_range l) (d_range r) && String.eqb (d_message l) (d_message r).

Notation file_id := nat (only parsing).
Notation flycheck_id := nat (only parsing).

(** IntMap *)
Notation map_ A := (list (nat * A)) (only parsing).
Fixpoint get {A} (m : map_ A) (k : nat) : option A :=
  match m with [] => None | (k', v) :: tl => if Nat.eqb k' k then Some v else get tl k end.
Fixpoint insert {A} (m : map_ A) (k : nat) (v : A) : map_ A :=
  match m with
  | [] => [(k, v)]
  | (k', w) :: tl => if Nat.eqb k' k then (k', v) :: tl else (k', w) :: insert tl k v
  end.
Fixpoint remove {A} (m : map_ A) (k : nat) : map_ A :=
  match m with [] => [] | (k', w) :: tl => if Nat.eqb k' k then remove tl k else (k', w) :: remove tl k end.
Definition or_default {A} (d : A) (o : option A) : A := match o with Some a => a | None => d end.

(** diagnostics.rs:23-30 *)
Record collection := Collection {
  native : map_ (list diagnostic);
  check : map_ (map_ (list diagnostic));
  changes : list file_id }.
Definition default : collection := Collection [] [] [].

(** diagnostics.rs:41-49: clear_check *)
Definition clear_check (c : collection) (id : flycheck_id) : collection :=
  match get (check c) id with
  | Some m => Collection (native c) (insert (check c) id []) (changes c ++ map fst m)
  | None => c
  end.

(** diagnostics.rs:51-59: clear_check_all *)
Definition clear_check_all (c : collection) : collection :=
  Collection (native c) (map (fun x => (fst x, [])) (check c))
             (changes c ++ flat_map (fun x => map fst (snd x)) (check c)).

(** diagnostics.rs:61-64: clear_native_for *)
Definition clear_native_for (c : collection) (f : file_id) : collection :=
  Collection (remove (native c) f) (check c) (changes c ++ [f]).

(** diagnostics.rs:66-96: add_check_diagnostic. The entry is created even if nothing is added. *)
Definition add_check_diagnostic (c : collection) (id : flycheck_id) (f : file_id) (d : diagnostic) : collection :=
  let m := or_default [] (get (check c) id) in
  let ds := or_default [] (get m f) in
  if existsb (fun e => are_diagnostics_equal e d) ds then
    Collection (native c) (insert (check c) id (insert m f ds)) (changes c)
  else
    Collection (native c) (insert (check c) id (insert m f (ds ++ [d]))) (changes c ++ [f]).

(** diagnostics.rs:98-116: set_native_diagnostics *)
Definition same_diagnostics (new existing : list diagnostic) : bool :=
  Nat.eqb (List.length existing) (List.length new) &&
  forallb (fun p => are_diagnostics_equal (fst p) (snd p)) (combine new existing).
Definition set_native_diagnostics (c : collection) (f : file_id) (ds : list diagnostic) : collection :=
  let set := Collection (insert (native c) f ds) (check c) (changes c ++ [f]) in
  match get (native c) f with
  | Some existing => if same_diagnostics ds existing then c else set
  | None => set
  end.

(** diagnostics.rs:118-130: diagnostics_for; [shuffle] is the order of iteration over [check] *)
Definition diagnostics_for (c : collection) (shuffle : map_ (map_ (list diagnostic)) -> map_ (map_ (list diagnostic)))
    (f : file_id) : list diagnostic :=
  or_default [] (get (native c) f) ++
  flat_map (fun x => or_default [] (get (snd x) f)) (shuffle (check c)).

(** diagnostics.rs:132-137: take_changes *)
Definition take_changes (c : collection) : collection * option (list file_id) :=
  match changes c with
  | [] => (c, None)
  | l => (Collection (native c) (check c) [], Some l)
  end.

(** main_loop.rs:723-736: empty messages are replaced *)
Definition patch_empty (m : string) : string := match m with EmptyString => " "%string | _ => m end.
Definition patch (d : diagnostic) : diagnostic :=
  Diagnostic (d_range d) (d_severity d) (d_code d) (d_source d) (patch_empty (d_message d))
             (option_map (map patch_empty) (d_related d)) (d_tags d).

(** Histories of operations. [Publish] is main_loop.rs:704-744; the publications are kept, oldest first. *)
Inductive op :=
| SetNative (f : file_id) (ds : list diagnostic)
| ClearNative (f : file_id)
| AddCheck (id : flycheck_id) (f : file_id) (d : diagnostic)
| ClearCheck (id : flycheck_id)
| ClearChecks
| Publish (shuffle : map_ (map_ (list diagnostic)) -> map_ (map_ (list diagnostic))).

Record server := Server { coll : collection; published : list (file_id * list diagnostic) }.
Definition start : server := Server default [].

Definition step (s : server) (o : op) : server :=
  let c := coll s in
  match o with
  | SetNative f ds => Server (set_native_diagnostics c f ds) (published s)
  | ClearNative f => Server (clear_native_for c f) (published s)
  | AddCheck id f d => Server (add_check_diagnostic c id f d) (published s)
  | ClearCheck id => Server (clear_check c id) (published s)
  | ClearChecks => Server (clear_check_all c) (published s)
  | Publish shuffle =>
      match take_changes c with
      | (c, None) => Server c (published s)
      | (c, Some fs) => Server c (published s ++ map (fun f => (f, map patch (diagnostics_for c shuffle f))) fs)
      end
  end.
Definition run (h : list op) : server := fold_left step h start.
