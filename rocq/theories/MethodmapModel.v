(** Methodmaps and their members: crates/hir-def/src/data.rs. *)
From Coq Require Import List String Bool Arith.
Import ListNotations.

Definition name := string.

(** data.rs:114-127 [PropertyItem], 107-112 [MethodmapItemData]; functions and properties are known by
    their interned ids. *)
Inductive accessor := Getter (f : nat) | Setter (f : nat).
Inductive member :=
| Property (id : nat) (accessors : list accessor)
| Method (f : nat)
| Constructor (f : nat)
| Destructor (f : nat).

(** A methodmap of the item tree: name, inherited name, file, and its items in source order, each
    with its name and the data built for it at data.rs:188-248. *)
Record decl := Decl { d_name : name; d_inherits : option name; d_file : nat; d_items : list (name * member) }.

(** What a name resolves to from the global scope of a file. *)
Inductive target := AMethodmap (id : nat) | Else.
Record world := World { decl_of : nat -> decl; resolves : nat -> name -> option target }.

(** data.rs:100-105 [MethodmapData]; the arena is the list of its values, indices count from 0. *)
Record mm_data := MmData { m_name : name; m_items : list member; m_map : list (name * nat) }.

Fixpoint get (n : name) (m : list (name * nat)) : option nat :=
  match m with
  | [] => None
  | (k, i) :: tl => if String.eqb k n then Some i else get n tl
  end.
(** [HashMap::insert]. *)
Fixpoint insert (n : name) (i : nat) (m : list (name * nat)) : list (name * nat) :=
  match m with
  | [] => [(n, i)]
  | (k, j) :: tl => if String.eqb k n then (k, i) :: tl else (k, j) :: insert n i tl
  end.
(** [items.alloc] followed by [items_map.insert]. *)
Definition add (s : list member * list (name * nat)) (e : name * member) : list member * list (name * nat) :=
  let '(items, m) := s in (items ++ [snd e], insert (fst e) (List.length items) m).

Inductive diag := UnresolvedInherit (inherit_name : name) (exists_ : bool).
(** A query that depends on itself panics in salsa. *)
Inductive outcome := Data (d : mm_data) (diags : list diag) | Cycle | BadIndex | OutOfFuel.

Section query.
Variable w : world.
(** The order in which a hash map is iterated. *)
Variable order : list (name * nat) -> list (name * nat).

(** data.rs:155-160: the entries of the inherited methodmap with their items. *)
Fixpoint entries (d : mm_data) (l : list (name * nat)) : option (list (name * member)) :=
  match l with
  | [] => Some []
  | (n, i) :: tl =>
      match nth_error (m_items d) i, entries d tl with
      | Some x, Some r => Some ((n, x) :: r)
      | _, _ => None
      end
  end.

(** data.rs:143-259 [methodmap_data_with_diagnostics_query]; [stack] holds the queries in
    progress. *)
Fixpoint query (fuel : nat) (stack : list nat) (id : nat) : outcome :=
  match fuel with
  | O => OutOfFuel
  | S fuel' =>
      if existsb (Nat.eqb id) stack then Cycle
      else
        let d := decl_of w id in
        let finish (inherited : list (name * member)) (diags : list diag) :=
          let '(items, m) := fold_left add (inherited ++ d_items d) ([], []) in
          Data (MmData (d_name d) items m) diags in
        match d_inherits d with
        | None => finish [] []
        | Some n =>
            match resolves w (d_file d) n with
            | Some (AMethodmap p) =>
                match query fuel' (id :: stack) p with
                | Data pd _ =>
                    match entries pd (order (m_map pd)) with
                    | Some es => finish es []
                    | None => BadIndex
                    end
                | other => other
                end
            | Some Else => finish [] [UnresolvedInherit n true]
            | None => finish [] [UnresolvedInherit n false]
            end
        end
  end.
End query.

(** data.rs:265-272 [constructor]. *)
Fixpoint first_constructor (l : list member) : option nat :=
  match l with
  | [] => None
  | Constructor f :: _ => Some f
  | _ :: tl => first_constructor tl
  end.
Definition constructor (d : mm_data) : option nat := first_constructor (m_items d).

(** data.rs:296-298 [items] and 274-276 [item] together. *)
Definition lookup (d : mm_data) (n : name) : option member :=
  match get n (m_map d) with Some i => nth_error (m_items d) i | None => None end.
