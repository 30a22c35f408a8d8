(** Model of crates/stdx/src/hashable_hash_map.rs. An [FxHashMap] is the list of its entries in
    the order in which it iterates, which may be any order; the keys are distinct. *)
From Coq Require Import List Permutation Sorted.
Import ListNotations.

Section map.
Variables (K V S : Type).
Variable eq_key : K -> K -> bool.          (* K: Eq *)
Variable le_key : K -> K -> bool.          (* K: Ord; cmp(a, b) is not Greater *)
Variable hash_key : K -> S -> S.           (* K: Hash, S is the state of the hasher *)
Variable hash_value : V -> S -> S.

Definition hmap := list (K * V).

(** hashable_hash_map.rs:14-16 *)
Fixpoint get (m : hmap) (k : K) : option V :=
  match m with
  | [] => None
  | (k', v) :: tl => if eq_key k' k then Some v else get tl k
  end.

(** hashable_hash_map.rs:22-24 *)
Definition remove (m : hmap) (k : K) : hmap := filter (fun p => negb (eq_key (fst p) k)) m.

(** hashable_hash_map.rs:18-20: the value of a present key is replaced in place, a new entry may
    end up anywhere; [pre] is the part of the iteration order that comes before it. *)
Inductive insert (m : hmap) (k : K) (v : V) : hmap -> Prop :=
| ins_new pre post : get m k = None -> m = pre ++ post -> insert m k v (pre ++ (k, v) :: post)
| ins_old pre k' old post :
    eq_key k' k = true -> m = pre ++ (k', old) :: post -> insert m k v (pre ++ (k', v) :: post).

(** Growing the table may change the iteration order. *)
Definition rehash (m m' : hmap) : Prop := Permutation m m'.

(** hashable_hash_map.rs:26-28 *)
Inductive extend : hmap -> hmap -> hmap -> Prop :=
| ext_nil m : extend m [] m
| ext_cons m k v other m1 m2 m3 :
    insert m k v m1 -> rehash m1 m2 -> extend m2 other m3 -> extend m ((k, v) :: other) m3.

(** A history of a map. *)
Inductive op := OInsert (k : K) (v : V) | ORemove (k : K) | OExtend (other : hmap).
Inductive history : hmap -> list op -> hmap -> Prop :=
| h_nil m : history m [] m
| h_insert m k v m1 m2 ops m3 :
    insert m k v m1 -> rehash m1 m2 -> history m2 ops m3 -> history m (OInsert k v :: ops) m3
| h_remove m k m2 ops m3 :
    rehash (remove m k) m2 -> history m2 ops m3 -> history m (ORemove k :: ops) m3
| h_extend m other m1 m2 ops m3 :
    extend m other m1 -> rehash m1 m2 -> history m2 ops m3 -> history m (OExtend other :: ops) m3.

(** [sort_by] of hashable_hash_map.rs:74: a sorted rearrangement. *)
Definition sorted_pairs (m m' : hmap) : Prop :=
  Permutation m m' /\ StronglySorted (fun a b => le_key (fst a) (fst b) = true) m'.

(** hashable_hash_map.rs:70-81: [hashes m h h']: hashing [m] takes the hasher from [h] to [h']. *)
Definition hashes (m : hmap) (h h' : S) : Prop :=
  exists pairs, sorted_pairs m pairs /\
    h' = fold_left (fun s p => hash_value (snd p) (hash_key (fst p) s)) pairs h.

(** The same for sets, hashable_hash_map.rs:143-150. *)
Definition set_hashes (m : list K) (h h' : S) : Prop :=
  exists keys, Permutation m keys /\ StronglySorted (fun a b => le_key a b = true) keys /\
    h' = fold_left (fun s k => hash_key k s) keys h.
End map.
Arguments OInsert {K V}. Arguments ORemove {K V}. Arguments OExtend {K V}.
