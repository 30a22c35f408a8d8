(** C43: range intersection. *)
From Coq Require Import ZArith Bool Lia.
From Verif Require Import PreTypes RangesModel RangesSpec.
Local Open Scope Z_scope.

Lemma intersect_cases0 a b :
  let s := if (pline (rstart b) <? pline (rstart a))
              || ((pline (rstart a) =? pline (rstart b)) && (pcol (rstart b) <? pcol (rstart a)))
           then rstart a else rstart b in
  let e := if (pline (rend a) <? pline (rend b))
              || ((pline (rend a) =? pline (rend b)) && (pcol (rend a) <? pcol (rend b)))
           then rend a else rend b in
  (forall p, before s p <-> before (rstart a) p /\ before (rstart b) p) /\
  (forall p, before p e <-> before p (rend a) /\ before p (rend b)) /\
  (s = rstart a \/ s = rstart b) /\ (e = rend a \/ e = rend b) /\
  (before s e /\ intersect a b = Some (Rng s e) \/ ~ before s e /\ intersect a b = None).
Proof.
  destruct a as [[al ac] [ael aec]], b as [[bl bc] [bel bec]]. unfold intersect, before. cbn [rstart rend pline pcol].
  destruct (Z.ltb_spec bl al), (Z.eqb_spec al bl), (Z.ltb_spec bc ac); try lia;
  destruct (Z.ltb_spec ael bel), (Z.eqb_spec ael bel), (Z.ltb_spec aec bec); try lia;
  cbn [orb andb pline pcol];
  match goal with |- context [?x <? ?y] =>
    match goal with |- context [(x <? y) || ((?z =? ?w) && (?u <? ?v))] =>
      destruct (Z.ltb_spec x y), (Z.eqb_spec z w), (Z.ltb_spec u v) end end;
  cbn [orb andb]; try lia;
  (split; [intros [pl pc]; cbn [pline pcol]; lia|];
   split; [intros [pl pc]; cbn [pline pcol]; lia|];
   split; [auto|]; split; [auto|];
   first [left; split; [lia|reflexivity] | right; split; [lia|reflexivity]]).
Qed.

Lemma intersect_cases a b : exists s e,
  (forall p, before s p <-> before (rstart a) p /\ before (rstart b) p) /\
  (forall p, before p e <-> before p (rend a) /\ before p (rend b)) /\
  (s = rstart a \/ s = rstart b) /\ (e = rend a \/ e = rend b) /\
  (before s e /\ intersect a b = Some (Rng s e) \/ ~ before s e /\ intersect a b = None).
Proof. eexists _, _. exact (intersect_cases0 a b). Qed.

(** A position is in the intersection exactly when it is in both ranges. *)
Theorem C43_intersection_exact :
  forall a b r, intersect a b = Some r -> forall p, inside p r <-> inside p a /\ inside p b.
Proof.
  intros a b r H p. destruct (intersect_cases a b) as (s & e & S & E & _ & _ & [[_ I]|[_ I]]); rewrite I in H; [|discriminate H].
  injection H as <-. unfold inside. cbn [rstart rend]. rewrite S, E. tauto.
Qed.
Print Assumptions C43_intersection_exact.

(** There is no intersection exactly when no position is in both ranges. *)
Theorem C43_intersection_absent :
  forall a b, intersect a b = None <-> forall p, ~ (inside p a /\ inside p b).
Proof.
  intros a b. destruct (intersect_cases a b) as (s & e & S & E & _ & _ & [[B I]|[B I]]); rewrite I.
  - split; [discriminate|]. intros H. exfalso. apply (H s). unfold inside.
    pose proof (proj1 (S s)) as H1. pose proof (proj1 (E s) B) as H2.
    assert (before s s) by (unfold before; lia). tauto.
  - split; [|reflexivity]. intros _ p [[A1 A2] [B1 B2]]. apply B.
    pose proof (proj2 (S p) (conj A1 B1)). pose proof (proj2 (E p) (conj A2 B2)).
    unfold before in *. lia.
Qed.
Print Assumptions C43_intersection_absent.

(** The same for the positions that exist: the witness of a common position is one of them. *)
Theorem C43_intersection_absent_u32 :
  forall a b, u32_range a -> u32_range b ->
    (intersect a b = None <-> forall p, u32_pos p -> ~ (inside p a /\ inside p b)).
Proof.
  intros a b [Ha Ha'] [Hb Hb']. split.
  - intros H p _. apply (proj1 (C43_intersection_absent a b) H).
  - intros H. destruct (intersect_cases a b) as (s & e & S & E & Cs & _ & [[B I]|[B I]]); rewrite I; [|reflexivity].
    exfalso. apply (H s); [destruct Cs as [-> | ->]; assumption|]. unfold inside.
    pose proof (proj1 (S s)) as H1. pose proof (proj1 (E s) B) as H2.
    assert (before s s) by (unfold before; lia). tauto.
Qed.
Print Assumptions C43_intersection_absent_u32.

(** The result does not depend on the order of the arguments. *)
Theorem C43_intersection_symmetric : forall a b, intersect a b = intersect b a.
Proof.
  intros [[al ac] [ael aec]] [[bl bc] [bel bec]]. unfold intersect. cbn [rstart rend pline pcol].
  rewrite (Z.eqb_sym bl al), (Z.eqb_sym bel ael).
  assert (X : (if (bl <? al) || (al =? bl) && (bc <? ac) then Pos al ac else Pos bl bc)
            = (if (al <? bl) || (al =? bl) && (ac <? bc) then Pos bl bc else Pos al ac)).
  { destruct (Z.ltb_spec bl al), (Z.eqb_spec al bl), (Z.ltb_spec bc ac), (Z.ltb_spec al bl), (Z.ltb_spec ac bc);
      cbn [orb andb]; try reflexivity; try lia; f_equal; lia. }
  assert (Y : (if (ael <? bel) || (ael =? bel) && (aec <? bec) then Pos ael aec else Pos bel bec)
            = (if (bel <? ael) || (ael =? bel) && (bec <? aec) then Pos bel bec else Pos ael aec)).
  { destruct (Z.ltb_spec bel ael), (Z.eqb_spec ael bel), (Z.ltb_spec bec aec), (Z.ltb_spec ael bel), (Z.ltb_spec aec bec);
      cbn [orb andb]; try reflexivity; try lia; f_equal; lia. }
  rewrite X, Y. reflexivity.
Qed.
Print Assumptions C43_intersection_symmetric.

Example C43_nontrivial :
  intersect (Rng (Pos 1 5) (Pos 3 2)) (Rng (Pos 2 9) (Pos 3 1)) = Some (Rng (Pos 2 9) (Pos 3 1)) /\
  intersect (Rng (Pos 1 5) (Pos 2 3)) (Rng (Pos 2 4) (Pos 3 0)) = None /\
  intersect (Rng (Pos 1 5) (Pos 2 3)) (Rng (Pos 2 3) (Pos 3 0)) = Some (Rng (Pos 2 3) (Pos 2 3)).
Proof. repeat split. Qed.
