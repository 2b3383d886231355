(** Specification vocabulary for the product of two sparse matrices. *)
From Verif Require Export SpecSprs.
From Coq Require Import Permutation.
Open Scope Z_scope.

(** The products of an element of the one and an element of the other that add up to
    element (i,j) of the product. *)
Definition products {V} (mul : V -> V -> V) (la lb : list (elt V)) (i j : Z) : list V :=
  flat_map (fun a => map (fun b => mul (evalue a) (evalue b)) (filter (fun b => (erow b =? ecol a) && (ecol b =? j)) lb))
           (filter (fun a => erow a =? i) la).
(** [l] is the product of the matrices with elements [la] and [lb]: one element for
    each place to which there are products. *)
Definition is_product {V} (add mul : V -> V -> V) (zero : V) (la lb l : list (elt V)) : Prop :=
  NoDup (map fst l) /\
  forall i j v, In (i, j, v) l <-> products mul la lb i j <> [] /\ v = lsum add zero (products mul la lb i j).
