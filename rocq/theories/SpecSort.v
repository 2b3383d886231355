(** Specification vocabulary for sorting: positions 1..n of an array given as a
    function of the position. *)
From Verif Require Export SpecBox LRadix.

Definition sorted_by {A} (key : A -> Z) (a : Z -> A) (l h : Z) : Prop := forall i j, l <= i -> i <= j -> j <= h -> key (a i) <= key (a j).
(** The elements at 1..n. *)
Definition content {A} (a : Z -> A) (n : Z) : list A := map a (zseq 1 (Z.to_nat n)).
