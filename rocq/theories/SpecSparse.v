(** Specification vocabulary for operations on one-dimensional arrays with a
    mask.  An array is a function from subscripts to values; only the subscripts
    from 1 to the extent count. *)
From Verif Require Export SpecBox LRadix.
From Coq Require Import Permutation.

(** [j] is the last set subscript in [lo..i]. *)
Definition last_set (msk : Z -> bool) (lo i j : Z) : Prop :=
  lo <= j <= i /\ msk j = true /\ forall k, j < k <= i -> msk k = false.
Definition none_set (msk : Z -> bool) (lo i : Z) : Prop := forall k, lo <= k <= i -> msk k = false.

(** The sum of [f] over [l], ..., [l+n-1], added from the left. *)
Fixpoint sum_from {V} (add : V -> V -> V) (zero : V) (f : Z -> V) (l : Z) (n : nat) : V :=
  match n with O => zero | S n' => add (sum_from add zero f l n') (f (l + Z.of_nat n')) end.
Definition sum_of {V} (add : V -> V -> V) (zero : V) (f : Z -> V) (l h : Z) : V := sum_from add zero f l (Z.to_nat (h - l + 1)).

(** Values that can be added in any order. *)
Record addition {V} (add : V -> V -> V) (zero : V) : Prop := {
  ad_assoc : forall a b c, add a (add b c) = add (add a b) c;
  ad_comm : forall a b, add a b = add b a;
  ad_zero : forall a, add zero a = a }.

(** The set subscripts in [lo..hi], in order. *)
Definition set_list (msk : Z -> bool) (lo hi : Z) : list Z := filter msk (zseq lo (Z.to_nat (hi - lo + 1))).

(** Every process of a world of [nproc], once, in some order. *)
Definition all_procs (nproc : Z) (ps : list Z) : Prop := Permutation ps (zseq 0 (Z.to_nat nproc)).
