(** Specification vocabulary for the largest step. *)
From Coq Require Export QArith.
From Verif Require Export SpecUn SpecSelect.
Open Scope Z_scope.

(** [r] is a multiple of B that can be added to A without making an element
    negative, and the largest one unless it is at least [inf]. *)
Definition largest_step (inf : Q) (S : list Z -> Prop) (A B : list Z -> Q) (r : Q) : Prop :=
  (0 <= r /\ (forall x, S x -> 0 <= A x + r * B x) /\
   (inf <= r \/ forall r', r < r' -> exists x, S x /\ A x + r' * B x < 0))%Q.
Definition largest_step_int (inf : Z) (S : list Z -> Prop) (A B : list Z -> Z) (r : Z) : Prop :=
  0 <= r /\ (forall x, S x -> 0 <= A x + r * B x) /\
  (inf <= r \/ forall r', r < r' -> exists x, S x /\ A x + r' * B x < 0).
(** The largest of the values. *)
Definition is_max {K} (le : K -> K -> Prop) (S : list Z -> Prop) (C : list Z -> K) (v : K) : Prop :=
  (forall x, S x -> le (C x) v) /\ exists x, S x /\ C x = v.
