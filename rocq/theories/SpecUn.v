(** Specification vocabulary for operations on the elements of one array that
    may be undefined for some values. *)
From Coq Require Export QArith.
From Verif Require Export SpecPw SpecZip.
Open Scope Z_scope.

(** [f] is applied to the elements with subscripts in [D] and defined for all of
    them; nothing else changes. *)
Definition updated_by {V} (D : list Z -> Prop) (f : V -> option V) (placed : list Z -> place -> Prop) (m m' : heap V) : Prop :=
  (forall x q, D x -> placed x q -> exists v v', hget m q = Some v /\ f v = Some v' /\ hget m' q = Some v') /\
  (forall q, (forall x, D x -> ~ placed x q) -> hget m' q = hget m q).
(** [f] is not defined for some element with subscript in [D]. *)
Definition undefined_in {V} (D : list Z -> Prop) (f : V -> option V) (placed : list Z -> place -> Prop) (m : heap V) : Prop :=
  exists x q v, D x /\ placed x q /\ hget m q = Some v /\ f v = None.
