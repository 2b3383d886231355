(** Specification vocabulary for dense arrays of two dimensions and the sparse matrices
    that are made from them or are turned into them. *)
From Verif Require Export SpecSprs.
Open Scope Z_scope.

(** The part of a dense array that one process has: first and last index in both
    dimensions, from 1, and the memory from the first element on, in which columns are
    [p_ld] elements apart. *)
Record dpart (V : Type) := DPart { p_lo0 : Z; p_lo1 : Z; p_hi0 : Z; p_hi1 : Z; p_ld : Z; p_mem : Z -> V }.
Arguments DPart {V}. Arguments p_lo0 {V}. Arguments p_lo1 {V}. Arguments p_hi0 {V}. Arguments p_hi1 {V}. Arguments p_ld {V}. Arguments p_mem {V}.
Definition contains {V} (b : dpart V) (x y : Z) : Prop := p_lo0 b <= x <= p_hi0 b /\ p_lo1 b <= y <= p_hi1 b.
Definition value_at {V} (b : dpart V) (x y : Z) : V := p_mem b (x - p_lo0 b + (y - p_lo1 b) * p_ld b).
(** The parts [bs] make up the array [a] of [d0] x [d1] elements. *)
Definition dense {V} (d0 d1 : Z) (bs : list (dpart V)) (a : Z -> Z -> V) : Prop :=
  (forall q b x y, nth_error bs q = Some b -> contains b x y -> 1 <= x <= d0 /\ 1 <= y <= d1 /\ value_at b x y = a x y) /\
  (forall x y, 1 <= x <= d0 -> 1 <= y <= d1 -> exists q b, nth_error bs q = Some b /\ contains b x y) /\
  (forall q q' b b' x y, nth_error bs q = Some b -> nth_error bs q' = Some b' -> contains b x y -> contains b' x y -> q = q').
(** No place of the matrix has two elements, and there is an element where [keep] says so. *)
Definition elements_of {V} (idim jdim : Z) (a : Z -> Z -> V) (keep : Z -> Z -> V -> Prop) (l : list (elt V)) : Prop :=
  NoDup (map fst l) /\ forall i j v, In (i, j, v) l <-> (0 <= i < idim /\ 0 <= j < jdim) /\ v = a i j /\ keep i j v.
