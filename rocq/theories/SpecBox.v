(** Specification vocabulary: index vectors, boxes, sizes.
    Nothing in this file refers to the model of the code. *)
From Coq Require Export ZArith List Lia Bool.
Export ListNotations.
Open Scope Z_scope.

(** An index vector is a list of integers, one per array dimension. *)
Notation vec := (list Z) (only parsing).

(** [in_box lo hi x]: the subscript [x] lies in the closed box [lo..hi]
    (all three vectors have the same number of dimensions). *)
Fixpoint in_box (lo hi x : list Z) : Prop :=
  match lo, hi, x with
  | [], [], [] => True
  | l :: lo', h :: hi', a :: x' => l <= a <= h /\ in_box lo' hi' x'
  | _, _, _ => False
  end.

(** Subscripts of a global array run from 1 to the extent, inclusive. *)
Fixpoint in_array (dims x : list Z) : Prop :=
  match dims, x with
  | [], [] => True
  | d :: dims', a :: x' => 1 <= a <= d /\ in_array dims' x'
  | _, _ => False
  end.

(** Number of index vectors in a box of extents [ns]. *)
Fixpoint zprod (ns : list Z) : Z :=
  match ns with [] => 1 | n :: ns' => n * zprod ns' end.

Fixpoint zsum (ns : list Z) : Z :=
  match ns with [] => 0 | n :: ns' => n + zsum ns' end.

(** Number of elements of the box [lo..hi] (0 if empty). *)
Fixpoint box_size (lo hi : list Z) : Z :=
  match lo, hi with
  | l :: lo', h :: hi' => Z.max 0 (h - l + 1) * box_size lo' hi'
  | _, _ => 1
  end.

(** All index vectors with non-negative components below [ns]. *)
Fixpoint in_range0 (ns i : list Z) : Prop :=
  match ns, i with
  | [], [] => True
  | n :: ns', a :: i' => 0 <= a < n /\ in_range0 ns' i'
  | _, _ => False
  end.

(** A list of boxes tagged with an owner tiles a set of subscripts when every
    subscript of the set is in exactly one list entry and no box has a
    subscript outside the set. *)
Definition tiles {A} (pieces : list A) (bx : A -> list Z * list Z)
           (S : list Z -> Prop) : Prop :=
  (forall k p, nth_error pieces k = Some p ->
     forall x, in_box (fst (bx p)) (snd (bx p)) x -> S x) /\
  (forall x, S x -> exists k p, nth_error pieces k = Some p /\
     in_box (fst (bx p)) (snd (bx p)) x /\
     forall k' p', nth_error pieces k' = Some p' ->
       in_box (fst (bx p')) (snd (bx p')) x -> k' = k).
