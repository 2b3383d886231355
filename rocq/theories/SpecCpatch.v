(** Specification vocabulary for copies between patches of arrays. *)
From Verif Require Export SpecGcopy.

(** Element [x] of the patch [alo..ahi] goes to element [y] of the patch
    [blo..bhi]: both have the same position in column-major order; with
    transposition, the subscripts of A are taken in reverse order. *)
Definition patch_pos (lo hi x : list Z) : Z := lin (extents lo hi) (vsub x lo).
Definition corresponds (trans : bool) (alo ahi blo bhi x y : list Z) : Prop :=
  in_box alo ahi x /\ in_box blo bhi y /\
  patch_pos blo bhi y = if trans then patch_pos (rev alo) (rev ahi) (rev x) else patch_pos alo ahi x.

(** Exactly the corresponding elements are copied. *)
Definition copied_rel {V} (R : list Z -> list Z -> Prop) (pa pb : list Z -> place -> Prop) (ma mb mb' : heap V) : Prop :=
  (forall x y qa qb, R x y -> pa x qa -> pb y qb -> hget mb' qb = hget ma qa) /\
  (forall q, (forall x y, R x y -> ~ pb y q) -> hget mb' q = hget mb q).

(** [lo..hi] is a patch of an array with dimensions [ds]. *)
Definition patch_of (ds lo hi : list Z) : Prop := in_array ds lo /\ in_array ds hi /\ Forall2 Z.le lo hi.

(** Two arrays, or disjoint patches of one array ([same]). *)
Definition passes (same : bool) (alo ahi blo bhi : list Z) : Prop :=
  same = false \/ (length blo = length alo /\ forall x, in_box alo ahi x -> in_box blo bhi x -> False).
