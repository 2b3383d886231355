(** Specification vocabulary for the product of two patches. *)
From Verif Require Export SpecAdd.

Section Dot.
Context {V : Type} (add : V -> V -> V) (zero : V) (mul : V -> V -> V).

(** The element type with its addition. *)
Definition sums_freely : Prop :=
  (forall x y z, add x (add y z) = add (add x y) z) /\ (forall x y, add x y = add y x) /\ (forall x, add zero x = x).

(** [t] is the product of element [x] of the patch of A with the element of the
    patch of B that corresponds to it. *)
Definition product_at (trans : bool) (pa pb : list Z -> place -> Prop) (alo ahi blo bhi : list Z) (ma mb : heap V) (x : list Z) (t : V) : Prop :=
  exists y qa qb va vb, corresponds trans blo bhi alo ahi y x /\ pa x qa /\ pb y qb /\
    hget ma qa = Some va /\ hget mb qb = Some vb /\ t = mul va vb.

(** [v] is the sum of these products, each taken once. *)
Definition dot_value (trans : bool) (pa pb : list Z -> place -> Prop) (alo ahi blo bhi : list Z) (ma mb : heap V) (v : V) : Prop :=
  forall xs, NoDup xs -> (forall x, In x xs <-> in_box alo ahi x) ->
    exists ts, Forall2 (product_at trans pa pb alo ahi blo bhi ma mb) xs ts /\ v = fold_right add zero ts.
End Dot.
