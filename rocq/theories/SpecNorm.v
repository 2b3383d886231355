(** Specification vocabulary for norms of arrays. *)
From Verif Require Export SpecDiag SpecDot.

Section Norm.
Context {V N : Type} (nrm : V -> N).
(** The values of the elements with subscripts [xs]. *)
Definition values (placed : list Z -> place -> Prop) (m : heap V) (xs : list (list Z)) (vs : list V) : Prop :=
  Forall2 (fun x v => exists q, placed x q /\ hget m q = Some v) xs vs.
(** [r] is the sum of the absolute values of the elements with subscripts in [D],
    each taken once. *)
Definition sum_value (add : N -> N -> N) (zero : N) (placed : list Z -> place -> Prop) (D : list Z -> Prop) (m : heap V) (r : N) : Prop :=
  forall xs, NoDup xs -> (forall x, In x xs <-> D x) ->
    exists vs, values placed m xs vs /\ r = fold_right add zero (map nrm vs).
(** [r] is the greatest of the absolute values. *)
Definition max_value (ltb : N -> N -> bool) (placed : list Z -> place -> Prop) (D : list Z -> Prop) (m : heap V) (r : N) : Prop :=
  (forall x q v, D x -> placed x q -> hget m q = Some v -> ltb r (nrm v) = false) /\
  (exists x q v, D x /\ placed x q /\ hget m q = Some v /\ r = nrm v).
(** Numbers with a total order, absolute values and signed values of elements. *)
Definition ordered (ltb : N -> N -> bool) (zero : N) (sgn : V -> N) : Prop :=
  (forall x y, ltb x y = true -> ltb y x = false) /\
  (forall x y z, ltb y x = false -> ltb z y = false -> ltb z x = false) /\
  (forall v, nrm v = zero \/ ltb zero (nrm v) = true) /\
  (forall v, sgn v = nrm v \/ ltb (sgn v) (nrm v) = true).
End Norm.
