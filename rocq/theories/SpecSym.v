(** Specification vocabulary for symmetrising an array. *)
From Verif Require Export SpecDiag SpecAdd.

(** The subscript with its last two components exchanged. *)
Fixpoint mirror (x : list Z) : list Z :=
  match x with
  | [i; j] => [j; i]
  | i :: x' => i :: mirror x'
  | [] => []
  end.

(** Every element becomes [f u v], where [u] was its value and [v] that of the
    mirrored element; nothing else changes. *)
Definition symmetrized {V} (ds : list Z) (f : V -> V -> V) (placed : list Z -> place -> Prop) (m m' : heap V) : Prop :=
  combined (in_array ds) mirror f placed placed m m m'.

(** Mirrored elements hold the same value. *)
Definition symmetric {V} (ds : list Z) (placed : list Z -> place -> Prop) (m : heap V) : Prop :=
  forall x q q', in_array ds x -> placed x q -> placed (mirror x) q' -> hget m q = hget m q'.
