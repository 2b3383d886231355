(** Specification vocabulary for operations on a matrix and a vector. *)
From Verif Require Export SpecPw.

(** Element types; a value is a real (or integer) number or a pair. *)
Inductive elt := E_int | E_long | E_longlong | E_flt | E_dbl | E_dcpl | E_scpl.
Definition complex_type (t : elt) : bool := match t with E_dcpl | E_scpl => true | _ => false end.
Inductive val (R : Type) := Re (r : R) | Cx (re im : R).
Arguments Re {R}. Arguments Cx {R}.
(** Every cell holds a value of the type. *)
Definition typed {R} (t : elt) (m : heap (val R)) : Prop :=
  forall q v, hget m q = Some v -> match v with Re _ => complex_type t = false | Cx _ _ => complex_type t = true end.

(** Sums and products of numbers. *)
Definition sum_of {R} (radd : R -> R -> R) (u v : val R) : val R :=
  match u, v with
  | Re a, Re b => Re (radd a b)
  | Cx a b, Cx c d => Cx (radd a c) (radd b d)
  | Re a, Cx c d => Cx (radd a c) d
  | Cx a b, Re c => Cx (radd a c) b
  end.
Definition product_of {R} (radd rsub rmul : R -> R -> R) (u v : val R) : val R :=
  match u, v with
  | Re a, Re b => Re (rmul a b)
  | Cx a b, Cx c d => Cx (rsub (rmul a c) (rmul b d)) (radd (rmul a d) (rmul b c))
  | Re a, Cx c d => Cx (rmul a c) (rmul a d)
  | Cx a b, Re c => Cx (rmul a c) (rmul b c)
  end.

(** Subscripts on the diagonal of a matrix with dimensions [ds]. *)
Definition diagonal (ds x : list Z) : Prop := in_array ds x /\ exists k, x = [k; k].

(** Every element of A with a subscript [x] in [D] becomes [f u v], where [u] was
    its value and [v] is the element [g x] of the vector; nothing else changes. *)
Definition combined {V} (D : list Z -> Prop) (g : list Z -> list Z) (f : V -> V -> V) (pa pv : list Z -> place -> Prop)
           (mv ma ma' : heap V) : Prop :=
  (forall x qa qv, D x -> pa x qa -> pv (g x) qv ->
     exists u v, hget ma qa = Some u /\ hget mv qv = Some v /\ hget ma' qa = Some (f u v)) /\
  (forall q, (forall x, D x -> ~ pa x q) -> hget ma' q = hget ma q).
