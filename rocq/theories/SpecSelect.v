(** What the selection of an extreme element has to deliver. *)
From Verif Require Export SpecLoc MSelect.

(** No element of [S] has a key beyond [k] in the wanted direction. *)
Definition extreme {V} (key : V -> Z) (mn : bool) (A : list Z -> V) (S : list Z -> Prop) (k : Z) : Prop :=
  forall x, S x -> if mn then k <= key (A x) else key (A x) <= k.

(** The answer: the key is extreme, the subscript is that of an element that
    attains it, and a complex value is the value of that element. *)
Definition selects {V} (key : V -> Z) (mn cplx : bool) (A : list Z -> V) (S : list Z -> Prop) (i : einfo) : Prop :=
  extreme key mn A S (ei_key i) /\ S (ei_sub i) /\ ei_key i = key (A (ei_sub i)) /\
  ei_extra i = if cplx then Some (A (ei_sub i)) else None.

(** The leading dimensions are the extents of the block. *)
Fixpoint packed (ext ld : list Z) : Prop :=
  match ext with
  | [] | [_] => True
  | e :: ext' => match ld with l :: ld' => l = e /\ packed ext' ld' | [] => False end
  end.
