(** Specification vocabulary for the product of two matrices. *)
From Verif Require Export SpecGcopy MGcopy.

(** The operation applied to a factor: none, transposition, transposition and
    complex conjugation. *)
Inductive mop := opN | opT | opC.

(** The element of the array at [x] is [A x]. *)
Definition holds {V} (ds : list Z) (placed : list Z -> place -> Prop) (m : heap V) (A : list Z -> V) : Prop :=
  forall x q, in_array ds x -> placed x q -> hget m q = Some (A x).

Section Mat.
Context {V : Type} (radd rmul : V -> V -> V) (zero : V) (conj : V -> V).

(** The laws of the element type: addition is a commutative monoid and
    multiplication by a factor distributes over it. *)
Definition semiring : Prop :=
  (forall x y z, radd x (radd y z) = radd (radd x y) z) /\ (forall x y, radd x y = radd y x) /\ (forall x, radd zero x = x) /\
  (forall a x y, rmul a (radd x y) = radd (rmul a x) (rmul a y)) /\ (forall a, rmul a zero = zero) /\ (forall x, rmul zero x = zero).

(** Element (i,j), from 0, of the patch of op(A) that starts at (ilo,jlo). *)
Definition op_at (o : mop) (A : list Z -> V) (ilo jlo i j : Z) : V :=
  match o with
  | opN => A [ilo + i; jlo + j]
  | opT => A [jlo + j; ilo + i]
  | opC => conj (A [jlo + j; ilo + i])
  end.
Definition sum (n : Z) (f : Z -> V) : V := fold_left radd (map f (counts n)) zero.
(** Element (i,j) of the product of the patches. *)
Definition product (oa ob : mop) (A B : list Z -> V) (ailo ajlo bilo bjlo k i j : Z) : V :=
  sum k (fun l => rmul (op_at oa A ailo ajlo i l) (op_at ob B bilo bjlo l j)).

(** C(patch) becomes alpha op(A) op(B) + beta C(patch); no other memory of C changes. *)
Definition multiplied (oa ob : mop) (alpha beta : V) (A B C : list Z -> V) (ailo ajlo bilo bjlo : Z) (clo chi : list Z) (k : Z)
           (pc : list Z -> place -> Prop) (mc mc' : heap V) : Prop :=
  (forall i j q, in_box clo chi [i; j] -> pc [i; j] q ->
     hget mc' q = Some (radd (rmul beta (C [i; j]))
                             (rmul alpha (product oa ob A B ailo ajlo bilo bjlo k (i - nth 0 clo 0) (j - nth 1 clo 0))))) /\
  (forall q, (forall x, in_box clo chi x -> ~ pc x q) -> hget mc' q = hget mc q).
End Mat.

(** [lo..hi] is a patch of op(A) for an array A of shape [ds]. *)
Definition op_patch (o : mop) (ds lo hi : list Z) : Prop :=
  match o with
  | opN => in_array ds lo /\ in_array ds hi /\ Forall2 Z.le lo hi
  | _ => in_array (rev ds) lo /\ in_array (rev ds) hi /\ Forall2 Z.le lo hi
  end.
