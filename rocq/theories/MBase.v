(** Model vocabulary: checked array access and the option monad used to make
    undefined behaviour (out-of-bounds access, division by zero) an explicit
    outcome [None]. *)
From Verif Require Export SpecBox.

(** C array read [l[i]]; reading outside the array is undefined behaviour. *)
Definition zget {A} (l : list A) (i : Z) : option A :=
  if i <? 0 then None else nth_error l (Z.to_nat i).

(** C array write [l[i] = v]. *)
Fixpoint upd {A} (n : nat) (v : A) (l : list A) : list A :=
  match l, n with
  | [], _ => []
  | _ :: l', O => v :: l'
  | a :: l', S n' => a :: upd n' v l'
  end.
Definition zset {A} (l : list A) (i : Z) (v : A) : option (list A) :=
  if (i <? 0) || (Z.of_nat (length l) <=? i) then None
  else Some (upd (Z.to_nat i) v l).

Notation "'do' x <- e ; k" :=
  (match e with Some x => k | None => None end)
  (at level 200, x pattern, e at level 100, k at level 200).

(** C pointer arithmetic [p + n] on an array seen as the suffix at [p]. *)
Definition zdrop {A} (n : Z) (l : list A) : list A := skipn (Z.to_nat n) l.

(** C integer division and remainder with division by zero undefined. *)
Definition cdiv (a b : Z) : option Z := if b =? 0 then None else Some (Z.quot a b).
Definition cmod (a b : Z) : option Z := if b =? 0 then None else Some (Z.rem a b).
