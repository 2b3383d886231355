(** Specification vocabulary for storage: where the element of a buffer with
    leading dimensions lies, and what it means that distributed memories hold
    a global array. *)
From Verif Require Export SpecBox.

(** Componentwise difference of subscripts. *)
Fixpoint vsub (x y : list Z) : list Z :=
  match x, y with
  | a :: x', b :: y' => a - b :: vsub x' y'
  | _, _ => []
  end.

(** Column-major position of the element with (0-based) subscript [k] in a
    buffer with leading dimensions [ld]; the extent of the last dimension
    does not matter. *)
Fixpoint lin (ld k : list Z) {struct k} : Z :=
  match k with
  | [] => 0
  | [a] => a
  | a :: k' =>
      match ld with
      | l :: ld' => a + l * lin ld' k'
      | [] => a
      end
  end.

(** Extents of a box. *)
Fixpoint extents (lo hi : list Z) : list Z :=
  match lo, hi with
  | l :: lo', h :: hi' => h - l + 1 :: extents lo' hi'
  | _, _ => []
  end.

(** Extents of a box with a border of [w] cells on both sides. *)
Fixpoint padded (lo hi w : list Z) : list Z :=
  match lo, hi, w with
  | l :: lo', h :: hi', a :: w' => h - l + 1 + 2 * a :: padded lo' hi' w'
  | _, _, _ => []
  end.

Fixpoint vadd (x y : list Z) : list Z :=
  match x, y with
  | a :: x', b :: y' => a + b :: vadd x' y'
  | _, _ => []
  end.

(** A place is a process and an element offset in the memory of that process. *)
Definition place := (Z * Z)%type.

(** Memories of all processes; [None] means not allocated. *)
Definition heap (V : Type) := Z -> Z -> option V.
Definition hget {V} (m : heap V) (a : place) : option V := m (fst a) (snd a).
