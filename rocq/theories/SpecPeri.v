(** Specification vocabulary for periodic transfers. *)
From Verif Require Export SpecStrided.

(** The subscript of [1..d] that [y] wraps to. *)
Definition wrap (d y : Z) : Z := (y - 1) mod d + 1.
Fixpoint wrapv (dims y : list Z) : list Z :=
  match dims, y with d :: dims', a :: y' => wrap d a :: wrapv dims' y' | _, _ => [] end.

(** A request along one dimension that is handled: it overlaps the array and
    reaches at most one period beyond either end, or it is at most one element
    longer than the array and ends less than one period before it. *)
Definition peri_dim (d l h : Z) : Prop :=
  1 <= d /\ l <= h /\
  ((1 - d <= l <= d /\ 1 <= h <= 2 * d /\ h - l + 1 <= 2 * d) \/ (h - l <= d /\ - d < h)).
Fixpoint peri_region (dims lo hi : list Z) : Prop :=
  match dims, lo, hi with
  | [], [], [] => True
  | d :: dims', l :: lo', h :: hi' => peri_dim d l h /\ peri_region dims' lo' hi'
  | _, _, _ => False
  end.
(** No element of the array is met twice. *)
Fixpoint one_period (dims lo hi : list Z) : Prop :=
  match dims, lo, hi with
  | [], [], [] => True
  | d :: dims', l :: lo', h :: hi' => h - l + 1 <= d /\ one_period dims' lo' hi'
  | _, _, _ => False
  end.

Definition good_periodic (a : garray) (shape : list Z -> Prop) (lo hi ld : list Z) : Prop :=
  peri_region (dims (ga_desc a)) lo hi /\ valid_ld lo hi ld /\
  1 <= ga_elemsize a <= int_max /\ int_counts (ga_elemsize a) lo hi /\
  int_strides (ga_elemsize a) (length lo - 1) ld /\
  forall sh, shape sh -> int_strides (ga_elemsize a) (length lo - 1) sh.
