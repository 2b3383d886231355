(** Specification vocabulary for cached reads. *)
From Verif Require Export SpecCopy.

(** The leading dimensions of a buffer are the extents of the region. *)
Definition tight (lo hi ld : list Z) : Prop :=
  firstn (length lo - 1) ld = firstn (length lo - 1) (extents lo hi).
(** A request of a region of at most 7 dimensions whose subscripts and whose
    size in bytes, in the caller's buffer, fit into an int. *)
Definition cacheable (es : Z) (lo hi ld : list Z) : Prop :=
  1 <= es /\ (1 <= length lo <= 7)%nat /\ Forall2 Z.le lo hi /\
  Forall (fun x => 0 <= x <= int_max) lo /\ Forall (fun x => 0 <= x <= int_max) hi /\
  valid_ld lo hi ld /\ small_buffer es (extents lo hi) ld.
(** The caller's buffer is one piece of memory from the first to the last
    element of the region. *)
Definition whole {V} (buf : buffer V) (lo hi ld : list Z) : Prop :=
  forall i, 0 <= i <= lin ld (vsub hi lo) -> buf i <> None.
(** The region [lo..hi] is part of [lo'..hi']. *)
Definition within (lo hi lo' hi' : list Z) : Prop := Forall2 Z.le lo' lo /\ Forall2 Z.le hi hi'.
