(** Specification vocabulary for one-sided transfers: contents of memories and
    buffers, effect of put, get and accumulate on a region.  Nothing in this
    file refers to how transfers are carried out. *)
From Verif Require Export SpecHome.
From Coq Require Export Permutation.

Definition int_max : Z := 2147483647.

(** A user buffer: contents by element index, [None] outside the buffer. *)
Definition buffer (V : Type) := Z -> option V.

(** The leading dimensions of a buffer leave room for the region [lo..hi]. *)
Fixpoint valid_ld (lo hi ld : list Z) : Prop :=
  match lo, hi with
  | l :: (_ :: _) as lo', h :: hi' =>
      match ld with d :: ld' => h - l + 1 <= d /\ valid_ld lo' hi' ld' | [] => False end
  | _, _ => True
  end.

(** Limits of the transport: counts and byte strides are C ints. *)
Definition int_counts (es : Z) (lo hi : list Z) : Prop :=
  match extents lo hi with
  | e :: es' => es * e <= int_max /\ Forall (fun n => n <= int_max) (e :: es')
  | [] => True
  end.
Definition int_strides (es : Z) (n : nat) (ld : list Z) : Prop :=
  forall i, (i < n)%nat -> es * zprod (firstn (S i) ld) <= int_max.

(** Memory cell and buffer element of array element [x] in a transfer of
    [lo..hi]. *)
Definition buf_at {V} (buf : buffer V) (lo ld x : list Z) : option V :=
  buf (lin ld (vsub x lo)).

(** All elements of the array are in allocated memory. *)
Definition allocated {V} (placed : list Z -> place -> Prop) (m : heap V) : Prop :=
  forall x q, placed x q -> hget m q <> None.

(** The buffer has an element for every element of the region. *)
Definition buffer_ok {V} (buf : buffer V) (lo hi ld : list Z) : Prop :=
  forall x, in_box lo hi x -> buf_at buf lo ld x <> None.

(** Memory outside the region is unchanged. *)
Definition frame {V} (placed : list Z -> place -> Prop) (lo hi : list Z) (m m' : heap V) : Prop :=
  forall q, (forall x, in_box lo hi x -> ~ placed x q) -> hget m' q = hget m q.

Definition put_effect {V} (placed : list Z -> place -> Prop) lo hi ld (buf : buffer V) (m m' : heap V) : Prop :=
  (forall x q, in_box lo hi x -> placed x q -> hget m' q = buf_at buf lo ld x) /\
  frame placed lo hi m m'.

Definition get_effect {V} (placed : list Z -> place -> Prop) lo hi ld (m : heap V) (buf buf' : buffer V) : Prop :=
  (forall x q, in_box lo hi x -> placed x q -> buf_at buf' lo ld x = hget m q) /\
  (forall i, (forall x, in_box lo hi x -> lin ld (vsub x lo) <> i) -> buf' i = buf i).

(** [f v w] is the new value of an element that holds [v] when the buffer
    element is [w]. *)
Definition acc_effect {V} (f : V -> V -> V) (placed : list Z -> place -> Prop) lo hi ld (buf : buffer V)
           (m m' : heap V) : Prop :=
  (forall x q v w, in_box lo hi x -> placed x q -> hget m q = Some v -> buf_at buf lo ld x = Some w ->
     hget m' q = Some (f v w)) /\
  frame placed lo hi m m'.

(** Concurrent operations: each has its region, leading dimensions and buffer. *)
Record region_op (V : Type) := RegionOp {
  o_lo : list Z; o_hi : list Z; o_ld : list Z; o_buf : buffer V
}.
Arguments RegionOp {V}. Arguments o_lo {V}. Arguments o_hi {V}. Arguments o_ld {V}. Arguments o_buf {V}.

Fixpoint in_boxb (lo hi x : list Z) : bool :=
  match lo, hi, x with
  | [], [], [] => true
  | l :: lo', h :: hi', a :: x' => (l <=? a) && (a <=? h) && in_boxb lo' hi' x'
  | _, _, _ => false
  end.

(** What the operations contribute to element [x], in the order of the list. *)
Definition contributions {V} (ops : list (region_op V)) (x : list Z) : list V :=
  flat_map (fun o => if in_boxb (o_lo o) (o_hi o) x
                     then match buf_at (o_buf o) (o_lo o) (o_ld o) x with Some w => [w] | None => [] end
                     else []) ops.

(** Pairwise disjoint regions. *)
Definition disjoint_regions {V} (ops : list (region_op V)) : Prop :=
  forall i j o o', nth_error ops i = Some o -> nth_error ops j = Some o' -> i <> j ->
    forall x, in_box (o_lo o) (o_hi o) x -> ~ in_box (o_lo o') (o_hi o') x.

(** A request for [lo..hi] with leading dimensions [ld] that respects the
    array bounds, the buffer and the int limits of the transport. *)
Definition good_request (a : garray) (shape : list Z -> Prop) (lo hi ld : list Z) : Prop :=
  in_array (dims (ga_desc a)) lo /\ in_array (dims (ga_desc a)) hi /\ Forall2 Z.le lo hi /\
  valid_ld lo hi ld /\
  1 <= ga_elemsize a <= int_max /\ int_counts (ga_elemsize a) lo hi /\
  int_strides (ga_elemsize a) (length lo - 1) ld /\
  forall sh, shape sh -> int_strides (ga_elemsize a) (length lo - 1) sh.

(** Block-distributed arrays on the world group that the transfer iterator
    handles: at least one block per process and dimension. *)
Definition block_layout (a : garray) (nn : Z) (placed : list Z -> place -> Prop) (shape : list Z -> Prop) : Prop :=
  let g := ga_desc a in
  ga_group a = None /\
  ((distr_type g = BLOCK_CYCLIC /\ wf_blocked g /\ nn = ga_nproc a /\ 1 <= ga_nproc a <= zprod (num_blocks g) /\
    placed = block_place a /\ shape = block_shape a) \/
   ((distr_type g = TILED \/ distr_type g = TILED_IRREG) /\ wf_blocks g /\ wf_grid (ga_nproc a) g /\
    Forall2 Z.le (nblock g) (num_blocks g) /\ placed = block_place a /\ shape = block_shape a) \/
   (distr_type g = SCALAPACK /\ wf_blocked g /\ wf_grid (ga_nproc a) g /\
    Forall2 Z.le (nblock g) (num_blocks g) /\ placed = scalapack_place a /\ shape = scalapack_shape a)).
