(** Where the elements of an array live, stated through the ownership queries
    (which element belongs to which process or block). *)
From Verif Require Export SpecWf SpecStore MIter.

(** The group of the array: its ranks are distinct processes. *)
Definition wf_group (a : garray) : Prop :=
  match ga_group a with
  | None => True
  | Some l => NoDup l /\ Z.of_nat (length l) = ga_nproc a
  end.

(** A map-distributed array, possibly with ghost cells, on a group. *)
Definition wf_array (a : garray) : Prop :=
  wf_regular (ga_nproc a) (ga_desc a) /\
  length (ga_width a) = length (dims (ga_desc a)) /\
  Forall (fun w => 0 <= w) (ga_width a) /\
  wf_group a /\ 1 <= ga_elemsize a.

(** Element [x] of a map-distributed array lives at process [fst q], offset
    [snd q]: the process is the owner of [x], the offset is the column-major
    position in the owner's block extended by the ghost cells. *)
Definition reg_place (a : garray) (x : list Z) (q : place) : Prop :=
  exists p lo hi, 0 <= p < ga_nproc a /\
    distribution (ga_desc a) p = Some (lo, hi) /\ in_box lo hi x /\
    abs_rank a p = Some (fst q) /\
    snd q = lin (padded lo hi (ga_width a)) (vadd (vsub x lo) (ga_width a)).

(** Sum of the sizes of the blocks below [k] that [home] sends to process [p]. *)
Fixpoint sizes_before (size : Z -> Z) (home : Z -> option Z) (p : Z) (k : nat) : Z :=
  match k with
  | O => 0
  | S k' =>
      sizes_before size home p k' +
      match home (Z.of_nat k') with
      | Some q => if q =? p then size (Z.of_nat k') else 0
      | None => 0
      end
  end.

(** Number of elements of block [k]. *)
Definition block_size (g : gadesc) (k : Z) : Z :=
  match distribution g k with Some (lo, hi) => box_size lo hi | None => 0 end.

(** Element [x] of an array stored block after block: the blocks of a process
    lie one after the other in the order of their numbers, each of them in
    column-major order. *)
Definition block_place (a : garray) (x : list Z) (q : place) : Prop :=
  exists k lo hi, 0 <= k < zprod (num_blocks (ga_desc a)) /\
    distribution (ga_desc a) k = Some (lo, hi) /\ in_box lo hi x /\
    block_home (ga_nproc a) (ga_desc a) k = Some (fst q) /\
    snd q = sizes_before (block_size (ga_desc a)) (block_home (ga_nproc a) (ga_desc a))
                         (fst q) (Z.to_nat k)
            + lin (extents lo hi) (vsub x lo).

(** The extents of the local arrays that hold the elements: the blocks with
    their ghost cells, or the plain blocks. *)
Definition reg_shape (a : garray) (sh : list Z) : Prop :=
  exists p lo hi, 0 <= p < ga_nproc a /\ distribution (ga_desc a) p = Some (lo, hi) /\
    Forall2 Z.le lo hi /\ sh = padded lo hi (ga_width a).
Definition block_shape (a : garray) (sh : list Z) : Prop :=
  exists k lo hi, 0 <= k < zprod (num_blocks (ga_desc a)) /\
    distribution (ga_desc a) k = Some (lo, hi) /\ Forall2 Z.le lo hi /\ sh = extents lo hi.

(** The pieces of a transfer cover [lo..hi] exactly once, and every element of
    a piece is addressed at its place, in the memory of the process the
    transfer is sent to; the leading dimensions are those of a local array. *)
Definition covers (placed : list Z -> place -> Prop) (shape : list Z -> Prop)
           (ps : list ipiece) (lo hi : list Z) : Prop :=
  tiles ps (fun p => (ip_lo p, ip_hi p)) (in_box lo hi) /\
  forall p, In p ps ->
    Forall2 Z.le (ip_lo p) (ip_hi p) /\ ip_seg p = ip_proc p /\
    (forall x, in_box (ip_lo p) (ip_hi p) x ->
      placed x (ip_proc p, ip_off p + lin (ip_ld p) (vsub x (ip_lo p)))) /\
    exists sh, shape sh /\
      forall k, length k = length (ip_lo p) -> lin (ip_ld p) k = lin sh k.

(** No side of the region is so large that a slab one element thick exceeds
    the transport limit. *)
Definition splittable (es : Z) (lo hi : list Z) : Prop :=
  forall i, (i < length lo)%nat -> es * zprod (upd i 1 (extents lo hi)) <= max_int_value.

(** Blocked arrays none of whose blocks is empty. *)
Definition wf_blocks (g : gadesc) : Prop := wf_blocked g \/ wf_strict_tiled_irreg g.

(** Number of [j] with 0 <= j < n and f j. *)
Fixpoint count_upto (f : Z -> bool) (n : nat) : Z :=
  match n with
  | O => 0
  | S n' => count_upto f n' + (if f (Z.of_nat n') then 1 else 0)
  end.

(** How many of the subscripts 1..d of a dimension dealt out in blocks of [bd]
    over [pg] processes fall to process coordinate [pi]. *)
Definition local_extent (d bd pg pi : Z) : Z :=
  count_upto (fun j => (j / bd) mod pg =? pi) (Z.to_nat d).
Fixpoint local_extents (dims bdims grid coord : list Z) : list Z :=
  match dims, bdims, grid, coord with
  | d :: dims', b :: bdims', n :: grid', c :: coord' =>
      local_extent d b n c :: local_extents dims' bdims' grid' coord'
  | _, _, _, _ => []
  end.

(** Process coordinate and local position of a subscript in the ScaLAPACK
    layout. *)
Fixpoint grid_coords (bdims grid x : list Z) : list Z :=
  match bdims, grid, x with
  | b :: bdims', n :: grid', a :: x' => ((a - 1) / b) mod n :: grid_coords bdims' grid' x'
  | _, _, _ => []
  end.
Fixpoint local_coords (bdims grid x : list Z) : list Z :=
  match bdims, grid, x with
  | b :: bdims', n :: grid', a :: x' =>
      (a - 1) / b / n * b + (a - 1) mod b :: local_coords bdims' grid' x'
  | _, _, _ => []
  end.

(** Element [x] of a ScaLAPACK array: processes are numbered column by column
    in the grid, the elements of a process form one column-major array. *)
Definition scalapack_place (a : garray) (x : list Z) (q : place) : Prop :=
  let g := ga_desc a in
  let coord := grid_coords (block_dims g) (nblock g) x in
  in_array (dims g) x /\ in_range0 (nblock g) coord /\
  fst q = lin (nblock g) coord /\
  snd q = lin (local_extents (dims g) (block_dims g) (nblock g) coord)
              (local_coords (block_dims g) (nblock g) x).

Definition scalapack_shape (a : garray) (sh : list Z) : Prop :=
  let g := ga_desc a in
  exists x, in_array (dims g) x /\
    sh = local_extents (dims g) (block_dims g) (nblock g) (grid_coords (block_dims g) (nblock g) x).

(** Storage is sound when every element has one place, different elements have
    different places, and every offset is within the memory of its process;
    [alloc q r] is the number of elements allocated by the process with world
    rank [q] and group rank [r]. *)
Definition sound_storage (a : garray) (placed : list Z -> place -> Prop)
           (alloc : Z -> Z -> option Z) : Prop :=
  let ds := dims (ga_desc a) in
  (forall x, in_array ds x -> exists q, placed x q) /\
  (forall x q q', placed x q -> placed x q' -> q = q') /\
  (forall x y q, placed x q -> placed y q -> x = y) /\
  (forall x q, placed x q ->
     exists r n, 0 <= r < ga_nproc a /\ abs_rank a r = Some (fst q) /\
                 alloc (fst q) r = Some n /\ 0 <= snd q < n).
