(** Specification vocabulary for ghost cells. *)
From Verif Require Export SpecHome SpecPeri.

(** Offset of the cell for subscript [x] in the memory of a process that owns
    [lo..hi]: the block is stored with its ghost cells in column-major order. *)
Definition ghost_cell (w lo hi x : list Z) : Z := lin (padded lo hi w) (vadd (vsub x lo) w).

(** The cells of a process: its block and the ghost cells around it. *)
Definition has_cell (w lo hi x : list Z) : Prop := in_box (vsub lo w) (vadd hi w) x.

(** [x] lies outside [lo..hi] in at most one dimension. *)
Definition face_cell (lo hi x : list Z) : Prop :=
  exists i, forall j, (j < length x)%nat -> j <> i -> nth j lo 0 <= nth j x 0 <= nth j hi 0.

(** Which cells an update fills: all of them, or the faces only. *)
Definition filled (corners : bool) (lo hi x : list Z) : Prop :=
  if corners then True else face_cell lo hi x.

(** An array with ghost cells on all processes: every process owns a block, and
    no block is smaller than the ghost cells of its neighbours. *)
Definition ghost_array (a : garray) : Prop :=
  let g := ga_desc a in
  wf_regular (ga_nproc a) g /\ rstrctd_list g = [] /\ zprod (nblock g) = ga_nproc a /\ ga_group a = None /\
  (length (dims g) <= 7)%nat /\ length (ga_width a) = length (dims g) /\ Forall (fun w => 0 <= w) (ga_width a) /\
  1 <= ga_elemsize a /\
  forall p lo hi, 0 <= p < ga_nproc a -> distribution g p = Some (lo, hi) ->
    Forall2 Z.le lo hi /\ Forall2 Z.le (ga_width a) (extents lo hi) /\
    ga_elemsize a * zprod (padded lo hi (ga_width a)) <= int_max.

(** Every cell of the array is allocated; [m p s o] is the cell at offset [o] of
    allocation [s] of process [p], and [seg p] is the allocation of the array. *)
Definition ghosts_allocated {V} (a : garray) (seg : Z -> Z) (m : Z -> Z -> Z -> option V) : Prop :=
  forall p lo hi x, 0 <= p < ga_nproc a -> distribution (ga_desc a) p = Some (lo, hi) ->
    has_cell (ga_width a) lo hi x -> m p (seg p) (ghost_cell (ga_width a) lo hi x) <> None.

(** The effect of an update: in [m'], a ghost cell holds what the element it
    stands for (with periodic boundary conditions) held in [m] at its owner;
    the elements of the array and all other memory are as they were. *)
Definition ghosts_updated {V} (corners : bool) (a : garray) (seg : Z -> Z) (m m' : Z -> Z -> Z -> option V) : Prop :=
  (forall p lo hi x, 0 <= p < ga_nproc a -> distribution (ga_desc a) p = Some (lo, hi) ->
     has_cell (ga_width a) lo hi x -> filled corners lo hi x ->
     (exists q, reg_place a (wrapv (dims (ga_desc a)) x) q) /\
     forall q, reg_place a (wrapv (dims (ga_desc a)) x) q ->
       m' p (seg p) (ghost_cell (ga_width a) lo hi x) = m (fst q) (seg (fst q)) (snd q)) /\
  (forall x q, reg_place a x q -> m' (fst q) (seg (fst q)) (snd q) = m (fst q) (seg (fst q)) (snd q)) /\
  (forall p s o,
     (forall lo hi x, 0 <= p < ga_nproc a -> distribution (ga_desc a) p = Some (lo, hi) -> s = seg p ->
        has_cell (ga_width a) lo hi x -> filled corners lo hi x -> o <> ghost_cell (ga_width a) lo hi x) ->
     m' p s o = m p s o).
