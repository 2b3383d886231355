(** Model of the memory sizing of pnga_allocate.
    Source: /repo/global/src/base.c 2641-2800.  Sizes are in elements (the
    code multiplies by elemsize).  Not modelled: mirrored arrays. *)
From Verif Require Export MIter.

(** The values j of "for (j=start; j<n; j+=skip)". *)
Fixpoint strided (fuel : nat) (j skip n : Z) : option (list Z) :=
  if j <? n then
    match fuel with
    | O => None
    | S f => do l <- strided f (j + skip) skip n; Some (j :: l)
    end
  else Some [].

(** base.c 2649-2656: the blocks of a BLOCK_CYCLIC array. *)
Fixpoint owned_size (g : gadesc) (bs : list Z) : option Z :=
  match bs with
  | [] => Some 0
  | i :: bs' =>
      do b <- owns g i;
      do s <- owned_size g bs';
      Some (count_elems (fst b) (snd b) + s)
  end.

(** base.c 2676-2682 / 2704-2710: elements of one dimension held by the
    process with coordinate [pi] (SCALAPACK, TILED). *)
Fixpoint bd_total (d bd : Z) (js : list Z) : Z :=
  match js with
  | [] => 0
  | j :: js' =>
      let imin := j * bd + 1 in
      let imax := (j + 1) * bd in
      (if d <? imax then d else imax) - imin + 1 + bd_total d bd js'
  end.
Fixpoint grid_size_bd (dims bdims nb grid idx : list Z) : option Z :=
  match dims, bdims, nb, grid, idx with
  | [], [], [], [], [] => Some 1
  | d :: dims', b :: bdims', n :: nb', skip :: grid', i :: idx' =>
      do js <- strided (Z.to_nat n) i skip n;
      do r <- grid_size_bd dims' bdims' nb' grid' idx';
      Some (bd_total d b js * r)
  | _, _, _, _, _ => None
  end.

(** base.c 2733-2746: the same for TILED_IRREG. *)
Fixpoint map_total (d n : Z) (mapc js : list Z) : option Z :=
  match js with
  | [] => Some 0
  | j :: js' =>
      do imin <- zget mapc j;
      do imax <- (if j <? n - 1 then do m <- zget mapc (j + 1); Some (m - 1) else Some d);
      do r <- map_total d n mapc js';
      Some (imax - imin + 1 + r)
  end.
Fixpoint grid_size_map (dims mapc nb grid idx : list Z) : option Z :=
  match dims, nb, grid, idx with
  | [], [], [], [] => Some 1
  | d :: dims', n :: nb', skip :: grid', i :: idx' =>
      do js <- strided (Z.to_nat n) i skip n;
      do t <- map_total d n mapc js;
      do r <- grid_size_map dims' (zdrop n mapc) nb' grid' idx';
      Some (t * r)
  | _, _, _, _ => None
  end.

(** base.c 2785-2790: nelem *= hi-lo+1+2*width. *)
Fixpoint padded_elems (lo hi width : list Z) : Z :=
  match lo, hi, width with
  | l :: lo', h :: hi', w :: width' => (h - l + 1 + 2 * w) * padded_elems lo' hi' width'
  | _, _, _ => 1
  end.

(** Elements allocated by the process with world rank [me] (GAme) and rank
    [gme] (grp_me) in the group of the array; [wn] is GAnproc.  base.c 2672,
    2700, 2728: a process grid that does not match the number of processes is
    a pnga_error ([None]).  base.c 2783: num_rstrctd == 0 || has_data, where
    has_data says that the process is in the restricted list (base.c
    1993-2012). *)
Definition alloc_elems (wn me gme : Z) (a : garray) : option Z :=
  let g := ga_desc a in
  let pnum := if num_rstrctd g =? 0 then ga_nproc a else num_rstrctd g in
  match distr_type g with
  | REGULAR =>
      do b <- distribution g gme;
      if (num_rstrctd g =? 0) || existsb (Z.eqb gme) (rstrctd_list g)
      then Some (padded_elems (fst b) (snd b) (ga_width a)) else Some 0
  | BLOCK_CYCLIC =>
      let n := zprod (num_blocks g) in
      do bs <- strided (Z.to_nat n) me wn n;
      owned_size g bs
  | SCALAPACK | TILED =>
      do idx <- find_indices (nblock g) me;
      if zprod (nblock g) =? pnum
      then grid_size_bd (dims g) (block_dims g) (num_blocks g) (nblock g) idx else None
  | TILED_IRREG =>
      do idx <- find_indices (nblock g) me;
      if zprod (nblock g) =? pnum
      then grid_size_map (dims g) (mapc g) (num_blocks g) (nblock g) idx else None
  end.
