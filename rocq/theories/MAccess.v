(** Model of direct access to the local memory of an array.
    Source: /repo/global/src/onesided.c 1499-1530, 1540-1829, 1839-1906.
    A returned pointer is a process (the memory it points into) and an element
    offset.  [None] = pnga_error or undefined behaviour.  Not modelled: the
    Fortran index of pnga_access_idx relative to the MA base address. *)
From Verif Require Export MAlloc.

(** PGRP_LIST[p_handle].map_proc_list[w]: rank in the group of world process
    [w] (base.c pgroup_create fills it as the inverse of inv_map_proc_list). *)
Fixpoint find_pos (l : list Z) (w i : Z) : option Z :=
  match l with
  | [] => None
  | x :: l' => if x =? w then Some i else find_pos l' w (i + 1)
  end.
Definition grp_rank (a : garray) (w : Z) : option Z :=
  match ga_group a with None => Some w | Some l => find_pos l w 0 end.

(** onesided.c 1508-1517: locate a corner; [near] says that a process is the
    caller or on the caller's node. *)
Definition corner_owner guess (near : Z -> bool) (a : garray) (x : list Z) : option Z :=
  do r <- locate guess (ga_desc a) x;
  do o <- r;
  do ow <- abs_rank a o;
  if near ow then Some ow else None.

(** onesided.c 1519-1522. *)
Fixpoint le_all (lo hi : list Z) : bool :=
  match lo, hi with
  | l :: lo', h :: hi' => negb (h <? l) && le_all lo' hi'
  | _, _ => true
  end.

(** onesided.c 1499-1532 [pnga_access_ptr]: segment, offset, ld. *)
Definition access_ptr guess near (a : garray) (lo hi : list Z) : option (Z * Z * list Z) :=
  do _ <- corner_owner guess near a lo;
  do ow <- corner_owner guess near a hi;
  if le_all lo hi then
    do r <- grp_rank a ow;
    do r' <- (if 0 <? num_rstrctd (ga_desc a) then zget (rank_rstrctd (ga_desc a)) r else Some r);
    location a r' lo
  else None.

(** onesided.c 1875-1906 [pnga_access_idx] up to the address: the restricted
    rank is not looked up. *)
Definition access_idx guess near (a : garray) (lo hi : list Z) : option (Z * Z * list Z) :=
  do _ <- corner_owner guess near a lo;
  do ow <- corner_owner guess near a hi;
  if le_all lo hi then
    do r <- grp_rank a ow;
    location a r lo
  else None.

(** onesided.c 1577-1580. *)
Fixpoint block_in_range (nb idx : list Z) : bool :=
  match nb, idx with
  | n :: nb', i :: idx' => negb ((i <? 0) || (n <=? i)) && block_in_range nb' idx'
  | _, _ => true
  end.

(** onesided.c 1591-1597 and 1672-1704, one dimension of a TILED array:
    ldims, block_idx, lld, block_count. *)
Record tdim := TDim { t_size : Z; t_idx : Z; t_lld : Z; t_count : Z; t_bd : Z }.
Definition tiled_dim (d bd nb pg pi idx : Z) : option tdim :=
  let lo := idx * bd + 1 in
  let hi := (idx + 1) * bd in
  let hi' := if d <? hi then d else hi in
  do bi <- cdiv (idx - pi + 1) pg;
  do ldim <- cdiv (nb - pi + 1) pg;
  do rm <- cmod (nb - pi + 1) pg;
  do dm <- cmod d bd;
  let lld := if rm =? 0 then (if negb (dm =? 0) then (ldim - 1) * bd + dm else ldim * bd)
             else ldim * bd in
  Some (TDim (hi' - lo + 1) bi lld ldim bd).
Fixpoint tiled_dims (ds bds nb pg pi idx : list Z) : option (list tdim) :=
  match ds, bds, nb, pg, pi, idx with
  | [], [], [], [], [], [] => Some []
  | d :: ds', b :: bds', n :: nb', g :: pg', p :: pi', i :: idx' =>
      do t <- tiled_dim d b n g p i;
      do r <- tiled_dims ds' bds' nb' pg' pi' idx';
      Some (t :: r)
  | _, _, _, _, _, _ => None
  end.

(** onesided.c 1726-1732: the factors j > i. *)
Fixpoint tiled_rest (ts : list tdim) : Z :=
  match ts with
  | [] => 1
  | t :: ts' => (if t_idx t =? t_count t - 1 then t_size t else t_bd t) * tiled_rest ts'
  end.
(** onesided.c 1720-1734; [pre] is the product of lld[j] for j < i. *)
Fixpoint tiled_offset (ts : list tdim) (pre : Z) : Z :=
  match ts with
  | [] => 0
  | t :: ts' => t_idx t * (pre * (t_bd t * tiled_rest ts')) + tiled_offset ts' (pre * t_lld t)
  end.

(** onesided.c 1608-1632, one dimension of a TILED_IRREG array: ldims, lld,
    ldidx.  The mapc entry is read as in [map_total] (MAlloc.v). *)
Fixpoint map_before (d n idx : Z) (mapc js : list Z) : option Z :=
  match js with
  | [] => Some 0
  | j :: js' =>
      do imin <- zget mapc j;
      do imax <- (if j <? n - 1 then do m <- zget mapc (j + 1); Some (m - 1) else Some d);
      do r <- map_before d n idx mapc js';
      Some ((if j <? idx then imax - imin + 1 else 0) + r)
  end.
Record idim := IDim { i_size : Z; i_lld : Z; i_before : Z }.
Fixpoint irreg_dims (ds mapc nb pg pi idx : list Z) : option (list idim) :=
  match ds, nb, pg, pi, idx with
  | [], [], [], [], [] => Some []
  | d :: ds', n :: nb', g :: pg', p :: pi', i :: idx' =>
      do lo <- zget mapc i;
      do hi <- (if i <? n - 1 then do m <- zget mapc (i + 1); Some (m - 1) else Some d);
      do js <- strided (Z.to_nat n) p g n;
      do t <- map_total d n mapc js;
      do b <- map_before d n i mapc js;
      do r <- irreg_dims ds' (zdrop n mapc) nb' pg' pi' idx';
      Some (IDim (hi - lo + 1) t b :: r)
  | _, _, _, _, _ => None
  end.
(** onesided.c 1746-1757. *)
Fixpoint irreg_offset (ts : list idim) (pre : Z) : Z :=
  match ts with
  | [] => 0
  | t :: ts' => pre * i_before t * zprod (map i_size ts') + irreg_offset ts' (pre * i_lld t)
  end.

(** onesided.c 1641-1664: ld of a SCALAPACK array, i < ndim-1 (the arithmetic
    is that of [sl_local_ld], MIter.v). *)
Fixpoint sl_lds (ds bds pg pi : list Z) : option (list Z) :=
  match ds, bds, pg, pi with
  | [_], [_], [_], [_] => Some []
  | d :: ds', b :: bds', g :: pg', p :: pi' =>
      do l <- sl_local_ld d b g p;
      do r <- sl_lds ds' bds' pg' pi';
      Some (l :: r)
  | _, _, _, _ => None
  end.
(** onesided.c 1760-1765. *)
Fixpoint sl_block_offset (bds pg pi idx ld : list Z) (factor : Z) : option Z :=
  match bds, pg, pi, idx with
  | b :: bds', g :: pg', p :: pi', i :: idx' =>
      do q <- cdiv (i - p) g;
      do r <- match bds' with
              | [] => Some 0
              | _ => match ld with
                     | l :: ld' => sl_block_offset bds' pg' pi' idx' ld' (factor * l)
                     | [] => None
                     end
              end;
      Some (q * b * factor + r)
  | _, _, _, _ => None
  end.

(** onesided.c 1596, 1630, 1815-1817: ld[i] for i < ndim-1. *)
Fixpoint init_ld (l : list Z) : list Z :=
  match l with [] => [] | [_] => [] | x :: l' => x :: init_ld l' end.

(** onesided.c 1540-1771 [pnga_access_block_grid_ptr]. *)
Definition access_block_grid_ptr (a : garray) (idx : list Z) : option (Z * Z * list Z) :=
  let g := ga_desc a in
  if block_in_range (num_blocks g) idx then
    do inode <- find_proc_from_indices (nblock g) idx;
    do pi <- find_indices (nblock g) inode;
    do r <- match distr_type g with
            | TILED =>
                do ts <- tiled_dims (dims g) (block_dims g) (num_blocks g) (nblock g) pi idx;
                Some (tiled_offset ts 1, init_ld (map t_size ts))
            | TILED_IRREG =>
                do ts <- irreg_dims (dims g) (mapc g) (num_blocks g) (nblock g) pi idx;
                Some (irreg_offset ts 1, init_ld (map i_size ts))
            | SCALAPACK =>
                do ld <- sl_lds (dims g) (block_dims g) (nblock g) pi;
                do off <- sl_block_offset (block_dims g) (nblock g) pi idx ld 1;
                Some (off, ld)
            | _ => None
            end;
    do seg <- ptr_owner a inode;
    Some (seg, fst r, snd r)
  else None.

(** onesided.c 1781-1829 [pnga_access_block_ptr]; [wn] is GAnproc. *)
Definition access_block_ptr (wn : Z) (a : garray) (k : Z) : option (Z * Z * list Z) :=
  let g := ga_desc a in
  if (k <? 0) || (zprod (num_blocks g) <=? k) then None else
  match distr_type g with
  | BLOCK_CYCLIC =>
      do inode <- cmod k wn;
      do bs <- strided (Z.to_nat k) inode wn k;
      do off <- owned_size g bs;
      do seg <- ptr_owner a inode;
      do b <- owns g k;
      Some (seg, off, init_ld (extents (fst b) (snd b)))
  | REGULAR => None
  | _ =>
      do idx <- find_indices (num_blocks g) k;
      access_block_grid_ptr a idx
  end.

(** onesided.c 1839-1866 [pnga_access_block_segment_ptr] called for [proc] by
    the process with world rank [me] and group rank [gme]: start and length of
    the memory; GA[].size is the number of bytes the caller allocated. *)
Definition access_segment (wn me gme : Z) (a : garray) (proc : Z) : option (Z * Z * Z) :=
  if (proc <? 0) || (ga_nproc a <=? proc) || negb (proc =? gme) then None else
  do seg <- ptr_owner a proc;
  do n <- alloc_elems wn me gme a;
  Some (seg, 0, n).
