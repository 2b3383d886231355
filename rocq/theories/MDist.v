(** Model of the distribution queries of Global Arrays.
    Sources: /repo/global/src/base.h, /repo/global/src/base.c.
    [Integer] is modelled by [Z] (no overflow); out-of-bounds reads and
    division by zero give [None]. *)
From Verif Require Export MBase.

(** globalp.h: GA[].distr_type. *)
Inductive distr := REGULAR | BLOCK_CYCLIC | SCALAPACK | TILED | TILED_IRREG.

(** The fields of [global_array_t] (globalp.h) the distribution depends on.
    [dims], [nblock] (process grid), [mapc] (flat block maps), [block_dims],
    [num_blocks] (block grid), [rstrctd_list] and [rank_rstrctd] as in C;
    [num_rstrctd] is [length rstrctd_list].  The number of dimensions is the
    length of [dims]. *)
Record gadesc := {
  distr_type : distr;
  dims : list Z;
  nblock : list Z;
  mapc : list Z;
  block_dims : list Z;
  num_blocks : list Z;
  rstrctd_list : list Z;
  rank_rstrctd : list Z
}.

Definition num_rstrctd (g : gadesc) : Z := Z.of_nat (length (rstrctd_list g)).

(** base.h 160-171: the per-dimension loop of [ga_ownsM_no_handle]; the C
    index [dimpos = loc + dimstart] into mapc is index [loc] into the suffix
    of mapc that starts at [dimstart]. *)
Fixpoint owns_dims (dims nblock mapc : list Z) (index : Z)
  : option (list Z * list Z) :=
  match dims, nblock with
  | [], [] => Some ([], [])
  | d :: dims', n :: nblock' =>
      do loc <- cmod index n;
      do index' <- cdiv index n;
      do l <- zget mapc loc;
      do h <- (if loc =? n - 1 then Some d
               else do m <- zget mapc (loc + 1); Some (m - 1));
      do r <- owns_dims dims' nblock' (zdrop n mapc) index';
      Some (l :: fst r, h :: snd r)
  | _, _ => None
  end.

(** base.h 153-174 [ga_ownsM_no_handle]. *)
Definition owns_no_handle (dims nblock mapc : list Z) (proc : Z)
  : option (list Z * list Z) :=
  if (zprod nblock - 1 <? proc) || (proc <? 0)
  then Some (map (fun _ => 0) dims, map (fun _ => -1) dims)
  else owns_dims dims nblock mapc proc.

(** base.h 177-186 [gam_find_block_indices] (on num_blocks), 190-199
    [gam_find_tile_proc_indices] and 212-221 [gam_find_proc_indices] (both on
    nblock): all three are the same loop over a list of radices. *)
Fixpoint find_indices (radix : list Z) (itmp : Z) : option (list Z) :=
  match radix with
  | [] => Some []
  | n :: radix' =>
      do i0 <- cmod itmp n;
      do q <- cdiv (itmp - i0) n;
      do r <- find_indices radix' q;
      Some (i0 :: r)
  end.

(** base.h 249-258: block limits of BLOCK_CYCLIC / SCALAPACK / TILED. *)
Fixpoint bd_limits (dims bdims idx : list Z) : option (list Z * list Z) :=
  match dims, bdims, idx with
  | [], [], [] => Some ([], [])
  | d :: dims', bd :: bdims', i :: idx' =>
      do r <- bd_limits dims' bdims' idx';
      let h := (i + 1) * bd in
      Some (i * bd + 1 :: fst r, (if d <? h then d else h) :: snd r)
  | _, _, _ => None
  end.

(** base.h 259-275: block limits of TILED_IRREG. *)
Fixpoint irreg_limits (dims nbs mapc idx : list Z) : option (list Z * list Z) :=
  match dims, nbs, idx with
  | [], [], [] => Some ([], [])
  | d :: dims', n :: nbs', i :: idx' =>
      do l <- zget mapc i;
      do h <- (if i <? n - 1 then do m <- zget mapc (i + 1); Some (m - 1)
               else Some d);
      do r <- irreg_limits dims' nbs' (zdrop n mapc) idx';
      Some (l :: fst r, h :: snd r)
  | _, _, _ => None
  end.

(** base.h 229-278 [ga_ownsM]. *)
Definition owns (g : gadesc) (proc : Z) : option (list Z * list Z) :=
  match distr_type g with
  | REGULAR =>
      if num_rstrctd g =? 0 then owns_no_handle (dims g) (nblock g) (mapc g) proc
      else if proc <? num_rstrctd g
           then owns_no_handle (dims g) (nblock g) (mapc g) proc
           else Some (map (fun _ => 0) (dims g), map (fun _ => -1) (dims g))
  | BLOCK_CYCLIC | SCALAPACK | TILED =>
      do idx <- find_indices (num_blocks g) proc;
      bd_limits (dims g) (block_dims g) idx
  | TILED_IRREG =>
      do idx <- find_indices (num_blocks g) proc;
      irreg_limits (dims g) (num_blocks g) (mapc g) idx
  end.

(** base.c 3689-3708 [pnga_distribution].  Not modelled: the READ_ONLY
    property, which replaces [proc] by its rank within the node. *)
Definition distribution (g : gadesc) (proc : Z) : option (list Z * list Z) :=
  do lproc <- (if 0 <? num_rstrctd g then zget (rank_rstrctd g) proc
               else Some proc);
  owns g lproc.

(** base.c 726-751 [findblock].  [cand] stands for [(int)(scale*(elem))],
    the rounded floating point guess; theorems quantify over it.  The result
    is the block number.  The two loops carry fuel; running out of it would
    also give [None], so a theorem that the result is [Some] shows that the
    loops terminate and stay within the array. *)
Fixpoint fb_up (fuel : nat) (map : list Z) (n b elem : Z) : option (bool * Z) :=
  if b <? n - 1 then
    match fuel with
    | O => None
    | S f =>
        do m <- zget map (b + 1);
        if elem <? m then Some (true, b) else fb_up f map n (b + 1) elem
    end
  else Some (false, b).

Fixpoint fb_down (fuel : nat) (map : list Z) (b elem : Z) : option (bool * Z) :=
  if 0 <=? b then
    match fuel with
    | O => None
    | S f =>
        do m <- zget map b;
        if m <=? elem then Some (true, b) else fb_down f map (b - 1) elem
    end
  else Some (false, b).

Definition findblock (map : list Z) (n cand elem : Z) : option Z :=
  let candidate := if cand =? n then n - 1 else cand in
  do mc <- zget map candidate;
  do r <- (if mc <=? elem
           then fb_up (Z.to_nat (n - candidate)) map n candidate elem
           else fb_down (Z.to_nat candidate) map (candidate - 1) elem);
  Some (if fst r then snd r else n - 1).

(** base.c 176-183 [ga_ComputeIndexM]: sum of subscript*factor. *)
Fixpoint compute_index_aux (sub dims : list Z) (factor : Z) : Z :=
  match sub, dims with
  | s :: sub', d :: dims' => s * factor + compute_index_aux sub' dims' (factor * d)
  | _, _ => 0
  end.
Definition compute_index (sub dims : list Z) : Z := compute_index_aux sub dims 1.

(** The loop "findblock in every dimension" of base.c 803-807, 764-775,
    4583-4596.  [guess] supplies the rounded float guess of each call. *)
Fixpoint findblocks (guess : Z -> Z -> Z -> Z) (dims nb mapc sub : list Z)
  : option (list Z) :=
  match dims, nb, sub with
  | [], [], [] => Some []
  | d :: dims', n :: nb', s :: sub' =>
      do b <- findblock mapc n (guess d n s) s;
      do r <- findblocks guess dims' nb' (zdrop n mapc) sub';
      Some (b :: r)
  | _, _, _ => None
  end.

(** base.c 776-780: block index of a subscript for fixed block sizes. *)
Fixpoint div_indices (bdims sub : list Z) : option (list Z) :=
  match bdims, sub with
  | [], [] => Some []
  | bd :: bdims', s :: sub' =>
      do q <- cdiv (s - 1) bd;
      do r <- div_indices bdims' sub';
      Some (q :: r)
  | _, _ => None
  end.

(** base.h 281-288 [gam_find_block_from_indices]: Horner from the last
    dimension, over num_blocks. *)
Fixpoint horner (radix idx : list Z) : Z :=
  match radix, idx with
  | [_], [i] => i
  | n :: radix', i :: idx' => horner radix' idx' * n + i
  | _, _ => 0
  end.

(** base.c 798-799: the range check. *)
Fixpoint sub_in_range (dims sub : list Z) : bool :=
  match dims, sub with
  | [], [] => true
  | d :: dims', s :: sub' =>
      negb ((s <? 1) || (d <? s)) && sub_in_range dims' sub'
  | _, _ => false
  end.

(** base.c 792-824 [pnga_locate]: outer [None] = undefined behaviour,
    [Some None] = returns FALSE, [Some (Some p)] = returns TRUE, owner p. *)
Definition locate (guess : Z -> Z -> Z -> Z) (g : gadesc) (sub : list Z)
  : option (option Z) :=
  match distr_type g with
  | REGULAR =>
      if sub_in_range (dims g) sub then
        do ps <- findblocks guess (dims g) (nblock g) (mapc g) sub;
        let proc := compute_index ps (nblock g) in
        if 0 <? num_rstrctd g
        then do o <- zget (rstrctd_list g) proc; Some (Some o)
        else Some (Some proc)
      else Some None
  | TILED_IRREG =>
      do idx <- findblocks guess (dims g) (num_blocks g) (mapc g) sub;
      Some (Some (horner (num_blocks g) idx))
  | _ =>
      do idx <- div_indices (block_dims g) sub;
      Some (Some (horner (num_blocks g) idx))
  end.

(** base.c 188-195 [ga_UpdateSubscriptM]: next subscript of a patch. *)
Fixpoint update_sub (sub lo hi : list Z) : list Z :=
  match sub, lo, hi with
  | s :: sub', l :: lo', h :: hi' =>
      if s <? h then (s + 1) :: sub' else l :: update_sub sub' lo' hi'
  | _, _, _ => []
  end.

(** base.c 204-205 [ga_InitLoopM]: number of elements of a patch. *)
Fixpoint count_elems (lo hi : list Z) : Z :=
  match lo, hi with
  | l :: lo', h :: hi' => (h - l + 1) * count_elems lo' hi'
  | _, _ => 1
  end.

(** base.c 4693-4694: [(lo<1 || hi>dims) || lo>hi] rejects the region. *)
Fixpoint region_ok (dims lo hi : list Z) : bool :=
  match dims, lo, hi with
  | [], [], [] => true
  | d :: dims', l :: lo', h :: hi' =>
      negb (((l <? 1) || (d <? h)) || (h <? l)) && region_ok dims' lo' hi'
  | _, _, _ => false
  end.

(** base.c 4742-4746: clipping of a block to the request. *)
Definition clip_lo (lo blo : list Z) : list Z :=
  map (fun p => if fst p <? snd p then snd p else fst p) (combine lo blo).
Definition clip_hi (hi bhi : list Z) : list Z :=
  map (fun p => if snd p <? fst p then snd p else fst p) (combine hi bhi).

(** A piece returned by locate_region: (proclist entry, map lo, map hi). *)
Definition piece := (Z * (list Z * list Z))%type.

(** base.c 4732-4757 (REGULAR) / 4787-4811 (TILED_IRREG): the loop over the
    [elems] block coordinates; [radix] is nblock or num_blocks, [owner_of]
    the translation of the block number stored in proclist. *)
Fixpoint region_loop (elems : nat) (owns : Z -> option (list Z * list Z))
         (owner_of : Z -> option Z)
         (radix procT procB lo hi sub : list Z) : option (list piece) :=
  match elems with
  | O => Some []
  | S e =>
      let proc := compute_index sub radix in
      do b <- owns proc;
      do o <- owner_of proc;
      do r <- region_loop e owns owner_of radix procT procB lo hi
                          (update_sub sub procT procB);
      Some ((o, (clip_lo lo (fst b), clip_hi hi (snd b))) :: r)
  end.

(** base.c 4701-4757 and 4758-4811: locate_region for map-based arrays. *)
Definition locate_region_map (guess : Z -> Z -> Z -> Z) (g : gadesc)
           (radix : list Z) (owner_of : Z -> option Z) (lo hi : list Z)
  : option (list piece) :=
  do procT <- findblocks guess (dims g) radix (mapc g) lo;
  do procB <- findblocks guess (dims g) radix (mapc g) hi;
  region_loop (Z.to_nat (count_elems procT procB)) (owns g) owner_of
              radix procT procB lo hi procT.

(** base.c 4826-4834: the end-point overlap test of BLOCK_CYCLIC. *)
Fixpoint endpoint_overlap (tlo thi lo hi : list Z) : bool :=
  match tlo, thi, lo, hi with
  | a :: tlo', b :: thi', l :: lo', h :: hi' =>
      (((l <=? a) && (a <=? h)) || ((l <=? b) && (b <=? h)))
      && endpoint_overlap tlo' thi' lo' hi'
  | _, _, _, _ => true
  end.

(** base.c 4812-4852: locate_region for BLOCK_CYCLIC, blocks [i, nblocks). *)
Fixpoint bc_region_loop (n : nat) (i : Z) (g : gadesc) (lo hi : list Z)
  : option (list piece) :=
  match n with
  | O => Some []
  | S n' =>
      do t <- distribution g i;
      do r <- bc_region_loop n' (i + 1) g lo hi;
      Some (if endpoint_overlap (fst t) (snd t) lo hi
            then (i, (clip_lo lo (fst t), clip_hi hi (snd t))) :: r
            else r)
  end.

(** base.c 4874-4877: block index computation of SCALAPACK / TILED, walking
    from the last dimension down.  Called on the reversed vectors. *)
Fixpoint sl_idx (rev_count rev_nb : list Z) (idx factor : Z) : Z :=
  match rev_count, rev_nb with
  | c :: cs, n :: ns => sl_idx cs ns (idx * factor + c) (factor * n)
  | _, _ => idx
  end.

(** base.c 4866-4898: odometer over block coordinates.  The C loop
    "count[0]++; while (count[i]>max[i] && ...)" is a carry chain whose last
    component is not reset; the loop ends when the last component passes its
    maximum, i.e. after count_elems(min,max) rounds. *)
Fixpoint sl_region_loop (n : nat) (g : gadesc) (mn mx count : list Z)
  : option (list piece) :=
  match n with
  | O => Some []
  | S n' =>
      let idx := sl_idx (rev count) (rev (num_blocks g)) 0 1 in
      do b <- bd_limits (dims g) (block_dims g) count;
      do r <- sl_region_loop n' g mn mx (update_sub count mn mx);
      Some ((idx, b) :: r)
  end.

(** base.c 4658-4901 [pnga_locate_region].  [Some None] = returns FALSE. *)
Definition locate_region (guess : Z -> Z -> Z -> Z) (g : gadesc) (lo hi : list Z)
  : option (option (list piece)) :=
  if region_ok (dims g) lo hi then
    do r <- match distr_type g with
            | REGULAR =>
                locate_region_map guess g (nblock g)
                  (fun p => if num_rstrctd g =? 0 then Some p
                            else zget (rstrctd_list g) p) lo hi
            | TILED_IRREG =>
                locate_region_map guess g (num_blocks g) (fun p => Some p) lo hi
            | BLOCK_CYCLIC =>
                bc_region_loop (Z.to_nat (zprod (num_blocks g))) 0 g lo hi
            | SCALAPACK | TILED =>
                do mn <- div_indices (block_dims g) lo;
                do mx <- div_indices (block_dims g) hi;
                sl_region_loop (Z.to_nat (count_elems mn mx)) g mn mx mn
            end;
    Some (Some r)
  else Some None.

(** base.c 5042-5045, 5058-5062: comparison of flat maps of equal length,
    stopping at an entry -1. *)
Fixpoint same_map (n : nat) (a b : list Z) : bool :=
  match n with
  | O => true
  | S n' =>
      match a, b with
      | x :: a', y :: b' =>
          if negb (x =? y) then false
          else if x =? -1 then true else same_map n' a' b'
      | _, _ => true
      end
  end.

Fixpoint same_list (a b : list Z) : bool :=
  match a, b with
  | [], [] => true
  | x :: a', y :: b' => (x =? y) && same_list a' b'
  | _, _ => false
  end.

Definition distr_eqb (a b : distr) : bool :=
  match a, b with
  | REGULAR, REGULAR | BLOCK_CYCLIC, BLOCK_CYCLIC | SCALAPACK, SCALAPACK
  | TILED, TILED | TILED_IRREG, TILED_IRREG => true
  | _, _ => false
  end.

(** base.c 5019-5077 [pnga_compare_distr] (calc_maplen, base.c 5826-5842, is
    the sum of nblock, or of num_blocks for TILED_IRREG). *)
Definition compare_distr (a b : gadesc) : bool :=
  let maplen g := match distr_type g with
                  | TILED_IRREG => zsum (num_blocks g)
                  | _ => zsum (nblock g) end in
  same_list (dims a) (dims b) &&
  distr_eqb (distr_type a) (distr_type b) &&
  match distr_type a with
  | REGULAR =>
      (maplen a =? maplen b) && same_map (Z.to_nat (maplen a)) (mapc a) (mapc b)
  | BLOCK_CYCLIC =>
      same_list (block_dims a) (block_dims b) &&
      same_list (num_blocks a) (num_blocks b)
  | SCALAPACK | TILED =>
      same_list (block_dims a) (block_dims b) &&
      same_list (num_blocks a) (num_blocks b) &&
      same_list (nblock a) (nblock b)
  | TILED_IRREG =>
      (maplen a =? maplen b) && same_map (Z.to_nat (maplen a)) (mapc a) (mapc b)
      && same_list (nblock a) (nblock b)
  end &&
  same_list (rstrctd_list a) (rstrctd_list b).

(** base.c 1806-1831 [pnga_set_block_cyclic] / 1840-1867 / 1876-1903: number
    of blocks for an extent and a block size. *)
Definition nblocks_of (d bd : Z) : Z := Z.quot d bd + (if Z.rem d bd =? 0 then 0 else 1).

(** base.c 1977-2014 [pnga_set_restricted]: the table rank_rstrctd built from
    the list of processes.  [None] = pnga_error (process not in the group).
    Simplification: the array lives on the world group, so the table size
    GAnproc and the number of group members coincide. *)
Fixpoint set_ranks (l : list Z) (i : Z) (ranks : list Z) : option (list Z) :=
  match l with
  | [] => Some ranks
  | p :: l' => do r <- zset ranks p i; set_ranks l' (i + 1) r
  end.
Definition set_restricted (nproc : Z) (l : list Z) : option (list Z) :=
  set_ranks l 0 (repeat (-1) (Z.to_nat nproc)).

(** base.h 293-304 [gam_find_tile_proc_from_indices] and 305-316
    [gam_find_proc_from_sl_indices]: process owning a block of a grid array. *)
Fixpoint mod_indices (grid idx : list Z) : option (list Z) :=
  match grid, idx with
  | [], [] => Some []
  | n :: grid', i :: idx' =>
      do r <- cmod i n; do rs <- mod_indices grid' idx'; Some (r :: rs)
  | _, _ => None
  end.
Definition find_proc_from_indices (grid idx : list Z) : option Z :=
  do m <- mod_indices grid idx; Some (horner grid m).

(** Process holding block [k]: iterator.c 521 (BLOCK_CYCLIC: block number
    modulo the number of processes) and base.h 293-316 (grid arrays). *)
Definition block_home (nproc : Z) (g : gadesc) (k : Z) : option Z :=
  match distr_type g with
  | BLOCK_CYCLIC => cmod k nproc
  | _ => do idx <- find_indices (num_blocks g) k;
         find_proc_from_indices (nblock g) idx
  end.
