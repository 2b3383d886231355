(** Model of the transfer iterator.
    Sources: /repo/global/src/iterator.c, the macros of base.h it uses and
    GA_*ptr tables set up by gai_getmem (base.c 3467-).

    Addresses are in units of array elements.  Not modelled: mirrored arrays
    (p_handle = 0), READ_ONLY arrays and device memory. *)
From Verif Require Export MDist SpecStore.

(** The array descriptor with the fields the iterator needs beside the
    distribution: ghost widths, the group the array lives on ([None] = world,
    [Some l] = a group whose inv_map_proc_list is [l]), the number of
    processes of that group and the element size in bytes. *)
Record garray := {
  ga_desc : gadesc;
  ga_width : list Z;
  ga_group : option (list Z);
  ga_nproc : Z;
  ga_elemsize : Z
}.

(** One (process, sub-range, address) triple delivered by gai_iterator_next:
    [ip_proc] = *proc (the rank passed to ARMCI), [ip_seg] = the process whose
    memory [prem] points into, [ip_off] the element offset of prem in it,
    [ip_ld] = ldrem. *)
Record ipiece := IPiece {
  ip_proc : Z; ip_seg : Z;
  ip_lo : list Z; ip_hi : list Z;
  ip_off : Z; ip_ld : list Z
}.

(** PGRP_LIST[p_handle].inv_map_proc_list[r] for a group, identity for the
    world group (p_handle = -1). *)
Definition abs_rank (a : garray) (r : Z) : option Z :=
  match ga_group a with None => Some r | Some l => zget l r end.

(** base.c gai_getmem (3467-): GA[].ptr is filled per rank in the group the
    array lives on, so entry [i] is the memory of the i-th group member. *)
Definition ptr_owner (a : garray) (i : Z) : option Z := abs_rank a i.

(** iterator.c 78-99 [gaPermuteProcList]; [rnd i] is the value rand() returns
    in iteration [i]. *)
Definition swap (l : list Z) (i j : Z) : option (list Z) :=
  do a <- zget l i;
  do b <- zget l j;
  do l1 <- zset l i b;
  zset l1 j a.
Fixpoint perm_loop (n : nat) (i nproc : Z) (rnd : Z -> Z) (l : list Z) : option (list Z) :=
  match n with
  | O => Some l
  | S n' =>
      do k <- cmod (rnd i) nproc;
      do l' <- swap l k i;
      perm_loop n' (i + 1) nproc rnd l'
  end.
Fixpoint iota (i : Z) (n : nat) : list Z :=
  match n with O => [] | S n' => i :: iota (i + 1) n' end.
Definition permute_list (rnd : Z -> Z) (nproc : Z) : option (list Z) :=
  if nproc =? 1 then Some [0]
  else perm_loop (Z.to_nat nproc) 0 nproc rnd (iota 0 (Z.to_nat nproc)).

(** iterator.c 115-126, the loop of [gam_Location]: element offset and ld.
    [None] = gaCheckSubscriptM (base.h 407-417) calls pnga_error. *)
Fixpoint loc_loop (sub lo hi w : list Z) (factor : Z) : option (Z * list Z) :=
  match sub, lo, hi, w with
  | [s], [l], [h], [a] =>
      if (s <? l) || (h <? s) then None else Some ((s - l + a) * factor, [])
  | s :: sub', l :: lo', h :: hi', a :: w' =>
      if (s <? l) || (h <? s) then None else
      let ld := h - l + 1 + 2 * a in
      do r <- loc_loop sub' lo' hi' w' (factor * ld);
      Some ((s - l + a) * factor + fst r, ld :: snd r)
  | _, _, _, _ => None
  end.

(** iterator.c 110-138 [gam_Location] for [proc] (p_handle <> 0): segment
    owner, offset, ld. *)
Definition location (a : garray) (proc : Z) (sub : list Z) : option (Z * Z * list Z) :=
  do b <- owns (ga_desc a) proc;
  do r <- loc_loop sub (fst b) (snd b) (ga_width a) 1;
  let ld := match fst b, snd b, ga_width a with
            | [l], [h], [w] => [h - l + 1 + 2 * w]
            | _, _, _ => snd r
            end in
  do pinv <- (if num_rstrctd (ga_desc a) =? 0 then Some proc
              else zget (rstrctd_list (ga_desc a)) proc);
  do seg <- ptr_owner a pinv;
  Some (seg, fst r, ld).

(** iterator.c 171-179 [gam_GetBlockPatch]. *)
Fixpoint patch_lo (plo phi lo : list Z) : list Z :=
  match plo, phi, lo with
  | p :: plo', q :: phi', l :: lo' =>
      (if (l <=? q) && (p <=? l) then l else p) :: patch_lo plo' phi' lo'
  | _, _, _ => []
  end.
Fixpoint patch_hi (plo phi hi : list Z) : list Z :=
  match plo, phi, hi with
  | p :: plo', q :: phi', h :: hi' =>
      (if (h <=? q) && (p <=? h) then h else q) :: patch_hi plo' phi' hi'
  | _, _, _ => []
  end.

(** iterator.c 358-363: all phi >= plo. *)
Fixpoint range_ok (plo phi : list Z) : bool :=
  match plo, phi with
  | l :: plo', h :: phi' => negb (h <? l) && range_ok plo' phi'
  | _, _ => true
  end.

(** ---- REGULAR: iterator.c 334-458 ---- *)

(** iterator.c 37 (LARGE_BLOCK_REQ) / MAX_INT_VALUE. *)
Definition max_int_value : Z := 2147483648.

(** iterator.c 384-389: the dimension whose block size exceeds [maxint];
    [maxint] and [maxidx] survive from one round to the next. *)
Fixpoint find_max (sizes : list Z) (i maxint maxidx : Z) : Z * Z :=
  match sizes with
  | [] => (maxint, maxidx)
  | s :: sizes' =>
      if maxint <? s then find_max sizes' (i + 1) s i
      else find_max sizes' (i + 1) maxint maxidx
  end.

(** iterator.c 383-393. *)
Fixpoint halve (fuel : nat) (es : Z) (sizes : list Z) (maxint maxidx : Z)
  : option (list Z) :=
  if max_int_value <? es * zprod sizes then
    match fuel with
    | O => None
    | S f =>
        let m := find_max sizes 0 maxint maxidx in
        do s <- zget sizes (snd m);
        do sizes' <- zset sizes (snd m) (Z.quot s 2);
        halve f es sizes' (fst m) (snd m)
    end
  else Some sizes.

(** iterator.c 395-399: number of sub-blocks along each dimension. *)
Fixpoint split_dims (ext sizes : list Z) : option (list Z) :=
  match ext, sizes with
  | e :: ext', s :: sizes' =>
      do q <- cdiv e s;
      do r <- split_dims ext' sizes';
      Some ((if q * s <? e then q + 1 else q) :: r)
  | _, _ => Some []
  end.

(** The counters of an oversize block: blk_size, blk_dim, blk_inc. *)
Record split := Split { sp_size : list Z; sp_dim : list Z; sp_inc : list Z }.

(** iterator.c 371-403. *)
Definition start_split (es : Z) (blo bhi : list Z) : option (option split) :=
  let ext := extents blo bhi in
  if max_int_value <? es * zprod ext then
    do sizes <- halve (Z.to_nat (Z.log2 (zprod ext) + 2)) es ext 0 0;
    do bd <- split_dims ext sizes;
    Some (Some (Split sizes bd (map (fun _ => 0) ext)))
  else Some None.

(** iterator.c 408-420: bounds of the current sub-block. *)
Fixpoint sub_lo (blo inc size : list Z) : list Z :=
  match blo, inc, size with
  | l :: blo', i :: inc', s :: size' => l + i * s :: sub_lo blo' inc' size'
  | _, _, _ => []
  end.
Fixpoint sub_hi (lobuf bhi size : list Z) : list Z :=
  match lobuf, bhi, size with
  | l :: lobuf', h :: bhi', s :: size' =>
      (let tmp := l + s - 1 in if tmp <? h then tmp else h) :: sub_hi lobuf' bhi' size'
  | _, _, _ => []
  end.

(** The odometers of iterator.c 443-449 and 622-628 / 710-716: component 0 is
    incremented by [step] (here the flag [c] says whether the component at
    hand is incremented); a component that reaches its limit is set back to
    [start] and the next one incremented, except for the last component. *)
Fixpoint carry (limit step start idx : list Z) (c : bool) : list Z :=
  match limit, step, start, idx with
  | [_], [g], [_], [i] => [if c then i + g else i]
  | n :: limit', g :: step', p :: start', i :: idx' =>
      let i' := if c then i + g else i in
      if n <=? i' then p :: carry limit' step' start' idx' true
      else i' :: carry limit' step' start' idx' false
  | _, _, _, _ => []
  end.
Definition last_reached (limit idx : list Z) : bool :=
  last limit 0 <=? last idx 0.

(** Iterator state for REGULAR: count, oversize and the split counters. *)
Record rstate := RState { r_count : Z; r_over : option split }.

(** iterator.c 435-456. *)
Definition reg_advance (st : rstate) : rstate :=
  match r_over st with
  | None => RState (r_count st + 1) None
  | Some sp =>
      let ones := map (fun _ => 1) (sp_dim sp) in
      let zeros := map (fun _ => 0) (sp_dim sp) in
      let inc := carry (sp_dim sp) ones zeros (sp_inc sp) true in
      if last_reached (sp_dim sp) inc then RState (r_count st + 1) None
      else RState (r_count st) (Some (Split (sp_size sp) (sp_dim sp) inc))
  end.

(** iterator.c 337-458: gai_iterator_next for REGULAR.  [pl] is the result of
    pnga_locate_region stored by gai_iterator_init (map, proclist), [perm] the
    permuted list.  [Some None] = returns 0. *)
Fixpoint reg_next (fuel : nat) (a : garray) (pl : list piece) (perm : list Z)
         (st : rstate) : option (option (ipiece * rstate)) :=
  match fuel with
  | O => None
  | S f =>
      if Z.of_nat (length pl) <=? r_count st then Some None else
      do p <- zget perm (r_count st);
      do pc <- zget pl p;
      let owner := fst pc in
      let blo := fst (snd pc) in
      let bhi := snd (snd pc) in
      if range_ok blo bhi then
        do over <- match r_over st with
                   | Some sp => Some (Some sp)
                   | None => start_split (ga_elemsize a) blo bhi
                   end;
        let lo' := match over with
                   | Some sp => sub_lo blo (sp_inc sp) (sp_size sp)
                   | None => blo
                   end in
        let hi' := match over with
                   | Some sp => sub_hi lo' bhi (sp_size sp)
                   | None => bhi
                   end in
        do rank <- (if num_rstrctd (ga_desc a) =? 0 then Some owner
                    else zget (rank_rstrctd (ga_desc a)) owner);
        do loc <- location a rank lo';
        do proc <- abs_rank a owner;
        Some (Some (IPiece proc (fst (fst loc)) lo' hi' (snd (fst loc)) (snd loc),
                    reg_advance (RState (r_count st) over)))
      else reg_next f a pl perm (reg_advance st)
  end.

(** ---- BLOCK_CYCLIC: iterator.c 466-560 ---- *)

(** iterator.c 479-495: the overlap test. *)
Fixpoint overlap (blo bhi lo hi : list Z) : bool :=
  match blo, bhi, lo, hi with
  | a :: blo', b :: bhi', l :: lo', h :: hi' =>
      let check1 := ((l <=? a) && (a <=? h)) || ((l <=? b) && (b <=? h)) in
      let check2 := ((a <=? l) && (l <=? b)) && ((a <=? h) && (h <=? b)) in
      (check1 || check2) && overlap blo' bhi' lo' hi'
  | _, _, _, _ => true
  end.

(** iterator.c 525-535 / 659-667: offset inside a contiguous block and ld. *)
Fixpoint block_offset (clo blo bhi : list Z) (jtot : Z) : Z * list Z :=
  match clo, blo, bhi with
  | [c], [l], [h] => ((c - l) * jtot, [])
  | c :: clo', l :: blo', h :: bhi' =>
      let ld := h - l + 1 in
      let r := block_offset clo' blo' bhi' (jtot * ld) in
      ((c - l) * jtot + fst r, ld :: snd r)
  | _, _, _ => (0, [])
  end.
Definition block_ld (blo bhi ld : list Z) : list Z :=
  match blo, bhi with [l], [h] => [h - l + 1] | _, _ => ld end.

(** Number of processes as iterator.c 331, 465 computes it. *)
Definition iter_nproc (a : garray) : Z :=
  if 0 <? num_rstrctd (ga_desc a) then num_rstrctd (ga_desc a) else ga_nproc a.

Record bcstate := BCState { bc_iproc : Z; bc_iblock : Z; bc_offset : Z }.

(** iterator.c 498-511 and 546-558: step to the next block; [nn] is
    pnga_nnodes(). *)
Definition bc_advance (a : garray) (nn : Z) (b : list Z * list Z) (st : bcstate) : bcstate :=
  let off := bc_offset st + count_elems (fst b) (snd b) in
  let ib := bc_iblock st + nn in
  if zprod (num_blocks (ga_desc a)) <=? ib
  then BCState (bc_iproc st + 1) (bc_iproc st + 1) 0
  else BCState (bc_iproc st) ib off.

(** iterator.c 516-544. *)
Definition bc_piece (a : garray) (lo hi : list Z) (b : list Z * list Z) (st : bcstate)
  : option ipiece :=
  let clo := patch_lo (fst b) (snd b) lo in
  let chi := patch_hi (fst b) (snd b) hi in
  let r := block_offset clo (fst b) (snd b) 1 in
  do r0 <- cmod (bc_iblock st) (iter_nproc a);
  do pinv <- abs_rank a r0;
  do seg <- ptr_owner a pinv;
  Some (IPiece pinv seg clo chi (fst r + bc_offset st) (block_ld (fst b) (snd b) (snd r))).

(** iterator.c 473-559, the loop; "if (iproc >= nproc) return 0" of line 510
    is taken exactly when the step of lines 505-509 leaves iproc >= nproc. *)
Fixpoint bc_loop (fuel : nat) (a : garray) (nn : Z) (lo hi : list Z) (st : bcstate)
  : option (option (ipiece * bcstate)) :=
  match fuel with
  | O => None
  | S f =>
      do b <- owns (ga_desc a) (bc_iblock st);
      let st' := bc_advance a nn b st in
      if overlap (fst b) (snd b) lo hi then
        do p <- bc_piece a lo hi b st;
        Some (Some (p, st'))
      else if iter_nproc a <=? bc_iproc st' then Some None
      else bc_loop f a nn lo hi st'
  end.

(** iterator.c 466-560. *)
Definition bc_next (fuel : nat) (a : garray) (nn : Z) (lo hi : list Z) (st : bcstate)
  : option (option (ipiece * bcstate)) :=
  if iter_nproc a <=? bc_iproc st then Some None
  else bc_loop fuel a nn lo hi
         (if bc_iblock st =? bc_iproc st
          then BCState (bc_iproc st) (bc_iblock st) 0 else st).

(** ---- SCALAPACK, TILED, TILED_IRREG: iterator.c 561-731 ---- *)

(** iterator.c 582-592: limits of a block of a TILED_IRREG array. *)
Fixpoint it_irreg_limits (dims nbs mapc idx : list Z) : option (list Z * list Z) :=
  match dims, nbs, idx with
  | [], [], [] => Some ([], [])
  | d :: dims', n :: nbs', i :: idx' =>
      do l <- zget mapc i;
      do h <- (if i =? n - 1 then Some d
               else do m <- zget mapc (i + 1); Some (m - 1));
      do r <- it_irreg_limits dims' nbs' (zdrop n mapc) idx';
      Some (l :: fst r, h :: snd r)
  | _, _, _ => None
  end.

(** iterator.c 574-592 (the SCALAPACK/TILED arithmetic is that of base.h
    249-258). *)
Definition grid_limits (g : gadesc) (idx : list Z) : option (list Z * list Z) :=
  match distr_type g with
  | TILED_IRREG => it_irreg_limits (dims g) (num_blocks g) (mapc g) idx
  | _ => bd_limits (dims g) (block_dims g) idx
  end.

Record slstate := SLState {
  sl_iproc : Z; sl_offset : Z; sl_pidx : list Z; sl_index : list Z
}.

(** iterator.c 250-254, 265-266, 293-305: iproc = offset = 0, indices of
    process 0; gam_find_proc_indices / gam_find_tile_proc_indices are
    [find_indices] over nblock. *)
Definition sl_enter (g : gadesc) (iproc : Z) : option slstate :=
  do idx <- find_indices (nblock g) iproc;
  Some (SLState iproc 0 idx idx).
Definition sl_init (g : gadesc) : option slstate := sl_enter g 0.

(** iterator.c 614-643 and 703-728. *)
Definition sl_advance (g : gadesc) (b : list Z * list Z) (st : slstate) : option slstate :=
  let off := sl_offset st + count_elems (fst b) (snd b) in
  let idx := carry (num_blocks g) (nblock g) (sl_pidx st) (sl_index st) true in
  if last_reached (num_blocks g) idx
  then sl_enter g (sl_iproc st + 1)
  else Some (SLState (sl_iproc st) off (sl_pidx st) idx).

(** iterator.c 243-248 and 673-684: local extent of dimension [j] on the
    process with coordinate [pi]. *)
Definition sl_local_ld (d bd pg pi : Z) : option Z :=
  do num <- cdiv d (bd * pg);
  let inc := d - num * (bd * pg) in
  do hlf <- cdiv inc bd;
  do jinc0 <- cmod d bd;
  do jrem <- cmod inc bd;
  let jinc := if 0 <? inc
              then (if pi <? hlf then bd else if pi =? hlf then jrem else 0)
              else jinc0 in
  Some (num * bd + jinc).

(** iterator.c 670-690: offset and ld for SCALAPACK. *)
Fixpoint sl_offset_ld (dims bdims grid pidx blo clo : list Z) (jtot : Z)
  : option (Z * list Z) :=
  match dims, bdims, grid, pidx, blo, clo with
  | [_], [bd], [pg], [_], [l], [c] =>
      do q <- cdiv (l - 1) (bd * pg);
      Some ((c - l + q * bd) * jtot, [])
  | d :: dims', bd :: bdims', pg :: grid', pi :: pidx', l :: blo', c :: clo' =>
      do ld <- sl_local_ld d bd pg pi;
      do q <- cdiv (l - 1) (bd * pg);
      do r <- sl_offset_ld dims' bdims' grid' pidx' blo' clo' (jtot * ld);
      Some ((c - l + q * bd) * jtot + fst r, ld :: snd r)
  | _, _, _, _, _, _ => None
  end.

(** iterator.c 646-701. *)
Definition sl_piece (a : garray) (lo hi : list Z) (b : list Z * list Z) (st : slstate)
  : option ipiece :=
  let g := ga_desc a in
  let clo := patch_lo (fst b) (snd b) lo in
  let chi := patch_hi (fst b) (snd b) hi in
  do r <- match distr_type g with
          | SCALAPACK =>
              sl_offset_ld (dims g) (block_dims g) (nblock g) (sl_pidx st) (fst b) clo 1
          | _ =>
              let r := block_offset clo (fst b) (snd b) 1 in
              Some (fst r + sl_offset st, block_ld (fst b) (snd b) (snd r))
          end;
  do r0 <- cmod (sl_iproc st) (iter_nproc a);
  do r1 <- (if 0 <? num_rstrctd g then zget (rstrctd_list g) r0 else Some r0);
  do pinv <- abs_rank a r1;
  do seg <- ptr_owner a pinv;
  Some (IPiece pinv seg clo chi (fst r) (snd r)).

(** iterator.c 569-731. *)
Fixpoint sl_loop (fuel : nat) (a : garray) (lo hi : list Z) (st : slstate)
  : option (option (ipiece * slstate)) :=
  match fuel with
  | O => None
  | S f =>
      do b <- grid_limits (ga_desc a) (sl_index st);
      do st' <- sl_advance (ga_desc a) b st;
      if overlap (fst b) (snd b) lo hi then
        do p <- sl_piece a lo hi b st;
        Some (Some (p, st'))
      else if iter_nproc a <=? sl_iproc st' then Some None
      else sl_loop f a lo hi st'
  end.
Definition sl_next (fuel : nat) (a : garray) (lo hi : list Z) (st : slstate)
  : option (option (ipiece * slstate)) :=
  if iter_nproc a <=? sl_iproc st then Some None else sl_loop fuel a lo hi st.

(** ---- the client loop: while (gai_iterator_next(...)) {...} ---- *)
Fixpoint drain {S : Type} (next : S -> option (option (ipiece * S))) (fuel : nat) (st : S)
  : option (list ipiece) :=
  match fuel with
  | O => None
  | S f =>
      do r <- next st;
      match r with
      | None => Some []
      | Some (p, st') => do l <- drain next f st'; Some (p :: l)
      end
  end.

(** gai_iterator_init; gai_iterator_reset; while (gai_iterator_next()) — the
    sequence put/get/accumulate use (onesided.c 586-608, 972-985, 1388-1394).
    iterator.c 216-217: a rejected region is a pnga_error ([None]). *)
Definition iterate (fuel : nat) (guess : Z -> Z -> Z -> Z) (rnd : Z -> Z) (nn : Z)
           (a : garray) (lo hi : list Z) : option (list ipiece) :=
  match distr_type (ga_desc a) with
  | REGULAR =>
      do r <- locate_region guess (ga_desc a) lo hi;
      do pl <- r;
      do perm <- permute_list rnd (Z.of_nat (length pl));
      drain (reg_next fuel a pl perm) fuel (RState 0 None)
  | BLOCK_CYCLIC => drain (bc_next fuel a nn lo hi) fuel (BCState 0 0 0)
  | _ => do st <- sl_init (ga_desc a); drain (sl_next fuel a lo hi) fuel st
  end.
