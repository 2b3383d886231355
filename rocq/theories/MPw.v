(** Model of the elementwise operations on one array: GA_Fill_patch,
    GA_Zero_patch, GA_Scale_patch, GA_Zero, GA_Scale, GA_Fill.
    Source: /repo/global/src/global.npatch.c 1528-2340, 3126-3183,
    /repo/global/src/global.nalg.c 39-174, 597-738,
    /repo/global/src/base.c 4330-4425.
    The result of a process is the list of cells it updates; [None] = pnga_error
    or undefined behaviour.  Simplifications: the element type is one of the
    seven the switch statements list; the memory of an array is a heap of
    elements; Integer is unbounded; not mirrored.  The synchronisations are in
    [zero_syncs], [scale_syncs], [fill_syncs]; for the effect they appear as the
    assumption that nothing else happens meanwhile. *)
From Verif Require Export MCpatch MOdo SpecPw.

(** One update: zero and fill store a constant, scale multiplies. *)
Definition upd_elem {V} (f : V -> V) (m : heap V) (q : place) : option (heap V) :=
  do v <- hget m q; Some (hset m q (f v)).

(** global.npatch.c 1545, 1549: baseld[0..]; the entry for the last dimension
    uses an entry of ld that is not set, and is not used. *)
Fixpoint baselds (p : Z) (ld : list Z) : list Z :=
  match ld with [] => [] | d :: ld' => p * d :: baselds (p * d) ld' end.
(** global.npatch.c 1528-1562 (and 1914-1951): the offsets of the elements of
    a patch from the pointer to its first element; bunit[1..] is [bunits]. *)
Definition patch_offsets (lo hi ld : list Z) : option (list Z) :=
  match extents lo hi with
  | [] => None
  | c :: cnt =>
      do rows <- odo_offsets mul_long (Z.to_nat (zprod cnt)) 0 (repeat 0 (length cnt)) (bunits (tl lo) (tl hi) 1) cnt (baselds 1 ld);
      Some (flat_map (fun r => map (fun j => r + j) (counts c)) rows)
  end.

(** global.npatch.c 1688-1703, 2132-2146: the offset is computed only if the
    patch cuts something off the lower end of the block. *)
Fixpoint lt_some (a b : list Z) : bool :=
  match a, b with x :: a', y :: b' => (x <? y) || lt_some a' b' | _, _ => false end.
Definition piece_cells (plo phi : list Z) (q : lpiece) : option (list place) :=
  match patch_intersect plo phi (lp_lo q) (lp_hi q) with
  | None => Some []
  | Some b =>
      do o <- (if lt_some (lp_lo q) (fst b) then corner_offset (fst b) (lp_lo q) (lp_ld q) 1 else Some 0);
      do os <- patch_offsets (fst b) (snd b) (lp_ld q);
      Some (map (fun k => (lp_seg q, lp_off q + o + k)) os)
  end.
(** global.npatch.c 1656-1742 [pnga_fill_patch], 2073-2163 [pnga_scale_patch]. *)
Definition patch_cells fuel guess near wn (a : garray) (me : Z) (plo phi : list Z) : option (list place) :=
  do ps <- local_iterate fuel guess near wn a me;
  do ls <- mapM (piece_cells plo phi) ps;
  Some (concat ls).

(** base.c 1720. *)
Definition has_ghosts (a : garray) : bool := existsb (fun w => 0 <? w) (ga_width a).
(** global.nalg.c 39-45 [GET_ELEMS]. *)
Fixpoint get_elems (lo hi ld : list Z) : option Z :=
  match lo, hi with
  | [l], [h] => Some (h - l + 1)
  | l :: lo', h :: hi' =>
      match ld with
      | d :: ld' => if d =? h - l + 1 then do n <- get_elems lo' hi' ld'; Some (n * (h - l + 1)) else None
      | [] => None
      end
  | _, _ => None
  end.
(** [n] consecutive elements. *)
Definition run_cells (seg off n : Z) : list place := map (fun k => (seg, off + k)) (counts n).

Definition block_cells guess near (a : garray) (lo hi : list Z) : option (list place) :=
  do r <- access_ptr guess near a lo hi;
  do n <- get_elems lo hi (snd r);
  Some (run_cells (fst (fst r)) (snd (fst r)) n).
Definition segment_cells wn w me (a : garray) : option (list place) :=
  do s <- access_segment wn w me a me;
  Some (run_cells (fst (fst s)) (snd (fst s)) (snd s)).

(** global.nalg.c 60-174 [pnga_zero]; [w], [me]: rank of the caller in the world
    and in the group of the array. *)
Definition zero_cells fuel guess near wn (a : garray) (w me : Z) : option (list place) :=
  match distr_type (ga_desc a) with
  | REGULAR =>
      do b <- distribution (ga_desc a) me;
      if 0 <? hd 0 (fst b) then
        if has_ghosts a then patch_cells fuel guess near wn a me (fst b) (snd b)
        else block_cells guess near a (fst b) (snd b)
      else Some []
  | _ => segment_cells wn w me a
  end.
(** global.nalg.c 597-738 [pnga_scale]. *)
Definition scale_cells fuel guess near wn (a : garray) (w me : Z) : option (list place) :=
  match distr_type (ga_desc a) with
  | REGULAR =>
      do b <- distribution (ga_desc a) me;
      if has_ghosts a then patch_cells fuel guess near wn a me (fst b) (snd b)
      else if 0 <? hd 0 (fst b) then block_cells guess near a (fst b) (snd b)
      else Some []
  | _ => segment_cells wn w me a
  end.
(** base.c 4336-4425 [pnga_fill]: the index i is an int; blocked arrays are
    accessed with the world rank. *)
Definition fill_cells wn (a : garray) (w me : Z) : option (list place) :=
  do cs <- match distr_type (ga_desc a) with
           | REGULAR => do seg <- ptr_owner a me; do n <- alloc_elems wn w me a; Some (seg, n)
           | _ => do s <- access_segment wn w me a w; Some (fst (fst s), snd s)
           end;
  if snd cs <=? int_max then Some (run_cells (fst cs) 0 (snd cs)) else None.

(** Synchronisations: with the group of the array (pnga_pgroup_sync) or with the
    default group (pnga_sync), here all [wn] processes. *)
Definition group_list (a : garray) : list Z := match ga_group a with Some l => l | None => counts (ga_nproc a) end.
(** global.npatch.c 1669, 1924, 2086, 2336, 3145, 3182. *)
Definition patch_syncs (wn : Z) : list (list Z) := [counts wn; counts wn].
Definition zero_patch_syncs (wn : Z) : list (list Z) := [counts wn] ++ patch_syncs wn ++ [counts wn].
(** global.nalg.c 76, 93-96, 173. *)
Definition zero_syncs (wn : Z) (a : garray) (me : Z) : option (list (list Z)) :=
  match distr_type (ga_desc a) with
  | REGULAR =>
      do b <- distribution (ga_desc a) me;
      if (0 <? hd 0 (fst b)) && has_ghosts a then Some (group_list a :: zero_patch_syncs wn)
      else Some [group_list a; group_list a]
  | _ => Some [group_list a; group_list a]
  end.
(** global.nalg.c 612, 622-625, 737. *)
Definition scale_syncs (wn : Z) (a : garray) : list (list Z) :=
  match distr_type (ga_desc a) with
  | REGULAR => if has_ghosts a then group_list a :: patch_syncs wn else [group_list a; group_list a]
  | _ => [group_list a; group_list a]
  end.
(** base.c 4349, 4424. *)
Definition fill_syncs (a : garray) : list (list Z) := [group_list a; group_list a].
