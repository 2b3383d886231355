(** Model of the iterator over the locally held blocks of an array, used by
    fill, copy, select and the elementwise operations.
    Source: /repo/global/src/iterator.c 788-929.
    A returned pointer is the process whose memory it points into and an element
    offset, as in MAccess.v.  [None] = pnga_error or undefined behaviour. *)
From Verif Require Export MAccess.

(** plo, phi, ptr and ld of one call that returns 1. *)
Record lpiece := LPiece { lp_lo : list Z; lp_hi : list Z; lp_seg : Z; lp_off : Z; lp_ld : list Z }.

(** hdl->count, or hdl->proc_index and hdl->index. *)
Inductive lstate := LCount (c : Z) | LIndex (pidx idx : list Z).

(** iterator.c 788-843; [me] is the rank of the caller in the group of the
    array.  gam_find_proc_indices / gam_find_tile_proc_indices are
    [find_indices] over nblock. *)
Definition loc_init (a : garray) (me : Z) : option lstate :=
  match distr_type (ga_desc a) with
  | REGULAR => Some (LCount 0)
  | BLOCK_CYCLIC => Some (LCount me)
  | _ => do idx <- find_indices (nblock (ga_desc a)) me; Some (LIndex idx idx)
  end.

(** iterator.c 910-918: unlike [it_irreg_limits], an index beyond the last
    block still gives the end of the dimension. *)
Fixpoint loc_irreg_limits (dims nbs mapc idx : list Z) : option (list Z * list Z) :=
  match dims, nbs, idx with
  | [], [], [] => Some ([], [])
  | d :: dims', n :: nbs', i :: idx' =>
      do l <- zget mapc i;
      do h <- (if i <? n - 1 then do m <- zget mapc (i + 1); Some (m - 1) else Some d);
      do r <- loc_irreg_limits dims' nbs' (zdrop n mapc) idx';
      Some (l :: fst r, h :: snd r)
  | _, _, _ => None
  end.
(** iterator.c 891-896 and 909-918. *)
Definition loc_limits (g : gadesc) (idx : list Z) : option (list Z * list Z) :=
  match distr_type g with
  | TILED_IRREG => loc_irreg_limits (dims g) (num_blocks g) (mapc g) idx
  | _ => bd_limits (dims g) (block_dims g) idx
  end.

Definition lpiece_of (b : list Z * list Z) (r : Z * Z * list Z) : lpiece :=
  LPiece (fst b) (snd b) (fst (fst r)) (snd (fst r)) (snd r).

(** iterator.c 854-929.  [near] says which processes' memory the caller can
    address, [wn] is GAnproc; the answer [Some None] is the return value 0. *)
Definition loc_next guess near (wn : Z) (a : garray) (me : Z) (st : lstate)
  : option (option (lpiece * lstate)) :=
  let g := ga_desc a in
  match distr_type g, st with
  | REGULAR, LCount c =>
      if 0 <? c then Some None
      else do b <- distribution g me;
           if le_all (fst b) (snd b) then
             do r <- access_ptr guess near a (fst b) (snd b);
             Some (Some (lpiece_of b r, LCount (c + 1)))
           else Some None
  | BLOCK_CYCLIC, LCount c =>
      if zprod (num_blocks g) <=? c then Some None
      else do b <- distribution g c;
           do r <- access_block_ptr wn a c;
           Some (Some (lpiece_of b r, LCount (c + ga_nproc a)))
  | (SCALAPACK | TILED | TILED_IRREG), LIndex pidx idx =>
      if last_reached (num_blocks g) idx then Some None
      else do b <- loc_limits g idx;
           do r <- access_block_grid_ptr a idx;
           Some (Some (lpiece_of b r, LIndex pidx (carry (num_blocks g) (nblock g) pidx idx true)))
  | _, _ => None
  end.

(** pnga_local_iterator_init(); while (pnga_local_iterator_next()). *)
Fixpoint loc_drain guess near wn a me (fuel : nat) (st : lstate) : option (list lpiece) :=
  match fuel with
  | O => None
  | S f =>
      do r <- loc_next guess near wn a me st;
      match r with
      | None => Some []
      | Some (p, st') => do l <- loc_drain guess near wn a me f st'; Some (p :: l)
      end
  end.
Definition local_iterate fuel guess near wn a me : option (list lpiece) :=
  do st <- loc_init a me; loc_drain guess near wn a me fuel st.
