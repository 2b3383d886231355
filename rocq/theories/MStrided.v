(** Model of strided put, get and accumulate (/repo/global/src/onesided.c
    4047-4469).  [None] = pnga_error or undefined behaviour. *)
From Verif Require Export MXfer SpecStrided.

(** iterator.c 249-251: gai_iterator_init leaves a block-cyclic iterator at
    iblock = pnga_nodeid() and does not set offset ([junk]); the strided calls
    do not call gai_iterator_reset.  For the other distributions init and
    reset set the same state. *)
Definition strided_iterate (fuel : nat) guess rnd (nn me junk : Z) (a : garray) (lo hi : list Z)
  : option (list ipiece) :=
  match distr_type (ga_desc a) with
  | BLOCK_CYCLIC => drain (bc_next fuel a nn lo hi) fuel (BCState 0 me junk)
  | _ => iterate fuel guess rnd nn a lo hi
  end.

(** onesided.c 4051-4070 [gai_correct_strided_patch]; [Some None] = returns 0. *)
Fixpoint correct_patch (lo skip plo phi : list Z) : option (option (list Z * list Z)) :=
  match lo, skip, plo, phi with
  | [], [], [], [] => Some (Some ([], []))
  | l :: lo', s :: skip', p :: plo', q :: phi' =>
      do r1 <- cmod (p - l) s;
      let p' := if r1 =? 0 then p else p - r1 + s in
      do r2 <- cmod (q - l) s;
      let q' := if r2 =? 0 then q else q - r2 in
      if q' <? p' then Some None else
      do r <- correct_patch lo' skip' plo' phi';
      match r with
      | None => Some None
      | Some b => Some (Some (p' :: fst b, q' :: snd b))
      end
  | _, _, _, _ => None
  end.

(** onesided.c 4204-4214 [gai_FindOffset]. *)
Fixpoint find_offset (lo plo ld : list Z) (factor : Z) : option Z :=
  match lo, plo with
  | [l], [p] => Some ((p - l) * factor)
  | l :: lo', p :: plo' =>
      match ld with
      | d :: ld' => do r <- find_offset lo' plo' ld' (factor * d); Some ((p - l) * factor + r)
      | [] => None
      end
  | _, _ => None
  end.

(** onesided.c 4178-4195 [gai_ComputePatchIndexWithSkip]. *)
Definition skip_delta (l p s : Z) : option Z :=
  do inc <- cmod (p - l) s; cdiv (p - l - inc) s.
Fixpoint skip_index_loop (lo plo skip ld : list Z) : option Z :=
  match lo, plo, skip with
  | [], [], [] => Some 0
  | l :: lo', p :: plo', s :: skip' =>
      match ld with
      | d :: ld' =>
          let factor := d in
          do delta <- skip_delta l p s;
          do r <- skip_index_loop lo' plo' skip' ld';
          Some (factor * delta + r)
      | [] => None
      end
  | _, _, _ => None
  end.
Definition skip_index (lo plo skip ld : list Z) : option Z :=
  match lo, plo, skip with
  | l :: lo', p :: plo', s :: skip' =>
      do delta <- skip_delta l p s;
      do r <- skip_index_loop lo' plo' skip' ld;
      Some (delta + r)
  | _, _, _ => None
  end.

(** onesided.c 4077-4103 [gai_ComputeCountWithSkip] without the leading entry
    1; [Some None] = returns 0. *)
Fixpoint skip_count (lo hi skip : list Z) : option (option (list Z)) :=
  match lo, hi, skip with
  | [], [], [] => Some (Some [])
  | l :: lo', h :: hi', s :: skip' =>
      let idx := h - l in
      if idx <? 0 then Some None else
      do c <- (if 1 <? s then do q <- cdiv idx s; to_int (q + 1)
               else do i <- to_int idx; to_int (i + 1));
      do r <- skip_count lo' hi' skip';
      match r with None => Some None | Some cs => Some (Some (c :: cs)) end
  | _, _, _ => None
  end.

(** onesided.c 4135-4148 [gai_SetStrideWithSkip]: stride_rem and stride_loc;
    [s] is the stride before the multiplication by skip.  The entries of index
    ndim are computed but never used; for them only the read of ld[ndim-1] is
    modelled (ldrem has MAXDIM entries). *)
Fixpoint skip_stride_rem (skip ldrem : list Z) (s : Z) : option (list Z) :=
  match skip with
  | [] => Some []
  | [k] => do t <- to_int (s * k); Some [t]
  | k :: skip' =>
      do t <- to_int (s * k);
      match ldrem with
      | d :: ldrem' =>
          do d' <- to_int d;
          do s' <- to_int (s * d');
          do r <- skip_stride_rem skip' ldrem' s';
          Some (t :: r)
      | [] => None
      end
  end.
Fixpoint skip_stride_loc (skip ld : list Z) (s : Z) : option (list Z) :=
  match skip with
  | [] => Some []
  | [_] => match ld with _ :: _ => Some [s] | [] => None end
  | _ :: skip' =>
      match ld with
      | d :: ld' =>
          do d' <- to_int d;
          do s' <- to_int (s * d');
          do r <- skip_stride_loc skip' ld' s';
          Some (s :: r)
      | [] => None
      end
  end.

(** onesided.c 4260-4293 (4340-4373, 4432-4466): the transport call for one
    piece.  Lines 4290-4292 translate a rank that gai_iterator_next has
    already translated. *)
Definition strided_piece (a : garray) (lo skip ld : list Z) (p : ipiece) : option (option xfer) :=
  let es := ga_elemsize a in
  do r <- correct_patch lo skip (ip_lo p) (ip_hi p);
  match r with
  | None => Some None
  | Some (plo, phi) =>
      do off <- find_offset (ip_lo p) plo (ip_ld p) 1;
      do idx_buf <- skip_index lo plo skip ld;
      do c <- skip_count plo phi skip;
      match c with
      | None => Some None
      | Some cnt =>
          do size <- to_int es;
          do srem <- skip_stride_rem skip (ip_ld p) size;
          do sloc <- skip_stride_loc skip ld size;
          do proc <- abs_rank a (ip_proc p);
          Some (Some (Xfer proc (ip_seg p) (es * (ip_off p + off)) (es * idx_buf) srem sloc (es :: cnt)))
      end
  end.

(** onesided.c 4249-4295; the transport calls are blocking. *)
Definition strided_transfers (fuel : nat) guess rnd nn me junk (a : garray) (lo hi skip ld : list Z)
  : option (list (place * Z)) :=
  if forallb (fun s => negb (s <? 1)) skip then
    do ps <- strided_iterate fuel guess rnd nn me junk a lo hi;
    do ls <- mapM (fun p => do x <- strided_piece a lo skip ld p;
                            match x with None => Some [] | Some x' => xfer_elems (ga_elemsize a) x' end) ps;
    Some (concat ls)
  else None.
