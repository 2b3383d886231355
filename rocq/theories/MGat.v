(** Model of gather, scatter and scatter-accumulate of lists of elements.
    Source: /repo/global/src/onesided.c 3375-3589 [gai_gatscat_new], the variant
    that is compiled (USE_GATSCAT_NEW, line 34), called by pnga_gather,
    pnga_scatter, pnga_scatter_acc (3598-3663).
    Not modelled: the conversion of C subscripts to Fortran order (c_flag) and
    the byte statistics, except for the array read they make (line 3471).
    [None] = pnga_error or undefined behaviour. *)
From Verif Require Export MRmw.

(** onesided.c 3402-3409. *)
Definition gat_nprocs (wn : Z) (a : garray) : Z :=
  match ga_group a with
  | None => if 0 <? num_rstrctd (ga_desc a) then num_rstrctd (ga_desc a) else wn
  | Some l => Z.of_nat (length l)
  end.

(** onesided.c 3450-3471: entry of the linked lists for one subscript. *)
Definition gat_home guess (np : Z) (a : garray) (sub : list Z) : option Z :=
  let g := ga_desc a in
  do r <- locate guess g sub;
  do idx <- r;
  do idx1 <- (if 0 <? num_rstrctd g then zget (rank_rstrctd g) idx else Some idx);
  match distr_type g with
  | REGULAR => Some idx1
  | BLOCK_CYCLIC => cmod idx1 np
  | _ => do ix <- find_indices (num_blocks g) idx1; find_proc_from_indices (nblock g) ix
  end.

(** The arrays nelems, header, list and the counter maxlen. *)
Record gstate := GState { g_nelems : list Z; g_header : list Z; g_list : list Z; g_max : Z }.

(** onesided.c 3429-3436. *)
Definition gat_init (np : Z) (nv : nat) : gstate :=
  GState (repeat 0 (Z.to_nat np)) (repeat (-1) (Z.to_nat np)) (repeat 0 nv) 1.

(** onesided.c 3441-3477. *)
Definition gat_add (st : gstate) (i idx : Z) : option gstate :=
  do n <- zget (g_nelems st) idx;
  do ne <- zset (g_nelems st) idx (n + 1);
  do j <- zget (g_header st) idx;
  do hd <- zset (g_header st) idx i;
  do ls <- zset (g_list st) i j;
  Some (GState ne hd ls (if g_max st <? n + 1 then n + 1 else g_max st)).
Fixpoint gat_build guess np (a : garray) (subs : list (list Z)) (i : Z) (st : gstate) : option gstate :=
  match subs with
  | [] => Some st
  | sub :: subs' =>
      do idx <- gat_home guess np a sub;
      do st' <- gat_add st i idx;
      gat_build guess np a subs' (i + 1) st'
  end.

(** onesided.c 3490-3534: the entries of one list. *)
Fixpoint gat_walk (fuel : nat) (ls : list Z) (idx : Z) : option (list Z) :=
  if -1 <? idx then
    match fuel with
    | O => None
    | S f => do nx <- zget ls idx; do r <- gat_walk f ls nx; Some (idx :: r)
    end
  else Some [].

(** onesided.c 3498-3530: memory cell of an element; base.h 369-392
    [gam_Loc_ptr] makes the same computation as [location]. *)
Definition gat_ptr guess wn (a : garray) (iproc : Z) (sub : list Z) : option place :=
  let g := ga_desc a in
  match distr_type g with
  | REGULAR => do p <- location a iproc sub; Some (fst p)
  | _ =>
      do r <- locate guess g sub;
      do tproc <- r;
      do b <- distribution g tproc;
      do ptr <- access_block_ptr wn a tproc;
      do off <- block_offset_of sub (fst b) (snd ptr) 1;
      Some (fst (fst ptr), snd (fst ptr) + off)
  end.

(** onesided.c 3538-3546. *)
Definition gat_target (a : garray) (iproc : Z) : option Z :=
  if 0 <? num_rstrctd (ga_desc a) then zget (rstrctd_list (ga_desc a)) iproc else abs_rank a iproc.

(** onesided.c 3484-3581 for one process: the pairs (memory cell, index in the
    buffer) of the vector call.  The pointer arrays have maxlen entries; if the
    list were shorter than nelems the call would use stale pointers. *)
Definition gat_call guess wn (a : garray) (subs : list (list Z)) (st : gstate) (iproc : Z)
  : option (list (place * Z)) :=
  do n <- zget (g_nelems st) iproc;
  if 0 <? n then
    do h <- zget (g_header st) iproc;
    do idxs <- gat_walk (S (length subs)) (g_list st) h;
    if (Z.of_nat (length idxs) <=? g_max st) && (n <=? Z.of_nat (length idxs)) then
      do tproc <- gat_target a iproc;
      do ts <- mapM (fun i => do sub <- zget subs i; do q <- gat_ptr guess wn a iproc sub; Some (q, i)) idxs;
      let ts' := firstn (Z.to_nat n) ts in
      if forallb (fun t => fst (fst t) =? tproc) ts' then Some ts' else None
    else None
  else Some [].

(** The whole call by the process of world rank [me]; [pre] is the length of
    buffers preallocated by pnga_alloc_gatscat_buf (3338-3348), which have one
    entry per process of the program. *)
Definition gatscat guess wn me (pre : option Z) (a : garray) (subs : list (list Z))
  : option (list (place * Z)) :=
  let np := gat_nprocs wn a in
  let nv := length subs in
  let size := match pre with None => np | Some _ => wn end in
  if match pre with None => false | Some n => n <? Z.of_nat nv end then None else
  if (size <? np) then None else
  do st <- gat_build guess np a subs 0 (gat_init np nv);
  if (me <? 0) || (size <=? me) then None else
  do tss <- mapM (gat_call guess wn a subs st) (map Z.of_nat (seq 0 (Z.to_nat np)));
  Some (concat tss).
