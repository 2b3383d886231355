(** Model of ga_update_ghosts (/repo/global/src/ghosts.c): the table of messages
    computed by pnga_set_update4_info when an array is allocated or duplicated,
    and the exchange of the messages by pnga_update4_ghosts, with the packing
    of strided data (/repo/comex/src-armci/iterator.c).
    Memory of a process: a cell is an allocation number and an element offset;
    GA[].ptr[p] is the allocation number [seg p].  [None] = undefined behaviour,
    failed assertion, or a receive for which no message is sent.
    Simplifications: the default group is the world, so pnga_nodeid() is GAme;
    the processes go through the messages in lock step (a process packs its
    message from its own memory, and a receive names its sender and a tag that
    is used once per update, so the order in which the processes run has no
    influence); the layout of the table in GA[].cache is a list. *)
From Verif Require Export MOdo.

(** ---- packing of strided data ---- *)

(** iterator.c 35-42: assertions on the strides (ARMCI_MAX_STRIDE_LEVEL is 8). *)
Fixpoint si_nested (prev : Z) (st cnt : list Z) : bool :=
  match st, cnt with
  | [], _ => true
  | s :: st', c :: cnt' => (prev * c <=? s) && si_nested s st' cnt'
  | _, _ => false
  end.
Definition si_init (st : list Z) (cnt : list Z) : bool :=
  match cnt with
  | c :: cnt' =>
      match st with
      | [] => true
      | s :: st' => (c <=? s) && si_nested s st' cnt'
      end
  | [] => false
  end.
(** iterator.c 93-107 [armci_stride_info_next]; [seg] is seg_count[1..]; the
    first index has been increased. *)
Fixpoint si_carry (itr seg : list Z) : option (list Z) :=
  match itr, seg with
  | [x], [c] => if x <=? c then Some [x] else None
  | x :: (y :: t) as r, c :: seg' =>
      if x =? c then do r' <- si_carry (y + 1 :: t) seg'; Some (0 :: r')
      else if x <=? c then Some itr else None
  | _, _ => None
  end.
Definition si_next (itr seg : list Z) : option (list Z) :=
  match itr with [] => Some [] | x :: t => si_carry (x + 1 :: t) seg end.
(** iterator.c 164-171: offsets of the segments. *)
Fixpoint si_walk (n : nat) (itr seg st : list Z) : option (list Z) :=
  match n with
  | O => Some []
  | S n' => do o <- to_int (dot itr st); do itr' <- si_next itr seg; do r <- si_walk n' itr' seg st; Some (o :: r)
  end.
(** iterator.c 158-192: the elements touched by armci_write_strided and
    armci_read_strided, in the order of the buffer; [base] is the pointer in
    elements, [st] and [cnt] are stride_arr and count in bytes. *)
Definition packed_elems (es base : Z) (st cnt : list Z) : option (list Z) :=
  match cnt with
  | [] => None
  | c :: seg =>
      if (0 <? c) && (length st <=? 8)%nat && si_init st cnt && (0 <? zprod seg) then
        do size <- int_prod 1 seg;
        do total <- to_int (size * c);
        do offs <- si_walk (Z.to_nat size) (repeat 0 (length seg)) seg st;
        do ls <- mapM (fun o => do a <- elem_of es (base * es + o);
                                do n <- elem_of es c;
                                Some (map (fun i => a + Z.of_nat i) (seq 0 (Z.to_nat n)))) offs;
        Some (concat ls)
      else None
  end.

(** ---- the table of messages ---- *)

(** ghosts.c 77-90 [gam_LocationWithGhosts]: element offset, and ld. *)
Fixpoint loc_ghosts (lo hi w sub : list Z) (factor : Z) : option (Z * list Z) :=
  match lo, hi, w, sub with
  | [l], [h], [g], [s] => Some (s * factor, [])
  | l :: lo', h :: hi', g :: w', s :: sub' =>
      let ld := h - l + 1 + 2 * g in
      do r <- loc_ghosts lo' hi' w' sub' (factor * ld);
      Some (s * factor + fst r, ld :: snd r)
  | _, _, _, _ => None
  end.

(** ghosts.c 780-803 [gai_check_ghost_distr]: the loop over one dimension, over
    the blocks from [np] on. *)
Fixpoint check_dim (k : nat) (np n d w : Z) (mapc : list Z) : option bool :=
  match k with
  | O => Some true
  | S k' =>
      do m <- zget mapc np;
      do bad <- (if np <? n - 1 then do m1 <- zget mapc (np + 1); Some (m1 - m + 1 <? w)
                 else Some (d - m + 1 <? w));
      if bad then Some false else check_dim k' (np + 1) n d w mapc
  end.
Fixpoint check_ghost_distr (dims nblock mapc w : list Z) : option bool :=
  match dims, nblock, w with
  | [], [], [] => Some true
  | d :: dims', n :: nblock', g :: w' =>
      do b <- check_dim (Z.to_nat n) 0 n d g mapc;
      if b then check_ghost_distr dims' nblock' (zdrop n mapc) w' else Some false
  | _, _, _ => None
  end.

(** The four computations of a remote region: ghosts.c 978-1009
    [get_remote_block_neg] (to the negative neighbour), 1013-1045
    [get_remote_block_pos], 1450-1477 (from the positive neighbour) and
    1555-1582 (from the negative neighbour, with another test). *)
Inductive side := ToNeg | FromPos | ToPos | FromNeg.
Definition rem_dim (s : side) (l h d w : Z) : Z * Z :=
  match s with
  | ToNeg => if l - w <? 1 then (d - w + 1, d) else (l - w, l - 1)
  | FromNeg => if l - 1 <? 1 then (d - w + 1, d) else (l - w, l - 1)
  | ToPos | FromPos => if d <? h + w then (1, w) else (h + 1, h + w)
  end.
Fixpoint rem_region (s : side) (idx : Z) (lo hi dims w : list Z) : list Z * list Z :=
  match lo, hi, dims, w with
  | l :: lo', h :: hi', d :: dims', g :: w' =>
      let r := rem_region s (idx - 1) lo' hi' dims' w' in
      let b := if idx =? 0 then rem_dim s l h d g else (l, h) in
      (fst b :: fst r, snd b :: snd r)
  | _, _, _, _ => ([], [])
  end.

(** ghosts.c 1490-1515 (negative direction) and 1597-1622 (positive): local
    indices of what is sent and of what is received. *)
Record lbox := LBox { plo_snd : Z; phi_snd : Z; plo_rcv : Z; phi_rcv : Z }.
Definition msg_dim (neg is_idx : bool) (l h w inc : Z) : lbox :=
  if inc =? 0 then
    if is_idx then
      if neg then LBox w (2 * w - 1) (h - l + w + 1) (h - l + 2 * w)
      else LBox (h - l + 1) (h - l + w) 0 (w - 1)
    else LBox w (h - l + w) w (h - l + w)
  else LBox 0 (h - l + inc) 0 (h - l + inc).
Fixpoint msg_box (neg : bool) (idx : Z) (lo hi w inc : list Z) : list lbox :=
  match lo, hi, w, inc with
  | l :: lo', h :: hi', g :: w', i :: inc' =>
      msg_dim neg (idx =? 0) l h g i :: msg_box neg (idx - 1) lo' hi' w' inc'
  | _, _, _, _ => []
  end.

(** One entry of the table: ptr_snd, ptr_rcv (allocation and element offset),
    proc_rem_snd, proc_rem_rcv, stride_snd, stride_rcv, length, count. *)
Record gmsg := GMsg {
  g_seg : Z; g_snd : Z; g_rcv : Z; g_to : Z; g_from : Z;
  g_ssnd : list Z; g_srcv : list Z; g_len : Z; g_cnt : list Z
}.

(** base.h 350-354 [gam_CountElems]. *)
Fixpoint count_box (lo hi : list Z) : Z :=
  match lo, hi with l :: lo', h :: hi' => (h - l + 1) * count_box lo' hi' | _, _ => 1 end.

(** proclist[0] of pnga_locate_region, as a world rank. *)
Definition first_proc guess (a : garray) (r : list Z * list Z) : option Z :=
  do l <- locate_region guess (ga_desc a) (fst r) (snd r);
  match l with Some (q :: _) => abs_rank a (fst q) | _ => None end.

(** ghosts.c 1424-1538 and 1541-1655: the entry for one dimension and direction;
    [lo], [hi] are the limits of the block of [me]. *)
Definition gmsg_of guess (a : garray) (seg : Z -> Z) (me : Z) (lo hi inc : list Z) (idx : Z) (neg : bool) : option gmsg :=
  let g := ga_desc a in
  let es := ga_elemsize a in
  do to <- first_proc guess a (rem_region (if neg then ToNeg else ToPos) idx lo hi (dims g) (ga_width a));
  do from <- first_proc guess a (rem_region (if neg then FromPos else FromNeg) idx lo hi (dims g) (ga_width a));
  let b := msg_box neg idx lo hi (ga_width a) inc in
  do own <- owns g me;
  do s <- loc_ghosts (fst own) (snd own) (ga_width a) (map plo_snd b) 1;
  do r <- loc_ghosts (fst own) (snd own) (ga_width a) (map plo_rcv b) 1;
  do size <- to_int es;
  do st <- set_stride (length lo - 1) size (snd r);
  do cnt <- compute_count (map plo_rcv b) (map phi_rcv b);
  do cnt' <- match cnt with c :: t => do c' <- to_int (c * es); Some (c' :: t) | [] => None end;
  Some (GMsg (seg me) (fst s) (fst r) to from st st (es * count_box (map plo_snd b) (map phi_snd b)) cnt').

(** ghosts.c 1413-1672: the loop over the dimensions; [ws] are the widths from
    dimension [idx] on. *)
Fixpoint info_loop guess a seg me lo hi (flag : bool) (inc : list Z) (idx : Z) (ws : list Z) : option (list gmsg) :=
  match ws with
  | [] => Some []
  | w :: ws' =>
      do l <- (if w =? 0 then Some []
               else do m <- gmsg_of guess a seg me lo hi inc idx true;
                    do p <- gmsg_of guess a seg me lo hi inc idx false;
                    Some [m; p]);
      do r <- info_loop guess a seg me lo hi flag
                (if flag then upd (Z.to_nat idx) (2 * w) inc else inc) (idx + 1) ws';
      Some (l ++ r)
  end.

(** ghosts.c 1392-1402: the size of the message buffers in elements. *)
Fixpoint buf_len (tot acc : Z) (lo hi w : list Z) : option Z :=
  match lo, hi, w with
  | l :: lo', h :: hi', g :: w' =>
      do q <- cdiv tot (h - l + 1 + 2 * g);
      buf_len tot (if acc <? q * g then q * g else acc) lo' hi' w'
  | _, _, _ => Some acc
  end.
Definition buf_elems (lo hi w : list Z) : option Z := buf_len (zprod (padded lo hi w)) 1 lo hi w.

(** ghosts.c 1298-1678 [pnga_set_update4_info] on process [me]; [Some None] = FALSE.
    For an array without ghost cells pnga_set_ghost_info makes no table. *)
Definition set_update4_info guess (a : garray) (seg : Z -> Z) (flag : bool) (me : Z) : option (option (Z * list gmsg)) :=
  let g := ga_desc a in
  if forallb (fun w => w =? 0) (ga_width a) then Some (Some (0, [])) else
  do ok <- check_ghost_distr (dims g) (nblock g) (mapc g) (ga_width a);
  if ok then
    do b <- distribution g me;
    if existsb (fun q => (fst q =? 0) && (snd q =? -1)) (combine (fst b) (snd b)) then Some None
    else
      do n <- buf_elems (fst b) (snd b) (ga_width a);
      do l <- info_loop guess a seg me (fst b) (snd b) flag (repeat 0 (length (dims g))) 0 (ga_width a);
      Some (Some (n, l))
  else Some None.

(** ---- the exchange ---- *)

Definition pmem (V : Type) := Z -> Z -> option V.
Definition pset {V} (m : pmem V) (s o : Z) (v : V) : pmem V :=
  fun s' o' => if (s' =? s) && (o' =? o) then Some v else m s' o'.
(** armci_write_strided into the send buffer of [n] elements. *)
Definition pack_msg {V} (es n : Z) (m : pmem V) (e : gmsg) : option (list V) :=
  do l <- packed_elems es (g_snd e) (g_ssnd e) (g_cnt e);
  if Z.of_nat (length l) <=? n then mapM (fun o => m (g_seg e) o) l else None.
(** armci_read_strided out of the receive buffer. *)
Fixpoint store_list {V} (m : pmem V) (s : Z) (l : list Z) (vs : list V) : option (pmem V) :=
  match l, vs with
  | [], _ => Some m
  | o :: l', v :: vs' => do w <- m s o; store_list (pset m s o v) s l' vs'
  | _, _ => None
  end.
Definition unpack_msg {V} (es : Z) (m : pmem V) (e : gmsg) (vs : list V) : option (pmem V) :=
  do l <- packed_elems es (g_rcv e) (g_srcv e) (g_cnt e); store_list m (g_seg e) l vs.

(** Entry of process [p] in a list with one entry per process. *)
Fixpoint alook {A} (p : Z) (l : list (Z * A)) : option A :=
  match l with [] => None | (q, x) :: l' => if q =? p then Some x else alook p l' end.

(** What arrives at process [p] (ghosts.c 1769-1841 negative, 1861-1925 positive
    direction); [ms] has entry and packed data of every process, [n] is the
    size of the receive buffer of [p] in elements.  The length sent is g_len. *)
Definition arriving {V} (es n : Z) (neg : bool) (p : Z) (ms : list (Z * (gmsg * list V))) : option (list V) :=
  do me <- alook p ms;
  if p =? (if neg then g_to (fst me) else g_from (fst me)) then Some (snd me)
  else
    do o <- alook (g_from (fst me)) ms;
    if (g_to (fst o) =? p) && (es * Z.of_nat (length (snd o)) =? g_len (fst o)) && (g_len (fst o) <=? es * n)
    then Some (snd o) else None.

(** One message in every process; [hs] has rank, buffer size and entry of each. *)
Definition phase {V} (es : Z) (neg : bool) (hs : list (Z * (Z * gmsg))) (m : Z -> pmem V) : option (Z -> pmem V) :=
  do ms <- mapM (fun q : Z * (Z * gmsg) => let (p, r) := q in
                   do v <- pack_msg es (fst r) (m p) (snd r); Some (p, (snd r, v))) hs;
  do l <- mapM (fun q : Z * (Z * gmsg) => let (p, r) := q in
                  do vs <- arriving es (fst r) neg p ms;
                  do m' <- unpack_msg es (m p) (snd r) vs; Some (p, m')) hs;
  Some (fun p => match alook p l with Some m' => m' | None => m p end).

(** ghosts.c 1746-1929: the messages alternate between the negative and the
    positive direction; [tabs] are the tables of the processes. *)
Definition head_entry (q : Z * (Z * list gmsg)) : option (Z * (Z * gmsg)) :=
  match snd (snd q) with e :: _ => Some (fst q, (fst (snd q), e)) | [] => None end.
Definition tail_entries (q : Z * (Z * list gmsg)) : Z * (Z * list gmsg) :=
  (fst q, (fst (snd q), tl (snd (snd q)))).
Fixpoint exchange {V} (k : nat) (neg : bool) (es : Z) (tabs : list (Z * (Z * list gmsg))) (m : Z -> pmem V) : option (Z -> pmem V) :=
  match k with
  | O => Some m
  | S k' =>
      do hs <- mapM head_entry tabs;
      do m' <- phase es neg hs m;
      exchange k' (negb neg) es (map tail_entries tabs) m'
  end.

(** ghosts.c 1686-1934 [pnga_update4_ghosts] on all processes; it always returns
    TRUE, so pnga_update_ghosts (3530-3548) never falls back to update1. *)
Definition update_ghosts {V} (es : Z) (tabs : list (Z * (Z * list gmsg))) (m : Z -> pmem V) : option (Z -> pmem V) :=
  match tabs with
  | [] => Some m
  | c :: _ => exchange (length (snd (snd c))) true es tabs m
  end.

(** ---- creation ---- *)

(** base.c 2762-2774: the corner flag of a new array; the loop over the
    dimensions overwrites the value chosen before. *)
Definition corner_flag_alloc (set : option bool) (ndim : nat) : bool := negb (Nat.eqb ndim 0).

(** base.c 2830-2835 on all processes: [seg] is the new memory.  A process that
    gets FALSE stops the program ([None]). *)
Definition ghost_tables guess (a : garray) (seg : Z -> Z) (flag : bool) : option (list (Z * (Z * list gmsg))) :=
  mapM (fun r => do p <- abs_rank a (Z.of_nat r);
                 do c <- set_update4_info guess a seg flag p;
                 do c' <- c; Some (p, c'))
       (seq 0 (Z.to_nat (ga_nproc a))).
Definition allocate_ghosts guess (a : garray) (seg : Z -> Z) (set : option bool) : option (list (Z * (Z * list gmsg))) :=
  ghost_tables guess a seg (corner_flag_alloc set (length (dims (ga_desc a)))).
(** base.c 3798-3800: pnga_duplicate computes the table before the memory is
    allocated (3821-3838); [stale] is what GA[].ptr holds at that time. *)
Definition duplicate_ghosts guess (a : garray) (stale : Z -> Z) (flag : bool) : option (list (Z * (Z * list gmsg))) :=
  ghost_tables guess a stale flag.
(** ghosts.c 4381-4392 [pnga_set_ghost_corner_flag] on an allocated array. *)
Definition set_corner_flag guess (a : garray) (seg : Z -> Z) (flag : bool) : option (list (Z * (Z * list gmsg))) :=
  ghost_tables guess a seg flag.
