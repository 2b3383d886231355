(** Model of the table of arrays and of the memory accounting of one process
    (/repo/global/src/base.c): pnga_create_handle, pnga_set_data,
    pnga_set_pgroup, pnga_allocate, pnga_overlay, pnga_duplicate, pnga_destroy,
    pnga_deallocate, pnga_set_property, pnga_unset_property,
    pnga_set_memory_limit, GA_Getmem, GA_Freemem, pnga_inquire_memory,
    pnga_memory_avail and pnga_verify_handle.

    Simplifications.  (a) The state is that of one process.  What the other
    members of a group contribute to an "&&" reduction is an input [others] of
    the call, and the size of the local part of an array (base.c 2652-2801) is
    an input too: both arbitrary.  (b) gai_getmem either delivers memory or ends
    the program (base.c 3425-3426; ARMCI_Malloc itself returns no other status
    under ComEx, /repo/comex/src-armci/armci.c); memory is a supply of fresh
    blocks.  (c) Of a descriptor the fields that the bookkeeping uses are kept;
    all others (dims, type, name, chunk, map ...) are the list [content].
    (d) Group handles are numbers; [rank p] is PGRP_LIST[p].map_proc_list[GAme].
    (e) The ghost cell tables, the restricted lists and the device flag are left
    out.  (f) Integers are unbounded. *)
From Verif Require Export MBase MNb SpecHandle.

(** A result; [Abort] is pnga_error, [Undef] is undefined behaviour. *)
Inductive out (A : Type) := Done (a : A) | Abort | Undef.
Arguments Done {A} a. Arguments Abort {A}. Arguments Undef {A}.
Notation "'try' x <- e ; k" :=
  (match e with Done x => k | Abort => Abort | Undef => Undef end)
  (at level 200, x pattern, e at level 100, k at level 200).

(** Values of pointers: not initialised, NULL, the block with a number. *)
Inductive ptrv := Unset | Null | Blk (b : Z).

(** base.h 49-113 [global_array_t]; [ndim] = None: not initialised (the table is
    obtained with malloc, base.c 388-389). *)
Record slot := Slot { actv : bool; hnd : bool; ndim : option Z; grp : Z; size : Z; ptr : Z -> ptrv;
                      overlay : bool; prop : Z; chead : ptrv; content : list Z; oldgrp : Z }.
Definition NO_PROPERTY := 0.
Definition READ_ONLY := 1.
Definition READ_CACHE := 2.

(** base.c 104-150: the static variables.  [h_blocks] are the allocated blocks,
    [h_next] numbers the blocks to come, [h_groups] the groups that exist. *)
Record gas := Gas { h_max : Z; h_tab : Z -> slot; h_total : Z; h_limited : bool; h_limit : Z; h_cur : Z;
                    h_blocks : list Z; h_next : Z; h_groups : Z -> bool; h_raw : list (Z * Z) }.
(** What the process knows of itself: GAme, its ranks, GA_Default_Proc_Group. *)
Record self := Self { s_me : Z; s_rank : Z -> Z; s_dflt : Z }.

Definition set_tab (s : gas) (i : Z) (x : slot) : gas :=
  Gas (h_max s) (fset (h_tab s) i x) (h_total s) (h_limited s) (h_limit s) (h_cur s) (h_blocks s) (h_next s) (h_groups s) (h_raw s).
Definition set_total (s : gas) (t : Z) : gas :=
  Gas (h_max s) (h_tab s) t (h_limited s) (h_limit s) (h_cur s) (h_blocks s) (h_next s) (h_groups s) (h_raw s).
Definition set_cur (s : gas) (c : Z) : gas :=
  Gas (h_max s) (h_tab s) (h_total s) (h_limited s) (h_limit s) c (h_blocks s) (h_next s) (h_groups s) (h_raw s).
Definition set_blocks (s : gas) (l : list Z) (n : Z) : gas :=
  Gas (h_max s) (h_tab s) (h_total s) (h_limited s) (h_limit s) (h_cur s) l n (h_groups s) (h_raw s).
Definition set_group (s : gas) (g : Z) (b : bool) : gas :=
  Gas (h_max s) (h_tab s) (h_total s) (h_limited s) (h_limit s) (h_cur s) (h_blocks s) (h_next s) (fset (h_groups s) g b) (h_raw s).
Definition set_raw (s : gas) (l : list (Z * Z)) : gas :=
  Gas (h_max s) (h_tab s) (h_total s) (h_limited s) (h_limit s) (h_cur s) (h_blocks s) (h_next s) (h_groups s) l.
Definition set_ptr (x : slot) (r : Z) (p : ptrv) : slot :=
  Slot (actv x) (hnd x) (ndim x) (grp x) (size x) (fset (ptr x) r p) (overlay x) (prop x) (chead x) (content x) (oldgrp x).

(** globalp.h GA_OFFSET; base.c [GA[g_a + GA_OFFSET]]: reading outside the table
    is undefined behaviour. *)
Definition GA_OFFSET := 1000.
Definition index (s : gas) (g : Z) : out Z :=
  let i := g + GA_OFFSET in if (0 <=? i) && (i <? h_max s) then Done i else Undef.

(** "if(GA_memory_limited) GA_total_memory += n" (base.c 2804, 2846, 4051, ...). *)
Definition credit (s : gas) (n : Z) : gas := if h_limited s then set_total s (h_total s + n) else s.
(** base.c 2806-2815: the vote whether everybody has enough memory. *)
Definition vote (s : gas) (others : bool) : bool := if h_limited s then (0 <=? h_total s) && others else true.
(** malloc and ARMCI_Malloc; free and ARMCI_Free. *)
Definition alloc (s : gas) : Z * gas := (h_next s, set_blocks s (h_next s :: h_blocks s) (h_next s + 1)).
Definition release (s : gas) (p : ptrv) : out gas :=
  match p with
  | Blk b => if existsb (Z.eqb b) (h_blocks s)
             then Done (set_blocks s (remove Z.eq_dec b (h_blocks s)) (h_next s)) else Undef
  | _ => Undef
  end.
(** base.c 2529-2532, 3966-3967: the rank of the process in the group of an array. *)
Definition rank_in (w : self) (p : Z) : Z := if 0 <? p then s_rank w p else s_me w.
(** onesided.c 107-141 [pnga_pgroup_sync], 119-123: reads PGRP_LIST[grp_id]. *)
Definition use_group (s : gas) (p : Z) : out unit := if (0 <? p) && negb (h_groups s p) then Undef else Done tt.

(** base.c 398-411, 435-436 [pnga_initialize]. *)
Definition slot0 : slot := Slot false false None (-2) 0 (fun _ => Unset) false NO_PROPERTY Unset [] 0.
(** base.c 678-683 [pnga_initialize_ltd] with [mem_limit]; [groups] exist. *)
Definition ga_init (max mem_limit : Z) (groups : Z -> bool) : gas :=
  Gas max (fun _ => slot0) mem_limit (0 <=? mem_limit) mem_limit 0 [] 0 groups [].

(** base.c 642-662 [pnga_set_memory_limit]. *)
Definition set_memory_limit (s : gas) (m : Z) : gas :=
  if h_limited s then
    if 0 <=? m then set_total s (h_total s + (m - h_limit s))
    else Gas (h_max s) (h_tab s) (-1) false (h_limit s) (h_cur s) (h_blocks s) (h_next s) (h_groups s) (h_raw s)
  else Gas (h_max s) (h_tab s) m (0 <=? m) m (h_cur s) (h_blocks s) (h_next s) (h_groups s) (h_raw s).

(** base.c 606-613 [pnga_inquire_memory]. *)
Fixpoint sum_sizes (tab : Z -> slot) (i : Z) (n : nat) : Z :=
  match n with
  | O => 0
  | S n' => (if actv (tab i) then size (tab i) else 0) + sum_sizes tab (i + 1) n'
  end.
Definition inquire_memory (s : gas) : Z := sum_sizes (h_tab s) 0 (Z.to_nat (h_max s)).
(** base.c 622-631 [pnga_memory_avail] (pnga_uses_ma is false, gaconfig.h 33). *)
Definition memory_avail (s : gas) : Z := h_total s.
(** base.c 4219-4224 [pnga_verify_handle]. *)
Definition verify_handle (s : gas) (g : Z) : bool :=
  (0 <=? g + GA_OFFSET) && (g + GA_OFFSET <? h_max s) && actv (h_tab s (g + GA_OFFSET)).

(** base.c 1532-1539 (the same loop at 3773-3779): the first free slot. *)
Fixpoint first_free (tab : Z -> slot) (i : Z) (n : nat) : option Z :=
  match n with
  | O => None
  | S n' => if hnd (tab i) then first_free tab (i + 1) n' else Some i
  end.

(** base.c 1529-1563 [pnga_create_handle]: overlay and cache_head keep their
    values. *)
Definition create_handle (s : gas) : out (gas * Z) :=
  match first_free (h_tab s) 0 (Z.to_nat (h_max s)) with
  | None => Abort
  | Some i =>
      let x := h_tab s i in
      Done (set_tab s i (Slot (actv x) true (Some (-1)) (-2) (size x) (ptr x) (overlay x) NO_PROPERTY (chead x) [] (oldgrp x)),
            i - GA_OFFSET)
  end.

(** base.c 1572-1591 [pnga_set_data]: [d] is what it stores. *)
Definition set_data (s : gas) (g nd : Z) (d : list Z) : out gas :=
  try i <- index s g;
  let x := h_tab s i in
  if actv x then Abort else
  if (nd <? 1) || (7 <? nd) then Abort else
  Done (set_tab s i (Slot (actv x) (hnd x) (Some nd) (grp x) (size x) (ptr x) (overlay x) (prop x) (chead x) d (oldgrp x))).

(** base.c 1656-1666 [pnga_set_pgroup]. *)
Definition set_pgroup (s : gas) (g p : Z) : out gas :=
  try i <- index s g;
  let x := h_tab s i in
  if actv x then Abort else
  if (p =? -1) then Done (set_tab s i (Slot (actv x) (hnd x) (ndim x) p (size x) (ptr x) (overlay x) (prop x) (chead x) (content x) (oldgrp x)))
  else if (p <? 0) || (h_max s <=? p) then Undef
  else if h_groups s p then Done (set_tab s i (Slot (actv x) (hnd x) (ndim x) p (size x) (ptr x) (overlay x) (prop x) (chead x) (content x) (oldgrp x)))
  else Abort.

(** base.c 1332-1365 [pnga_pgroup_destroy], 1345-1352: aborts while an active
    array is attached. *)
Fixpoint attached (tab : Z -> slot) (p i : Z) (n : nat) : bool :=
  match n with
  | O => false
  | S n' => (actv (tab i) && (grp (tab i) =? p)) || attached tab p (i + 1) n'
  end.
Definition pgroup_destroy (s : gas) (p : Z) : out gas :=
  if (p <? 0) || (h_max s <=? p) then Undef
  else if negb (h_groups s p) then Undef
  else if attached (h_tab s) p 0 (Z.to_nat (h_max s)) then Abort
  else Done (set_group s p false).

(** base.c 4002-4019 (the same at 4096-4112): free the list of cached reads. *)
Definition free_cache (s : gas) (x : slot) : out gas :=
  if prop x =? READ_CACHE then match chead x with Null => Done s | p => release s p end else Done s.

(** base.c 3960-4059 [pnga_destroy]. *)
Definition destroy (w : self) (s : gas) (g : Z) : out (gas * bool) :=
  try i <- index s g;
  let x := h_tab s i in
  try _ <- use_group s (grp x);
  let me := rank_in w (grp x) in
  if negb (actv x) then Done (s, false) else
  let s := set_tab s i (Slot false false (ndim x) (grp x) (size x) (ptr x) (overlay x) (prop x) (chead x) (content x) (oldgrp x)) in
  try s <- free_cache s x;
  let s := set_tab s i (Slot false false (ndim x) (grp x) (size x) (ptr x) (overlay x) (prop x) Null (content x) (oldgrp x)) in
  try s <- (if prop x =? READ_ONLY then pgroup_destroy s (grp x) else Done s);
  match ptr x me with
  | Null => Done (s, true)
  | p =>
      if overlay x then
        Done (set_tab s i (Slot false false (ndim x) (grp x) (size x) (ptr x) false (prop x) Null (content x) (oldgrp x)), true)
      else
        try _ <- use_group s (grp x);
        try s <- release s p;
        let s := credit s (size x) in
        Done (set_cur s (h_cur s - size x), true)
  end.

(** base.c 4071-4147 [pnga_deallocate]. *)
Definition deallocate (w : self) (s : gas) (g : Z) : out (gas * bool) :=
  try i <- index s g;
  let x := h_tab s i in
  try _ <- use_group s (grp x);
  let me := rank_in w (grp x) in
  if negb (actv x) then Done (s, false) else
  try s <- free_cache s x;
  let s := set_tab s i (Slot false (hnd x) (ndim x) (grp x) (size x) (ptr x) (overlay x) (prop x) Null (content x) (oldgrp x)) in
  match ptr x me with
  | Null => Done (s, true)
  | p =>
      if overlay x then
        Done (set_tab s i (Slot false (hnd x) (ndim x) (grp x) (size x) (ptr x) false (prop x) Null (content x) (oldgrp x)), true)
      else
        try _ <- use_group s (grp x);
        try s <- release s p;
        let s := credit s (size x) in
        Done (set_cur s (h_cur s - size x), true)
  end.

(** base.c 2817-2829: memory for slot [i] when the vote [ok] is positive. *)
Definition get_memory (s : gas) (i me : Z) (ok : bool) : gas :=
  if ok then let (b, s1) := alloc s in set_tab s1 i (set_ptr (h_tab s1 i) me (Blk b))
  else set_tab s i (set_ptr (h_tab s i) me Null).

(** base.c 2512-2851 [pnga_allocate]; [n] is the local size. *)
Definition allocate (w : self) (s : gas) (g n : Z) (others : bool) : out (gas * bool) :=
  try i <- index s g;
  let x := h_tab s i in
  match ndim x with
  | None => Undef
  | Some nd =>
      if nd =? -1 then Abort else
      let p := if grp x =? -2 then s_dflt w else grp x in
      try _ <- use_group s p;
      let me := rank_in w p in
      let s := set_tab s i (Slot true (hnd x) (ndim x) p n (ptr x) (overlay x) (prop x) (chead x) (content x) (oldgrp x)) in
      let s := credit s (- n) in
      let ok := vote s others in
      let s := get_memory s i me ok in
      if ok then Done (set_cur s (h_cur s + n), true)
      else
        let s := credit s n in
        try s <- destroy w s g;
        Done (fst s, false)
  end.

(** base.c 2870-3147 [pnga_overlay]; 3121-3137: no memory of its own. *)
Definition overlay_array (w : self) (s : gas) (g parent n : Z) (others : bool) : out (gas * bool) :=
  try i <- index s g;
  try j <- index s parent;
  let x := h_tab s i in
  let y := h_tab s j in
  match ndim x with
  | None => Undef
  | Some nd =>
      if nd =? -1 then Abort else
      let p := if grp x =? -2 then s_dflt w else grp x in
      try _ <- use_group s p;
      if negb (p =? grp y) then Abort else
      let me := rank_in w p in
      let s := set_tab s i (Slot true (hnd x) (ndim x) p n (ptr x) (overlay x) (prop x) (chead x) (content x) (oldgrp x)) in
      if (n <=? size y) && others then
        Done (set_tab s i (Slot true (hnd x) (ndim x) p n (fset (ptr x) me (ptr y me)) true (prop x) (chead x) (content x) (oldgrp x)), true)
      else
        try s <- destroy w s g;
        Done (fst s, false)
  end.

(** base.c 3748-3891 [pnga_duplicate]: a shallow copy (3787) with pointers of
    its own; [d] is the content with the new name. *)
Definition duplicate (w : self) (s : gas) (g : Z) (d : list Z) (others : bool) : out (gas * (Z * bool)) :=
  try i <- index s g;
  let y := h_tab s i in
  try _ <- use_group s (grp y);
  if negb (actv y) then Abort else
  match first_free (h_tab s) 0 (Z.to_nat (h_max s)) with
  | None => Abort
  | Some j =>
      let x := h_tab s j in
      let me := rank_in w (grp y) in
      let s := set_tab s j (Slot (actv y) (hnd y) (ndim y) (grp y) (size y) (ptr x) (overlay y) (prop y) (chead y) d (oldgrp y)) in
      let s := credit s (- size y) in
      let ok := vote s others in
      let s := get_memory s j me ok in
      if ok then Done (set_cur s (h_cur s + size y), (j - GA_OFFSET, true))
      else
        let s := credit s (size y) in
        try s <- destroy w s (j - GA_OFFSET);
        Done (fst s, (j - GA_OFFSET, false))
  end.

(** base.c 3615-3655 [GA_Getmem]; [n] = bytes+extra.  The memory is taken
    whatever the vote says. *)
Definition getmem (s : gas) (n : Z) (others : bool) : gas * Z :=
  let s1 := credit s (- n) in
  let s2 := if vote s1 others then s1 else credit s1 n in
  let (b, s3) := alloc s2 in (set_raw s3 ((b, n) :: h_raw s3), b).
(** base.c 3658-3680 [GA_Freemem]; the size is read from the block. *)
Definition freemem (s : gas) (b : Z) : out gas :=
  match find (fun e => fst e =? b) (h_raw s) with
  | None => Undef
  | Some (_, n) =>
      try s <- release s (Blk b);
      Done (credit (set_raw s (filter (fun e => negb (fst e =? b)) (h_raw s))) n)
  end.

(** base.c 2072-2085, 2291-2294 [pnga_set_property] with "read_cache". *)
Definition set_read_cache (s : gas) (g : Z) : out gas :=
  try i <- index s g;
  let x := h_tab s i in
  try _ <- use_group s (grp x);
  if negb (prop x =? NO_PROPERTY) then Abort else
  Done (set_tab s i (Slot (actv x) (hnd x) (ndim x) (grp x) (size x) (ptr x) (overlay x) READ_CACHE Null (content x) (oldgrp x))).

(** onesided.c 1160-1285: the bookkeeping of a read of an array with cached
    reads.  The list of cached reads is one block. *)
Definition cached_read (s : gas) (g : Z) : out gas :=
  try i <- index s g;
  let x := h_tab s i in
  if negb (actv x) then Abort else
  if negb (prop x =? READ_CACHE) then Done s else
  match chead x with
  | Unset => Undef
  | Null => let (b, s1) := alloc s in
            Done (set_tab s1 i (Slot (actv x) (hnd x) (ndim x) (grp x) (size x) (ptr x) (overlay x) (prop x) (Blk b) (content x) (oldgrp x)))
  | Blk b => if existsb (Z.eqb b) (h_blocks s) then Done s else Undef
  end.

(** base.c 2106-2112 and 2353-2359: a temporary array of local size [n]. *)
Definition temporary (w : self) (s : gas) (p nd n : Z) (others : bool) : out (gas * Z) :=
  try (s, t) <- create_handle s;
  try s <- set_data s t nd [];
  try s <- set_pgroup s t p;
  try (s, ok) <- allocate w s t n others;
  if ok then Done (s, t) else Abort.

(** base.c 2072-2290 [pnga_set_property] with "read_only": [tn] and [n] are the
    local sizes of the temporary copy and of the new array, [p'] the new group
    of the processes of the node. *)
Definition set_read_only (w : self) (s : gas) (g p' tn n : Z) (others1 others2 : bool) : out gas :=
  try i <- index s g;
  let x := h_tab s i in
  try _ <- use_group s (grp x);
  if negb (prop x =? NO_PROPERTY) then Abort else
  if negb (grp x =? -1) then Abort else
  match ndim x with
  | None => Undef
  | Some nd =>
      try (s, t) <- temporary w s (grp x) nd tn others1;
      let x := h_tab s i in
      if negb (actv x) then Abort else
      let s := set_group s p' true in
      let me := rank_in w p' in
      try s <- release s (ptr x (s_me w));
      let s := credit s (size x) in
      let s := set_cur s (h_cur s - size x) in
      let s := credit s (- n) in
      let s := set_cur s (h_cur s + n) in
      let ok := vote s others2 in
      let s := set_tab s i (Slot (actv x) (hnd x) (ndim x) p' n (ptr x) (overlay x) READ_ONLY (chead x) (content x) (grp x)) in
      let s := get_memory s i me ok in
      if negb ok then Abort else
      try (s, _) <- destroy w s t;
      Done s
  end.

(** base.c 2337-2507 [pnga_unset_property]; 2425-2428: curmem is not raised
    again; 2499: the property READ_CACHE stays. *)
Definition unset_property (w : self) (s : gas) (g tn n : Z) (others1 others2 : bool) : out gas :=
  try i <- index s g;
  let x := h_tab s i in
  if prop x =? READ_ONLY then
    match ndim x with
    | None => Undef
    | Some nd =>
        try (s, t) <- temporary w s (oldgrp x) nd tn others1;
        let x := h_tab s i in
        try _ <- use_group s (grp x);
        try s <- release s (ptr x (rank_in w (grp x)));
        let s := credit s (size x) in
        let s := set_cur s (h_cur s - size x) in
        let s := credit s (- n) in
        let ok := vote s others2 in
        let s := set_tab s i (Slot (actv x) (hnd x) (ndim x) (oldgrp x) n (ptr x) (overlay x) NO_PROPERTY (chead x) (content x) (oldgrp x)) in
        let s := get_memory s i (rank_in w (oldgrp x)) ok in
        if negb ok then Abort else
        try s <- pgroup_destroy s (grp x);
        try (s, _) <- destroy w s t;
        Done s
    end
  else if prop x =? READ_CACHE then
    try s <- free_cache s x;
    Done (set_tab s i (Slot (actv x) (hnd x) (ndim x) (grp x) (size x) (ptr x) (overlay x) (prop x) Null (content x) (oldgrp x)))
  else Done s.

(** One call. *)
Definition ga_step (w : self) (s : gas) (c : call) : out (gas * answer) :=
  match c with
  | CCreate => try (s, h) <- create_handle s; Done (s, AHandle h)
  | CSetData g nd d => try s <- set_data s g nd d; Done (s, AUnit)
  | CSetPgroup g p => try s <- set_pgroup s g p; Done (s, AUnit)
  | CAllocate g n o => try (s, b) <- allocate w s g n o; Done (s, AStatus b)
  | COverlay g q n o => try (s, b) <- overlay_array w s g q n o; Done (s, AStatus b)
  | CDuplicate g d o => try (s, (h, b)) <- duplicate w s g d o; Done (s, ADup h b)
  | CDestroy g => try (s, b) <- destroy w s g; Done (s, AStatus b)
  | CDeallocate g => try (s, b) <- deallocate w s g; Done (s, AStatus b)
  | CLimit m => Done (set_memory_limit s m, AUnit)
  | CGetmem n o => let (s, b) := getmem s n o in Done (s, ABlock b)
  | CFreemem b => try s <- freemem s b; Done (s, AUnit)
  | CReadCache g => try s <- set_read_cache s g; Done (s, AUnit)
  | CRead g => try s <- cached_read s g; Done (s, AUnit)
  | CReadOnly g p tn n o1 o2 => try s <- set_read_only w s g p tn n o1 o2; Done (s, AUnit)
  | CUnset g tn n o1 o2 => try s <- unset_property w s g tn n o1 o2; Done (s, AUnit)
  end.
Fixpoint ga_run (w : self) (s : gas) (cs : list call) : out (gas * list answer) :=
  match cs with
  | [] => Done (s, [])
  | c :: cs' =>
      try (s1, a) <- ga_step w s c;
      try (s2, l) <- ga_run w s1 cs';
      Done (s2, a :: l)
  end.
