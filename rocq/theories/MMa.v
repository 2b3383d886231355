(** Model of the MA memory allocator (/repo/ma/ma.c, /repo/ma/table.c): the heap
    with its free list, the stack, and the table of handles.

    Simplifications.  (a) Addresses are integers; size_t arithmetic is modulo
    2^64, Integer is a 64-bit signed number.  (b) A linked list of allocation
    descriptors (AD) is a list of records; an AD is stored at the address of its
    block.  The checks of checksum and guard words in mh2ad (1653-1674) pass:
    programs write inside their blocks only, and the ADs and guards lie outside
    (C74).  (c) The names of blocks, the statistics, the trace and the automatic
    verification are left out.  (d) sizeof(AD) = 80, sizeof(Guard) = 4 and
    ALIGNMENT = 8 are those of a 64-bit platform. *)
From Verif Require Export MBase SpecMa.

Definition u64 (x : Z) : Z := x mod 2 ^ 64.
Definition AD_SIZE := 80.
Definition GUARD := 4.
Definition ALIGN := 8.
(** ma.c 1767-1777 [mai_round]. *)
Definition mai_round (v unit : Z) : Z := Z.land (u64 (v + (unit - 1))) (u64 (Z.lnot (unit - 1))).
(** ma.c 88 and 109-110. *)
Definition OVERHEAD := AD_SIZE + 2 * GUARD.
Definition MINBLOCK := mai_round (ALIGN + OVERHEAD) ALIGN.

(** ma.c 127-137 [AD]: address, datatype, nelem, client_space, nbytes. *)
Record ad := Ad { a_at : Z; a_dt : Z; a_ne : Z; a_cs : Z; a_nb : Z }.
(** table.c 37-52: an entry of the table of handles. *)
Inductive tstate := Unused | Allocated | Deallocated.
(** ma.c 282-327 and table.c 60-64: the static variables. *)
Record mas := Mas {
  m_seg : Z; m_part : Z; m_eos : Z; m_hp : Z; m_sp : Z;
  m_hfree : list ad; m_hused : list ad; m_sused : list ad;
  m_align : Z; m_tab : list (Z * tstate); m_entries : Z; m_next : Z
}.
Definition set_heap (s : mas) (hp : Z) (hfree hused : list ad) : mas :=
  Mas (m_seg s) (m_part s) (m_eos s) hp (m_sp s) hfree hused (m_sused s) (m_align s) (m_tab s) (m_entries s) (m_next s).
Definition set_stack (s : mas) (sp : Z) (sused : list ad) : mas :=
  Mas (m_seg s) (m_part s) (m_eos s) (m_hp s) sp (m_hfree s) (m_hused s) sused (m_align s) (m_tab s) (m_entries s) (m_next s).
Definition set_align (s : mas) (k : Z) : mas :=
  Mas (m_seg s) (m_part s) (m_eos s) (m_hp s) (m_sp s) (m_hfree s) (m_hused s) (m_sused s) k (m_tab s) (m_entries s) (m_next s).
Definition set_table (s : mas) (tab : list (Z * tstate)) (entries next : Z) : mas :=
  Mas (m_seg s) (m_part s) (m_eos s) (m_hp s) (m_sp s) (m_hfree s) (m_hused s) (m_sused s) (m_align s) tab entries next.

(** ---- sizes and addresses ---- *)

(** Integer times int, as a signed 64-bit number. *)
Definition mul64 (a b : Z) : option Z :=
  if (- 2 ^ 63 <=? a * b) && (a * b <? 2 ^ 63) then Some (a * b) else None.

(** ma.c 617-724 [balloc_after]: (client_space, nbytes) of a block at [addr]. *)
Definition balloc_after (E : ma_env) (numalign dt ne addr : Z) : option (Z * Z) :=
  let size := e_size E dt in
  do l <- mul64 ne size;
  let len := u64 l in
  if size =? 0 then None else
  let gap1 := u64 (e_base E dt - addr - AD_SIZE - GUARD) mod size in
  let b := u64 (addr + AD_SIZE + gap1 + GUARD) in
  let b' :=
    if 0 <? numalign then
      let diff := Z.land b (2 ^ numalign - 1) in
      if diff =? 0 then b
      else let diff' := 2 ^ numalign - diff in if Z.rem diff' size =? 0 then u64 (b + diff') else b
    else b in
  let gap2 := u64 (addr - b' - len - GUARD) mod ALIGN in
  Some (b', u64 (b' + len + GUARD + gap2 - addr)).

(** ma.c 733-833 [balloc_before]: a block that ends at [addr]. *)
Definition balloc_before (E : ma_env) (numalign dt ne addr : Z) : option (Z * Z) :=
  let size := e_size E dt in
  do l <- mul64 ne size;
  let len := u64 l in
  if size =? 0 then None else
  let gap2 := u64 (addr - GUARD - len - e_base E dt) mod size in
  let b := u64 (addr - gap2 - GUARD - len) in
  let b' :=
    if 0 <? numalign then
      let diff := Z.land b (2 ^ numalign - 1) in
      if diff =? 0 then b else if Z.rem diff size =? 0 then u64 (b - diff) else b
    else b in
  let gap1 := u64 (b' - GUARD - AD_SIZE) mod ALIGN in
  Some (b', u64 (addr - b' + GUARD + gap1 + AD_SIZE)).

(** ---- lists ---- *)

(** ma.c 1244-1286 [list_insert_ordered] with ad_lt. *)
Fixpoint insert_ordered (x : ad) (l : list ad) : list ad :=
  match l with
  | [] => [x]
  | y :: l' => if a_at x <? a_at y then x :: l else y :: insert_ordered x l'
  end.
(** ma.c 1122-1127, 1187-1219 [list_delete]: without the AD at [p]; None: not found. *)
Fixpoint list_delete (p : Z) (l : list ad) : option (list ad) :=
  match l with
  | [] => None
  | y :: l' => if a_at y =? p then Some l' else do r <- list_delete p l'; Some (y :: r)
  end.
(** The AD at address [p] of a list (list_member, ma.c 1295-1308). *)
Fixpoint list_find (p : Z) (l : list ad) : option ad :=
  match l with [] => None | y :: l' => if a_at y =? p then Some y else list_find p l' end.
(** ma.c 1089-1113 [list_coalesce]. *)
Fixpoint coalesce_from (x : ad) (l : list ad) : list ad :=
  match l with
  | [] => [x]
  | y :: l' =>
      if u64 (a_at x + a_nb x) =? a_at y then coalesce_from (Ad (a_at x) (a_dt x) (a_ne x) (a_cs x) (u64 (a_nb x + a_nb y))) l'
      else x :: coalesce_from y l'
  end.
Definition list_coalesce (l : list ad) : list ad :=
  match l with [] => [] | x :: l' => coalesce_from x l' end.

(** ma.c 900-943 [block_split]: the shortened block and the new one. *)
Definition block_split (x : ad) (need : Z) : ad * option ad :=
  let extra := u64 (a_nb x - need) in
  if MINBLOCK <=? extra then
    (Ad (a_at x) (a_dt x) (a_ne x) (a_cs x) need, Some (Ad (u64 (a_at x + need)) 0 0 0 extra))
  else (x, None).

(** ma.c 504-528 [ad_big_enough] applied by list_delete_one (1187-1219) to the
    free list: the first block that is big enough, split, and the list without
    it.  The new block is inserted in the list during the search. *)
Fixpoint first_fit (E : ma_env) (numalign dt ne : Z) (l : list ad) : option (option (ad * option ad)) :=
  match l with
  | [] => Some None
  | x :: l' =>
      do q <- balloc_after E numalign dt ne (a_at x);
      if snd q <=? a_nb x then
        let sp := block_split x (snd q) in
        Some (Some (Ad (a_at x) (a_dt x) (a_ne x) (fst q) (a_nb (fst sp)), snd sp))
      else first_fit E numalign dt ne l'
  end.

(** ma.c 842-889 [block_free_heap]; [x] is not on a list. *)
Definition rightmost (l : list ad) : option ad :=
  fold_left (fun m y => match m with None => Some y | Some z => if a_at z <? a_at y then Some y else m end) l None.
Definition block_free_heap (s : mas) (x : ad) : mas :=
  match rightmost (m_hused s) with
  | Some m =>
      let hfree := filter (fun y => negb (a_at m <? a_at y)) (m_hfree s) in
      set_heap s (u64 (a_at m + a_nb m))
        (if a_at x <? a_at m then list_coalesce (insert_ordered x hfree) else hfree) (m_hused s)
  | None => set_heap s (m_seg s) [] []
  end.

(** ---- table of handles ---- *)

(** table.c 81-158 [ma_table_allocate]; -1 is TABLE_HANDLE_NONE (table.h). *)
Fixpoint find_slot (n : nat) (i : Z) (tab : list (Z * tstate)) : option (option Z) :=
  match n with
  | O => Some None
  | S n' =>
      do e <- zget tab i;
      match snd e with
      | Allocated => find_slot n' ((i + 1) mod Z.of_nat (length tab)) tab
      | _ => Some (Some i)
      end
  end.
Definition table_allocate (room : bool) (data : Z) (s : mas) : option (mas * option Z) :=
  let cap := Z.of_nat (length (m_tab s)) in
  do g <-
    (if cap <=? m_entries s then
       let cap' := if cap =? 0 then 32 else 2 * cap in
       if 2 ^ 32 <=? cap' * 16 then None
       else if room then Some (Some (m_tab s ++ repeat (0, Unused) (Z.to_nat (cap' - cap)), cap)) else Some None
     else Some (Some (m_tab s, m_next s)));
  match g with
  | None => Some (s, None)
  | Some (tab, next) =>
      do r <- find_slot (length tab) next tab;
      match r with
      | Some i =>
          do tab' <- zset tab i (data, Allocated);
          Some (set_table s tab' (m_entries s + 1) ((i + 1) mod Z.of_nat (length tab)), Some i)
      | None => Some (set_table s tab (m_entries s) next, None)
      end
  end.
(** table.c 233-268 [ma_table_verify] and 188-198 [ma_table_lookup]. *)
Definition table_lookup (h : Z) (tab : list (Z * tstate)) : option Z :=
  match zget tab h with Some (d, Allocated) => Some d | _ => None end.
(** table.c 167-178 [ma_table_deallocate]. *)
Definition table_deallocate (h : Z) (s : mas) : option mas :=
  match zget (m_tab s) h with
  | Some (d, Allocated) => do tab <- zset (m_tab s) h (d, Deallocated); Some (set_table s tab (m_entries s - 1) (m_next s))
  | _ => Some s
  end.
(** table.c 210-223 [ma_table_lookup_assoc]. *)
Fixpoint lookup_assoc (i : Z) (data : Z) (tab : list (Z * tstate)) : option Z :=
  match tab with
  | [] => None
  | (d, st) :: tab' =>
      match st with
      | Allocated => if d =? data then Some i else lookup_assoc (i + 1) data tab'
      | _ => lookup_assoc (i + 1) data tab'
      end
  end.
(** ma.c 1743-1759 [mh_free]. *)
Definition mh_free (s : mas) (x : ad) : option mas :=
  match lookup_assoc 0 (a_at x) (m_tab s) with
  | None => Some s
  | Some h => table_deallocate h s
  end.

(** ma.c 1600-1734 [mh2ad] for the lists [l] of a block location. *)
Definition mh2ad (s : mas) (h : Z) (l : list ad) : option ad :=
  do p <- table_lookup h (m_tab s);
  if (m_seg s <=? p) && (p <? m_eos s) then list_find p l else None.

(** ---- the interface ---- *)

(** ma.c 352 [mt_valid]. *)
Definition mt_valid (dt : Z) : bool := (1000 <=? dt) && (dt <=? 1016).

(** ma.c 2019-2083: the block is described, put on the used list, and gets a handle. *)
Definition finish_heap (room : bool) (s : mas) (x : ad) (hfree : list ad) : option (mas * ma_ret) :=
  let new_hp := u64 (a_at x + a_nb x) in
  let s1 := set_heap s (if m_hp s <? new_hp then new_hp else m_hp s) hfree (x :: m_hused s) in
  do r <- table_allocate room (a_at x) s1;
  match snd r with Some h => Some (fst r, Ret true h) | None => Some (fst r, Ret false (-1)) end.

(** ma.c 1949-2084 [MA_allocate_heap]. *)
Definition allocate_heap (E : ma_env) (s : mas) (dt0 ne : Z) (room : bool) : option (mas * ma_ret) :=
  if negb (mt_valid dt0) then Some (s, Ret false 0)
  else if ne <? 0 then Some (s, Ret false 0)
  else
    let dt := dt0 - 1000 in
    do f <- first_fit E (m_align s) dt ne (m_hfree s);
    match f with
    | Some (x, rest) =>
        let l := match rest with Some y => insert_ordered y (m_hfree s) | None => m_hfree s end in
        do l' <- list_delete (a_at x) l;
        finish_heap room s (Ad (a_at x) dt ne (a_cs x) (a_nb x)) l'
    | None =>
        do q <- balloc_after E (m_align s) dt ne (m_hp s);
        if m_sp s <? u64 (m_hp s + snd q) then Some (s, Ret false 0)
        else finish_heap room s (Ad (m_hp s) dt ne (fst q) (snd q)) (m_hfree s)
    end.

(** ma.c 2137-2181 [MA_free_heap]. *)
Definition free_heap (s : mas) (h : Z) : option (mas * ma_ret) :=
  match mh2ad s h (m_hused s) with
  | None => Some (s, Ret false 0)
  | Some x =>
      match list_delete (a_at x) (m_hused s) with
      | None => Some (s, Ret false 0)
      | Some used =>
          do s' <- table_deallocate h (block_free_heap (set_heap s (m_hp s) (m_hfree s) used) x);
          Some (s', Ret true 0)
      end
  end.

(** An AD changed in place. *)
Definition update_ad (x : ad) (l : list ad) : list ad := map (fun y => if a_at y =? a_at x then x else y) l.

(** ma.c 2194-2271 [MA_free_heap_piece]. *)
Definition free_heap_piece (E : ma_env) (s : mas) (h ne : Z) : option (mas * ma_ret) :=
  match mh2ad s h (m_hused s) with
  | None => Some (s, Ret false 0)
  | Some x =>
      if ne <? 0 then Some (s, Ret false 0)
      else if a_ne x <=? ne then free_heap s h
      else
        let keep := a_ne x - ne in
        do q <- balloc_after E (m_align s) (a_dt x) keep (a_at x);
        let '(x1, rest) := if snd q <? a_nb x then block_split x (snd q) else (x, None) in
        let s1 := set_heap s (m_hp s) (m_hfree s) (update_ad x1 (m_hused s)) in
        let s2 := match rest with Some y => block_free_heap s1 y | None => s1 end in
        Some (set_heap s2 (m_hp s2) (m_hfree s2) (update_ad (Ad (a_at x1) (a_dt x1) keep (a_cs x1) (a_nb x1)) (m_hused s2)), Ret true 0)
  end.

(** ma.c 3244-3361 [MA_push_stack]. *)
Definition push_stack (E : ma_env) (s : mas) (dt0 ne : Z) (room : bool) : option (mas * ma_ret) :=
  if negb (mt_valid dt0) then Some (s, Ret false 0)
  else if ne <? 0 then Some (s, Ret false 0)
  else
    let dt := dt0 - 1000 in
    do q <- balloc_before E (m_align s) dt ne (m_sp s);
    if u64 (m_sp s - m_hp s) <? snd q then Some (s, Ret false 0)
    else
      let sp := u64 (m_sp s - snd q) in
      let s1 := set_stack s sp (Ad sp dt ne (fst q) (snd q) :: m_sused s) in
      do r <- table_allocate room sp s1;
      match snd r with Some h => Some (fst r, Ret true h) | None => Some (fst r, Ret false (-1)) end.

(** ma.c 3104-3146 [MA_pop_stack]. *)
Definition pop_stack (s : mas) (h : Z) : option (mas * ma_ret) :=
  match mh2ad s h (m_sused s) with
  | None => Some (s, Ret false 0)
  | Some x =>
      if negb (a_at x =? m_sp s) then Some (s, Ret false 0)
      else
        match list_delete (a_at x) (m_sused s) with
        | None => Some (s, Ret false 0)
        | Some used => do s' <- table_deallocate h (set_stack s (u64 (m_sp s + a_nb x)) used); Some (s', Ret true 0)
        end
  end.

(** ma.c 2094-2127 [MA_chop_stack]. *)
Fixpoint free_all (s : mas) (l : list ad) : option mas :=
  match l with [] => Some s | x :: l' => do s' <- mh_free s x; free_all s' l' end.
Definition chop_stack (s : mas) (h : Z) : option (mas * ma_ret) :=
  match mh2ad s h (m_sused s) with
  | None => Some (s, Ret false 0)
  | Some x =>
      do s' <- free_all s (filter (fun y => a_at y <=? a_at x) (m_sused s));
      Some (set_stack s' (u64 (a_at x + a_nb x)) (filter (fun y => negb (a_at y <=? a_at x)) (m_sused s)), Ret true 0)
  end.

(** ma.c 2401-2434 [MA_get_pointer] and 2282-2311 [MA_get_index]. *)
Definition get_pointer (s : mas) (h : Z) : ma_ret :=
  match mh2ad s h (m_hused s ++ m_sused s) with None => Ret false 0 | Some x => Ret true (a_cs x) end.
Definition get_index (E : ma_env) (s : mas) (h : Z) : option ma_ret :=
  match mh2ad s h (m_hused s ++ m_sused s) with
  | None => Some (Ret false 0)
  | Some x => if e_size E (a_dt x) =? 0 then None else Some (Ret true (u64 (a_cs x - e_base E (a_dt x)) / e_size E (a_dt x)))
  end.
(** ma.c 3429-3446 [MA_set_numalign]. *)
Definition set_numalign (s : mas) (k : Z) : mas * ma_ret :=
  if (k <? 0) || (30 <? k) then (s, Ret false 0) else (set_align s k, Ret true 0).

(** One call; [None] is undefined behaviour. *)
Definition ma_step (E : ma_env) (s : mas) (o : ma_op) : option (mas * ma_ret) :=
  match o with
  | Alloc dt ne room => allocate_heap E s dt ne room
  | FreeHeap h => free_heap s h
  | FreePiece h ne => free_heap_piece E s h ne
  | Push dt ne room => push_stack E s dt ne room
  | Pop h => pop_stack s h
  | Chop h => chop_stack s h
  | SetAlign k => Some (set_numalign s k)
  | GetPtr h => Some (s, get_pointer s h)
  | GetIndex h => do r <- get_index E s h; Some (s, r)
  end.
Fixpoint ma_run (E : ma_env) (s : mas) (L : ma_live) (os : list ma_op) : option (mas * ma_live * list ma_ret) :=
  match os with
  | [] => Some (s, L, [])
  | o :: os' => do q <- ma_step E s o; do r <- ma_run E (fst q) (live_step o (snd q) L) os'; Some (fst r, snd q :: snd r)
  end.

(** ma.c 2443-2575 [MA_init]: [seg] is what malloc returned for the segment; the
    table and the alignment may have been set before. *)
Definition region (E : ma_env) (dt nominal : Z) : option Z :=
  if nominal <? 0 then Some (mai_round 524288 ALIGN)
  else do l <- mul64 nominal (e_size E dt);
       Some (mai_round (u64 (l + (OVERHEAD + (e_size E dt - 1) + (ALIGN - 1)))) ALIGN).
Definition ma_init (E : ma_env) (dt0 nstack nheap numalign seg : Z) : option (option mas) :=
  if negb (mt_valid dt0) then Some None
  else
    do hb <- region E (dt0 - 1000) nheap;
    do sb <- region E (dt0 - 1000) nstack;
    if seg =? 0 then Some None
    else
      let total := u64 (hb + sb) in
      Some (Some (Mas seg (u64 (seg + hb)) (u64 (seg + total)) seg (u64 (seg + total)) [] [] [] numalign [] 0 0)).

(** ---- inquiries ---- *)

(** A size_t as a signed Integer. *)
Definition i64 (x : Z) : Z := if x <? 2 ^ 63 then x else x - 2 ^ 64.
(** ma.c 1531-1563 [ma_nelem]. *)
Fixpoint try_nelem (n : nat) (E : ma_env) (numalign addr len dt : Z) : option Z :=
  match n with
  | O => Some 0
  | S n' =>
      do q <- balloc_after E numalign dt (Z.of_nat n) addr;
      if len <? snd q then try_nelem n' E numalign addr len dt else Some (Z.of_nat n)
  end.
Definition ma_nelem (E : ma_env) (numalign addr len dt : Z) : option Z :=
  if len <=? OVERHEAD then Some 0
  else if e_size E dt =? 0 then None
  else
    let n := i64 ((len - OVERHEAD) / e_size E dt) in
    if n <=? 0 then Some n else try_nelem (Z.to_nat n) E numalign addr len dt.
(** ma.c 1472-1521 [ma_max_heap_frag_nelem]. *)
Fixpoint frag_nelem (E : ma_env) (s : mas) (dt min_bytes best : Z) (l : list ad) : option Z :=
  match l with
  | [] => Some best
  | x :: l' =>
      if m_part s <=? a_at x then frag_nelem E s dt min_bytes best l'
      else
        let nb := if m_part s <=? u64 (a_at x + a_nb x) then u64 (m_part s - a_at x) else a_nb x in
        if min_bytes <=? nb then
          do n <- ma_nelem E (m_align s) (a_at x) nb dt;
          frag_nelem E s dt min_bytes (if best <? n then n else best) l'
        else frag_nelem E s dt min_bytes best l'
  end.
Definition max_heap_frag_nelem (E : ma_env) (s : mas) (dt min_nelem : Z) : option Z :=
  do l <- mul64 min_nelem (e_size E dt);
  frag_nelem E s dt (u64 (l + OVERHEAD)) 0 (m_hfree s).
Definition gap_nelem (E : ma_env) (s : mas) (addr len dt : Z) : option Z :=
  if 0 <? len then ma_nelem E (m_align s) addr len dt else Some 0.
Definition with_frags (E : ma_env) (s : mas) (dt : Z) (gap : option Z) : option Z :=
  do g <- gap; do f <- max_heap_frag_nelem E s dt g; Some (if g <? f then f else g).

(** ma.c 2631-2681 [MA_inquire_avail]; the datatype is valid. *)
Definition inquire_avail (E : ma_env) (s : mas) (dt : Z) : option Z :=
  gap_nelem E s (m_hp s) (u64 (m_sp s - m_hp s)) dt.
(** ma.c 2695-2753 [MA_inquire_heap]. *)
Definition inquire_heap (E : ma_env) (s : mas) (dt : Z) : option Z :=
  with_frags E s dt (if m_hp s <? m_part s then ma_nelem E (m_align s) (m_hp s) (u64 (m_part s - m_hp s)) dt else Some 0).
(** ma.c 2767-2823 [MA_inquire_heap_check_stack]. *)
Definition inquire_heap_check_stack (E : ma_env) (s : mas) (dt : Z) : option Z :=
  with_frags E s dt (gap_nelem E s (m_hp s) (Z.min (u64 (m_part s - m_hp s)) (u64 (m_sp s - m_hp s))) dt).
(** ma.c 2837-2894 [MA_inquire_heap_no_partition]. *)
Definition inquire_heap_no_partition (E : ma_env) (s : mas) (dt : Z) : option Z :=
  with_frags E s dt (gap_nelem E s (m_hp s) (u64 (m_sp s - m_hp s)) dt).
(** ma.c 2906-2957 [MA_inquire_stack]. *)
Definition inquire_stack (E : ma_env) (s : mas) (dt : Z) : option Z :=
  gap_nelem E s (m_part s) (u64 (m_sp s - m_part s)) dt.
(** ma.c 2974-3026 [MA_inquire_stack_check_heap]. *)
Definition inquire_stack_check_heap (E : ma_env) (s : mas) (dt : Z) : option Z :=
  gap_nelem E s (m_part s) (Z.min (u64 (m_sp s - m_part s)) (u64 (m_sp s - m_hp s))) dt.
(** ma.c 3043-3094 [MA_inquire_stack_no_partition]. *)
Definition inquire_stack_no_partition (E : ma_env) (s : mas) (dt : Z) : option Z :=
  gap_nelem E s (m_hp s) (u64 (m_sp s - m_hp s)) dt.
