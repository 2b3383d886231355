(** Model of the registration cache (/repo/comex/src-mpi-pr/reg_cache.c) and of
    the collective allocation and release of memory with it (comex.c).
    Simplifications: addresses are numbers, NULL is 0; the name of a shared
    memory object and the address at which it is mapped are the object itself, so
    translating an address gives an object and an offset; a collective call is one
    step (it starts and ends with a barrier, comex.c 2391, 2601, 2995, 3182), its
    processes run one after the other (each has its own caches); COMEX_ASSERT
    stops the program (comex_impl.h 53-60, NDEBUG not defined). *)
From Verif Require Export SpecReg MBase.
From Verif Require Import MHandle MGroup MRanks.

(** reg_cache.h [reg_entry_t]. *)
Record rent := REnt { re_buf : Z; re_len : Z; re_obj : Z }.

(** reg_cache.c 62-122 [seg_cmp]: the other segment ends at [oth_end]. *)
Definition oth_end (o olen : Z) : Z := if olen =? 0 then o + 1 else o + olen.
(** 165-176 [seg_contains], 223-240 [reg_entry_contains]. *)
Definition rc_contains (e : rent) (o olen : Z) : out bool :=
  if (re_buf e =? 0) || (o =? 0) then Abort
  else Done ((re_buf e <=? o) && (oth_end o olen <=? re_buf e + re_len e)).
(** 138-149 [seg_intersects], 192-208 [reg_entry_intersects]. *)
Definition rc_intersects (e : rent) (o olen : Z) : out bool :=
  if (re_buf e =? 0) || (o =? 0) then Abort
  else let b := re_buf e in let f := re_buf e + re_len e in let o' := oth_end o olen in
       Done (((o <=? b) && (b <? o')) || ((o <? f) && (f <=? o'))).

(** 379-432 [reg_cache_find]: the first entry; a second one stops the program. *)
Fixpoint rc_unique (l : list rent) (o olen : Z) : out unit :=
  match l with
  | [] => Done tt
  | e :: l' => try b <- rc_contains e o olen; if (b : bool) then Abort else rc_unique l' o olen
  end.
Fixpoint rc_find (l : list rent) (o olen : Z) : out (option rent) :=
  match l with
  | [] => Done None
  | e :: l' => try b <- rc_contains e o olen; if (b : bool) then try _ <- rc_unique l' o olen; Done (Some e) else rc_find l' o olen
  end.
(** 445-478 [reg_cache_find_intersection]; the second loop looks for entries that
    contain the segment (471). *)
Fixpoint rc_find_int (l : list rent) (o olen : Z) : out (option rent) :=
  match l with
  | [] => Done None
  | e :: l' => try b <- rc_intersects e o olen; if (b : bool) then try _ <- rc_unique l' o olen; Done (Some e) else rc_find_int l' o olen
  end.
(** 493-556 [reg_cache_insert]: at the end of the list. *)
Definition rc_insert (l : list rent) (e : rent) : out (list rent) :=
  if re_buf e =? 0 then Abort
  else if re_len e <? 0 then Abort
  else try f <- rc_find l (re_buf e) (re_len e);
       match f with
       | Some _ => Abort
       | None => try g <- rc_find_int l (re_buf e) (re_len e);
                 match g with Some _ => Abort | None => Done (l ++ [e]) end
       end.
(** 574-619 [reg_cache_delete]: the first entry that starts at [buf]. *)
Fixpoint rc_remove (l : list rent) (buf : Z) : option (list rent) :=
  match l with
  | [] => None
  | e :: l' => if re_buf e =? buf then Some l' else match rc_remove l' buf with Some r => Some (e :: r) | None => None end
  end.
Definition rc_delete (l : list rent) (buf : Z) : out (list rent) :=
  if buf =? 0 then Abort
  else try f <- rc_find l buf 0;
       match f with
       | None => Abort
       | Some _ => match rc_remove l buf with Some r => Done r | None => Abort end
       end.

(** The caches: [c p r] is reg_cache[r] of process [p]. *)
Definition caches := Z -> Z -> list rent.
Definition cset (c : caches) (p r : Z) (l : list rent) : caches :=
  fun p' r' => if (p' =? p) && (r' =? r) then l else c p' r'.

(** The entry that process [i] brings to an allocation (comex.c 2449-2455). *)
Definition ent_of (a : galloc) (i : Z) : rent := REnt (al_addr a i) (al_size a i) (al_obj a i).
(** Process [p] registers the entries of the processes [es]. *)
Fixpoint enter (c : caches) (p : Z) (a : galloc) (es : list Z) : out caches :=
  match es with
  | [] => Done c
  | i :: es' => try l <- rc_insert (c p i) (ent_of a i); enter (cset c p i l) p a es'
  end.
(** comex.c 2361-2610 [comex_malloc]: the member [p] first registers its own memory
    (_comex_malloc_local, 1465-1530), then that of the others in [es]. *)
Definition enter_member (c : caches) (a : galloc) (x : Z * list Z) : out caches :=
  let (p, es) := x in
  try c1 <- (if 0 <? al_size a p then enter c p a [p] else Done c);
  enter c1 p a (filter (fun i => negb (i =? p)) es).
Fixpoint enter_members (c : caches) (a : galloc) (l : list (Z * list Z)) : out caches :=
  match l with [] => Done c | x :: l' => try c1 <- enter_member c a x; enter_members c1 a l' end.
(** comex.c 4625-4716 [_malloc_handler]: the server registers what is on its node. *)
Definition serve_malloc (hs : list Z) (c : caches) (a : galloc) (m : Z * Z * list Z) : out caches :=
  let '(_, q, es) := m in enter c q a (filter (same_host hs q) es).
Fixpoint serve_mallocs (hs : list Z) (c : caches) (a : galloc) (ms : list (Z * Z * list Z)) : out caches :=
  match ms with [] => Done c | m :: ms' => try c1 <- serve_malloc hs c a m; serve_mallocs hs c1 a ms' end.
Definition run_malloc (hs ms ss : list Z) (k : Z) (packed : bool) (c : caches) (a : galloc) : out caches :=
  try (regs, msgs) <- malloc_all hs ms ss k packed (al_size a) (al_group a) (al_group a);
  try c1 <- enter_members c a regs;
  serve_mallocs hs c1 a msgs.

(** Process [p] removes the memory of the processes [es], NULL left out. *)
Fixpoint leave (c : caches) (p : Z) (a : galloc) (es : list Z) : out caches :=
  match es with
  | [] => Done c
  | i :: es' =>
    if al_addr a i =? 0 then leave c p a es'
    else try f <- rc_find (c p i) (al_addr a i) 0;
         match f with
         | None => Abort
         | Some _ => try l <- rc_delete (c p i) (al_addr a i); leave (cset c p i l) p a es'
         end
  end.
(** comex.c 1665-1727 [comex_free_local]: an entry that is missing is used (1707). *)
Definition leave_own (c : caches) (p : Z) (a : galloc) : out caches :=
  if al_addr a p =? 0 then Done c
  else try f <- rc_find (c p p) (al_addr a p) 0;
       match f with
       | None => Undef
       | Some _ => try l <- rc_delete (c p p) (al_addr a p); Done (cset c p p l)
       end.
(** comex.c 3057-3145 in [comex_free]: the processes whose memory the member [p]
    knows; itself first or not, and also with NULL, in the message. *)
Fixpoint free_entries (ms : list Z) (a : galloc) (r gm : Z) (group : list Z) : out (list Z) :=
  match group with
  | [] => Done []
  | i :: g' =>
    if i =? r then try l <- free_entries ms a r gm g'; Done (i :: l)
    else if al_addr a i =? 0 then free_entries ms a r gm g'
    else match zget ms gm with
         | None => Undef
         | Some q => if at_rank ms i =? q then try l <- free_entries ms a r gm g'; Done (i :: l)
                     else free_entries ms a r gm g'
         end
  end.
(** comex.c 2978-3190 [comex_free] on the member [p] (the message is sent before
    its own memory is released by comex_free_local, 3177, 1665-1727). *)
Definition free_member (hs ms ss : list Z) (k : Z) (packed : bool) (a : galloc) (c : caches) (p : Z)
  : out (caches * list (Z * Z * list Z)) :=
  let gm := group_master hs ss k packed (al_group a) p in
  try es <- free_entries ms a p gm (al_group a);
  try c1 <- leave c p a (filter (fun i => negb (i =? p)) es);
  try m <- (if is_notifier hs ss k packed (al_group a) p then
              if Z.of_nat (length es) <=? node_size ss p then Done [(p, at_rank ms p, es)] else Undef
            else Done []);
  try c2 <- leave_own c1 p a;
  Done (c2, m).
Fixpoint free_members (hs ms ss : list Z) (k : Z) (packed : bool) (a : galloc) (c : caches) (ps : list Z)
  : out (caches * list (Z * Z * list Z)) :=
  match ps with
  | [] => Done (c, [])
  | p :: ps' =>
    try (c1, m) <- free_member hs ms ss k packed a c p;
    try (c2, msgs) <- free_members hs ms ss k packed a c1 ps';
    Done (c2, m ++ msgs)
  end.
(** comex.c 4719-4808 [_free_handler]. *)
Definition serve_free (hs : list Z) (c : caches) (a : galloc) (m : Z * Z * list Z) : out caches :=
  let '(_, q, es) := m in leave c q a (filter (fun i => negb (q =? i) && same_host hs q i) es).
Fixpoint serve_frees (hs : list Z) (c : caches) (a : galloc) (ms : list (Z * Z * list Z)) : out caches :=
  match ms with [] => Done c | m :: ms' => try c1 <- serve_free hs c a m; serve_frees hs c1 a ms' end.
Definition run_free (hs ms ss : list Z) (k : Z) (packed : bool) (c : caches) (a : galloc) : out caches :=
  try (c1, msgs) <- free_members hs ms ss k packed a c (al_group a);
  serve_frees hs c1 a msgs.

(** A program: the caches and the allocations it holds. *)
Fixpoint reg_run (hs ms ss : list Z) (k : Z) (packed : bool) (c : caches) (live : list galloc) (cs : list mcall)
  : out (caches * list galloc) :=
  match cs with
  | [] => Done (c, live)
  | MAlloc a :: cs' => try c1 <- run_malloc hs ms ss k packed c a; reg_run hs ms ss k packed c1 (live ++ [a]) cs'
  | MFree i :: cs' =>
    try a <- need (zget live i);
    try c1 <- run_free hs ms ss k packed c a; reg_run hs ms ss k packed c1 (drop_at i live) cs'
  end.
(** reg_cache.c 289-314 [reg_cache_init]. *)
Definition no_caches : caches := fun _ _ => [].
(** comex.c 4818-4833 [_get_offset_memory] after reg_cache_find and its assertion
    (as in the handlers, e.g. 3640): object and offset of an address of [r] at
    process [p]. *)
Definition translate (c : caches) (p r a len : Z) : out (Z * Z) :=
  try f <- rc_find (c p r) a len;
  match f with None => Abort | Some e => Done (re_obj e, a - re_buf e) end.
