(** Model of GA_Dgemm and its kin: /repo/global/src/matmul.c 30-159, 345-485
    [gai_matmul_shmem], 569-817 [gai_matmul_regular], 821-1057 [gai_matmul_irreg], 1290-1577 [pnga_matmul].
    Same conventions and simplifications as [MMat].  The chunk sizes of
    [gai_get_chunk_size] (177-270) are any positive numbers Ichunk, Jchunk, Kchunk
    for the loops, in which the buffers have the sizes the chunks need; where the
    parts are in the one buffer that is allocated is separate (1481-1506).
    A nonblocking get puts its values into the buffer when it is called: A and B do
    not change, and a buffer that is overwritten too early shows as a wrong value. *)
From Verif Require Export MMat.
From Verif Require Import SpecDiag SpecDgemm.

Section Irreg.
Context {V : Type} (radd rmul : V -> V -> V) (zero : V) (conj : V -> V) (junk : V).
Variables (fuel : nat) (guess : Z -> Z -> Z -> Z) (wn : Z) (smp : Z -> bool) (rnda rndb rndc : Z -> Z -> Z).
Variables (oa ob : mop) (alpha : V) (a b c : garray) (pa pb pc : plane) (ma mb : heap V) (nproc me sa sb : Z).

(** 845-847: what is kept of a chunk until its product is computed: its rows,
    columns and inner range, adim_prev, bdim_prev and taskListC.chunkBId; [t_no]
    numbers the transfers of C. *)
Record ptask := PTask { t_i : Z * Z; t_j : Z * Z; t_k : Z * Z; t_adim : Z; t_bdim : Z; t_new : bool; t_no : Z }.
(** shiftA, shiftB, the buffers a_ar and b_ar, bdim, the buffer b points to, and
    the chunk that waits (compute_flag). *)
Record pipe := Pipe { p_sa : bool; p_sb : bool; p_a : bool -> option (buffer V); p_b : bool -> option (buffer V); p_bdim : Z; p_bp : bool; p_prev : option ptask }.
Definition put_slot {X} (f : bool -> X) (s : bool) (v : X) : bool -> X := fun t => if Bool.eqb t s then v else f t.

(** 933-984 and 1011-1056: the product of the chunk that waits. *)
Definition compute (s : pipe) : option (bool * list (buffer V * (place * Z))) :=
  match p_prev s with
  | None => Some (p_bp s, [])
  | Some t =>
      let bp := if t_new t then negb (p_sb s) else p_bp s in
      do ab <- p_a s (negb (p_sa s)); do bb <- p_b s bp;
      do ts <- c_transfers fuel guess wn smp rndc c pc (t_no t) (t_i t) (t_j t);
      Some (bp, map (fun x => (gemm_buf radd rmul zero conj oa ob alpha (len (t_i t)) (len (t_j t)) (len (t_k t)) ab (t_adim t) bb (t_bdim t), x)) ts)
  end.
(** 883-1000: one chunk of this process. *)
Definition irreg_task (ic jc kc : Z * Z) (ijk : Z) (newB : bool) (s : pipe) : option (pipe * list (buffer V * (place * Z))) :=
  do fa <- fetch junk fuel guess (rnda ijk) wn smp oa a pa ma sa ic kc;
  let ara := put_slot (p_a s) (p_sa s) (Some (fst fa)) in
  do fb <- (if newB then do x <- fetch junk fuel guess (rndb ijk) wn smp ob b pb mb sb kc jc; Some (put_slot (p_b s) (p_sb s) (Some (fst x)), snd x)
            else Some (p_b s, p_bdim s));
  do r <- compute (Pipe (p_sa s) (p_sb s) ara (fst fb) (snd fb) (p_bp s) (p_prev s));
  Some (Pipe (negb (p_sa s)) (if newB then negb (p_sb s) else p_sb s) ara (fst fb) (snd fb) (fst r) (Some (PTask ic jc kc (snd fa) (snd fb) newB ijk)), snd r).
(** 879-1004 *)
Fixpoint irreg_rows (is : list (Z * Z)) (jc kc : Z * Z) (ijk : Z) (newB : bool) (s : pipe) : option (pipe * list (buffer V * (place * Z))) :=
  match is with
  | [] => Some (s, [])
  | ic :: is' =>
      if ijk mod nproc =? me then
        do r <- irreg_task ic jc kc ijk newB s;
        do r' <- irreg_rows is' jc kc (ijk + 1) false (fst r);
        Some (fst r', snd r ++ snd r')
      else irreg_rows is' jc kc (ijk + 1) newB s
  end.
(** 871-1005 *)
Fixpoint irreg_inner (is ks : list (Z * Z)) (jc : Z * Z) (ijk : Z) (s : pipe) : option (pipe * list (buffer V * (place * Z))) :=
  match ks with
  | [] => Some (s, [])
  | kc :: ks' =>
      do r <- irreg_rows is jc kc ijk true s;
      do r' <- irreg_inner is ks' jc (ijk + Z.of_nat (length is)) (fst r);
      Some (fst r', snd r ++ snd r')
  end.
(** 867-1006 *)
Fixpoint irreg_cols (is ks js : list (Z * Z)) (ijk : Z) (s : pipe) : option (pipe * list (buffer V * (place * Z))) :=
  match js with
  | [] => Some (s, [])
  | jc :: js' =>
      do r <- irreg_inner is ks jc ijk s;
      do r' <- irreg_cols is ks js' (ijk + Z.of_nat (length is * length ks)) (fst r);
      Some (fst r', snd r ++ snd r')
  end.
Definition pipe0 : pipe := Pipe false false (fun _ => None) (fun _ => None) 0 false None.
(** 865-1056 *)
Definition irreg_loop (is ks js : list (Z * Z)) : option (list (buffer V * (place * Z))) :=
  do r <- irreg_cols is ks js 0 pipe0;
  do l <- compute (fst r);
  Some (snd r ++ snd l).
End Irreg.

Section Shmem.
Context {V : Type} (radd rmul : V -> V -> V) (zero : V) (conj : V -> V) (junk : V).
Variables (fuel : nat) (guess : Z -> Z -> Z -> Z) (wn : Z) (smp : Z -> bool) (rnda rndb rndc : Z -> Z -> Z).
Variables (oa ob : mop) (alpha : V) (a b c : garray) (pa pb pc : plane) (ma mb : heap V) (sa sb : Z).
(** A value that is put (true) or accumulated (false). *)
Definition tagged := (bool * (buffer V * (place * Z)))%type.
(** 402-481; [bb] = the part of B, unless get_new_B; [t] numbers the transfers. *)
Fixpoint shm_rows (put : bool) (is : list (Z * Z)) (jc kc : Z * Z) (t : Z) (bb : option (buffer V * Z)) : option (list tagged) :=
  match is with
  | [] => Some []
  | ic :: is' =>
      do ab <- fetch junk fuel guess (rnda t) wn smp oa a pa ma sa ic kc;
      do b' <- match bb with Some x => Some x | None => fetch junk fuel guess (rndb t) wn smp ob b pb mb sb kc jc end;
      do ts <- c_transfers fuel guess wn smp rndc c pc t ic jc;
      do r <- shm_rows put is' jc kc (t + 1) (Some b');
      let cb := gemm_buf radd rmul zero conj oa ob alpha (len ic) (len jc) (len kc) (fst ab) (snd ab) (fst b') (snd b') in
      Some (map (fun x => (put, (cb, x))) ts ++ r)
  end.
(** 396-483: after the first part of the inner range do_put is UNSET. *)
Fixpoint shm_inner (put : bool) (is ks : list (Z * Z)) (jc : Z * Z) (t : Z) : option (list tagged) :=
  match ks with
  | [] => Some []
  | kc :: ks' =>
      do r <- shm_rows put is jc kc t None;
      do r' <- shm_inner false is ks' jc (t + Z.of_nat (length is));
      Some (r ++ r')
  end.
(** 388-484: [zb] = need_scaling is UNSET: beta is 0. *)
Fixpoint shm_cols (zb : bool) (is ks js : list (Z * Z)) (t : Z) : option (list tagged) :=
  match js with
  | [] => Some []
  | jc :: js' =>
      do r <- shm_inner zb is ks jc t;
      do r' <- shm_cols zb is ks js' (t + Z.of_nat (length is * length ks));
      Some (r ++ r')
  end.
End Shmem.
(** for(lo = start; lo <= end; lo += chunk) of 389, 397, 403 *)
Definition chunks_from (start last c : Z) : list (Z * Z) := map (fun r => (start + fst r, start + snd r)) (chunks (last - start + 1) c).
Definition tcell {V} (e : tagged (V := V)) : place := fst (snd (snd e)).
(** pnga_put or pnga_acc with ONE *)
Definition tag_event {V} (radd : V -> V -> V) (m : heap V) (e : tagged (V := V)) : option (heap V) :=
  if fst e then put_event m (snd e) else acc_event radd m (snd e).

Section Regular.
Context {V : Type} (radd rmul : V -> V -> V) (zero : V) (conj : V -> V) (junk : V).
Variables (fuel : nat) (guess : Z -> Z -> Z -> Z) (wn : Z) (smp : Z -> bool) (rnda rndb rndc : Z -> Z -> Z).
Variables (oa ob : mop) (alpha : V) (a b c : garray) (pa pb pc : plane) (ma mb : heap V) (sa sb : Z).
(** matmul.h 36-42: an entry of taskListA with its chunk of B, chunkBId and do_put. *)
Record rtask := RTask { g_put : bool; g_i : Z * Z; g_j : Z * Z; g_k : Z * Z; g_b : Z }.
(** 103-154: the order of the j and k loops, with do_put, which is only used if beta
    is 0 (738). *)
Fixpoint inner_groups (put : bool) (ks : list (Z * Z)) (jc : Z * Z) : list (bool * ((Z * Z) * (Z * Z))) :=
  match ks with [] => [] | kc :: ks' => (put, (jc, kc)) :: inner_groups false ks' jc end.
Definition groups (put : bool) (ks js : list (Z * Z)) : list (bool * ((Z * Z) * (Z * Z))) := flat_map (inner_groups put ks) js.
(** 85-159 [gai_get_task_list]: the tasks of one round and what is left; the state (jlo,
    klo, do_put) that is kept between rounds (121-127) is here the rest of the pairs of
    the j and k loops.  [ii], [jj] as in the code, MAX_CHUNKS 1024. *)
Fixpoint task_list (is : list (Z * Z)) (gs : list (bool * ((Z * Z) * (Z * Z)))) (ii jj : Z) : list rtask * list (bool * ((Z * Z) * (Z * Z))) :=
  match gs with
  | [] => ([], [])
  | g :: gs' =>
      let nloops := Z.of_nat (length is) in
      if 1024 <=? ii + nloops then ([], gs)
      else
        let r := task_list is gs' (ii + nloops) (jj + 1) in
        (map (fun ic => RTask (fst g) ic (fst (snd g)) (snd (snd g)) jj) is ++ fst r, snd r)
  end.
(** shiftA, shiftB, the buffers, adim, bdim_next, the part b points to, get_new_B. *)
Record rpipe := RPipe { r_sa : bool; r_sb : bool; r_a : bool -> option (buffer V); r_b : bool -> option (buffer V); r_adim : Z; r_bdim : Z; r_bp : bool; r_new : bool }.
(** 725-811; CYCLIC_DISTR_OPT_FLAG is UNSET (1318), and the direct access of 681-691 is
    never taken: more than one task is in the list if chunks are left. *)
Fixpoint reg_loop (ts : list rtask) (no : Z) (s : rpipe) : option (list (tagged (V := V))) :=
  match ts with
  | [] => Some []
  | t :: rest =>
      let bp := if r_new s then r_sb s else r_bp s in
      do s' <- match rest with
               | [] => Some (RPipe (r_sa s) (r_sb s) (r_a s) (r_b s) (r_adim s) (r_bdim s) bp false)
               | t' :: _ =>
                   do fa <- fetch junk fuel guess (rnda (no + 1)) wn smp oa a pa ma sa (g_i t') (g_k t');
                   let ara := put_slot (r_a s) (negb (r_sa s)) (Some (fst fa)) in
                   if g_b t =? g_b t' then Some (RPipe (r_sa s) (r_sb s) ara (r_b s) (snd fa) (r_bdim s) bp false)
                   else
                     do fb <- fetch junk fuel guess (rndb (no + 1)) wn smp ob b pb mb sb (g_k t') (g_j t');
                     Some (RPipe (r_sa s) (negb (r_sb s)) ara (put_slot (r_b s) (negb (r_sb s)) (Some (fst fb))) (snd fa) (snd fb) bp true)
               end;
      do ab <- r_a s' (r_sa s'); do bb <- r_b s' bp;
      let cb := gemm_buf radd rmul zero conj oa ob alpha (len (g_i t)) (len (g_j t)) (len (g_k t)) ab (r_adim s) bb (r_bdim s) in
      do ts' <- c_transfers fuel guess wn smp rndc c pc no (g_i t) (g_j t);
      do r <- reg_loop rest (no + 1) (RPipe (negb (r_sa s')) (r_sb s') (r_a s') (r_b s') (r_adim s') (r_bdim s') bp (r_new s'));
      Some (map (fun x => (g_put t, (cb, x))) ts' ++ r)
  end.
(** 704-720 *)
Definition reg_round (ts : list rtask) (no : Z) : option (list (tagged (V := V))) :=
  match ts with
  | [] => Some []
  | t :: _ =>
      do fa <- fetch junk fuel guess (rnda no) wn smp oa a pa ma sa (g_i t) (g_k t);
      do fb <- fetch junk fuel guess (rndb no) wn smp ob b pb mb sb (g_k t) (g_j t);
      reg_loop ts no (RPipe false false (put_slot (fun _ => None) false (Some (fst fa))) (put_slot (fun _ => None) false (Some (fst fb))) (snd fa) (snd fb) false true)
  end.
(** 656-814: while chunks are left; [n] bounds the rounds. *)
Fixpoint reg_rounds (n : nat) (is : list (Z * Z)) (gs : list (bool * ((Z * Z) * (Z * Z)))) (no : Z) : option (list (tagged (V := V))) :=
  match n with
  | O => None
  | S n' =>
      let r := task_list is gs 0 0 in
      do es <- reg_round (fst r) no;
      match snd r with
      | [] => Some es
      | gs' => do es' <- reg_rounds n' is gs' (no + Z.of_nat (length (fst r))); Some (es ++ es')
      end
  end.
(** 99-100: at most MAX_CHUNKS chunks of rows. *)
Definition reg_block (zb : bool) (is ks js : list (Z * Z)) : option (list (tagged (V := V))) :=
  if 1024 <? Z.of_nat (length is) then None else reg_rounds fuel is (groups zb ks js) 0.
End Regular.

(** 177-270 for [irregular], nbuf = 2: Ichunk, Jchunk, Kchunk; [cube a b] =
    (Integer)pow(a/b,1/3), [root] = (Integer)sqrt; MINTASKS 10, MIN_CHUNK_SIZE 256 >
    CHUNK_SIZE/nbuf (matmul.h 18-27).  avail < MINMEM stops process 0 of the group. *)
Definition irreg_chunks (cube : Z -> Z -> Z) (root : Z -> Z) (avail m n k nproc : Z) : option (Z * Z * Z) :=
  if avail <? 64 then None
  else
    let mc := Z.min (Z.max 256 (cube (k * (m * n)) (10 * nproc))) (root (Z.quot (avail * 9 / 10 - 6) 6)) in
    let pos x := if x <=? 0 then 1 else x in
    Some (pos (Z.min m mc), pos (Z.min n mc), pos (Z.min k mc)).
(** The same for regular distributions if CONTIG_CHUNKS_OPT_FLAG is SET, nbuf = 2 and the blocks
    are small: CHUNK_SIZE/nbuf is 128 and larger than all three (227-238). *)
Definition small_chunks (I J K : Z) : option (Z * Z * Z) :=
  if (Z.max I (Z.max J K) <=? 128) && (I <? 128) && (J <? 128) then Some (I, J, Z.min I J) else None.
(** 1437-1461: Ichunk, Jchunk and Kchunk from the blocks of the process, and whether
    their ratio is too large. *)
Definition block_chunks (a b c : garray) (me : Z) : option (Z * Z * Z * bool) :=
  do x <- distribution (ga_desc a) me; do y <- distribution (ga_desc b) me; do z <- distribution (ga_desc c) me;
  let ext u i := do l <- zget (fst u) i; do h <- zget (snd u) i; Some (h - l + 1) in
  do a0 <- ext x 0; do a1 <- ext x 1; do b0 <- ext y 0; do b1 <- ext y 1; do c0 <- ext z 0; do c1 <- ext z 1;
  let pos v := if v <=? 0 then 1 else v in
  let I := pos (Z.min c0 a0) in let J := pos (Z.min c1 b1) in let K := pos (Z.min a1 b0) in
  Some (I, J, K, (3 <? I / K) || (3 <? K / I) || (3 <? J / K) || (3 <? K / J)).
(** 266-269: elems, for pnga_malloc. *)
Definition malloc_elems (nbuf bytes I J K : Z) : Z := nbuf * (I * K) + nbuf * (K * J) + I * J + nbuf * 3 * 16 / bytes.
(** 272-292: elems, if memory is taken from ARMCI; BLOCK_SIZE 1024. *)
Definition armci_elems (nbuf bytes I J K : Z) : option Z :=
  let blk := 1024 * 1024 in
  let elems := nbuf * blk + nbuf * blk + blk + nbuf * 3 * 16 / bytes in
  if nbuf * (I * K) + nbuf * (K * J) + I * J <? elems then Some elems else None.
(** 1501-1506: the first bytes of the parts a_ar[i], b_ar[i] and c_ar[0]; pointer steps are
    of 16 bytes. *)
Definition part_a (bytes I K i : Z) : Z := i * (16 * ((I * K) / (16 / bytes) + 1)).
Definition part_b (nbuf bytes I J K i : Z) : Z := part_a bytes I K nbuf + i * (16 * ((K * J) / (16 / bytes) + 1)).
Definition part_c (nbuf bytes I J K : Z) : Z := part_b nbuf bytes I J K nbuf.

Section Dgemm.
Context {V : Type} (radd rmul : V -> V -> V) (zero : V) (conj : V -> V) (junk : V).
(** 1344-1381: the patches are in range and fit; [ax] etc. = ilo, ihi, jlo, jhi.
    Arrays with other than two dimensions (VECTORCHECK, matmul.h) are not modelled. *)
Definition dgemm_range (o : mop) (ds : list Z) (x : Z * Z * Z * Z) : option bool :=
  do d1 <- zget ds 0; do d2 <- zget ds 1;
  let '(ilo, ihi, jlo, jhi) := x in
  let (e1, e2) := if is_n o then (d1, d2) else (d2, d1) in
  Some (negb ((ilo <=? 0) || (e1 <? ihi) || (jlo <=? 0) || (e2 <? jhi))).
Definition dgemm_checks (oa ob : mop) (da db dc : list Z) (ax bx cx : Z * Z * Z * Z) : option bool :=
  if negb ((length da =? 2) && (length db =? 2) && (length dc =? 2))%nat then None
  else
    do ra <- dgemm_range oa da ax; do rb <- dgemm_range ob db bx; do rc <- dgemm_range opN dc cx;
    Some (ra && rb && rc && (rows cx =? rows ax) && (cols cx =? cols bx) && (rows bx =? cols ax)).

(** 1391-1408, 1467-1475, 1533-1557: the algorithm that is used for map-distributed C. [irr] = an
    array was given an irregular distribution, or _gai_matmul_patch_flag is set;
    [aspect] = a chunk is too long on some process. *)
Inductive algorithm := A_irreg | A_shmem | A_regular.
Definition dgemm_algorithm (irr aspect : bool) (nodes m n : Z) (dc : list Z) : option algorithm :=
  do d1 <- zget dc 0; do d2 <- zget dc 1;
  Some (if irr || negb (d1 =? m) || negb (d2 =? n) then A_irreg
        else if 1 <? nodes then (if aspect then A_irreg else A_regular)
        else A_shmem).

Definition same_group (a b : garray) : bool :=
  match ga_group a, ga_group b with
  | None, None => true
  | Some l, Some l' => if list_eq_dec Z.eq_dec l l' then true else false
  | _, _ => false
  end.
(** 821-1057 after the checks: [me] = pnga_pgroup_nodeid of the group, [nproc] =
    pnga_nnodes().  1509-1523 and 872: C is scaled, or filled when beta is 0. *)
Definition dgemm_irreg fuel guess near wn smp rnda rndb rndc nproc (I J K : Z) (oa ob : mop) (alpha : V) (a b c : garray) (ma mb : heap V)
           (ax bx cx : Z * Z * Z * Z) (me : Z) : option (list place * list (buffer V * (place * Z))) :=
  do ok <- dgemm_checks oa ob (dims (ga_desc a)) (dims (ga_desc b)) (dims (ga_desc c)) ax bx cx;
  if negb (same_group a b && same_group a c && ok) then None
  else
    let pl x ds := let '(ilo, ihi, jlo, jhi) := x in Plane [ilo; jlo] [ihi; jhi] ds 0 1 in
    let pa := pl ax (dims (ga_desc a)) in let pb := pl bx (dims (ga_desc b)) in let pc := pl cx (dims (ga_desc c)) in
    do cells <- patch_cells fuel guess near wn c me (pl_lo pc) (pl_hi pc);
    do es <- irreg_loop radd rmul zero conj junk fuel guess wn smp rnda rndb rndc oa ob alpha a b c pa pb pc ma mb nproc me (I * K) (K * J)
               (chunks (rows ax) I) (chunks (cols ax) K) (chunks (cols bx) J);
    Some (cells, es).
(** 345-485 with DIRECT_ACCESS_OPT_FLAG off (1406); [me] = pnga_nodeid(); C is scaled
    (1523) unless beta is 0. *)
Definition dgemm_shmem fuel guess near wn smp rnda rndb rndc (I J K : Z) (oa ob : mop) (alpha : V) (zb : bool) (a b c : garray) (ma mb : heap V)
           (ax bx cx : Z * Z * Z * Z) (me : Z) : option (list place * list (tagged (V := V))) :=
  do ok <- dgemm_checks oa ob (dims (ga_desc a)) (dims (ga_desc b)) (dims (ga_desc c)) ax bx cx;
  if negb (same_group a b && same_group a c && ok) then None
  else
    let pl x ds := let '(ilo, ihi, jlo, jhi) := x in Plane [ilo; jlo] [ihi; jhi] ds 0 1 in
    let pa := pl ax (dims (ga_desc a)) in let pb := pl bx (dims (ga_desc b)) in let pc := pl cx (dims (ga_desc c)) in
    do cells <- (if zb then Some [] else patch_cells fuel guess near wn c me (pl_lo pc) (pl_hi pc));
    do d <- distribution (ga_desc c) me;
    do l0 <- zget (fst d) 0; do l1 <- zget (fst d) 1; do h0 <- zget (snd d) 0; do h1 <- zget (snd d) 1;
    do es <- shm_cols radd rmul zero conj junk fuel guess wn smp rnda rndb rndc oa ob alpha a b c pa pb pc ma mb (I * K) (K * J)
               zb (chunks_from (l0 - 1) (h0 - 1) I) (chunks (cols ax) K) (chunks_from (l1 - 1) (h1 - 1) J) 0;
    Some (cells, es).
(** 569-817; the patch of C is the whole array.  A map-distributed C, for which
    alone this is called (1412-1436), has at most one local block (638). *)
Definition dgemm_regular fuel guess near wn smp rnda rndb rndc (I J K : Z) (oa ob : mop) (alpha : V) (zb : bool) (a b c : garray) (ma mb : heap V)
           (ax bx cx : Z * Z * Z * Z) (me : Z) : option (list place * list (tagged (V := V))) :=
  do ok <- dgemm_checks oa ob (dims (ga_desc a)) (dims (ga_desc b)) (dims (ga_desc c)) ax bx cx;
  if negb (same_group a b && same_group a c && ok) then None
  else
    let pl x ds := let '(ilo, ihi, jlo, jhi) := x in Plane [ilo; jlo] [ihi; jhi] ds 0 1 in
    let pa := pl ax (dims (ga_desc a)) in let pb := pl bx (dims (ga_desc b)) in let pc := pl cx (dims (ga_desc c)) in
    do cells <- (if zb then Some [] else patch_cells fuel guess near wn c me (pl_lo pc) (pl_hi pc));
    do ps <- local_iterate fuel guess near wn c me;
    match ps with
    | [] => Some (cells, [])
    | [q] =>
        match patch_intersect (pl_lo pc) (pl_hi pc) (lp_lo q) (lp_hi q) with
        | None => Some (cells, [])
        | Some d =>
            do l0 <- zget (fst d) 0; do l1 <- zget (fst d) 1; do h0 <- zget (snd d) 0; do h1 <- zget (snd d) 1;
            do es <- reg_block radd rmul zero conj junk fuel guess wn smp rnda rndb rndc oa ob alpha a b c pa pb pc ma mb (I * K) (K * J)
                       zb (chunks_from (l0 - 1) (h0 - 1) I) (chunks (cols ax) K) (chunks_from (l1 - 1) (h1 - 1) J);
            Some (cells, es)
        end
    | _ => None
    end.
End Dgemm.
