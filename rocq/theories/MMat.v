(** Model of GA_Matmul_patch: /repo/global/src/matmul.c 1920-2013
    [gai_setup_2d_patch], 2024-2369 [gai_matmul_patch], 2390-2397
    [pnga_matmul_patch].  The result of a process is the list of the cells of C
    it scales (or fills) and, after the synchronisation that ends
    pnga_scale_patch or pnga_fill_patch, the list of its element accumulates.
    [None] = pnga_error or undefined behaviour.
    The values of A and B are read from the memories [ma] and [mb], which do not
    change: C is another array.  Simplifications: malloc does not fail (USE_GA_MALLOC
    is off); the three parts of the buffer are arrays of the sizes Ichunk*Kchunk,
    Kchunk*Jchunk and Ichunk*Jchunk after a check that they fit; Integer is unbounded; BLAS gemm computes exactly
    alpha op(A) op(B) + C in the given arithmetic; "not enough memory", which is
    reported by process 0, stops all; mirrored arrays are not modelled. *)
From Verif Require Export SpecMat MPw.
From Verif Require Import SpecDiag.

Definition is_n (o : mop) : bool := match o with opN => true | _ => false end.

(** 1920-2013; [n] = trans is NULL or 'n'; vec_idx = -1.  Positions of rows and
    columns, and of an ambiguous vector. *)
Definition setup_2d (n : bool) (lo hi : list Z) : option (Z * Z * Z) :=
  let rank := Z.of_nat (length lo) in
  let ps := map snd (filter (fun p => fst (fst p) <? snd (fst p)) (combine (combine lo hi) (counts rank))) in
  match ps with
  | [] => Some (0, 1, -1)
  | [i] =>
      let v := if (i =? 0) || (i =? rank - 1) then -1 else i in
      if n then let i' := if i =? rank - 1 then i - 1 else i in Some (i', i' + 1, v)
      else if i =? 0 then Some (0, 1, v) else Some (i - 1, i, v)
  | [i; j] => Some (i, j, -1)
  | _ => None
  end.

(** A plane of an array: the patch and the positions of its rows and columns. *)
Record plane := Plane { pl_lo : list Z; pl_hi : list Z; pl_dims : list Z; pl_i : Z; pl_j : Z }.
(** ilo, ihi, jlo, jhi *)
Definition plane_box (p : plane) : option (Z * Z * Z * Z) :=
  do a <- zget (pl_lo p) (pl_i p); do b <- zget (pl_hi p) (pl_i p); do c <- zget (pl_lo p) (pl_j p); do d <- zget (pl_hi p) (pl_j p);
  Some (a, b, c, d).
Definition rows (x : Z * Z * Z * Z) : Z := snd (fst (fst x)) - fst (fst (fst x)) + 1.
Definition cols (x : Z * Z * Z * Z) : Z := snd x - snd (fst x) + 1.
(** 2133-2143 [SHIFT] with -1. *)
Definition shift_plane (p : plane) : plane := Plane (pl_lo p) (pl_hi p) (pl_dims p) (pl_i p - 1) (pl_j p - 1).
(** 2105-2121 *)
Definition plane_range (o : mop) (p : plane) : option bool :=
  do x <- plane_box p; do d1 <- zget (pl_dims p) (pl_i p); do d2 <- zget (pl_dims p) (pl_j p);
  let '(ilo, ihi, jlo, jhi) := x in
  let (e1, e2) := if is_n o then (d1, d2) else (d2, d1) in
  Some (negb ((ilo <=? 0) || (e1 <? ihi) || (jlo <=? 0) || (e2 <? jhi))).
(** 2144-2193: resolve ambiguous vectors; the three planes if the shapes agree. *)
Definition match_planes (pa pb pc : plane) (av bv cv : Z) : option (plane * plane * plane) :=
  let fits p q r :=
    do x <- plane_box p; do y <- plane_box q; do z <- plane_box r;
    Some ((rows x =? rows z) && (cols x =? rows y) && (cols y =? cols z)) in
  do ok <- fits pa pb pc;
  let amb v := 0 <=? v in
  do r <-
    (if ok then Some (pa, pb, pc)
     else match amb av, amb bv, amb cv with
          | true, false, false => Some (shift_plane pa, pb, pc)
          | false, true, false => Some (pa, shift_plane pb, pc)
          | false, false, true => Some (pa, pb, shift_plane pc)
          | true, true, false =>
              do x <- plane_box pa; do y <- plane_box pb; do z <- plane_box pc;
              Some (if rows x =? rows z then pa else shift_plane pa, if cols y =? cols z then pb else shift_plane pb, pc)
          | true, false, true =>
              do x <- plane_box pa; do y <- plane_box pb; do z <- plane_box pc;
              Some (if cols x =? rows y then pa else shift_plane pa, pb, if cols y =? cols z then pc else shift_plane pc)
          | false, true, true =>
              do x <- plane_box pa; do y <- plane_box pb; do z <- plane_box pc;
              Some (pa, if cols x =? rows y then pb else shift_plane pb, if rows x =? rows z then pc else shift_plane pc)
          | true, true, true => None
          | false, false, false => Some (pa, pb, pc)
          end);
  do ok' <- fits (fst (fst r)) (snd (fst r)) (snd r);
  if ok' then Some r else None.

(** 2242-2261: the chunks (first, last) of a range of [n] in steps of [c]. *)
Fixpoint chunk_loop (fuel : nat) (lo n c : Z) : list (Z * Z) :=
  match fuel with
  | O => []
  | S f => if lo <? n then (lo, Z.min (n - 1) (lo + c - 1)) :: chunk_loop f (lo + c) n c else []
  end.
Definition chunks (n c : Z) : list (Z * Z) := chunk_loop (Z.to_nat n) 0 n c.
Definition len (r : Z * Z) : Z := snd r - fst r + 1.

(** GAsizeofM (base.c 211-225), for the types of 2093. *)
Definition elt_bytes (t : elt) : option Z :=
  match t with E_flt => Some 4 | E_dbl => Some 8 | E_scpl => Some 8 | E_dcpl => Some 16 | _ => None end.
(** 2195-2224: Ichunk, Jchunk, Kchunk and elems, the number of elements of the
    one buffer; [cube a b] = (Integer)pow(a/b,1/3), [root] = (Integer)sqrt;
    CHUNK_SIZE 256, MINMEM 64, EXTRA 4 (matmul.h). *)
Definition patch_chunks (cube : Z -> Z -> Z) (root : Z -> Z) (bytes avail m n k nproc : Z) : option (Z * Z * Z * Z) :=
  let max_chunk := Z.max 32 (cube (k * (m * n)) (10 * nproc)) in
  if 256 <? max_chunk then
    if avail <? 64 then None
    else
      let elems := avail * 9 / 10 in
      let mc := Z.min max_chunk (root ((elems - 4) / 3)) in
      Some (Z.min m mc, Z.min n mc, Z.min k mc, elems)
  else Some (256, 256, 256, 3 * 256 * 256 + 4 * (16 / bytes)).
(** 2226-2228 and base.c 227-234 [pnga_malloc]: the bytes of the parts a, b and c
    do not overlap and end in the buffer. *)
Definition buffers_fit (bytes I J K elems : Z) : bool :=
  let factor := 16 / bytes in
  let b := 16 * ((I * K) / factor + 1) in
  let c := b + 16 * ((K * J) / factor + 1) in
  (bytes * (I * K) <=? b) && (b + bytes * (K * J) <=? c) && (c + bytes * (I * J) <=? bytes * elems).

Section Loops.
Context {V : Type} (radd rmul : V -> V -> V) (zero : V) (conj : V -> V) (junk : V).

(** A buffer of [n] elements with any content. *)
Definition fresh (n : Z) : buffer V := fun t => if (0 <=? t) && (t <? n) then Some junk else None.
Definition cj (o : mop) (v : V) : V := match o with opC => conj v | _ => v end.

(** BLAS gemm: element (i,j) of alpha op(A) op(B). *)
Definition gemm_at (oa ob : mop) (alpha : V) (a b : buffer V) (adim bdim kdim i j : Z) : option V :=
  do vs <- mapM (fun l => do x <- a (if is_n oa then i + l * adim else l + i * adim);
                          do y <- b (if is_n ob then l + j * bdim else j + l * bdim);
                          Some (rmul (cj oa x) (cj ob y))) (counts kdim);
  Some (rmul alpha (fold_left radd vs zero)).
(** As a buffer with leading dimension idim. *)
Definition gemm_buf (oa ob : mop) (alpha : V) (idim jdim kdim : Z) (a : buffer V) (adim : Z) (b : buffer V) (bdim : Z) : buffer V :=
  fun t => if (0 <=? t) && (t <? idim * jdim) then gemm_at oa ob alpha a b adim bdim kdim (t mod idim) (t / idim) else None.
(** The result with beta 1 on a buffer that is 0. *)
Definition gemm (oa ob : mop) (alpha : V) (idim jdim kdim : Z) (a : buffer V) (adim : Z) (b : buffer V) (bdim : Z) : buffer V :=
  fun t => do v <- gemm_buf oa ob alpha idim jdim kdim a adim b bdim t; Some (radd zero v).

(** tmplo[ipos] = i, tmplo[jpos] = j *)
Definition set2 (l : list Z) (p : plane) (u v : Z) : option (list Z) := do l1 <- zset l (pl_i p) u; zset l1 (pl_j p) v.
Definition plane_region (p : plane) (i0 i1 j0 j1 : Z) : option (list Z * list Z * list Z) :=
  do lo <- set2 (pl_lo p) p i0 j0; do hi <- set2 (pl_hi p) p i1 j1;
  do ld <- set2 (repeat 1 (length (pl_lo p))) p (i1 - i0 + 1) (j1 - j0 + 1);
  Some (lo, hi, ld).

(** 2270-2288, 2290-2310: the part of op(A) with rows [r] and columns [s] of the
    patch is fetched into a buffer of [size] elements; with its leading dimension. *)
Definition fetch fuel guess (rnd : Z -> Z) wn smp (o : mop) (a : garray) (p : plane) (m : heap V) (size : Z) (r s : Z * Z)
  : option (buffer V * Z) :=
  do x <- plane_box p;
  let '(ilo, _, jlo, _) := x in
  do g <- (if is_n o then plane_region p (ilo + fst r) (ilo + snd r) (jlo + fst s) (jlo + snd s)
           else plane_region p (jlo + fst s) (jlo + snd s) (ilo + fst r) (ilo + snd r));
  let '(lo, hi, ld) := g in
  do ts <- transfers fuel guess rnd wn smp a lo hi ld;
  do buf <- run_elems (get_elem m) (fresh size) ts;
  Some (buf, if is_n o then len r else len s).

Section Process.
Variables (fuel : nat) (guess : Z -> Z -> Z -> Z) (wn : Z) (smp : Z -> bool) (rnda rndb rndc : Z -> Z -> Z).
Variables (oa ob : mop) (alpha : V) (a b c : garray) (pa pb pc : plane) (ma mb : heap V) (nproc iproc sa sb : Z).

(** 2344-2357: the region of C. *)
Definition c_transfers (ijk : Z) (ic jc : Z * Z) : option (list (place * Z)) :=
  do x <- plane_box pc;
  let '(ilo, _, jlo, _) := x in
  do g <- plane_region pc (ilo + fst ic) (ilo + snd ic) (jlo + fst jc) (jlo + snd jc);
  let '(lo, hi, ld) := g in
  transfers fuel guess (rndc ijk) wn smp c lo hi ld.

(** 2252-2360: loop over rows; [bb] = the part of B, unless get_new_B. *)
Fixpoint row_loop (is : list (Z * Z)) (jc kc : Z * Z) (ijk : Z) (bb : option (buffer V * Z)) : option (list (buffer V * (place * Z))) :=
  match is with
  | [] => Some []
  | ic :: is' =>
      if ijk mod nproc =? iproc then
        do ab <- fetch fuel guess (rnda ijk) wn smp oa a pa ma sa ic kc;
        do b' <- match bb with Some x => Some x | None => fetch fuel guess (rndb ijk) wn smp ob b pb mb sb kc jc end;
        do ts <- c_transfers ijk ic jc;
        do r <- row_loop is' jc kc (ijk + 1) (Some b');
        let cb := gemm oa ob alpha (len ic) (len jc) (len kc) (fst ab) (snd ab) (fst b') (snd b') in
        Some (map (fun t => (cb, t)) ts ++ r)
      else row_loop is' jc kc (ijk + 1) bb
  end.
(** 2246-2361 *)
Fixpoint inner_loop (is ks : list (Z * Z)) (jc : Z * Z) (ijk : Z) : option (list (buffer V * (place * Z))) :=
  match ks with
  | [] => Some []
  | kc :: ks' =>
      do r <- row_loop is jc kc ijk None;
      do r' <- inner_loop is ks' jc (ijk + Z.of_nat (length is));
      Some (r ++ r')
  end.
(** 2242-2362 *)
Fixpoint col_loop (is ks js : list (Z * Z)) (ijk : Z) : option (list (buffer V * (place * Z))) :=
  match js with
  | [] => Some []
  | jc :: js' =>
      do r <- inner_loop is ks jc ijk;
      do r' <- col_loop is ks js' (ijk + Z.of_nat (length is * length ks));
      Some (r ++ r')
  end.
End Process.

(** 2063-2369 for arrays none of which is block-distributed (2063-2068); [me] =
    pnga_nodeid() and [nproc] = pnga_nnodes().  2232-2240: beta 0 fills. *)
Definition matmul_patch fuel guess near wn smp rnda rndb rndc cube root avail nproc (t : elt) (oa ob : mop) (alpha : V) (a b c : garray) (ma mb : heap V)
           (alo ahi blo bhi clo chi : list Z) (me : Z) : option (list place * list (buffer V * (place * Z))) :=
  let regular x := match distr_type (ga_desc x) with REGULAR => true | _ => false end in
  if negb (regular a && regular b && regular c) then None
  else if negb ((2 <=? length (dims (ga_desc a))) && (2 <=? length (dims (ga_desc b))) && (2 <=? length (dims (ga_desc c))))%nat then None
  else
    do bytes <- elt_bytes t;
    do sa <- setup_2d (is_n oa) alo ahi; do sb <- setup_2d (is_n ob) blo bhi; do sc <- setup_2d true clo chi;
    let '(ai, aj, av) := sa in let '(bi, bj, bv) := sb in let '(ci, cj, cv) := sc in
    let pa := Plane alo ahi (dims (ga_desc a)) ai aj in let pb := Plane blo bhi (dims (ga_desc b)) bi bj in
    let pc := Plane clo chi (dims (ga_desc c)) ci cj in
    do ra <- plane_range oa pa; do rb <- plane_range ob pb; do rc <- plane_range opN pc;
    if negb (ra && rb && rc) then None
    else
      do pls <- match_planes pa pb pc av bv cv;
      let '(pa', pb', pc') := pls in
      do x <- plane_box pa'; do y <- plane_box pb';
      do ch <- patch_chunks cube root bytes avail (rows x) (cols y) (cols x) nproc;
      let '(ich, jch, kch, elems) := ch in
      if negb (buffers_fit bytes ich jch kch elems) then None else
      do cells <- patch_cells fuel guess near wn c me clo chi;
      do es <- col_loop fuel guess wn smp rnda rndb rndc oa ob alpha a b c pa' pb' pc' ma mb nproc me (ich * kch) (kch * jch)
                 (chunks (rows x) ich) (chunks (cols x) kch) (chunks (cols y) jch) 0;
      Some (cells, es).

(** ---- 2572-2794 [pnga_matmul_basic], when an array is block-distributed ---- *)
(** 2597-2599: 't' is refused; 'c' is not, and goes to BLAS with the buffers of
    the untransposed operand. *)
Definition is_t (o : mop) : bool := match o with opT => true | _ => false end.
(** 2619-2662 *)
Definition basic_checks (da db dc alo ahi blo bhi clo chi : list Z) : bool :=
  let inb ds l := forallb (fun p => (0 <? fst p) && (fst p <=? snd p)) (combine l ds) in
  let le l h := forallb (fun p => fst p <=? snd p) (combine l h) in
  let ext l h i := nth i h 0 - nth i l 0 + 1 in
  (inb da alo && inb da ahi && inb db blo && inb db bhi && inb dc clo && inb dc chi && le alo ahi && le blo bhi && le clo chi &&
   (ext alo ahi 1%nat =? ext blo bhi 0%nat) && (ext alo ahi 0%nat =? ext clo chi 0%nat) && (ext blo bhi 1%nat =? ext clo chi 1%nat))%bool.

Section Basic.
Variables (fuel : nat) (guess : Z -> Z -> Z -> Z) (wn : Z) (smp : Z -> bool) (rnda rndb : list Z -> Z -> Z -> Z).
Variables (oa ob : mop) (alpha : V) (a b : garray) (ma mb : heap V) (alo ahi blo bhi clo : list Z).

(** 2703-2784: one pair of blocks; [q] = block of C, [nb] the loop counter.  The
    block of C is intersected with itself (2680), not with the patch: lot = loC,
    hit = hiC, offset = 0. *)
Definition basic_pair (q : lpiece) (num istart nb : Z) : option (list (buffer V * (place * Z))) :=
  do l0 <- zget (lp_lo q) 0; do l1 <- zget (lp_lo q) 1; do h0 <- zget (lp_hi q) 0; do h1 <- zget (lp_hi q) 1; do ld <- zget (lp_ld q) 0;
  do a1 <- zget alo 1; do ah1 <- zget ahi 1; do b0 <- zget blo 0; do bh0 <- zget bhi 0;
  do i <- cmod (istart + nb) num;
  let r := h0 - l0 + 1 in
  let size := r * (h1 - l1 + 1) in
  let na := a1 + i * r in let na' := Z.min ah1 (na + (h0 - l0)) in
  let nb' := b0 + i * r in let nb'' := Z.min bh0 (nb' + (h0 - l0)) in
  do ta <- transfers fuel guess (rnda (lp_lo q) nb) wn smp a [l0; na] [h0; na'] [r];
  do bufa <- run_elems (get_elem ma) (fresh size) ta;
  do tb <- transfers fuel guess (rndb (lp_lo q) nb) wn smp b [nb'; l1] [nb''; h1] [nb'' - nb' + 1];
  do bufb <- run_elems (get_elem mb) (fresh size) tb;
  let g := gemm_buf oa ob alpha r (h1 - l1 + 1) (na' - na + 1) bufa r bufb (nb'' - nb' + 1) in
  Some (flat_map (fun j => map (fun i => (g, ((lp_seg q, lp_off q + (i + ld * j)), i + j * r))) (counts r)) (counts (h1 - l1 + 1))).
(** 2683-2701 *)
Definition basic_block (q : lpiece) : option (list (buffer V * (place * Z))) :=
  do l0 <- zget (lp_lo q) 0; do h0 <- zget (lp_hi q) 0; do a1 <- zget alo 1; do ah1 <- zget ahi 1; do c0 <- zget clo 0;
  let k := ah1 - a1 + 1 in
  do n <- cdiv k (h0 - l0 + 1);
  let num := if n * (h0 - l0 + 1) <? k then n + 1 else n in
  do istart <- cdiv (l0 - c0) (h0 - l0 + 1);
  do ls <- mapM (basic_pair q num istart) (counts num);
  Some (concat ls).
End Basic.

(** The cells scaled by beta (2665) and then the additions to C, which every
    process makes in its own memory. *)
Definition matmul_basic fuel guess near wn smp rnda rndb (oa ob : mop) (alpha : V) (a b c : garray) (ma mb : heap V)
           (alo ahi blo bhi clo chi : list Z) (me : Z) : option (list place * list (buffer V * (place * Z))) :=
  let two x := (length (dims (ga_desc x)) =? 2)%nat in
  if is_t oa || is_t ob then None
  else if negb (two a && two b && two c) then None
  else if negb (basic_checks (dims (ga_desc a)) (dims (ga_desc b)) (dims (ga_desc c)) alo ahi blo bhi clo chi) then None
  else
    do cells <- patch_cells fuel guess near wn c me clo chi;
    do ps <- local_iterate fuel guess near wn c me;
    do ls <- mapM (basic_block fuel guess wn smp rnda rndb oa ob alpha a b ma mb alo ahi blo bhi clo) ps;
    Some (cells, concat ls).
End Loops.

(** 2232-2240: what happens to the cells of C first. *)
Definition code_beta {V} (rmul : V -> V -> V) (is_zero : V -> bool) (beta v : V) : V := if is_zero beta then beta else rmul beta v.
