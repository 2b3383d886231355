(** Model of /repo/global/src/sparse.array.c: pnga_sprs_array_add_element,
    pnga_sprs_array_assemble, pnga_sprs_array_row_distribution,
    pnga_sprs_array_column_distribution, pnga_sprs_array_access_col_block and
    pnga_sprs_array_matvec_multiply.
    Simplifications: the matrix is on the world group, process [p] is the number
    [p] below [nproc]; the buffers idx, jdx and val (and the arrays g_i, g_j and
    g_data while they have the same layout) are one buffer of triples; the
    buffers grow as needed (191-221), so what a process added is a list; integers
    are unbounded, hence the two index sizes are the same; pnga_put and pnga_get
    write and read exactly the elements of their range (C18, C19), pnga_read_inc
    is atomic (C24) and the order of the calls of different processes is a
    parameter; local parts of the arrays are the ranges given by the map
    (C01, C15); arrays written at consecutive places are lists to which elements
    are appended; SPA[].max_nnz and g_blk are left out.  [Undef] is access
    outside of an array or use of memory that has not been written; [Abort] is
    pnga_error. *)
From Verif Require Export SpecSprs MBase.
From Verif Require Export MNb MHandle MGroup.
From Verif Require Import MSparse.

(** sparse.array.c 616-622, 792-798, 900-906, 938-944: the two loops. *)
Fixpoint up_while (fuel : nat) (f : Z -> Z) (t l : Z) : out Z :=
  match fuel with O => Undef | S k => if f l <? t then up_while k f t (l + 1) else Done l end.
Fixpoint down_while (fuel : nat) (f : Z -> Z) (t l : Z) : out Z :=
  match fuel with O => Undef | S k => if t <? f l then down_while k f t (l - 1) else Done l end.
Definition scaled (n d l : Z) : Z := Z.quot (l * n) d.
Definition low_limit (fuel : nat) (n d p : Z) : out Z :=
  try a <- up_while fuel (scaled n d) p (Z.quot (d * p) n);
  down_while fuel (scaled n d) p a.
(** 616-625 *)
Definition own_low (fuel : nat) (n d p : Z) : out Z :=
  try a <- low_limit fuel n d p;
  Done (if scaled n d a =? p then a else a + 1).
(** 626-637, 907-917, 945-955 *)
Definition high_limit (fuel : nat) (n d p : Z) : out Z :=
  if p <? n - 1 then try a <- low_limit fuel n d (p + 1); Done (a - 1) else Done (d - 1).
(** 932-956 [pnga_sprs_array_column_distribution] *)
Definition column_distribution (fuel : nat) (n d p : Z) : out (Z * Z) :=
  try lo <- low_limit fuel n d p; try hi <- high_limit fuel n d p; Done (lo, hi).
(** 889-919 [pnga_sprs_array_row_distribution] called by process [me]; ilo and ihi
    are set by 616-637. *)
Definition row_distribution (fuel : nat) (n d me p : Z) : out (Z * Z) :=
  if p =? me then try lo <- own_low fuel n d p; try hi <- high_limit fuel n d p; Done (lo, hi)
  else column_distribution fuel n d p.

(** 326-327, 524-525, 533-534: the process or column block of an index. *)
Definition owner (n d x : Z) : Z := let q := Z.quot (x * n) d in if n <=? q then n - 1 else q.

(** 318-331, 513-537, 691-706: count, top and list (a linked list per bin). *)
Record bins := Bins { b_count : Z -> Z; b_top : Z -> Z; b_next : Z -> Z }.
Definition no_bins : bins := Bins (fun _ => 0) (fun _ => -1) (fun _ => 0).
Definition bin_one (nb k i : Z) (b : bins) : out bins :=
  if (0 <=? k) && (k <? nb) then
    Done (Bins (fset (b_count b) k (b_count b k + 1)) (fset (b_top b) k i) (fset (b_next b) i (b_top b k)))
  else Undef.
Fixpoint bin_all (nb : Z) (keys : list Z) (i : Z) (b : bins) : out bins :=
  match keys with [] => Done b | k :: r => try b1 <- bin_one nb k i b; bin_all nb r (i + 1) b1 end.
(** 458-476, 576-606, 714-723, 750-759: the elements of a linked list. *)
Fixpoint walk {A} (fuel : nat) (buf : list A) (next : Z -> Z) (j : Z) : out (list A) :=
  if 0 <=? j then
    match fuel with
    | O => Undef
    | S k => match nth_error buf (Z.to_nat j) with
             | Some a => try l <- walk k buf next (next j); Done (a :: l)
             | None => Undef
             end
    end
  else Done [].

Section Assemble.
Context {V : Type}.
Variables (fuel : nat) (n idim jdim : Z) (els : Z -> list (elt V)).

(** 318-331 on process [q]. *)
Definition sort_out (q : Z) : out bins := bin_all n (map (fun e => owner n idim (erow e)) (els q)) 0 no_bins.
Definition bins_of (bs : list bins) (q : Z) : bins := nth (Z.to_nat q) bs no_bins.
Definition cnt (bs : list bins) (q p : Z) : Z := b_count (bins_of bs q) p.
(** 380-391: the calls of pnga_read_inc in the order of [o]; the counters and what
    process [q] got for process [p]. *)
Fixpoint read_offsets (bs : list bins) (o : list (Z * Z)) (ctr : Z -> Z) (off : Z -> Z -> Z) : (Z -> Z) * (Z -> Z -> Z) :=
  match o with
  | [] => (ctr, off)
  | (q, p) :: o' =>
      if 0 <? cnt bs q p then
        read_offsets bs o' (fset ctr p (ctr p + cnt bs q p)) (fun q' p' => if (q' =? q) && (p' =? p) then ctr p else off q' p')
      else read_offsets bs o' ctr off
  end.
(** 402-409: map and totalvals. *)
Definition starts (size : Z -> Z) (p : Z) : Z := 1 + zsum (map size (zseq 0 (Z.to_nat p))).
Definition total_of (size : Z -> Z) : Z := zsum (map size (zseq 0 (Z.to_nat n))).
Fixpoint put_from {A} (m : Z -> option A) (x : Z) (l : list A) : Z -> option A :=
  match l with [] => m | a :: r => put_from (fset m x (Some a)) (x + 1) r end.
(** 439-499: process [q] sends to process [p]; the buffers have count elements. *)
Definition send_one (bs : list bins) (size : Z -> Z) (off : Z -> Z -> Z) (q p : Z) (m : Z -> option (elt V))
  : out (Z -> option (elt V)) :=
  if 0 <? cnt bs q p then
    let b := bins_of bs q in
    try buf <- walk (length (els q)) (els q) (b_next b) (b_top b p);
    if Z.of_nat (length buf) =? cnt bs q p then
      let lo := starts size p + off q p in
      let hi := lo + cnt bs q p - 1 in
      if lo <=? hi then if (1 <=? lo) && (hi <=? total_of size) then Done (put_from m lo buf) else Abort
      else Done m
    else Undef
  else Done m.
Fixpoint send_all (bs : list bins) (size : Z -> Z) (off : Z -> Z -> Z) (o : list (Z * Z)) (m : Z -> option (elt V))
  : out (Z -> option (elt V)) :=
  match o with [] => Done m | (q, p) :: o' => try m1 <- send_one bs size off q p m; send_all bs size off o' m1 end.
(** 507-563: the local part. *)
Definition local_part (size : Z -> Z) (m : Z -> option (elt V)) (p : Z) : out (list (elt V)) :=
  match all_some (map (fun k => m (starts size p + k)) (zseq 0 (Z.to_nat (size p)))) with Some l => Done l | None => Undef end.

(** 570-608: the column blocks with data. *)
Fixpoint col_blocks (loc : list (elt V)) (b : bins) (cs : list Z) : out (list (Z * list (elt V))) :=
  match cs with
  | [] => Done []
  | c :: r =>
      if 0 <=? b_top b c then
        try l <- walk (length loc) loc (b_next b) (b_top b c);
        try t <- col_blocks loc b r;
        Done ((c, l) :: t)
      else col_blocks loc b r
  end.
(** 711-762: the rows of a block; [icnt] elements are before these rows.  If there
    are none at all, element [nrows] of the offsets is not written (732, 762). *)
Fixpoint row_loop (blk : list (elt V)) (b : bins) (rows : list Z) (icnt : Z) : out (list Z * list (elt V)) :=
  match rows with
  | [] => if 0 <? icnt then Done ([icnt], []) else Undef
  | r :: rs =>
      try l <- walk (length blk) blk (b_next b) (b_top b r);
      try (ii, es) <- row_loop blk b rs (icnt + Z.of_nat (length l));
      Done (icnt :: ii, l ++ es)
  end.
(** 687-767 *)
Definition block_rows (ilo nrows : Z) (blk : list (elt V)) : out (list Z * list (elt V)) :=
  try b <- bin_all nrows (map (fun e => erow e - ilo) blk) 0 no_bins;
  row_loop blk b (zseq 0 (Z.to_nat nrows)) 0.
Fixpoint all_blocks (ilo nrows : Z) (blks : list (Z * list (elt V))) : out (list Z * list (elt V)) :=
  match blks with
  | [] => Done ([], [])
  | cb :: r =>
      try (ii, es) <- block_rows ilo nrows (snd cb);
      if (length es =? length (snd cb))%nat then
        try (ii', es') <- all_blocks ilo nrows r;
        Done (ii ++ ii', es ++ es')
      else Undef
  end.
(** 766-767: SPA[].offset. *)
Fixpoint offsets_from (x : Z) (sizes : list Z) : list Z :=
  match sizes with [] => [] | s :: r => x :: offsets_from (x + s) r end.

(** ga_sparse.array.h: what is on one process. *)
Record sprs := Sprs { s_ilo : Z; s_ihi : Z; s_blk : list Z; s_off : list Z; s_i : list Z; s_j : list Z; s_v : list V }.
(** 507-637, 682-767 on process [p] with local elements [loc]. *)
Definition arrange (p : Z) (loc : list (elt V)) : out sprs :=
  try b <- bin_all n (map (fun e => owner n jdim (ecol e)) loc) 0 no_bins;
  try blks <- col_blocks loc b (zseq 0 (Z.to_nat n));
  let ncnt := length (filter (fun c => 0 <? b_count b c) (zseq 0 (Z.to_nat n))) in
  if (length blks =? ncnt)%nat && (length (flat_map snd blks) <=? length loc)%nat then
    try ilo <- own_low fuel n idim p;
    try ihi <- high_limit fuel n idim p;
    try (ii, es) <- all_blocks ilo (ihi - ilo + 1) blks;
    Done (Sprs ilo ihi (map fst blks) (offsets_from 0 (map (fun cb => Z.of_nat (length (snd cb))) blks)) ii (map ecol es) (map evalue es))
  else Undef.
(** 267-875 [pnga_sprs_array_assemble] by all processes; [o] and [o'] are the orders
    of the pnga_read_inc and of the pnga_put.  base.c 1739-1741: an array with
    fewer elements than processes is an error (415, 424, 436, 664). *)
Definition assemble (o o' : list (Z * Z)) : out (list sprs) :=
  try bs <- collect sort_out (zseq 0 (Z.to_nat n));
  let (size, off) := read_offsets bs o (fun _ => 0) (fun _ _ => 0) in
  if total_of size <? n then Abort else
  try m <- send_all bs size off o' (fun _ => None);
  try ss <- collect (fun p => try loc <- local_part size m p; arrange p loc) (zseq 0 (Z.to_nat n));
  if zsum (map (fun s => (s_ihi s - s_ilo s + 1 + 1) * Z.of_nat (length (s_blk s))) ss) <? n then Abort else
  Done ss.
End Assemble.
Arguments sprs V : clear implicits.

(** 1008-1014: the place of column block [c]. *)
Fixpoint find_block (l : list Z) (c : Z) (k : Z) : option Z :=
  match l with [] => None | x :: r => if x =? c then Some k else find_block r c (k + 1) end.
Definition rdl {A} (l : list A) (x : Z) : out A :=
  if 0 <=? x then match nth_error l (Z.to_nat x) with Some a => Done a | None => Undef end else Undef.
(** The three pointers. *)
Record view V := View { v_i : Z -> out Z; v_j : Z -> out Z; v_v : Z -> out V }.
Arguments View {V}. Arguments v_i {V}. Arguments v_j {V}. Arguments v_v {V}.
(** 995-1067 [pnga_sprs_array_access_col_block]; None is NULL. *)
Definition access_col_block {V} (s : sprs V) (c : Z) : out (option (view V)) :=
  match find_block (s_blk s) c 0 with
  | None => Done None
  | Some k =>
      try off <- rdl (s_off s) k;
      let ld := s_ihi s - s_ilo s + 2 in
      Done (Some (View (fun x => rdl (s_i s) (ld * k + x)) (fun x => rdl (s_j s) (off + x)) (fun x => rdl (s_v s) (off + x))))
  end.
(** The loop by which row [i] of a block is read (1206-1211, 1649-1652): columns
    and values. *)
Definition read_row {V} (s : sprs V) (w : view V) (i : Z) : out (list (Z * V)) :=
  try a <- v_i w (i - s_ilo s);
  try b <- v_i w (i + 1 - s_ilo s);
  collect (fun k => try j <- v_j w (a + k); try x <- v_v w (a + k); Done (j, x)) (zseq 0 (Z.to_nat (b - a))).
Definition block_row {V} (s : sprs V) (c i : Z) : out (list (Z * V)) :=
  try w <- access_col_block s c;
  match w with None => Done [] | Some w => read_row s w i end.

(** The elements iptr[i-ilo] .. iptr[i+1-ilo]-1 of the local values that row [i] of a
    block takes up, counted from the first local value (1021-1066). *)
Definition row_place {V} (s : sprs V) (c i : Z) : out (option (Z * Z)) :=
  match find_block (s_blk s) c 0 with
  | None => Done None
  | Some k =>
      try off <- rdl (s_off s) k;
      let ld := s_ihi s - s_ilo s + 2 in
      try a <- rdl (s_i s) (ld * k + (i - s_ilo s));
      try b <- rdl (s_i s) (ld * k + (i + 1 - s_ilo s));
      Done (Some (off + a, off + b))
  end.

Section Matvec.
Context {V : Type}.
Variables (cplx : bool) (fuel : nat) (n jdim : Z) (add mul : V -> V -> V) (zero alpha : V).

(** 1206-1211: one row; [buf] has [len] elements. *)
Fixpoint dot_loop (buf : Z -> V) (len jlo : Z) (l : list (Z * V)) (sum : V) : out V :=
  match l with
  | [] => Done sum
  | (j, x) :: r => if (0 <=? j - jlo) && (j - jlo <? len) then dot_loop buf len jlo r (add sum (mul x (buf (j - jlo)))) else Undef
  end.
(** 1232-1241: the row in SPRS_COMPLEX_MULTIPLY_M, starting at offset [a]: the matrix
    element is read from _buf, and _sum is assigned. *)
Fixpoint cdot_loop (buf : Z -> V) (len jlo a : Z) (l : list (Z * V)) (sum : V) : out V :=
  match l with
  | [] => Done sum
  | (j, x) :: r =>
      if (0 <=? j - jlo) && (j - jlo <? len) && (0 <=? a) && (a <? len)
      then cdot_loop buf len jlo (a + 1) r (mul (buf a) (buf (j - jlo))) else Undef
  end.
(** 1192-1214 SPRS_REAL_MULTIPLY_M, 1216-1244 SPRS_COMPLEX_MULTIPLY_M. *)
Fixpoint mv_rows (s : sprs V) (w : view V) (buf : Z -> V) (len jlo : Z) (rows : list Z) (sum : Z -> V) : out (Z -> V) :=
  match rows with
  | [] => Done sum
  | i :: r =>
      try l <- read_row s w i;
      try t <- (if cplx then try a <- v_i w (i - s_ilo s); cdot_loop buf len jlo a l (sum i) else dot_loop buf len jlo l (sum i));
      mv_rows s w buf len jlo r (fset sum i t)
  end.
(** 1252-1294: the loop over the column blocks; None is the memory from malloc. *)
Fixpoint mv_blocks (s : sprs V) (x : Z -> V) (cs : list Z) (sum : option (Z -> V)) : out (option (Z -> V)) :=
  match cs with
  | [] => Done sum
  | c :: r =>
      try (jlo, jhi) <- column_distribution fuel n jdim c;
      try w <- access_col_block s c;
      match w with
      | None => mv_blocks s x r sum
      | Some w =>
          let sum0 := match sum with None => fun _ => zero | Some f => f end in
          if (0 <=? jlo) && (jlo <=? jhi) && (jhi <? jdim) then
            try f <- mv_rows s w (fun k => x (jlo + k)) (jhi - jlo + 1) jlo (zseq (s_ilo s) (Z.to_nat (s_ihi s - s_ilo s + 1))) sum0;
            mv_blocks s x r (Some f)
          else Abort
      end
  end.
(** 1250-1302 on one process; the vector has [vdim] elements.  [alpha] is what
    pnga_acc reads, as an element of the vectors, at the address of the double
    one_r (1158, 1299). *)
Definition matvec1 (vdim : Z) (x : Z -> V) (s : sprs V) (v : Z -> V) : out (Z -> V) :=
  try sum <- mv_blocks s x (zseq 0 (Z.to_nat n)) None;
  if s_ilo s <=? s_ihi s then
    match sum with
    | None => Undef
    | Some f => if (0 <=? s_ilo s) && (s_ihi s <? vdim)
                then Done (fun i => if (s_ilo s <=? i) && (i <=? s_ihi s) then add (v i) (mul alpha (f i)) else v i)
                else Abort
    end
  else Done v.
(** 1143-1305 [pnga_sprs_array_matvec_multiply]: [adim] and [vdim] are the lengths of
    the vectors; the processes in the order of [ps]. *)
Definition matvec (adim vdim : Z) (x : Z -> V) (ss : list (sprs V)) (ps : list Z) : out (Z -> V) :=
  if negb (adim =? jdim) then Abort else
  if negb (vdim =? jdim) then Abort else
  each (fun p v => match nth_error ss (Z.to_nat p) with Some s => matvec1 vdim x s v | None => Undef end) ps (fun _ => zero).
End Matvec.
(** 1158: the bytes of one_r, as an integer, and what is read there for C_INT and
    C_LONG on a machine with little-endian order. *)
Definition one_r_bits : Z := 1023 * 2 ^ 52.
Definition one_r_int : Z := one_r_bits mod 2 ^ 32.
Definition one_r_long : Z := one_r_bits.
