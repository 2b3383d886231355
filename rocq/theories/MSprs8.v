(** Model of /repo/global/src/sparse.array.c: the memory of sparse arrays on one process, from
    sai_init_sparse_arrays, pnga_sprs_array_create, pnga_sprs_array_add_element,
    pnga_sprs_array_assemble, pnga_sprs_array_duplicate, pnga_sprs_array_matmat_multiply,
    pnga_sprs_array_destroy and sai_terminate_sparse_arrays.
    Simplifications: only the fields of SPA[] that are named here; memory that a function
    gets and gives back itself is left out, and so are the global arrays; malloc succeeds, sizes count elements; a handle is the number of its entry.
    [Undef] is the use of memory that is not allocated, a second free, or an entry outside of
    the table; [Abort] is pnga_error. *)
From Verif Require Import MBase MNb MHandle MGroup MSparse.
From Verif Require Export SpecSprs6.
Open Scope Z_scope.

(** An allocated piece of memory: its number and its size. *)
Definition ptr := (Z * Z)%type.
Definition ptr_dec : forall a b : ptr, {a = b} + {a <> b}.
Proof. decide equality; apply Z.eq_dec. Defined.
Record mem := Mem { live : list ptr; fresh : Z }.
Definition malloc (size : Z) (m : mem) : ptr * mem := ((fresh m, size), Mem ((fresh m, size) :: live m) (fresh m + 1)).
Definition free (p : option ptr) (m : mem) : out mem :=
  match p with
  | None => Done m
  | Some q => if in_dec ptr_dec q (live m) then Done (Mem (remove ptr_dec q (live m)) (fresh m)) else Undef
  end.
Definition use (p : option ptr) (i : Z) (m : mem) : out mem :=
  match p with
  | None => Undef
  | Some q => if in_dec ptr_dec q (live m) then if (0 <=? i) && (i <? snd q) then Done m else Undef else Undef
  end.
(** Three pieces of memory. *)
Definition three := (option ptr * option ptr * option ptr)%type.
Definition none3 : three := (None, None, None).
Definition malloc3 (size : Z) (m : mem) : three * mem :=
  let (a, m1) := malloc size m in let (b, m2) := malloc size m1 in let (c, m3) := malloc size m2 in ((Some a, Some b, Some c), m3).
Definition free3 (t : three) (m : mem) : out mem :=
  let '(a, b, c) := t in try m1 <- free a m; try m2 <- free b m1; free c m2.
Definition use3 (t : three) (i : Z) (m : mem) : out mem :=
  let '(a, b, c) := t in try m1 <- use a i m; try m2 <- use b i m1; use c i m2.
(** Elements 0 .. k-1. *)
Definition use_first (t : three) (k : Z) (m : mem) : out mem := if 0 <? k then use3 t (k - 1) m else Done m.

(** An entry of SPA: [buf] is idx, jdx and val, [blk] is blkidx, blksize and offset. *)
Record entry := Entry { active : bool; ready : bool; nblocks : Z; nval : Z; maxval : Z; buf : three; blk : three }.
Record spa := Spa { tab : Z -> entry; heap : mem }.
(** 74 *)
Definition INIT_BUF_SIZE : Z := 1024.
(** 80-99 [sai_init_sparse_arrays] *)
Definition init : spa := Spa (fun _ => Entry false false 0 0 0 none3 none3) (Mem [] 0).

Section Table.
(** MAX_ARRAYS *)
Variable size : Z.

(** 145-146, 162: the first entry that is not active. *)
Definition first_free (t : Z -> entry) : option Z := find (fun i => negb (active (t i))) (zseq 0 (Z.to_nat size)).
(** 134-170 [pnga_sprs_array_create]; without a free entry the value of s_a is not set. *)
Definition create (s : spa) : out (spa * Z) :=
  match first_free (tab s) with
  | None => Undef
  | Some i =>
      let (b, m) := malloc3 INIT_BUF_SIZE (heap s) in
      let e := tab s i in
      Done (Spa (fset (tab s) i (Entry true (ready e) (nblocks e) 0 INIT_BUF_SIZE b (blk e))) m, i)
  end.
(** 181-228 [pnga_sprs_array_add_element] *)
Definition add_element (s : spa) (h : Z) : out (spa * Z) :=
  let e := tab s h in
  if negb (active e) then Abort else if ready e then Abort else
  try (b, m, mx) <-
    (if maxval e <=? nval e then
       let (b, m1) := malloc3 (2 * maxval e) (heap s) in
       try m2 <- use_first (buf e) (nval e) m1;
       try m3 <- use_first b (nval e) m2;
       try m4 <- free3 (buf e) m3;
       Done (b, m4, 2 * maxval e)
     else Done (buf e, heap s, maxval e));
  try m' <- use3 b (nval e) m;
  Done (Spa (fset (tab s) h (Entry (active e) (ready e) (nblocks e) (nval e + 1) mx b (blk e))) m', 0).
(** 267-875 [pnga_sprs_array_assemble]: 322-331, 458-476 read the elements; 503-505; 547-554;
    777-782; 874. *)
Definition assemble_mem (s : spa) (h nv nb : Z) : out (spa * Z) :=
  let e := tab s h in
  try m1 <- use_first (buf e) (nval e) (heap s);
  try m2 <- free3 (buf e) m1;
  let (k, m3) := if 0 <? nb then malloc3 nb m2 else (blk e, m2) in
  let (b, m4) := malloc3 nv m3 in
  try m5 <- use_first b nv m4;
  try m6 <- use_first k nb m5;
  try m7 <- free3 b m6;
  Done (Spa (fset (tab s) h (Entry (active e) true nb (nval e) (maxval e) none3 k)) m7, 1).
(** 2082-2170 [pnga_sprs_array_duplicate]; without assembled array it takes the handles of the
    global arrays as an earlier array left them. *)
Definition duplicate (s : spa) (h : Z) : out (spa * Z) :=
  let e := tab s h in
  if negb (ready e) then Undef else
  try (s1, r) <- create s;
  let d := tab s1 r in
  let (k, m) := if 0 <? nblocks e then malloc3 (nblocks e) (heap s1) else (blk d, heap s1) in
  try m1 <- use_first (blk e) (nblocks e) m;
  try m2 <- use_first k (nblocks e) m1;
  Done (Spa (fset (tab s1) r (Entry (active d) (ready e) (nblocks e) (nval e) (maxval e) none3 k)) m2, r).
(** 2678-2728, 2923-2928, 3101 in [pnga_sprs_array_matmat_multiply]; 2701 writes offset[0]. *)
Definition matmat_mem (s : spa) (nv nb : Z) : out (spa * Z) :=
  try (s1, r) <- create s;
  let d := tab s1 r in
  try m1 <- free3 (buf d) (heap s1);
  let (k, m2) := malloc3 nb m1 in
  try m3 <- use3 k 0 m2;
  try m4 <- use_first k nb m3;
  let (b, m5) := malloc3 nv m4 in
  try m6 <- use_first b nv m5;
  try m7 <- free3 b m6;
  Done (Spa (fset (tab s1) r (Entry (active d) true nb nv (maxval d) none3 k)) m7, r).
(** 1314-1351 [pnga_sprs_array_destroy] *)
Definition destroy (s : spa) (h : Z) : out (spa * Z) :=
  let e := tab s h in
  if ready e then
    try m <- free3 (blk e) (heap s);
    Done (Spa (fset (tab s) h (Entry false false (nblocks e) (nval e) (maxval e) (buf e) none3)) m, 1)
  else if active e then
    try m <- free3 (buf e) (heap s);
    Done (Spa (fset (tab s) h (Entry false false (nblocks e) (nval e) (maxval e) none3 (blk e))) m, 1)
  else Done (s, 1).
Definition in_table (h : Z) (r : out (spa * Z)) : out (spa * Z) := if (0 <=? h) && (h <? size) then r else Undef.
Definition step (s : spa) (c : call) : out (spa * Z) :=
  match c with
  | Create => create s
  | Add h => in_table h (add_element s h)
  | Assemble h nv nb => in_table h (assemble_mem s h nv nb)
  | Duplicate h => in_table h (duplicate s h)
  | Matmat a b nv nb => in_table a (in_table b (matmat_mem s nv nb))
  | Destroy h => in_table h (destroy s h)
  end.
(** 105-123 [sai_terminate_sparse_arrays] *)
Fixpoint terminate (t : Z -> entry) (hs : list Z) (m : mem) : out mem :=
  match hs with
  | [] => Done m
  | h :: r => try m1 <- free3 (blk (t h)) m; try m2 <- free3 (buf (t h)) m1; terminate t r m2
  end.
Definition terminate_all (s : spa) : out mem := terminate (tab s) (zseq 0 (Z.to_nat size)) (heap s).
End Table.
