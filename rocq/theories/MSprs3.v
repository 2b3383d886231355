(** Model of /repo/global/src/sparse.array.c: pnga_sprs_array_get_block and
    pnga_sprs_array_matmat_multiply (ENABLE_PREALLOC is 1, line 67).
    Simplifications: both matrices are on the world group and have the same type and
    index size; idx and jdx, which count from 1 in this function, count from 0;
    idx, jdx and data are one list of elements, of which [lcnt] is the length; the
    gets of a block (2222-2240) copy what the process with the block has, at the
    places that 782-858 and 3022-3098 left in g_blk, so they are read as in
    access_col_block; the elements of a pair of blocks are read before the products
    are added, not in between; integers are unbounded; leaks are left out. *)
From Verif Require Import MBase MNb MHandle MGroup MSparse.
From Verif Require Export SpecSprs3 MSprs.
Open Scope Z_scope.

(** Loops that append to a list. *)
Fixpoint gather {A B} (f : A -> out (list B)) (l : list A) : out (list B) :=
  match l with [] => Done [] | a :: r => try x <- f a; try y <- gather f r; Done (x ++ y) end.

Section Matmat.
Context {V : Type}.
Variables (narrow : bool) (fuel : nat) (n idim jdim : Z) (add mul : V -> V -> V).

(** 687-688, 723, 759, 770-776: SPA[].max_nnz, the largest number of elements in a row. *)
Definition rows_of (s : sprs V) : list Z := zseq (s_ilo s) (Z.to_nat (s_ihi s - s_ilo s + 1)).
Definition row_nnz (s : sprs V) (i : Z) : out Z :=
  try r <- gather (fun c => block_row s c i) (zseq 0 (Z.to_nat n)); Done (Z.of_nat (length r)).
Definition max_nnz (ss : list (sprs V)) : out Z :=
  try l <- gather (fun s => collect (row_nnz s) (rows_of s)) ss; Done (fold_right Z.max 0 l).

(** 2619-2624: the indices are used as Integer; if they are [narrow] (idx_size is that
    of int), element [x] is elements [2x] and [2x+1] of what was got (little-endian). *)
Definition as_integer (f : Z -> out Z) (x : Z) : out Z :=
  if narrow then try a <- f (2 * x); try b <- f (2 * x + 1); Done (a + 2 ^ 32 * b) else f x.
(** 2186-2265 [pnga_sprs_array_get_block] from the process with [s]; None is 0. *)
Definition get_block (s : sprs V) (c : Z) : out (option (view V)) :=
  try w <- access_col_block s c;
  Done (match w with None => None | Some w => Some (View (as_integer (v_i w)) (as_integer (v_j w)) (v_v w)) end).

(** 2341-2350: the products of a pair of blocks, with their row and column. *)
Definition pair_products (sa : sprs V) (wa : view V) (sb : sprs V) (wb : view V) : out (list (elt V)) :=
  gather (fun i =>
    try la <- read_row sa wa i;
    gather (fun kx =>
      try lb <- read_row sb wb (fst kx);
      Done (map (fun jy => (i, fst jy, mul (snd kx) (snd jy))) lb)) la) (rows_of sa).
(** 2610-2647: the pairs of blocks. *)
Definition block_pair (sa : sprs V) (ssb : list (sprs V)) (l c : Z) : out (list (elt V)) :=
  try wa <- get_block sa l;
  match wa with
  | None => Done []
  | Some wa =>
      match nth_error ssb (Z.to_nat l) with
      | None => Undef
      | Some sb =>
          try wb <- get_block sb c;
          match wb with None => Done [] | Some wb => pair_products sa wa sb wb end
      end
  end.
Definition all_products (sa : sprs V) (ssb : list (sprs V)) : out (list (elt V)) :=
  gather (fun l => gather (block_pair sa ssb l) (zseq 0 (Z.to_nat n))) (zseq 0 (Z.to_nat n)).

(** 2351-2356: look for (i,j) in the list from [x] on; -1 if it is not there. *)
Fixpoint look (fuel : nat) (es : list (elt V)) (next : Z -> Z) (i j x : Z) : out Z :=
  if 0 <=? x then
    match fuel with
    | O => Undef
    | S k => match nth_error es (Z.to_nat x) with
             | Some e => if (i =? erow e) && (j =? ecol e) then Done x else look k es next i j (next x)
             | None => Undef
             end
    end
  else Done (-1).
(** 2350-2370: one product; top and list are [b], which counts the elements as well. *)
Definition add_product (bufsize : Z) (p : elt V) (t : bins * list (elt V)) : out (bins * list (elt V)) :=
  let (b, es) := t in
  if bufsize =? 0 then Undef else
  let h := Z.rem (erow p * jdim + ecol p) bufsize in
  if (0 <=? h) && (h <? bufsize) then
    try x <- look (length es) es (b_next b) (erow p) (ecol p) (b_top b h);
    if 0 <=? x then
      try e <- rdl es x;
      match zset es x (fst e, add (evalue e) (evalue p)) with Some es' => Done (b, es') | None => Undef end
    else if Z.of_nat (length es) <? bufsize then
      try b' <- bin_one bufsize h (Z.of_nat (length es)) b;
      Done (b', es ++ [p])
    else Undef
  else Undef.
Fixpoint add_products (bufsize : Z) (ps : list (elt V)) (t : bins * list (elt V)) : out (bins * list (elt V)) :=
  match ps with [] => Done t | p :: r => try t' <- add_product bufsize p t; add_products bufsize r t' end.

(** 2654-2905: the elements into blocks and rows, as in 507-637 and 682-767; ilo and ihi
    are given.  If there are none, 2700 writes outside of SPA[].offset. *)
Definition arrange_rows (ilo ihi : Z) (loc : list (elt V)) : out (sprs V) :=
  match loc with
  | [] => Undef
  | _ =>
      try b <- bin_all n (map (fun e => owner n jdim (ecol e)) loc) 0 no_bins;
      try blks <- col_blocks loc b (zseq 0 (Z.to_nat n));
      let ncnt := length (filter (fun c => 0 <? b_count b c) (zseq 0 (Z.to_nat n))) in
      if (length blks =? ncnt)%nat && (length (flat_map snd blks) <=? length loc)%nat then
        try (ii, es) <- all_blocks ilo (ihi - ilo + 1) blks;
        Done (Sprs ilo ihi (map fst blks) (offsets_from 0 (map (fun cb => Z.of_nat (length (snd cb))) blks)) ii (map ecol es) (map evalue es))
      else Undef
  end.
(** 2583-2593 *)
Definition buf_size (s : sprs V) (ma mb : Z) : Z :=
  let nrows := s_ihi s - s_ilo s + 1 in if jdim <? ma * mb then nrows * jdim else nrows * ma * mb.
(** 2522-3103 on one process. *)
Definition matmat1 (ma mb : Z) (ssb : list (sprs V)) (sa : sprs V) : out (sprs V) :=
  try ps <- all_products sa ssb;
  try t <- add_products (buf_size sa ma mb) ps (no_bins, []);
  arrange_rows (s_ilo sa) (s_ihi sa) (snd t).
(** 2522-3103 [pnga_sprs_array_matmat_multiply]: [ja] and [ib] are the columns of A and
    the rows of B; 2568 compares them.  base.c 1739-1741: an array with fewer
    elements than processes is an error (2773, 2809). *)
Definition matmat (ja ib : Z) (ssa ssb : list (sprs V)) : out (list (sprs V)) :=
  if negb (ja =? ib) then Abort else
  try ma <- max_nnz ssa; try mb <- max_nnz ssb;
  try ss <- gather (fun sa => try s <- matmat1 ma mb ssb sa; Done [s]) ssa;
  if zsum (map (fun s => (s_ihi s - s_ilo s + 1 + 1) * Z.of_nat (length (s_blk s))) ss) <? n then Abort else
  if zsum (map (fun s => Z.of_nat (length (s_v s))) ss) <? n then Abort else
  Done ss.
End Matmat.
