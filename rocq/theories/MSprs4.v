(** Model of /repo/global/src/sparse.array.c: pnga_sprs_array_create_from_dense and
    pnga_sprs_array_create_from_sparse.  [trans] is true in the C interface (capi.c
    5369-5385), which reverses the indices.
    Simplifications: all arrays are on the world group; a process may only access its
    own part of an array (pnga_access_ptr also allows those of processes on its
    node); the elements of a complex type are values; integers are unbounded. *)
From Verif Require Import MBase MNb MHandle MGroup MSparse MDist MIrreg.
From Verif Require Export SpecSprs4 MSprs.
Open Scope Z_scope.

Section Dense.
Context {V : Type}.
Variables (trans : bool) (fuel : nat) (n : Z).

(** 3222-3278 SPRS_REAL_FILTER_M, SPRS_COMPLEX_FILTER_M: [nz] tells whether a value is
    not zero; the distance of columns is taken to be hi[0]-lo[0]+1. *)
Definition filter_piece (nz : V -> bool) (b : dpart V) : list (elt V) :=
  let ld := p_hi0 b - p_lo0 b + 1 in
  flat_map (fun j =>
    flat_map (fun i =>
      let v := p_mem b (i - p_lo0 b + (j - p_lo1 b) * ld) in
      if nz v || (i =? j) then [if trans then (j - 1, i - 1, v) else (i - 1, j - 1, v)] else [])
      (zseq (p_lo0 b) (Z.to_nat (p_hi0 b - p_lo0 b + 1))))
    (zseq (p_lo1 b) (Z.to_nat (p_hi1 b - p_lo1 b + 1))).
(** 3322-3324; pnga_access_ptr of no elements is an error (onesided.c 1509, 1519-1522). *)
Definition from_piece (nz : V -> bool) (b : dpart V) : out (list (elt V)) :=
  if (p_lo0 b <=? p_hi0 b) && (p_lo1 b <=? p_hi1 b) then Done (filter_piece nz b) else Abort.
Fixpoint from_pieces (nz : V -> bool) (bs : list (dpart V)) : out (list (list (elt V))) :=
  match bs with [] => Done [] | b :: r => try l <- from_piece nz b; try t <- from_pieces nz r; Done (l :: t) end.
(** 3290-3373 [pnga_sprs_array_create_from_dense] of an array of [d0] x [d1]; [o] and [o']
    as in [assemble]. *)
Definition from_dense (nz : V -> bool) (d0 d1 : Z) (bs : list (dpart V)) (o o' : list (Z * Z)) : out (list (sprs V)) :=
  try els <- from_pieces nz bs;
  let (idim, jdim) := if trans then (d1, d0) else (d0, d1) in
  assemble fuel n idim jdim (fun q => nth (Z.to_nat q) els []) o o'.

(** 3481-3492, 3497-3508: the elements of row [i] into the local part, which has [size]
    elements; [pos] is the place of a column. *)
Fixpoint put_row (pos : Z -> Z) (size : Z) (l : list (Z * V)) (m : Z -> V) : out (Z -> V) :=
  match l with
  | [] => Done m
  | (j, v) :: r => if (0 <=? pos j) && (pos j <? size) then put_row pos size r (fset m (pos j) v) else Undef
  end.
Fixpoint put_rows (pos : Z -> Z -> Z) (size : Z) (s : sprs V) (w : view V) (rows : list Z) (m : Z -> V) : out (Z -> V) :=
  match rows with
  | [] => Done m
  | i :: r => try l <- read_row s w i; try m' <- put_row (pos i) size l m; put_rows pos size s w r m'
  end.
(** 3466-3511: the blocks. *)
Fixpoint put_blocks (pos : Z -> Z -> Z) (size : Z) (s : sprs V) (blk : list Z) (m : Z -> V) : out (Z -> V) :=
  match blk with
  | [] => Done m
  | c :: r =>
      try w <- access_col_block s c;
      match w with
      | None => Undef
      | Some w => try m' <- put_rows pos size s w (zseq (s_ilo s) (Z.to_nat (s_ihi s - s_ilo s + 1))) m; put_blocks pos size s r m'
      end
  end.
(** 3450-3512 on process [me]: [g] is the new array; onesided.c 1509-1530 for the access. *)
Definition to_piece (zero : V) (idim jdim : Z) (g : gadesc) (me : Z) (s : sprs V) : out (dpart V) :=
  match owns g me with
  | Some ([a0; a1], [b0; b1]) =>
      let lo0 := if trans then 1 else s_ilo s + 1 in
      let hi0 := if trans then idim else s_ihi s + 1 in
      let lo1 := if trans then s_ilo s + 1 else 1 in
      let hi1 := if trans then s_ihi s + 1 else jdim in
      if (a0 <=? lo0) && (lo0 <=? hi0) && (hi0 <=? b0) && (a1 <=? lo1) && (lo1 <=? hi1) && (hi1 <=? b1) then
        let ld := b0 - a0 + 1 in
        let at_ := lo0 - a0 + (lo1 - a1) * ld in
        let pos i j := at_ + (if trans then (i - lo1 + 1) * ld + j - lo0 + 1 else i - lo0 + 1 + ld * (j - lo1 + 1)) in
        try m <- put_blocks pos (ld * (b1 - a1 + 1)) s (s_blk s) (fun _ => zero);
        Done (DPart a0 a1 b0 b1 ld m)
      else Abort
  | _ => Undef
  end.
(** 3411-3443: the map, after the sum over all processes, and the number of blocks. *)
Definition dense_map (ss : list (sprs V)) : list Z :=
  if trans then 1 :: map (fun s => s_ilo s + 1) ss
  else 0 :: map (fun s => s_ilo s + 1) (removelast ss) ++ [1].
Definition dense_desc (d0 d1 : Z) : gadesc :=
  {| distr_type := REGULAR; dims := [d0; d1]; nblock := []; mapc := []; block_dims := []; num_blocks := []; rstrctd_list := []; rank_rstrctd := [] |}.
(** 3386-3516 [pnga_sprs_array_create_from_sparse]; 3432-3433: the dimensions. *)
Definition to_dense (zero : V) (idim jdim : Z) (ss : list (sprs V)) : out (list (dpart V)) :=
  try g <- set_irreg_distr false (dense_desc idim jdim) (dense_map ss) (if trans then [1; n] else [n; 1]);
  collect (fun p => match nth_error ss (Z.to_nat p) with Some s => to_piece zero idim jdim g p s | None => Undef end) (zseq 0 (Z.to_nat n)).
End Dense.
