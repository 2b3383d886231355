(** Model of /repo/global/src/sparse.array.c: pnga_sprs_array_sprsdns_multiply.  [trans] is
    true in the C interface (capi.c 5586-5592), which reverses the indices.
    Simplifications: as in MSprs4; both operands have the same type and are on the world
    group; pnga_get copies the elements of its range (C18, C19). *)
From Verif Require Import MBase MNb MHandle MGroup MSparse MDist MIrreg.
From Verif Require Export SpecSprs4 MSprs MSprs4.
Open Scope Z_scope.

Section Multiply.
Context {V : Type}.
Variables (trans : bool) (fuel : nat) (n : Z) (add mul : V -> V -> V) (zero : V).

(** Element [r] of the buffer into which 3777 gets [b] from (lo0,lo1) on; columns of the
    buffer have [ld] elements, and it has [nelem] elements. *)
Definition rd_buf (b : Z -> Z -> V) (lo0 lo1 ld nelem r : Z) : out V :=
  if (0 <=? r) && (r <? nelem) then Done (b (lo0 + r mod ld) (lo1 + r / ld)) else Undef.
(** 3528-3532, 3534-3538: the loop over _j for one element of A with value [x]. *)
Fixpoint mul_cols (posc : Z -> Z) (size : Z) (rd : Z -> out V) (x : V) (js : list Z) (m : Z -> V) : out (Z -> V) :=
  match js with
  | [] => Done m
  | j :: r =>
      try y <- rd j;
      if (0 <=? posc j) && (posc j <? size) then mul_cols posc size rd x r (fset m (posc j) (add (m (posc j)) (mul x y))) else Undef
  end.
(** 3525-3540: the loop over _k. *)
Fixpoint mul_row (posc : Z -> Z) (size : Z) (rd : Z -> Z -> out V) (js : list Z) (l : list (Z * V)) (m : Z -> V) : out (Z -> V) :=
  match l with
  | [] => Done m
  | (k, x) :: r => try m' <- mul_cols posc size (rd k) x js m; mul_row posc size rd js r m'
  end.
(** 3522-3541: the loop over _i. *)
Fixpoint mul_rows (posc : Z -> Z -> Z) (size : Z) (rd : Z -> Z -> out V) (js : list Z) (s : sprs V) (w : view V) (rows : list Z) (m : Z -> V) : out (Z -> V) :=
  match rows with
  | [] => Done m
  | i :: r => try l <- read_row s w i; try m' <- mul_row (posc i) size rd js l m; mul_rows posc size rd js s w r m'
  end.
(** 3732-3836: the blocks of A; columns lo .. hi of C are computed.  (a0,a1) and (b0,b1) are
    the limits of the local part of C, [d0] and [d1] the dimensions of the array [b]. *)
Fixpoint mul_blocks (kdim d0 d1 : Z) (b : Z -> Z -> V) (a0 a1 b0 b1 lo hi : Z) (s : sprs V) (blk : list Z) (m : Z -> V) : out (Z -> V) :=
  match blk with
  | [] => Done m
  | c :: r =>
      let tlo0 := if trans then lo + 1 else s_ilo s + 1 in
      let thi0 := if trans then hi + 1 else s_ihi s + 1 in
      let tlo1 := if trans then s_ilo s + 1 else lo + 1 in
      let thi1 := if trans then s_ihi s + 1 else hi + 1 in
      if (a0 <=? tlo0) && (tlo0 <=? thi0) && (thi0 <=? b0) && (a1 <=? tlo1) && (tlo1 <=? thi1) && (thi1 <=? b1) then
        let ld := b0 - a0 + 1 in
        try (jlo, jhi) <- column_distribution fuel n kdim c;
        try w <- access_col_block s c;
        match w with
        | None => Undef
        | Some w =>
            let blo0 := if trans then lo + 1 else jlo + 1 in
            let bhi0 := if trans then hi + 1 else jhi + 1 in
            let blo1 := if trans then jlo + 1 else lo + 1 in
            let bhi1 := if trans then jhi + 1 else hi + 1 in
            if (1 <=? blo0) && (blo0 <=? bhi0) && (bhi0 <=? d0) && (1 <=? blo1) && (blo1 <=? bhi1) && (bhi1 <=? d1) then
              let ldb := bhi0 - blo0 + 1 in
              let posc i j := tlo0 - a0 + (tlo1 - a1) * ld + (if trans then j - blo0 + (i - s_ilo s) * ld else ld * (j - blo0) + (i - s_ilo s)) in
              let rd k j := rd_buf b blo0 blo1 ldb (ldb * (bhi1 - blo1 + 1)) (if trans then (k - jlo) * ldb + (j - blo0) else k - jlo + (j - blo0) * ldb) in
              try m' <- mul_rows posc (ld * (b1 - a1 + 1)) rd (zseq blo0 (Z.to_nat (bhi0 - blo0 + 1))) s w (zseq (s_ilo s) (Z.to_nat (s_ihi s - s_ilo s + 1))) m;
              mul_blocks kdim d0 d1 b a0 a1 b0 b1 lo hi s r m'
            else Abort
        end
      else Abort
  end.
(** 3707-3837: the blocks of columns of C are those of the columns of A (3715). *)
Fixpoint mul_targets (kdim d0 d1 : Z) (b : Z -> Z -> V) (a0 a1 b0 b1 : Z) (s : sprs V) (ls : list Z) (m : Z -> V) : out (Z -> V) :=
  match ls with
  | [] => Done m
  | l :: r =>
      try (lo, hi) <- column_distribution fuel n kdim l;
      try m' <- mul_blocks kdim d0 d1 b a0 a1 b0 b1 lo hi s (s_blk s) m;
      mul_targets kdim d0 d1 b a0 a1 b0 b1 s r m'
  end.
(** 3669-3695: the map. *)
Definition product_map (ss : list (sprs V)) : list Z :=
  let starts := offsets_from 1 (map (fun s => s_ihi s - s_ilo s + 1) ss) in
  if trans then 1 :: starts else starts ++ [1].
(** 3594-3840 [pnga_sprs_array_sprsdns_multiply]: A is [idim] x [kdim], the array [b] is
    [d0] x [d1]. *)
Definition sprsdns (idim kdim d0 d1 : Z) (b : Z -> Z -> V) (ss : list (sprs V)) : out (list (dpart V)) :=
  if negb (kdim =? (if trans then d1 else d0)) then Abort else
  let jdim := if trans then d0 else d1 in
  let desc := if trans then dense_desc jdim idim else dense_desc idim jdim in
  try g <- set_irreg_distr false desc (product_map ss) (if trans then [1; n] else [n; 1]);
  collect (fun p =>
    match nth_error ss (Z.to_nat p), owns g p with
    | Some s, Some ([a0; a1], [b0; b1]) =>
        try m <- mul_targets kdim d0 d1 b a0 a1 b0 b1 s (zseq 0 (Z.to_nat n)) (fun _ => zero);
        Done (DPart a0 a1 b0 b1 (b0 - a0 + 1) m)
    | _, _ => Undef
    end) (zseq 0 (Z.to_nat n)).
End Multiply.
