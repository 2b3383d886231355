(** Model of /repo/global/src/sparse.array.c: pnga_sprs_array_dnssprs_multiply.  [trans] is
    true in the C interface (capi.c 5594-5600), which reverses the indices.
    Simplifications: as in MSprs4 and MSprs5; pnga_sprs_array_get_block reads what the
    process with the block has, as in MSprs3, and jlo_b and jhi_b are the limits that
    782-858 left in g_blk; buffers that are not freed are left out. *)
From Verif Require Import MBase MNb MHandle MGroup MSparse MDist MIrreg.
From Verif Require Export SpecSprs5 SpecSprs4 MSprs MSprs4 MSprs5.
Open Scope Z_scope.

Section Multiply.
Context {V : Type}.
(** [cplx]: the type is complex; [mix x y] has the real part of [x] and the imaginary part
    of [y]. *)
Variables (trans cplx : bool) (mix : V -> V -> V) (fuel : nat) (n : Z) (add mul : V -> V -> V) (zero : V).

(** 3867, 3874, 3905-3906, 3918-3919: the element of A for row [ii] and column [kk] of the
    buffer, in which columns are [ld] elements apart. *)
Definition rd_a (rd : Z -> out V) (ld ii kk : Z) : out V :=
  if trans then rd (ii * ld + kk)
  else try x <- rd (ii + kk * ld); if cplx then try y <- rd (ii * kk * ld); Done (mix x y) else Done x.
(** 3864-3869, 3871-3876: the loop over _j. *)
Fixpoint acc_row (pos : Z -> Z) (size : Z) (rd : out V) (l : list (Z * V)) (m : Z -> V) : out (Z -> V) :=
  match l with
  | [] => Done m
  | (j, v) :: r =>
      try x <- rd;
      if (0 <=? pos j) && (pos j <? size) then acc_row pos size rd r (fset m (pos j) (add (m (pos j)) (mul x v))) else Undef
  end.
(** 3860-3878: the loop over _k. *)
Fixpoint acc_ks (pos : Z -> Z) (size : Z) (rd : Z -> out V) (s : sprs V) (w : view V) (ks : list Z) (m : Z -> V) : out (Z -> V) :=
  match ks with
  | [] => Done m
  | k :: r => try l <- read_row s w k; try m' <- acc_row pos size (rd k) l m; acc_ks pos size rd s w r m'
  end.
(** 3858-3879: the loop over _i. *)
Fixpoint acc_is (pos : Z -> Z -> Z) (size : Z) (rd : Z -> Z -> out V) (s : sprs V) (w : view V) (ks is : list Z) (m : Z -> V) : out (Z -> V) :=
  match is with
  | [] => Done m
  | i :: r => try m' <- acc_ks (pos i) size (rd i) s w ks m; acc_is pos size rd s w ks r m'
  end.
(** 4103-4205: the blocks of B in column block [l]; columns lo .. hi of C are accessed.  The
    calling process has rows ilo .. ihi of C, and its part of C is (a0,a1) to (b0,b1); the
    dimensions of A are [d0] and [d1]. *)
Fixpoint acc_blocks (jb d0 d1 : Z) (a : Z -> Z -> V) (a0 a1 b0 b1 ilo ihi lo hi l : Z) (ssb : list (sprs V)) (ns : list Z) (m : Z -> V) : out (Z -> V) :=
  match ns with
  | [] => Done m
  | nn :: r =>
      let tlo0 := if trans then lo + 1 else ilo + 1 in
      let thi0 := if trans then hi + 1 else ihi + 1 in
      let tlo1 := if trans then ilo + 1 else lo + 1 in
      let thi1 := if trans then ihi + 1 else hi + 1 in
      if (a0 <=? tlo0) && (tlo0 <=? thi0) && (thi0 <=? b0) && (a1 <=? tlo1) && (tlo1 <=? thi1) && (thi1 <=? b1) then
        let ld := b0 - a0 + 1 in
        match nth_error ssb (Z.to_nat nn) with
        | None => Undef
        | Some s =>
            try w <- access_col_block s l;
            match w with
            | None => acc_blocks jb d0 d1 a a0 a1 b0 b1 ilo ihi lo hi l ssb r m
            | Some w =>
                try (jlo, _) <- column_distribution fuel n jb l;
                let alo0 := if trans then s_ilo s + 1 else ilo + 1 in
                let ahi0 := if trans then s_ihi s + 1 else ihi + 1 in
                let alo1 := if trans then ilo + 1 else s_ilo s + 1 in
                let ahi1 := if trans then ihi + 1 else s_ihi s + 1 in
                if (1 <=? alo0) && (alo0 <=? ahi0) && (ahi0 <=? d0) && (1 <=? alo1) && (alo1 <=? ahi1) && (ahi1 <=? d1) then
                  let lda := ahi0 - alo0 + 1 in
                  let pos i j := tlo0 - a0 + (tlo1 - a1) * ld + (if trans then j - jlo + (i - ilo) * ld else (j - jlo) * ld + (i - ilo)) in
                  let rd i k := rd_a (rd_buf a alo0 alo1 lda (lda * (ahi1 - alo1 + 1))) lda (i - ilo) (k - s_ilo s) in
                  try m' <- acc_is pos (ld * (b1 - a1 + 1)) rd s w (zseq (s_ilo s) (Z.to_nat (s_ihi s - s_ilo s + 1))) (zseq ilo (Z.to_nat (ihi - ilo + 1))) m;
                  acc_blocks jb d0 d1 a a0 a1 b0 b1 ilo ihi lo hi l ssb r m'
                else Abort
            end
        end
      else Abort
  end.
(** 4079-4206: the blocks of columns of C are those of the rows of B (4087), seen by
    process [me]. *)
Fixpoint acc_targets (me ib jb d0 d1 : Z) (a : Z -> Z -> V) (a0 a1 b0 b1 ilo ihi : Z) (ssb : list (sprs V)) (ls : list Z) (m : Z -> V) : out (Z -> V) :=
  match ls with
  | [] => Done m
  | l :: r =>
      try (lo, hi) <- row_distribution fuel n ib me l;
      try m' <- acc_blocks jb d0 d1 a a0 a1 b0 b1 ilo ihi lo hi l ssb (zseq 0 (Z.to_nat n)) m;
      acc_targets me ib jb d0 d1 a a0 a1 b0 b1 ilo ihi ssb r m'
  end.
(** 3943-4209 [pnga_sprs_array_dnssprs_multiply]: the array [a] is [d0] x [d1], B is [ib] x
    [jb].  3989-3993: the check; 4020-4043: the rows of C; 4045-4069: the distribution. *)
Definition dnssprs (ib jb d0 d1 : Z) (a : Z -> Z -> V) (ssb : list (sprs V)) : out (list (dpart V)) :=
  if negb ((if trans then d0 else d1) =? jb) then Abort else
  let idim := if trans then d1 else d0 in
  let procs := zseq 0 (Z.to_nat n) in
  try lims <- collect (fun p => try lo <- own_low fuel n idim p; try hi <- high_limit fuel n idim p; Done (lo, hi)) procs;
  let starts := offsets_from 1 (map (fun lh => snd lh - fst lh + 1) lims) in
  let desc := if trans then dense_desc jb idim else dense_desc idim jb in
  try g <- set_irreg_distr false desc (if trans then 1 :: starts else starts ++ [1]) (if trans then [1; n] else [n; 1]);
  collect (fun p =>
    match nth_error lims (Z.to_nat p), owns g p with
    | Some (ilo, ihi), Some ([a0; a1], [b0; b1]) =>
        try m <- acc_targets p ib jb d0 d1 a a0 a1 b0 b1 ilo ihi ssb procs (fun _ => zero);
        Done (DPart a0 a1 b0 b1 (b0 - a0 + 1) m)
    | _, _ => Undef
    end) procs.
End Multiply.
