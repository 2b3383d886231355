(** Model of /repo/global/src/sparse.array.c: pnga_sprs_array_get_diag,
    pnga_sprs_array_get_column, pnga_sprs_array_diag_left_multiply,
    pnga_sprs_array_diag_right_multiply, pnga_sprs_array_shift_diag and
    pnga_sprs_array_scale.  A process works on what it holds of the matrix and of
    new vectors, which have the distribution of the rows. *)
From Verif Require Import MBase MNb MHandle MGroup MSparse.
From Verif Require Export MSprs.
Open Scope Z_scope.

Section Ops.
Context {V : Type}.

(** 1652-1671: the last element of row [i] in column [j], if any. *)
Fixpoint pick_loop (j : Z) (l : list (Z * V)) (d : V) : V :=
  match l with [] => d | (j', x) :: r => pick_loop j r (if j =? j' then x else d) end.
(** 1649-1672, 1673-1693 with the row as [key], 3178-3191, 3195-3208 with icol: the rows
    of a block into the local part of the vector. *)
Fixpoint pick_rows (s : sprs V) (w : view V) (key : Z -> Z) (rows : list Z) (v : Z -> V) : out (Z -> V) :=
  match rows with
  | [] => Done v
  | i :: r => try l <- read_row s w i; pick_rows s w key r (fset v i (pick_loop (key i) l (v i)))
  end.
(** 1640-1694 on process [me]: only the block with its own number is read, and no test
    is made for NULL. *)
Definition get_diag1 (me : Z) (s : sprs V) (v : Z -> V) : out (Z -> V) :=
  try w <- access_col_block s me;
  match w with
  | None => if s_ilo s <=? s_ihi s then Undef else Done v
  | Some w => pick_rows s w (fun i => i) (zseq (s_ilo s) (Z.to_nat (s_ihi s - s_ilo s + 1))) v
  end.
(** 1598-1700 [pnga_sprs_array_get_diag], the processes in the order of [ps]. *)
Definition get_diag (zero : V) (ss : list (sprs V)) (ps : list Z) : out (Z -> V) :=
  each (fun p v => match nth_error ss (Z.to_nat p) with Some s => get_diag1 p s v | None => Undef end) ps (fun _ => zero).

(** 3170-3211 on one process. *)
Fixpoint col_loop (s : sprs V) (iblock icol : Z) (blk : list Z) (v : Z -> V) : out (Z -> V) :=
  match blk with
  | [] => Done v
  | b :: r =>
      if b =? iblock then
        try w <- access_col_block s iblock;
        match w with
        | None => Undef
        | Some w => try v' <- pick_rows s w (fun _ => icol) (zseq (s_ilo s) (Z.to_nat (s_ihi s - s_ilo s + 1))) v; col_loop s iblock icol r v'
        end
      else col_loop s iblock icol r v
  end.
(** 3113-3221 [pnga_sprs_array_get_column] *)
Definition get_column (n jdim : Z) (zero : V) (icol : Z) (ss : list (sprs V)) (ps : list Z) : out (Z -> V) :=
  if jdim =? 0 then Undef else
  let iblock := Z.quot (icol * n) jdim in
  each (fun p v => match nth_error ss (Z.to_nat p) with Some s => col_loop s iblock icol (s_blk s) v | None => Undef end) ps (fun _ => zero).

(** The loops over the elements of a row: [g] of the column and the old value is stored
    (1746-1748, 1876-1879, 2003-2007). *)
Fixpoint upd_cells (g : Z -> V -> out V) (sj : list Z) (ps : list Z) (sv : list V) : out (list V) :=
  match ps with
  | [] => Done sv
  | p :: r =>
      try j <- rdl sj p; try x <- rdl sv p; try y <- g j x;
      match zset sv p y with Some sv' => upd_cells g sj r sv' | None => Undef end
  end.
(** 1744-1749, 1874-1880, 2001-2008: the rows of block [c], if there is one. *)
Fixpoint upd_rows (g : Z -> Z -> V -> out V) (s : sprs V) (c : Z) (rows : list Z) (sv : list V) : out (list V) :=
  match rows with
  | [] => Done sv
  | i :: r =>
      try pl <- row_place s c i;
      match pl with
      | None => upd_rows g s c r sv
      | Some (x, y) => try sv' <- upd_cells (g i) (s_j s) (zseq x (Z.to_nat (y - x))) sv; upd_rows g s c r sv'
      end
  end.
(** 1780-1821, 1905-1950, 2026-2067: all blocks; [pre] is done before each. *)
Fixpoint upd_blocks (pre : Z -> out (Z -> Z -> V -> out V)) (s : sprs V) (cs : list Z) (sv : list V) : out (list V) :=
  match cs with
  | [] => Done sv
  | c :: r =>
      try g <- pre c;
      try sv' <- upd_rows g s c (zseq (s_ilo s) (Z.to_nat (s_ihi s - s_ilo s + 1))) sv;
      upd_blocks pre s r sv'
  end.
Definition with_values (s : sprs V) (sv : list V) : sprs V := Sprs (s_ilo s) (s_ihi s) (s_blk s) (s_off s) (s_i s) (s_j s) sv.
Definition upd_all (n : Z) (pre : Z -> out (Z -> Z -> V -> out V)) (s : sprs V) : out (sprs V) :=
  try sv <- upd_blocks pre s (zseq 0 (Z.to_nat n)) (s_v s); Done (with_values s sv).

(** All processes, each on what it holds. *)
Fixpoint on_all (f : sprs V -> out (sprs V)) (ss : list (sprs V)) : out (list (sprs V)) :=
  match ss with [] => Done [] | s :: r => try s' <- f s; try r' <- on_all f r; Done (s' :: r') end.

(** 1972-2075 [pnga_sprs_array_shift_diag] *)
Definition shift_diag (n : Z) (add : V -> V -> V) (shift : V) (ss : list (sprs V)) : out (list (sprs V)) :=
  on_all (upd_all n (fun _ => Done (fun i j x => Done (if i =? j then add x shift else x)))) ss.

(** 1709-1830 [pnga_sprs_array_diag_left_multiply]: [ddim] is the length of the vector;
    1774-1779 get the part for the rows. *)
Definition diag_left (n idim : Z) (mul : V -> V -> V) (ddim : Z) (d : Z -> V) (ss : list (sprs V)) : out (list (sprs V)) :=
  if negb (idim =? ddim) then Abort else
  on_all (fun s =>
    if (0 <=? s_ilo s) && (s_ilo s <=? s_ihi s) && (s_ihi s <? ddim)
    then upd_all n (fun _ => Done (fun i _ x => Done (mul (d i) x))) s
    else Abort) ss.

(** 1838-1960 [pnga_sprs_array_diag_right_multiply]: 1861 compares the number of rows;
    1909-1912 get the part for the columns. *)
Definition diag_right (fuel : nat) (n idim jdim : Z) (mul : V -> V -> V) (ddim : Z) (d : Z -> V) (ss : list (sprs V)) : out (list (sprs V)) :=
  if negb (idim =? ddim) then Abort else
  on_all (upd_all n (fun c =>
    try (jlo, jhi) <- column_distribution fuel n jdim c;
    if (0 <=? jlo) && (jlo <=? jhi) && (jhi <? ddim)
    then Done (fun _ j x => if (0 <=? j - jlo) && (j - jlo <? jhi - jlo + 1) then Done (mul x (d j)) else Undef)
    else Abort)) ss.

(** 4245-4288 [pnga_sprs_array_scale]; pnga_access_ptr of no elements is an error
    (onesided.c 1519-1522). *)
Definition scale (mul : V -> V -> V) (a : V) (ss : list (sprs V)) : out (list (sprs V)) :=
  on_all (fun s => match s_v s with [] => Abort | _ => Done (with_values s (map (fun x => mul x a) (s_v s))) end) ss.
End Ops.
