(** Model of /repo/global/src/sparse.array.c: pnga_sprs_array_export.
    Simplifications: what process 0 writes is a list of lines of row, column (from 1) and
    value; the first two lines (1476-1477), the text of numbers and errors of the file are
    left out; the sums of ilo, ihi, blkmap and blksize over all processes (1409-1445) are
    what the processes have; pnga_get copies the elements of its range (C18, C19);
    SPA[].blksize is the distance of the offsets, which 766-767 makes from it;
    integers are unbounded. *)
From Verif Require Import MBase MNb MHandle MGroup MSparse.
From Verif Require Export SpecSprs MSprs MSprs3.
Open Scope Z_scope.

(** 1520-1568: the types; [LongLong] has no case. *)
Inductive kind := Real | Complex | LongLong.

Section Export.
Context {V R : Type}.
Variables (kd : kind) (n : Z) (re im : V -> R) (mk : R -> R -> V).

(** SPA[].blksize *)
Fixpoint sizes_of (off : list Z) (total : Z) : list Z :=
  match off with
  | [] => []
  | a :: r => match r with [] => total - a | b :: _ => b - a end :: sizes_of r total
  end.
(** Element [f] of the values, seen as real numbers. *)
Definition number (s : sprs V) (f : Z) : out R := try x <- rdl (s_v s) (f / 2); Done (if Z.even f then re x else im x).
(** 1519-1541, 1547-1569: what is written for element [k] of a block; [loff] is loffset. *)
Definition export_elt (s : sprs V) (i loff k : Z) : out (list (Z * Z * V)) :=
  match kd with
  | Real => try v <- rdl (s_v s) (k + loff); try j <- rdl (s_j s) (loff + k); Done [(i + 1, j + 1, v)]
  | Complex => try r <- number s (2 * k + loff); try q <- number s (2 * k + 1 + loff); try j <- rdl (s_j s) (loff + k); Done [(i + 1, j + 1, mk r q)]
  | LongLong => Done []
  end.
(** 1513-1570: row [i] of block number [ibl]. *)
Definition export_block (s : sprs V) (i ibl loff : Z) : out (list (Z * Z * V)) :=
  let at_ := ibl * (s_ihi s - s_ilo s + 2) + (i - s_ilo s) in
  try tlo <- rdl (s_i s) at_;
  try thi <- rdl (s_i s) (at_ + 1);
  gather (fun k => export_elt s i loff (tlo + k)) (zseq 0 (Z.to_nat (thi - tlo))).
(** 1506-1572: the loop over ibl. *)
Fixpoint export_blocks (s : sprs V) (i : Z) (blk sz : list Z) (ibl loff : Z) : out (list (Z * Z * V)) :=
  match blk, sz with
  | [], _ => Done []
  | _ :: blk', z :: sz' => try a <- export_block s i ibl loff; try b <- export_blocks s i blk' sz' (ibl + 1) (loff + z); Done (a ++ b)
  | _ :: _, [] => Undef
  end.
(** 1363-1587 [pnga_sprs_array_export] on process 0.  1486-1489: the range of a process
    without elements is empty, and an empty range is an error in pnga_get (base.c 4696-4697,
    iterator.c 216-217). *)
Definition export (ss : list (sprs V)) : out (list (Z * Z * V)) :=
  gather (fun p =>
    match nth_error ss (Z.to_nat p) with
    | None => Undef
    | Some s => if (length (s_v s) =? 0)%nat then Abort else gather (fun i => export_blocks s i (s_blk s) (sizes_of (s_off s) (Z.of_nat (length (s_v s)))) 0 0) (rows_of s)
    end) (zseq 0 (Z.to_nat n)).
End Export.
