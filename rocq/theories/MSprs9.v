(** Model of /repo/global/src/sparse.array.c: pnga_sprs_array_duplicate, and the queries of the
    copy.
    Simplifications: as in MSprs; a matrix is on a group of processes, process [p] is the
    number [p] in it; pnga_duplicate makes global arrays of the same group and distribution,
    and pnga_copy_patch copies the elements of each process (C79), so g_i, g_j and g_data of
    the copy are those of the original; memory is in MSprs8; g_blk is left out.  [nnodes g] is
    the number of processes of group [g], [dflt] the default group at the time of the call. *)
From Verif Require Import MBase MNb MHandle MGroup MSparse MSprs.
Open Scope Z_scope.

(** ga_sparse.array.h: the fields that all processes have alike, and what each has. *)
Record matrix V := Matrix { m_idim : Z; m_jdim : Z; m_grp : Z; m_nprocs : Z; m_on : list (sprs V) }.
Arguments Matrix {V}. Arguments m_idim {V}. Arguments m_jdim {V}. Arguments m_grp {V}. Arguments m_nprocs {V}. Arguments m_on {V}.

Section Duplicate.
Context {V : Type}.
Variable nnodes : Z -> Z.

(** 156-159 in [pnga_sprs_array_create] *)
Definition created (dflt idim jdim : Z) : matrix V := Matrix idim jdim dflt (nnodes dflt) [].
(** 2160-2164: blkidx and offset, one element after the other. *)
Definition copy_first {A} (k : nat) (l : list A) : out (list A) := collect (rdl l) (zseq 0 (Z.to_nat (Z.of_nat k))).
(** 2122-2142, 2160-2164 on one process *)
Definition copy_local (s : sprs V) : out (sprs V) :=
  try b <- copy_first (length (s_blk s)) (s_blk s);
  try o <- copy_first (length (s_blk s)) (s_off s);
  Done (Sprs (s_ilo s) (s_ihi s) b o (s_i s) (s_j s) (s_v s)).
Fixpoint copy_all (ss : list (sprs V)) : out (list (sprs V)) :=
  match ss with [] => Done [] | s :: r => try t <- copy_local s; try u <- copy_all r; Done (t :: u) end.
(** 2082-2167 [pnga_sprs_array_duplicate]: 2148 sets the group, nprocs stays. *)
Definition sprs_duplicate (dflt : Z) (a : matrix V) : out (matrix V) :=
  let c := created dflt (m_idim a) (m_jdim a) in
  try ss <- copy_all (m_on a);
  Done (Matrix (m_idim c) (m_jdim c) (m_grp a) (m_nprocs c) ss).
End Duplicate.

(** 889-919 [pnga_sprs_array_row_distribution] on process [me] *)
Definition rows_of {V} (fuel : nat) (a : matrix V) (me p : Z) : out (Z * Z) :=
  if p =? me then try s <- rdl (m_on a) me; Done (s_ilo s, s_ihi s) else column_distribution fuel (m_nprocs a) (m_idim a) p.
(** 932-956 [pnga_sprs_array_column_distribution] *)
Definition columns_of {V} (fuel : nat) (a : matrix V) (p : Z) : out (Z * Z) := column_distribution fuel (m_nprocs a) (m_jdim a) p.
(** 995-1067 [pnga_sprs_array_access_col_block] on process [me], and row [i] of the block *)
Definition row_of_block {V} (a : matrix V) (me c i : Z) : out (list (Z * V)) := try s <- rdl (m_on a) me; block_row s c i.
