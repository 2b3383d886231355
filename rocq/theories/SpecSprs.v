(** Specification vocabulary for sparse matrices (the ga_sprs_array functions).  Rows and
    columns are numbered from 0. *)
From Verif Require Export SpecBox LRadix SpecSparse.
From Coq Require Import Permutation.
Open Scope Z_scope.

(** An element: row, column, value. *)
Definition elt (V : Type) := (Z * Z * V)%type.
Definition erow {V} (e : elt V) : Z := fst (fst e).
Definition ecol {V} (e : elt V) : Z := snd (fst e).
Definition evalue {V} (e : elt V) : V := snd e.
Definition inside {V} (idim jdim : Z) (e : elt V) : Prop := 0 <= erow e < idim /\ 0 <= ecol e < jdim.

(** [x] is in part [p] when 0 .. d-1 is cut into [n] parts as equal as possible. *)
Definition in_part (n d p x : Z) : Prop := p * d <= x * n < (p + 1) * d.
Definition in_partb (n d p x : Z) : bool := (p * d <=? x * n) && (x * n <? (p + 1) * d).

(** The elements that the processes of a world of [n] added. *)
Definition all_elts {V} (n : Z) (els : Z -> list (elt V)) : list (elt V) := flat_map els (zseq 0 (Z.to_nat n)).

(** Columns and values of the elements of row [i] in part [c] of the columns. *)
Definition row_part {V} (n jdim c i : Z) (l : list (elt V)) : list (Z * V) :=
  map (fun e => (ecol e, evalue e)) (filter (fun e => (erow e =? i) && in_partb n jdim c (ecol e)) l).

(** The pairs of processes, in some order. *)
Definition all_pairs (n : Z) (o : list (Z * Z)) : Prop :=
  Permutation o (list_prod (zseq 0 (Z.to_nat n)) (zseq 0 (Z.to_nat n))).

(** The sum of a list. *)
Definition lsum {V} (add : V -> V -> V) (zero : V) (l : list V) : V := fold_right add zero l.
(** Row [i] of the product of the matrix with elements [l] and the vector [x]. *)
Definition row_product {V} (add mul : V -> V -> V) (zero : V) (l : list (elt V)) (x : Z -> V) (i : Z) : V :=
  lsum add zero (map (fun e => mul (evalue e) (x (ecol e))) (filter (fun e => erow e =? i) l)).
