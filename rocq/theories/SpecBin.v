(** Specification vocabulary for sorting values into bins of a one-dimensional
    array.  Every process contributes a list of pairs (bin, value). *)
From Verif Require Export SpecSparse.

(** The values for bin [b], in the order in which they were given. *)
Definition vals_of (b : Z) (l : list (Z * Z)) : list Z := map snd (filter (fun e => fst e =? b) l).
(** How many values a process has for bin [b]. *)
Definition share (b : Z) (l : list (Z * Z)) : Z := Z.of_nat (length (vals_of b l)).
Definition bin_total (inp : Z -> list (Z * Z)) (nproc b : Z) : Z := sum_of Z.add 0 (fun p => share b (inp p)) 0 (nproc - 1).
(** Sorted by bin. *)
Definition by_bin (l : list (Z * Z)) : Prop := forall i j, (i <= j)%nat -> (j < length l)%nat -> fst (nth i l (0, 0)) <= fst (nth j l (0, 0)).
(** Bin [b] starts behind [off b]; the bins lie in 1..ext and do not overlap. *)
Definition bins_fit (inp : Z -> list (Z * Z)) (nproc nb : Z) (off : Z -> Z) (ext : Z) : Prop :=
  (forall b, 1 <= b <= nb -> 0 <= off b /\ off b + bin_total inp nproc b <= ext) /\
  (forall b c, 1 <= b <= nb -> 1 <= c <= nb -> b <> c -> off b + bin_total inp nproc b <= off c \/ off c + bin_total inp nproc c <= off b).
(** The segments [f p, f p + x p) fill [0, total) without overlap. *)
Definition segments_fill (nproc : Z) (f x : Z -> Z) (total : Z) : Prop :=
  (forall p, 0 <= p < nproc -> 0 <= f p /\ f p + x p <= total) /\
  (forall t, 0 <= t < total -> exists p, 0 <= p < nproc /\ f p <= t < f p + x p) /\
  (forall p q t, 0 <= p < nproc -> 0 <= q < nproc -> f p <= t < f p + x p -> f q <= t < f q + x q -> p = q).
