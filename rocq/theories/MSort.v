(** Model of /repo/global/src/hsort.scat.c: the heap sort of keys with payloads
    used by ga_bin_sorter and ga_scatter_acc, and of the grouping of entries by
    process in pnga_scatter_acc2d (/repo/global/src/onesided.c).
    Simplifications: the arrays that are sorted together are one array of records;
    position [k] stands for base0 + k (base0 = base - 1); [hi] and [gap] are
    numbers. *)
From Verif Require Export SpecSort.
From Verif Require Import MNb MHandle.

Section sort.
Context {A : Type} (key : A -> Z) (w : A -> A).
(** SWAP (hsort.scat.c 73-82 and others): [w] is what the temporary variables make
    of an element (168: int for Integer values). *)
Definition swp (a : Z -> A) (i j : Z) : Z -> A := fset (fset a i (a j)) j (w (a i)).
(** hsort.scat.c 33-41 and 45-54: the element at [g] sinks. *)
Fixpoint sift (fuel : nat) (a : Z -> A) (g hi : Z) : Z -> A :=
  match fuel with
  | O => a
  | S f =>
    let q := g + g in
    if q <=? hi then
      let q := if negb (q =? hi) && (key (a q) <? key (a (q + 1))) then q + 1 else q in
      if key (a q) <=? key (a g) then a else sift f (swp a g q) q hi
    else a
  end.
(** hsort.scat.c 32-42. *)
Fixpoint heapify (fuel : nat) (a : Z -> A) (gap hi : Z) : Z -> A :=
  match fuel with
  | O => a
  | S f => if gap =? 1 then a else heapify f (sift (Z.to_nat hi) a gap hi) (gap - 1) hi
  end.
(** hsort.scat.c 44-56. *)
Fixpoint drain (fuel : nat) (a : Z -> A) (hi : Z) : Z -> A :=
  match fuel with
  | O => a
  | S f => if hi =? 1 then a else drain f (swp (sift (Z.to_nat hi) a 1 hi) 1 hi) (hi - 1)
  end.
(** hsort.scat.c 23-57 INDEX_SORT after the test of the number of elements. *)
Definition index_sort (a : Z -> A) (n : Z) : Z -> A :=
  if n <? 2 then a
  else let gap := n / 2 in
       let hi := if n mod 2 =? 1 then gap + gap + 1 else gap + gap in
       drain (Z.to_nat n) (heapify (Z.to_nat n) a gap hi) hi.
End sort.

(** hsort.scat.c 273-279 [gai_hsort]. *)
Definition gai_hsort (a : Z -> Z) (n : Z) : Z -> Z := index_sort (fun x => x) (fun x => x) a n.

(** An entry of a scatter: the process, the value and the two subscripts. *)
Record entry (V : Type) := Entry { e_proc : Z; e_val : V; e_i : Z; e_j : Z }.
Arguments Entry {V}.
Arguments e_proc {V}.
Arguments e_val {V}.
Arguments e_i {V}.
Arguments e_j {V}.
Inductive sort_type := T_dbl | T_dcpl | T_scpl | T_int | T_flt | T_long | T_longlong.
(** A value of type Integer through a variable of type int. *)
Definition wrap32 (x : Z) : Z := (x + 2 ^ 31) mod 2 ^ 32 - 2 ^ 31.
(** hsort.scat.c 156-178: the temporary for keys and subscripts is an int. *)
Definition through {V} (t : sort_type) (e : entry V) : entry V :=
  match t with T_int => Entry (wrap32 (e_proc e)) (e_val e) (wrap32 (e_i e)) (wrap32 (e_j e)) | _ => e end.
(** hsort.scat.c 231-248 [ga_sort_scat]: long long is not a case. *)
Definition ga_sort_scat {V} (t : sort_type) (a : Z -> entry V) (n : Z) : out (Z -> entry V) :=
  match t with T_longlong => Abort | _ => Done (index_sort e_proc (through t) a n) end.
(** onesided.c 2719-2725: how many entries from [first] on have the same process. *)
Fixpoint run_len {V} (a : Z -> entry V) (proc : Z) (fuel : nat) (k : Z) : Z :=
  match fuel with O => 0 | S f => if proc =? e_proc (a k) then 1 + run_len a proc f (k + 1) else 0 end.
(** onesided.c 2716-2735: the groups, each sent to one process; [first] counts
    from 0 in the code. *)
Fixpoint groups {V} (a : Z -> entry V) (n : Z) (fuel : nat) (first : Z) : list (Z * list (entry V)) :=
  match fuel with
  | O => []
  | S f => if first <=? n then
             let proc := e_proc (a first) in
             let nelem := run_len a proc (Z.to_nat (n - first + 1)) first in
             (proc, map a (zseq first (Z.to_nat nelem))) :: groups a n f (first + nelem)
           else []
  end.
(** onesided.c 2678-2739 [pnga_scatter_acc2d] with located entries: what is sent to
    whom, and the arrays of the caller afterwards (the sort permutes them). *)
Definition scatter_acc2d {V} (t : sort_type) (a : Z -> entry V) (n : Z) : out (list (Z * list (entry V)) * (Z -> entry V)) :=
  if n <? 1 then Done ([], a)
  else try b <- ga_sort_scat t a n; Done (groups b n (Z.to_nat n) 1, b).
