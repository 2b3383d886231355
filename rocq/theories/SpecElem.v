(** Arrays whose single elements can be addressed (read-and-increment, gather,
    scatter), with the placement of their elements; [nn] is the number of
    processes.  A tiled array qualifies only if every extent of its process
    grid is two (see C17). *)
From Verif Require Export SpecXfer.

Definition elem_layout (a : garray) (nn : Z) (placed : list Z -> place -> Prop) : Prop :=
  let g := ga_desc a in
  (wf_array a /\ placed = reg_place a) \/
  (ga_group a = None /\
   ((distr_type g = BLOCK_CYCLIC /\ wf_blocked g /\ nn = ga_nproc a /\ 1 <= ga_nproc a /\ placed = block_place a) \/
    (wf_grid (ga_nproc a) g /\
     ((distr_type g = TILED_IRREG /\ wf_strict_tiled_irreg g /\ placed = block_place a) \/
      (distr_type g = SCALAPACK /\ wf_blocked g /\ placed = scalapack_place a) \/
      (distr_type g = TILED /\ wf_blocked g /\ Forall (fun n => n = 2) (nblock g) /\ placed = block_place a))))).

(** Increments a history of calls has applied to element [x]. *)
Fixpoint increments (x : list Z) (calls : list (list Z * Z)) : Z :=
  match calls with
  | [] => 0
  | c :: calls' => (if list_eq_dec Z.eq_dec (fst c) x then snd c else 0) + increments x calls'
  end.

(** Effect of gathering, scattering and accumulating the list of elements
    [subs]; position [i] of the buffer belongs to the i-th subscript. *)
Definition gather_effect {V} (placed : list Z -> place -> Prop) (subs : list (list Z)) (m : heap V)
           (buf buf' : buffer V) : Prop :=
  (forall i x q, nth_error subs i = Some x -> placed x q -> buf' (Z.of_nat i) = hget m q) /\
  (forall j, ~ 0 <= j < Z.of_nat (length subs) -> buf' j = buf j).
Definition scatter_effect {V} (placed : list Z -> place -> Prop) (subs : list (list Z)) (buf : buffer V)
           (m m' : heap V) : Prop :=
  (forall i x q, nth_error subs i = Some x -> placed x q -> hget m' q = buf (Z.of_nat i)) /\
  (forall q, (forall x, In x subs -> ~ placed x q) -> hget m' q = hget m q).
(** Values that go to element [x], in the order of the list. *)
Fixpoint values_for {V} (x : list Z) (subs : list (list Z)) (buf : buffer V) (i : Z) : list V :=
  match subs with
  | [] => []
  | s :: subs' =>
      (if list_eq_dec Z.eq_dec s x then match buf i with Some w => [w] | None => [] end else [])
      ++ values_for x subs' buf (i + 1)
  end.
Definition scatter_acc_effect {V} (f : V -> V -> V) (placed : list Z -> place -> Prop) (subs : list (list Z))
           (buf : buffer V) (m m' : heap V) : Prop :=
  (forall x q v, placed x q -> hget m q = Some v -> hget m' q = Some (fold_left f (values_for x subs buf 0) v)) /\
  (forall q, (forall x, ~ placed x q) -> hget m' q = hget m q).
