(** Specification vocabulary for copies between arrays. *)
From Verif Require Export SpecXfer.

(** The elements of A with subscripts in [D] are copied to the elements of B
    with the subscripts [f x]; nothing else changes. *)
Definition copied {V} (D : list Z -> Prop) (f : list Z -> list Z) (pa pb : list Z -> place -> Prop)
           (ma mb mb' : heap V) : Prop :=
  (forall x qa qb, D x -> pa x qa -> pb (f x) qb -> hget mb' qb = hget ma qa) /\
  (forall q, (forall x, D x -> ~ pb (f x) q) -> hget mb' q = hget mb q).

(** The arrays covered: map-distributed on any group with any ghost widths, or
    block-distributed on the world group; [wn] is the number of processes. *)
Definition any_layout (a : garray) (wn : Z) (placed : list Z -> place -> Prop) (shape : list Z -> Prop) : Prop :=
  (wf_array a /\ placed = reg_place a /\ shape = reg_shape a) \/ block_layout a wn placed shape.
(** Arrays whose blocks direct access finds (C17). *)
Definition walk_layout (a : garray) (wn : Z) (placed : list Z -> place -> Prop) (shape : list Z -> Prop) : Prop :=
  any_layout a wn placed shape /\
  (distr_type (ga_desc a) = TILED -> Forall (fun n => n = 2) (nblock (ga_desc a))).

(** The part of the array that a process stores is less than 2 GB. *)
Definition small_local (a : garray) (shape : list Z -> Prop) : Prop :=
  1 <= ga_elemsize a /\ forall sh, shape sh -> ga_elemsize a * zprod sh <= int_max.
