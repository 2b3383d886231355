(** Specification vocabulary for operations on several arrays. *)
From Verif Require Export SpecCpatch SpecPw MXfer.

(** The memory of the arrays, by handle. *)
Definition store (V : Type) := Z -> heap V.

(** A collective operation is a list of phases; within a phase the element
    operations of all processes happen in any order.  [all_runs]: whatever the
    order, no element operation fails and the result satisfies [Q]. *)
Fixpoint all_runs {S E} (step : S -> E -> option S) (s : S) (phases : list (list E)) (Q : S -> Prop) : Prop :=
  match phases with
  | [] => Q s
  | ph :: rest => forall es, Permutation ph es -> exists s', run_elems step s es = Some s' /\ all_runs step s' rest Q
  end.
(** The phases of the programs of all processes put together. *)
Definition phases_of {E} (n : nat) (progs : list (list (list E))) : list (list E) :=
  map (fun k => flat_map (fun pr => nth k pr []) progs) (seq 0 n).

(** C := alpha A + beta B on patches: [sa v] is the product with alpha, [acc u v]
    the sum of u and the product of v with beta. *)
Definition added {V} (sa : V -> V) (acc : V -> V -> V) (pa pb pc : list Z -> place -> Prop)
           (alo ahi blo bhi clo chi : list Z) (ma mb mc mc' : heap V) : Prop :=
  (forall x y z qa qb qc, corresponds false alo ahi clo chi y x -> corresponds false blo bhi clo chi z x ->
     pa y qa -> pb z qb -> pc x qc ->
     exists va vb, hget ma qa = Some va /\ hget mb qb = Some vb /\ hget mc' qc = Some (acc (sa va) vb)) /\
  (forall q, (forall x, in_box clo chi x -> ~ pc x q) -> hget mc' q = hget mc q).

(** The patches are the same and the processes hold the same parts of A and C. *)
Definition aligned (a c : garray) (alo ahi clo chi : list Z) : Prop :=
  alo = clo /\ ahi = chi /\ forall p, 0 <= p < ga_nproc c -> distribution (ga_desc a) p = distribution (ga_desc c) p.
(** The patches differ in a dimension that both arrays have. *)
Definition differ (alo ahi clo chi : list Z) : Prop :=
  exists i, (i < length alo)%nat /\ (i < length clo)%nat /\ (nth i alo 0 <> nth i clo 0 \/ nth i ahi 0 <> nth i chi 0).
