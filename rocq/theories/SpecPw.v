(** Specification vocabulary for elementwise operations on arrays. *)
From Verif Require Export SpecGcopy.

(** [f] is applied to the elements with subscripts in [D]; nothing else changes. *)
Definition updated {V} (D : list Z -> Prop) (f : V -> V) (placed : list Z -> place -> Prop) (m m' : heap V) : Prop :=
  (forall x q, D x -> placed x q -> exists v, hget m q = Some v /\ hget m' q = Some (f v)) /\
  (forall q, (forall x, D x -> ~ placed x q) -> hget m' q = hget m q).

(** The cells that the processes of the array have allocated for it. *)
Definition owned (a : garray) (alloc : Z -> Z -> option Z) (q : place) : Prop :=
  exists r n, 0 <= r < ga_nproc a /\ abs_rank a r = Some (fst q) /\ alloc (fst q) r = Some n /\ 0 <= snd q < n.
(** [f] is applied to every cell in [own]; nothing else changes. *)
Definition updated_cells {V} (f : V -> V) (own : place -> Prop) (m m' : heap V) : Prop :=
  (forall q, own q -> exists v, hget m q = Some v /\ hget m' q = Some (f v)) /\
  (forall q, ~ own q -> hget m' q = hget m q).

(** A process has an empty block only if it has no block at all. *)
Definition no_empty_block (a : garray) : Prop :=
  forall p lo hi, 0 <= p < ga_nproc a -> distribution (ga_desc a) p = Some (lo, hi) -> 0 < hd 0 lo -> Forall2 Z.le lo hi.

(** Synchronisations.  Every process runs through a list of barriers, each of
    them given by the processes that have to take part; a barrier is passed
    when all of them have reached it. *)
Inductive syncs_end (callers : list Z) : (Z -> list (list Z)) -> Prop :=
| syncs_done t : (forall p, In p callers -> t p = []) -> syncs_end callers t
| syncs_step g t :
    g <> [] -> (forall p, In p g -> exists r, t p = g :: r) ->
    syncs_end callers (fun p => if existsb (Z.eqb p) g then tl (t p) else t p) ->
    syncs_end callers t.
