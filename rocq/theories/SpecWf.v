(** Which array descriptors the distribution theorems are about. *)
From Verif Require Export SpecDist MDist.

(** Any value the rounded floating point guess of a block number can take:
    an integer between 0 and the number of blocks. (LDist3.v shows that IEEE
    style rounding gives such a value.) *)
Definition good_guess (guess : Z -> Z -> Z -> Z) : Prop :=
  forall d n s, 1 <= n -> 1 <= s <= d -> 0 <= guess d n s <= n.

(** An array with a map-based distribution, possibly restricted to a list of
    processes, on [nproc] processes. *)
Definition wf_regular (nproc : Z) (g : gadesc) : Prop :=
  distr_type g = REGULAR /\ dims g <> [] /\
  valid_maps (dims g) (nblock g) (mapc g) /\
  ((rstrctd_list g = [] /\ zprod (nblock g) <= nproc) \/
   (rstrctd_list g <> [] /\ NoDup (rstrctd_list g) /\
    set_restricted nproc (rstrctd_list g) = Some (rank_rstrctd g) /\
    zprod (nblock g) <= num_rstrctd g)).

(** Arrays with fixed block sizes (simple block-cyclic, ScaLAPACK, tiled). *)
Definition wf_blocked (g : gadesc) : Prop :=
  (distr_type g = BLOCK_CYCLIC \/ distr_type g = SCALAPACK \/ distr_type g = TILED) /\
  dims g <> [] /\ valid_bdims (dims g) (block_dims g) /\
  is_block_grid (dims g) (block_dims g) (num_blocks g) /\ rstrctd_list g = [].

(** Arrays tiled by user block maps. *)
Definition wf_tiled_irreg (g : gadesc) : Prop :=
  distr_type g = TILED_IRREG /\ dims g <> [] /\
  valid_maps (dims g) (num_blocks g) (mapc g) /\ rstrctd_list g = [].

(** A grid array: blocked, with a process grid of positive extents. *)
Definition wf_grid (nproc : Z) (g : gadesc) : Prop :=
  (wf_blocked g \/ wf_tiled_irreg g) /\ distr_type g <> BLOCK_CYCLIC /\
  length (nblock g) = length (dims g) /\ Forall (fun n => 1 <= n) (nblock g) /\
  zprod (nblock g) = nproc.

(** The region is at least one block wide in every dimension. *)
Fixpoint region_at_least_block (bdims lo hi : list Z) : Prop :=
  match bdims, lo, hi with
  | [], [], [] => True
  | b :: bdims', l :: lo', h :: hi' => b <= h - l + 1 /\ region_at_least_block bdims' lo' hi'
  | _, _, _ => False
  end.

(** Map-distributed arrays without empty blocks. *)
Definition wf_strict_regular (nproc : Z) (g : gadesc) : Prop :=
  wf_regular nproc g /\ strict_maps (dims g) (nblock g) (mapc g).

Definition wf_strict_tiled_irreg (g : gadesc) : Prop :=
  wf_tiled_irreg g /\ strict_maps (dims g) (num_blocks g) (mapc g).
