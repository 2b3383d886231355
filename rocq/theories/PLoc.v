(** C69: the walk over the local blocks of an array. *)
From Verif Require Import LLoc PDist PIter PIterBlk PAccess.
From Coq Require Import List ZArith Lia. Import ListNotations. Local Open Scope Z_scope.

(** Map-distributed arrays, on any group, with any ghost widths. *)
Theorem C69_regular : forall guess near wn a me w,
  good_guess guess -> wf_array a -> 0 <= me < ga_nproc a -> abs_rank a me = Some w -> near w = true ->
  exists ps, (forall fuel, (2 <= fuel)%nat -> local_iterate fuel guess near wn a me = Some ps) /\
    local_cover (reg_place a) (dims (ga_desc a)) w ps.
Proof. exact regular_iterate. Qed.
Print Assumptions C69_regular.

Theorem C69_block_cyclic_partial : forall guess near a me,
  distr_type (ga_desc a) = BLOCK_CYCLIC -> wf_blocked (ga_desc a) -> ga_group a = None -> 0 <= me < ga_nproc a ->
  exists ps n, (forall fuel, (n <= fuel)%nat -> local_iterate fuel guess near (ga_nproc a) a me = Some ps) /\
    local_cover (block_place a) (dims (ga_desc a)) me ps.
Proof. exact bc_iterate. Qed.
Print Assumptions C69_block_cyclic_partial.

(** Process grids, as far as direct block access works (C17): the process must
    lie inside the block grid in every dimension but the last. *)
Theorem C69_scalapack_partial : forall guess near wn a me,
  distr_type (ga_desc a) = SCALAPACK -> wf_blocked (ga_desc a) -> wf_grid (ga_nproc a) (ga_desc a) ->
  ga_group a = None -> 0 <= me < ga_nproc a ->
  fits_but_last (num_blocks (ga_desc a)) (decode (nblock (ga_desc a)) me) ->
  exists ps n, (forall fuel, (n <= fuel)%nat -> local_iterate fuel guess near wn a me = Some ps) /\
    local_cover (scalapack_place a) (dims (ga_desc a)) me ps.
Proof.
  intros guess near wn a me HT W WG HG Hme HF. pose proof (or_introl W : wf_blocks (ga_desc a)) as WB.
  assert (HA := fun k Hk => block_access_bx (scalapack_place a) wn a k WB Hk (access_scalapack wn a k HT W WG HG Hk)).
  destruct (grid_iterate guess near wn a me (scalapack_place a) WB WG Hme HA HF) as (n & HI).
  eexists _, n. split; [exact HI|]. apply column_cover; auto. intros x q q'. apply scalapack_place_fun.
Qed.
Print Assumptions C69_scalapack_partial.

Theorem C69_tiled_irreg_partial : forall guess near wn a me,
  distr_type (ga_desc a) = TILED_IRREG -> wf_strict_tiled_irreg (ga_desc a) -> wf_grid (ga_nproc a) (ga_desc a) ->
  ga_group a = None -> 0 <= me < ga_nproc a ->
  fits_but_last (num_blocks (ga_desc a)) (decode (nblock (ga_desc a)) me) ->
  exists ps n, (forall fuel, (n <= fuel)%nat -> local_iterate fuel guess near wn a me = Some ps) /\
    local_cover (block_place a) (dims (ga_desc a)) me ps.
Proof.
  intros guess near wn a me HT W WG HG Hme HF. pose proof (or_intror W : wf_blocks (ga_desc a)) as WB.
  assert (HA := fun k Hk => block_access_bx (block_place a) wn a k WB Hk (access_irreg wn a k HT W WG HG Hk)).
  destruct (grid_iterate guess near wn a me (block_place a) WB WG Hme HA HF) as (n & HI).
  eexists _, n. split; [exact HI|]. apply column_cover; auto. intros x q q'. apply block_place_fun, WB.
Qed.
Print Assumptions C69_tiled_irreg_partial.

Theorem C69_tiled_partial : forall guess near wn a me,
  distr_type (ga_desc a) = TILED -> wf_blocked (ga_desc a) -> wf_grid (ga_nproc a) (ga_desc a) ->
  Forall (fun n => n = 2) (nblock (ga_desc a)) -> ga_group a = None -> 0 <= me < ga_nproc a ->
  fits_but_last (num_blocks (ga_desc a)) (decode (nblock (ga_desc a)) me) ->
  exists ps n, (forall fuel, (n <= fuel)%nat -> local_iterate fuel guess near wn a me = Some ps) /\
    local_cover (block_place a) (dims (ga_desc a)) me ps.
Proof.
  intros guess near wn a me HT W WG H2 HG Hme HF. pose proof (or_introl W : wf_blocks (ga_desc a)) as WB.
  assert (HA := fun k Hk => block_access_bx (block_place a) wn a k WB Hk (access_tiled wn a k HT W WG H2 HG Hk)).
  destruct (grid_iterate guess near wn a me (block_place a) WB WG Hme HA HF) as (n & HI).
  eexists _, n. split; [exact HI|]. apply column_cover; auto. intros x q q'. apply block_place_fun, WB.
Qed.
Print Assumptions C69_tiled_partial.

(** No element is handed to two processes, when every element has one place. *)
Theorem C69_one_process : forall (placed : list Z -> place -> Prop) ds w w' ps ps' q q' x,
  (forall x q q', placed x q -> placed x q' -> q = q') ->
  local_cover placed ds w ps -> local_cover placed ds w' ps' ->
  In q ps -> In q' ps' -> in_box (lp_lo q) (lp_hi q) x -> in_box (lp_lo q') (lp_hi q') x -> w = w'.
Proof.
  intros placed ds w w' ps ps' q q' x HF [_ P] [_ P'] Hq Hq' Hx Hx'.
  destruct (P q Hq) as (_ & _ & H). destruct (P' q' Hq') as (_ & _ & H').
  pose proof (HF _ _ _ (H x Hx) (H' x Hx')). congruence.
Qed.
Print Assumptions C69_one_process.

(** Four processes; the 7 x 5 matrix in 2 x 2 blocks on a 2 x 2 grid. *)
Example C69_ex_grid : fits_but_last (num_blocks (ga_desc (ex_grid SCALAPACK))) (decode (nblock (ga_desc (ex_grid SCALAPACK))) 1) /\
  local_iterate 9 ex_guess (fun _ => true) 4 (ex_grid SCALAPACK) 1 =
    Some [LPiece [3; 1] [4; 2] 1 0 [3]; LPiece [7; 1] [7; 2] 1 2 [3];
          LPiece [3; 5] [4; 5] 1 6 [3]; LPiece [7; 5] [7; 5] 1 8 [3]] /\
  local_iterate 9 ex_guess (fun _ => true) 4 (ex_grid TILED) 3 =
    Some [LPiece [3; 3] [4; 4] 3 0 [2]; LPiece [7; 3] [7; 4] 3 4 [1]].
Proof. split; [cbn; lia|]. split; vm_compute; reflexivity. Qed.
Example C69_ex_reg : wf_array ex_ga /\ good_guess ex_guess /\ abs_rank ex_ga 1 = Some 2 /\
  local_iterate 2 ex_guess (fun w => w =? 2) 4 ex_ga 1 = Some [LPiece [6; 1] [10; 3] 2 15 [7]].
Proof. split; [exact ex_ga_wf|]. split; [exact ex_guess_good|]. split; vm_compute; reflexivity. Qed.

(** Two processes in a 2 x 1 grid, a 2 x 4 matrix in blocks of 2 x 2: process 1
    owns nothing, and its walk stops with an error instead of being empty. *)
Definition loc_tall (t : distr) : garray :=
  {| ga_desc := {| distr_type := t; dims := [2; 4]; nblock := [2; 1]; mapc := [];
                   block_dims := [2; 2]; num_blocks := [1; 2]; rstrctd_list := []; rank_rstrctd := [] |};
     ga_width := [0; 0]; ga_group := None; ga_nproc := 2; ga_elemsize := 8 |}.
Theorem C69_grid_refuted : exists a me,
  distr_type (ga_desc a) = SCALAPACK /\ wf_blocked (ga_desc a) /\ wf_grid (ga_nproc a) (ga_desc a) /\
  ga_group a = None /\ 0 <= me < ga_nproc a /\
  (forall k, 0 <= k < zprod (num_blocks (ga_desc a)) -> block_home (ga_nproc a) (ga_desc a) k <> Some me) /\
  forall fuel guess near wn, local_iterate fuel guess near wn a me = None.
Proof.
  exists (loc_tall SCALAPACK), 1.
  assert (W : wf_blocked (ga_desc (loc_tall SCALAPACK))).
  { split; [cbn; tauto|]. split; [discriminate|]. split; [cbn; lia|]. split; [cbn; lia|reflexivity]. }
  split; [reflexivity|]. split; [exact W|]. split.
  { split; [left; exact W|]. split; [discriminate|]. split; [reflexivity|]. split; [cbn; repeat constructor; lia|reflexivity]. }
  split; [reflexivity|]. split; [cbn; lia|]. split.
  - intros k Hk. assert (k = 0 \/ k = 1) as [-> | ->] by (cbn in Hk; lia); vm_compute; discriminate.
  - intros [|f] guess near wn; reflexivity.
Qed.
Print Assumptions C69_grid_refuted.

(** On a process group the walk of a simple block-cyclic array takes the blocks
    of the caller and then fails on the address (C17). *)
Theorem C69_group_refuted : exists wn a me,
  distr_type (ga_desc a) = BLOCK_CYCLIC /\ wf_blocked (ga_desc a) /\ wf_group a /\ 0 <= me < ga_nproc a /\
  forall fuel guess near, local_iterate fuel guess near wn a me = None.
Proof.
  exists 4, (ex_bc1 9 2 (Some [2; 3])), 1.
  split; [reflexivity|]. split; [apply ex_bc1_wf; lia|].
  split; [split; [repeat constructor; cbn; lia|reflexivity]|]. split; [cbn; lia|].
  intros [|[|[|f]]] guess near; reflexivity.
Qed.
Print Assumptions C69_group_refuted.
