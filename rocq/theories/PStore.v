(** Property theorems: distinct elements have distinct storage inside the
    allocated memory (C15, C16). *)
From Verif Require Import LStore PIter PIterBlk.
Open Scope Z_scope.

(** * C15 *)
Theorem C15_regular_storage : forall wn a,
  wf_array a -> sound_storage a (reg_place a) (fun q r => alloc_elems wn q r a).
Proof. intros. apply regular_storage. assumption. Qed.
Print Assumptions C15_regular_storage.

(** The process of rank 1 in the group of [ex_ga] holds a 5 x 3 block in a
    7 x 7 region. *)
Example C15_ex : wf_array ex_ga /\ distribution (ga_desc ex_ga) 1 = Some ([6; 1], [10; 3]) /\
  alloc_elems 8 2 1 ex_ga = Some 49.
Proof. split; [exact ex_ga_wf|]. split; vm_compute; reflexivity. Qed.

(** * C16 *)
(** Proved for arrays on the world group. *)
Theorem C16_block_cyclic_storage_partial : forall a,
  distr_type (ga_desc a) = BLOCK_CYCLIC -> wf_blocked (ga_desc a) -> ga_group a = None ->
  1 <= ga_nproc a ->
  sound_storage a (block_place a) (fun q r => alloc_elems (ga_nproc a) q r a).
Proof. intros. apply bc_storage; assumption. Qed.
Print Assumptions C16_block_cyclic_storage_partial.

Theorem C16_tiled_storage_partial : forall wn a,
  distr_type (ga_desc a) = TILED \/ distr_type (ga_desc a) = TILED_IRREG ->
  wf_blocks (ga_desc a) -> wf_grid (ga_nproc a) (ga_desc a) -> ga_group a = None ->
  sound_storage a (block_place a) (fun q r => alloc_elems wn q r a).
Proof. intros. apply tiled_storage; assumption. Qed.
Print Assumptions C16_tiled_storage_partial.

Theorem C16_scalapack_storage_partial : forall wn a,
  distr_type (ga_desc a) = SCALAPACK ->
  wf_blocked (ga_desc a) -> wf_grid (ga_nproc a) (ga_desc a) -> ga_group a = None ->
  sound_storage a (scalapack_place a) (fun q r => alloc_elems wn q r a).
Proof. intros. apply scalapack_storage; assumption. Qed.
Print Assumptions C16_scalapack_storage_partial.

Example C16_ex : wf_blocked (ga_desc (ex_bc1 11 2 None)) /\
  map (fun q => alloc_elems 2 q q (ex_bc1 11 2 None)) [0; 1] = [Some 6; Some 5] /\
  wf_blocked (ga_desc (ex_grid TILED)) /\ wf_grid 4 (ga_desc (ex_grid TILED)) /\
  map (fun q => alloc_elems 4 q q (ex_grid TILED)) [0; 1; 2; 3] = [Some 12; Some 9; Some 8; Some 6] /\
  wf_blocked (ga_desc (ex_grid SCALAPACK)) /\ wf_grid 4 (ga_desc (ex_grid SCALAPACK)) /\
  map (fun q => alloc_elems 4 q q (ex_grid SCALAPACK)) [0; 1; 2; 3] = [Some 12; Some 9; Some 8; Some 6].
Proof.
  split; [apply ex_bc1_wf; lia|]. split; [vm_compute; reflexivity|].
  split; [apply ex_grid_wf; tauto|]. split; [apply ex_grid_wf; tauto|]. split; [vm_compute; reflexivity|].
  split; [apply ex_grid_wf; tauto|]. split; [apply ex_grid_wf; tauto|]. vm_compute; reflexivity.
Qed.

(** A block-cyclic array on a group of two of four processes: the memory of a
    process is sized for the blocks it would hold if all processes took part,
    so that element 9 lies outside. *)
Theorem C16_group_memory_refuted : exists a wn x q,
  distr_type (ga_desc a) = BLOCK_CYCLIC /\ wf_blocked (ga_desc a) /\ wf_group a /\
  1 <= ga_nproc a < wn /\ in_array (dims (ga_desc a)) x /\ block_place a x q /\
  abs_rank a (fst q) = Some (fst q) /\ 0 <= fst q < ga_nproc a /\
  exists n, alloc_elems wn (fst q) (fst q) a = Some n /\ n <= snd q.
Proof.
  exists (ex_bc1 10 2 (Some [0; 1])), 4, [9], (0, 4).
  split; [reflexivity|]. split; [apply ex_bc1_wf; lia|].
  split; [split; [repeat constructor; cbn; lia|reflexivity]|]. split; [cbn; lia|].
  split; [cbn; lia|]. split.
  { exists 4, [9], [10]. split; [vm_compute; split; [discriminate|reflexivity]|].
    split; [vm_compute; reflexivity|]. split; [cbn; lia|]. split; vm_compute; reflexivity. }
  split; [reflexivity|]. split; [cbn; lia|]. exists 4. split; [vm_compute; reflexivity|cbn; lia].
Qed.
Print Assumptions C16_group_memory_refuted.
