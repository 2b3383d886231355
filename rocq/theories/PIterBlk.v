(** Property theorems: the iterator on block-cyclic, ScaLAPACK and tiled
    arrays (C13, C14). *)
From Verif Require Import LIterSca PIter.
Open Scope Z_scope.

(** * C13 *)
(** Proved for arrays on the world group with at least one block per process;
    the two refutations show what happens otherwise. *)
Theorem C13_block_cyclic_iterator_partial : forall guess rnd a lo hi,
  distr_type (ga_desc a) = BLOCK_CYCLIC -> wf_blocked (ga_desc a) -> ga_group a = None ->
  1 <= ga_nproc a <= zprod (num_blocks (ga_desc a)) ->
  in_array (dims (ga_desc a)) lo -> in_array (dims (ga_desc a)) hi -> Forall2 Z.le lo hi ->
  exists ps fuel0,
    (forall fuel, (fuel0 <= fuel)%nat -> iterate fuel guess rnd (ga_nproc a) a lo hi = Some ps) /\
    covers (block_place a) (block_shape a) ps lo hi.
Proof.
  intros guess rnd a lo hi HT W HG [H1 H2] Hlo Hhi Hle. exact (iterate_bc a HT W HG H1 H2 lo hi Hle Hlo Hhi guess rnd).
Qed.
Print Assumptions C13_block_cyclic_iterator_partial.

(** A vector of [d] elements in blocks of two on [n] processes. *)
Definition ex_bc1 (d n : Z) (grp : option (list Z)) : garray :=
  {| ga_desc := {| distr_type := BLOCK_CYCLIC; dims := [d]; nblock := [1]; mapc := [];
                   block_dims := [2]; num_blocks := [(d + 1) / 2];
                   rstrctd_list := []; rank_rstrctd := [] |};
     ga_width := [0]; ga_group := grp; ga_nproc := n; ga_elemsize := 8 |}.

Lemma ex_bc1_wf d n grp : 1 <= d -> wf_blocked (ga_desc (ex_bc1 d n grp)).
Proof.
  intros Hd. split; [left; reflexivity|]. split; [discriminate|].
  split; [cbn [valid_bdims ex_bc1 ga_desc dims block_dims]; lia|]. split; [|reflexivity].
  cbn [is_block_grid ex_bc1 ga_desc dims block_dims num_blocks]. split; [|exact I].
  pose proof (Z.div_mod (d + 1) 2 ltac:(lia)). pose proof (Z.mod_pos_bound (d + 1) 2 ltac:(lia)).
  split; lia.
Qed.

(** Eleven elements on two processes: elements 2..8. *)
Example C13_ex :
  wf_blocked (ga_desc (ex_bc1 11 2 None)) /\ 1 <= 2 <= zprod (num_blocks (ga_desc (ex_bc1 11 2 None))) /\
  iterate 9 ex_guess (fun _ => 0) 2 (ex_bc1 11 2 None) [2] [8] =
    Some [IPiece 0 0 [2] [2] 1 [2]; IPiece 0 0 [5] [6] 2 [2];
          IPiece 1 1 [3] [4] 0 [2]; IPiece 1 1 [7] [8] 2 [2]].
Proof. split; [apply ex_bc1_wf; lia|]. split; [vm_compute; split; discriminate|]. vm_compute. reflexivity. Qed.

(** With fewer blocks than processes elements are visited twice, the second
    time on a process that owns no block. *)
Theorem C13_fewer_blocks_refuted : exists a lo hi ps p,
  distr_type (ga_desc a) = BLOCK_CYCLIC /\ wf_blocked (ga_desc a) /\ ga_group a = None /\ 1 <= ga_nproc a /\
  in_array (dims (ga_desc a)) lo /\ in_array (dims (ga_desc a)) hi /\ Forall2 Z.le lo hi /\
  (forall fuel guess rnd, (9 <= fuel)%nat -> iterate fuel guess rnd (ga_nproc a) a lo hi = Some ps) /\
  ~ tiles ps (fun p => (ip_lo p, ip_hi p)) (in_box lo hi) /\
  In p ps /\ forall k, 0 <= k < zprod (num_blocks (ga_desc a)) ->
     block_home (ga_nproc a) (ga_desc a) k <> Some (ip_proc p).
Proof.
  exists (ex_bc1 4 3 None), [1], [4].
  exists [IPiece 0 0 [1] [2] 0 [2]; IPiece 1 1 [3] [4] 0 [2]; IPiece 2 2 [1] [2] 0 [2]].
  exists (IPiece 2 2 [1] [2] 0 [2]).
  split; [reflexivity|]. split; [apply ex_bc1_wf; lia|]. split; [reflexivity|]. split; [cbn; lia|].
  split; [cbn; lia|]. split; [cbn; lia|]. split; [repeat constructor; lia|]. split.
  - intros fuel guess rnd Hf. do 9 (destruct fuel as [|fuel]; [lia|]). vm_compute. reflexivity.
  - split.
    + intros [_ HU]. destruct (HU [1] ltac:(cbn; lia)) as (k & q & _ & _ & HK).
      pose proof (HK 0%nat (IPiece 0 0 [1] [2] 0 [2]) eq_refl ltac:(cbn; lia)).
      pose proof (HK 2%nat (IPiece 2 2 [1] [2] 0 [2]) eq_refl ltac:(cbn; lia)). lia.
    + split; [right; right; left; reflexivity|].
      intros k Hk. replace (zprod (num_blocks (ga_desc (ex_bc1 4 3 None)))) with 2 in Hk by reflexivity.
      assert (k = 0 \/ k = 1) as [-> | ->] by lia; vm_compute; discriminate.
Qed.
Print Assumptions C13_fewer_blocks_refuted.

(** On a process group of two of four processes, half of the blocks are not
    visited at all. *)
Theorem C13_group_blocks_missed_refuted : exists a nn lo hi ps x,
  distr_type (ga_desc a) = BLOCK_CYCLIC /\ wf_blocked (ga_desc a) /\ wf_group a /\
  1 <= ga_nproc a <= zprod (num_blocks (ga_desc a)) /\ ga_nproc a < nn /\
  in_array (dims (ga_desc a)) lo /\ in_array (dims (ga_desc a)) hi /\ Forall2 Z.le lo hi /\
  (forall fuel guess rnd, (9 <= fuel)%nat -> iterate fuel guess rnd nn a lo hi = Some ps) /\
  in_box lo hi x /\ forall p, In p ps -> ~ in_box (ip_lo p) (ip_hi p) x.
Proof.
  exists (ex_bc1 10 2 (Some [0; 1])), 4, [1], [10].
  exists [IPiece 0 0 [1] [2] 0 [2]; IPiece 0 0 [9] [10] 2 [2]; IPiece 1 1 [3] [4] 0 [2]].
  exists [5].
  split; [reflexivity|]. split; [apply ex_bc1_wf; lia|].
  split; [split; [repeat constructor; cbn; lia|reflexivity]|]. split; [vm_compute; split; discriminate|].
  split; [cbn; lia|]. split; [cbn; lia|]. split; [cbn; lia|]. split; [repeat constructor; lia|]. split.
  - intros fuel guess rnd Hf. do 9 (destruct fuel as [|fuel]; [lia|]). vm_compute. reflexivity.
  - split; [cbn; lia|]. intros p [<-|[<-|[<-|[]]]]; cbn; lia.
Qed.
Print Assumptions C13_group_blocks_missed_refuted.

(** On a group whose ranks differ from the world ranks, the address handed to
    the transport is an address of another process. *)
Theorem C13_group_address_refuted : exists a nn lo hi ps p,
  distr_type (ga_desc a) = BLOCK_CYCLIC /\ wf_blocked (ga_desc a) /\ wf_group a /\
  ga_nproc a = nn /\ 1 <= nn <= zprod (num_blocks (ga_desc a)) /\
  in_array (dims (ga_desc a)) lo /\ in_array (dims (ga_desc a)) hi /\ Forall2 Z.le lo hi /\
  (forall fuel guess rnd, (9 <= fuel)%nat -> iterate fuel guess rnd nn a lo hi = Some ps) /\
  In p ps /\ ip_seg p <> ip_proc p.
Proof.
  exists (ex_bc1 4 2 (Some [1; 0])), 2, [1], [4].
  exists [IPiece 1 0 [1] [2] 0 [2]; IPiece 0 1 [3] [4] 0 [2]].
  exists (IPiece 1 0 [1] [2] 0 [2]).
  split; [reflexivity|]. split; [apply ex_bc1_wf; lia|].
  split; [split; [repeat constructor; cbn; lia|reflexivity]|]. split; [reflexivity|].
  split; [vm_compute; split; discriminate|].
  split; [cbn; lia|]. split; [cbn; lia|]. split; [repeat constructor; lia|]. split.
  - intros fuel guess rnd Hf. do 9 (destruct fuel as [|fuel]; [lia|]). vm_compute. reflexivity.
  - split; [left; reflexivity|]. cbn. lia.
Qed.
Print Assumptions C13_group_address_refuted.

(** * C14 *)
(** Proved for arrays on the world group whose process grid has no more
    processes than there are blocks along every dimension; for block maps,
    no block may be empty. *)
Theorem C14_tiled_iterator_partial : forall guess rnd nn a lo hi,
  distr_type (ga_desc a) = TILED \/ distr_type (ga_desc a) = TILED_IRREG ->
  wf_blocks (ga_desc a) -> wf_grid (ga_nproc a) (ga_desc a) -> ga_group a = None ->
  Forall2 Z.le (nblock (ga_desc a)) (num_blocks (ga_desc a)) ->
  Forall2 Z.le lo hi -> in_array (dims (ga_desc a)) lo -> in_array (dims (ga_desc a)) hi ->
  exists ps fuel0,
    (forall fuel, (fuel0 <= fuel)%nat -> iterate fuel guess rnd nn a lo hi = Some ps) /\
    covers (block_place a) (block_shape a) ps lo hi.
Proof.
  intros guess rnd nn a lo hi HT W WG HG HF Hle Hlo Hhi.
  apply iterate_tiled; auto. destruct HT; congruence.
Qed.
Print Assumptions C14_tiled_iterator_partial.

Theorem C14_scalapack_iterator_partial : forall guess rnd nn a lo hi,
  distr_type (ga_desc a) = SCALAPACK ->
  wf_blocked (ga_desc a) -> wf_grid (ga_nproc a) (ga_desc a) -> ga_group a = None ->
  Forall2 Z.le (nblock (ga_desc a)) (num_blocks (ga_desc a)) ->
  Forall2 Z.le lo hi -> in_array (dims (ga_desc a)) lo -> in_array (dims (ga_desc a)) hi ->
  exists ps fuel0,
    (forall fuel, (fuel0 <= fuel)%nat -> iterate fuel guess rnd nn a lo hi = Some ps) /\
    covers (scalapack_place a) (scalapack_shape a) ps lo hi.
Proof. intros guess rnd nn a lo hi HT W WG HG HF Hle Hlo Hhi. apply iterate_scalapack; auto. Qed.
Print Assumptions C14_scalapack_iterator_partial.

(** A 7 x 5 matrix in 2 x 2 blocks on a 2 x 2 grid. *)
Definition ex_grid (t : distr) : garray :=
  {| ga_desc := {| distr_type := t; dims := [7; 5]; nblock := [2; 2]; mapc := [];
                   block_dims := [2; 2]; num_blocks := [4; 3];
                   rstrctd_list := []; rank_rstrctd := [] |};
     ga_width := [0; 0]; ga_group := None; ga_nproc := 4; ga_elemsize := 8 |}.
Lemma ex_grid_wf t : t = TILED \/ t = SCALAPACK ->
  wf_blocked (ga_desc (ex_grid t)) /\ wf_grid 4 (ga_desc (ex_grid t)).
Proof.
  intros Ht. assert (W : wf_blocked (ga_desc (ex_grid t))).
  { split; [cbn; tauto|]. split; [discriminate|]. split; [cbn; lia|]. split; [cbn; lia|reflexivity]. }
  split; [exact W|]. split; [left; exact W|]. split; [destruct Ht; subst; discriminate|].
  split; [reflexivity|]. split; [cbn; repeat constructor; lia|reflexivity].
Qed.
Example C14_tiled_ex :
  Forall2 Z.le (nblock (ga_desc (ex_grid TILED))) (num_blocks (ga_desc (ex_grid TILED))) /\
  iterate 20 ex_guess (fun _ => 0) 4 (ex_grid TILED) [2; 2] [6; 3] =
    Some [IPiece 0 0 [2; 2] [2; 2] 3 [2]; IPiece 0 0 [5; 2] [6; 2] 6 [2];
          IPiece 1 1 [3; 2] [4; 2] 2 [2];
          IPiece 2 2 [2; 3] [2; 3] 1 [2]; IPiece 2 2 [5; 3] [6; 3] 4 [2];
          IPiece 3 3 [3; 3] [4; 3] 0 [2]].
Proof. split; [cbn; repeat constructor; lia|vm_compute; reflexivity]. Qed.
Example C14_scalapack_ex :
  Forall2 Z.le (nblock (ga_desc (ex_grid SCALAPACK))) (num_blocks (ga_desc (ex_grid SCALAPACK))) /\
  iterate 20 ex_guess (fun _ => 0) 4 (ex_grid SCALAPACK) [2; 2] [6; 3] =
    Some [IPiece 0 0 [2; 2] [2; 2] 5 [4]; IPiece 0 0 [5; 2] [6; 2] 6 [4];
          IPiece 1 1 [3; 2] [4; 2] 3 [3];
          IPiece 2 2 [2; 3] [2; 3] 1 [4]; IPiece 2 2 [5; 3] [6; 3] 2 [4];
          IPiece 3 3 [3; 3] [4; 3] 0 [3]].
Proof. split; [cbn; repeat constructor; lia|vm_compute; reflexivity]. Qed.

(** A vector of four elements in blocks of two on four processes: the
    processes without a block are handed inverted ranges. *)
Theorem C14_inverted_range_refuted : exists a lo hi ps p,
  distr_type (ga_desc a) = SCALAPACK /\ wf_blocked (ga_desc a) /\ wf_grid (ga_nproc a) (ga_desc a) /\
  ga_group a = None /\
  in_array (dims (ga_desc a)) lo /\ in_array (dims (ga_desc a)) hi /\ Forall2 Z.le lo hi /\
  (forall fuel guess rnd nn, (9 <= fuel)%nat -> iterate fuel guess rnd nn a lo hi = Some ps) /\
  In p ps /\ ~ Forall2 Z.le (ip_lo p) (ip_hi p).
Proof.
  set (a := {| ga_desc := {| distr_type := SCALAPACK; dims := [4]; nblock := [4]; mapc := [];
                   block_dims := [2]; num_blocks := [2]; rstrctd_list := []; rank_rstrctd := [] |};
     ga_width := [0]; ga_group := None; ga_nproc := 4; ga_elemsize := 8 |}).
  assert (W : wf_blocked (ga_desc a)).
  { split; [cbn; tauto|]. split; [discriminate|]. split; [cbn; lia|]. split; [cbn; lia|reflexivity]. }
  exists a, [1], [4].
  exists [IPiece 0 0 [1] [2] 0 []; IPiece 1 1 [3] [4] 0 []; IPiece 2 2 [5] [4] 0 []; IPiece 3 3 [7] [4] 0 []].
  exists (IPiece 3 3 [7] [4] 0 []).
  split; [reflexivity|]. split; [exact W|]. split.
  { split; [left; exact W|]. split; [discriminate|]. split; [reflexivity|]. split; [|reflexivity].
    cbn. repeat constructor; lia. }
  split; [reflexivity|]. split; [cbn; lia|]. split; [cbn; lia|]. split; [repeat constructor; lia|]. split.
  - intros fuel guess rnd nn Hf. do 9 (destruct fuel as [|fuel]; [lia|]). vm_compute. reflexivity.
  - split; [cbn; tauto|]. cbn. intros H. inversion H; lia.
Qed.
Print Assumptions C14_inverted_range_refuted.

(** On a process group the rank a transfer is sent to and the memory it is
    aimed at belong to different processes. *)
Theorem C14_group_address_refuted : exists a lo hi ps p,
  distr_type (ga_desc a) = TILED /\ wf_blocked (ga_desc a) /\ wf_grid (ga_nproc a) (ga_desc a) /\
  wf_group a /\ Forall2 Z.le (nblock (ga_desc a)) (num_blocks (ga_desc a)) /\
  in_array (dims (ga_desc a)) lo /\ in_array (dims (ga_desc a)) hi /\ Forall2 Z.le lo hi /\
  (forall fuel guess rnd nn, (9 <= fuel)%nat -> iterate fuel guess rnd nn a lo hi = Some ps) /\
  In p ps /\ ip_seg p <> ip_proc p.
Proof.
  set (a := {| ga_desc := {| distr_type := TILED; dims := [4]; nblock := [2]; mapc := [];
                   block_dims := [2]; num_blocks := [2]; rstrctd_list := []; rank_rstrctd := [] |};
     ga_width := [0]; ga_group := Some [1; 0]; ga_nproc := 2; ga_elemsize := 8 |}).
  assert (W : wf_blocked (ga_desc a)).
  { split; [cbn; tauto|]. split; [discriminate|]. split; [cbn; lia|]. split; [cbn; lia|reflexivity]. }
  exists a, [1], [4].
  exists [IPiece 1 0 [1] [2] 0 [2]; IPiece 0 1 [3] [4] 0 [2]].
  exists (IPiece 1 0 [1] [2] 0 [2]).
  split; [reflexivity|]. split; [exact W|]. split.
  { split; [left; exact W|]. split; [discriminate|]. split; [reflexivity|]. split; [|reflexivity].
    cbn. repeat constructor; lia. }
  split; [split; [repeat constructor; cbn; lia|reflexivity]|]. split; [cbn; repeat constructor; lia|].
  split; [cbn; lia|]. split; [cbn; lia|]. split; [repeat constructor; lia|]. split.
  - intros fuel guess rnd nn Hf. do 9 (destruct fuel as [|fuel]; [lia|]). vm_compute. reflexivity.
  - split; [cbn; tauto|]. cbn. lia.
Qed.
Print Assumptions C14_group_address_refuted.
