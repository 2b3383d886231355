(** Property theorems: distribution queries (C01, C02, C05-C10). *)
From Verif Require Import LDist3.
Open Scope Z_scope.

(** The array used in examples: 10 x 7 elements on 4 processes, 2 x 2 blocks. *)
Definition ex_reg : gadesc :=
  {| distr_type := REGULAR; dims := [10; 7]; nblock := [2; 2]; mapc := [1; 6; 1; 4];
     block_dims := []; num_blocks := []; rstrctd_list := []; rank_rstrctd := [] |}.
(** The same array restricted to processes 3,0,2,1 of 5. *)
Definition ex_rstr : gadesc :=
  {| distr_type := REGULAR; dims := [10; 7]; nblock := [2; 2]; mapc := [1; 6; 1; 4];
     block_dims := []; num_blocks := []; rstrctd_list := [3; 0; 2; 1];
     rank_rstrctd := [1; 3; 2; 0; -1] |}.

Ltac solve_arith := first [lia | vm_compute; first [reflexivity | discriminate]].
Ltac solve_mono :=
  let i := fresh "i" in let H := fresh "H" in
  intros i H;
  do 4 (destruct i as [|i]; [first [exfalso; lia | solve_arith]|]); exfalso; lia.
Ltac solve_map := unfold valid_map, strict_map;
  repeat (apply conj; [first [solve_mono | solve_arith]|]); solve_arith.

Example ex_reg_wf : wf_regular 4 ex_reg.
Proof.
  split; [reflexivity|]. split; [discriminate|]. split.
  - cbn [valid_maps ex_reg dims nblock mapc]. split; [solve_map|]. split; [|exact I].
    change (skipn (Z.to_nat 2) [1; 6; 1; 4]) with [1; 4]. solve_map.
  - left. split; [reflexivity|cbn; lia].
Qed.

Example ex_rstr_wf : wf_regular 5 ex_rstr.
Proof.
  split; [reflexivity|]. split; [discriminate|]. split.
  - exact (proj1 (proj2 (proj2 ex_reg_wf))).
  - right. split; [discriminate|]. split.
    { repeat constructor; cbn; lia. }
    split; [reflexivity|cbn; lia].
Qed.

(** * C01 *)
Theorem C01_unique_owner : forall nproc g x,
  wf_regular nproc g -> in_array (dims g) x ->
  exists p, 0 <= p < nproc /\
    (exists lo hi, distribution g p = Some (lo, hi) /\ in_box lo hi x) /\
    forall q lo hi, 0 <= q < nproc -> distribution g q = Some (lo, hi) ->
                    in_box lo hi x -> q = p.
Proof. exact regular_unique_owner. Qed.
Print Assumptions C01_unique_owner.

Theorem C01_blocks_inside : forall nproc g p,
  wf_regular nproc g -> 0 <= p < nproc ->
  exists lo hi, distribution g p = Some (lo, hi) /\
    forall x, in_box lo hi x -> in_array (dims g) x.
Proof. exact regular_blocks_inside. Qed.
Print Assumptions C01_blocks_inside.

(** Hypotheses are met by [ex_reg_wf], [ex_rstr_wf]; the query computes: *)
Example C01_ex : distribution ex_rstr 0 = Some ([6; 1], [10; 3]) /\ in_array (dims ex_rstr) [7; 2].
Proof. split; [reflexivity|cbn; lia]. Qed.

(** The restriction call accepts a list with a repeated process; then an
    element has no owner. *)
Theorem C01_duplicate_restricted_refuted : exists nproc g x,
  distr_type g = REGULAR /\ valid_maps (dims g) (nblock g) (mapc g) /\
  set_restricted nproc (rstrctd_list g) = Some (rank_rstrctd g) /\
  zprod (nblock g) <= num_rstrctd g /\ in_array (dims g) x /\
  forall p lo hi, 0 <= p < nproc -> distribution g p = Some (lo, hi) -> ~ in_box lo hi x.
Proof.
  exists 2, {| distr_type := REGULAR; dims := [4]; nblock := [2]; mapc := [1; 3];
     block_dims := []; num_blocks := []; rstrctd_list := [0; 0]; rank_rstrctd := [1; -1] |}, [1].
  split; [reflexivity|]. split; [cbn [valid_maps dims nblock mapc]; split; [solve_map|exact I]|].
  split; [reflexivity|]. split; [cbn; lia|]. split; [cbn; lia|].
  intros p lo hi Hp. assert (p = 0 \/ p = 1) as [-> | ->] by lia; cbn; intros [= <- <-]; cbn; lia.
Qed.
Print Assumptions C01_duplicate_restricted_refuted.

(** * C02 *)
Theorem C02_locate_in : forall guess nproc g x,
  good_guess guess -> wf_regular nproc g -> in_array (dims g) x ->
  exists p lo hi, locate guess g x = Some (Some p) /\ 0 <= p < nproc /\
    distribution g p = Some (lo, hi) /\ in_box lo hi x.
Proof. exact locate_in. Qed.
Print Assumptions C02_locate_in.

Theorem C02_locate_out : forall guess g x,
  distr_type g = REGULAR -> ~ in_array (dims g) x -> locate guess g x = Some None.
Proof. exact locate_out. Qed.
Print Assumptions C02_locate_out.

(** The guess computed with any floating point rounding whose relative error
    is at most 2^-53 (IEEE double) is admissible for up to 2^51 blocks, so
    the theorem holds of the guess the code computes. *)
Theorem C02_locate_float : forall rnd nproc g x,
  rounds rnd -> small_blocks g -> wf_regular nproc g -> in_array (dims g) x ->
  exists p lo hi, locate (float_guess rnd) g x = Some (Some p) /\ 0 <= p < nproc /\
    distribution g p = Some (lo, hi) /\ in_box lo hi x.
Proof.
  intros rnd nproc g x Hr Hs HW Hx. rewrite <- locate_cut by exact Hs.
  exact (locate_in _ _ _ _ (cut_good _ Hr) HW Hx).
Qed.
Print Assumptions C02_locate_float.

Example C02_ex : good_guess (fun d n s => n) /\ small_blocks ex_rstr /\ rounds (fun x => x) /\
  locate (fun d n s => n) ex_rstr [7; 2] = Some (Some 0).
Proof.
  split; [intros d n s; lia|]. split; [repeat constructor|].
  split; [exact rounds_id|reflexivity].
Qed.

(** On arrays with fixed block sizes the call does not check the subscript:
    it reports success outside the array. *)
Definition ex_bc : gadesc :=
  {| distr_type := BLOCK_CYCLIC; dims := [9; 6]; nblock := []; mapc := [];
     block_dims := [4; 3]; num_blocks := [3; 2]; rstrctd_list := []; rank_rstrctd := [] |}.
Example ex_bc_wf : wf_blocked ex_bc.
Proof. repeat split; try (left; reflexivity); try discriminate; cbn; lia. Qed.

Theorem C02_locate_blocked_refuted : exists g x,
  wf_blocked g /\ ~ in_array (dims g) x /\
  exists k, forall guess, locate guess g x = Some (Some k).
Proof.
  exists ex_bc, [9; 20]. split; [exact ex_bc_wf|]. split; [cbn; lia|].
  eexists. intros guess. reflexivity.
Qed.
Print Assumptions C02_locate_blocked_refuted.

(** * C05 *)
Theorem C05_region_tiles : forall guess nproc g lo hi,
  good_guess guess -> wf_regular nproc g ->
  in_array (dims g) lo -> in_array (dims g) hi -> Forall2 Z.le lo hi ->
  exists pieces, locate_region guess g lo hi = Some (Some pieces) /\
    tiles pieces snd (in_box lo hi) /\
    NoDup (map fst pieces) /\
    forall o plo phi, In (o, (plo, phi)) pieces ->
      0 <= o < nproc /\
      exists dlo dhi, distribution g o = Some (dlo, dhi) /\
        forall x, in_box plo phi x -> in_box dlo dhi x.
Proof. exact locate_region_regular. Qed.
Print Assumptions C05_region_tiles.

Theorem C05_region_reject : forall guess g lo hi,
  ~ (in_array (dims g) lo /\ in_array (dims g) hi /\ Forall2 Z.le lo hi) ->
  locate_region guess g lo hi = Some None.
Proof. exact locate_region_reject. Qed.
Print Assumptions C05_region_reject.

Example C05_ex : locate_region (fun d n s => 0) ex_rstr [4; 2] [8; 3] =
  Some (Some [(3, ([4; 2], [5; 3])); (0, ([6; 2], [8; 3]))]).
Proof. reflexivity. Qed.

(** * C06 *)
Theorem C06_unique_block : forall guess g x,
  good_guess guess -> wf_blocked g \/ wf_tiled_irreg g -> in_array (dims g) x ->
  exists k, 0 <= k < zprod (num_blocks g) /\
    locate guess g x = Some (Some k) /\
    (exists lo hi, distribution g k = Some (lo, hi) /\ in_box lo hi x) /\
    (forall j lo hi, 0 <= j < zprod (num_blocks g) -> distribution g j = Some (lo, hi) ->
                     in_box lo hi x -> j = k).
Proof. exact blocked_unique_block. Qed.
Print Assumptions C06_unique_block.

Theorem C06_blocks_inside : forall g k,
  wf_blocked g \/ wf_tiled_irreg g -> 0 <= k < zprod (num_blocks g) ->
  exists lo hi, distribution g k = Some (lo, hi) /\
    forall x, in_box lo hi x -> in_array (dims g) x.
Proof. exact blocked_inside. Qed.
Print Assumptions C06_blocks_inside.

Theorem C06_home : forall nproc g k,
  distr_type g = BLOCK_CYCLIC -> 1 <= nproc -> 0 <= k ->
  exists p, block_home nproc g k = Some p /\ 0 <= p < nproc /\
            exists q, 0 <= q /\ k = p + q * nproc.
Proof. exact bc_home. Qed.
Print Assumptions C06_home.

(** The block counts the array-creation calls compute are the ones assumed. *)
Theorem C06_block_counts : forall d b, 1 <= d -> 1 <= b ->
  d <= nblocks_of d b * b < d + b.
Proof. intros d b Hd Hb. exact (proj1 (nblocks_of_spec d b Hd Hb)). Qed.
Print Assumptions C06_block_counts.

Example C06_ex : wf_blocked ex_bc /\ distribution ex_bc 5 = Some ([9; 4], [9; 6]) /\
  locate (fun d n s => 0) ex_bc [9; 5] = Some (Some 5) /\ block_home 4 ex_bc 5 = Some 1.
Proof. split; [exact ex_bc_wf|repeat split]. Qed.

(** * C07 *)
Theorem C07_grid_home : forall nproc g k,
  wf_grid nproc g -> 0 <= k < zprod (num_blocks g) ->
  exists p idx coord,
    find_indices (num_blocks g) k = Some idx /\
    block_home nproc g k = Some p /\ 0 <= p < nproc /\
    find_indices (nblock g) p = Some coord /\
    Forall2 (fun n ic => 0 <= fst ic /\ snd ic = (fst ic) mod n) (nblock g) (combine idx coord).
Proof. exact grid_home. Qed.
Print Assumptions C07_grid_home.

Definition ex_sl : gadesc :=
  {| distr_type := SCALAPACK; dims := [9; 10]; nblock := [2; 3]; mapc := [];
     block_dims := [4; 2]; num_blocks := [3; 5]; rstrctd_list := []; rank_rstrctd := [] |}.
Example ex_sl_wf : wf_grid 6 ex_sl.
Proof.
  split; [left; repeat split; try (right; left; reflexivity); try discriminate; cbn; lia|].
  split; [discriminate|]. split; [reflexivity|]. split; [repeat constructor; lia|reflexivity].
Qed.
Definition ex_ti : gadesc :=
  {| distr_type := TILED_IRREG; dims := [10; 7]; nblock := [2; 1]; mapc := [1; 6; 9; 1; 4];
     block_dims := []; num_blocks := [3; 2]; rstrctd_list := []; rank_rstrctd := [] |}.
Example ex_ti_wf : wf_grid 2 ex_ti /\ wf_strict_tiled_irreg ex_ti.
Proof.
  assert (wf_tiled_irreg ex_ti) as H.
  { split; [reflexivity|]. split; [discriminate|]. split; [|reflexivity].
    cbn [valid_maps ex_ti dims num_blocks mapc]. split; [solve_map|]. split; [|exact I].
    change (skipn (Z.to_nat 3) [1; 6; 9; 1; 4]) with [1; 4]. solve_map. }
  split.
  - split; [right; exact H|].
    split; [discriminate|]. split; [reflexivity|]. split; [repeat constructor; lia|reflexivity].
  - split; [exact H|]. cbn [strict_maps ex_ti dims num_blocks mapc]. split; [solve_map|]. split; [|exact I].
    change (skipn (Z.to_nat 3) [1; 6; 9; 1; 4]) with [1; 4]. solve_map.
Qed.
Example C07_ex : block_home 6 ex_sl 14 = Some 2 /\ find_indices [3; 5] 14 = Some [2; 4]
  /\ find_indices [2; 3] 2 = Some [0; 1].
Proof. repeat split. Qed.

(** * C08 *)
(** Missing: coverage when the region is narrower than a block in some
    dimension; there it is false, see the next theorem. *)
Theorem C08_bc_region_partial : forall guess g lo hi,
  distr_type g = BLOCK_CYCLIC -> wf_blocked g ->
  in_array (dims g) lo -> in_array (dims g) hi -> Forall2 Z.le lo hi ->
  exists pieces, locate_region guess g lo hi = Some (Some pieces) /\
    NoDup (map fst pieces) /\
    (forall o plo phi, In (o, (plo, phi)) pieces ->
      0 <= o < zprod (num_blocks g) /\
      exists dlo dhi, distribution g o = Some (dlo, dhi) /\
        forall x, in_box plo phi x <-> in_box lo hi x /\ in_box dlo dhi x) /\
    (region_at_least_block (block_dims g) lo hi ->
     forall x, in_box lo hi x -> exists o plo phi, In (o, (plo, phi)) pieces /\ in_box plo phi x).
Proof. exact bc_region_spec. Qed.
Print Assumptions C08_bc_region_partial.

Theorem C08_bc_region_refuted : exists g lo hi x,
  distr_type g = BLOCK_CYCLIC /\ wf_blocked g /\ in_array (dims g) lo /\ in_array (dims g) hi /\
  in_box lo hi x /\
  forall guess, exists pieces, locate_region guess g lo hi = Some (Some pieces) /\
    forall o plo phi, In (o, (plo, phi)) pieces -> ~ in_box plo phi x.
Proof.
  exists ex_bc, [2; 2], [3; 2], [2; 2]. repeat split; try exact ex_bc_wf; try (cbn; lia).
  - left; reflexivity.
  - discriminate.
  - intros guess. exists []. split; [reflexivity|]. intros o plo phi [].
Qed.
Print Assumptions C08_bc_region_refuted.

Example C08_ex : locate_region (fun d n s => 0) ex_bc [3; 2] [7; 5] = Some (Some
   [(0, ([3; 2], [4; 3])); (1, ([5; 2], [7; 3])); (3, ([3; 4], [4; 5])); (4, ([5; 4], [7; 5]))])
  /\ region_at_least_block (block_dims ex_bc) [3; 2] [7; 5].
Proof. split; [reflexivity|cbn; lia]. Qed.

(** * C09 *)
(** Missing: the reported block number is right only for one dimension or
    equal block counts in two dimensions; and the returned boxes are whole
    blocks, not clipped to the region. *)
Theorem C09_sl_region_partial : forall guess g lo hi,
  distr_type g = SCALAPACK \/ distr_type g = TILED -> wf_blocked g ->
  in_array (dims g) lo -> in_array (dims g) hi -> Forall2 Z.le lo hi ->
  exists pieces, locate_region guess g lo hi = Some (Some pieces) /\
    (forall x, in_box lo hi x -> exists k p, nth_error pieces k = Some p /\
       in_box (fst (snd p)) (snd (snd p)) x /\
       forall k' p', nth_error pieces k' = Some p' ->
         in_box (fst (snd p')) (snd (snd p')) x -> k' = k) /\
    (forall p, In p pieces -> exists k, 0 <= k < zprod (num_blocks g) /\
       distribution g k = Some (snd p) /\
       (length (dims g) = 1%nat \/
        (exists n, num_blocks g = [n; n]) -> fst p = k)).
Proof. exact sl_region_cover. Qed.
Print Assumptions C09_sl_region_partial.

Theorem C09_sl_region_refuted : exists g lo hi,
  distr_type g = SCALAPACK /\ wf_blocked g /\ in_array (dims g) lo /\ in_array (dims g) hi /\
  forall guess, exists pieces o box, locate_region guess g lo hi = Some (Some pieces) /\
    In (o, box) pieces /\ distribution g o <> Some box.
Proof.
  exists ex_sl, [1; 3], [1; 3]. repeat split; try (cbn; lia).
  - right; left; reflexivity.
  - discriminate.
  - intros guess. do 3 eexists. split; [reflexivity|]. split; [left; reflexivity|].
    vm_compute. discriminate.
Qed.
Print Assumptions C09_sl_region_refuted.

(** * C10 *)
(** For maps without empty blocks. *)
Theorem C10_compare_regular : forall nproc a b,
  wf_strict_regular nproc a -> wf_strict_regular nproc b ->
  compare_distr a b = true ->
  forall p, 0 <= p < nproc -> distribution a p = distribution b p.
Proof. exact compare_distr_sound. Qed.
Print Assumptions C10_compare_regular.

Theorem C10_compare_blocked : forall a b,
  wf_blocked a \/ wf_strict_tiled_irreg a -> wf_blocked b \/ wf_strict_tiled_irreg b ->
  compare_distr a b = true ->
  num_blocks a = num_blocks b /\
  (forall k, 0 <= k < zprod (num_blocks a) -> distribution a k = distribution b k) /\
  (forall nproc k, block_home nproc a k = block_home nproc b k).
Proof.
  intros a b Ha Hb Hc. destruct (compare_distr_sound_blocked a b Ha Hb Hc) as [H1 H2].
  split; [exact H1|]. split; [exact H2|]. intros. apply compare_distr_homes; assumption.
Qed.
Print Assumptions C10_compare_blocked.

Example C10_ex : wf_strict_regular 4 ex_reg /\ compare_distr ex_reg ex_reg = true /\
  compare_distr ex_ti ex_ti = true.
Proof.
  split; [|split; reflexivity]. split; [exact ex_reg_wf|].
  cbn [strict_maps ex_reg dims nblock mapc]. split; [solve_map|]. split; [|exact I].
  change (skipn (Z.to_nat 2) [1; 6; 1; 4]) with [1; 4]. solve_map.
Qed.

(** With empty blocks the flat maps of different block grids can coincide. *)
Theorem C10_compare_refuted : exists nproc a b p,
  wf_regular nproc a /\ wf_regular nproc b /\ compare_distr a b = true /\
  0 <= p < nproc /\ distribution a p <> distribution b p.
Proof.
  exists 2,
   {| distr_type := REGULAR; dims := [2; 2]; nblock := [2; 1]; mapc := [1; 1; 1];
      block_dims := []; num_blocks := []; rstrctd_list := []; rank_rstrctd := [] |},
   {| distr_type := REGULAR; dims := [2; 2]; nblock := [1; 2]; mapc := [1; 1; 1];
      block_dims := []; num_blocks := []; rstrctd_list := []; rank_rstrctd := [] |}, 0.
  assert (forall nb, nb = [2; 1] \/ nb = [1; 2] -> valid_maps [2; 2] nb [1; 1; 1]) as HV.
  { intros nb [-> | ->]; cbn [valid_maps].
    - split; [solve_map|]. split; [|exact I]. change (skipn (Z.to_nat 2) [1; 1; 1]) with [1]. solve_map.
    - split; [solve_map|]. split; [|exact I]. change (skipn (Z.to_nat 1) [1; 1; 1]) with [1; 1]. solve_map. }
  split. { split; [reflexivity|]. split; [discriminate|]. split; [apply HV; auto|]. left. split; [reflexivity|cbn; lia]. }
  split. { split; [reflexivity|]. split; [discriminate|]. split; [apply HV; auto|]. left. split; [reflexivity|cbn; lia]. }
  split; [reflexivity|]. split; [lia|]. vm_compute. discriminate.
Qed.
Print Assumptions C10_compare_refuted.
