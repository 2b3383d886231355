(** Property theorems: the transfer iterator (C11, C12, C46). *)
From Verif Require Import LIterReg3 PDist.
Open Scope Z_scope.

(** The 10 x 7 array of [ex_reg] with ghost cells of width 1 and 2, on the
    group of processes 5, 2, 7, 0; elements of 8 bytes. *)
Definition ex_ga : garray :=
  {| ga_desc := ex_reg; ga_width := [1; 2]; ga_group := Some [5; 2; 7; 0]; ga_nproc := 4;
     ga_elemsize := 8 |}.
Example ex_ga_wf : wf_array ex_ga.
Proof.
  split; [exact ex_reg_wf|]. split; [reflexivity|]. split; [repeat constructor; lia|].
  split; [|cbn; lia]. split; [|reflexivity]. repeat constructor; cbn; lia.
Qed.
(** The guess used in examples. *)
Definition ex_guess (d n s : Z) : Z := (s - 1) * n / d.
Example ex_guess_good : good_guess ex_guess.
Proof.
  intros d n s Hn Hs. unfold ex_guess. split; [apply Z.div_pos; nia|].
  apply Z.div_le_upper_bound; nia.
Qed.

(** * C11 *)
Theorem C11_regular_iterator : forall guess rnd nn a lo hi,
  good_guess guess -> (forall k, 0 <= rnd k) -> wf_array a ->
  in_array (dims (ga_desc a)) lo -> in_array (dims (ga_desc a)) hi -> Forall2 Z.le lo hi ->
  splittable (ga_elemsize a) lo hi ->
  exists ps fuel0,
    (forall fuel, (fuel0 <= fuel)%nat -> iterate fuel guess rnd nn a lo hi = Some ps) /\
    covers (reg_place a) (reg_shape a) ps lo hi.
Proof.
  intros guess rnd nn a lo hi H1 H2 H3 H4 H5 H6 H7.
  destruct (iterate_regular guess rnd nn a lo hi H1 H2 H3 H4 H5 H6 H7) as (ps & f & E & C & _). eauto.
Qed.
Print Assumptions C11_regular_iterator.

(** The request 3..7 x 2..5 of [ex_ga]. *)
Example C11_ex :
  in_array (dims (ga_desc ex_ga)) [3; 2] /\ in_array (dims (ga_desc ex_ga)) [7; 5] /\
  Forall2 Z.le [3; 2] [7; 5] /\ splittable 8 [3; 2] [7; 5] /\
  iterate 9 ex_guess (fun i => 7 * i + 2) 8 ex_ga [3; 2] [7; 5] =
    Some [IPiece 5 5 [3; 2] [5; 3] 24 [7]; IPiece 2 2 [6; 2] [7; 3] 22 [7];
          IPiece 7 7 [3; 4] [5; 5] 17 [7]; IPiece 0 0 [6; 4] [7; 5] 15 [7]].
Proof.
  split; [cbn; lia|]. split; [cbn; lia|]. split; [repeat constructor; lia|]. split.
  { intros i Hi. do 2 (destruct i as [|i]; [vm_compute; discriminate|]). cbn in Hi. lia. }
  vm_compute. reflexivity.
Qed.

(** A region that is not inside the array is rejected. *)
Theorem C11_rejects : forall fuel guess rnd nn a lo hi,
  distr_type (ga_desc a) = REGULAR ->
  ~ (in_array (dims (ga_desc a)) lo /\ in_array (dims (ga_desc a)) hi /\ Forall2 Z.le lo hi) ->
  iterate fuel guess rnd nn a lo hi = None.
Proof.
  intros fuel guess rnd nn a lo hi HT H. unfold iterate. rewrite HT.
  rewrite locate_region_reject by exact H. reflexivity.
Qed.
Print Assumptions C11_rejects.

(** * C12 *)
Theorem C12_permutation : forall rnd n,
  (forall k, 0 <= rnd k) -> 0 <= n ->
  exists l, permute_list rnd n = Some l /\ NoDup l /\
    Z.of_nat (length l) = n /\ forall p, In p l <-> 0 <= p < n.
Proof.
  intros rnd n Hr Hn. destruct (permute_list_spec rnd n Hr Hn) as (l & E & P).
  exists l. split; [exact E|]. split.
  { eapply Permutation_NoDup; [apply Permutation_sym; exact P|apply zseq_NoDup]. }
  split.
  { apply Permutation_length in P. rewrite zseq_length in P. lia. }
  intros p. rewrite <- (Z2Nat.id n) by lia. change (Z.of_nat (Z.to_nat n)) with (0 + Z.of_nat (Z.to_nat n)).
  rewrite <- zseq_In. split; apply Permutation_in; auto. now apply Permutation_sym.
Qed.
Print Assumptions C12_permutation.

Example C12_ex : permute_list (fun i => 3 * i + 4) 5 = Some [1; 0; 4; 3; 2].
Proof. vm_compute. reflexivity. Qed.

(** * C46 *)
(** Sub-blocks tile the request and none of them has more than 2^31 bytes,
    provided no slab of thickness one exceeds that limit. *)
Theorem C46_split_partial : forall guess rnd nn a lo hi,
  good_guess guess -> (forall k, 0 <= rnd k) -> wf_array a ->
  in_array (dims (ga_desc a)) lo -> in_array (dims (ga_desc a)) hi -> Forall2 Z.le lo hi ->
  splittable (ga_elemsize a) lo hi ->
  exists ps fuel0,
    (forall fuel, (fuel0 <= fuel)%nat -> iterate fuel guess rnd nn a lo hi = Some ps) /\
    tiles ps (fun p => (ip_lo p, ip_hi p)) (in_box lo hi) /\
    forall p, In p ps -> ga_elemsize a * zprod (extents (ip_lo p) (ip_hi p)) <= 2 ^ 31.
Proof.
  intros guess rnd nn a lo hi H1 H2 H3 H4 H5 H6 H7.
  destruct (iterate_regular guess rnd nn a lo hi H1 H2 H3 H4 H5 H6 H7) as (ps & f & E & C & B).
  exists ps, f. split; [exact E|]. split; [apply C|exact B].
Qed.
Print Assumptions C46_split_partial.

(** One process, a cube of n^3 doubles. *)
Definition ex_cube (n : Z) : garray :=
  {| ga_desc := {| distr_type := REGULAR; dims := [n; n; n]; nblock := [1; 1; 1]; mapc := [1; 1; 1];
                   block_dims := []; num_blocks := []; rstrctd_list := []; rank_rstrctd := [] |};
     ga_width := [0; 0; 0]; ga_group := None; ga_nproc := 1; ga_elemsize := 8 |}.
Lemma ex_cube_wf n : 1 <= n -> wf_array (ex_cube n).
Proof.
  intros Hn. split; [|split; [reflexivity|split; [repeat constructor; lia|split; [exact I|cbn; lia]]]].
  split; [reflexivity|]. split; [discriminate|]. split.
  - cbn [valid_maps ex_cube ga_desc dims nblock mapc].
    repeat change (skipn (Z.to_nat 1) ?l) with (tl l).
    assert (V : forall l, valid_map n 1 (1 :: l)).
    { intros l. unfold valid_map. split; [lia|]. split; [lia|]. 
      split; [change (length (1 :: l)) with (S (length l)); rewrite Nat2Z.inj_succ; lia|].
      split; [reflexivity|]. split; [intros i Hi; exfalso; lia|]. change (1 <= n + 1). lia. }
    split; [apply V|]. split; [apply V|]. split; [apply V|exact I].
  - left. split; [reflexivity|cbn; lia].
Qed.

(** A request of 1000^3 doubles is split into sub-blocks: *)
Example C46_ex : splittable 8 [1; 1; 1] [1000; 1000; 1000] /\
  exists l, iterate 20 ex_guess (fun i => i) 1 (ex_cube 1000) [1; 1; 1] [1000; 1000; 1000] = Some l /\
  map (fun p => (ip_lo p, ip_hi p)) l =
    [([1; 1; 1], [250; 1000; 1000]); ([251; 1; 1], [500; 1000; 1000]);
     ([501; 1; 1], [750; 1000; 1000]); ([751; 1; 1], [1000; 1000; 1000])].
Proof.
  split.
  { intros i Hi. do 3 (destruct i as [|i]; [vm_compute; discriminate|]). cbn in Hi. lia. }
  eexists. split; [vm_compute; reflexivity|reflexivity].
Qed.

(** False in general: (a) a sub-block of exactly 2^31 bytes is not split, so
    its byte count does not fit a signed 32-bit integer. *)
Definition ex_line : garray :=
  {| ga_desc := {| distr_type := REGULAR; dims := [2 ^ 28]; nblock := [1]; mapc := [1];
                   block_dims := []; num_blocks := []; rstrctd_list := []; rank_rstrctd := [] |};
     ga_width := [0]; ga_group := None; ga_nproc := 1; ga_elemsize := 8 |}.
Theorem C46_exact_limit_refuted :
  exists a lo hi ps, wf_array a /\ in_array (dims (ga_desc a)) lo /\ in_array (dims (ga_desc a)) hi /\
    Forall2 Z.le lo hi /\
    (forall fuel rnd nn, (2 <= fuel)%nat -> iterate fuel ex_guess rnd nn a lo hi = Some ps) /\
    exists p, In p ps /\ 2 ^ 31 - 1 < ga_elemsize a * zprod (extents (ip_lo p) (ip_hi p)).
Proof.
  exists ex_line, [1], [2 ^ 28], [IPiece 0 0 [1] [2 ^ 28] 0 [2 ^ 28]].
  split.
  { split; [|split; [reflexivity|split; [repeat constructor; lia|split; [exact I|cbn; lia]]]].
    split; [reflexivity|]. split; [discriminate|]. split.
    - cbn [valid_maps ex_line ga_desc dims nblock mapc]. split; [|exact I]. solve_map.
    - left. split; [reflexivity|cbn; lia]. }
  split; [vm_compute; split; [split; discriminate|exact I]|].
  split; [vm_compute; split; [split; discriminate|exact I]|].
  split; [repeat constructor; lia|]. split.
  - intros fuel rnd nn Hf. destruct fuel as [|[|fuel]]; [lia|lia|].
    vm_compute. reflexivity.
  - eexists. split; [left; reflexivity|]. vm_compute. reflexivity.
Qed.
Print Assumptions C46_exact_limit_refuted.

(** (b) A request with a slab above the limit in every dimension ends in a
    division by zero (the outcome [None]) in the computation of the number of
    sub-blocks. *)
Theorem C46_slab_refuted :
  exists a lo hi, wf_array a /\ in_array (dims (ga_desc a)) lo /\ in_array (dims (ga_desc a)) hi /\
    Forall2 Z.le lo hi /\
    forall fuel rnd nn, iterate fuel ex_guess rnd nn a lo hi = None.
Proof.
  exists (ex_cube 20000), [1; 1; 1], [20000; 20000; 20000].
  split; [apply ex_cube_wf; lia|].
  split; [vm_compute; repeat split; discriminate|].
  split; [vm_compute; repeat split; discriminate|].
  split; [repeat constructor; lia|].
  intros fuel rnd nn. destruct fuel as [|fuel]; vm_compute; reflexivity.
Qed.
Print Assumptions C46_slab_refuted.
