(** C27, C28: strided put, get and accumulate. *)
From Verif Require Import LStore MXfer LXfer LXfer2 LStrided2 MStrided PDist PIter PIterBlk PStore PXfer.

(** * C27 *)
(** One- and two-dimensional regular arrays on the world group, leading
    dimensions with an entry for every dimension. *)
Theorem C27_strided_put_partial : forall V guess rnd nn me junk a lo hi skip ld (buf : buffer V) m,
  good_guess guess -> (forall k, 0 <= rnd k) -> wf_array a -> ga_group a = None ->
  splittable (ga_elemsize a) lo hi -> good_strided a (reg_shape a) lo hi skip ld -> (length lo <= 2)%nat ->
  allocated (reg_place a) m -> (forall x, strided_sel lo hi skip x -> buf (strided_ix lo skip ld x) <> None) ->
  exists ts fuel0 m',
    (forall fuel, (fuel0 <= fuel)%nat -> strided_transfers fuel guess rnd nn me junk a lo hi skip ld = Some ts) /\
    run_elems (put_elem buf) m ts = Some m' /\
    put_selected (reg_place a) (strided_sel lo hi skip) (strided_ix lo skip ld) buf m m'.
Proof.
  intros V guess rnd nn me junk a lo hi skip ld buf m Hg Hr W HG Hs HQ H2 HA HB. pose proof HQ as (Q1 & Q2 & Q3 & _).
  destruct (strided_sel_transfers guess rnd nn me junk a lo hi skip ld (reg_place a) (reg_shape a)) as (ts & f & E & S); auto.
  { intros T. destruct W as ((W & _) & _). congruence. }
  { apply regular_cover; auto. }
  destruct (regular_placed a W) as [P1 P2].
  destruct (sel_put _ _ _ P1 (fun x y q _ _ => P2 x y q) ts buf m S HA HB) as (m' & R & P). exists ts, f, m'. auto.
Qed.
Print Assumptions C27_strided_put_partial.

Theorem C27_strided_get_partial : forall V guess rnd nn me junk a lo hi skip ld (buf : buffer V) m,
  good_guess guess -> (forall k, 0 <= rnd k) -> wf_array a -> ga_group a = None ->
  splittable (ga_elemsize a) lo hi -> good_strided a (reg_shape a) lo hi skip ld -> (length lo <= 2)%nat ->
  allocated (reg_place a) m -> (forall x, strided_sel lo hi skip x -> buf (strided_ix lo skip ld x) <> None) ->
  exists ts fuel0 buf',
    (forall fuel, (fuel0 <= fuel)%nat -> strided_transfers fuel guess rnd nn me junk a lo hi skip ld = Some ts) /\
    run_elems (get_elem m) buf ts = Some buf' /\
    get_selected (reg_place a) (strided_sel lo hi skip) (strided_ix lo skip ld) m buf buf'.
Proof.
  intros V guess rnd nn me junk a lo hi skip ld buf m Hg Hr W HG Hs HQ H2 HA HB. pose proof HQ as (Q1 & Q2 & Q3 & _ & Q5 & Q6 & _).
  destruct (strided_sel_transfers guess rnd nn me junk a lo hi skip ld (reg_place a) (reg_shape a)) as (ts & f & E & S); auto.
  { intros T. destruct W as ((W & _) & _). congruence. }
  { apply regular_cover; auto. }
  destruct (regular_placed a W) as [P1 P2].
  destruct (sel_get _ _ _ P1 ts buf m (fun x y => room_grid_inj lo hi skip ld x y Q5 Q6) S HA HB) as (b' & R & P). exists ts, f, b'. auto.
Qed.
Print Assumptions C27_strided_get_partial.

Theorem C27_strided_acc_partial : forall V (f : V -> V -> V) guess rnd nn me junk a lo hi skip ld (buf : buffer V) m,
  good_guess guess -> (forall k, 0 <= rnd k) -> wf_array a -> ga_group a = None ->
  splittable (ga_elemsize a) lo hi -> good_strided a (reg_shape a) lo hi skip ld -> (length lo <= 2)%nat ->
  allocated (reg_place a) m -> (forall x, strided_sel lo hi skip x -> buf (strided_ix lo skip ld x) <> None) ->
  exists ts fuel0 m',
    (forall fuel, (fuel0 <= fuel)%nat -> strided_transfers fuel guess rnd nn me junk a lo hi skip ld = Some ts) /\
    run_elems (acc_elem f buf) m ts = Some m' /\
    acc_selected f (reg_place a) (strided_sel lo hi skip) (strided_ix lo skip ld) buf m m'.
Proof.
  intros V f guess rnd nn me junk a lo hi skip ld buf m Hg Hr W HG Hs HQ H2 HA HB. pose proof HQ as (Q1 & Q2 & Q3 & _).
  destruct (strided_sel_transfers guess rnd nn me junk a lo hi skip ld (reg_place a) (reg_shape a)) as (ts & f0 & E & S); auto.
  { intros T. destruct W as ((W & _) & _). congruence. }
  { apply regular_cover; auto. }
  destruct (regular_placed a W) as [P1 P2].
  destruct (sel_acc _ _ _ P1 (fun x y q _ _ => P2 x y q) f ts buf m S HA HB) as (m' & R & P). exists ts, f0, m'. auto.
Qed.
Print Assumptions C27_strided_acc_partial.

(** Block-distributed arrays; on BLOCK_CYCLIC arrays the caller has rank 0. *)
Theorem C27_strided_put_blocked_partial : forall V guess rnd nn me junk a placed shape lo hi skip ld (buf : buffer V) m,
  block_layout a nn placed shape -> (distr_type (ga_desc a) = BLOCK_CYCLIC -> me = 0) ->
  good_strided a shape lo hi skip ld -> (length lo <= 2)%nat ->
  allocated placed m -> (forall x, strided_sel lo hi skip x -> buf (strided_ix lo skip ld x) <> None) ->
  exists ts fuel0 m',
    (forall fuel, (fuel0 <= fuel)%nat -> strided_transfers fuel guess rnd nn me junk a lo hi skip ld = Some ts) /\
    run_elems (put_elem buf) m ts = Some m' /\
    put_selected placed (strided_sel lo hi skip) (strided_ix lo skip ld) buf m m'.
Proof.
  intros V guess rnd nn me junk a placed shape lo hi skip ld buf m HL HM HQ H2 HA HB. pose proof HQ as (Q1 & Q2 & Q3 & _).
  destruct (strided_sel_transfers guess rnd nn me junk a lo hi skip ld placed shape) as (ts & f & E & S); auto.
  { apply HL. }
  { apply block_cover; auto. }
  destruct (block_placed _ _ _ _ HL) as [P1 P2].
  destruct (sel_put _ _ _ P1 (fun x y q _ _ => P2 x y q) ts buf m S HA HB) as (m' & R & P). exists ts, f, m'. auto.
Qed.
Print Assumptions C27_strided_put_blocked_partial.

Theorem C27_strided_get_blocked_partial : forall V guess rnd nn me junk a placed shape lo hi skip ld (buf : buffer V) m,
  block_layout a nn placed shape -> (distr_type (ga_desc a) = BLOCK_CYCLIC -> me = 0) ->
  good_strided a shape lo hi skip ld -> (length lo <= 2)%nat ->
  allocated placed m -> (forall x, strided_sel lo hi skip x -> buf (strided_ix lo skip ld x) <> None) ->
  exists ts fuel0 buf',
    (forall fuel, (fuel0 <= fuel)%nat -> strided_transfers fuel guess rnd nn me junk a lo hi skip ld = Some ts) /\
    run_elems (get_elem m) buf ts = Some buf' /\
    get_selected placed (strided_sel lo hi skip) (strided_ix lo skip ld) m buf buf'.
Proof.
  intros V guess rnd nn me junk a placed shape lo hi skip ld buf m HL HM HQ H2 HA HB. pose proof HQ as (Q1 & Q2 & Q3 & _ & Q5 & Q6 & _).
  destruct (strided_sel_transfers guess rnd nn me junk a lo hi skip ld placed shape) as (ts & f & E & S); auto.
  { apply HL. }
  { apply block_cover; auto. }
  destruct (block_placed _ _ _ _ HL) as [P1 P2].
  destruct (sel_get _ _ _ P1 ts buf m (fun x y => room_grid_inj lo hi skip ld x y Q5 Q6) S HA HB) as (b' & R & P). exists ts, f, b'. auto.
Qed.
Print Assumptions C27_strided_get_blocked_partial.

Theorem C27_strided_acc_blocked_partial : forall V (f : V -> V -> V) guess rnd nn me junk a placed shape lo hi skip ld (buf : buffer V) m,
  block_layout a nn placed shape -> (distr_type (ga_desc a) = BLOCK_CYCLIC -> me = 0) ->
  good_strided a shape lo hi skip ld -> (length lo <= 2)%nat ->
  allocated placed m -> (forall x, strided_sel lo hi skip x -> buf (strided_ix lo skip ld x) <> None) ->
  exists ts fuel0 m',
    (forall fuel, (fuel0 <= fuel)%nat -> strided_transfers fuel guess rnd nn me junk a lo hi skip ld = Some ts) /\
    run_elems (acc_elem f buf) m ts = Some m' /\
    acc_selected f placed (strided_sel lo hi skip) (strided_ix lo skip ld) buf m m'.
Proof.
  intros V f guess rnd nn me junk a placed shape lo hi skip ld buf m HL HM HQ H2 HA HB. pose proof HQ as (Q1 & Q2 & Q3 & _).
  destruct (strided_sel_transfers guess rnd nn me junk a lo hi skip ld placed shape) as (ts & f0 & E & S); auto.
  { apply HL. }
  { apply block_cover; auto. }
  destruct (block_placed _ _ _ _ HL) as [P1 P2].
  destruct (sel_acc _ _ _ P1 (fun x y q _ _ => P2 x y q) f ts buf m S HA HB) as (m' & R & P). exists ts, f0, m'. auto.
Qed.
Print Assumptions C27_strided_acc_blocked_partial.

(** Every third row and second column of a 10x7 array on four processes. *)
Definition ex_wga : garray :=
  {| ga_desc := ex_reg; ga_width := [1; 2]; ga_group := None; ga_nproc := 4; ga_elemsize := 8 |}.
Lemma ex_wga_wf : wf_array ex_wga.
Proof. split; [exact ex_reg_wf|]. split; [reflexivity|]. split; [repeat constructor; lia|]. split; [exact I|cbn; lia]. Qed.
Example C27_ex :
  wf_array ex_wga /\ ga_group ex_wga = None /\ good_strided ex_wga (reg_shape ex_wga) [2; 1] [10; 6] [3; 2] [4; 9] /\
  (exists ts, strided_transfers 9 ex_guess (fun _ => 0) 4 2 77 ex_wga [2; 1] [10; 6] [3; 2] [4; 9] = Some ts /\
     length ts = 9%nat /\ In ((3, 24), 10) ts /\ reg_place ex_wga [8; 5] (3, 24)) /\
  (exists ts, strided_transfers 9 ex_guess (fun _ => 0) 2 0 77 (ex_bc1 11 2 None) [2] [8] [3] [0] = Some ts /\
     length ts = 3%nat).
Proof.
  split; [exact ex_wga_wf|]. split; [reflexivity|]. split; [|split].
  - split; [cbn; lia|]. split; [cbn; lia|]. split; [repeat constructor; lia|]. split; [reflexivity|].
    split; [repeat constructor; lia|]. split; [vm_compute; split; [discriminate|exact I]|]. split; [cbn; lia|].
    split; [vm_compute; split; discriminate|]. split; [repeat constructor; vm_compute; discriminate|].
    split; [intros [|i] Hi; cbn in Hi; [vm_compute; discriminate|lia]|].
    intros sh Hs. apply ex_ga_shape in Hs. split.
    + destruct Hs as [-> | ->]; intros [|i] Hi; cbn in Hi; try lia; vm_compute; discriminate.
    + destruct Hs as [-> | ->]; intros [|[|i]] s E; cbn in E; try (injection E as <-; vm_compute; discriminate); destruct i; discriminate.
  - eexists. split; [vm_compute; reflexivity|]. split; [reflexivity|]. split; [cbn; tauto|].
    exists 3, [6; 4], [10; 7]. split; [cbn; lia|]. split; [vm_compute; reflexivity|]. split; [cbn; lia|].
    split; vm_compute; reflexivity.
  - eexists. split; vm_compute; reflexivity.
Qed.

(** Three dimensions: the position in the buffer is wrong for the part of the
    region on the second process. *)
Definition ex_3d : garray :=
  {| ga_desc := {| distr_type := REGULAR; dims := [2; 2; 4]; nblock := [1; 1; 2]; mapc := [1; 1; 1; 3];
                   block_dims := []; num_blocks := []; rstrctd_list := []; rank_rstrctd := [] |};
     ga_width := [0; 0; 0]; ga_group := None; ga_nproc := 2; ga_elemsize := 8 |}.
Lemma ex_3d_wf : wf_array ex_3d.
Proof.
  split.
  { split; [reflexivity|]. split; [discriminate|]. split.
    - cbn [valid_maps ex_3d ga_desc dims nblock mapc]. split; [solve_map|].
      change (skipn (Z.to_nat 1) [1; 1; 1; 3]) with [1; 1; 3]. split; [solve_map|].
      change (skipn (Z.to_nat 1) [1; 1; 3]) with [1; 3]. split; [solve_map|exact I].
    - left. split; [reflexivity|cbn; lia]. }
  split; [reflexivity|]. split; [repeat constructor; lia|]. split; [exact I|cbn; lia].
Qed.
Theorem C27_three_dimensions_refuted : exists guess a lo hi skip ld ts x q i,
  good_guess guess /\ wf_array a /\ ga_group a = None /\ splittable (ga_elemsize a) lo hi /\
  good_strided a (reg_shape a) lo hi skip ld /\
  strided_transfers 9 guess (fun _ => 0) 2 0 0 a lo hi skip ld = Some ts /\
  strided_sel lo hi skip x /\ reg_place a x q /\ In (q, i) ts /\ i <> strided_ix lo skip ld x.
Proof.
  exists ex_guess, ex_3d, [1; 1; 1], [2; 2; 4], [1; 1; 1], [2; 2; 4].
  eexists. exists [1; 1; 3], (1, 0), 4.
  split; [exact ex_guess_good|]. split; [exact ex_3d_wf|]. split; [reflexivity|].
  split; [intros [|[|[|i]]] Hi; cbn in Hi; try lia; vm_compute; discriminate|].
  split.
  { split; [cbn; lia|]. split; [cbn; lia|]. split; [repeat constructor; lia|]. split; [reflexivity|].
    split; [repeat constructor; lia|]. split; [vm_compute; repeat split; discriminate|]. split; [cbn; lia|].
    split; [vm_compute; split; discriminate|]. split; [repeat constructor; vm_compute; discriminate|].
    split; [intros [|[|i]] Hi; cbn in Hi; try lia; vm_compute; discriminate|].
    intros sh (p & l & h & Hp & E & F & ->).
    assert (X : padded l h (ga_width ex_3d) = [2; 2; 2]).
    { cbn [ex_3d ga_nproc] in Hp. assert (p = 0 \/ p = 1) as [-> | ->] by lia; vm_compute in E; injection E as <- <-; reflexivity. }
    rewrite X. split.
    - intros [|[|i]] Hi; cbn in Hi; try lia; vm_compute; discriminate.
    - intros [|[|[|i]]] s Es; cbn in Es; try (injection Es as <-; vm_compute; discriminate); destruct i; discriminate. }
  split; [vm_compute; reflexivity|]. split; [split; [cbn; lia|vm_compute; auto]|].
  split. { exists 1, [1; 1; 3], [2; 2; 4]. split; [cbn; lia|]. split; [vm_compute; reflexivity|]. split; [cbn; lia|]. split; vm_compute; reflexivity. }
  split; [cbn; tauto|vm_compute; discriminate].
Qed.
Print Assumptions C27_three_dimensions_refuted.

(** The entry of the leading dimensions after the last one the interface
    defines is read. *)
Theorem C27_leading_dimension_refuted : exists guess a lo hi skip ld ps,
  good_guess guess /\ wf_array a /\ ga_group a = None /\ in_array (dims (ga_desc a)) lo /\
  in_array (dims (ga_desc a)) hi /\ Forall2 Z.le lo hi /\ length skip = length lo /\ Forall (fun s => 1 <= s) skip /\
  room (grid_counts lo hi skip) ld /\ S (length ld) = length lo /\
  iterate 9 guess (fun _ => 0) 4 a lo hi = Some ps /\
  strided_transfers 9 guess (fun _ => 0) 4 0 0 a lo hi skip ld = None.
Proof.
  exists ex_guess, ex_wga, [2; 1], [10; 6], [3; 2], [4]. eexists.
  split; [exact ex_guess_good|]. split; [exact ex_wga_wf|]. split; [reflexivity|]. split; [cbn; lia|]. split; [cbn; lia|].
  split; [repeat constructor; lia|]. split; [reflexivity|]. split; [repeat constructor; lia|].
  split; [vm_compute; split; [discriminate|exact I]|]. split; [reflexivity|].
  split; vm_compute; reflexivity.
Qed.
Print Assumptions C27_leading_dimension_refuted.

(** * C28 *)
(** Arrays on the world group: C27.  On a process group the rank is translated
    twice, here to a process outside the table of the group, *)
Theorem C28_group_refuted : exists guess a lo hi skip ld ps,
  good_guess guess /\ wf_array a /\ ga_group a = Some [5; 2; 7; 0] /\
  good_strided a (reg_shape a) lo hi skip ld /\
  iterate 9 guess (fun _ => 0) 8 a lo hi = Some ps /\
  strided_transfers 9 guess (fun _ => 0) 8 0 0 a lo hi skip ld = None.
Proof.
  exists ex_guess, ex_ga, [2; 1], [10; 6], [3; 2], [4; 9]. eexists.
  split; [exact ex_guess_good|]. split; [exact ex_ga_wf|]. split; [reflexivity|].
  split; [|split; vm_compute; reflexivity].
  split; [cbn; lia|]. split; [cbn; lia|]. split; [repeat constructor; lia|]. split; [reflexivity|].
  split; [repeat constructor; lia|]. split; [vm_compute; split; [discriminate|exact I]|]. split; [cbn; lia|].
  split; [vm_compute; split; discriminate|]. split; [repeat constructor; vm_compute; discriminate|].
  split; [intros [|i] Hi; cbn in Hi; [vm_compute; discriminate|lia]|].
  intros sh Hs. apply ex_ga_shape in Hs. split.
  - destruct Hs as [-> | ->]; intros [|i] Hi; cbn in Hi; try lia; vm_compute; discriminate.
  - destruct Hs as [-> | ->]; intros [|[|i]] s E; cbn in E; try (injection E as <-; vm_compute; discriminate); destruct i; discriminate.
Qed.
Print Assumptions C28_group_refuted.
(** and here to another process of the group: the request for memory of
    process 1 goes to process 2. *)
Theorem C28_group_process_refuted : exists a p x,
  ga_group a = Some [1; 2; 0; 3] /\ wf_array a /\ ip_proc p = 1 /\ ip_seg p = 1 /\
  In p (match iterate 9 ex_guess (fun _ => 0) 4 a [1; 1] [5; 3] with Some ps => ps | None => [] end) /\
  strided_piece a [1; 1] [1; 1] [5; 3] p = Some (Some x) /\ x_seg x = 1 /\ x_proc x = 2.
Proof.
  exists {| ga_desc := ex_reg; ga_width := [0; 0]; ga_group := Some [1; 2; 0; 3]; ga_nproc := 4; ga_elemsize := 8 |}.
  exists (IPiece 1 1 [1; 1] [5; 3] 0 [5]). eexists.
  split; [reflexivity|]. split.
  { split; [exact ex_reg_wf|]. split; [reflexivity|]. split; [repeat constructor; lia|].
    split; [|cbn; lia]. split; [|reflexivity]. repeat constructor; cbn; lia. }
  split; [reflexivity|]. split; [reflexivity|]. split; [vm_compute; tauto|].
  split; [vm_compute; reflexivity|]. split; reflexivity.
Qed.
Print Assumptions C28_group_process_refuted.

(** On a block-cyclic array a caller with another rank than 0 leaves elements
    of the region out. *)
Theorem C28_calling_rank_refuted : exists a me lo hi skip ld ts x,
  block_layout a 2 (block_place a) (block_shape a) /\ 0 <= me < 2 /\
  good_strided a (block_shape a) lo hi skip ld /\
  strided_transfers 9 ex_guess (fun _ => 0) 2 me 0 a lo hi skip ld = Some ts /\
  strided_sel lo hi skip x /\ forall q i, block_place a x q -> ~ In (q, i) ts.
Proof.
  exists (ex_bc1 11 2 None), 1, [1], [8], [1], [0]. eexists. exists [1].
  assert (HB : block_layout (ex_bc1 11 2 None) 2 (block_place (ex_bc1 11 2 None)) (block_shape (ex_bc1 11 2 None))).
  { split; [reflexivity|]. left. split; [reflexivity|]. split; [apply ex_bc1_wf; lia|]. split; [reflexivity|].
    split; [vm_compute; split; discriminate|auto]. }
  split; [exact HB|]. split; [lia|]. split.
  { split; [cbn; lia|]. split; [cbn; lia|]. split; [repeat constructor; lia|]. split; [reflexivity|].
    split; [repeat constructor; lia|]. split; [exact I|]. split; [cbn; lia|].
    split; [vm_compute; split; discriminate|]. split; [repeat constructor; vm_compute; discriminate|].
    split; [intros i Hi; cbn in Hi; lia|]. intros sh _. split; [intros i Hi; cbn in Hi; lia|].
    intros [|i] s E; [injection E as <-; vm_compute; discriminate|destruct i; discriminate]. }
  split; [vm_compute; reflexivity|]. split; [split; cbn; [lia|auto]|].
  intros q i Hq Hin. assert (q = (0, 0)).
  { destruct (block_placed (ex_bc1 11 2 None) 2 _ _ HB) as [PU _]. apply (PU [1]); [exact Hq|].
    exists 0, [1], [2]. split; [cbn; lia|]. split; [vm_compute; reflexivity|]. split; [cbn; lia|]. split; vm_compute; reflexivity. }
  subst q. cbn in Hin. intuition discriminate.
Qed.
Print Assumptions C28_calling_rank_refuted.
