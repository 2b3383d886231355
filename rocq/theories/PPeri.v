(** C29: periodic put, get and accumulate. *)
From Verif Require Import LStore MXfer LXfer LXfer2 LStrided2 LPeri MPeri PDist PIter PIterBlk PStore PXfer PStrided.

(** The element of the array for index [y] is the one at [wrapv dims y]. *)
Definition at_wrapped (a : garray) (placed : list Z -> place -> Prop) (y : list Z) (q : place) : Prop :=
  placed (wrapv (dims (ga_desc a)) y) q.
Definition region_ix (lo ld y : list Z) : Z := lin ld (vsub y lo).

(** * Regular arrays *)
Lemma regular_periodic guess rnd nn smp a lo hi ld :
  good_guess guess -> (forall c k, 0 <= rnd c k) -> wf_array a -> splittable (ga_elemsize a) lo hi ->
  good_periodic a (reg_shape a) lo hi ld ->
  exists ts fuel0, (forall fuel, (fuel0 <= fuel)%nat -> periodic_transfers fuel guess rnd nn smp a lo hi ld = Some ts) /\
    sel_transfers (at_wrapped a (reg_place a)) (in_box lo hi) (region_ix lo ld) ts.
Proof.
  intros Hg Hr W Hs HQ. apply (periodic_sel_transfers guess rnd nn smp a (reg_place a) (reg_shape a)); auto.
  - destruct W as ((_ & W & _) & _). exact W.
  - intros c plo phi G E L. apply regular_transfers; auto.
    apply (splittable_smaller _ lo hi); auto; destruct G as (_ & _ & G3 & _ & G4 & _); [lia|exact G3].
Qed.

Theorem C29_periodic_get_partial : forall V guess rnd nn smp a lo hi ld (buf : buffer V) m,
  good_guess guess -> (forall c k, 0 <= rnd c k) -> wf_array a -> splittable (ga_elemsize a) lo hi ->
  good_periodic a (reg_shape a) lo hi ld -> allocated (reg_place a) m ->
  (forall y, in_box lo hi y -> buf (region_ix lo ld y) <> None) ->
  exists ts fuel0,
    (forall fuel, (fuel0 <= fuel)%nat -> periodic_transfers fuel guess rnd nn smp a lo hi ld = Some ts) /\
    forall ts', Permutation ts ts' ->
      exists buf', run_elems (get_elem m) buf ts' = Some buf' /\
        get_selected (at_wrapped a (reg_place a)) (in_box lo hi) (region_ix lo ld) m buf buf'.
Proof.
  intros V guess rnd nn smp a lo hi ld buf m Hg Hr W Hs HQ HA HB.
  destruct (regular_periodic guess rnd nn smp a lo hi ld Hg Hr W Hs HQ) as (ts & f & E & S).
  exists ts, f. split; [exact E|]. intros ts' P. destruct (regular_placed a W) as [P1 P2]. apply sel_get; auto.
  - intros x q q' H1 H2. exact (P1 _ _ _ H1 H2).
  - intros x y Hx Hy. apply (lin_ld_inj lo hi); auto. apply HQ.
  - eapply sel_perm; eauto.
  - apply wrapped_allocated. exact HA.
Qed.
Print Assumptions C29_periodic_get_partial.

Theorem C29_periodic_put_partial : forall V guess rnd nn smp a lo hi ld (buf : buffer V) m,
  good_guess guess -> (forall c k, 0 <= rnd c k) -> wf_array a -> splittable (ga_elemsize a) lo hi ->
  good_periodic a (reg_shape a) lo hi ld -> one_period (dims (ga_desc a)) lo hi -> allocated (reg_place a) m ->
  (forall y, in_box lo hi y -> buf (region_ix lo ld y) <> None) ->
  exists ts fuel0,
    (forall fuel, (fuel0 <= fuel)%nat -> periodic_transfers fuel guess rnd nn smp a lo hi ld = Some ts) /\
    forall ts', Permutation ts ts' ->
      exists m', run_elems (put_elem buf) m ts' = Some m' /\
        put_selected (at_wrapped a (reg_place a)) (in_box lo hi) (region_ix lo ld) buf m m'.
Proof.
  intros V guess rnd nn smp a lo hi ld buf m Hg Hr W Hs HQ HO HA HB.
  destruct (regular_periodic guess rnd nn smp a lo hi ld Hg Hr W Hs HQ) as (ts & f & E & S).
  exists ts, f. split; [exact E|]. intros ts' P. destruct (regular_placed a W) as [P1 P2]. apply sel_put; auto.
  - intros x q q' H1 H2. exact (P1 _ _ _ H1 H2).
  - intros x y q Hx Hy H1 H2. apply (wrapv_inj _ lo hi x y HO); auto; [eapply peri_region_pos; apply HQ|]. exact (P2 _ _ _ H1 H2).
  - eapply sel_perm; eauto.
  - apply wrapped_allocated. exact HA.
Qed.
Print Assumptions C29_periodic_put_partial.

Theorem C29_periodic_acc_partial : forall V (f : V -> V -> V) guess rnd nn smp a lo hi ld (buf : buffer V) m,
  good_guess guess -> (forall c k, 0 <= rnd c k) -> wf_array a -> splittable (ga_elemsize a) lo hi ->
  good_periodic a (reg_shape a) lo hi ld -> one_period (dims (ga_desc a)) lo hi -> allocated (reg_place a) m ->
  (forall y, in_box lo hi y -> buf (region_ix lo ld y) <> None) ->
  exists ts fuel0,
    (forall fuel, (fuel0 <= fuel)%nat -> periodic_transfers fuel guess rnd nn smp a lo hi ld = Some ts) /\
    forall ts', Permutation ts ts' ->
      exists m', run_elems (acc_elem f buf) m ts' = Some m' /\
        acc_selected f (at_wrapped a (reg_place a)) (in_box lo hi) (region_ix lo ld) buf m m'.
Proof.
  intros V f guess rnd nn smp a lo hi ld buf m Hg Hr W Hs HQ HO HA HB.
  destruct (regular_periodic guess rnd nn smp a lo hi ld Hg Hr W Hs HQ) as (ts & f0 & E & S).
  exists ts, f0. split; [exact E|]. intros ts' P. destruct (regular_placed a W) as [P1 P2]. apply sel_acc; auto.
  - intros x q q' H1 H2. exact (P1 _ _ _ H1 H2).
  - intros x y q Hx Hy H1 H2. apply (wrapv_inj _ lo hi x y HO); auto; [eapply peri_region_pos; apply HQ|]. exact (P2 _ _ _ H1 H2).
  - eapply sel_perm; eauto.
  - apply wrapped_allocated. exact HA.
Qed.
Print Assumptions C29_periodic_acc_partial.

(** * Block-distributed arrays *)
Lemma block_layout_dims a nn placed shape : block_layout a nn placed shape -> dims (ga_desc a) <> [].
Proof.
  intros (_ & [(_ & (_ & W & _) & _)|[(_ & [(_ & W & _)|((_ & W & _) & _)] & _)|(_ & (_ & W & _) & _)]]); exact W.
Qed.
Lemma block_periodic guess rnd nn smp a placed shape lo hi ld :
  block_layout a nn placed shape -> good_periodic a shape lo hi ld ->
  exists ts fuel0, (forall fuel, (fuel0 <= fuel)%nat -> periodic_transfers fuel guess rnd nn smp a lo hi ld = Some ts) /\
    sel_transfers (at_wrapped a placed) (in_box lo hi) (region_ix lo ld) ts.
Proof.
  intros HL HQ. apply (periodic_sel_transfers guess rnd nn smp a placed shape); auto.
  - eapply block_layout_dims; eauto.
  - intros c plo phi G E L. apply (block_transfers _ _ _ _ _ _ _ _ placed shape); auto.
Qed.

Theorem C29_periodic_get_blocked_partial : forall V guess rnd nn smp a placed shape lo hi ld (buf : buffer V) m,
  block_layout a nn placed shape -> good_periodic a shape lo hi ld -> allocated placed m ->
  (forall y, in_box lo hi y -> buf (region_ix lo ld y) <> None) ->
  exists ts fuel0,
    (forall fuel, (fuel0 <= fuel)%nat -> periodic_transfers fuel guess rnd nn smp a lo hi ld = Some ts) /\
    forall ts', Permutation ts ts' ->
      exists buf', run_elems (get_elem m) buf ts' = Some buf' /\
        get_selected (at_wrapped a placed) (in_box lo hi) (region_ix lo ld) m buf buf'.
Proof.
  intros V guess rnd nn smp a placed shape lo hi ld buf m HL HQ HA HB.
  destruct (block_periodic guess rnd nn smp a placed shape lo hi ld HL HQ) as (ts & f & E & S).
  exists ts, f. split; [exact E|]. intros ts' P. destruct (block_placed _ _ _ _ HL) as [P1 P2]. apply sel_get; auto.
  - intros x q q' H1 H2. exact (P1 _ _ _ H1 H2).
  - intros x y Hx Hy. apply (lin_ld_inj lo hi); auto. apply HQ.
  - eapply sel_perm; eauto.
  - apply wrapped_allocated. exact HA.
Qed.
Print Assumptions C29_periodic_get_blocked_partial.

Theorem C29_periodic_put_blocked_partial : forall V guess rnd nn smp a placed shape lo hi ld (buf : buffer V) m,
  block_layout a nn placed shape -> good_periodic a shape lo hi ld -> one_period (dims (ga_desc a)) lo hi -> allocated placed m ->
  (forall y, in_box lo hi y -> buf (region_ix lo ld y) <> None) ->
  exists ts fuel0,
    (forall fuel, (fuel0 <= fuel)%nat -> periodic_transfers fuel guess rnd nn smp a lo hi ld = Some ts) /\
    forall ts', Permutation ts ts' ->
      exists m', run_elems (put_elem buf) m ts' = Some m' /\
        put_selected (at_wrapped a placed) (in_box lo hi) (region_ix lo ld) buf m m'.
Proof.
  intros V guess rnd nn smp a placed shape lo hi ld buf m HL HQ HO HA HB.
  destruct (block_periodic guess rnd nn smp a placed shape lo hi ld HL HQ) as (ts & f & E & S).
  exists ts, f. split; [exact E|]. intros ts' P. destruct (block_placed _ _ _ _ HL) as [P1 P2]. apply sel_put; auto.
  - intros x q q' H1 H2. exact (P1 _ _ _ H1 H2).
  - intros x y q Hx Hy H1 H2. apply (wrapv_inj _ lo hi x y HO); auto; [eapply peri_region_pos; apply HQ|]. exact (P2 _ _ _ H1 H2).
  - eapply sel_perm; eauto.
  - apply wrapped_allocated. exact HA.
Qed.
Print Assumptions C29_periodic_put_blocked_partial.

Theorem C29_periodic_acc_blocked_partial : forall V (f : V -> V -> V) guess rnd nn smp a placed shape lo hi ld (buf : buffer V) m,
  block_layout a nn placed shape -> good_periodic a shape lo hi ld -> one_period (dims (ga_desc a)) lo hi -> allocated placed m ->
  (forall y, in_box lo hi y -> buf (region_ix lo ld y) <> None) ->
  exists ts fuel0,
    (forall fuel, (fuel0 <= fuel)%nat -> periodic_transfers fuel guess rnd nn smp a lo hi ld = Some ts) /\
    forall ts', Permutation ts ts' ->
      exists m', run_elems (acc_elem f buf) m ts' = Some m' /\
        acc_selected f (at_wrapped a placed) (in_box lo hi) (region_ix lo ld) buf m m'.
Proof.
  intros V f guess rnd nn smp a placed shape lo hi ld buf m HL HQ HO HA HB.
  destruct (block_periodic guess rnd nn smp a placed shape lo hi ld HL HQ) as (ts & f0 & E & S).
  exists ts, f0. split; [exact E|]. intros ts' P. destruct (block_placed _ _ _ _ HL) as [P1 P2]. apply sel_acc; auto.
  - intros x q q' H1 H2. exact (P1 _ _ _ H1 H2).
  - intros x y q Hx Hy H1 H2. apply (wrapv_inj _ lo hi x y HO); auto; [eapply peri_region_pos; apply HQ|]. exact (P2 _ _ _ H1 H2).
  - eapply sel_perm; eauto.
  - apply wrapped_allocated. exact HA.
Qed.
Print Assumptions C29_periodic_acc_blocked_partial.

(** Rows -1..3 (9, 10, 1, 2, 3) and columns 26..29 (5, 6, 7, 1) of a 10x7
    array on four processes. *)
Example C29_ex :
  wf_array ex_ga /\ splittable (ga_elemsize ex_ga) [-1; 26] [3; 29] /\
  good_periodic ex_ga (reg_shape ex_ga) [-1; 26] [3; 29] [6] /\ one_period (dims (ga_desc ex_ga)) [-1; 26] [3; 29] /\
  wrapv [10; 7] [-1; 29] = [9; 1] /\
  (exists ts, periodic_transfers 20 ex_guess (fun _ _ => 0) 8 (fun _ => false) ex_ga [-1; 26] [3; 29] [6] = Some ts /\
     length ts = 20%nat /\
     (exists q, reg_place ex_ga [9; 1] q /\ In (q, 18) ts) /\ region_ix [-1; 26] [6] [-1; 29] = 18).
Proof.
  split; [exact ex_ga_wf|].
  split; [intros [|[|i]] Hi; cbn in Hi; try lia; vm_compute; discriminate|].
  split.
  { split; [cbn; unfold peri_dim; lia|]. split; [vm_compute; split; [discriminate|exact I]|].
    split; [vm_compute; split; discriminate|]. split; [split; [vm_compute; discriminate|repeat constructor; vm_compute; discriminate]|].
    split; [intros [|i] Hi; cbn in Hi; [vm_compute; discriminate|lia]|].
    intros sh Hs. apply ex_ga_shape in Hs. destruct Hs as [-> | ->]; intros [|i] Hi; cbn in Hi; try lia; vm_compute; discriminate. }
  split; [cbn; lia|]. split; [reflexivity|].
  eexists. split; [vm_compute; reflexivity|]. split; [reflexivity|]. split; [|reflexivity].
  exists (2, 18). split; [exists 1, [6; 1], [10; 3]; split; [cbn; lia|]; split; [vm_compute; reflexivity|]; split; [cbn; lia|]; split; vm_compute; reflexivity|].
  cbn; tauto.
Qed.

(** * Requests that are accepted but not handled *)
(** A single row two periods before the array: the patches given to pnga_put
    are not in the array. *)
Theorem C29_far_below_refuted : exists guess a lo hi ld,
  good_guess guess /\ wf_array a /\ one_period (dims (ga_desc a)) lo hi /\ Forall2 Z.le lo hi /\ valid_ld lo hi ld /\
  (exists rs, peri_get_range (dims (ga_desc a)) lo hi = Some (PeriRanges rs) /\
     exists ps c plo phi off, peri_loop 9 rs (map (fun _ => 0) rs) ld = Some ps /\ In (c, (plo, phi, off)) ps /\
       ~ in_array (dims (ga_desc a)) plo).
Proof.
  exists ex_guess, ex_ga, [-12; 1], [-12; 3], [1].
  split; [exact ex_guess_good|]. split; [exact ex_ga_wf|]. split; [cbn; lia|]. split; [repeat constructor; lia|].
  split; [vm_compute; split; [discriminate|exact I]|].
  eexists. split; [vm_compute; reflexivity|]. do 5 eexists. split; [vm_compute; reflexivity|].
  split; [left; reflexivity|]. cbn. lia.
Qed.
Print Assumptions C29_far_below_refuted.
(** Two periods starting inside the array. *)
Theorem C29_two_periods_refuted : exists guess a lo hi ld,
  good_guess guess /\ wf_array a /\ in_array (dims (ga_desc a)) lo /\ Forall2 Z.le lo hi /\ valid_ld lo hi ld /\
  (exists rs, peri_get_range (dims (ga_desc a)) lo hi = Some (PeriRanges rs) /\
     exists ps c plo phi off, peri_loop 9 rs (map (fun _ => 0) rs) ld = Some ps /\ In (c, (plo, phi, off)) ps /\
       ~ in_array (dims (ga_desc a)) phi).
Proof.
  exists ex_guess, ex_ga, [5; 1], [24; 3], [20].
  split; [exact ex_guess_good|]. split; [exact ex_ga_wf|]. split; [cbn; lia|]. split; [repeat constructor; lia|].
  split; [vm_compute; split; [discriminate|exact I]|].
  eexists. split; [vm_compute; reflexivity|]. do 5 eexists. split; [vm_compute; reflexivity|].
  split; [right; left; reflexivity|]. cbn. lia.
Qed.
Print Assumptions C29_two_periods_refuted.

(** A request that is empty or longer than two periods in some dimension is
    rejected. *)
Theorem C29_rejected : forall fuel guess rnd nn smp a lo hi ld i d l h,
  length lo = length (dims (ga_desc a)) -> length hi = length lo ->
  nth_error (dims (ga_desc a)) i = Some d -> nth_error lo i = Some l -> nth_error hi i = Some h ->
  h < l \/ h - l + 1 > 2 * d ->
  periodic_transfers fuel guess rnd nn smp a lo hi ld = None.
Proof.
  intros fuel guess rnd nn smp a lo hi ld i d l h L1 L2 E1 E2 E3 HW.
  assert (X : peri_valid (dims (ga_desc a)) lo hi = Some false).
  { revert lo hi i L1 L2 E1 E2 E3. induction (dims (ga_desc a)) as [|d0 ds IH]; intros [|l0 lo] [|h0 hi] i L1 L2 E1 E2 E3; try discriminate; destruct i as [|i]; try discriminate.
    - cbn in E1, E2, E3. injection E1 as ->. injection E2 as ->. injection E3 as ->. cbn [peri_valid].
      replace ((h - l + 1 <? 1) || (2 * d <? h - l + 1)) with true; [reflexivity|]. symmetry. apply orb_true_iff.
      destruct HW; [left|right]; apply Z.ltb_lt; lia.
    - cbn [peri_valid]. destruct ((h0 - l0 + 1 <? 1) || (2 * d0 <? h0 - l0 + 1)); [reflexivity|].
      cbn in *. eapply (IH lo hi i); eauto. }
  unfold periodic_transfers, peri_get_range. rewrite X. reflexivity.
Qed.
Print Assumptions C29_rejected.
Example C29_rejected_ex : periodic_transfers 9 ex_guess (fun _ _ => 0) 8 (fun _ => false) ex_ga [1; 1] [21; 3] [21] = None.
Proof. vm_compute. reflexivity. Qed.
