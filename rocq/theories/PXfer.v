(** Property theorems: put, get and accumulate (C18-C23 for map-distributed
    arrays, C48-C50 for block-distributed arrays). *)
From Verif Require Import LStore MXfer LXfer LXfer2 PDist PIter PIterBlk.
Open Scope Z_scope.

(** * C18 *)
Theorem C18_put : forall V guess rnd nn smp a lo hi ld (buf : buffer V) m,
  good_guess guess -> (forall k, 0 <= rnd k) -> wf_array a -> splittable (ga_elemsize a) lo hi ->
  good_request a (reg_shape a) lo hi ld -> allocated (reg_place a) m -> buffer_ok buf lo hi ld ->
  exists ts fuel0,
    (forall fuel, (fuel0 <= fuel)%nat -> transfers fuel guess rnd nn smp a lo hi ld = Some ts) /\
    forall ts', Permutation ts ts' ->
      exists m', run_elems (put_elem buf) m ts' = Some m' /\ put_effect (reg_place a) lo hi ld buf m m'.
Proof.
  intros V guess rnd nn smp a lo hi ld buf m Hg Hr W Hs HQ HA HB.
  destruct (regular_transfers guess rnd nn smp a lo hi ld Hg Hr W Hs HQ) as (ts & (f0 & E) & R).
  exists ts, f0. split; [exact E|]. intros ts' P. destruct (regular_placed a W) as [P1 P2].
  destruct HQ as (H1 & H2 & H3 & _). pose proof (Forall2_len _ _ _ H3) as HL.
  apply region_put; auto. eapply region_perm; eauto.
Qed.
Print Assumptions C18_put.

(** * C19 *)
Theorem C19_get : forall V guess rnd nn smp a lo hi ld (buf : buffer V) m,
  good_guess guess -> (forall k, 0 <= rnd k) -> wf_array a -> splittable (ga_elemsize a) lo hi ->
  good_request a (reg_shape a) lo hi ld -> allocated (reg_place a) m -> buffer_ok buf lo hi ld ->
  exists ts fuel0,
    (forall fuel, (fuel0 <= fuel)%nat -> transfers fuel guess rnd nn smp a lo hi ld = Some ts) /\
    forall ts', Permutation ts ts' ->
      exists buf', run_elems (get_elem m) buf ts' = Some buf' /\ get_effect (reg_place a) lo hi ld m buf buf'.
Proof.
  intros V guess rnd nn smp a lo hi ld buf m Hg Hr W Hs HQ HA HB.
  destruct (regular_transfers guess rnd nn smp a lo hi ld Hg Hr W Hs HQ) as (ts & (f0 & E) & R).
  exists ts, f0. split; [exact E|]. intros ts' P. destruct (regular_placed a W) as [P1 P2].
  destruct HQ as (H1 & H2 & H3 & H4 & _). pose proof (Forall2_len _ _ _ H3) as HL.
  apply region_get; auto. eapply region_perm; eauto.
Qed.
Print Assumptions C19_get.

(** * C20 *)
(** A get of [lo2..hi2] after a put of [lo1..hi1], whatever the orders in which
    the pieces are transferred. *)
Theorem C20_get_after_put : forall V guess rnd1 rnd2 nn smp1 smp2 a lo1 hi1 ld1 lo2 hi2 ld2 (buf1 buf2 : buffer V) m,
  good_guess guess -> (forall k, 0 <= rnd1 k) -> (forall k, 0 <= rnd2 k) -> wf_array a ->
  splittable (ga_elemsize a) lo1 hi1 -> splittable (ga_elemsize a) lo2 hi2 ->
  good_request a (reg_shape a) lo1 hi1 ld1 -> good_request a (reg_shape a) lo2 hi2 ld2 ->
  allocated (reg_place a) m -> buffer_ok buf1 lo1 hi1 ld1 -> buffer_ok buf2 lo2 hi2 ld2 ->
  exists ts1 ts2 fuel0,
    (forall fuel, (fuel0 <= fuel)%nat ->
       transfers fuel guess rnd1 nn smp1 a lo1 hi1 ld1 = Some ts1 /\
       transfers fuel guess rnd2 nn smp2 a lo2 hi2 ld2 = Some ts2) /\
    forall ts1' ts2', Permutation ts1 ts1' -> Permutation ts2 ts2' ->
      exists m' buf2', run_elems (put_elem buf1) m ts1' = Some m' /\
        run_elems (get_elem m') buf2 ts2' = Some buf2' /\
        forall x q, in_box lo2 hi2 x -> reg_place a x q ->
          buf_at buf2' lo2 ld2 x = (if in_boxb lo1 hi1 x then buf_at buf1 lo1 ld1 x else hget m q).
Proof.
  intros V guess rnd1 rnd2 nn smp1 smp2 a lo1 hi1 ld1 lo2 hi2 ld2 buf1 buf2 m Hg Hr1 Hr2 W Hs1 Hs2 HQ1 HQ2 HA HB1 HB2.
  destruct (C18_put V guess rnd1 nn smp1 a lo1 hi1 ld1 buf1 m Hg Hr1 W Hs1 HQ1 HA HB1) as (ts1 & f1 & E1 & R1).
  destruct (regular_transfers guess rnd2 nn smp2 a lo2 hi2 ld2 Hg Hr2 W Hs2 HQ2) as (ts2 & (f2 & E2) & R2).
  exists ts1, ts2, (Nat.max f1 f2). split; [intros fuel Hf; split; [apply E1|apply E2]; lia|].
  intros ts1' ts2' P1 P2. destruct (R1 ts1' P1) as (m' & RP & [EP EF]).
  destruct (regular_placed a W) as [F1 F2].
  assert (HA' : allocated (reg_place a) m').
  { intros x q Hq. destruct (in_boxb lo1 hi1 x) eqn:B.
    - apply in_boxb_spec in B. rewrite (EP x q B Hq). apply HB1. exact B.
    - rewrite EF; [apply (HA x q Hq)|]. intros y Hy Hp. rewrite (F2 _ _ _ Hq Hp) in B. apply in_boxb_spec in Hy. congruence. }
  destruct HQ2 as (H1 & H2 & H3 & H4 & _). pose proof (Forall2_len _ _ _ H3) as HL.
  destruct (region_get (reg_place a) lo2 hi2 ld2 HL F1 ts2' buf2 m') as (buf2' & RG & [EG _]); auto.
  { eapply region_perm; eauto. }
  exists m', buf2'. split; [exact RP|]. split; [exact RG|].
  intros x q Hx Hq. rewrite (EG x q Hx Hq). destruct (in_boxb lo1 hi1 x) eqn:B.
  - apply in_boxb_spec in B. apply EP; auto.
  - apply EF. intros y Hy Hp. rewrite (F2 _ _ _ Hq Hp) in B. apply in_boxb_spec in Hy. congruence.
Qed.
Print Assumptions C20_get_after_put.

(** * C21 *)
(** [f v w] = v + alpha * w, in whatever arithmetic the element type has. *)
Theorem C21_accumulate : forall V (f : V -> V -> V) guess rnd nn smp a lo hi ld (buf : buffer V) m,
  good_guess guess -> (forall k, 0 <= rnd k) -> wf_array a -> splittable (ga_elemsize a) lo hi ->
  good_request a (reg_shape a) lo hi ld -> allocated (reg_place a) m -> buffer_ok buf lo hi ld ->
  exists ts fuel0,
    (forall fuel, (fuel0 <= fuel)%nat -> transfers fuel guess rnd nn smp a lo hi ld = Some ts) /\
    forall ts', Permutation ts ts' ->
      exists m', run_elems (acc_elem f buf) m ts' = Some m' /\ acc_effect f (reg_place a) lo hi ld buf m m'.
Proof.
  intros V f guess rnd nn smp a lo hi ld buf m Hg Hr W Hs HQ HA HB.
  destruct (regular_transfers guess rnd nn smp a lo hi ld Hg Hr W Hs HQ) as (ts & (f0 & E) & R).
  exists ts, f0. split; [exact E|]. intros ts' P. destruct (regular_placed a W) as [P1 P2].
  destruct HQ as (H1 & H2 & H3 & _). pose proof (Forall2_len _ _ _ H3) as HL.
  apply region_acc; auto. eapply region_perm; eauto.
Qed.
Print Assumptions C21_accumulate.

(** * C22 *)
(** Any number of calls, each with its own region, buffer and visiting order;
    [es] is any interleaving of all the element updates.  The scaled values
    are what the buffers hold; [f] adds them. *)
Theorem C22_concurrent_accumulate : forall V (f : V -> V -> V) guess nn a (calls : list (call V)) m,
  (forall u v w, f (f u v) w = f (f u w) v) ->
  good_guess guess -> wf_array a -> allocated (reg_place a) m ->
  (forall c, In c calls ->
     (forall k, 0 <= fst (snd c) k) /\ splittable (ga_elemsize a) (o_lo (fst c)) (o_hi (fst c)) /\
     good_request a (reg_shape a) (o_lo (fst c)) (o_hi (fst c)) (o_ld (fst c)) /\
     buffer_ok (o_buf (fst c)) (o_lo (fst c)) (o_hi (fst c)) (o_ld (fst c))) ->
  exists tss,
    Forall2 (fun c ts => exists fuel0, forall fuel, (fuel0 <= fuel)%nat ->
       transfers fuel guess (fst (snd c)) nn (snd (snd c)) a (o_lo (fst c)) (o_hi (fst c)) (o_ld (fst c)) = Some ts)
      calls tss /\
    forall es, Permutation es (op_events (combine (map fst calls) tss)) ->
      exists m', run_elems (acc_event f) m es = Some m' /\
        (forall x q v, reg_place a x q -> hget m q = Some v ->
           hget m' q = Some (fold_left f (contributions (map fst calls) x) v)) /\
        (forall q, (forall x c, In c calls -> in_box (o_lo (fst c)) (o_hi (fst c)) x -> ~ reg_place a x q) ->
           hget m' q = hget m q).
Proof.
  intros V f guess nn a calls m HC Hg W HA HO. destruct (regular_placed a W) as [P1 P2].
  destruct (calls_transfers guess nn a (reg_place a) calls) as (tss & FT).
  { intros c Hc. destruct (HO c Hc) as (H1 & H2 & H3 & H4). apply regular_transfers; auto. }
  exists tss. split; [eapply Forall2_weaken; [|exact FT]; intros c ts [X _]; exact X|].
  intros es P. rewrite <- (map_fst_combine fst _ _ _ FT).
  destruct (concurrent_acc (reg_place a) P1 P2 V (combine (map fst calls) tss)) with (m := m) (f := f) (es := es)
    as (m' & R & E1 & E2); auto.
  { intros o ts Hin. destruct (combine_In fst _ _ _ _ _ FT Hin) as (c & Hc & -> & _ & RT).
    destruct (HO c Hc) as (H1 & H2 & H3 & H4). destruct H3 as (_ & _ & X & _). split; [eapply Forall2_len; exact X|]. auto. }
  exists m'. split; [exact R|]. split; [exact E1|]. intros q Hq. apply E2. intros x o ts Hin Hx.
  destruct (combine_In fst _ _ _ _ _ FT Hin) as (c & Hc & -> & _). eauto.
Qed.
Print Assumptions C22_concurrent_accumulate.

(** * C23 *)
Theorem C23_concurrent_put : forall V guess nn a (calls : list (call V)) m,
  disjoint_regions (map fst calls) ->
  good_guess guess -> wf_array a -> allocated (reg_place a) m ->
  (forall c, In c calls ->
     (forall k, 0 <= fst (snd c) k) /\ splittable (ga_elemsize a) (o_lo (fst c)) (o_hi (fst c)) /\
     good_request a (reg_shape a) (o_lo (fst c)) (o_hi (fst c)) (o_ld (fst c)) /\
     buffer_ok (o_buf (fst c)) (o_lo (fst c)) (o_hi (fst c)) (o_ld (fst c))) ->
  exists tss,
    Forall2 (fun c ts => exists fuel0, forall fuel, (fuel0 <= fuel)%nat ->
       transfers fuel guess (fst (snd c)) nn (snd (snd c)) a (o_lo (fst c)) (o_hi (fst c)) (o_ld (fst c)) = Some ts)
      calls tss /\
    forall es, Permutation es (op_events (combine (map fst calls) tss)) ->
      exists m', run_elems put_event m es = Some m' /\
        (forall c x q, In c calls -> in_box (o_lo (fst c)) (o_hi (fst c)) x -> reg_place a x q ->
           hget m' q = buf_at (o_buf (fst c)) (o_lo (fst c)) (o_ld (fst c)) x) /\
        (forall q, (forall x c, In c calls -> in_box (o_lo (fst c)) (o_hi (fst c)) x -> ~ reg_place a x q) ->
           hget m' q = hget m q).
Proof.
  intros V guess nn a calls m HD Hg W HA HO. destruct (regular_placed a W) as [P1 P2].
  destruct (calls_transfers guess nn a (reg_place a) calls) as (tss & FT).
  { intros c Hc. destruct (HO c Hc) as (H1 & H2 & H3 & H4). apply regular_transfers; auto. }
  exists tss. split; [eapply Forall2_weaken; [|exact FT]; intros c ts [X _]; exact X|].
  intros es P.
  destruct (concurrent_put (reg_place a) P1 P2 V (combine (map fst calls) tss)) with (m := m) (es := es)
    as (m' & R & E1 & E2); auto.
  { intros o ts Hin. destruct (combine_In fst _ _ _ _ _ FT Hin) as (c & Hc & -> & _ & RT).
    destruct (HO c Hc) as (H1 & H2 & H3 & H4). destruct H3 as (_ & _ & X & _). split; [eapply Forall2_len; exact X|]. auto. }
  { rewrite (map_fst_combine fst _ _ _ FT). exact HD. }
  exists m'. split; [exact R|]. split.
  - intros c x q Hc Hx Hq. destruct (combine_In_r fst _ _ _ c FT Hc) as (ts & Hin). eapply E1; eauto.
  - intros q Hq. apply E2. intros x o ts Hin Hx.
    destruct (combine_In fst _ _ _ _ _ FT Hin) as (c & Hc & -> & _). eauto.
Qed.
Print Assumptions C23_concurrent_put.

(** A request on [ex_ga]: 3..7 x 2..5 from a buffer with leading dimension 9,
    holding 100, 101, ... ; the array elements hold 0. *)
Definition ex_mem (n : Z) (v : Z) : heap Z := fun p o => if (0 <=? o) && (o <? n) then Some v else None.
Definition ex_buf (n : Z) : buffer Z := fun i => if (0 <=? i) && (i <? n) then Some (100 + i) else None.
Lemma ex_ga_shape sh : reg_shape ex_ga sh -> sh = [7; 7] \/ sh = [7; 8].
Proof.
  intros (p & l & h & Hp & E & _ & ->). cbn [ex_ga ga_nproc ga_desc ga_width] in *.
  assert (p = 0 \/ p = 1 \/ p = 2 \/ p = 3) as [-> | [-> | [-> | ->]]] by lia; vm_compute in E;
    injection E as <- <-; vm_compute; auto.
Qed.
Example ex_request : good_request ex_ga (reg_shape ex_ga) [3; 2] [7; 5] [9].
Proof.
  split; [cbn; lia|]. split; [cbn; lia|]. split; [repeat constructor; lia|]. split; [cbn; lia|].
  split; [cbn; unfold int_max; lia|]. split; [unfold int_counts; cbn [extents ex_ga ga_elemsize]; unfold int_max; split; [lia|repeat constructor; lia]|].
  split; [intros [|i] Hi; cbn in Hi; [vm_compute; discriminate|lia]|].
  intros sh Hs. apply ex_ga_shape in Hs as [-> | ->]; intros [|i] Hi; cbn in Hi; try lia; vm_compute; discriminate.
Qed.
Lemma vm_lt n x : (x <? n) = true -> x < n. Proof. lia. Qed.
Lemma ex_mem_allocated : allocated (reg_place ex_ga) (ex_mem 56 0).
Proof.
  intros x q (p & l & h & Hp & E & Hx & _ & Ho). unfold hget, ex_mem.
  assert (X : length (ga_width ex_ga) = length l /\ zprod (padded l h (ga_width ex_ga)) <= 56).
  { cbn [ex_ga ga_nproc ga_desc ga_width] in *.
    assert (p = 0 \/ p = 1 \/ p = 2 \/ p = 3) as [-> | [-> | [-> | ->]]] by lia; vm_compute in E;
      injection E as <- <-; vm_compute; split; congruence. }
  destruct X as [X1 X2].
  pose proof (lin_range _ _ (in_range_padded l h (ga_width ex_ga) x Hx X1 ltac:(repeat constructor; lia))) as R. rewrite Ho.
  replace ((0 <=? _) && _) with true by lia. discriminate.
Qed.
Lemma ex_buffer_ok : buffer_ok (ex_buf 32) [3; 2] [7; 5] [9].
Proof.
  intros [|x [|y [|z l]]]; cbn [in_box]; try tauto. intros (Hx & Hy & _). unfold buf_at, ex_buf.
  cbn [vsub]. rewrite lin_cons. cbn [lin]. replace ((0 <=? _) && _) with true by lia. discriminate.
Qed.
(** The put writes element (7,4), whose home is process 0, at offset 16 there,
    and not (7,6) at offset 30. *)
Example C18_ex :
  good_request ex_ga (reg_shape ex_ga) [3; 2] [7; 5] [9] /\ allocated (reg_place ex_ga) (ex_mem 56 0) /\
  buffer_ok (ex_buf 32) [3; 2] [7; 5] [9] /\
  (do ts <- transfers 9 ex_guess (fun i => 7 * i + 2) 8 (fun p => p =? 5) ex_ga [3; 2] [7; 5] [9];
   do m' <- run_elems (put_elem (ex_buf 32)) (ex_mem 56 0) ts;
   Some (length ts, hget m' (0, 16), hget m' (0, 30))) = Some (20%nat, Some 122, Some 0).
Proof.
  split; [exact ex_request|]. split; [exact ex_mem_allocated|]. split; [exact ex_buffer_ok|].
  vm_compute. reflexivity.
Qed.

(** * C48, C49, C50 *)
(** Block-distributed arrays, within the restrictions of [block_layout] (world
    group, no more processes than blocks). *)
Theorem C48_block_put_partial : forall V guess rnd nn smp a placed shape lo hi ld (buf : buffer V) m,
  block_layout a nn placed shape -> good_request a shape lo hi ld -> allocated placed m -> buffer_ok buf lo hi ld ->
  exists ts fuel0,
    (forall fuel, (fuel0 <= fuel)%nat -> transfers fuel guess rnd nn smp a lo hi ld = Some ts) /\
    forall ts', Permutation ts ts' ->
      exists m', run_elems (put_elem buf) m ts' = Some m' /\ put_effect placed lo hi ld buf m m'.
Proof.
  intros V guess rnd nn smp a placed shape lo hi ld buf m B HQ HA HB.
  destruct (block_transfers guess rnd nn smp a lo hi ld placed shape B HQ) as (ts & (f0 & E) & R).
  exists ts, f0. split; [exact E|]. intros ts' P. destruct (block_placed _ _ _ _ B) as [P1 P2].
  destruct HQ as (H1 & H2 & H3 & _). pose proof (Forall2_len _ _ _ H3) as HL.
  apply region_put; auto. eapply region_perm; eauto.
Qed.
Print Assumptions C48_block_put_partial.

Theorem C49_block_get_partial : forall V guess rnd nn smp a placed shape lo hi ld (buf : buffer V) m,
  block_layout a nn placed shape -> good_request a shape lo hi ld -> allocated placed m -> buffer_ok buf lo hi ld ->
  exists ts fuel0,
    (forall fuel, (fuel0 <= fuel)%nat -> transfers fuel guess rnd nn smp a lo hi ld = Some ts) /\
    forall ts', Permutation ts ts' ->
      exists buf', run_elems (get_elem m) buf ts' = Some buf' /\ get_effect placed lo hi ld m buf buf'.
Proof.
  intros V guess rnd nn smp a placed shape lo hi ld buf m B HQ HA HB.
  destruct (block_transfers guess rnd nn smp a lo hi ld placed shape B HQ) as (ts & (f0 & E) & R).
  exists ts, f0. split; [exact E|]. intros ts' P. destruct (block_placed _ _ _ _ B) as [P1 P2].
  destruct HQ as (H1 & H2 & H3 & H4 & _). pose proof (Forall2_len _ _ _ H3) as HL.
  apply region_get; auto. eapply region_perm; eauto.
Qed.
Print Assumptions C49_block_get_partial.

Theorem C50_block_concurrent_accumulate_partial :
  forall V (f : V -> V -> V) guess nn a placed shape (calls : list (call V)) m,
  (forall u v w, f (f u v) w = f (f u w) v) -> block_layout a nn placed shape -> allocated placed m ->
  (forall c, In c calls ->
     good_request a shape (o_lo (fst c)) (o_hi (fst c)) (o_ld (fst c)) /\
     buffer_ok (o_buf (fst c)) (o_lo (fst c)) (o_hi (fst c)) (o_ld (fst c))) ->
  exists tss,
    Forall2 (fun c ts => exists fuel0, forall fuel, (fuel0 <= fuel)%nat ->
       transfers fuel guess (fst (snd c)) nn (snd (snd c)) a (o_lo (fst c)) (o_hi (fst c)) (o_ld (fst c)) = Some ts)
      calls tss /\
    forall es, Permutation es (op_events (combine (map fst calls) tss)) ->
      exists m', run_elems (acc_event f) m es = Some m' /\
        (forall x q v, placed x q -> hget m q = Some v ->
           hget m' q = Some (fold_left f (contributions (map fst calls) x) v)) /\
        (forall q, (forall x c, In c calls -> in_box (o_lo (fst c)) (o_hi (fst c)) x -> ~ placed x q) ->
           hget m' q = hget m q).
Proof.
  intros V f guess nn a placed shape calls m HC B HA HO. destruct (block_placed _ _ _ _ B) as [P1 P2].
  destruct (calls_transfers guess nn a placed calls) as (tss & FT).
  { intros c Hc. destruct (HO c Hc) as (H3 & H4). eapply block_transfers; eauto. }
  exists tss. split; [eapply Forall2_weaken; [|exact FT]; intros c ts [X _]; exact X|].
  intros es P. rewrite <- (map_fst_combine fst _ _ _ FT).
  destruct (concurrent_acc placed P1 P2 V (combine (map fst calls) tss)) with (m := m) (f := f) (es := es)
    as (m' & R & E1 & E2); auto.
  { intros o ts Hin. destruct (combine_In fst _ _ _ _ _ FT Hin) as (c & Hc & -> & _ & RT).
    destruct (HO c Hc) as (H3 & H4). destruct H3 as (_ & _ & X & _). split; [eapply Forall2_len; exact X|]. auto. }
  exists m'. split; [exact R|]. split; [exact E1|]. intros q Hq. apply E2. intros x o ts Hin Hx.
  destruct (combine_In fst _ _ _ _ _ FT Hin) as (c & Hc & -> & _). eauto.
Qed.
Print Assumptions C50_block_concurrent_accumulate_partial.

Example C48_ex :
  block_layout (ex_bc1 11 2 None) 2 (block_place (ex_bc1 11 2 None)) (block_shape (ex_bc1 11 2 None)) /\
  good_request (ex_bc1 11 2 None) (block_shape (ex_bc1 11 2 None)) [2] [8] [] /\
  block_layout (ex_grid SCALAPACK) 4 (scalapack_place (ex_grid SCALAPACK)) (scalapack_shape (ex_grid SCALAPACK)) /\
  (do ts <- transfers 9 ex_guess (fun _ => 0) 2 (fun p => p =? 1) (ex_bc1 11 2 None) [2] [8] [];
   do m' <- run_elems (put_elem (ex_buf 7)) (ex_mem 6 0) ts;
   Some (map (fun o => hget m' (0, o)) [0; 1; 2; 3; 4; 5], map (fun o => hget m' (1, o)) [0; 1; 2; 3; 4])) =
   Some ([Some 0; Some 100; Some 103; Some 104; Some 0; Some 0], [Some 101; Some 102; Some 105; Some 106; Some 0]).
Proof.
  split; [split; [reflexivity|]; left; split; [reflexivity|]; split; [apply ex_bc1_wf; lia|]; split; [reflexivity|];
          split; [vm_compute; split; discriminate|auto]|].
  split.
  { split; [cbn; lia|]. split; [cbn; lia|]. split; [repeat constructor; lia|]. split; [exact I|].
    split; [cbn; unfold int_max; lia|]. split; [unfold int_counts; cbn [extents ex_bc1 ga_elemsize]; unfold int_max; split; [lia|repeat constructor; lia]|].
    split; [intros i Hi; cbn in Hi; lia|]. intros sh _ i Hi; cbn in Hi; lia. }
  split.
  { split; [reflexivity|]. right. right. destruct (ex_grid_wf SCALAPACK) as [H1 H2]; [tauto|]. split; [reflexivity|].
    split; [exact H1|]. split; [exact H2|]. split; [cbn; repeat constructor; lia|auto]. }
  vm_compute. reflexivity.
Qed.

(** * C51 *)
(** Without the limit on strides: a 40000 x 10000 x 2 array of 8-byte elements
    on one process; the byte stride of the third dimension does not fit a C
    int and the put of two elements is undefined. *)
Definition ex_big : garray :=
  {| ga_desc := {| distr_type := REGULAR; dims := [40000; 10000; 2]; nblock := [1; 1; 1]; mapc := [1; 1; 1];
                   block_dims := []; num_blocks := []; rstrctd_list := []; rank_rstrctd := [] |};
     ga_width := [0; 0; 0]; ga_group := None; ga_nproc := 1; ga_elemsize := 8 |}.
Theorem C51_large_stride_refuted : exists a lo hi ld ps,
  wf_array a /\ in_array (dims (ga_desc a)) lo /\ in_array (dims (ga_desc a)) hi /\ Forall2 Z.le lo hi /\
  splittable (ga_elemsize a) lo hi /\ valid_ld lo hi ld /\ 1 <= ga_elemsize a <= int_max /\
  int_counts (ga_elemsize a) lo hi /\ int_strides (ga_elemsize a) (length lo - 1) ld /\
  forall fuel rnd nn smp, (3 <= fuel)%nat ->
    iterate fuel ex_guess rnd nn a lo hi = Some ps /\ transfers fuel ex_guess rnd nn smp a lo hi ld = None.
Proof.
  exists ex_big, [1; 1; 1], [1; 1; 2], [1; 1], [IPiece 0 0 [1; 1; 1] [1; 1; 2] 0 [40000; 10000]].
  split.
  { split; [|split; [reflexivity|split; [repeat constructor; lia|split; [exact I|cbn; lia]]]].
    split; [reflexivity|]. split; [discriminate|]. split.
    - cbn [valid_maps ex_big ga_desc dims nblock mapc].
      change (skipn (Z.to_nat 1) (skipn (Z.to_nat 1) [1; 1; 1])) with [1].
      change (skipn (Z.to_nat 1) [1; 1; 1]) with [1; 1].
      split; [solve_map|]. split; [solve_map|]. split; [solve_map|exact I].
    - left. split; [reflexivity|]. cbn. lia. }
  split; [cbn; lia|]. split; [cbn; lia|]. split; [repeat constructor; lia|].
  split; [intros i Hi; do 3 (destruct i as [|i]; [vm_compute; discriminate|]); cbn in Hi; lia|].
  split; [cbn; lia|]. split; [cbn; unfold int_max; lia|].
  split; [unfold int_counts; cbn [extents ex_big ga_elemsize]; unfold int_max; split; [lia|repeat constructor; lia]|].
  split; [intros i Hi; do 2 (destruct i as [|i]; [vm_compute; discriminate|]); cbn in Hi; lia|].
  intros fuel rnd nn smp Hf. do 3 (destruct fuel as [|fuel]; [lia|]).
  assert (E : iterate (S (S (S fuel))) ex_guess rnd nn ex_big [1; 1; 1] [1; 1; 2] =
              Some [IPiece 0 0 [1; 1; 1] [1; 1; 2] 0 [40000; 10000]]) by (vm_compute; reflexivity).
  split; [exact E|]. unfold transfers. rewrite E. cbn [filter ip_proc negb]. destruct (smp 0); vm_compute; reflexivity.
Qed.
Print Assumptions C51_large_stride_refuted.
