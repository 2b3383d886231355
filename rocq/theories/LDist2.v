(** More proofs about distribution queries: block homes, region location of
    block-cyclic arrays, comparison of distributions. *)
From Verif Require Export LDist.

(** ---- homes of blocks (C06, C07) ---- *)
Definition vmod (grid idx : list Z) : list Z :=
  map (fun p => snd p mod fst p) (combine grid idx).

Lemma mod_indices_spec grid idx :
  Forall (fun n => 1 <= n) grid -> Forall (fun i => 0 <= i) idx -> length idx = length grid ->
  mod_indices grid idx = Some (vmod grid idx) /\ in_range0 grid (vmod grid idx).
Proof.
  intros HF; revert idx; induction HF as [|n grid Hn HF IH]; intros [|i idx] HI HL; try discriminate.
  - cbn; auto.
  - inversion_clear HI as [|? ? Hi HI']. cbn [mod_indices].
    unfold cmod. destruct (Z.eqb_spec n 0); [lia|].
    destruct (IH idx) as (-> & Hr); auto. cbn in *. change (map _ (combine grid idx)) with (vmod grid idx).
    rewrite Z.rem_mod_nonneg by lia. split; auto. split; auto. apply Z.mod_pos_bound; lia.
Qed.

Lemma in_range0_nonneg ns i : in_range0 ns i -> Forall (fun a => 0 <= a) i.
Proof.
  revert i; induction ns as [|n ns IH]; intros [|a i]; cbn; try tauto; constructor; [lia|].
  apply IH; tauto.
Qed.

Lemma wf_any_axes g : wf_blocked g \/ wf_tiled_irreg g ->
  Forall valid_axis (axes_of g) /\ map ad (axes_of g) = dims g /\
  map an (axes_of g) = num_blocks g /\ Forall (fun n => 1 <= n) (num_blocks g) /\
  length (num_blocks g) = length (dims g).
Proof.
  intros HW.
  assert (Forall valid_axis (axes_of g) /\ map ad (axes_of g) = dims g /\ map an (axes_of g) = num_blocks g)
    as (Hax & Had & Han) by (destruct HW; auto using wf_blocked_axes, wf_tiled_irreg_axes).
  repeat split; auto.
  - rewrite <- Han. apply axes_pos; auto.
  - rewrite <- Had, <- Han, !map_length. auto.
Qed.

Lemma grid_home nproc g k :
  wf_grid nproc g -> 0 <= k < zprod (num_blocks g) ->
  exists p idx coord,
    find_indices (num_blocks g) k = Some idx /\
    block_home nproc g k = Some p /\ 0 <= p < nproc /\
    find_indices (nblock g) p = Some coord /\
    Forall2 (fun n ic => 0 <= fst ic /\ snd ic = (fst ic) mod n) (nblock g) (combine idx coord).
Proof.
  intros (HW & HT & HL & Hpos & <-) Hk.
  destruct (wf_any_axes g HW) as (_ & _ & _ & Hnb & Hlen).
  pose proof (decode_range _ _ Hnb Hk) as Hr.
  pose proof (find_indices_decode _ k Hnb ltac:(lia)) as Ei.
  destruct (mod_indices_spec (nblock g) (decode (num_blocks g) k)) as (Em & Hrm); auto.
  { eapply in_range0_nonneg; eauto. } { rewrite decode_length; congruence. }
  exists (encode (nblock g) (vmod (nblock g) (decode (num_blocks g) k))),
         (decode (num_blocks g) k), (vmod (nblock g) (decode (num_blocks g) k)).
  split; auto. split.
  { unfold block_home. destruct (distr_type g); try congruence;
      rewrite Ei; unfold find_proc_from_indices; rewrite Em, horner_encode by (apply in_range0_length; auto); auto. }
  pose proof (encode_range _ _ Hrm) as He. split; auto. split.
  { rewrite find_indices_decode by (auto; lia). rewrite decode_encode by auto. auto. }
  apply in_range0_nonneg in Hr.
  assert (length (decode (num_blocks g) k) = length (nblock g)) as HL2 by (rewrite decode_length; congruence).
  clear - HL2 Hr. revert HL2 Hr. generalize (decode (num_blocks g) k) as d. generalize (nblock g) as nb.
  induction nb as [|n nb IH]; intros [|a d] HL HF; try discriminate; cbn; constructor.
  - cbn. inversion_clear HF. auto.
  - inversion_clear HF. apply IH; auto.
Qed.

Lemma bc_home nproc g k :
  distr_type g = BLOCK_CYCLIC -> 1 <= nproc -> 0 <= k ->
  exists p, block_home nproc g k = Some p /\ 0 <= p < nproc /\ exists q, 0 <= q /\ k = p + q * nproc.
Proof.
  intros HT Hn Hk. unfold block_home. rewrite HT. unfold cmod. destruct (Z.eqb_spec nproc 0); [lia|].
  rewrite Z.rem_mod_nonneg by lia. eexists; split; [reflexivity|].
  split; [apply Z.mod_pos_bound; lia|]. exists (k / nproc).
  split; [apply Z.div_pos; lia|]. pose proof (Z.div_mod k nproc). lia.
Qed.

(** ---- locate_region on block-cyclic arrays (C08) ---- *)
Lemma in_box_len lo hi x : in_box lo hi x -> length lo = length x /\ length hi = length x.
Proof.
  revert hi x; induction lo as [|l lo IH]; intros [|h hi] [|x xs]; cbn; try tauto.
  intros [_ H]. apply IH in H. lia.
Qed.

Lemma bc_region_loop_spec n i g lo hi (bx : Z -> list Z * list Z) :
  (forall k, i <= k < i + Z.of_nat n -> distribution g k = Some (bx k)) ->
  exists r, bc_region_loop n i g lo hi = Some r /\
    map fst r = filter (fun k => endpoint_overlap (fst (bx k)) (snd (bx k)) lo hi) (zseq i n) /\
    forall o b, In (o, b) r -> b = (clip_lo lo (fst (bx o)), clip_hi hi (snd (bx o))).
Proof.
  revert i; induction n as [|n IH]; intros i H.
  - exists []. cbn. intuition.
  - cbn [bc_region_loop]. rewrite (H i) by lia.
    destruct (IH (i + 1)) as (r & -> & Hm & Hb). { intros; apply H; lia. }
    eexists; split; [reflexivity|]. cbn [zseq filter].
    destruct (endpoint_overlap (fst (bx i)) (snd (bx i)) lo hi).
    + cbn. split; [f_equal; auto|]. intros o b [[= <- <-]|Hin]; auto.
    + split; auto.
Qed.

(** Soundness of what is returned, and completeness when the region is at
    least as large as a block in every dimension. *)
Lemma endpoint_overlap_complete dims bdims is lo hi x :
  valid_bdims dims bdims -> region_at_least_block bdims lo hi ->
  in_box (blo (bd_axes dims bdims) is) (bhi (bd_axes dims bdims) is) x -> in_box lo hi x ->
  endpoint_overlap (blo (bd_axes dims bdims) is) (bhi (bd_axes dims bdims) is) lo hi = true.
Proof.
  revert bdims is lo hi x; induction dims as [|d dims IH]; intros [|b bs] is [|l lo] [|h hi] [|x xs];
    cbn [valid_bdims region_at_least_block in_box bd_axes blo bhi endpoint_overlap]; try tauto;
    destruct is as [|i is]; cbn [blo bhi in_box endpoint_overlap]; try tauto.
  intros (Hd & Hb & HV) (H1 & H2) (H3 & H4) (H5 & H6).
  rewrite (IH bs is lo hi xs) by auto. cbn [bd_axis alo ahi] in *. rewrite andb_true_r. nia.
Qed.

Lemma bc_region_spec guess g lo hi :
  distr_type g = BLOCK_CYCLIC -> wf_blocked g ->
  in_array (dims g) lo -> in_array (dims g) hi -> Forall2 Z.le lo hi ->
  exists pieces, locate_region guess g lo hi = Some (Some pieces) /\
    NoDup (map fst pieces) /\
    (forall o plo phi, In (o, (plo, phi)) pieces ->
      0 <= o < zprod (num_blocks g) /\
      exists dlo dhi, distribution g o = Some (dlo, dhi) /\
        forall x, in_box plo phi x <-> in_box lo hi x /\ in_box dlo dhi x) /\
    (region_at_least_block (block_dims g) lo hi ->
     forall x, in_box lo hi x -> exists o plo phi, In (o, (plo, phi)) pieces /\ in_box plo phi x).
Proof.
  intros HT HW Hlo Hhi Hle. unfold locate_region.
  rewrite (proj2 (region_ok_spec _ _ _) (conj Hlo (conj Hhi Hle))). rewrite HT.
  destruct (wf_any_axes g (or_introl HW)) as (Hax & Had & Han & Hnb & Hlen).
  pose proof (zprod_pos _ Hnb) as Hzp.
  set (axs := axes_of g) in *.
  set (bx := fun k => (blo axs (decode (num_blocks g) k), bhi axs (decode (num_blocks g) k))).
  destruct (bc_region_loop_spec (Z.to_nat (zprod (num_blocks g))) 0 g lo hi bx) as (r & -> & Hm & Hb).
  { intros k Hk. apply blocked_owns; auto; lia. }
  exists r. split; auto.
  assert (forall o b, In (o, b) r -> 0 <= o < zprod (num_blocks g)) as Hor.
  { intros o b Hin. assert (In o (map fst r)) as Ho by (apply in_map_iff; exists (o, b); auto).
    rewrite Hm in Ho. apply filter_In in Ho. destruct Ho as (Ho & _). apply zseq_In in Ho. lia. }
  assert (forall k, 0 <= k < zprod (num_blocks g) ->
            length (fst (bx k)) = length lo /\ length (snd (bx k)) = length hi) as Hlens.
  { intros k Hk. pose proof (decode_length (num_blocks g) k).
    apply in_array_length in Hlo. apply in_array_length in Hhi.
    assert (length axs = length (decode (num_blocks g) k)).
    { rewrite decode_length, <- Han, map_length. auto. }
    cbn. rewrite blo_length, bhi_length by auto. lia. }
  split; [|split].
  - rewrite Hm. apply NoDup_filter, zseq_NoDup.
  - intros o plo phi Hin. pose proof (Hor _ _ Hin) as Ho. split; auto.
    apply Hb in Hin. injection Hin as -> ->.
    do 2 eexists. split; [apply blocked_owns; auto|].
    intros x. apply in_box_clip; symmetry; apply (Hlens o Ho).
  - intros Hbig x Hx.
    assert (in_array (dims g) x) as Hxa by (exact (in_array_between _ _ _ _ Hlo Hhi Hx)).
    destruct (in_block_exists axs x) as (is & Hr & Hbx); auto. { rewrite Had; auto. }
    rewrite Han in Hr. pose proof (encode_range _ _ Hr) as He.
    assert (In (encode (num_blocks g) is) (map fst r)) as Hin.
    { rewrite Hm. apply filter_In. split; [apply zseq_In; lia|].
      cbn. rewrite decode_encode by auto. subst axs. unfold axes_of in *. rewrite HT in *.
      destruct HW as (_ & _ & HB & _).
      eapply endpoint_overlap_complete; eauto. }
    apply in_map_iff in Hin. destruct Hin as ((o & b) & E & Hin). cbn in E. subst o.
    pose proof (Hb _ _ Hin) as ->. do 3 eexists. split; [exact Hin|].
    apply in_box_clip; try (symmetry; apply Hlens; auto).
    split; auto. cbn. rewrite decode_encode by auto. auto.
Qed.

(** Grid arrays: the reported boxes are whole blocks, one for each block that
    meets the region (attribution to block numbers is C09). *)
Lemma sl_region_loop_spec n g mn mx count :
  (forall t, In t (iter_sub n count mn mx) ->
     bd_limits (dims g) (block_dims g) t = Some (blo (bd_axes (dims g) (block_dims g)) t,
                                                 bhi (bd_axes (dims g) (block_dims g)) t)) ->
  sl_region_loop n g mn mx count =
  Some (map (fun t => (sl_idx (rev t) (rev (num_blocks g)) 0 1,
                       (blo (bd_axes (dims g) (block_dims g)) t,
                        bhi (bd_axes (dims g) (block_dims g)) t)))
            (iter_sub n count mn mx)).
Proof.
  revert count; induction n as [|n IH]; intros count H; [reflexivity|].
  cbn [sl_region_loop iter_sub map]. rewrite (H count) by (cbn; auto).
  rewrite IH by (intros; apply H; cbn; auto). auto.
Qed.

Lemma sl_region_cover guess g lo hi :
  distr_type g = SCALAPACK \/ distr_type g = TILED -> wf_blocked g ->
  in_array (dims g) lo -> in_array (dims g) hi -> Forall2 Z.le lo hi ->
  exists pieces, locate_region guess g lo hi = Some (Some pieces) /\
    (forall x, in_box lo hi x -> exists k p, nth_error pieces k = Some p /\
       in_box (fst (snd p)) (snd (snd p)) x /\
       forall k' p', nth_error pieces k' = Some p' ->
         in_box (fst (snd p')) (snd (snd p')) x -> k' = k) /\
    (forall p, In p pieces -> exists k, 0 <= k < zprod (num_blocks g) /\
       distribution g k = Some (snd p) /\
       (length (dims g) = 1%nat \/
        (exists n, num_blocks g = [n; n]) -> fst p = k)).
Proof.
  intros HT HW Hlo Hhi Hle. unfold locate_region.
  rewrite (proj2 (region_ok_spec _ _ _) (conj Hlo (conj Hhi Hle))).
  destruct (wf_any_axes g (or_introl HW)) as (Hax & Had & Han & Hnb & Hlen).
  assert (axes_of g = bd_axes (dims g) (block_dims g)) as Eax
      by (unfold axes_of; destruct HT as [-> | ->]; auto).
  pose proof HW as (_ & _ & HB & HG & _).
  rewrite Eax in *. set (axs := bd_axes (dims g) (block_dims g)) in *.
  destruct (div_indices_spec _ _ _ HB Hlo) as (mn & Emn & HrT & HbT).
  destruct (div_indices_spec _ _ _ HB Hhi) as (mx & Emx & HrB & HbB).
  fold axs in HrT, HbT, HrB, HbB.
  assert (Forall2 Z.le mn mx) as HTB by (exact (in_block_mono axs _ _ _ _ Hax HrT HrB HbT HbB Hle)).
  assert (length mn = length mx) as HL by (eapply Forall2_len; eauto).
  assert (forall t, In t (box_list mn mx) -> in_range0 (map an axs) t) as Hrt.
  { intros t Ht. apply box_list_In in Ht; auto. exact (in_range0_between _ _ _ _ HrT HrB Ht). }
  assert (match distr_type g with
            | REGULAR =>
                locate_region_map guess g (nblock g)
                  (fun p => if num_rstrctd g =? 0 then Some p
                            else zget (rstrctd_list g) p) lo hi
            | TILED_IRREG =>
                locate_region_map guess g (num_blocks g) (fun p => Some p) lo hi
            | BLOCK_CYCLIC =>
                bc_region_loop (Z.to_nat (zprod (num_blocks g))) 0 g lo hi
            | SCALAPACK | TILED =>
                do mn <- div_indices (block_dims g) lo;
                do mx <- div_indices (block_dims g) hi;
                sl_region_loop (Z.to_nat (count_elems mn mx)) g mn mx mn
            end = Some (map (fun t => (sl_idx (rev t) (rev (num_blocks g)) 0 1,
                       (blo axs t, bhi axs t))) (box_list mn mx))) as ->.
  { destruct HT as [-> | ->]; rewrite Emn, Emx;
      rewrite <- (iter_sub_count mn mx HTB); apply sl_region_loop_spec;
      intros t Ht; rewrite (iter_sub_count mn mx HTB) in Ht;
      apply bd_limits_axes; auto; apply Hrt in Ht; apply in_range0_length in Ht;
      rewrite Han in Ht; congruence. }
  eexists; split; [reflexivity|]. split.
  - intros x Hx.
    assert (in_array (map ad axs) x) as Hxa
      by (rewrite Had; exact (in_array_between _ _ _ _ Hlo Hhi Hx)).
    destruct (in_block_exists axs x Hax Hxa) as (t & Hrx & Hbx).
    apply in_box_le in Hx as Hx'. destruct Hx' as (H1 & H2).
    assert (In t (box_list mn mx)) as Ht.
    { apply box_list_In; auto. apply le_in_box;
        [exact (in_block_mono axs _ _ _ _ Hax HrT Hrx HbT Hbx H1)
        |exact (in_block_mono axs _ _ _ _ Hax Hrx HrB Hbx HbB H2)]. }
    apply In_nth_error in Ht as Ht'. destruct Ht' as (k & Ek).
    exists k. eexists. split. { rewrite nth_error_map, Ek. reflexivity. }
    cbn. split; auto.
    intros k' p' Ek' Hx'. rewrite nth_error_map in Ek'.
    destruct (nth_error (box_list mn mx) k') as [t'|] eqn:Et'; [|discriminate].
    injection Ek' as <-. cbn in Hx'. pose proof (nth_error_In _ _ Et') as Ht'.
    assert (t' = t) by (eapply in_block_unique; eauto). subst t'.
    pose proof (proj1 (NoDup_nth_error (box_list mn mx)) (box_list_NoDup _ _)) as HN.
    symmetry. apply HN; [|congruence]. apply nth_error_Some; congruence.
  - intros p Hp. apply in_map_iff in Hp. destruct Hp as (t & <- & Ht). cbn.
    specialize (Hrt t Ht). rewrite Han in Hrt.
    exists (encode (num_blocks g) t). pose proof (encode_range _ _ Hrt) as He.
    split; auto. split.
    { rewrite blocked_owns by auto. rewrite decode_encode by auto. rewrite Eax. auto. }
    apply in_range0_length in Hrt.
    intros [H1|(n & En)].
    + rewrite H1 in Hlen. destruct (num_blocks g) as [|n [|]]; try discriminate.
      destruct t as [|a [|]]; try discriminate. cbn. lia.
    + rewrite En in *. destruct t as [|a [|b [|]]]; try discriminate.
      cbn [rev app sl_idx encode]. ring.
Qed.

(** ---- comparison of distributions (C10) ---- *)
Lemma same_list_eq a b : same_list a b = true -> a = b.
Proof.
  revert b; induction a as [|x a IH]; intros [|y b]; cbn; try discriminate; auto.
  rewrite andb_true_iff. intros [H1 H2]. f_equal; [lia|auto].
Qed.

Lemma same_list_refl a : same_list a a = true.
Proof. induction a; cbn; auto. rewrite Z.eqb_refl. auto. Qed.

Lemma strict_valid ds nb m :
  Forall (fun d => 1 <= d) ds -> strict_maps ds nb m -> valid_maps ds nb m.
Proof.
  intros HF; revert nb m; induction HF as [|d ds Hd HF IH]; intros [|n nb] m; cbn; try tauto.
  intros [(H1 & H2 & H3 & H4 & H5) H]. split; auto.
  repeat split; auto; try lia. intros i Hi. specialize (H4 i Hi). lia.
Qed.

Lemma strict_map_mono d n m i :
  strict_map d n m -> (0 < i)%nat -> (i < Z.to_nat n)%nat -> 1 < nth i m 0.
Proof.
  intros (H1 & H2 & H3 & H4 & _) Hi0 Hi. induction i as [|i IH]; [lia|].
  destruct i as [|i].
  - specialize (H4 0%nat ltac:(lia)). cbn in *. lia.
  - specialize (H4 (S i) ltac:(lia)). replace (S i + 1)%nat with (S (S i)) in H4 by lia.
    specialize (IH ltac:(lia) ltac:(lia)). lia.
Qed.

Lemma same_map_nth n a b :
  (n <= length a)%nat -> (n <= length b)%nat -> same_map n a b = true ->
  (forall i, (i < n)%nat -> nth i a 0 <> -1) ->
  forall i, (i < n)%nat -> nth i a 0 = nth i b 0.
Proof.
  revert a b; induction n as [|n IH]; intros a b Ha Hb H Hne i Hi; [lia|].
  destruct a as [|x a], b as [|y b]; cbn in Ha, Hb; try lia.
  cbn in H. destruct (Z.eqb_spec x y); cbn in H; [|discriminate]. subst y.
  pose proof (Hne 0%nat ltac:(lia)) as H0. cbn in H0. destruct (Z.eqb_spec x (-1)); [lia|].
  destruct i as [|i]; cbn; auto. apply (IH a b); auto; try lia.
  intros j Hj. apply (Hne (S j)). lia.
Qed.

Lemma strict_maps_len ds nb m :
  strict_maps ds nb m -> Forall (fun n => 1 <= n) nb /\ zsum nb <= Z.of_nat (length m).
Proof.
  revert nb m; induction ds as [|d ds IH]; intros [|n nb] m; cbn; try tauto.
  - intros _. split; [constructor|lia].
  - intros [(H1 & H2 & _) H]. apply IH in H. destruct H as [H3 H4]. rewrite skipn_length in H4.
    split; [constructor; auto|lia].
Qed.

Lemma zsum_nonneg nb : Forall (fun n => 1 <= n) nb -> 0 <= zsum nb.
Proof. induction 1; cbn; lia. Qed.

Lemma nth_skipn {A} k i (l : list A) d : nth i (skipn k l) d = nth (k + i) l d.
Proof.
  revert l; induction k as [|k IH]; intros l; cbn; auto. destruct l as [|a l]; [destruct i; auto|apply IH].
Qed.

Lemma strict_maps_pos ds nb m :
  strict_maps ds nb m -> forall i, (i < Z.to_nat (zsum nb))%nat -> 1 <= nth i m 0.
Proof.
  revert nb m; induction ds as [|d ds IH]; intros [|n nb] m; cbn [strict_maps]; try tauto.
  - cbn. lia.
  - intros [Hs H] i Hi. pose proof (strict_maps_len _ _ _ H) as [Hp _]. apply zsum_nonneg in Hp.
    pose proof Hs as (H1 & _ & H3 & _). cbn in Hi.
    destruct (Nat.lt_ge_cases i (Z.to_nat n)) as [L|L].
    + destruct i; [rewrite H3; lia|]. pose proof (strict_map_mono _ _ _ (S i) Hs ltac:(lia) L). lia.
    + specialize (IH _ _ H (i - Z.to_nat n)%nat ltac:(lia)). rewrite nth_skipn in IH.
      replace (Z.to_nat n + (i - Z.to_nat n))%nat with i in IH by lia. auto.
Qed.

Lemma strict_maps_same ds nb1 nb2 m1 m2 :
  strict_maps ds nb1 m1 -> strict_maps ds nb2 m2 -> zsum nb1 = zsum nb2 ->
  (forall i, (i < Z.to_nat (zsum nb1))%nat -> nth i m1 0 = nth i m2 0) ->
  nb1 = nb2.
Proof.
  revert nb1 nb2 m1 m2; induction ds as [|d ds IH]; intros [|n1 nb1] [|n2 nb2] m1 m2; cbn [strict_maps]; try tauto.
  intros [H1 H1'] [H2 H2'] Hs Hn. cbn [zsum] in *.
  pose proof (strict_maps_len _ _ _ H1') as [Hp1 _]. pose proof (zsum_nonneg _ Hp1).
  pose proof (strict_maps_len _ _ _ H2') as [Hp2 _]. pose proof (zsum_nonneg _ Hp2).
  pose proof H1 as (Hn1 & _). pose proof H2 as (Hn2 & _).
  assert (forall d1 a ma b mb da nba, strict_map d1 a ma -> strict_map da b mb -> strict_maps ds nba (skipn (Z.to_nat a) ma) ->
     (forall i, (i < Z.to_nat (a + zsum nba))%nat -> nth i ma 0 = nth i mb 0) ->
     a < b -> 1 <= a -> 0 < zsum nba -> False) as Hne.
  { intros d1 a ma b mb da nba Ha Hb Hr Heq Hab Ha1 Hz.
    destruct ds as [|d' ds'], nba as [|n' nba]; cbn in Hr; try tauto; [cbn in Hz; lia|].
    destruct Hr as [(Hx1 & Hx2 & Hx3 & _) _]. rewrite nth_skipn, Nat.add_0_r in Hx3.
    specialize (Heq (Z.to_nat a) ltac:(lia)).
    pose proof (strict_map_mono _ _ _ (Z.to_nat a) Hb ltac:(lia) ltac:(lia)). lia. }
  assert (n1 = n2) as ->.
  { destruct (Z.lt_trichotomy n1 n2) as [L|[L|L]]; auto; exfalso.
    - eapply (Hne d n1 m1 n2 m2 d nb1); eauto; lia.
    - eapply (Hne d n2 m2 n1 m1 d nb2); eauto; try lia.
      intros i Hi. symmetry. apply Hn. lia. }
  f_equal. apply (IH nb1 nb2 _ _ H1' H2'); [lia|].
  intros i Hi. rewrite !nth_skipn. apply Hn. lia.
Qed.

Lemma owns_dims_ext ds nb m1 m2 p :
  valid_maps ds nb m1 -> valid_maps ds nb m2 ->
  (forall i, (i < Z.to_nat (zsum nb))%nat -> nth i m1 0 = nth i m2 0) ->
  map_axes ds nb m1 = map_axes ds nb m1 -> 0 <= p ->
  owns_dims ds nb m1 p = owns_dims ds nb m2 p.
Proof.
  revert nb m1 m2 p; induction ds as [|d ds IH]; intros [|n nb] m1 m2 p; cbn [valid_maps owns_dims]; try tauto.
  intros [H1 H1'] [H2 H2'] Hn _ Hp. cbn [zsum] in Hn.
  pose proof (valid_maps_pos _ _ _ H1') as Hpos. pose proof (zsum_nonneg _ Hpos).
  pose proof H1 as (_ & Hn1 & Hl1 & _). pose proof H2 as (_ & _ & Hl2 & _).
  unfold cmod, cdiv. destruct (Z.eqb_spec n 0); [lia|].
  rewrite Z.rem_mod_nonneg, Z.quot_div_nonneg by lia.
  pose proof (Z.mod_pos_bound p n ltac:(lia)).
  rewrite !(zget_nth _ (p mod n)) by lia. rewrite (Hn (Z.to_nat (p mod n))) by lia.
  unfold zdrop. rewrite (IH nb (skipn (Z.to_nat n) m1) (skipn (Z.to_nat n) m2)); auto.
  - destruct (Z.eqb_spec (p mod n) (n - 1)); auto.
    rewrite !(zget_nth _ (p mod n + 1)) by lia. rewrite (Hn (Z.to_nat (p mod n + 1))) by lia. auto.
  - intros i Hi. rewrite !nth_skipn. apply Hn. lia.
  - apply Z.div_pos; lia.
Qed.

Lemma compare_distr_sound nproc a b :
  wf_strict_regular nproc a -> wf_strict_regular nproc b ->
  compare_distr a b = true ->
  forall p, 0 <= p < nproc -> distribution a p = distribution b p.
Proof.
  intros [Ha Hsa] [Hb Hsb] Hc p Hp.
  pose proof Ha as (HTa & Hnea & HVa & Hca). pose proof Hb as (HTb & Hneb & HVb & Hcb).
  unfold compare_distr in Hc. rewrite HTa, HTb in Hc. rewrite !andb_true_iff in Hc.
  destruct Hc as (((Hd & _) & (Hm & Hs)) & Hr).
  apply same_list_eq in Hd. apply same_list_eq in Hr.
  assert (zsum (nblock a) = zsum (nblock b)) as Hz by lia.
  pose proof (strict_maps_len _ _ _ Hsa) as [_ La].
  pose proof (strict_maps_len _ _ _ Hsb) as [_ Lb].
  assert (forall i, (i < Z.to_nat (zsum (nblock a)))%nat -> nth i (mapc a) 0 = nth i (mapc b) 0) as Hn.
  { apply same_map_nth; auto; try lia.
    intros i Hi. pose proof (strict_maps_pos _ _ _ Hsa i Hi). lia. }
  rewrite Hd in *.
  assert (nblock a = nblock b) as Hnb by (eapply strict_maps_same; eauto).
  rewrite Hnb in *.
  assert (forall k, owns_no_handle (dims b) (nblock b) (mapc a) k = owns_no_handle (dims b) (nblock b) (mapc b) k) as Ho.
  { intros k. unfold owns_no_handle. destruct ((zprod (nblock b) - 1 <? k) || (k <? 0)) eqn:E; auto.
    apply owns_dims_ext; auto. lia. }
  assert (num_rstrctd a = num_rstrctd b) as Hnum by (unfold num_rstrctd; congruence).
  assert (owns a = owns b \/ forall k, owns a k = owns b k) as Hown.
  { right. intros k. unfold owns. rewrite HTa, HTb, Hnum, Hd, Hnb, Ho. auto. }
  assert (forall k, owns a k = owns b k) as Hown' by (destruct Hown as [->|]; auto). clear Hown.
  unfold distribution. rewrite Hnum.
  destruct (Z.ltb_spec 0 (num_rstrctd b)).
  - assert (rank_rstrctd a = rank_rstrctd b) as ->.
    { assert (rstrctd_list b <> []) as Hrb.
      { unfold num_rstrctd in *. destruct (rstrctd_list b); [cbn in *; lia|congruence]. }
      destruct Hca as [(E & _)|(_ & _ & E1 & _)]; [congruence|].
      destruct Hcb as [(E & _)|(_ & _ & E2 & _)]; [congruence|]. rewrite Hr in E1. congruence. }
    destruct (zget (rank_rstrctd b) p); auto.
  - auto.
Qed.
