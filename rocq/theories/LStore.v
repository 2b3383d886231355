(** Storage of elements (C15, C16). *)
From Verif Require Export LIterSca MAlloc.

Lemma in_range_padded lo hi w x : in_box lo hi x -> length w = length lo -> Forall (fun v => 0 <= v) w ->
  in_range0 (padded lo hi w) (vadd (vsub x lo) w).
Proof.
  revert hi w x. induction lo as [|l lo IH]; intros [|h hi] [|v w] [|x xs]; cbn [in_box length padded vadd vsub in_range0]; try tauto; try discriminate.
  intros [H1 H2] HL HW. inversion HW; subst. split; [lia|]. apply IH; auto.
Qed.

Lemma padded_elems_prod lo hi w : length hi = length lo -> length w = length lo ->
  padded_elems lo hi w = zprod (padded lo hi w).
Proof.
  revert hi w. induction lo as [|l lo IH]; intros [|h hi] [|v w]; cbn [length padded_elems padded zprod]; try discriminate; auto.
  intros H1 H2. rewrite IH by lia. reflexivity.
Qed.

Lemma vadd_inj u v w : length u = length w -> length v = length w -> vadd u w = vadd v w -> u = v.
Proof.
  revert v w. induction u as [|a u IH]; intros [|b v] [|c w]; cbn; try discriminate; auto.
  intros H1 H2 [= H3 H4]. f_equal; [lia|]. eapply IH; [| |exact H4]; lia.
Qed.
Lemma vsub_inj u v w : length u = length w -> length v = length w -> vsub u w = vsub v w -> u = v.
Proof.
  revert v w. induction u as [|a u IH]; intros [|b v] [|c w]; cbn; try discriminate; auto.
  intros H1 H2 [= H3 H4]. f_equal; [lia|]. eapply IH; [| |exact H4]; lia.
Qed.

Lemma in_range0_lin ns is js : in_range0 ns is -> in_range0 ns js -> lin ns is = lin ns js -> is = js.
Proof.
  intros H1 H2. rewrite !lin_encode by (apply in_range0_length; assumption). apply encode_inj; auto.
Qed.
Lemma lin_range ns is : in_range0 ns is -> 0 <= lin ns is < zprod ns.
Proof. intros H. rewrite lin_encode by (apply in_range0_length; assumption). apply encode_range; auto. Qed.

Lemma regular_owner_listed nproc g p lo hi x :
  wf_regular nproc g -> 0 <= p < nproc -> distribution g p = Some (lo, hi) -> in_box lo hi x ->
  (num_rstrctd g =? 0) || existsb (Z.eqb p) (rstrctd_list g) = true.
Proof.
  intros W Hp E Hx. destruct (distribution_spec nproc g p W Hp) as (lo' & hi' & E' & HI).
  rewrite E in E'. injection E' as <- <-. apply HI in Hx as (is & Hr & _ & Ho).
  pose proof W as (_ & _ & _ & [(E0 & _)|(Hne & _ & _ & Hn)]).
  - unfold num_rstrctd. rewrite E0. reflexivity.
  - apply orb_true_iff. right. apply existsb_exists. exists p. split; [|apply Z.eqb_refl].
    rewrite Ho. unfold owner_of. destruct (rstrctd_list g) as [|z l] eqn:EL; [congruence|].
    apply encode_range in Hr. apply nth_In. unfold num_rstrctd in Hn. rewrite EL in Hn. lia.
Qed.

Theorem regular_storage a wn : wf_array a ->
  sound_storage a (reg_place a) (fun q r => alloc_elems wn q r a).
Proof.
  intros (W & HLw & HW & HG & _). unfold sound_storage. cbv zeta. split; [|split; [|split]].
  - intros x Hx. destruct (regular_unique_owner _ _ _ W Hx) as (p & Hp & (lo & hi & E & Hb) & _).
    destruct (abs_rank_ok a p HG Hp) as (q & Eq).
    exists (q, lin (padded lo hi (ga_width a)) (vadd (vsub x lo) (ga_width a))), p, lo, hi. auto.
  - intros x [q1 q2] [q1' q2'] (p & lo & hi & Hp & E & Hx & EA & EO) (p' & lo' & hi' & Hp' & E' & Hx' & EA' & EO').
    cbn [fst snd] in *.
    destruct (regular_blocks_inside _ _ _ W Hp) as (l1 & h1 & E1 & HI). rewrite E in E1. injection E1 as <- <-.
    destruct (regular_unique_owner _ _ _ W (HI _ Hx)) as (o & _ & _ & HU).
    assert (p = o) by (eapply HU; eauto). assert (p' = o) by (eapply HU; eauto). subst p' o.
    rewrite E in E'. injection E' as <- <-. f_equal; congruence.
  - intros x y [q1 q2] (p & lo & hi & Hp & E & Hx & EA & EO) (p' & lo' & hi' & Hp' & E' & Hx' & EA' & EO').
    cbn [fst snd] in *. assert (p = p') by (eapply abs_rank_inj; eauto). subst p'.
    rewrite E in E'. injection E' as <- <-.
    destruct (in_box_len _ _ _ Hx) as [L1 L2]. destruct (in_box_len _ _ _ Hx') as [L3 L4].
    assert (LL : length (ga_width a) = length lo).
    { destruct (regular_blocks_inside _ _ _ W Hp) as (l1 & h1 & E1 & HI). rewrite E in E1. injection E1 as <- <-.
      pose proof (in_array_length _ _ (HI _ Hx)). lia. }
    apply vsub_inj with (w := lo); [lia|lia|].
    apply vadd_inj with (w := ga_width a); [rewrite vsub_length; lia|rewrite vsub_length; lia|].
    eapply in_range0_lin; [apply in_range_padded; [exact Hx|auto|auto]|apply in_range_padded; auto|congruence].
  - intros x [q1 q2] (p & lo & hi & Hp & E & Hx & EA & EO). cbn [fst snd] in *.
    destruct (in_box_len _ _ _ Hx) as [L1 L2].
    assert (LL : length (ga_width a) = length lo).
    { destruct (regular_blocks_inside _ _ _ W Hp) as (l1 & h1 & E1 & HI). rewrite E in E1. injection E1 as <- <-.
      pose proof (in_array_length _ _ (HI _ Hx)). lia. }
    exists p, (zprod (padded lo hi (ga_width a))). split; [exact Hp|]. split; [exact EA|]. split.
    + unfold alloc_elems. pose proof W as (HR & _). rewrite HR, E.
      rewrite (regular_owner_listed _ _ _ _ _ _ W Hp E Hx). cbn [fst snd].
      rewrite padded_elems_prod by lia. reflexivity.
    + subst q2. apply lin_range. apply in_range_padded; auto.
Qed.

(** ---- strided loops ---- *)
Lemma strided_spec skip n : 1 <= skip -> forall fuel j, 0 <= j -> n <= j + Z.of_nat fuel ->
  exists js, strided fuel j skip n = Some js /\ StronglySorted Z.lt js /\
    forall i, In i js <-> j <= i < n /\ (i - j) mod skip = 0.
Proof.
  intros Hs. induction fuel as [|fuel IH]; intros j Hj Hf; cbn [strided].
  - destruct (Z.ltb_spec j n); [lia|]. exists []. split; [reflexivity|]. split; [constructor|].
    intros i. cbn. lia.
  - destruct (Z.ltb_spec j n).
    + destruct (IH (j + skip) ltac:(lia) ltac:(lia)) as (js & E & S & HI). rewrite E.
      exists (j :: js). split; [reflexivity|]. split.
      * constructor; [exact S|]. apply Forall_forall. intros i Hi. apply HI in Hi. lia.
      * intros i. cbn [In]. rewrite HI. replace (i - (j + skip)) with (i - j - 1 * skip) by lia.
        rewrite <- (Z.mod_add (i - j - 1 * skip) 1 skip) by lia.
        replace (i - j - 1 * skip + 1 * skip) with (i - j) by lia. split.
        -- intros [<-|[H1 H2]]; [|split; [lia|exact H2]]. split; [lia|]. replace (j - j) with 0 by lia. apply Z.mod_0_l. lia.
        -- intros [H1 H2]. destruct (Z.eq_dec j i) as [->|Hne]; [now left|]. right. split; [|exact H2].
           pose proof (Z.div_mod (i - j) skip ltac:(lia)) as D. rewrite H2 in D.
           assert (1 <= (i - j) / skip) by nia. nia.
    + exists []. split; [reflexivity|]. split; [constructor|]. intros i. cbn. lia.
Qed.

Lemma strided_mod skip n i0 : 1 <= skip -> 0 <= i0 < skip ->
  exists js, strided (Z.to_nat n) i0 skip n = Some js /\ StronglySorted Z.lt js /\
    forall i, In i js <-> 0 <= i < n /\ i mod skip = i0.
Proof.
  intros Hs Hi. destruct (Z_le_gt_dec n 0) as [Hn|Hn].
  - exists []. replace (Z.to_nat n) with O by lia. cbn. destruct (Z.ltb_spec i0 n); [lia|].
    split; [reflexivity|]. split; [constructor|]. intros i. cbn. lia.
  - destruct (strided_spec skip n Hs (Z.to_nat n) i0 ltac:(lia) ltac:(lia)) as (js & E & S & HI).
    exists js. split; [exact E|]. split; [exact S|]. intros i. rewrite HI. split; intros [H1 H2].
    + split; [lia|]. pose proof (Z.div_mod (i - i0) skip ltac:(lia)) as D. rewrite H2 in D.
      symmetry. apply Z.mod_unique with ((i - i0) / skip); lia.
    + pose proof (Z.div_mod i skip ltac:(lia)) as D. rewrite H2 in D.
      assert (0 <= i / skip) by (apply Z.div_pos; lia). split; [nia|].
      replace (i - i0) with (i / skip * skip) by lia. apply Z.mod_mul. lia.
Qed.

Lemma owned_size_spec g bs : wf_blocks g -> (forall k, In k bs -> 0 <= k < zprod (num_blocks g)) ->
  owned_size g bs = Some (zsum (map (block_size g) bs)).
Proof.
  intros W. induction bs as [|k bs IH]; intros H; [reflexivity|]. cbn [owned_size map zsum].
  rewrite bx_owns, IH by (auto; intros; apply H; cbn; auto). rewrite bx_size by (auto; apply H; now left). reflexivity.
Qed.

(** Sum over a product of lists. *)
Fixpoint cart (js : list (list Z)) : list (list Z) :=
  match js with
  | [] => [[]]
  | j :: js' => flat_map (fun t => map (fun a => a :: t) j) (cart js')
  end.
Fixpoint size_at (fs : list (Z -> Z)) (t : list Z) : Z :=
  match fs, t with
  | f :: fs', a :: t' => f a * size_at fs' t'
  | _, _ => 1
  end.
Fixpoint prod_sums (fs : list (Z -> Z)) (js : list (list Z)) : Z :=
  match fs, js with
  | f :: fs', j :: js' => zsum (map f j) * prod_sums fs' js'
  | _, _ => 1
  end.
Lemma zsum_map_scale {A} (f : A -> Z) c l : zsum (map (fun a => f a * c) l) = zsum (map f l) * c.
Proof. induction l as [|a l IH]; cbn in *; [reflexivity|]. rewrite IH. ring. Qed.
Lemma cart_sum fs js : length fs = length js -> zsum (map (size_at fs) (cart js)) = prod_sums fs js.
Proof.
  revert fs. induction js as [|j js IH]; intros [|f fs] HL; try discriminate; [reflexivity|].
  cbn [cart prod_sums]. rewrite <- (IH fs) by (cbn in HL; lia). generalize (cart js). induction l as [|t l IHl].
  - cbn. lia.
  - cbn [flat_map map zsum]. rewrite map_app, zsum_app, IHl, map_map. cbn [size_at].
    rewrite zsum_map_scale. ring.
Qed.
Lemma cart_In js t : In t (cart js) <-> Forall2 (fun a j => In a j) t js.
Proof.
  revert t. induction js as [|j js IH]; intros t; cbn [cart].
  - split; [intros [<-|[]]; constructor|]. intros H; inversion H; now left.
  - rewrite in_flat_map. split.
    + intros (t' & Ht' & Ha). apply in_map_iff in Ha as (a & <- & Ha). constructor; [exact Ha|]. now apply IH.
    + intros H. inversion H as [|a j' t' js' Ha Ht']; subst. exists t'. split; [now apply IH|]. apply in_map_iff. eauto.
Qed.
Lemma cart_NoDup js : Forall (@NoDup Z) js -> NoDup (cart js).
Proof.
  induction 1 as [|j js Hj HF IH]; cbn [cart]; [repeat constructor; auto|].
  induction IH as [|t l Hn HN IHl]; [constructor|]. cbn [flat_map].
  assert (AppN : forall A (u v : list A), NoDup u -> NoDup v -> (forall x, In x u -> ~ In x v) -> NoDup (u ++ v)).
  { intros A u v Hu Hv HD. induction Hu as [|a u Ha Hu IHu]; [exact Hv|]. cbn. constructor.
    - intros X. apply in_app_iff in X as [X|X]; [auto|]. apply (HD a); [now left|exact X].
    - apply IHu. intros x Hx. apply HD. now right. }
  apply AppN.
  - clear - Hj. induction Hj as [|a j Ha Hj IH]; [constructor|]. cbn. constructor; [|exact IH].
    intros X. apply in_map_iff in X as (b & [= ->] & Hb). auto.
  - exact IHl.
  - intros x Hx Hy. apply in_map_iff in Hx as (a & <- & Ha). apply in_flat_map in Hy as (t' & Ht' & Hy).
    apply in_map_iff in Hy as (b & [= -> ->] & Hb). auto.
Qed.
Lemma zsum_perm l l' : Permutation l l' -> zsum l = zsum l'.
Proof. induction 1; cbn; lia. Qed.

(** Positions of blocks stored one after the other. *)
Lemma sizes_before_step a p k :
  0 <= k -> block_home (ga_nproc a) (ga_desc a) k = Some p ->
  before a p (k + 1) = before a p k + block_size (ga_desc a) k.
Proof.
  intros Hk HH. unfold before. replace (Z.to_nat (k + 1)) with (S (Z.to_nat k)) by lia. cbn [sizes_before].
  rewrite Z2Nat.id by lia. rewrite HH, Z.eqb_refl. reflexivity.
Qed.
Lemma block_size_nonneg g k : 0 <= block_size g k.
Proof.
  unfold block_size. destruct (distribution g k) as [[lo hi]|]; [|lia].
  revert hi. induction lo as [|l lo IH]; intros [|h hi]; cbn; try lia. specialize (IH hi). nia.
Qed.
Lemma before_mono a p k k' : 0 <= k <= k' -> before a p k <= before a p k'.
Proof.
  intros Hk. unfold before. replace (Z.to_nat k') with (Z.to_nat k + Z.to_nat (k' - k))%nat by lia.
  induction (Z.to_nat (k' - k)) as [|m IH]; [rewrite Nat.add_0_r; lia|].
  rewrite Nat.add_succ_r. cbn [sizes_before].
  assert (0 <= match block_home (ga_nproc a) (ga_desc a) (Z.of_nat (Z.to_nat k + m)) with
               | Some q => if q =? p then block_size (ga_desc a) (Z.of_nat (Z.to_nat k + m)) else 0
               | None => 0 end).
  { destruct (block_home _ _ _) as [q|]; [|lia]. destruct (q =? p); [apply block_size_nonneg|lia]. }
  lia.
Qed.

Lemma before_total a p :
  before a p (zprod (num_blocks (ga_desc a))) = zsum (map (block_size (ga_desc a)) (column a p)).
Proof. unfold before. rewrite sizes_before_sum. reflexivity. Qed.

Lemma extents_range lo hi x : in_box lo hi x -> in_range0 (extents lo hi) (vsub x lo).
Proof.
  revert hi x. induction lo as [|l lo IH]; intros [|h hi] [|x xs]; cbn; try tauto.
  intros [H1 H2]. split; [lia|]. apply IH; auto.
Qed.
Lemma extents_box_size lo hi : Forall2 Z.le lo hi -> zprod (extents lo hi) = box_size lo hi.
Proof. induction 1; cbn [extents zprod box_size]; [reflexivity|]. rewrite IHForall2, Z.max_r by lia. reflexivity. Qed.

(** Arrays stored block after block, given the sizes that are allocated. *)
Lemma blocks_storage a (alloc : Z -> Z -> option Z) :
  wf_blocks (ga_desc a) -> ga_group a = None ->
  (forall k, 0 <= k < zprod (num_blocks (ga_desc a)) ->
     exists p, block_home (ga_nproc a) (ga_desc a) k = Some p /\ 0 <= p < ga_nproc a) ->
  (forall p, 0 <= p < ga_nproc a -> alloc p p = Some (zsum (map (block_size (ga_desc a)) (column a p)))) ->
  sound_storage a (block_place a) alloc.
Proof.
  intros WB HG HH HA. set (g := ga_desc a) in *. unfold sound_storage. cbv zeta. fold g. 
  assert (BP : forall x q, block_place a x q -> exists k, 0 <= k < zprod (num_blocks g) /\
     in_box (fst (bx g k)) (snd (bx g k)) x /\ block_home (ga_nproc a) g k = Some (fst q) /\
     snd q = before a (fst q) k + lin (extents (fst (bx g k)) (snd (bx g k))) (vsub x (fst (bx g k)))).
  { intros x q (k & lo & hi & Hk & E & Hx & Hh & Ho). fold g in Hk, E, Hh, Ho. exists k. split; [exact Hk|].
    rewrite bx_distribution in E by auto. assert (E' : bx g k = (lo, hi)) by congruence.
    rewrite E'. cbn [fst snd]. auto. }
  assert (RG : forall x k, 0 <= k < zprod (num_blocks g) -> in_box (fst (bx g k)) (snd (bx g k)) x ->
     0 <= lin (extents (fst (bx g k)) (snd (bx g k))) (vsub x (fst (bx g k))) < block_size g k).
  { intros x k Hk Hx. pose proof (lin_range _ _ (extents_range _ _ _ Hx)) as R.
    rewrite extents_box_size in R by (apply bx_le; auto).
    rewrite <- count_elems_box_size, bx_size in R by (auto; apply bx_le; auto). exact R. }
  split; [|split; [|split]].
  - intros x Hx. destruct (bx_cover g x WB Hx) as (k & Hk & Hb). destruct (HH k Hk) as (p & Hp & _).
    exists (p, before a p k + lin (extents (fst (bx g k)) (snd (bx g k))) (vsub x (fst (bx g k)))), k, (fst (bx g k)), (snd (bx g k)).
    fold g. split; [exact Hk|]. split; [rewrite bx_distribution by auto; destruct (bx g k); reflexivity|].
    split; [exact Hb|]. split; [exact Hp|reflexivity].
  - intros x [q1 q2] [q1' q2'] H1 H2. apply BP in H1 as (k & Hk & Hx & Hh & Ho). apply BP in H2 as (k' & Hk' & Hx' & Hh' & Ho').
    cbn [fst snd] in *. assert (k = k') by (eapply bx_disj; eauto). subst k'. f_equal; congruence.
  - intros x y [q1 q2] H1 H2. apply BP in H1 as (k & Hk & Hx & Hh & Ho). apply BP in H2 as (k' & Hk' & Hx' & Hh' & Ho').
    cbn [fst snd] in *. pose proof (RG x k Hk Hx) as R1. pose proof (RG y k' Hk' Hx') as R2.
    pose proof (sizes_before_step a q1 k ltac:(lia) Hh) as S1. pose proof (sizes_before_step a q1 k' ltac:(lia) Hh') as S2.
    fold g in S1, S2.
    assert (k = k').
    { destruct (Z.lt_trichotomy k k') as [L|[L|L]]; [|exact L|].
      - pose proof (before_mono a q1 (k + 1) k' ltac:(lia)). lia.
      - pose proof (before_mono a q1 (k' + 1) k ltac:(lia)). lia. }
    subst k'. destruct (in_box_len _ _ _ Hx) as [L1 L2]. destruct (in_box_len _ _ _ Hx') as [L3 L4].
    apply vsub_inj with (w := fst (bx g k)); [lia|lia|].
    eapply in_range0_lin; [apply extents_range; exact Hx|apply extents_range; exact Hx'|lia].
  - intros x [q1 q2] H1. apply BP in H1 as (k & Hk & Hx & Hh & Ho). cbn [fst snd] in *.
    destruct (HH k Hk) as (p & Hp & Hpr). assert (p = q1) by congruence. subst p.
    exists q1. eexists. split; [exact Hpr|]. split; [unfold abs_rank; rewrite HG; reflexivity|].
    split; [apply HA; exact Hpr|]. pose proof (RG x k Hk Hx) as R1.
    pose proof (sizes_before_step a q1 k ltac:(lia) Hh) as S1. fold g in S1.
    pose proof (before_mono a q1 (k + 1) (zprod (num_blocks g)) ltac:(lia)) as M.
    unfold g in M at 1. rewrite before_total in M. fold g in M.
    assert (0 <= before a q1 k).
    { change 0 with (before a q1 0). apply before_mono. lia. }
    lia.
Qed.

Theorem bc_storage a : distr_type (ga_desc a) = BLOCK_CYCLIC -> wf_blocked (ga_desc a) -> ga_group a = None ->
  1 <= ga_nproc a ->
  sound_storage a (block_place a) (fun q r => alloc_elems (ga_nproc a) q r a).
Proof.
  intros HT W HG HN. assert (WB : wf_blocks (ga_desc a)) by (left; exact W).
  apply blocks_storage; auto.
  - intros k Hk. exists (k mod ga_nproc a). split; [apply bc_home_mod; auto; lia|apply Z.mod_pos_bound; lia].
  - intros p Hp. unfold alloc_elems. rewrite HT.
    destruct (strided_mod (ga_nproc a) (zprod (num_blocks (ga_desc a))) p HN Hp) as (js & E & S & HI). rewrite E.
    rewrite owned_size_spec; auto.
    2:{ intros k Hk. apply HI in Hk. tauto. }
    f_equal. f_equal. f_equal. apply sorted_unique; [exact S|apply filter_sorted, zseq_sorted|].
    intros k. rewrite HI, column_In. split; intros [H1 H2]; (split; [exact H1|]).
    + rewrite bc_home_mod by (auto; lia). congruence.
    + rewrite bc_home_mod in H2 by (auto; lia). congruence.
Qed.

(** ---- grid arrays ---- *)
Definition asize (a : axis) (i : Z) : Z := ahi a i - alo a i + 1.

Fixpoint jsoks (nb grid pc : list Z) (Js : list (list Z)) : Prop :=
  match nb, grid, pc, Js with
  | [], [], [], [] => True
  | n :: nb', g :: grid', p :: pc', js :: Js' =>
      StronglySorted Z.lt js /\ (forall i, In i js <-> 0 <= i < n /\ i mod g = p) /\ jsoks nb' grid' pc' Js'
  | _, _, _, _ => False
  end.

Lemma sorted_NoDup l : StronglySorted Z.lt l -> NoDup l.
Proof.
  induction 1 as [|a l HS IH HF]; constructor; [|exact IH]. intros X. rewrite Forall_forall in HF.
  specialize (HF _ X). lia.
Qed.

Lemma jsoks_NoDup nb grid pc Js : jsoks nb grid pc Js -> Forall (@NoDup Z) Js.
Proof.
  revert grid pc Js. induction nb as [|n nb IH]; intros [|g grid] [|p pc] [|js Js]; cbn; try tauto; constructor.
  - apply sorted_NoDup. tauto.
  - apply (IH grid pc). tauto.
Qed.

Lemma jsoks_In nb grid pc Js t : jsoks nb grid pc Js ->
  (Forall2 (fun a j => In a j) t Js <-> in_range0 nb t /\ vmod grid t = pc).
Proof.
  unfold vmod. revert grid pc Js t. induction nb as [|n nb IH]; intros [|g grid] [|p pc] [|js Js] t; cbn [jsoks]; try tauto.
  - intros _. split.
    + intros H; inversion H; subst. cbn. auto.
    + intros [H _]. destruct t; cbn in H; [constructor|tauto].
  - intros (HS & HI & HJ). split.
    + intros H. inversion H as [|a j t' Js' Ha Ht']; subst. apply HI in Ha as [H1 H2].
      destruct (proj1 (IH _ _ _ t' HJ) Ht') as [H3 H4]. cbn [in_range0 combine map fst snd].
      split; [auto|]. f_equal; auto.
    + intros [H1 H2]. destruct t as [|a t]; cbn [in_range0] in H1; [tauto|].
      cbn [combine map fst snd] in H2. injection H2 as H2 H3. constructor; [apply HI; tauto|].
      apply (IH _ _ _ _ HJ). tauto.
Qed.

Lemma bd_total_sum d b js : bd_total d b js = zsum (map (asize (bd_axis d b)) js).
Proof.
  induction js as [|j js IH]; [reflexivity|]. cbn [bd_total map zsum]. rewrite IH.
  unfold asize. cbn [bd_axis alo ahi]. f_equal. destruct (Z.ltb_spec d ((j + 1) * b)); lia.
Qed.

Lemma grid_size_bd_spec ds bds nb grid pc :
  length bds = length ds -> length nb = length ds -> length grid = length ds -> in_range0 grid pc ->
  exists Js, grid_size_bd ds bds nb grid pc = Some (prod_sums (map asize (bd_axes ds bds)) Js) /\
    jsoks nb grid pc Js /\ length Js = length ds.
Proof.
  revert bds nb grid pc. induction ds as [|d ds IH]; intros [|b bds] [|n nb] [|g grid] [|p pc]; cbn [length in_range0];
    try discriminate; try tauto.
  - intros _ _ _ _. exists []. cbn. auto.
  - intros H1 H2 H3 [Hp Hr]. destruct (IH bds nb grid pc) as (Js & E & HJ & HL); try lia; auto.
    destruct (strided_mod g n p ltac:(lia) Hp) as (js & Es & S & HI).
    exists (js :: Js). cbn [grid_size_bd]. rewrite Es, E. cbn [bd_axes map prod_sums jsoks length].
    rewrite bd_total_sum. split; [reflexivity|]. split; [auto|lia].
Qed.

Lemma map_total_sum d n m js : Z.of_nat (length m) >= n -> (forall j, In j js -> 0 <= j < n) ->
  map_total d n m js = Some (zsum (map (asize (map_axis d n m)) js)).
Proof.
  intros HL. induction js as [|j js IH]; intros H; [reflexivity|]. cbn [map_total map zsum].
  pose proof (H j (or_introl eq_refl)).
  rewrite (zget_nth m j) by lia. rewrite IH by (intros; apply H; now right).
  unfold asize. cbn [map_axis alo ahi].
  destruct (Z.ltb_spec j (n - 1)), (Z.eqb_spec j (n - 1)); try lia; [|reflexivity].
  rewrite (zget_nth m (j + 1)) by lia. reflexivity.
Qed.

Lemma grid_size_map_spec ds m nb grid pc :
  valid_maps ds nb m -> length grid = length ds -> in_range0 grid pc ->
  exists Js, grid_size_map ds m nb grid pc = Some (prod_sums (map asize (map_axes ds nb m)) Js) /\
    jsoks nb grid pc Js /\ length Js = length ds.
Proof.
  revert m nb grid pc. induction ds as [|d ds IH]; intros m [|n nb] [|g grid] [|p pc]; cbn [length in_range0 valid_maps];
    try discriminate; try tauto.
  - intros _ _ _. exists []. cbn. auto.
  - intros [H1 H2] H3 [Hp Hr]. pose proof H1 as (Hd & Hn & Hl & _).
    destruct (IH (skipn (Z.to_nat n) m) nb grid pc) as (Js & E & HJ & HL); try lia; auto.
    destruct (strided_mod g n p ltac:(lia) Hp) as (js & Es & S & HI).
    exists (js :: Js). cbn [grid_size_map]. rewrite Es. rewrite map_total_sum; [|lia|intros j Hj; apply HI in Hj; lia].
    unfold zdrop. rewrite E. cbn [map_axes map prod_sums jsoks length].
    split; [reflexivity|]. split; [auto|lia].
Qed.

Lemma size_at_count axs t : length t = length axs ->
  size_at (map asize axs) t = count_elems (blo axs t) (bhi axs t).
Proof.
  revert t. induction axs as [|x axs IH]; intros [|i t]; cbn [length]; try discriminate; [reflexivity|].
  intros H. cbn [map size_at blo bhi count_elems]. rewrite IH by lia. reflexivity.
Qed.

Lemma column_total a p Js :
  wf_blocks (ga_desc a) -> wf_grid (ga_nproc a) (ga_desc a) -> 0 <= p < ga_nproc a ->
  jsoks (num_blocks (ga_desc a)) (nblock (ga_desc a)) (decode (nblock (ga_desc a)) p) Js ->
  length Js = length (dims (ga_desc a)) ->
  zsum (map (block_size (ga_desc a)) (column a p)) = prod_sums (map asize (axes_of (ga_desc a))) Js.
Proof.
  intros WB WG Hp HJ HLJ. set (g := ga_desc a) in *.
  destruct (wf_any_axes g (wf_blocks_any g WB)) as (_ & Had & Han & Hnb & HLn).
  assert (HLa : length (axes_of g) = length (dims g)) by (rewrite <- Had, map_length; reflexivity).
  assert (CI : forall t, In t (cart Js) -> in_range0 (num_blocks g) t).
  { intros t Ht. apply cart_In in Ht. apply (jsoks_In _ _ _ _ _ HJ) in Ht. tauto. }
  rewrite <- cart_sum by (rewrite map_length; lia).
  rewrite (zsum_perm _ (map (block_size g) (map (encode (num_blocks g)) (cart Js)))).
  - rewrite map_map. f_equal. apply map_ext_in. intros t Ht. specialize (CI t Ht).
    rewrite <- bx_size by (auto; apply encode_range; exact CI). unfold bx. cbn [fst snd].
    rewrite decode_encode by exact CI. rewrite size_at_count; [reflexivity|].
    apply in_range0_length in CI. lia.
  - apply Permutation_map. apply NoDup_Permutation.
    + apply sorted_NoDup, filter_sorted, zseq_sorted.
    + apply NoDup_map_inj; [|apply cart_NoDup; eapply jsoks_NoDup; eauto].
      intros t t' Ht Ht' E. apply (encode_inj (num_blocks g)); auto.
    + intros k. rewrite column_In, in_map_iff. fold g. split.
      * intros [Hk HH]. apply (sl_home a WG) in HH as [_ HV]; [|exact Hk]. fold g in HV.
        exists (decode (num_blocks g) k). split; [apply encode_decode; auto|].
        apply cart_In, (jsoks_In _ _ _ _ _ HJ). split; [apply decode_range; auto|exact HV].
      * intros (t & <- & Ht). pose proof (CI t Ht) as R. pose proof (encode_range _ _ R) as RE.
        split; [exact RE|]. apply (sl_home a WG); [exact RE|]. split; [exact Hp|]. fold g.
        rewrite decode_encode by exact R. apply cart_In in Ht. apply (jsoks_In _ _ _ _ _ HJ) in Ht. tauto.
Qed.

Lemma wf_blocks_num g : wf_blocks g -> num_rstrctd g = 0.
Proof. intros W. unfold num_rstrctd. rewrite (wf_blocks_unrestricted g W). reflexivity. Qed.

Theorem tiled_storage a wn :
  distr_type (ga_desc a) = TILED \/ distr_type (ga_desc a) = TILED_IRREG ->
  wf_blocks (ga_desc a) -> wf_grid (ga_nproc a) (ga_desc a) -> ga_group a = None ->
  sound_storage a (block_place a) (fun q r => alloc_elems wn q r a).
Proof.
  intros HT WB WG HG. apply blocks_storage; auto.
  - intros k Hk. destruct (grid_home _ _ k WG Hk) as (p & _ & _ & _ & H1 & H2 & _). eauto.
  - intros p Hp. set (g := ga_desc a) in *. pose proof WG as (_ & _ & HLg & Hpos & HNp).
    destruct (wf_any_axes g (wf_blocks_any g WB)) as (_ & _ & _ & Hnb & HLn).
    assert (Hr : in_range0 (nblock g) (decode (nblock g) p)) by (apply decode_range; auto; lia).
    unfold alloc_elems. fold g. rewrite (wf_blocks_num g WB), Z.eqb_refl, HNp, Z.eqb_refl.
    rewrite find_indices_decode by (auto; lia).
    destruct HT as [HT|HT]; rewrite HT.
    + destruct WB as [W|[W _]]; [|destruct W as (X & _); fold g in X; congruence].
      pose proof W as (_ & _ & HV & _ & _).
      assert (LBd : length (block_dims g) = length (dims g)).
      { clear - HV. revert HV. generalize (block_dims g). induction (dims g) as [|d ds IH]; intros [|b bs]; cbn; try tauto.
        intros (_ & _ & H). f_equal. auto. }
      destruct (grid_size_bd_spec (dims g) (block_dims g) (num_blocks g) (nblock g) (decode (nblock g) p)) as (Js & E & HJ & HL); auto.
      rewrite E. f_equal. symmetry.
      replace (bd_axes (dims g) (block_dims g)) with (axes_of g) by (unfold axes_of; rewrite HT; reflexivity).
      apply column_total; auto. left. exact W.
    + destruct WB as [W|W]; [destruct W as ([X|[X|X]] & _); fold g in X; congruence|].
      pose proof W as [(_ & _ & HV & _) _].
      destruct (grid_size_map_spec (dims g) (mapc g) (num_blocks g) (nblock g) (decode (nblock g) p)) as (Js & E & HJ & HL); auto.
      rewrite E. f_equal. symmetry.
      replace (map_axes (dims g) (num_blocks g) (mapc g)) with (axes_of g) by (unfold axes_of; rewrite HT; reflexivity).
      apply column_total; auto. right. exact W.
Qed.

(** ---- ScaLAPACK arrays ---- *)
Lemma count_upto_mono f n m : (n <= m)%nat -> count_upto f n <= count_upto f m.
Proof. induction 1; [lia|]. cbn [count_upto]. destruct (f _); lia. Qed.

(** The local position of a subscript is the number of smaller subscripts on
    the same process. *)
Lemma local_pos_count j bd pg : 0 <= j -> 1 <= bd -> 1 <= pg ->
  j / bd / pg * bd + j mod bd = local_extent j bd pg ((j / bd) mod pg).
Proof.
  intros Hj Hb Hp. pose proof (Z.mod_pos_bound (j / bd) pg ltac:(lia)) as B.
  rewrite local_extent_lext by lia. unfold lext. rewrite div_div_mod by lia.
  rewrite Z.div_div by lia. assert (0 < bd * pg) by nia.
  pose proof (Z.mod_pos_bound j (bd * pg) ltac:(lia)) as B2.
  set (r := j mod (bd * pg)) in *.
  assert (E : j mod bd = r mod bd).
  { unfold r. symmetry. rewrite Z.mod_eq with (b := bd * pg) by nia.
    replace (j - bd * pg * (j / (bd * pg))) with (j + (- (pg * (j / (bd * pg)))) * bd) by ring.
    apply Z.mod_add. lia. }
  rewrite E. pose proof (Z.div_mod r bd ltac:(lia)). pose proof (Z.mod_pos_bound r bd ltac:(lia)). nia.
Qed.

Lemma local_pos_bound x d bd pg : 1 <= x <= d -> 1 <= bd -> 1 <= pg ->
  0 <= (x - 1) / bd / pg * bd + (x - 1) mod bd < local_extent d bd pg (((x - 1) / bd) mod pg).
Proof.
  intros Hx Hb Hp. rewrite local_pos_count by lia. split.
  - unfold local_extent. change 0 with (count_upto (fun j => (j / bd) mod pg =? ((x - 1) / bd) mod pg) 0).
    apply count_upto_mono. lia.
  - unfold local_extent. eapply Z.lt_le_trans.
    2: apply count_upto_mono with (n := S (Z.to_nat (x - 1))); lia.
    cbn [count_upto]. rewrite Z2Nat.id by lia. rewrite Z.eqb_refl. lia.
Qed.

Lemma local_range ds bds grid x :
  valid_bdims ds bds -> length grid = length ds -> Forall (fun n => 1 <= n) grid -> in_array ds x ->
  in_range0 (local_extents ds bds grid (grid_coords bds grid x)) (local_coords bds grid x).
Proof.
  revert bds grid x. induction ds as [|d ds IH]; intros [|b bds] [|g grid] [|x xs]; cbn [valid_bdims length in_array];
    try discriminate; try tauto; intros HV HL HF HX; cbn [grid_coords local_coords local_extents in_range0]; try exact I; try tauto.
  inversion HF; subst. split; [apply local_pos_bound; tauto|]. apply IH; auto; tauto.
Qed.

Lemma coords_inj ds bds grid x y :
  valid_bdims ds bds -> length grid = length ds -> Forall (fun n => 1 <= n) grid ->
  in_array ds x -> in_array ds y ->
  grid_coords bds grid x = grid_coords bds grid y -> local_coords bds grid x = local_coords bds grid y -> x = y.
Proof.
  revert bds grid x y. induction ds as [|d ds IH]; intros [|b bds] [|g grid] [|x xs] [|y ys]; cbn [valid_bdims length in_array];
    try discriminate; try tauto.
  intros (Hd & Hb & HV) HL HF [Hx HX] [Hy HY]. cbn [grid_coords local_coords]. intros [= G1 G2] [= L1 L2].
  inversion HF; subst. f_equal; [|apply (IH bds grid); auto; lia].
  assert (Q : (x - 1) / b / g = (y - 1) / b / g /\ (x - 1) mod b = (y - 1) mod b).
  { pose proof (Z.mod_pos_bound (x - 1) b ltac:(lia)). pose proof (Z.mod_pos_bound (y - 1) b ltac:(lia)).
    generalize dependent ((x - 1) / b / g). generalize dependent ((y - 1) / b / g).
    generalize dependent ((x - 1) mod b). generalize dependent ((y - 1) mod b). intros. 
    assert (z1 = z2) by nia. nia. }
  destruct Q as [Q1 Q2].
  pose proof (Z.div_mod (x - 1) b ltac:(lia)). pose proof (Z.div_mod (y - 1) b ltac:(lia)).
  pose proof (Z.div_mod ((x - 1) / b) g ltac:(lia)). pose proof (Z.div_mod ((y - 1) / b) g ltac:(lia)).
  rewrite G1, Q1 in H3. assert ((x - 1) / b = (y - 1) / b) by congruence. rewrite H5, Q2 in H. lia.
Qed.

Lemma grid_coords_range bds grid x ds :
  valid_bdims ds bds -> length grid = length ds -> Forall (fun n => 1 <= n) grid -> in_array ds x ->
  in_range0 grid (grid_coords bds grid x).
Proof.
  revert bds grid x. induction ds as [|d ds IH]; intros [|b bds] [|g grid] [|x xs]; cbn [valid_bdims length in_array];
    try discriminate; try tauto; intros HV HL HF HX; cbn [grid_coords in_range0]; try exact I; try tauto.
  inversion HF; subst. split; [apply Z.mod_pos_bound; lia|]. apply IH; auto; tauto.
Qed.

(** The elements of one dimension, counted block by block. *)
Lemma extent_blocks d b n g p js : 0 <= d <= n * b -> 1 <= b -> 1 <= g -> 0 <= p < g ->
  StronglySorted Z.lt js -> (forall i, In i js <-> 0 <= i < n /\ i mod g = p) ->
  local_extent d b g p = zsum (map (fun j => Z.max 0 (Z.min ((j + 1) * b) d - j * b)) js).
Proof.
  intros Hd Hb Hg Hp HS HI. rewrite local_extent_lext by lia.
  rewrite <- (Z2Nat.id d) by lia. assert (Hm : (Z.to_nat d <= Z.to_nat d)%nat) by lia. revert Hm.
  generalize (Z.to_nat d) at 1 3 4. intros m. induction m as [|m IH]; intros Hm.
  - change (Z.of_nat 0) with 0. unfold lext. rewrite Z.div_0_l, Z.mod_0_l by nia.
    assert (E : zsum (map (fun j => Z.max 0 (Z.min ((j + 1) * b) 0 - j * b)) js) = 0).
    { assert (F : forall j, In j js -> 0 <= j) by (intros j Hj; apply HI in Hj; lia).
      clear - F Hb. induction js as [|j js IH]; [reflexivity|]. cbn [map zsum].
      rewrite IH by (intros; apply F; now right). specialize (F j (or_introl eq_refl)). nia. }
    rewrite E. nia.
  - replace (Z.of_nat (S m)) with (Z.of_nat m + 1) by lia. rewrite lext_step by lia. rewrite IH by lia. clear IH.
    set (e := Z.of_nat m). set (q := e / b).
    assert (Hq : q * b <= e < (q + 1) * b).
    { pose proof (Z.div_mod e b ltac:(lia)). pose proof (Z.mod_pos_bound e b ltac:(lia)). unfold q. nia. }
    assert (Hqr : 0 <= q < n) by (split; nia).
    assert (Step : forall j, 0 <= j -> j <> q -> Z.max 0 (Z.min ((j + 1) * b) (e + 1) - j * b) = Z.max 0 (Z.min ((j + 1) * b) e - j * b)).
    { intros j Hj Hne. destruct (Z_lt_ge_dec j q); [assert ((j + 1) * b <= e) by nia; lia|].
      assert (e < j * b) by nia. assert (e + 1 <= j * b) by lia. lia. }
    assert (Stepq : Z.max 0 (Z.min ((q + 1) * b) (e + 1) - q * b) = Z.max 0 (Z.min ((q + 1) * b) e - q * b) + 1) by nia.
    assert (F : forall j, In j js -> 0 <= j) by (intros j Hj; apply HI in Hj; lia).
    assert (HQ : In q js <-> q mod g = p) by (rewrite HI; tauto).
    apply sorted_NoDup in HS. revert F HQ. clear - HS Step Stepq.
    assert (Gen : (forall j, In j js -> 0 <= j) ->
       zsum (map (fun j => Z.max 0 (Z.min ((j + 1) * b) (e + 1) - j * b)) js) =
       zsum (map (fun j => Z.max 0 (Z.min ((j + 1) * b) e - j * b)) js) + (if in_dec Z.eq_dec q js then 1 else 0)).
    { induction HS as [|j js Hn HN IH]; intros F; [reflexivity|]. cbn [map zsum].
      rewrite IH by (intros; apply F; now right).
      destruct (Z.eq_dec j q) as [->|Hne].
      - rewrite Stepq. destruct (in_dec Z.eq_dec q (q :: js)) as [|X]; [|exfalso; apply X; now left].
        destruct (in_dec Z.eq_dec q js); [tauto|lia].
      - rewrite Step by (auto; apply F; now left).
        destruct (in_dec Z.eq_dec q (j :: js)) as [[X|X]|X], (in_dec Z.eq_dec q js) as [Y|Y]; try lia; try tauto.
        exfalso. apply X. now right. }
    intros F HQ. rewrite Gen by exact F. f_equal.
    destruct (in_dec Z.eq_dec q js) as [X|X], (Z.eqb_spec (q mod g) p) as [Y|Y]; try reflexivity; tauto.
Qed.

Lemma local_extents_prod ds bds nb grid pc Js :
  valid_bdims ds bds -> is_block_grid ds bds nb -> length grid = length ds -> Forall (fun n => 1 <= n) grid ->
  in_range0 grid pc -> jsoks nb grid pc Js ->
  prod_sums (map asize (bd_axes ds bds)) Js = zprod (local_extents ds bds grid pc).
Proof.
  revert bds nb grid pc Js. induction ds as [|d ds IH]; intros [|b bds] [|n nb] [|g grid] [|p pc] [|js Js];
    cbn [valid_bdims is_block_grid length jsoks in_range0]; try discriminate; try tauto.
  intros (Hd & Hb & HV) [HB HG] HL HF [Hp HR] (HS & HI & HJ). inversion HF; subst.
  cbn [bd_axes map prod_sums local_extents zprod]. rewrite (IH bds nb grid pc Js) by (auto; lia). f_equal.
  rewrite (extent_blocks d b n g p js) by (auto; lia). f_equal. apply map_ext_in. intros j Hj. apply HI in Hj.
  unfold asize. cbn [bd_axis alo ahi]. nia.
Qed.

Theorem scalapack_storage a wn :
  distr_type (ga_desc a) = SCALAPACK -> wf_blocked (ga_desc a) -> wf_grid (ga_nproc a) (ga_desc a) ->
  ga_group a = None ->
  sound_storage a (scalapack_place a) (fun q r => alloc_elems wn q r a).
Proof.
  intros HT W WG HG. assert (WB : wf_blocks (ga_desc a)) by (left; exact W).
  set (g := ga_desc a) in *. pose proof WG as (_ & _ & HLg & Hpos & HNp). pose proof W as (_ & _ & HV & HGr & _).
  destruct (wf_any_axes g (wf_blocks_any g WB)) as (_ & _ & _ & Hnb & HLn).
  assert (LBd : length (block_dims g) = length (dims g)).
  { clear - HV. revert HV. generalize (block_dims g). induction (dims g) as [|d ds IH]; intros [|b bs]; cbn; try tauto.
    intros (_ & _ & H). f_equal. auto. }
  unfold sound_storage, scalapack_place. cbv zeta. fold g. split; [|split; [|split]].
  - intros x Hx.
    exists (lin (nblock g) (grid_coords (block_dims g) (nblock g) x),
            lin (local_extents (dims g) (block_dims g) (nblock g) (grid_coords (block_dims g) (nblock g) x))
              (local_coords (block_dims g) (nblock g) x)).
    split; [exact Hx|]. split; [eapply grid_coords_range; eauto|]. auto.
  - intros x [q1 q2] [q1' q2'] (_ & _ & H1 & H2) (_ & _ & H3 & H4). cbn [fst snd] in *. congruence.
  - intros x y [q1 q2] (HX & R1 & H1 & H2) (HY & R2 & H3 & H4). cbn [fst snd] in *.
    assert (EC : grid_coords (block_dims g) (nblock g) x = grid_coords (block_dims g) (nblock g) y)
      by (eapply in_range0_lin; eauto; congruence).
    apply (coords_inj (dims g) (block_dims g) (nblock g)); auto. pose proof (local_range (dims g) (block_dims g) (nblock g) x HV HLg Hpos HX) as RX.
    pose proof (local_range (dims g) (block_dims g) (nblock g) y HV HLg Hpos HY) as RY.
    rewrite <- EC in RY, H4. eapply in_range0_lin; eauto. congruence.
  - intros x [q1 q2] (HX & R1 & H1 & H2). cbn [fst snd] in *.
    pose proof (lin_range _ _ R1) as RQ. rewrite HNp, <- H1 in RQ.
    assert (EQ : decode (nblock g) q1 = grid_coords (block_dims g) (nblock g) x).
    { rewrite H1, lin_encode by (apply in_range0_length; exact R1). apply decode_encode. exact R1. }
    exists q1. eexists. split; [exact RQ|]. split; [unfold abs_rank; rewrite HG; reflexivity|]. split.
    + unfold alloc_elems. fold g. rewrite HT, (wf_blocks_num g WB), Z.eqb_refl, HNp, Z.eqb_refl.
      rewrite find_indices_decode by (auto; lia). rewrite EQ.
      destruct (grid_size_bd_spec (dims g) (block_dims g) (num_blocks g) (nblock g) (grid_coords (block_dims g) (nblock g) x)) as (Js & E & HJ & HL); auto.
      rewrite E. rewrite (local_extents_prod _ _ _ _ _ _ HV HGr HLg Hpos R1 HJ). reflexivity.
    + rewrite H2. apply lin_range. apply local_range; auto.
Qed.
