(** Iteration over the blocks of blocked arrays (C13, C14): overlap test,
    block addresses, and the tiling by clipped blocks. *)
From Verif Require Export LIterReg3.
From Coq Require Export Sorted.

(** ---- overlap test and clipped block ---- *)
Lemma overlap_true blo bhi lo hi :
  Forall2 Z.le blo bhi -> Forall2 Z.le lo hi -> length blo = length lo ->
  overlap blo bhi lo hi = true ->
  Forall2 Z.le (patch_lo blo bhi lo) (patch_hi blo bhi hi) /\
  forall x, in_box (patch_lo blo bhi lo) (patch_hi blo bhi hi) x <-> in_box blo bhi x /\ in_box lo hi x.
Proof.
  intros HB. revert lo hi. induction HB as [|a b blo bhi Hab HB IH]; intros lo hi HR HL HO;
    destruct HR as [|l h lo hi Hlh HR]; cbn in HL; try discriminate.
  - cbn. split; [constructor|]. intros [|x xs]; tauto.
  - cbn [overlap] in HO. cbv zeta in HO. apply andb_true_iff in HO as [H1 H2].
    destruct (IH lo hi HR ltac:(lia) H2) as [I1 I2].
    cbn [patch_lo patch_hi]. split.
    + constructor; [|exact I1].
      destruct ((l <=? b) && (a <=? l)) eqn:E1, ((h <=? b) && (a <=? h)) eqn:E2; lia.
    + intros [|x xs]; cbn [in_box]; [tauto|]. rewrite I2.
      destruct ((l <=? b) && (a <=? l)) eqn:E1, ((h <=? b) && (a <=? h)) eqn:E2;
        (split; [intros (X1 & X2 & X3); split; split; try assumption; lia|
                 intros ((X1 & X2) & (X3 & X4)); split; [lia|split; assumption]]).
Qed.

Lemma overlap_false blo bhi lo hi :
  Forall2 Z.le blo bhi -> Forall2 Z.le lo hi -> length blo = length lo ->
  overlap blo bhi lo hi = false -> forall x, ~ (in_box blo bhi x /\ in_box lo hi x).
Proof.
  intros HB. revert lo hi. induction HB as [|a b blo bhi Hab HB IH]; intros lo hi HR HL HO;
    destruct HR as [|l h lo hi Hlh HR]; cbn in HL; try discriminate.
  cbn [overlap] in HO. cbv zeta in HO. intros [|x xs]; cbn [in_box]; [tauto|]. intros [[X1 X2] [Y1 Y2]].
  apply andb_false_iff in HO as [HO|HO].
  - lia.
  - apply (IH lo hi HR ltac:(lia) HO xs). auto.
Qed.

Lemma block_offset_spec clo blo bhi j : length blo = length clo -> length bhi = length clo -> clo <> [] ->
  fst (block_offset clo blo bhi j) = j * lin (extents blo bhi) (vsub clo blo) /\
  forall k, length k = length clo -> lin (block_ld blo bhi (snd (block_offset clo blo bhi j))) k = lin (extents blo bhi) k.
Proof.
  assert (H : forall clo blo bhi j, length blo = length clo -> length bhi = length clo -> clo <> [] ->
    fst (block_offset clo blo bhi j) = j * lin (extents blo bhi) (vsub clo blo) /\
    forall k, length k = length clo -> lin (snd (block_offset clo blo bhi j)) k = lin (extents blo bhi) k).
  { clear. induction clo as [|c clo IH]; intros [|l blo] [|h bhi] j H1 H2 Hne; cbn [length] in *; try discriminate;
      [congruence|].
    destruct clo as [|c' clo].
    - destruct blo, bhi; try discriminate. cbn. split; [ring|].
      intros [|k [|k' ks]]; cbn; try discriminate. auto.
    - destruct blo as [|l' blo]; [discriminate|]. destruct bhi as [|h' bhi]; [discriminate|].
      destruct (IH (l' :: blo) (h' :: bhi) (j * (h - l + 1)) ltac:(cbn in *; lia) ltac:(cbn in *; lia) ltac:(discriminate)) as [I1 I2].
      remember (c' :: clo) as cl. remember (l' :: blo) as bl. remember (h' :: bhi) as bh.
      assert (E : block_offset (c :: cl) (l :: bl) (h :: bh) j =
                ((c - l) * j + fst (block_offset cl bl bh (j * (h - l + 1))),
                 (h - l + 1) :: snd (block_offset cl bl bh (j * (h - l + 1))))).
      { subst. reflexivity. }
      rewrite E. cbn [fst snd vsub extents].
      assert (E2 : forall a k ld, k <> [] -> forall l0, lin (l0 :: ld) (a :: k) = a + l0 * lin ld k).
      { intros a [|b k] ld X l0; [congruence|reflexivity]. }
      split.
      + rewrite I1, E2 by (subst; discriminate). ring.
      + intros [|k ks] Hk; [discriminate|]. cbn [length] in Hk.
        assert (Hks : ks <> []) by (subst; destruct ks; cbn in *; [lia|discriminate]).
        rewrite !E2 by exact Hks. rewrite I2 by lia. reflexivity. }
  intros H1 H2 H3. destruct (H clo blo bhi j H1 H2 H3) as [I1 I2]. split; [exact I1|].
  intros k Hk. specialize (I2 k Hk).
  destruct blo as [|l [|l' blo]]; cbn [block_ld]; try exact I2.
  destruct bhi as [|h [|h' bhi]]; try exact I2. reflexivity.
Qed.

(** ---- sums of block sizes ---- *)
Lemma zseq_app l n m : zseq l (n + m) = zseq l n ++ zseq (l + Z.of_nat n) m.
Proof.
  revert l. induction n as [|n IH]; intros l; cbn [Nat.add zseq app].
  - f_equal. lia.
  - f_equal. rewrite IH. do 2 f_equal. lia.
Qed.

Lemma sizes_before_sum size home p n :
  sizes_before size home p n =
  zsum (map size (filter (fun k => match home k with Some q => q =? p | None => false end) (zseq 0 n))).
Proof.
  assert (Z1 : forall l l', zsum (l ++ l') = zsum l + zsum l')
    by (induction l; intros; cbn in *; [reflexivity|rewrite IHl; lia]).
  induction n as [|n IH]; [reflexivity|].
  cbn [sizes_before]. rewrite IH. replace (S n) with (n + 1)%nat by lia.
  rewrite zseq_app, filter_app, map_app, Z1. f_equal. cbn [zseq filter]. rewrite Z.add_0_l.
  destruct (home (Z.of_nat n)) as [q|]; [|reflexivity].
  destruct (q =? p); cbn; lia.
Qed.

Lemma filter_zseq_split f T pre k suf :
  filter f (zseq 0 T) = pre ++ k :: suf -> filter f (zseq 0 (Z.to_nat k)) = pre.
Proof.
  intros E.
  assert (Hk : 0 <= k < Z.of_nat T /\ f k = true).
  { assert (In k (filter f (zseq 0 T))) by (rewrite E; apply in_app_iff; right; now left).
    apply filter_In in H as [H ?]. apply zseq_In in H. split; [lia|auto]. }
  destruct Hk as [Hk Hf].
  replace T with (Z.to_nat k + S (T - Z.to_nat k - 1))%nat in E by lia.
  rewrite zseq_app, filter_app in E. cbn [zseq filter] in E.
  replace (0 + Z.of_nat (Z.to_nat k)) with k in E by lia. rewrite Hf in E.
  set (A := filter f (zseq 0 (Z.to_nat k))) in *.
  assert (HA : ~ In k A).
  { unfold A. rewrite filter_In, zseq_In. lia. }
  assert (HP : ~ In k pre).
  { assert (ND : NoDup (pre ++ k :: suf)).
    { rewrite <- E. apply NoDup_app_intro.
      - apply NoDup_filter, zseq_NoDup.
      - constructor; [rewrite filter_In, zseq_In; lia|apply NoDup_filter, zseq_NoDup].
      - intros x Hx [->|Hx']; [contradiction|].
        unfold A in Hx. apply filter_In in Hx as [Hx _]. apply filter_In in Hx' as [Hx' _].
        rewrite zseq_In in *. lia. }
    apply NoDup_remove_2 in ND. intros X. apply ND. apply in_app_iff. auto. }
  clearbody A. clear - E HA HP. revert pre E HP. induction A as [|x A IH]; intros [|y pre] E HP; cbn in *.
  - reflexivity.
  - injection E as <- _. tauto.
  - injection E as -> _. tauto.
  - injection E as -> E. f_equal. apply IH; auto.
Qed.

(** ---- strictly increasing lists ---- *)
Lemma sorted_unique l l' : StronglySorted Z.lt l -> StronglySorted Z.lt l' ->
  (forall x, In x l <-> In x l') -> l = l'.
Proof.
  intros H. revert l'. induction H as [|a l HS IH HF]; intros l' H' E.
  - destruct l' as [|b l']; [reflexivity|]. exfalso. apply (proj2 (E b)). now left.
  - destruct H' as [|b l' HS' HF'].
    { exfalso. apply (proj1 (E a)). now left. }
    rewrite Forall_forall in HF, HF'.
    assert (a = b).
    { destruct (proj1 (E a) (or_introl eq_refl)) as [|X]; [auto|].
      destruct (proj2 (E b) (or_introl eq_refl)) as [|Y]; [auto|].
      specialize (HF _ Y). specialize (HF' _ X). lia. }
    subst b. f_equal. apply IH; [exact HS'|]. intros x. split; intros X.
    + destruct (proj1 (E x) (or_intror X)) as [->|]; [|assumption]. specialize (HF _ X). lia.
    + destruct (proj2 (E x) (or_intror X)) as [->|]; [|assumption]. specialize (HF' _ X). lia.
Qed.

Lemma zseq_sorted l n : StronglySorted Z.lt (zseq l n).
Proof.
  revert l. induction n as [|n IH]; intros l; cbn; constructor; [apply IH|].
  apply Forall_forall. intros x Hx. apply zseq_In in Hx. lia.
Qed.
Lemma filter_sorted f l : StronglySorted Z.lt l -> StronglySorted Z.lt (filter f l).
Proof.
  induction 1 as [|a l HS IH HF]; cbn; [constructor|]. destruct (f a); [|exact IH].
  constructor; [exact IH|]. rewrite Forall_forall in *. intros x Hx. apply filter_In in Hx. apply HF. tauto.
Qed.
Lemma app_sorted l l' : StronglySorted Z.lt l -> StronglySorted Z.lt l' ->
  (forall x y, In x l -> In y l' -> x < y) -> StronglySorted Z.lt (l ++ l').
Proof.
  induction 1 as [|a l HS IH HF]; intros H' H; cbn; [exact H'|]. constructor.
  - apply IH; [exact H'|]. intros; apply H; cbn; auto.
  - rewrite Forall_forall in *. intros x Hx. apply in_app_iff in Hx as [Hx|Hx]; [auto|]. apply H; cbn; auto.
Qed.

(** ---- the clipped blocks tile the request ---- *)
Section Blocks.
Variable g : gadesc.
Variable lo hi : list Z.
Variable placed : list Z -> place -> Prop.
Variable shape : list Z -> Prop.
Variable ks : list Z.
Variable bx : Z -> list Z * list Z.
Variable pc : Z -> list ipiece.
Hypothesis HL : length lo = length hi.
Hypothesis ND : NoDup ks.
Hypothesis unique : forall x, in_box lo hi x -> exists k, In k ks /\ in_box (fst (bx k)) (snd (bx k)) x.
Hypothesis disj : forall k k' x, In k ks -> In k' ks -> in_box (fst (bx k)) (snd (bx k)) x ->
   in_box (fst (bx k')) (snd (bx k')) x -> k = k'.
Hypothesis pieces : forall k, In k ks ->
  (pc k = [] /\ forall x, ~ (in_box (fst (bx k)) (snd (bx k)) x /\ in_box lo hi x)) \/
  exists q, pc k = [q] /\ Forall2 Z.le (ip_lo q) (ip_hi q) /\ ip_seg q = ip_proc q /\
    (forall x, in_box (ip_lo q) (ip_hi q) x <-> in_box (fst (bx k)) (snd (bx k)) x /\ in_box lo hi x) /\
    (forall x, in_box (ip_lo q) (ip_hi q) x ->
      placed x (ip_proc q, ip_off q + lin (ip_ld q) (vsub x (ip_lo q)))) /\
    exists sh, shape sh /\ forall k, length k = length (ip_lo q) -> lin (ip_ld q) k = lin sh k.

Lemma blocks_cover : covers placed shape (flat_map pc ks) lo hi.
Proof.
  assert (HP : forall q, In q (flat_map pc ks) -> exists k, In k ks /\ pc k = [q] /\
     Forall2 Z.le (ip_lo q) (ip_hi q) /\ ip_seg q = ip_proc q /\
    (forall x, in_box (ip_lo q) (ip_hi q) x <-> in_box (fst (bx k)) (snd (bx k)) x /\ in_box lo hi x) /\
    (forall x, in_box (ip_lo q) (ip_hi q) x ->
      placed x (ip_proc q, ip_off q + lin (ip_ld q) (vsub x (ip_lo q)))) /\
    exists sh, shape sh /\ forall k, length k = length (ip_lo q) -> lin (ip_ld q) k = lin sh k).
  { intros q Hq. apply in_flat_map in Hq as (k & Hk & Hq).
    destruct (pieces k Hk) as [[E _]|(q' & E & R)].
    - rewrite E in Hq. contradiction.
    - rewrite E in Hq. destruct Hq as [->|[]]. exists k. auto. }
  split.
  - apply tiles_perm; [|exact HL|].
    { intros q Hq. destruct (HP q Hq) as (k & _ & _ & F & _). cbn. eapply Forall2_len; eauto. }
    rewrite flat_map_flat_map.
    assert (HI : forall k, In k ks -> forall x, In x (flat_map (box_of (fun p => (ip_lo p, ip_hi p))) (pc k)) <->
        in_box (fst (bx k)) (snd (bx k)) x /\ in_box lo hi x).
    { intros k Hk x. destruct (pieces k Hk) as [[E H]|(q & E & F & _ & H & _)]; rewrite E; cbn [flat_map].
      - split; [intros []|]. intros X. exact (H x X).
      - rewrite app_nil_r. unfold box_of. cbn [fst snd]. rewrite box_list_In by (eapply Forall2_len; eauto).
        apply H. }
    apply NoDup_Permutation.
    + apply NoDup_flat_map; [exact ND| |].
      * intros k Hk. destruct (pieces k Hk) as [[E H]|(q & E & F & _)]; rewrite E; cbn [flat_map].
        -- constructor.
        -- rewrite app_nil_r. apply box_list_NoDup.
      * intros k k' x Hk Hk' Hx Hx'. apply HI in Hx; [|exact Hk]. apply HI in Hx'; [|exact Hk'].
        apply (disj k k' x); tauto.
    + apply box_list_NoDup.
    + intros x. rewrite box_list_In by exact HL. rewrite in_flat_map. split.
      * intros (k & Hk & Hx). apply HI in Hx; tauto.
      * intros Hx. destruct (unique x Hx) as (k & Hk & Hb). exists k. split; [exact Hk|]. apply HI; auto.
  - intros q Hq. destruct (HP q Hq) as (k & _ & _ & F & S & _ & P). auto.
Qed.
End Blocks.

(** The blocks of the processes one after the other. *)
Lemma columns_perm (home : Z -> option Z) N T :
  0 <= N ->
  (forall k, 0 <= k < Z.of_nat T -> exists p, home k = Some p /\ 0 <= p < N) ->
  Permutation (flat_map (fun p => filter (fun k => match home k with Some q => q =? p | None => false end)
                                         (zseq 0 T)) (zseq 0 (Z.to_nat N)))
              (zseq 0 T).
Proof.
  intros HN H. apply NoDup_Permutation.
  - apply NoDup_flat_map; [apply zseq_NoDup|intros; apply NoDup_filter, zseq_NoDup|].
    intros p p' k _ _ Hk Hk'. apply filter_In in Hk as [_ Hk]. apply filter_In in Hk' as [_ Hk'].
    destruct (home k); [lia|discriminate].
  - apply zseq_NoDup.
  - intros k. rewrite in_flat_map. split.
    + intros (p & _ & Hk). apply filter_In in Hk. tauto.
    + intros Hk. pose proof Hk as Hk'. apply zseq_In in Hk'.
      destruct (H k ltac:(lia)) as (p & E & Hp). exists p.
      split; [apply zseq_In; lia|]. apply filter_In. split; [exact Hk|]. rewrite E. lia.
Qed.

(** ---- the blocks of a blocked array ---- *)
Definition bx (g : gadesc) (k : Z) : list Z * list Z :=
  (blo (axes_of g) (decode (num_blocks g) k), bhi (axes_of g) (decode (num_blocks g) k)).

Lemma wf_blocks_any g : wf_blocks g -> wf_blocked g \/ wf_tiled_irreg g.
Proof. intros [H|[H _]]; auto. Qed.

Lemma wf_blocks_unrestricted g : wf_blocks g -> rstrctd_list g = [].
Proof. intros [(_ & _ & _ & _ & H)|[(_ & _ & _ & H) _]]; exact H. Qed.

Lemma wf_blocks_dims g : wf_blocks g -> dims g <> [].
Proof. intros [(_ & H & _)|[(_ & H & _) _]]; exact H. Qed.

Lemma bx_distribution g k : wf_blocks g -> 0 <= k < zprod (num_blocks g) ->
  distribution g k = Some (bx g k).
Proof. intros W Hk. apply blocked_owns; [now apply wf_blocks_any|exact Hk]. Qed.

Lemma bx_owns g k : wf_blocks g -> 0 <= k < zprod (num_blocks g) -> owns g k = Some (bx g k).
Proof.
  intros W Hk. pose proof (bx_distribution g k W Hk) as E. unfold distribution, num_rstrctd in E.
  rewrite (wf_blocks_unrestricted g W) in E. exact E.
Qed.

Lemma bx_length g k : wf_blocks g ->
  length (fst (bx g k)) = length (dims g) /\ length (snd (bx g k)) = length (dims g).
Proof.
  intros W. destruct (wf_any_axes g (wf_blocks_any g W)) as (_ & _ & Han & _ & HL).
  assert (length (axes_of g) = length (num_blocks g)) by (rewrite <- Han, map_length; reflexivity).
  unfold bx. cbn [fst snd]. rewrite blo_length, bhi_length by (rewrite decode_length; lia).
  rewrite decode_length. lia.
Qed.

Definition full_axis (a : axis) : Prop := forall i, 0 <= i < an a -> alo a i <= ahi a i.

Lemma bd_axis_full d b : 1 <= d -> 1 <= b -> full_axis (bd_axis d b).
Proof.
  intros Hd Hb i Hi. cbn [bd_axis an alo ahi] in *.
  destruct (nblocks_of_spec d b Hd Hb) as (H1 & H2 & _). nia.
Qed.

Lemma bd_axes_full ds bs : valid_bdims ds bs -> Forall full_axis (bd_axes ds bs).
Proof.
  revert bs. induction ds as [|d ds IH]; intros [|b bs]; cbn; try tauto; constructor.
  - apply bd_axis_full; tauto.
  - apply IH. tauto.
Qed.

Lemma strict_map_full d n m : strict_map d n m -> full_axis (map_axis d n m).
Proof.
  intros (H1 & H2 & H3 & H4 & H5) i Hi. cbn [map_axis an alo ahi] in *.
  destruct (Z.eqb_spec i (n - 1)) as [->|Hne].
  - replace (Z.to_nat (n - 1)) with (Z.to_nat n - 1)%nat by lia. exact H5.
  - specialize (H4 (Z.to_nat i) ltac:(lia)).
    replace (Z.to_nat (i + 1)) with (Z.to_nat i + 1)%nat by lia. lia.
Qed.

Lemma map_axes_full ds nb m : strict_maps ds nb m -> Forall full_axis (map_axes ds nb m).
Proof.
  revert nb m. induction ds as [|d ds IH]; intros [|n nb] m; cbn; try tauto; constructor.
  - apply strict_map_full. tauto.
  - apply IH. tauto.
Qed.

Lemma axes_full g : wf_blocks g -> Forall full_axis (axes_of g).
Proof.
  intros [(HT & _ & HB & _)|[(HT & _) HS]]; unfold axes_of.
  - assert (Forall full_axis (bd_axes (dims g) (block_dims g))) by (apply bd_axes_full; exact HB).
    destruct HT as [->|[->| ->]]; assumption.
  - rewrite HT. apply map_axes_full. exact HS.
Qed.

Lemma full_le axs t : Forall full_axis axs -> in_range0 (map an axs) t -> Forall2 Z.le (blo axs t) (bhi axs t).
Proof.
  intros H. revert t. induction H as [|a axs Ha H IH]; intros [|i t]; cbn; try tauto; constructor.
  - apply Ha. tauto.
  - apply IH. tauto.
Qed.

Lemma bx_le g k : wf_blocks g -> 0 <= k < zprod (num_blocks g) -> Forall2 Z.le (fst (bx g k)) (snd (bx g k)).
Proof.
  intros W Hk. destruct (wf_any_axes g (wf_blocks_any g W)) as (_ & _ & Han & Hpos & _).
  apply full_le; [apply axes_full; exact W|]. rewrite Han. apply decode_range; auto.
Qed.

Lemma bx_cover g x : wf_blocks g -> in_array (dims g) x ->
  exists k, 0 <= k < zprod (num_blocks g) /\ in_box (fst (bx g k)) (snd (bx g k)) x.
Proof.
  intros W Hx. destruct (wf_any_axes g (wf_blocks_any g W)) as (Hax & Had & Han & Hpos & _).
  rewrite <- Had in Hx. destruct (in_block_exists _ _ Hax Hx) as (t & Ht & Hb).
  rewrite Han in Ht. exists (encode (num_blocks g) t). split; [now apply encode_range|].
  unfold bx. cbn [fst snd]. rewrite decode_encode by exact Ht. exact Hb.
Qed.

Lemma bx_disj g k k' x : wf_blocks g ->
  0 <= k < zprod (num_blocks g) -> 0 <= k' < zprod (num_blocks g) ->
  in_box (fst (bx g k)) (snd (bx g k)) x -> in_box (fst (bx g k')) (snd (bx g k')) x -> k = k'.
Proof.
  intros W Hk Hk' Hx Hx'. destruct (wf_any_axes g (wf_blocks_any g W)) as (Hax & Had & Han & Hpos & _).
  pose proof (decode_range _ _ Hpos Hk) as R. pose proof (decode_range _ _ Hpos Hk') as R'.
  rewrite <- (encode_decode _ _ Hpos Hk), <- (encode_decode _ _ Hpos Hk'). f_equal.
  rewrite <- Han in R, R'. rewrite Han in *. eapply in_block_unique; [exact Hax| | |exact Hx|exact Hx'];
    rewrite Han; assumption.
Qed.

Lemma bx_inside g k x : wf_blocks g -> 0 <= k < zprod (num_blocks g) ->
  in_box (fst (bx g k)) (snd (bx g k)) x -> in_array (dims g) x.
Proof.
  intros W Hk Hx. destruct (wf_any_axes g (wf_blocks_any g W)) as (Hax & Had & Han & Hpos & _).
  rewrite <- Had. eapply in_block_inside; [exact Hax| |exact Hx]. rewrite Han. apply decode_range; auto.
Qed.

Lemma count_elems_box_size lo hi : Forall2 Z.le lo hi -> count_elems lo hi = box_size lo hi.
Proof. induction 1; cbn [count_elems box_size]; [reflexivity|]. rewrite IHForall2, Z.max_r by lia. reflexivity. Qed.

Lemma bx_size g k : wf_blocks g -> 0 <= k < zprod (num_blocks g) ->
  count_elems (fst (bx g k)) (snd (bx g k)) = block_size g k.
Proof.
  intros W Hk. unfold block_size. rewrite bx_distribution by auto.
  rewrite count_elems_box_size by (apply bx_le; auto). destruct (bx g k); reflexivity.
Qed.

Lemma zprod_ge1 g : wf_blocks g -> 1 <= zprod (num_blocks g).
Proof.
  intros W. destruct (wf_any_axes g (wf_blocks_any g W)) as (_ & _ & _ & Hpos & _). apply zprod_pos. exact Hpos.
Qed.

Lemma block_piece_shape a k clo off p :
  wf_blocks (ga_desc a) -> 0 <= k < zprod (num_blocks (ga_desc a)) ->
  let b := bx (ga_desc a) k in
  let r := block_offset clo (fst b) (snd b) 1 in
  in_box (fst b) (snd b) clo ->
  let q := IPiece p p clo off (fst r) (block_ld (fst b) (snd b) (snd r)) in
  exists sh, block_shape a sh /\ forall k, length k = length clo -> lin (ip_ld q) k = lin sh k.
Proof.
  intros W Hk b r Hc q. destruct (bx_length (ga_desc a) k W) as [L1 L2]. fold b in L1, L2.
  destruct (in_box_len _ _ _ Hc) as [C1 C2].
  assert (Hne : clo <> []).
  { intros E. rewrite E in C1. pose proof (wf_blocks_dims _ W). destruct (dims (ga_desc a)); [congruence|].
    cbn in *. lia. }
  destruct (block_offset_spec clo (fst b) (snd b) 1 C1 C2 Hne) as [O1 O2]. fold r in O1, O2.
  exists (extents (fst b) (snd b)). split.
  - exists k, (fst b), (snd b). split; [exact Hk|]. split.
    { rewrite bx_distribution by auto. unfold b. destruct (bx (ga_desc a) k); reflexivity. }
    split; [apply bx_le; auto|reflexivity].
  - intros t Ht. cbn [q ip_ld]. apply O2. exact Ht.
Qed.

(** Address of an element of a clipped block that is stored contiguously. *)
Lemma block_piece_place a k lo hi off p x :
  wf_blocks (ga_desc a) -> 0 <= k < zprod (num_blocks (ga_desc a)) ->
  let b := bx (ga_desc a) k in
  let clo := patch_lo (fst b) (snd b) lo in
  let r := block_offset clo (fst b) (snd b) 1 in
  Forall2 Z.le lo hi -> length lo = length (dims (ga_desc a)) ->
  overlap (fst b) (snd b) lo hi = true ->
  block_home (ga_nproc a) (ga_desc a) k = Some p ->
  off = sizes_before (block_size (ga_desc a)) (block_home (ga_nproc a) (ga_desc a)) p (Z.to_nat k) ->
  in_box clo (patch_hi (fst b) (snd b) hi) x ->
  block_place a x (p, fst r + off + lin (block_ld (fst b) (snd b) (snd r)) (vsub x clo)).
Proof.
  intros W Hk b clo r HF HL HO HH Hoff Hx.
  destruct (bx_length (ga_desc a) k W) as [L1 L2]. fold b in L1, L2.
  pose proof (bx_le (ga_desc a) k W Hk) as HB. fold b in HB.
  destruct (overlap_true (fst b) (snd b) lo hi HB HF ltac:(lia) HO) as [P1 P2]. fold clo in P1, P2.
  assert (Hc : in_box (fst b) (snd b) clo) by (apply P2, lo_in_box, P1).
  destruct (in_box_len _ _ _ Hc) as [C1 C2].
  pose proof (proj1 (proj1 (P2 x) Hx)) as Hxb. destruct (in_box_len _ _ _ Hxb) as [X1 X2].
  assert (Hne : clo <> []).
  { intros E. rewrite E in C1. pose proof (wf_blocks_dims _ W). destruct (dims (ga_desc a)); [congruence|].
    cbn in *. lia. }
  destruct (block_offset_spec clo (fst b) (snd b) 1 C1 C2 Hne) as [O1 O2]. fold r in O1, O2.
  exists k, (fst b), (snd b). split; [exact Hk|]. split.
  { rewrite bx_distribution by auto. unfold b. destruct (bx (ga_desc a) k); reflexivity. }
  split; [exact Hxb|]. split; [exact HH|]. cbn [fst snd].
  rewrite O1, O2 by (rewrite vsub_length; lia). subst off.
  assert (EE : lin (extents (fst b) (snd b)) (vsub clo (fst b)) + lin (extents (fst b) (snd b)) (vsub x clo)
          = lin (extents (fst b) (snd b)) (vsub x (fst b))).
  { rewrite <- lin_add by (rewrite ?vsub_length; rewrite ?vsub_length; lia).
    assert (V : forall u v w : list Z, length u = length v -> length w = length v ->
       vadd (vsub v w) (vsub u v) = vsub u w).
    { clear. induction u as [|u0 u IH]; intros [|v0 v] [|w0 w] H1 H2; cbn in *; try discriminate; [reflexivity|].
      rewrite IH by lia. f_equal. lia. }
    rewrite V by lia. reflexivity. }
  lia.
Qed.
