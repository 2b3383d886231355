(** Proofs about the distribution queries (C01, C02, C05-C10). *)
From Verif Require Export LAxis.

(** ---- list update lemmas ---- *)
Lemma upd_length {A} n (v : A) l : length (upd n v l) = length l.
Proof. revert n; induction l; destruct n; simpl; auto. Qed.

Lemma nth_error_upd {A} n m (v : A) l :
  nth_error (upd n v l) m =
  if Nat.eqb n m then (if Nat.ltb n (length l) then Some v else None) else nth_error l m.
Proof.
  revert n m; induction l as [|a l IH]; intros n m; simpl.
  - destruct (Nat.eqb n m), m, n; reflexivity.
  - destruct n, m; simpl; auto. rewrite IH. auto.
Qed.

Lemma zset_Some {A} (l : list A) i v l' :
  zset l i v = Some l' -> 0 <= i < Z.of_nat (length l) /\ length l' = length l /\
  zget l' i = Some v /\ forall j, j <> i -> zget l' j = zget l j.
Proof.
  unfold zset. destruct ((i <? 0) || _) eqn:E; [discriminate|]. intros [= <-].
  split; [lia|]. split; [apply upd_length|]. split.
  - unfold zget. destruct (Z.ltb_spec i 0); [lia|].
    rewrite nth_error_upd, Nat.eqb_refl. destruct (Nat.ltb_spec (Z.to_nat i) (length l)); auto. lia.
  - intros j Hj. unfold zget. destruct (Z.ltb_spec j 0); auto.
    rewrite nth_error_upd. destruct (Nat.eqb_spec (Z.to_nat i) (Z.to_nat j)); auto. lia.
Qed.

Lemma zset_ok {A} (l : list A) i v :
  0 <= i < Z.of_nat (length l) -> exists l', zset l i v = Some l'.
Proof.
  intros H. unfold zset. destruct ((i <? 0) || _) eqn:E; [lia|eauto].
Qed.

Lemma zget_In {A} (l : list A) i a : zget l i = Some a -> In a l.
Proof.
  unfold zget. destruct (i <? 0); [discriminate|]. apply nth_error_In.
Qed.

Lemma In_zget {A} (l : list A) a : In a l -> exists i, 0 <= i < Z.of_nat (length l) /\ zget l i = Some a.
Proof.
  intros H. apply In_nth_error in H. destruct H as (n & Hn).
  exists (Z.of_nat n). assert (nth_error l n <> None) as H2 by congruence.
  apply nth_error_Some in H2. split; [lia|].
  unfold zget. destruct (Z.ltb_spec (Z.of_nat n) 0); [lia|]. rewrite Nat2Z.id. auto.
Qed.

Lemma NoDup_zget {A} (l : list A) i j a :
  NoDup l -> zget l i = Some a -> zget l j = Some a -> i = j.
Proof.
  intros HN Hi Hj. pose proof (zget_inv _ _ _ Hi). pose proof (zget_inv _ _ _ Hj).
  unfold zget in *. destruct (Z.ltb_spec i 0); [lia|]. destruct (Z.ltb_spec j 0); [lia|].
  pose proof (proj1 (NoDup_nth_error l) HN (Z.to_nat i) (Z.to_nat j) ltac:(lia) ltac:(congruence)). lia.
Qed.

(** ---- restricted arrays ---- *)
Lemma set_ranks_spec l i ranks r :
  NoDup l -> set_ranks l i ranks = Some r ->
  length r = length ranks /\
  (forall k p, zget l k = Some p -> zget r p = Some (i + k)) /\
  (forall p, ~ In p l -> zget r p = zget ranks p) /\
  Forall (fun p => 0 <= p < Z.of_nat (length ranks)) l.
Proof.
  revert i ranks; induction l as [|a l IH]; intros i ranks HN; cbn [set_ranks].
  - intros [= ->]. repeat split; auto. intros k p H. apply zget_inv in H. cbn in H; lia.
  - inversion_clear HN as [|? ? Ha HN'].
    destruct (zset ranks a i) as [r1|] eqn:E; [|discriminate]. intros H.
    apply zset_Some in E. destruct E as (Hr & Hl & Hs & Ho).
    apply IH in H; auto. destruct H as (H1 & H2 & H3 & H4).
    repeat split.
    + congruence.
    + intros k p Hk. pose proof (zget_inv _ _ _ Hk).
      destruct (Z.eq_dec k 0) as [->|].
      * rewrite zget_0 in Hk. injection Hk as <-. rewrite H3, Hs by auto. f_equal; lia.
      * rewrite zget_cons in Hk by lia. rewrite (H2 _ _ Hk). f_equal; lia.
    + intros p Hp. rewrite H3 by (intros ?; apply Hp; simpl; auto).
      apply Ho. intros ->. apply Hp; simpl; auto.
    + constructor; auto. rewrite Hl in H4; auto.
Qed.

Lemma zget_repeat {A} (a : A) n i : 0 <= i < Z.of_nat n -> zget (repeat a n) i = Some a.
Proof.
  intros H. rewrite (zget_Some _ _ a) by (rewrite repeat_length; auto).
  rewrite nth_repeat. auto.
Qed.

Definition owner_of (g : gadesc) (k : Z) : Z :=
  match rstrctd_list g with [] => k | l => nth (Z.to_nat k) l 0 end.

Definition axes_of (g : gadesc) : list axis :=
  match distr_type g with
  | REGULAR => map_axes (dims g) (nblock g) (mapc g)
  | TILED_IRREG => map_axes (dims g) (num_blocks g) (mapc g)
  | _ => bd_axes (dims g) (block_dims g)
  end.

Lemma in_box_empty (ds x : list Z) :
  ds <> [] -> ~ in_box (map (fun _ => 0) ds) (map (fun _ => -1) ds) x.
Proof. destruct ds, x; cbn; try tauto; try congruence. lia. Qed.

Lemma owns_no_handle_spec ds nb m k :
  ds <> [] -> valid_maps ds nb m ->
  exists lo hi, owns_no_handle ds nb m k = Some (lo, hi) /\
    forall x, in_box lo hi x <->
      exists is, in_range0 nb is /\ in_block (map_axes ds nb m) is x /\ k = encode nb is.
Proof.
  intros Hne HV. unfold owns_no_handle.
  pose proof (valid_maps_pos _ _ _ HV) as Hpos.
  destruct ((zprod nb - 1 <? k) || (k <? 0)) eqn:E.
  - do 2 eexists; split; [reflexivity|]. intros x. split.
    + intros H. exfalso. eapply in_box_empty; eauto.
    + intros (is & Hr & _ & ->). apply encode_range in Hr. lia.
  - rewrite owns_dims_axes by (auto; lia). do 2 eexists; split; [reflexivity|].
    intros x. split.
    + intros H. exists (decode nb k). split; [|split; auto].
      * apply decode_range; auto; lia.
      * symmetry. apply encode_decode; auto; lia.
    + intros (is & Hr & Hb & ->). rewrite decode_encode by auto. auto.
Qed.

Lemma owner_of_range nproc g k :
  wf_regular nproc g -> 0 <= k < zprod (nblock g) -> 0 <= owner_of g k < nproc.
Proof.
  intros (_ & _ & _ & [(E & Hn)|(Hne & HN & Hs & Hn)]) Hk; unfold owner_of.
  - rewrite E. lia.
  - destruct (rstrctd_list g) as [|z l] eqn:E; [congruence|]. rewrite <- E in *. clear Hne.
    unfold set_restricted in Hs. apply set_ranks_spec in Hs; auto. destruct Hs as (_ & _ & _ & HF).
    rewrite repeat_length in HF. unfold num_rstrctd in Hn.
    rewrite Forall_forall in HF. assert (In (nth (Z.to_nat k) (rstrctd_list g) 0) (rstrctd_list g)) as HI.
    { apply nth_In. lia. }
    apply HF in HI. lia.
Qed.

Lemma distribution_spec nproc g p :
  wf_regular nproc g -> 0 <= p < nproc ->
  exists lo hi, distribution g p = Some (lo, hi) /\
    forall x, in_box lo hi x <->
      exists is, in_range0 (nblock g) is /\ in_block (axes_of g) is x /\
                 p = owner_of g (encode (nblock g) is).
Proof.
  intros HW Hp. pose proof HW as (HR & Hne & HV & Hcase).
  unfold distribution, owns, axes_of, owner_of. rewrite HR.
  destruct Hcase as [(E & Hn)|(Hrne & HN & Hs & Hn)].
  - unfold num_rstrctd. rewrite E. cbn.
    apply owns_no_handle_spec; auto.
  - assert (0 < num_rstrctd g) as Hnum.
    { unfold num_rstrctd. destruct (rstrctd_list g); cbn; [congruence|lia]. }
    destruct (Z.ltb_spec 0 (num_rstrctd g)); [|lia].
    unfold set_restricted in Hs. apply set_ranks_spec in Hs; auto. destruct Hs as (Hlen & Hin & Hout & HF).
    rewrite repeat_length in Hlen, HF.
    assert (forall k, 0 <= k < num_rstrctd g ->
              zget (rstrctd_list g) k = Some (nth (Z.to_nat k) (rstrctd_list g) 0)) as Hnth.
    { intros k Hk. apply zget_Some. unfold num_rstrctd in Hk. lia. }
    assert (exists k, zget (rank_rstrctd g) p = Some k /\ k < num_rstrctd g /\
              forall k', 0 <= k' < num_rstrctd g ->
                 (nth (Z.to_nat k') (rstrctd_list g) 0 = p <-> k' = k)) as (k & Ek & Hk & Hko).
    { destruct (in_dec Z.eq_dec p (rstrctd_list g)) as [HI|HI].
      - apply In_zget in HI. destruct HI as (k & Hk & Ek). exists k.
        rewrite (Hin _ _ Ek). split; [f_equal; lia|]. split; [unfold num_rstrctd; lia|].
        intros k' Hk'. specialize (Hnth k' Hk'). split.
        + intros E. rewrite E in Hnth. eapply NoDup_zget; eauto.
        + intros ->. congruence.
      - exists (-1). rewrite Hout by auto. rewrite zget_repeat by lia.
        split; auto. split; [lia|]. intros k' Hk'. split; [|lia].
        intros E. exfalso. apply HI. rewrite <- E. apply nth_In. unfold num_rstrctd in Hk'. lia. }
    rewrite Ek. cbv beta iota.
    destruct (Z.eqb_spec (num_rstrctd g) 0); [lia|].
    destruct (Z.ltb_spec k (num_rstrctd g)); [|lia].
    destruct (owns_no_handle_spec _ _ _ k Hne HV) as (lo & hi & E & Hx).
    exists lo, hi. split; auto. intros x. rewrite Hx.
    assert (forall is, in_range0 (nblock g) is ->
       (k = encode (nblock g) is <->
        p = match rstrctd_list g with
            | [] => encode (nblock g) is
            | z :: l => nth (Z.to_nat (encode (nblock g) is)) (z :: l) 0
            end)) as Heq.
    { intros is Hr. apply encode_range in Hr.
      assert (rstrctd_list g <> []) as Hnn by auto.
      destruct (rstrctd_list g) as [|z l] eqn:El; [congruence|].
      specialize (Hko (encode (nblock g) is) ltac:(lia)). intuition. }
    split; intros (is & ? & ? & HH); exists is; split; auto; split; auto; apply Heq; auto.
Qed.

(** C01 *)
Lemma regular_unique_owner nproc g x :
  wf_regular nproc g -> in_array (dims g) x ->
  exists p, 0 <= p < nproc /\
    (exists lo hi, distribution g p = Some (lo, hi) /\ in_box lo hi x) /\
    forall q lo hi, 0 <= q < nproc -> distribution g q = Some (lo, hi) ->
                    in_box lo hi x -> q = p.
Proof.
  intros HW Hx. pose proof HW as (HR & _ & HV & _).
  assert (axes_of g = map_axes (dims g) (nblock g) (mapc g)) as Eax by (unfold axes_of; rewrite HR; auto).
  pose proof (map_axes_valid _ _ _ HV) as Hax. pose proof (map_axes_an _ _ _ HV) as Han.
  destruct (in_block_exists (axes_of g) x) as (is & Hr & Hb).
  { rewrite Eax; auto. } { rewrite Eax, map_axes_ad; auto. }
  rewrite Eax, Han in Hr.
  exists (owner_of g (encode (nblock g) is)).
  assert (0 <= owner_of g (encode (nblock g) is) < nproc) as Hrange
      by (eapply owner_of_range; eauto using encode_range).
  split; auto. split.
  - destruct (distribution_spec _ _ _ HW Hrange) as (lo & hi & E & Hi).
    exists lo, hi. split; auto. apply Hi. eauto.
  - intros q lo hi Hq E Hin. destruct (distribution_spec _ _ _ HW Hq) as (lo' & hi' & E' & Hi).
    rewrite E in E'. injection E' as <- <-. apply Hi in Hin. destruct Hin as (js & Hjr & Hjb & ->).
    f_equal. f_equal. rewrite Eax in *. eapply in_block_unique; eauto; rewrite Han; auto.
Qed.

Lemma regular_blocks_inside nproc g p :
  wf_regular nproc g -> 0 <= p < nproc ->
  exists lo hi, distribution g p = Some (lo, hi) /\
    forall x, in_box lo hi x -> in_array (dims g) x.
Proof.
  intros HW Hp. pose proof HW as (HR & _ & HV & _).
  destruct (distribution_spec _ _ _ HW Hp) as (lo & hi & E & Hi).
  exists lo, hi. split; auto. intros x Hx. apply Hi in Hx. destruct Hx as (is & Hr & Hb & _).
  unfold axes_of in Hb. rewrite HR in Hb. rewrite <- (map_axes_ad _ _ _ HV).
  eapply in_block_inside; eauto using map_axes_valid. rewrite map_axes_an; auto.
Qed.

(** C02 *)
Lemma locate_owner_of guess nproc g x :
  good_guess guess -> wf_regular nproc g -> in_array (dims g) x ->
  exists is, in_range0 (nblock g) is /\ in_block (axes_of g) is x /\
    locate guess g x = Some (Some (owner_of g (encode (nblock g) is))).
Proof.
  intros Hg HW Hx. pose proof HW as (HR & _ & HV & Hcase).
  unfold locate, axes_of. rewrite HR. rewrite (proj2 (sub_in_range_spec _ _) Hx).
  destruct (findblocks_spec guess _ _ _ _ Hg HV Hx) as (is & -> & Hr & Hb).
  exists is. split; auto. split; auto. rewrite compute_index_encode.
  pose proof (encode_range _ _ Hr).
  unfold owner_of. destruct Hcase as [(E & Hn)|(Hrne & HN & Hs & Hn)].
  - unfold num_rstrctd. rewrite E. cbn. auto.
  - destruct (rstrctd_list g) as [|z l] eqn:El; [congruence|].
    unfold num_rstrctd in *. rewrite El in *. destruct (Z.ltb_spec 0 (Z.of_nat (length (z :: l)))); [|cbn in *; lia].
    rewrite (zget_Some _ _ 0) by lia. auto.
Qed.

Lemma locate_in guess nproc g x :
  good_guess guess -> wf_regular nproc g -> in_array (dims g) x ->
  exists p lo hi, locate guess g x = Some (Some p) /\ 0 <= p < nproc /\
    distribution g p = Some (lo, hi) /\ in_box lo hi x.
Proof.
  intros Hg HW Hx. destruct (locate_owner_of guess _ _ _ Hg HW Hx) as (is & Hr & Hb & E).
  pose proof (encode_range _ _ Hr) as He.
  pose proof (owner_of_range _ _ _ HW He) as Hp.
  destruct (distribution_spec _ _ _ HW Hp) as (lo & hi & Ed & Hi).
  do 3 eexists; split; [exact E|]. split; auto. split; [exact Ed|]. apply Hi. eauto.
Qed.

Lemma locate_out guess g x :
  distr_type g = REGULAR -> ~ in_array (dims g) x -> locate guess g x = Some None.
Proof.
  intros HR Hx. unfold locate. rewrite HR.
  destruct (sub_in_range (dims g) x) eqn:E; auto. apply sub_in_range_spec in E. tauto.
Qed.

(** ---- locate_region (C05) ---- *)
Lemma region_ok_spec ds lo hi :
  region_ok ds lo hi = true <->
  in_array ds lo /\ in_array ds hi /\ Forall2 Z.le lo hi.
Proof.
  revert lo hi; induction ds as [|d ds IH]; intros [|l lo] [|h hi]; cbn;
    try (split; [discriminate|tauto]).
  - split; auto.
  - rewrite andb_true_iff, IH. split.
    + intros (H & H1 & H2 & H3). repeat split; auto; try lia. constructor; auto; lia.
    + intros ((H1 & H2) & (H3 & H4) & H5). inversion_clear H5. repeat split; auto; lia.
Qed.

Lemma in_box_clip lo hi bl bh x :
  length lo = length bl -> length hi = length bh ->
  (in_box (clip_lo lo bl) (clip_hi hi bh) x <-> in_box lo hi x /\ in_box bl bh x).
Proof.
  revert bl hi bh x; induction lo as [|l lo IH]; intros [|b bl] [|h hi] [|c bh] [|x xs];
    cbn; try discriminate; try tauto.
  intros H1 H2. change (map _ (combine lo bl)) with (clip_lo lo bl).
  change (map _ (combine hi bh)) with (clip_hi hi bh).
  rewrite IH by congruence.
  destruct (Z.ltb_spec l b), (Z.ltb_spec c h); intuition lia.
Qed.

Lemma region_loop_spec n owns own radix procT procB lo hi sub
      (box : Z -> list Z * list Z) (ow : Z -> Z) :
  (forall t, In t (iter_sub n sub procT procB) ->
     owns (encode radix t) = Some (box (encode radix t)) /\
     own (encode radix t) = Some (ow (encode radix t))) ->
  region_loop n owns own radix procT procB lo hi sub =
  Some (map (fun t => (ow (encode radix t),
                       (clip_lo lo (fst (box (encode radix t))),
                        clip_hi hi (snd (box (encode radix t))))))
            (iter_sub n sub procT procB)).
Proof.
  revert sub; induction n as [|n IH]; intros sub H; [reflexivity|].
  cbn [region_loop]. rewrite compute_index_encode.
  destruct (H sub) as (-> & ->); [cbn; auto|].
  rewrite IH by (intros t Ht; apply H; cbn; auto). reflexivity.
Qed.

Lemma in_range0_between ns a b t :
  in_range0 ns a -> in_range0 ns b -> in_box a b t -> in_range0 ns t.
Proof.
  revert a b t; induction ns as [|n ns IH]; intros [|i a] [|j b] [|k t]; cbn; try tauto.
  intros [? ?] [? ?] [? ?]. split; [lia|eauto].
Qed.

Lemma in_box_le lo hi x : in_box lo hi x -> Forall2 Z.le lo x /\ Forall2 Z.le x hi.
Proof.
  revert hi x; induction lo as [|l lo IH]; intros [|h hi] [|x xs]; cbn; try tauto.
  - auto.
  - intros [H1 H2]. apply IH in H2. destruct H2. split; constructor; auto; lia.
Qed.

Lemma le_in_box lo hi x : Forall2 Z.le lo x -> Forall2 Z.le x hi -> in_box lo hi x.
Proof.
  intros H; revert hi; induction H as [|l a lo x H1 H2 IH]; intros hi HH; inversion_clear HH; cbn; auto.
Qed.

Lemma in_array_between ds lo hi x :
  in_array ds lo -> in_array ds hi -> in_box lo hi x -> in_array ds x.
Proof.
  revert lo hi x; induction ds as [|d ds IH]; intros [|l lo] [|h hi] [|x xs]; cbn; try tauto.
  intros [? ?] [? ?] [? ?]. split; [lia|eauto].
Qed.

Lemma in_array_length ds x : in_array ds x -> length x = length ds.
Proof.
  revert x; induction ds as [|d ds IH]; intros [|x xs]; cbn; try tauto.
  intros [_ H]; f_equal; auto.
Qed.

(** The list of clipped blocks over the box of block coordinates spanned by
    the blocks of the two corners tiles the request. *)
Lemma tiles_clipped axs lo hi procT procB (ow : list Z -> Z) :
  Forall valid_axis axs ->
  in_array (map ad axs) lo -> in_array (map ad axs) hi -> Forall2 Z.le lo hi ->
  in_range0 (map an axs) procT -> in_range0 (map an axs) procB ->
  in_block axs procT lo -> in_block axs procB hi ->
  tiles (map (fun t => (ow t, (clip_lo lo (blo axs t), clip_hi hi (bhi axs t))))
             (box_list procT procB)) snd (in_box lo hi).
Proof.
  intros Hax Hlo Hhi Hle HrT HrB HbT HbB.
  assert (length procT = length procB) as HL
      by (apply in_range0_length in HrT; apply in_range0_length in HrB; congruence).
  assert (forall t, In t (box_list procT procB) -> in_range0 (map an axs) t) as Hrt.
  { intros t Ht. apply box_list_In in Ht; auto. exact (in_range0_between _ _ _ _ HrT HrB Ht). }
  assert (forall t x, In t (box_list procT procB) ->
     (in_box (clip_lo lo (blo axs t)) (clip_hi hi (bhi axs t)) x <->
      in_box lo hi x /\ in_block axs t x)) as Hclip.
  { intros t x Ht. pose proof (in_range0_length _ _ (Hrt t Ht)) as Hlt. rewrite map_length in Hlt.
    apply in_array_length in Hlo. apply in_array_length in Hhi. rewrite map_length in Hlo, Hhi.
    apply in_box_clip.
    - rewrite blo_length by auto; lia.
    - rewrite bhi_length by auto; lia. }
  split.
  - intros k p Hk x Hx. rewrite nth_error_map in Hk.
    destruct (nth_error (box_list procT procB) k) as [t|] eqn:Et; [|discriminate].
    injection Hk as <-. cbn in Hx. apply Hclip in Hx; [tauto|eapply nth_error_In; eauto].
  - intros x Hx.
    assert (in_array (map ad axs) x) as Hxa by (exact (in_array_between _ _ _ _ Hlo Hhi Hx)).
    destruct (in_block_exists axs x Hax Hxa) as (t & Hrx & Hbx).
    apply in_box_le in Hx as Hx'. destruct Hx' as (H1 & H2).
    assert (In t (box_list procT procB)) as Ht.
    { apply box_list_In; auto. apply le_in_box;
        [exact (in_block_mono axs _ _ _ _ Hax HrT Hrx HbT Hbx H1)
        |exact (in_block_mono axs _ _ _ _ Hax Hrx HrB Hbx HbB H2)]. }
    apply In_nth_error in Ht as Ht'. destruct Ht' as (k & Ek).
    exists k, (ow t, (clip_lo lo (blo axs t), clip_hi hi (bhi axs t))). split.
    { rewrite nth_error_map, Ek. auto. }
    cbn. split; [apply Hclip; auto|].
    intros k' p' Ek' Hx'. rewrite nth_error_map in Ek'.
    destruct (nth_error (box_list procT procB) k') as [t'|] eqn:Et'; [|discriminate].
    injection Ek' as <-. cbn in Hx'. pose proof (nth_error_In _ _ Et') as Ht'.
    apply Hclip in Hx'; auto. destruct Hx' as (_ & Hx').
    assert (t' = t) by (eapply in_block_unique; eauto). subst t'.
    pose proof (proj1 (NoDup_nth_error (box_list procT procB)) (box_list_NoDup _ _)) as HN.
    symmetry. apply HN; [|congruence]. apply nth_error_Some; congruence.
Qed.

Lemma nth_zget {A} (l : list A) k d : 0 <= k < Z.of_nat (length l) -> zget l k = Some (nth (Z.to_nat k) l d).
Proof. apply zget_Some. Qed.

Lemma owner_of_inj nproc g j k :
  wf_regular nproc g -> 0 <= j < zprod (nblock g) -> 0 <= k < zprod (nblock g) ->
  owner_of g j = owner_of g k -> j = k.
Proof.
  intros (_ & _ & _ & [(E & Hn)|(Hne & HN & Hs & Hn)]) Hj Hk; unfold owner_of.
  - rewrite E. auto.
  - unfold num_rstrctd in Hn. destruct (rstrctd_list g) as [|z l] eqn:El; [congruence|].
    intros E. eapply NoDup_zget; eauto.
    + rewrite (nth_zget _ _ 0) by lia. reflexivity.
    + rewrite (nth_zget _ _ 0) by lia. rewrite E. auto.
Qed.

Lemma locate_region_regular_full guess nproc g lo hi :
  good_guess guess -> wf_regular nproc g ->
  in_array (dims g) lo -> in_array (dims g) hi -> Forall2 Z.le lo hi ->
  exists pieces, locate_region guess g lo hi = Some (Some pieces) /\
    tiles pieces snd (in_box lo hi) /\
    NoDup (map fst pieces) /\
    forall o plo phi, In (o, (plo, phi)) pieces ->
      length plo = length (dims g) /\ length phi = length (dims g) /\
      0 <= o < nproc /\
      exists dlo dhi, distribution g o = Some (dlo, dhi) /\
        forall x, in_box plo phi x -> in_box dlo dhi x.
Proof.
  intros Hg HW Hlo Hhi Hle. pose proof HW as (HR & Hne & HV & Hcase).
  unfold locate_region. rewrite (proj2 (region_ok_spec _ _ _) (conj Hlo (conj Hhi Hle))).
  rewrite HR. unfold locate_region_map.
  set (axs := map_axes (dims g) (nblock g) (mapc g)).
  pose proof (map_axes_valid _ _ _ HV) as Hax. fold axs in Hax.
  pose proof (map_axes_an _ _ _ HV) as Han. fold axs in Han.
  pose proof (map_axes_ad _ _ _ HV) as Had. fold axs in Had.
  destruct (findblocks_spec guess _ _ _ _ Hg HV Hlo) as (pT & -> & HrT & HbT).
  destruct (findblocks_spec guess _ _ _ _ Hg HV Hhi) as (pB & -> & HrB & HbB).
  fold axs in HbT, HbB.
  assert (Forall2 Z.le pT pB) as HTB by (eapply in_block_mono; eauto; rewrite Han; auto).
  assert (length pT = length pB) as HL by (eapply Forall2_len; eauto).
  assert (forall t, In t (box_list pT pB) -> in_range0 (nblock g) t) as Hrt.
  { intros t Ht. apply box_list_In in Ht; auto. exact (in_range0_between _ _ _ _ HrT HrB Ht). }
  rewrite (region_loop_spec _ _ _ _ _ _ _ _ _
     (fun k => (blo axs (decode (nblock g) k), bhi axs (decode (nblock g) k))) (owner_of g)).
  2:{ intros t Ht. rewrite iter_sub_count in Ht by auto.
      specialize (Hrt t Ht). pose proof (encode_range _ _ Hrt).
      assert (owns_no_handle (dims g) (nblock g) (mapc g) (encode (nblock g) t) =
              Some (blo axs (decode (nblock g) (encode (nblock g) t)),
                    bhi axs (decode (nblock g) (encode (nblock g) t)))) as E.
      { unfold owns_no_handle. destruct ((zprod (nblock g) - 1 <? _) || _) eqn:E; [lia|].
        apply owns_dims_axes; auto; lia. }
      unfold owns. rewrite HR. unfold owner_of.
      destruct Hcase as [(El & Hn)|(Hrne & HN & Hs & Hn)].
      - unfold num_rstrctd. rewrite El. cbn. auto.
      - unfold num_rstrctd in *. destruct (rstrctd_list g) as [|z l] eqn:El; [congruence|].
        destruct (Z.eqb_spec (Z.of_nat (length (z :: l))) 0); [cbn in *; lia|].
        destruct (Z.ltb_spec (encode (nblock g) t) (Z.of_nat (length (z :: l)))); [|lia].
        rewrite (nth_zget _ _ 0) by lia. split; [exact E|reflexivity]. }
  rewrite iter_sub_count by auto.
  eexists; split; [reflexivity|].
  assert (map (fun t => (owner_of g (encode (nblock g) t),
      (clip_lo lo (fst (blo axs (decode (nblock g) (encode (nblock g) t)),
                        bhi axs (decode (nblock g) (encode (nblock g) t)))),
       clip_hi hi (snd (blo axs (decode (nblock g) (encode (nblock g) t)),
                        bhi axs (decode (nblock g) (encode (nblock g) t))))))) (box_list pT pB)
    = map (fun t => (owner_of g (encode (nblock g) t),
                     (clip_lo lo (blo axs t), clip_hi hi (bhi axs t)))) (box_list pT pB)) as Emap.
  { apply map_ext_in. intros t Ht. rewrite decode_encode by auto. auto. }
  rewrite Emap. split; [|split].
  - apply (tiles_clipped axs lo hi pT pB (fun t => owner_of g (encode (nblock g) t)));
      rewrite ?Had, ?Han; auto.
  - rewrite map_map. cbn [fst]. apply NoDup_map_inj; [|apply box_list_NoDup].
    intros a b Ha Hb E. apply owner_of_inj with (nproc := nproc) in E; auto using encode_range.
    eapply encode_inj; eauto.
  - intros o plo phi Hin. apply in_map_iff in Hin. destruct Hin as (t & E & Ht).
    injection E as <- <- <-. specialize (Hrt t Ht).
    assert (0 <= owner_of g (encode (nblock g) t) < nproc) as Ho
        by (eapply owner_of_range; eauto using encode_range).
    assert (length (blo axs t) = length (dims g) /\ length (bhi axs t) = length (dims g)) as [Lb Lh].
    { apply in_range0_length in Hrt. rewrite <- Han, map_length in Hrt.
      rewrite blo_length, bhi_length by auto. rewrite <- Had, map_length. auto. }
    apply in_array_length in Hlo as Llo. apply in_array_length in Hhi as Lhi.
    split; [unfold clip_lo; rewrite map_length, combine_length; lia|].
    split; [unfold clip_hi; rewrite map_length, combine_length; lia|].
    split; auto. destruct (distribution_spec _ _ _ HW Ho) as (dlo & dhi & Ed & Hd).
    exists dlo, dhi. split; auto. intros x Hx. apply Hd. exists t. split; auto. split; auto.
    unfold axes_of. rewrite HR. fold axs.
    apply in_box_clip in Hx; [destruct Hx; auto|lia|lia].
Qed.

Lemma locate_region_regular guess nproc g lo hi :
  good_guess guess -> wf_regular nproc g ->
  in_array (dims g) lo -> in_array (dims g) hi -> Forall2 Z.le lo hi ->
  exists pieces, locate_region guess g lo hi = Some (Some pieces) /\
    tiles pieces snd (in_box lo hi) /\
    NoDup (map fst pieces) /\
    forall o plo phi, In (o, (plo, phi)) pieces ->
      0 <= o < nproc /\
      exists dlo dhi, distribution g o = Some (dlo, dhi) /\
        forall x, in_box plo phi x -> in_box dlo dhi x.
Proof.
  intros Hg HW Hlo Hhi Hle.
  destruct (locate_region_regular_full _ _ _ _ _ Hg HW Hlo Hhi Hle) as (ps & E & T & N & H).
  exists ps. split; [exact E|]. split; [exact T|]. split; [exact N|].
  intros o plo phi Hin. destruct (H o plo phi Hin) as (_ & _ & X). exact X.
Qed.

Lemma locate_region_reject guess g lo hi :
  ~ (in_array (dims g) lo /\ in_array (dims g) hi /\ Forall2 Z.le lo hi) ->
  locate_region guess g lo hi = Some None.
Proof.
  intros H. unfold locate_region. destruct (region_ok (dims g) lo hi) eqn:E; auto.
  apply region_ok_spec in E. tauto.
Qed.

(** ---- fixed block sizes (C06, C07) ---- *)
Lemma wf_blocked_axes g : wf_blocked g ->
  Forall valid_axis (axes_of g) /\ map ad (axes_of g) = dims g /\ map an (axes_of g) = num_blocks g.
Proof.
  intros (HT & _ & HB & HG & _).
  assert (axes_of g = bd_axes (dims g) (block_dims g)) as ->
    by (unfold axes_of; destruct HT as [->|[->| ->]]; auto).
  split; [apply bd_axes_valid; auto|]. split; [apply bd_axes_ad; auto|apply bd_axes_an; auto].
Qed.

Lemma wf_tiled_irreg_axes g : wf_tiled_irreg g ->
  Forall valid_axis (axes_of g) /\ map ad (axes_of g) = dims g /\ map an (axes_of g) = num_blocks g.
Proof.
  intros (HT & _ & HB & _). unfold axes_of. rewrite HT.
  split; [apply map_axes_valid; auto|]. split; [apply map_axes_ad; auto|apply map_axes_an; auto].
Qed.

Lemma blocked_owns g k :
  wf_blocked g \/ wf_tiled_irreg g -> 0 <= k < zprod (num_blocks g) ->
  distribution g k = Some (blo (axes_of g) (decode (num_blocks g) k),
                           bhi (axes_of g) (decode (num_blocks g) k)).
Proof.
  intros HW Hk.
  assert (Forall (fun n => 1 <= n) (num_blocks g)) as Hpos.
  { destruct HW as [HW|HW].
    - destruct (wf_blocked_axes g HW) as (H & _ & <-). apply axes_pos; auto.
    - destruct (wf_tiled_irreg_axes g HW) as (H & _ & <-). apply axes_pos; auto. }
  pose proof (decode_range _ _ Hpos Hk) as Hr.
  unfold distribution, num_rstrctd.
  assert (rstrctd_list g = []) as -> by (destruct HW as [(_ & _ & _ & _ & H)|(_ & _ & _ & H)]; auto).
  cbn. unfold owns, axes_of.
  destruct HW as [(HT & Hne & HB & HG & _)|(HT & Hne & HV & _)].
  - assert (length (decode (num_blocks g) k) = length (dims g)) as HL.
    { rewrite decode_length. rewrite <- (bd_axes_an _ _ _ HB HG), map_length.
      rewrite <- (bd_axes_ad _ _ HB) at 2. rewrite map_length. auto. }
    destruct HT as [->|[->| ->]]; rewrite find_indices_decode by (auto; lia); apply bd_limits_axes; auto.
  - rewrite HT. rewrite find_indices_decode by (auto; lia). apply irreg_limits_axes; auto.
Qed.

Lemma blocked_unique_block guess g x :
  good_guess guess ->
  wf_blocked g \/ wf_tiled_irreg g -> in_array (dims g) x ->
  exists k, 0 <= k < zprod (num_blocks g) /\
    locate guess g x = Some (Some k) /\
    (exists lo hi, distribution g k = Some (lo, hi) /\ in_box lo hi x) /\
    (forall j lo hi, 0 <= j < zprod (num_blocks g) -> distribution g j = Some (lo, hi) ->
                     in_box lo hi x -> j = k).
Proof.
  intros Hg HW Hx.
  assert (Forall valid_axis (axes_of g) /\ map ad (axes_of g) = dims g /\ map an (axes_of g) = num_blocks g)
    as (Hax & Had & Han) by (destruct HW; auto using wf_blocked_axes, wf_tiled_irreg_axes).
  assert (exists is, in_range0 (num_blocks g) is /\ in_block (axes_of g) is x /\
                     locate guess g x = Some (Some (encode (num_blocks g) is))) as (is & Hr & Hb & E).
  { destruct HW as [(HT & Hne & HB & HG & _)|(HT & Hne & HV & _)].
    - destruct (div_indices_spec _ _ _ HB Hx) as (is & Ei & Hr & Hb).
      rewrite (bd_axes_an _ _ _ HB HG) in Hr. exists is. split; auto.
      unfold axes_of, locate. rewrite Ei, horner_encode by (apply in_range0_length; auto).
      destruct HT as [->|[->| ->]]; auto.
    - destruct (findblocks_spec guess _ _ _ _ Hg HV Hx) as (is & Ei & Hr & Hb).
      exists is. split; auto. unfold axes_of, locate. rewrite HT, Ei, horner_encode by (apply in_range0_length; auto). auto. }
  exists (encode (num_blocks g) is). pose proof (encode_range _ _ Hr) as He.
  split; auto. split; auto. split.
  - do 2 eexists. split; [apply blocked_owns; auto|]. rewrite decode_encode by auto. exact Hb.
  - intros j lo hi Hj Ed Hin. rewrite blocked_owns in Ed by auto. injection Ed as <- <-.
    pose proof (axes_pos _ Hax) as Hpos. rewrite Han in Hpos.
    assert (decode (num_blocks g) j = is) as <-.
    { eapply in_block_unique; eauto; rewrite Han; auto using decode_range. }
    symmetry. apply encode_decode; auto.
Qed.

Lemma blocked_inside g k :
  wf_blocked g \/ wf_tiled_irreg g -> 0 <= k < zprod (num_blocks g) ->
  exists lo hi, distribution g k = Some (lo, hi) /\
    forall x, in_box lo hi x -> in_array (dims g) x.
Proof.
  intros HW Hk.
  assert (Forall valid_axis (axes_of g) /\ map ad (axes_of g) = dims g /\ map an (axes_of g) = num_blocks g)
    as (Hax & Had & Han) by (destruct HW; auto using wf_blocked_axes, wf_tiled_irreg_axes).
  do 2 eexists. split; [apply blocked_owns; auto|].
  intros x Hx. rewrite <- Had. eapply in_block_inside; eauto.
  rewrite Han. apply decode_range; auto. rewrite <- Han. apply axes_pos; auto.
Qed.
