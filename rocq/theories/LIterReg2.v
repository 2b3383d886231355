(** The REGULAR iterator: splitting of oversize blocks and the whole scan. *)
From Verif Require Export LIterReg.

(** ---- halving ---- *)
Lemma find_max_stable sizes i M m : Forall (fun s => s <= M) sizes -> find_max sizes i M m = (M, m).
Proof.
  revert i. induction sizes as [|s sizes IH]; intros i H; [reflexivity|].
  inversion H; subst. cbn. replace (M <? s) with false by lia. auto.
Qed.

Lemma find_max_spec sizes i M0 m0 :
  exists M m, find_max sizes i M0 m0 = (M, m) /\ M0 <= M /\ Forall (fun s => s <= M) sizes /\
    ((M = M0 /\ m = m0) \/ (exists k, m = i + Z.of_nat k /\ nth_error sizes k = Some M)).
Proof.
  revert i M0 m0. induction sizes as [|s sizes IH]; intros i M0 m0; cbn.
  - exists M0, m0. repeat split; auto; lia.
  - destruct (M0 <? s) eqn:E.
    + destruct (IH (i + 1) s i) as (M & m & -> & H1 & H2 & H3). exists M, m.
      split; [reflexivity|]. split; [lia|]. split; [constructor; auto; lia|].
      right. destruct H3 as [[-> ->]|(k & -> & Hk)].
      * exists O. cbn. split; [lia|reflexivity].
      * exists (S k). cbn. split; [lia|exact Hk].
    + destruct (IH (i + 1) M0 m0) as (M & m & -> & H1 & H2 & H3). exists M, m.
      split; [reflexivity|]. split; [lia|]. split; [constructor; auto; lia|].
      destruct H3 as [H3|(k & -> & Hk)]; [left; exact H3|].
      right. exists (S k). cbn. split; [lia|exact Hk].
Qed.

Lemma zprod_upd m s ext : (m < length ext)%nat -> zprod (upd m s ext) = s * zprod (upd m 1 ext).
Proof.
  revert m. induction ext as [|e ext IH]; intros m H; cbn in H; [lia|].
  destruct m as [|m]; cbn [upd zprod]; [ring|]. rewrite IH by lia. ring.
Qed.

Lemma upd_upd {A} m (s t : A) l : upd m t (upd m s l) = upd m t l.
Proof. revert m; induction l as [|a l IH]; intros [|m]; cbn; auto. now rewrite IH. Qed.

Lemma upd_same {A} m (s : A) l : nth_error l m = Some s -> upd m s l = l.
Proof.
  revert m; induction l as [|a l IH]; intros [|m]; cbn; intros H; try discriminate; auto.
  - congruence.
  - now rewrite IH.
Qed.

Lemma Forall_upd {A} (P : A -> Prop) m s l : Forall P l -> P s -> Forall P (upd m s l).
Proof.
  intros H Hs. revert m. induction H as [|a l Ha H IH]; intros [|m]; cbn; constructor; auto.
Qed.

Lemma halve_run fuel es ext m s M :
  (m < length ext)%nat -> es * zprod (upd m 1 ext) <= max_int_value -> 0 <= es ->
  Forall (fun e => 1 <= e <= M) (upd m s ext) -> 1 <= s -> s <= 2 ^ Z.of_nat fuel ->
  exists s', halve fuel es (upd m s ext) M (Z.of_nat m) = Some (upd m s' ext) /\
    1 <= s' <= s /\ es * zprod (upd m s' ext) <= max_int_value.
Proof.
  intros Hm Hes Hes0. revert s. induction fuel as [|fuel IH]; intros s HF Hs Hf.
  - cbn in Hf. assert (s = 1) by lia. subst s. cbn [halve].
    replace (max_int_value <? _) with false by lia. exists 1. split; [reflexivity|]. split; [lia|exact Hes].
  - cbn [halve]. destruct (max_int_value <? es * zprod (upd m s ext)) eqn:E.
    + rewrite find_max_stable by (apply (Forall_impl _ (fun e (He : 1 <= e <= M) => proj2 He) HF)).
      cbn [fst snd].
      assert (G : zget (upd m s ext) (Z.of_nat m) = Some s).
      { unfold zget. replace (Z.of_nat m <? 0) with false by lia. rewrite Nat2Z.id, nth_error_upd.
        rewrite Nat.eqb_refl. destruct (Nat.ltb_spec m (length ext)); [reflexivity|lia]. }
      rewrite G. unfold zset. rewrite upd_length.
      replace ((Z.of_nat m <? 0) || (Z.of_nat (length ext) <=? Z.of_nat m)) with false by lia.
      rewrite Nat2Z.id, upd_upd.
      assert (2 <= s).
      { rewrite zprod_upd in E by lia.
        assert (s <> 1); [|lia]. intros ->. lia. }
      assert (1 <= Z.quot s 2) by (rewrite Z.quot_div_nonneg by lia; lia).
      assert (Z.quot s 2 <= s) by (rewrite Z.quot_div_nonneg by lia; lia).
      destruct (IH (Z.quot s 2)) as (s' & -> & H2 & H3).
      * assert (HFM : Forall (fun e => 1 <= e <= M) (upd m (Z.quot s 2) (upd m s ext))).
        { apply Forall_upd; [exact HF|]. rewrite Forall_forall in HF.
          assert (In s (upd m s ext)).
          { unfold zget in G. replace (Z.of_nat m <? 0) with false in G by lia.
            rewrite Nat2Z.id in G. eapply nth_error_In; eauto. }
          specialize (HF s H2). lia. }
        rewrite upd_upd in HFM. exact HFM.
      * lia.
      * rewrite Z.quot_div_nonneg by lia.
        rewrite Nat2Z.inj_succ, Z.pow_succ_r in Hf by lia.
        apply Z.div_le_upper_bound; lia.
      * exists s'. split; [reflexivity|]. split; [lia|exact H3].
    + exists s. split; [reflexivity|]. split; [lia|lia].
Qed.

Lemma zprod_ge_elem l k e : Forall (fun n => 1 <= n) l -> nth_error l k = Some e -> e <= zprod l.
Proof.
  intros H. revert k. induction H as [|a l Ha H IH]; intros [|k] E; cbn in E; try discriminate.
  - injection E as ->. cbn. pose proof (zprod_pos l H). nia.
  - specialize (IH k E). cbn. pose proof (zprod_pos l H). nia.
Qed.

(** Result of the halving loop: positive block sizes, not above the extents,
    and no sub-block above the limit. *)
Lemma halve_spec es ext :
  ext <> [] -> Forall (fun e => 1 <= e) ext -> 0 <= es ->
  (forall i, (i < length ext)%nat -> es * zprod (upd i 1 ext) <= max_int_value) ->
  exists sizes, halve (Z.to_nat (Z.log2 (zprod ext) + 2)) es ext 0 0 = Some sizes /\
    Forall2 (fun s e => 1 <= s <= e) sizes ext /\ es * zprod sizes <= max_int_value.
Proof.
  intros Hne HF Hes Hsp.
  destruct (find_max_spec ext 0 0 0) as (M & m & Efm & HM0 & HM & Hor).
  assert (Hk : exists k, m = Z.of_nat k /\ nth_error ext k = Some M).
  { destruct Hor as [[-> ->]|(k & -> & Hk)]; [|exists k; auto with zarith].
    destruct ext as [|e ext]; [congruence|]. inversion HM; inversion HF; subst; lia. }
  destruct Hk as (k & -> & Hk).
  assert (Hkl : (k < length ext)%nat) by (apply nth_error_Some; congruence).
  pose proof (zprod_ge_elem ext k M HF Hk) as HMp.
  assert (HM1 : 1 <= M) by (rewrite Forall_forall in HF; apply HF; eapply nth_error_In; eauto).
  pose proof (Z.log2_nonneg (zprod ext)) as Hl0.
  replace (Z.to_nat (Z.log2 (zprod ext) + 2)) with (S (Z.to_nat (Z.log2 (zprod ext) + 1))) by lia.
  set (f := Z.to_nat (Z.log2 (zprod ext) + 1)).
  assert (E1 : halve (S f) es ext 0 0 = halve (S f) es ext M (Z.of_nat k)).
  { cbn [halve]. rewrite Efm. rewrite find_max_stable by exact HM. reflexivity. }
  rewrite E1.
  destruct (halve_run (S f) es ext k M M) as (s' & E & Hs & Hp); auto.
  - rewrite (upd_same k M ext Hk). rewrite Forall_forall in *. intros e He. split; auto.
  - pose proof (Z.log2_spec (zprod ext) ltac:(lia)) as [_ Hl].
    transitivity (zprod ext); [exact HMp|].
    transitivity (2 ^ Z.succ (Z.log2 (zprod ext))); [lia|].
    apply Z.pow_le_mono_r; [lia|]. unfold f. lia.
  - rewrite (upd_same k M ext Hk) in E. rewrite E. eexists. split; [reflexivity|]. split; [|exact Hp].
    clear - HF Hk Hs. revert k Hk. induction HF as [|a l Ha HF IH]; intros [|k] Hk; cbn in Hk; try discriminate.
    + injection Hk as ->. cbn. constructor; [lia|]. clear - HF. induction HF; constructor; auto. lia.
    + cbn. constructor; [lia|]. apply IH. exact Hk.
Qed.

(** ---- sub-blocks ---- *)
Lemma split_dims_spec ext sizes :
  Forall2 (fun s e => 1 <= s <= e) sizes ext ->
  exists ds, split_dims ext sizes = Some ds /\ length ds = length ext /\
    gridok ds (map (fun _ => 1) ds) (map (fun _ => 0) ds) (map (fun d => d - 1) ds) /\
    Forall2 (fun d se => fst se * (d - 1) < snd se <= fst se * d) ds (combine sizes ext).
Proof.
  induction 1 as [|s e sizes ext Hs HF IH]; cbn.
  - exists []. repeat split; constructor.
  - destruct IH as (ds & -> & Hl & HG & HD). unfold cdiv. replace (s =? 0) with false by lia.
    rewrite Z.quot_div_nonneg by lia.
    set (q := e / s). assert (Hq : s * q <= e < s * (q + 1)) by (unfold q; split; [lia|nia]).
    clearbody q.
    destruct (q * s <? e) eqn:E; eexists; (split; [reflexivity|]); (split; [cbn; now rewrite Hl|]); split.
    + cbn [gridok map]. split; [lia|]. split; [nia|]. split; [lia|exact HG].
    + constructor; [cbn; nia|exact HD].
    + cbn [gridok map]. split; [lia|]. split; [nia|]. split; [lia|exact HG].
    + constructor; [cbn; nia|exact HD].
Qed.

Fixpoint vdiv (x s : list Z) : list Z :=
  match x, s with a :: x', b :: s' => a / b :: vdiv x' s' | _, _ => [] end.

Lemma sub_box_iff blo bhi sizes ds inc x :
  length blo = length bhi ->
  Forall2 (fun s e => 1 <= s <= e) sizes (extents blo bhi) ->
  Forall2 (fun d se => fst se * (d - 1) < snd se <= fst se * d) ds (combine sizes (extents blo bhi)) ->
  in_box (map (fun _ => 0) ds) (map (fun d => d - 1) ds) inc ->
  (in_box (sub_lo blo inc sizes) (sub_hi (sub_lo blo inc sizes) bhi sizes) x <->
   in_box blo bhi x /\ inc = vdiv (vsub x blo) sizes) /\
  Forall2 Z.le (sub_lo blo inc sizes) (sub_hi (sub_lo blo inc sizes) bhi sizes).
Proof.
  revert bhi sizes ds inc x. induction blo as [|l blo IH]; intros [|h bhi] sizes ds inc x Hl HS HD Hi;
    cbn in Hl; try discriminate.
  - cbn in HS. inversion HS; subst. cbn in HD. inversion HD; subst. destruct inc; cbn in Hi; [|contradiction].
    destruct x; cbn; split; try tauto; try constructor; try tauto.
  - cbn in HS. inversion HS as [|s e sizes' ext' Hs HS']; subst. cbn in HD.
    inversion HD as [|d se ds' r Hd HD']; subst. destruct inc as [|i inc]; cbn in Hi; [contradiction|].
    destruct Hi as [Hi0 Hi]. cbn [fst snd] in Hd.
    destruct x as [|a x].
    + split; [cbn; tauto|]. cbn. destruct (IH bhi sizes' ds' inc [] ltac:(lia) HS' HD' Hi) as [_ IH2].
      constructor; [|exact IH2]. destruct (l + i * s + s - 1 <? h); nia.
    + destruct (IH bhi sizes' ds' inc x ltac:(lia) HS' HD' Hi) as [IH1 IH2].
      split; [|cbn; constructor; [destruct (l + i * s + s - 1 <? h); nia|exact IH2]].
      cbn. rewrite IH1. split.
      * intros [Ha [Hx ->]]. assert (i = (a - l) / s).
        { apply (Z.div_unique_pos (a - l) s i (a - l - s * i)); [|ring].
          destruct (l + i * s + s - 1 <? h) eqn:E; nia. }
        split; [split; [|exact Hx]|congruence].
        destruct (l + i * s + s - 1 <? h) eqn:E; nia.
      * intros [[Ha Hx] [= -> ->]]. split; [|auto].
        assert (s * ((a - l) / s) <= a - l < s * ((a - l) / s) + s).
        { pose proof (Z.mod_pos_bound (a - l) s ltac:(lia)).
          pose proof (Z.div_mod (a - l) s ltac:(lia)). lia. }
        destruct (l + (a - l) / s * s + s - 1 <? h) eqn:E; nia.
Qed.

Lemma vdiv_range blo bhi sizes ds x :
  length blo = length bhi ->
  Forall2 (fun s e => 1 <= s <= e) sizes (extents blo bhi) ->
  Forall2 (fun d se => fst se * (d - 1) < snd se <= fst se * d) ds (combine sizes (extents blo bhi)) ->
  in_box blo bhi x ->
  in_box (map (fun _ => 0) ds) (map (fun d => d - 1) ds) (vdiv (vsub x blo) sizes).
Proof.
  revert bhi sizes ds x. induction blo as [|l blo IH]; intros [|h bhi] sizes ds x Hl HS HD Hx;
    cbn in Hl; try discriminate.
  - cbn in HS. inversion HS; subst. cbn in HD. inversion HD; subst.
    destruct x; cbn in *; tauto.
  - cbn in HS. inversion HS as [|s e sizes' ext' Hs HS']; subst. cbn in HD.
    inversion HD as [|d se ds' r Hd HD']; subst. destruct x as [|a x]; cbn in Hx; [contradiction|].
    destruct Hx as [Ha Hx]. cbn [fst snd] in Hd. cbn. split; [|apply (IH bhi); auto].
    split; [apply Z.div_pos; lia|]. 
    assert ((a - l) / s < d); [|lia]. apply Z.div_lt_upper_bound; lia.
Qed.

Lemma sub_lo_length blo inc s : length blo = length inc -> length s = length blo ->
  length (sub_lo blo inc s) = length blo.
Proof.
  revert inc s; induction blo as [|a blo IH]; intros [|i inc] [|b s] H1 H2; cbn in *; try lia.
  now rewrite IH by lia.
Qed.
Lemma sub_hi_length lo hi s : length lo = length hi -> length s = length lo ->
  length (sub_hi lo hi s) = length lo.
Proof.
  revert hi s; induction lo as [|a lo IH]; intros [|i inc] [|b s] H1 H2; cbn in *; try lia.
  now rewrite IH by lia.
Qed.
Lemma extents_length lo hi : length lo = length hi -> length (extents lo hi) = length lo.
Proof. revert hi; induction lo as [|a lo IH]; intros [|b hi] H; cbn in *; try lia. now rewrite IH by lia. Qed.

Lemma sub_boxes_perm blo bhi sizes ds :
  length blo = length bhi ->
  Forall2 (fun s e => 1 <= s <= e) sizes (extents blo bhi) ->
  Forall2 (fun d se => fst se * (d - 1) < snd se <= fst se * d) ds (combine sizes (extents blo bhi)) ->
  Permutation
    (flat_map (fun inc => box_list (sub_lo blo inc sizes) (sub_hi (sub_lo blo inc sizes) bhi sizes))
              (box_list (map (fun _ => 0) ds) (map (fun d => d - 1) ds)))
    (box_list blo bhi).
Proof.
  intros Hl HS HD.
  assert (Hls : length sizes = length blo).
  { apply Forall2_len in HS. rewrite extents_length in HS by exact Hl. exact HS. }
  assert (Hlen : forall inc, In inc (box_list (map (fun _ => 0) ds) (map (fun d => d - 1) ds)) ->
    length (sub_lo blo inc sizes) = length (sub_hi (sub_lo blo inc sizes) bhi sizes) /\
    in_box (map (fun _ => 0) ds) (map (fun d => d - 1) ds) inc).
  { intros inc Hi. apply box_list_In in Hi; [|now rewrite !map_length]. split; [|exact Hi].
    destruct (in_box_len _ _ _ Hi) as [L1 _]. rewrite map_length in L1.
    apply Forall2_len in HD. rewrite combine_length, extents_length in HD by exact Hl.
    rewrite sub_hi_length; rewrite ?sub_lo_length; lia. }
  apply NoDup_Permutation.
  - apply NoDup_flat_map; [apply box_list_NoDup|intros; apply box_list_NoDup|].
    intros i j y Hi Hj Hy Hy'.
    destruct (Hlen i Hi) as [L1 Bi], (Hlen j Hj) as [L2 Bj].
    apply box_list_In in Hy; [|exact L1]. apply box_list_In in Hy'; [|exact L2].
    apply (sub_box_iff blo bhi sizes ds) in Hy; auto.
    apply (sub_box_iff blo bhi sizes ds) in Hy'; auto. destruct Hy as [_ ->], Hy' as [_ ->]. reflexivity.
  - apply box_list_NoDup.
  - intros x. rewrite in_flat_map, box_list_In by exact Hl. split.
    + intros (i & Hi & Hx). destruct (Hlen i Hi) as [L1 Bi]. apply box_list_In in Hx; [|exact L1].
      apply (sub_box_iff blo bhi sizes ds) in Hx; auto. tauto.
    + intros Hx. pose proof (vdiv_range blo bhi sizes ds x Hl HS HD Hx) as Hv.
      exists (vdiv (vsub x blo) sizes).
      assert (Hi : In (vdiv (vsub x blo) sizes) (box_list (map (fun _ => 0) ds) (map (fun d => d - 1) ds))).
      { apply box_list_In; [now rewrite !map_length|exact Hv]. }
      split; [exact Hi|]. destruct (Hlen _ Hi) as [L1 _]. apply box_list_In; [exact L1|].
      apply (sub_box_iff blo bhi sizes ds); auto.
Qed.
