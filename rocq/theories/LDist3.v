(** Distribution comparison for blocked arrays; floating point guess. *)
From Verif Require Export LDist2.
From Coq Require Import QArith Qround Lqa.
Open Scope Z_scope.

Lemma map_axes_same_blocks ds nb m1 m2 is :
  valid_maps ds nb m1 -> valid_maps ds nb m2 ->
  (forall i, (i < Z.to_nat (zsum nb))%nat -> nth i m1 0 = nth i m2 0) ->
  in_range0 nb is ->
  blo (map_axes ds nb m1) is = blo (map_axes ds nb m2) is /\
  bhi (map_axes ds nb m1) is = bhi (map_axes ds nb m2) is.
Proof.
  revert nb m1 m2 is; induction ds as [|d ds IH]; intros [|n nb] m1 m2 [|i is];
    cbn [valid_maps in_range0 map_axes blo bhi]; try tauto.
  intros [H1 H1'] [H2 H2'] Hn [Hi Hr]. cbn [zsum] in Hn.
  pose proof (valid_maps_pos _ _ _ H1') as Hpos. pose proof (zsum_nonneg _ Hpos).
  destruct (IH nb (skipn (Z.to_nat n) m1) (skipn (Z.to_nat n) m2) is) as [E1 E2]; auto.
  { intros j Hj. rewrite !nth_skipn. apply Hn. lia. }
  unfold zdrop in *. rewrite E1, E2. cbn [map_axis alo ahi].
  rewrite (Hn (Z.to_nat i)) by lia.
  destruct (Z.eqb_spec i (n - 1)); [auto|]. rewrite (Hn (Z.to_nat (i + 1))) by lia. auto.
Qed.

Lemma compare_distr_sound_blocked a b :
  wf_blocked a \/ wf_strict_tiled_irreg a -> wf_blocked b \/ wf_strict_tiled_irreg b ->
  compare_distr a b = true ->
  num_blocks a = num_blocks b /\
  forall k, 0 <= k < zprod (num_blocks a) -> distribution a k = distribution b k.
Proof.
  intros Ha Hb Hc. unfold compare_distr in Hc. rewrite !andb_true_iff in Hc.
  destruct Hc as (((Hd & HT) & Hm) & _). apply same_list_eq in Hd.
  assert (distr_type a = distr_type b) as ET by (destruct (distr_type a), (distr_type b); auto; discriminate).
  destruct Ha as [Ha|Ha].
  - assert (block_dims a = block_dims b /\ num_blocks a = num_blocks b) as [Eb En].
    { destruct Ha as ([E|[E|E]] & _); rewrite E in Hm; rewrite ?andb_true_iff in Hm;
        split; apply same_list_eq; tauto. }
    split; auto. intros k Hk.
    destruct Hb as [Hb|Hb].
    2:{ destruct Hb as [(E & _) _]. destruct Ha as ([E'|[E'|E']] & _); congruence. }
    rewrite !blocked_owns by (auto; congruence).
    rewrite En. unfold axes_of. rewrite ET, Eb, Hd.
    destruct Ha as ([E'|[E'|E']] & _); rewrite ET in E'; rewrite E'; auto.
  - destruct Hb as [Hb|Hb].
    { destruct Ha as [(E & _) _]. destruct Hb as ([E'|[E'|E']] & _); congruence. }
    destruct Ha as [Ha Hsa], Hb as [Hb Hsb].
    pose proof Ha as (HTa & Hnea & HVa & Hca). pose proof Hb as (HTb & Hneb & HVb & Hcb).
    rewrite HTa, HTb in Hm. rewrite !andb_true_iff in Hm. destruct Hm as ((Hz & Hs) & _).
    assert (zsum (num_blocks a) = zsum (num_blocks b)) as Hz' by lia.
    pose proof (strict_maps_len _ _ _ Hsa) as [_ La].
    pose proof (strict_maps_len _ _ _ Hsb) as [_ Lb].
    assert (forall i, (i < Z.to_nat (zsum (num_blocks a)))%nat -> nth i (mapc a) 0 = nth i (mapc b) 0) as Hn.
    { apply same_map_nth; auto; try lia.
      intros i Hi. pose proof (strict_maps_pos _ _ _ Hsa i Hi). lia. }
    rewrite Hd in *.
    assert (num_blocks a = num_blocks b) as Hnb by (eapply strict_maps_same; eauto).
    split; auto. intros k Hk. rewrite !blocked_owns by (auto; congruence).
    rewrite <- Hnb in *. unfold axes_of. rewrite HTa, HTb, Hd, <- Hnb.
    destruct (map_axes_same_blocks (dims b) (num_blocks a) (mapc a) (mapc b) (decode (num_blocks a) k)) as [E1 E2]; auto.
    { apply decode_range; auto. eapply valid_maps_pos; eauto. }
    congruence.
Qed.

Lemma compare_distr_homes nproc a b k :
  wf_blocked a \/ wf_strict_tiled_irreg a -> wf_blocked b \/ wf_strict_tiled_irreg b ->
  compare_distr a b = true -> block_home nproc a k = block_home nproc b k.
Proof.
  intros Ha Hb Hc. destruct (compare_distr_sound_blocked a b Ha Hb Hc) as [En _].
  unfold compare_distr in Hc. rewrite !andb_true_iff in Hc. destruct Hc as (((_ & HT) & Hm) & _).
  assert (distr_type a = distr_type b) as ET by (destruct (distr_type a), (distr_type b); auto; discriminate).
  assert (distr_type a <> REGULAR) as HR
    by (destruct Ha as [([E|[E|E]] & _)|[(E & _) _]]; rewrite E; discriminate).
  unfold block_home. rewrite <- ET, <- En.
  destruct (distr_type a); try congruence; rewrite ?andb_true_iff in Hm;
    assert (nblock a = nblock b) as -> by (apply same_list_eq; tauto); reflexivity.
Qed.

(** ---- the floating point guess ---- *)
(** Any rounding with relative error at most 2^-53 (IEEE double without
    underflow).  base.c 2771-2772: scale = (double)nblock/(double)dims;
    base.c 731: candidate = (int)(scale*elem). *)
Definition rounds (rnd : Q -> Q) : Prop :=
  forall x, (0 <= x -> x * (1 - (1 # 2 ^ 53)) <= rnd x <= x * (1 + (1 # 2 ^ 53)))%Q.

Definition float_guess (rnd : Q -> Q) (d n s : Z) : Z :=
  Qfloor (rnd (rnd (inject_Z n / inject_Z d) * inject_Z s)%Q).

Lemma float_guess_ok rnd d n s :
  rounds rnd -> 1 <= n < 2 ^ 51 -> 1 <= s <= d -> 0 <= float_guess rnd d n s <= n.
Proof.
  intros Hr Hn Hs. unfold float_guess.
  assert (0 < inject_Z d)%Q as Hd by (change 0%Q with (inject_Z 0); rewrite <- Zlt_Qlt; lia).
  assert (0 <= inject_Z n)%Q as Hn0 by (change 0%Q with (inject_Z 0); rewrite <- Zle_Qle; lia).
  assert (0 <= inject_Z s)%Q as Hs0 by (change 0%Q with (inject_Z 0); rewrite <- Zle_Qle; lia).
  assert (inject_Z s <= inject_Z d)%Q as Hsd by (rewrite <- Zle_Qle; lia).
  assert (inject_Z n <= inject_Z (2 ^ 51 - 1))%Q as Hnb by (rewrite <- Zle_Qle; lia).
  remember (inject_Z n / inject_Z d)%Q as q eqn:Eq.
  assert (0 <= q)%Q as Hq0 by (rewrite Eq; apply Qle_shift_div_l; lra).
  assert (q * inject_Z d == inject_Z n)%Q as Hqd by (rewrite Eq; field; lra).
  destruct (Hr q Hq0) as [L1 U1].
  set (u := (1 # 2 ^ 53)%Q) in *.
  assert (forall x, (0 <= x -> x * (1 - u) <= rnd x <= x * (1 + u))%Q) as Hr' by exact Hr.
  assert (0 < u)%Q as Hu by reflexivity.
  assert (u < 1)%Q as Hu1 by reflexivity.
  assert (inject_Z (2 ^ 51 - 1) * (2 * u + u * u) < 1)%Q as Hbig by reflexivity.
  clearbody u.
  assert (0 <= rnd q)%Q as Hr0.
  { eapply Qle_trans; [|exact L1]. apply Qmult_le_0_compat; lra. }
  assert (0 <= rnd q * inject_Z s)%Q as Hp0 by (apply Qmult_le_0_compat; auto).
  destruct (Hr' _ Hp0) as [L2 U2].
  assert (0 <= rnd (rnd q * inject_Z s))%Q as Hz.
  { eapply Qle_trans; [|exact L2]. apply Qmult_le_0_compat; lra. }
  split.
  - change 0 with (Qfloor 0). apply Qfloor_resp_le; auto.
  - assert (rnd (rnd q * inject_Z s) < inject_Z (n + 1))%Q as HU.
    { eapply Qle_lt_trans; [exact U2|].
      assert (rnd q * inject_Z s <= inject_Z n * (1 + u))%Q as A.
      { eapply Qle_trans with (rnd q * inject_Z d)%Q.
        - rewrite !(Qmult_comm (rnd q)). apply Qmult_le_compat_r; auto.
        - rewrite <- Hqd. setoid_replace (q * inject_Z d * (1 + u))%Q with (q * (1 + u) * inject_Z d)%Q by ring.
          apply Qmult_le_compat_r; lra. }
      eapply Qle_lt_trans with (inject_Z n * (1 + u) * (1 + u))%Q.
      { apply Qmult_le_compat_r; lra. }
      rewrite inject_Z_plus.
      setoid_replace (inject_Z n * (1 + u) * (1 + u))%Q with (inject_Z n + inject_Z n * (2 * u + u * u))%Q by ring.
      assert (inject_Z n * (2 * u + u * u) < 1)%Q.
      { eapply Qle_lt_trans with (inject_Z (2 ^ 51 - 1) * (2 * u + u * u))%Q.
        - apply Qmult_le_compat_r; auto. assert (0 <= u * u)%Q by (apply Qmult_le_0_compat; lra). lra.
        - exact Hbig. }
      change (inject_Z 1) with 1%Q. lra. }
    pose proof (Qfloor_le (rnd (rnd q * inject_Z s)%Q)) as HF.
    assert (inject_Z (Qfloor (rnd (rnd q * inject_Z s)%Q)) < inject_Z (n + 1))%Q as HL by (eapply Qle_lt_trans; eauto).
    rewrite <- Zlt_Qlt in HL. lia.
Qed.

(** The code looks at the guess only for the actual block counts, so bounded
    block counts suffice. *)
Definition cut_guess (guess : Z -> Z -> Z -> Z) (d n s : Z) : Z :=
  if n <? 2 ^ 51 then guess d n s else n.

Lemma cut_good rnd : rounds rnd -> good_guess (cut_guess (float_guess rnd)).
Proof.
  intros Hr d n s Hn Hs. unfold cut_guess. destruct (Z.ltb_spec n (2 ^ 51)); [|lia].
  apply float_guess_ok; auto.
Qed.

Lemma findblocks_cut guess ds nb m x :
  Forall (fun n => n < 2 ^ 51) nb ->
  findblocks (cut_guess guess) ds nb m x = findblocks guess ds nb m x.
Proof.
  intros HF; revert ds m x; induction HF as [|n nb Hn HF IH]; intros [|d ds] m [|x xs]; cbn [findblocks]; auto.
  unfold cut_guess at 1. destruct (Z.ltb_spec n (2 ^ 51)); [|lia].
  rewrite IH. auto.
Qed.

Definition small_blocks (g : gadesc) : Prop :=
  Forall (fun n => n < 2 ^ 51) (nblock g) /\ Forall (fun n => n < 2 ^ 51) (num_blocks g).

Lemma locate_cut guess g x : small_blocks g ->
  locate (cut_guess guess) g x = locate guess g x.
Proof.
  intros [H1 H2]. unfold locate. destruct (distr_type g); rewrite ?findblocks_cut by auto; auto.
Qed.

Lemma locate_region_cut guess g lo hi : small_blocks g ->
  locate_region (cut_guess guess) g lo hi = locate_region guess g lo hi.
Proof.
  intros [H1 H2]. unfold locate_region, locate_region_map.
  destruct (distr_type g); rewrite ?findblocks_cut by auto; auto.
Qed.

Lemma rounds_id : rounds (fun x => x).
Proof.
  intros x Hx. set (u := (1 # 2 ^ 53)%Q). assert (0 <= u)%Q as Hu by (unfold u; discriminate).
  clearbody u. assert (0 <= x * u)%Q by (apply Qmult_le_0_compat; auto).
  split; lra.
Qed.
