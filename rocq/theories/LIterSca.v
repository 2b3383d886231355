(** The iterator on ScaLAPACK arrays (C14). *)
From Verif Require Export LIterSL.

(** Closed form of the local extent. *)
Definition lext (d bd pg pi : Z) : Z :=
  d / (bd * pg) * bd + Z.max 0 (Z.min bd (d mod (bd * pg) - pi * bd)).

Lemma div_div_mod j bd pg : 1 <= bd -> 1 <= pg ->
  (j / bd) mod pg = (j mod (bd * pg)) / bd.
Proof.
  intros Hb Hp. assert (0 < bd * pg) by nia.
  rewrite (Z.div_mod j (bd * pg)) at 1 by lia.
  replace (bd * pg * (j / (bd * pg)) + j mod (bd * pg)) with (j mod (bd * pg) + pg * (j / (bd * pg)) * bd) by ring.
  rewrite Z.div_add by lia. rewrite (Z.mul_comm pg), Z.mod_add by lia. apply Z.mod_small.
  pose proof (Z.mod_pos_bound j (bd * pg) ltac:(lia)). split; [apply Z.div_pos; lia|].
  apply Z.div_lt_upper_bound; lia.
Qed.

Lemma lext_step d bd pg pi : 0 <= d -> 1 <= bd -> 1 <= pg -> 0 <= pi < pg ->
  lext (d + 1) bd pg pi = lext d bd pg pi + (if (d / bd) mod pg =? pi then 1 else 0).
Proof.
  intros Hd Hb Hp Hi. rewrite div_div_mod by lia. unfold lext.
  assert (HP : 0 < bd * pg) by nia.
  pose proof (Z.div_mod d (bd * pg) ltac:(lia)) as E. pose proof (Z.mod_pos_bound d (bd * pg) ltac:(lia)) as B.
  set (r := d mod (bd * pg)) in *. set (q := d / (bd * pg)) in *.
  pose proof (Z.div_mod r bd ltac:(lia)) as E2. pose proof (Z.mod_pos_bound r bd ltac:(lia)) as B2.
  destruct (Z.eq_dec (r + 1) (bd * pg)) as [HE|HE].
  - assert (H1 : (d + 1) / (bd * pg) = q + 1).
    { replace (d + 1) with ((q + 1) * (bd * pg)) by lia. apply Z.div_mul. lia. }
    assert (H2 : (d + 1) mod (bd * pg) = 0).
    { replace (d + 1) with ((q + 1) * (bd * pg)) by lia. apply Z.mod_mul. lia. }
    rewrite H1, H2.
    assert (H3 : r / bd = pg - 1).
    { symmetry. apply Z.div_unique with (bd - 1); lia. }
    rewrite H3. destruct (Z.eqb_spec (pg - 1) pi); nia.
  - assert (H1 : (d + 1) / (bd * pg) = q).
    { symmetry. apply Z.div_unique with (r + 1); lia. }
    assert (H2 : (d + 1) mod (bd * pg) = r + 1).
    { symmetry. apply Z.mod_unique with q; lia. }
    rewrite H1, H2. destruct (Z.eqb_spec (r / bd) pi); nia.
Qed.

Lemma local_extent_lext d bd pg pi : 0 <= d -> 1 <= bd -> 1 <= pg -> 0 <= pi < pg ->
  local_extent d bd pg pi = lext d bd pg pi.
Proof.
  intros Hd Hb Hp Hi. unfold local_extent. rewrite <- (Z2Nat.id d) at 2 by lia.
  generalize (Z.to_nat d) as n. clear d Hd. induction n as [|n IH].
  - cbn [count_upto]. change (Z.of_nat 0) with 0. unfold lext. rewrite Z.div_0_l, Z.mod_0_l by nia. nia.
  - cbn [count_upto]. rewrite IH. replace (Z.of_nat (S n)) with (Z.of_nat n + 1) by lia.
    rewrite lext_step by lia. reflexivity.
Qed.

Lemma sl_local_ld_spec d bd pg pi : 1 <= d -> 1 <= bd -> 1 <= pg -> 0 <= pi < pg ->
  sl_local_ld d bd pg pi = Some (local_extent d bd pg pi).
Proof.
  intros Hd Hb Hp Hi. rewrite local_extent_lext by lia. unfold sl_local_ld, cdiv, cmod, lext.
  assert (HP : 0 < bd * pg) by nia.
  destruct (Z.eqb_spec (bd * pg) 0); [lia|]. destruct (Z.eqb_spec bd 0); [lia|].
  rewrite (Z.quot_div_nonneg d) by lia.
  pose proof (Z.div_mod d (bd * pg) ltac:(lia)) as E. pose proof (Z.mod_pos_bound d (bd * pg) ltac:(lia)) as B.
  replace (d - d / (bd * pg) * (bd * pg)) with (d mod (bd * pg)) by lia.
  rewrite Z.quot_div_nonneg, !Z.rem_mod_nonneg by lia. f_equal. f_equal.
  set (r := d mod (bd * pg)) in *. set (q := d / (bd * pg)) in *.
  pose proof (Z.div_mod r bd ltac:(lia)) as E2. pose proof (Z.mod_pos_bound r bd ltac:(lia)) as B2.
  destruct (Z.ltb_spec 0 r).
  - destruct (Z.ltb_spec pi (r / bd)); [nia|]. destruct (Z.eqb_spec pi (r / bd)); [|nia].
    subst pi. lia.
  - assert (r = 0) by lia. rewrite H0 in *. replace d with (q * pg * bd) by lia. rewrite Z.mod_mul by lia. nia.
Qed.

Lemma bd_block_pos d bd i x : 1 <= bd -> 0 <= i -> i * bd + 1 <= x <= Z.min ((i + 1) * bd) d ->
  (x - 1) / bd = i /\ (x - 1) mod bd = x - 1 - i * bd.
Proof.
  intros Hb Hi Hx. split.
  - symmetry. apply Z.div_unique with (x - 1 - i * bd); lia.
  - symmetry. apply Z.mod_unique with i; lia.
Qed.

(** Offset and leading dimensions the iterator computes. *)
Lemma sl_offset_ld_spec ds bds grid pc is clo j :
  ds <> [] -> valid_bdims ds bds -> length grid = length ds -> length is = length ds ->
  in_range0 grid pc -> Forall (fun i => 0 <= i) is ->
  in_block (bd_axes ds bds) is clo ->
  exists ld, sl_offset_ld ds bds grid pc (blo (bd_axes ds bds) is) clo j =
      Some (j * lin (local_extents ds bds grid pc) (local_coords bds grid clo), ld) /\
    forall k, length k = length ds -> lin ld k = lin (local_extents ds bds grid pc) k.
Proof.
  revert bds grid pc is clo j. induction ds as [|d ds IH]; intros bds grid pc is clo j Hne HV HL HLi HR HI HB; [congruence|].
  destruct bds as [|b bds]; cbn [valid_bdims] in HV; [tauto|]. destruct HV as (Hd & Hb & HV).
  destruct grid as [|pg grid]; [discriminate|]. destruct pc as [|pi pc]; cbn [in_range0] in HR; [tauto|].
  destruct HR as [Hpi HR]. unfold in_block in HB. cbn [bd_axes] in *.
  destruct is as [|i is]; [discriminate|]. cbn [blo bhi] in HB.
  destruct clo as [|c clo]; cbn [in_box] in HB; [tauto|]. destruct HB as [HC HB]. cbn [bd_axis alo ahi] in HC.
  inversion HI as [|? ? Hi HI']; subst.
  destruct (bd_block_pos d b i c Hb Hi HC) as [D1 D2].
  assert (EQ : cdiv (i * b + 1 - 1) (b * pg) = Some (i / pg)).
  { unfold cdiv. destruct (Z.eqb_spec (b * pg) 0); [nia|]. rewrite Z.quot_div_nonneg by nia.
    f_equal. replace (i * b + 1 - 1) with (b * i) by ring. rewrite Z.div_mul_cancel_l by lia. reflexivity. }
  cbn [blo bd_axis alo local_extents local_coords]. rewrite D1, D2.
  destruct ds as [|d' ds].
  - destruct bds as [|]; [|cbn in HV; tauto]. destruct grid; [|discriminate]. destruct pc; [|cbn in HR; tauto].
    destruct is; [|discriminate]. destruct clo; [|cbn in HB; tauto].
    cbn [bd_axes blo sl_offset_ld local_coords]. rewrite EQ. exists []. split.
    + f_equal. f_equal. cbn [lin]. ring.
    + intros k Hk. destruct k as [|k0 [|k1 k]]; try discriminate. reflexivity.
  - destruct bds as [|b' bds]; [cbn in HV; tauto|]. destruct grid as [|pg' grid]; [discriminate|].
    destruct pc as [|pi' pc]; [cbn in HR; tauto|]. destruct is as [|i' is]; [discriminate|].
    destruct clo as [|c' clo]; [cbn in HB; tauto|].
    destruct (IH (b' :: bds) (pg' :: grid) (pi' :: pc) (i' :: is) (c' :: clo) (j * local_extent d b pg pi))
      as (ld & E & K); auto; try discriminate.
    assert (EU : sl_offset_ld (d :: d' :: ds) (b :: b' :: bds) (pg :: pg' :: grid) (pi :: pi' :: pc)
              (i * b + 1 :: blo (bd_axes (d' :: ds) (b' :: bds)) (i' :: is)) (c :: c' :: clo) j =
       (do ld <- sl_local_ld d b pg pi;
        do q <- cdiv (i * b + 1 - 1) (b * pg);
        do r <- sl_offset_ld (d' :: ds) (b' :: bds) (pg' :: grid) (pi' :: pc)
                  (blo (bd_axes (d' :: ds) (b' :: bds)) (i' :: is)) (c' :: clo) (j * ld);
        Some ((c - (i * b + 1) + q * b) * j + fst r, ld :: snd r))) by reflexivity.
    rewrite EU, sl_local_ld_spec, EQ, E by lia. clear EU. cbn [fst snd].
    exists (local_extent d b pg pi :: ld). split.
    + f_equal. f_equal. cbn [lin local_coords local_extents]. ring.
    + intros k Hk. destruct k as [|k0 [|k1 k]]; try discriminate.
      specialize (K (k1 :: k) ltac:(cbn in *; lia)).
      remember (k1 :: k) as kk. cbn [lin]. rewrite K. subst kk. reflexivity.
Qed.

Lemma local_coords_shift ds bds grid is x y :
  valid_bdims ds bds -> length grid = length ds -> Forall (fun i => 0 <= i) is ->
  in_block (bd_axes ds bds) is x -> in_block (bd_axes ds bds) is y ->
  local_coords bds grid x = vadd (local_coords bds grid y) (vsub x y).
Proof.
  unfold in_block.
  revert bds grid is x y. induction ds as [|d ds IH]; intros [|b bds] [|pg grid] is [|a x] [|c y] HV HL HI HX HY;
    try discriminate; try (destruct is; cbn in *; tauto); try reflexivity; try (cbn in HV; tauto).
  destruct is as [|i is]; [cbn in *; tauto|].
  cbn [bd_axes blo bhi in_box valid_bdims bd_axis alo ahi] in HX, HY, HV.
  destruct HX as [HX HX'], HY as [HY HY'], HV as (Hd & Hb & HV).
  inversion HI as [|? ? Hi HI']; subst.
  destruct (bd_block_pos d b i a Hb Hi HX) as [D1 D2]. destruct (bd_block_pos d b i c Hb Hi HY) as [D3 D4].
  cbn [local_coords vsub vadd]. rewrite D1, D2, D3, D4. f_equal; [ring|].
  eapply IH; eauto.
Qed.

Lemma grid_coords_block ds bds grid is x :
  valid_bdims ds bds -> length grid = length ds -> Forall (fun i => 0 <= i) is ->
  in_block (bd_axes ds bds) is x -> grid_coords bds grid x = vmod grid is.
Proof.
  unfold in_block.
  revert bds grid is x. induction ds as [|d ds IH]; intros [|b bds] [|pg grid] is [|a x] HV HL HI HX;
    try discriminate; try (destruct is; cbn in *; tauto); try reflexivity; try (cbn in HV; tauto).
  destruct is as [|i is]; [cbn in *; tauto|].
  cbn [bd_axes blo bhi in_box valid_bdims bd_axis alo ahi] in HX, HV.
  destruct HX as [HX HX'], HV as (Hd & Hb & HV).
  inversion HI as [|? ? Hi HI']; subst.
  destruct (bd_block_pos d b i a Hb Hi HX) as [D1 D2].
  unfold vmod. cbn [grid_coords combine map fst snd]. rewrite D1. f_equal. eapply IH; eauto.
Qed.

Lemma lin_encode ns is : length is = length ns -> lin ns is = encode ns is.
Proof.
  revert is; induction ns as [|n ns IH]; intros [|i is] H; try discriminate; [reflexivity|].
  destruct is as [|i' is].
  - destruct ns; [|discriminate]. cbn. lia.
  - specialize (IH (i' :: is) ltac:(cbn in *; lia)). remember (i' :: is) as l. cbn [encode]. rewrite <- IH.
    subst l. reflexivity.
Qed.

Lemma local_coords_length bds grid x : length grid = length bds -> length x = length bds ->
  length (local_coords bds grid x) = length x.
Proof.
  revert grid x. induction bds as [|b bds IH]; intros [|n grid] [|a x]; cbn; try discriminate; intros; auto.
Qed.

Theorem iterate_scalapack a lo hi guess rnd nn :
  distr_type (ga_desc a) = SCALAPACK ->
  wf_blocked (ga_desc a) -> wf_grid (ga_nproc a) (ga_desc a) -> ga_group a = None ->
  Forall2 Z.le (nblock (ga_desc a)) (num_blocks (ga_desc a)) ->
  Forall2 Z.le lo hi -> in_array (dims (ga_desc a)) lo -> in_array (dims (ga_desc a)) hi ->
  exists ps fuel0,
    (forall fuel, (fuel0 <= fuel)%nat -> iterate fuel guess rnd nn a lo hi = Some ps) /\
    covers (scalapack_place a) (scalapack_shape a) ps lo hi.
Proof.
  intros HD W WG HG HF Hle Hlo Hhi. assert (WB : wf_blocks (ga_desc a)) by (left; exact W).
  apply iterate_sl; auto.
  intros p k Hp Hk HH EO. unfold sl_piece. cbn [sl_pidx sl_index sl_iproc sl_offset].
  pose proof WG as (_ & HNB & HLn & Hpos & HNp).
  assert (1 <= ga_nproc a) by (rewrite <- HNp; apply zprod_pos; auto).
  rewrite (sl_nproc a WB).
  assert (E : cmod p (ga_nproc a) = Some p).
  { unfold cmod. destruct (Z.eqb_spec (ga_nproc a) 0); [lia|]. rewrite Z.rem_small by lia. reflexivity. }
  unfold num_rstrctd. rewrite (wf_blocks_unrestricted _ WB). cbn [length Z.of_nat Z.ltb Z.compare].
  rewrite E. unfold ptr_owner, abs_rank. rewrite HG, HD.
  set (g := ga_desc a) in *. pose proof (in_array_length _ _ Hlo) as Llo.
  destruct (bx_length g k WB) as [L1 L2].
  destruct (overlap_true _ _ lo hi (bx_le g k WB Hk) Hle ltac:(lia) EO) as [P1 P2].
  set (clo := patch_lo (fst (bx g k)) (snd (bx g k)) lo) in *.
  assert (Hc : in_box (fst (bx g k)) (snd (bx g k)) clo) by (apply P2, lo_in_box, P1).
  assert (HA : axes_of g = bd_axes (dims g) (block_dims g)) by (unfold axes_of; rewrite HD; reflexivity).
  pose proof W as (_ & Hne & HV & HGr & _). fold g in Hne, HV, HGr.
  destruct (sl_pos a WB) as [Hnb HLb]. fold g in Hnb, HLb.
  pose proof (decode_range _ _ Hnb Hk) as Hr.
  assert (Hin : Forall (fun i => 0 <= i) (decode (num_blocks g) k)) by (eapply in_range0_nonneg; eauto).
  pose proof (proj1 (sl_home a WG k p Hk) HH) as [_ HM]. fold g in HM.
  assert (Hpr : in_range0 (nblock g) (decode (nblock g) p)) by (apply decode_range; auto; lia).
  destruct (sl_offset_ld_spec (dims g) (block_dims g) (nblock g) (decode (nblock g) p)
              (decode (num_blocks g) k) clo 1) as (ld & EL & KL); auto.
  { rewrite decode_length. exact HLb. }
  { unfold in_block. rewrite <- HA. exact Hc. }
  unfold bx at 1. cbn [fst]. rewrite HA. fold (bx g k). rewrite EL.
  eexists. split; [reflexivity|]. cbn [ip_lo ip_hi ip_seg ip_proc ip_off ip_ld fst snd].
  split; [reflexivity|]. split; [reflexivity|]. split; [reflexivity|]. split.
  2:{ destruct (in_box_len _ _ _ Hc) as [C1 C2]. eexists. split.
      - exists clo. split; [eapply bx_inside; eauto|]. reflexivity.
      - fold g. intros t Ht. rewrite KL by lia. do 2 f_equal.
        rewrite <- HM. symmetry. eapply grid_coords_block; eauto. unfold in_block. rewrite <- HA. exact Hc. }
  intros x Hx. pose proof (proj1 (proj1 (P2 x) Hx)) as Hxb.
  destruct (in_box_len _ _ _ Hxb) as [X1 X2]. destruct (in_box_len _ _ _ Hc) as [C1 C2].
  assert (GC : grid_coords (block_dims g) (nblock g) x = decode (nblock g) p).
  { rewrite <- HM. eapply grid_coords_block; eauto. unfold in_block. rewrite <- HA. exact Hxb. }
  unfold scalapack_place. fold g. cbv zeta. rewrite GC. cbn [fst snd].
  split; [eapply bx_inside; eauto|]. split; [exact Hpr|]. split.
  { rewrite lin_encode by (rewrite decode_length; reflexivity). rewrite encode_decode; auto. lia. }
  assert (LBd : length (block_dims g) = length (dims g)).
  { clear - HV. revert HV. generalize (block_dims g). induction (dims g) as [|d ds IH]; intros [|b bs]; cbn; try tauto.
    intros (_ & _ & H). f_equal. auto. }
  rewrite KL by (rewrite vsub_length; lia).
  rewrite (local_coords_shift (dims g) (block_dims g) (nblock g) (decode (num_blocks g) k) x clo); auto.
  2:{ unfold in_block. rewrite <- HA. exact Hxb. }
  2:{ unfold in_block. rewrite <- HA. exact Hc. }
  rewrite lin_add; [ring|]. rewrite local_coords_length, vsub_length by lia. lia.
Qed.
