(** Lemmas: the local pieces of a patch; straight copies. *)
From Verif Require Import LRadix LStrided LIterReg LIterReg3 LIterSca LStore LXfer LXfer2 LLoc LAccess LSelect LSelect2.
From Verif Require Export LCpatch.
Open Scope Z_scope.

(** ---- pieces ---- *)
Definition bxq (q : lpiece) := (lp_lo q, lp_hi q).
Definition cut (P : list Z -> Prop) (q : lpiece) (l : list lpiece) : Prop :=
  (l = [] /\ forall x, in_box (lp_lo q) (lp_hi q) x -> P x -> False) \/
  exists q', l = [q'] /\ forall x, in_box (lp_lo q') (lp_hi q') x <-> in_box (lp_lo q) (lp_hi q) x /\ P x.

Lemma cut_index P ps ls : Forall2 (cut P) ps ls ->
  exists ix : nat -> nat,
    (forall j j' p p', nth_error (concat ls) j = Some p -> nth_error (concat ls) j' = Some p' -> ix j = ix j' -> j = j') /\
    (forall j p, nth_error (concat ls) j = Some p ->
       exists q, nth_error ps (ix j) = Some q /\ forall x, in_box (lp_lo p) (lp_hi p) x <-> in_box (lp_lo q) (lp_hi q) x /\ P x) /\
    (forall i q x, nth_error ps i = Some q -> in_box (lp_lo q) (lp_hi q) x -> P x ->
       exists j p, nth_error (concat ls) j = Some p /\ in_box (lp_lo p) (lp_hi p) x).
Proof.
  induction 1 as [|q l ps ls C F (ix & I1 & I2 & I3)].
  - exists (fun j => j). split; [auto|]. split; [intros [|j] p; discriminate|]. intros [|i] q x; discriminate.
  - destruct C as [[-> HN]|(q' & -> & HQ)]; cbn [concat app].
    + exists (fun j => S (ix j)). split; [intros j j' p p' E E' H; injection H; eauto|]. split; [exact I2|].
      intros [|i] r x E X Y; cbn in E; [injection E as <-; destruct (HN x X Y)|eauto].
    + exists (fun j => match j with O => O | S j => S (ix j) end). split.
      { intros [|j] [|j'] p p' E E' H; try discriminate; [reflexivity|]. injection H as H. f_equal. eauto. }
      split.
      { intros [|j] p E; cbn in E; [injection E as <-; exists q; split; [reflexivity|exact HQ]|]. exact (I2 j p E). }
      intros [|i] r x E X Y; cbn in E.
      * injection E as <-. exists O, q'. split; [reflexivity|]. apply HQ. auto.
      * destruct (I3 i r x E X Y) as (j & p & Ej & B). exists (S j), p. auto.
Qed.

Lemma tiles_cut (S0 P : list Z -> Prop) ps ls : tiles ps bxq S0 -> Forall2 (cut P) ps ls -> tiles (concat ls) bxq (fun x => P x /\ S0 x).
Proof.
  intros [T1 T2] F. destruct (cut_index P ps ls F) as (ix & I1 & I2 & I3). split.
  - intros j p E x X. cbn [bxq fst snd] in X. destruct (I2 j p E) as (q & Eq & HQ). destruct (proj1 (HQ x) X) as [X' Y]. split; [exact Y|]. exact (T1 _ _ Eq x X').
  - intros x [Y X]. destruct (T2 x X) as (i & q & Eq & B & U). destruct (I3 i q x Eq B Y) as (j & p & Ej & Bj).
    exists j, p. split; [exact Ej|]. split; [exact Bj|]. intros j' p' E' B'. cbn [bxq fst snd] in *.
    destruct (I2 j p Ej) as (r & Er & HR). destruct (I2 j' p' E') as (r' & Er' & HR').
    apply (I1 j' j p' p E' Ej). rewrite (U _ _ Er (proj1 (proj1 (HR x) Bj))), (U _ _ Er' (proj1 (proj1 (HR' x) B'))). reflexivity.
Qed.

(** What the pieces of a patch have to be. *)
Definition patch_cover (placed : list Z -> place -> Prop) (shape : list Z -> Prop) (plo phi : list Z) (w : Z) (ps : list lpiece) : Prop :=
  tiles ps bxq (fun x => in_box plo phi x /\ exists ad, placed x (w, ad)) /\
  forall q, In q ps ->
    Forall2 Z.le (lp_lo q) (lp_hi q) /\ lp_seg q = w /\
    (forall x, in_box (lp_lo q) (lp_hi q) x -> placed x (w, lp_off q + lin (lp_ld q) (vsub x (lp_lo q)))) /\
    (length (lp_lo q) - 1 <= length (lp_ld q))%nat /\
    ld_shape shape (lp_lo q) (lp_hi q) (lp_ld q).

Lemma sub_extents blo : forall bhi lo hi, in_box blo bhi lo -> in_box blo bhi hi -> Forall2 Z.le (extents lo hi) (extents blo bhi).
Proof.
  induction blo as [|b blo IH]; intros [|c bhi] [|l lo] [|h hi]; cbn; try tauto; [constructor|].
  intros [A B] [C D]. constructor; [lia|auto].
Qed.
Lemma le_trans_list a : forall b c, Forall2 Z.le a b -> Forall2 Z.le b c -> Forall2 Z.le a c.
Proof. induction a; intros b c H1 H2; inversion H1; subst; inversion H2; subst; constructor; [lia|eauto]. Qed.

Lemma access_sub_ld guess near a lo hi p blo bhi w off ld :
  good_guess guess -> wf_array a -> 0 <= p < ga_nproc a ->
  distribution (ga_desc a) p = Some (blo, bhi) -> in_box blo bhi lo -> in_box blo bhi hi -> Forall2 Z.le lo hi ->
  abs_rank a p = Some w -> near w = true ->
  access_ptr guess near a lo hi = Some (w, off, ld) ->
  forall k, length k = length lo -> lin ld k = lin (padded blo bhi (ga_width a)) k.
Proof.
  intros HG WA Hp ED Hlo Hhi Hle EA HN.
  unfold access_ptr.
  rewrite (corner_owner_in guess near a lo p blo bhi w) by auto.
  rewrite (corner_owner_in guess near a hi p blo bhi w) by auto.
  rewrite (proj2 (le_all_true lo hi (Forall2_len _ _ _ Hle)) Hle).
  pose proof WA as (WR & HW & HW0 & HGr & HE). rewrite (grp_rank_abs a p w HGr EA).
  destruct (reg_location a p blo bhi lo WA Hp ED Hlo) as (rank & q & ld' & E1 & E2 & E3 & E4).
  assert (ER : (if 0 <? num_rstrctd (ga_desc a) then zget (rank_rstrctd (ga_desc a)) p else Some p) = Some rank).
  { assert (0 <= num_rstrctd (ga_desc a)) by (unfold num_rstrctd; lia).
    destruct (Z.eqb_spec (num_rstrctd (ga_desc a)) 0), (Z.ltb_spec 0 (num_rstrctd (ga_desc a))); try lia; exact E1. }
  rewrite ER, E3. intros [= _ _ <-]. intros k Hk. apply E4. destruct (in_box_len _ _ _ Hlo). lia.
Qed.

Lemma ld_long n : forall ld sh : list Z, firstn n ld = firstn n sh -> (n <= length sh)%nat -> (n <= length ld)%nat.
Proof. intros ld sh E H. apply (f_equal (@length Z)) in E. rewrite !firstn_length in E. lia. Qed.
Lemma ld_shape_long shape lo hi ld : Forall2 Z.le lo hi -> ld_shape shape lo hi ld -> (length lo - 1 <= length ld)%nat.
Proof.
  intros HL (sh & _ & H1 & H2). pose proof (Forall2_len _ _ _ H1). destruct (LXfer2.extents_pos _ _ HL).
  apply (ld_long _ ld sh); [exact H2|lia].
Qed.

Lemma reg_place_unique a x p w blo bhi : wf_array a -> 0 <= p < ga_nproc a -> abs_rank a p = Some w ->
  distribution (ga_desc a) p = Some (blo, bhi) -> ((exists ad, reg_place a x (w, ad)) <-> in_box blo bhi x).
Proof.
  intros WA Hp EW ED. split.
  - intros (ad & p' & l & h & Hp' & E & Hx & Er & _). cbn [fst] in Er.
    assert (p' = p) as -> by (eapply abs_rank_inj; [apply WA|exact Er|exact EW]). congruence.
  - intros Hx. eexists. exists p, blo, bhi. split; [exact Hp|]. split; [exact ED|]. split; [exact Hx|]. split; [exact EW|]. cbn [snd]. reflexivity.
Qed.

Lemma owns_dims_dims ds : forall nb m k lo hi, owns_dims ds nb m k = Some (lo, hi) -> length lo = length ds.
Proof.
  induction ds as [|d ds IH]; intros [|n nb] m k lo hi; cbn [owns_dims]; try discriminate.
  - intros [= <- <-]. reflexivity.
  - destruct (cmod k n); [|discriminate]. destruct (cdiv k n) as [k'|]; [|discriminate].
    destruct (zget m _); [|discriminate]. match goal with |- match ?e with _ => _ end = _ -> _ => destruct e; [|discriminate] end.
    destruct (owns_dims ds nb (zdrop n m) k') as [[lo' hi']|] eqn:E; [|discriminate].
    intros [= <- <-]. cbn. f_equal. eapply IH; eauto.
Qed.
Lemma dist_len_dims g k lo hi : distr_type g = REGULAR -> distribution g k = Some (lo, hi) -> length lo = length (dims g).
Proof.
  intros HT. unfold distribution, owns, owns_no_handle. rewrite HT.
  match goal with |- match ?e with _ => _ end = _ -> _ => destruct e; [|discriminate] end.
  repeat match goal with |- (if ?b then _ else _) = _ -> _ => destruct b end;
    try (intros [= <- <-]; now rewrite !map_length); apply owns_dims_dims.
Qed.

Lemma reg_cover guess near a me w plo phi :
  good_guess guess -> wf_array a -> patch_of (dims (ga_desc a)) plo phi -> 0 <= me < ga_nproc a ->
  abs_rank a me = Some w -> near w = true ->
  exists ps, patch_reg guess near a me plo phi = Some ps /\ patch_cover (reg_place a) (reg_shape a) plo phi w ps.
Proof.
  intros HG WA HP Hme EW HN. pose proof WA as (WR & HWl & HW0 & _). pose proof WR as (HT & Hne & _).
  destruct (regular_blocks_inside _ _ _ WR Hme) as (blo & bhi & ED & HI).
  destruct (patch_lens _ _ _ HP) as [P1 P2].
  assert (BL : length blo = length (dims (ga_desc a)) /\ length bhi = length (dims (ga_desc a))).
  { pose proof (dist_len _ _ _ _ HT ED) as L. pose proof (dist_len_dims _ _ _ _ HT ED). lia. }
  unfold patch_reg. rewrite ED. cbn [fst snd].
  pose proof (patch_intersect_spec plo phi blo bhi ltac:(lia) ltac:(lia) ltac:(lia)) as X.
  destruct (patch_intersect plo phi blo bhi) as [[lo hi]|]; cbn [fst snd] in X.
  - destruct X as [Hle HX]. destruct (proj1 (HX lo) (lo_in_box _ _ Hle)) as [A1 A2]. destruct (proj1 (HX hi) (box_refl_hi _ _ Hle)) as [B1 B2].
    destruct (access_ptr_spec guess near a lo hi me blo bhi w HG WA Hme ED A2 B2 Hle EW HN) as (off & ld & EA & HPl).
    cbn [fst snd]. rewrite EA. eexists. split; [reflexivity|]. unfold lpiece_of; cbn [fst snd].
    assert (LS : ld_shape (reg_shape a) lo hi ld).
    { destruct (in_box_len _ _ _ A2). pose proof (box_le _ _ _ A2) as HB.
      apply (lin_ld_shape _ lo hi ld (padded blo bhi (ga_width a))); auto.
      - intros ->. destruct (dims (ga_desc a)); [congruence|cbn in *; lia].
      - exists me, blo, bhi. auto.
      - eapply le_trans_list; [apply (sub_extents blo bhi); auto|]. apply extents_padded; auto; lia.
      - exact (access_sub_ld guess near a lo hi me blo bhi w off ld HG WA Hme ED A2 B2 Hle EW HN EA). }
    split.
    + split.
      * intros [|[|k]] p E; try discriminate. injection E as <-. cbn. intros x Hx. apply HX in Hx as [Hx1 Hx2]. split; [exact Hx1|].
        apply (reg_place_unique a x me w blo bhi WA Hme EW ED), Hx2.
      * intros x [Hx1 Hx2]. apply (reg_place_unique a x me w blo bhi WA Hme EW ED) in Hx2. eexists O, _. split; [reflexivity|]. cbn. split; [apply HX; auto|].
        intros [|[|k]] p E; try discriminate. reflexivity.
    + intros q [<-|[]]. cbn. split; [exact Hle|]. split; [reflexivity|]. split; [exact HPl|]. split; [eapply ld_shape_long; eauto|exact LS].
  - exists []. split; [reflexivity|]. split; [|intros ? []]. split; [intros [|k] p; discriminate|].
    intros x [Hx1 Hx2]. apply (reg_place_unique a x me w blo bhi WA Hme EW ED) in Hx2. destruct (X x Hx1 Hx2).
Qed.

Lemma lin_ld_sub lo hi ld x : in_box lo hi x -> forall y, in_box lo hi y -> length y = length lo ->
  lin ld (vsub y lo) = lin ld (vsub x lo) + lin ld (vsub y x).
Proof.
  intros Hx y Hy HL. destruct (in_box_len _ _ _ Hx), (in_box_len _ _ _ Hy). rewrite <- lin_add by (rewrite !vsub_length; lia).
  f_equal. clear - Hx Hy. revert hi x y Hx Hy. induction lo as [|l lo IH]; intros [|h hi] [|a x] [|b y]; cbn; try tauto.
  intros [A B] [C D]. f_equal; [lia|eauto].
Qed.

Lemma any_layout_dims a wn placed shape : any_layout a wn placed shape -> dims (ga_desc a) <> [].
Proof.
  intros [(W & _)|(_ & [(_ & W & _)|[(_ & W & _)|(_ & W & _)]])].
  - apply wf_array_dims, W.
  - apply W.
  - apply wf_blocks_dims, W.
  - apply W.
Qed.

Definition good_piece (placed : list Z -> place -> Prop) (shape : list Z -> Prop) (w : Z) (q : lpiece) : Prop :=
  Forall2 Z.le (lp_lo q) (lp_hi q) /\ lp_seg q = w /\
  (forall x, in_box (lp_lo q) (lp_hi q) x -> placed x (w, lp_off q + lin (lp_ld q) (vsub x (lp_lo q)))) /\
  (length (lp_lo q) - 1 <= length (lp_ld q))%nat /\
  ld_shape shape (lp_lo q) (lp_hi q) (lp_ld q).

Lemma piece_cut (placed : list Z -> place -> Prop) shape w plo phi q :
  good_piece placed shape w q -> plo <> [] -> length phi = length plo -> length (lp_lo q) = length plo ->
  exists l, patch_piece true plo phi q = Some l /\ cut (in_box plo phi) q l /\ forall q', In q' l -> good_piece placed shape w q'.
Proof.
  intros (QL & ES & HPl & LL & LS) Hne L1 L2. pose proof (Forall2_len _ _ _ QL) as L3. unfold patch_piece.
  pose proof (patch_intersect_spec plo phi (lp_lo q) (lp_hi q) ltac:(lia) ltac:(lia) ltac:(lia)) as X.
  destruct (patch_intersect plo phi (lp_lo q) (lp_hi q)) as [[lo hi]|]; cbn [fst snd] in *.
  2:{ exists []. split; [reflexivity|]. split; [left; split; [reflexivity|intros x A B; exact (X x B A)]|intros ? []]. }
  destruct X as [Hle HX]. destruct (proj1 (HX lo) (lo_in_box _ _ Hle)) as [A1 A2]. destruct (proj1 (HX hi) (box_refl_hi _ _ Hle)) as [B1 B2].
  destruct (in_box_len _ _ _ A2) as [N1 N2].
  rewrite corner_offset_lin; [|intros ->; destruct plo; [congruence|cbn in *; lia]|lia|lia].
  eexists. split; [reflexivity|]. split.
  { right. eexists. split; [reflexivity|]. cbn [lp_lo lp_hi]. intros x. rewrite HX. tauto. }
  intros q' [<-|[]]. unfold good_piece. cbn [lp_lo lp_hi lp_seg lp_off lp_ld]. split; [exact Hle|]. split; [exact ES|]. split.
  { intros x Hx. destruct (proj1 (HX x) Hx) as [X1 X2]. destruct (in_box_len _ _ _ X2).
    rewrite Z.mul_1_l, <- Z.add_assoc, <- (lin_ld_sub (lp_lo q) (lp_hi q) (lp_ld q) lo A2 x X2) by lia. apply HPl, X2. }
  split; [lia|]. destruct LS as (sh & S1 & S2 & S3). exists sh. split; [exact S1|]. split.
  - eapply le_trans_list; [apply (sub_extents (lp_lo q) (lp_hi q)); assumption|exact S2].
  - replace (length lo) with (length (lp_lo q)) by lia. exact S3.
Qed.

Lemma blocks_cover guess near wn a me w plo phi placed shape :
  good_guess guess -> walk_layout a wn placed shape -> patch_of (dims (ga_desc a)) plo phi -> 0 <= me < ga_nproc a ->
  abs_rank a me = Some w -> near w = true ->
  exists ps n, (forall fuel, (n <= fuel)%nat ->
    (do ps <- local_iterate fuel guess near wn a me; do ls <- mapM (patch_piece true plo phi) ps; Some (concat ls)) = Some ps) /\
    patch_cover placed shape plo phi w ps.
Proof.
  intros HG HL HP Hme EW HN.
  destruct (layout_walk guess near wn a me w placed shape HG HL Hme EW HN) as (ps & n & EI & C & LS).
  destruct (patch_lens _ _ _ HP) as [P1 P2]. pose proof (any_layout_dims _ _ _ _ (proj1 HL)) as Hne.
  destruct (mapM_fuel (fun _ q => patch_piece true plo phi q)
      (fun q l => cut (in_box plo phi) q l /\ forall q', In q' l -> good_piece placed shape w q') ps) as (ls & n' & EM & F).
  { intros q Hq. destruct (piece_in_array _ _ _ _ _ C Hq) as (QL & Q1 & Q2). apply in_array_length in Q1.
    destruct C as [_ C]. destruct (C q Hq) as (_ & ES & HPl). specialize (LS q Hq).
    destruct (piece_cut placed shape w plo phi q) as (l & E & X); try lia.
    - split; [exact QL|]. split; [exact ES|]. split; [exact HPl|]. split; [eapply ld_shape_long; eauto|exact LS].
    - intros ->. destruct (dims (ga_desc a)); [congruence|discriminate].
    - exists l, 0%nat. split; [intros; exact E|exact X]. }
  exists (concat ls), (Nat.max n n'). split; [intros fuel Hf; rewrite EI by lia; specialize (EM fuel ltac:(lia)); cbv beta in EM; change (fun q => patch_piece true plo phi q) with (patch_piece true plo phi) in EM; rewrite EM; reflexivity|].
  split.
  - destruct C as [T _].
    assert (TC : tiles (concat ls) bxq (fun x => in_box plo phi x /\ (in_array (dims (ga_desc a)) x /\ exists ad, placed x (w, ad)))).
    { apply (tiles_cut _ _ ps); [exact T|]. clear - F. induction F as [|? ? ? ? [X _]]; constructor; auto. }
    destruct TC as [U1 U2]. split.
    + intros k p E x Hx. destruct (U1 k p E x Hx) as (A & _ & B). auto.
    + intros x [Hx Hq]. apply U2. split; [exact Hx|]. split; [eapply patch_in; eauto|exact Hq].
  - intros q Hq. apply in_concat in Hq as (l & Hl & Hq). clear - F Hl Hq.
    induction F as [|? ? ? ? [_ X] F IH]; [destruct Hl|]. destruct Hl as [->|Hl]; auto. exact (X q Hq).
Qed.

Lemma layout_cover guess near wn (base : bool) a me w plo phi placed shape :
  good_guess guess -> walk_layout a wn placed shape -> patch_of (dims (ga_desc a)) plo phi -> 0 <= me < ga_nproc a ->
  abs_rank a me = Some w -> near w = true -> (base = true \/ distr_type (ga_desc a) = REGULAR) ->
  exists ps n, (forall fuel, (n <= fuel)%nat -> patch_pieces fuel guess near wn base a me plo phi = Some ps) /\
    patch_cover placed shape plo phi w ps.
Proof.
  intros HG HL HP Hme EW HN HB.
  assert (REG : distr_type (ga_desc a) = REGULAR -> wf_array a /\ placed = reg_place a /\ shape = reg_shape a).
  { intros T. destruct HL as [[X|(_ & X)] _]; [exact X|]. exfalso.
    destruct X as [(T' & _)|[([T'|T'] & _)|(T' & _)]]; congruence. }
  destruct (blocks_cover guess near wn a me w plo phi placed shape HG HL HP Hme EW HN) as (ps & n & E & C).
  unfold patch_pieces. destruct (distr_type (ga_desc a)).
  { destruct (REG eq_refl) as (WA & -> & ->). destruct (reg_cover guess near a me w plo phi HG WA HP Hme EW HN) as (ps' & E' & C').
    exists ps', 0%nat. split; [|exact C']. intros fuel _. exact E'. }
  all: destruct HB as [->|HB]; [|discriminate]; exists ps, n; split; assumption.
Qed.

(** ---- straight copies ---- *)
Lemma region_labelled_shift (pd po : list Z -> place -> Prop) plo olo lo hi ld w off ts :
  length olo = length plo -> length lo = length plo -> Forall2 Z.le lo hi ->
  (forall x, in_box lo hi x -> pd x (w, off + lin ld (vsub x lo))) ->
  region_transfers po (shift plo olo lo) (shift plo olo hi) ld ts ->
  labelled (shift plo olo) pd po (in_box lo hi) (map (fun t => (fst t, (w, off + snd t))) ts).
Proof.
  intros HO HL HLE HP (l & -> & P & H). pose proof (Forall2_len _ _ _ HLE) as HL2.
  assert (BX : forall y, In y (map snd l) <-> in_box (shift plo olo lo) (shift plo olo hi) y).
  { intros y. rewrite <- (box_list_In _ _ y) by (rewrite !shift_len; lia). split; apply Permutation_in; [exact P|apply Permutation_sym, P]. }
  assert (BK : forall y, in_box (shift plo olo lo) (shift plo olo hi) y ->
             in_box lo hi (shift olo plo y) /\ shift plo olo (shift olo plo y) = y /\ length y = length plo).
  { intros y Hy. destruct (in_box_len _ _ _ Hy) as [Y1 Y2]. rewrite shift_len in Y1 by lia. split; [|split; [apply shift_inv; lia|lia]].
    clear - Hy HO HL HL2. revert olo lo hi y Hy HO HL HL2. induction plo as [|p plo IH]; intros [|o olo] [|a lo] [|b hi] [|c y]; cbn; try tauto; try discriminate.
    intros [A B] H1 H2 H3. split; [lia|]. apply IH; auto. }
  exists (map (fun tx => ((fst (fst tx), (w, off + snd (fst tx))), shift olo plo (snd tx))) l).
  rewrite !map_map. cbn [fst snd]. split; [reflexivity|]. split.
  { assert (ND : NoDup (map snd l)) by (eapply Permutation_NoDup; [apply Permutation_sym; exact P|apply box_list_NoDup]).
    rewrite <- (map_map snd (shift olo plo)). apply NoDup_map_inj; [|exact ND].
    intros y y' Hy Hy' E. apply BX in Hy. apply BX in Hy'. destruct (BK y Hy) as (_ & E1 & _). destruct (BK y' Hy') as (_ & E2 & _). congruence. }
  split.
  - intros x. rewrite <- (map_map snd (shift olo plo)). rewrite in_map_iff. split.
    + intros (y & <- & Hy). apply BX in Hy. apply BK, Hy.
    + intros Hx. destruct (in_box_len _ _ _ Hx) as [X1 X2]. exists (shift plo olo x). split; [apply shift_inv; lia|]. apply BX.
      clear - Hx HO HL HL2. revert olo lo hi x Hx HO HL HL2. induction plo as [|p plo IH]; intros [|o olo] [|a lo] [|b hi] [|c y]; cbn; try tauto; try discriminate.
      intros [A B] H1 H2 H3. split; [lia|]. apply IH; auto.
  - intros e x Hin. apply in_map_iff in Hin as ((t & y) & E & Hin). cbn [fst snd] in E. injection E as <- <-. cbn [fst snd].
    assert (Hy : in_box (shift plo olo lo) (shift plo olo hi) y) by (apply BX, (in_map snd _ _ Hin)).
    destruct (BK y Hy) as (B1 & B2 & B3). destruct (H _ _ Hin) as [H1 H2]. rewrite B2. split; [exact H1|]. rewrite H2.
    replace (vsub y (shift plo olo lo)) with (vsub (shift olo plo y) lo); [apply HP, B1|].
    rewrite <- (shift_sub plo olo (shift olo plo y) lo) by (try (rewrite shift_len); lia). rewrite B2. reflexivity.
Qed.

(** One process walking its part of the patch. *)
Lemma straight_proc guess near wn rnd smp base d o (pd po : list Z -> place -> Prop) sd so me w plo phi olo ohi (sw : bool) :
  good_guess guess -> (forall q k, 0 <= rnd q k) -> walk_layout d wn pd sd -> any_layout o wn po so ->
  small_local d sd -> small_local o so -> ga_elemsize d = ga_elemsize o ->
  patch_of (dims (ga_desc d)) plo phi -> patch_of (dims (ga_desc o)) olo ohi ->
  length olo = length plo -> shift plo olo phi = ohi ->
  0 <= me < ga_nproc d -> abs_rank d me = Some w -> near w = true -> (base = true \/ distr_type (ga_desc d) = REGULAR) ->
  exists es n, (forall fuel, (n <= fuel)%nat ->
      (do ps <- patch_pieces fuel guess near wn base d me plo phi;
       do ls <- mapM (fun q => straight fuel guess (rnd q) wn smp o plo phi olo ohi (if sw then get_pair else put_pair) q) ps;
       Some (concat ls)) = Some (if sw then map (fun e => (snd e, fst e)) es else es)) /\
    labelled (shift plo olo) pd po (fun x => in_box plo phi x /\ exists ad, pd x (w, ad)) es.
Proof.
  intros HG HR LD LO SD SO EES PD PO HOL ESH Hme EW HN HB.
  destruct (layout_cover guess near wn base d me w plo phi pd sd HG LD PD Hme EW HN HB) as (ps & n & EP & T & C).
  destruct (patch_lens _ _ _ PD) as [P1 P2].
  set (fl := fun e : place * place => if sw then (snd e, fst e) else e).
  destruct (mapM_fuel (fun fuel q => straight fuel guess (rnd q) wn smp o plo phi olo ohi (if sw then get_pair else put_pair) q)
              (fun q r => exists es, r = map fl es /\ labelled (shift plo olo) pd po (in_box (lp_lo q) (lp_hi q)) es) ps) as (rs & n' & EM & F).
  { intros q Hq. destruct (C q Hq) as (QL & QS & QP & QD & (sh & S1 & S2 & S3)).
    assert (IN : forall x, in_box (lp_lo q) (lp_hi q) x -> in_box plo phi x).
    { intros x Hx. apply In_nth_error in Hq as (i & Hi). exact (proj1 (proj1 T i q Hi x Hx)). }
    pose proof (IN _ (lo_in_box _ _ QL)) as ILo. pose proof (IN _ (box_refl_hi _ _ QL)) as IHi.
    destruct (in_box_len _ _ _ ILo) as [N1 N2]. destruct (in_box_len _ _ _ IHi) as [N3 N4].
    pose proof (shift_box plo olo phi _ HOL ILo) as J1. pose proof (shift_box plo olo phi _ HOL IHi) as J2. rewrite ESH in J1, J2.
    destruct (any_transfers guess (rnd q) wn smp o (shift plo olo (lp_lo q)) (shift plo olo (lp_hi q)) (lp_ld q) sh po so)
      as (ts & (f0 & ET) & RT); auto.
    - exact (patch_in _ _ _ _ PO J1).
    - exact (patch_in _ _ _ _ PO J2).
    - apply shift_le2; auto; lia.
    - rewrite shift_extents by lia. exact S2.
    - rewrite shift_len by lia. replace (length plo) with (length (lp_lo q)) by lia. exact S3.
    - rewrite <- EES. apply (proj2 SD), S1.
    - exists (map ((if sw then get_pair else put_pair) q) ts), f0. split.
      + intros fuel Hf. unfold straight. rewrite (dest_shift plo phi olo ohi (lp_lo q)), (dest_shift plo phi olo ohi (lp_hi q)) by auto.
        rewrite ET by exact Hf. reflexivity.
      + exists (map (fun t => (fst t, (w, lp_off q + snd t))) ts). split.
        * rewrite map_map. apply map_ext. intros t. unfold fl. destruct sw; unfold get_pair, put_pair; rewrite QS; reflexivity.
        * eapply region_labelled_shift; eauto; lia. }
  assert (FE : exists ess, rs = map (map fl) ess /\ Forall2 (fun q es => labelled (shift plo olo) pd po (in_box (lp_lo q) (lp_hi q)) es) ps ess).
  { clear - F. induction F as [|q r ps rs (es & -> & L) F (ess & -> & G)]; [exists []; split; constructor|].
    exists (es :: ess). split; [reflexivity|constructor; auto]. }
  destruct FE as (ess & -> & FL). exists (concat ess), (Nat.max n n'). split.
  - intros fuel Hf. rewrite EP, EM by lia. rewrite <- concat_map. f_equal. unfold fl. destruct sw; [reflexivity|apply map_id].
  - apply (tiles_labelled _ _ _ _ ps ess T FL).
Qed.

Lemma labelled_flip f g (pa pb : list Z -> place -> Prop) (P Q : list Z -> Prop) es :
  (forall x, Q x <-> exists y, P y /\ g y = x) -> (forall y, P y -> f (g y) = y) ->
  labelled g pb pa P es -> labelled f pa pb Q (map (fun e => (snd e, fst e)) es).
Proof.
  intros HQ HF (l & -> & N & I & J). exists (map (fun ex => ((snd (fst ex), fst (fst ex)), g (snd ex))) l).
  rewrite !map_map. cbn [fst snd]. split; [reflexivity|]. split.
  { rewrite <- (map_map snd g). apply NoDup_map_inj; [|exact N]. intros x y Hx Hy E.
    apply I in Hx. apply I in Hy. rewrite <- (HF x Hx), <- (HF y Hy). congruence. }
  split.
  - intros x. rewrite <- (map_map snd g), in_map_iff, HQ. split; intros (y & A & B); exists y; split; auto; apply I; auto.
  - intros e x Hin. apply in_map_iff in Hin as ((e' & y) & E & Hin). cbn [fst snd] in E. injection E as <- <-. cbn [fst snd].
    destruct (J _ _ Hin) as [J1 J2]. rewrite HF; [auto|]. apply I, (in_map snd _ _ Hin).
Qed.
