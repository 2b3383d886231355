(** Strided transfers: lists of element transfers and their effects. *)
From Verif Require Import LStore MXfer LXfer LXfer2.
From Verif Require Export LStrided.

(** What the list of element transfers of a selection of elements is. *)
Definition sel_transfers (placed : list Z -> place -> Prop) (sel : list Z -> Prop) (ix : list Z -> Z)
           (ts : list (place * Z)) : Prop :=
  exists l : list (place * Z * list Z),
    ts = map fst l /\ NoDup (map snd l) /\ (forall x, In x (map snd l) <-> sel x) /\
    forall t x, In (t, x) l -> placed x (fst t) /\ snd t = ix x.

Section Sel.
Variable placed : list Z -> place -> Prop.
Variable sel : list Z -> Prop.
Variable ix : list Z -> Z.
Hypothesis fun_placed : forall x q q', placed x q -> placed x q' -> q = q'.
Hypothesis inj_placed : forall x y q, sel x -> sel y -> placed x q -> placed y q -> x = y.

Lemma sel_In ts t : sel_transfers placed sel ix ts -> In t ts ->
  exists x, sel x /\ placed x (fst t) /\ snd t = ix x.
Proof.
  intros (l & -> & _ & S & H) Hin. apply in_map_iff in Hin as ((t' & x) & <- & Hin). cbn [fst].
  exists x. split; [|exact (H _ _ Hin)]. apply S. apply in_map_iff. exists (t', x). auto.
Qed.
Lemma sel_all ts x q : sel_transfers placed sel ix ts -> sel x -> placed x q -> In (q, ix x) ts.
Proof.
  intros (l & -> & _ & S & H) Hx Hq. apply S in Hx.
  apply in_map_iff in Hx as (((q', i) & x') & <- & Hin). cbn [snd] in *.
  destruct (H _ _ Hin) as [H1 H2]. cbn [fst snd] in *. rewrite (fun_placed _ _ _ Hq H1), <- H2.
  apply in_map_iff. exists ((q', i), x'). auto.
Qed.
Lemma sel_NoDup_cells ts : sel_transfers placed sel ix ts -> NoDup (map fst ts).
Proof.
  intros (l & -> & ND & S & H). rewrite map_map.
  assert (HB : forall t x, In (t, x) l -> sel x).
  { intros t x Hin. apply S. apply in_map_iff. exists (t, x). auto. }
  clear S. induction l as [|[t x] l IH]; [constructor|]. cbn [map snd] in ND. apply NoDup_cons_iff in ND as [Hn ND].
  cbn [map fst]. constructor; [|apply IH; [exact ND|intros; apply H; now right|intros; eapply HB; right; eauto]].
  intros Hin. apply in_map_iff in Hin as ((t' & x') & E & Hin). cbn [fst] in E. apply Hn.
  destruct (H t x (or_introl eq_refl)) as [H1 _]. destruct (H t' x' (or_intror Hin)) as [H2 _].
  rewrite E in H2. rewrite (inj_placed _ _ _ (HB _ _ (or_introl eq_refl)) (HB _ _ (or_intror Hin)) H1 H2). apply in_map_iff. exists (t', x'). auto.
Qed.
Lemma sel_NoDup_buf ts : (forall x y, sel x -> sel y -> ix x = ix y -> x = y) ->
  sel_transfers placed sel ix ts -> NoDup (map snd ts).
Proof.
  intros HI (l & -> & ND & S & H). rewrite map_map.
  assert (HB : forall t x, In (t, x) l -> sel x).
  { intros t x Hin. apply S. apply in_map_iff. exists (t, x). auto. }
  clear S. induction l as [|[t x] l IH]; [constructor|]. cbn [map snd] in ND. apply NoDup_cons_iff in ND as [Hn ND].
  cbn [map fst]. constructor; [|apply IH; [exact ND|intros; apply H; now right|intros; eapply HB; right; eauto]].
  intros Hin. apply in_map_iff in Hin as ((t' & x') & E & Hin). cbn [fst] in E. apply Hn.
  destruct (H t x (or_introl eq_refl)) as [_ H1]. destruct (H t' x' (or_intror Hin)) as [_ H2].
  rewrite E, H1 in H2.
  rewrite (HI x x' (HB _ _ (or_introl eq_refl)) (HB _ _ (or_intror Hin)) H2).
  apply in_map_iff. exists (t', x'). auto.
Qed.

Theorem sel_put {V} ts (buf : buffer V) m :
  sel_transfers placed sel ix ts -> allocated placed m -> (forall x, sel x -> buf (ix x) <> None) ->
  exists m', run_elems (put_elem buf) m ts = Some m' /\ put_selected placed sel ix buf m m'.
Proof.
  intros R HA HB. destruct (put_events_run (map (fun t => (buf, t)) ts) m) as (m' & E & P1 & P2).
  { rewrite map_map. apply sel_NoDup_cells. exact R. }
  { intros e He. apply in_map_iff in He as (t & <- & Ht). unfold ecell, evalue. cbn [fst snd].
    destruct (sel_In ts t R Ht) as (x & Hx & Hp & Hi). split; [apply (HA x); exact Hp|].
    rewrite Hi. apply (HB x Hx). }
  rewrite run_elems_map in E. exists m'. split; [exact E|]. split.
  - intros x q Hx Hq. pose proof (sel_all ts x q R Hx Hq) as Hin. exact (P1 (buf, (q, ix x)) (in_map _ _ _ Hin)).
  - intros q Hq. apply P2. rewrite map_map. intros Hin. apply in_map_iff in Hin as (t & <- & Ht).
    destruct (sel_In ts t R Ht) as (x & Hx & Hp & _). exact (Hq x Hx Hp).
Qed.

Theorem sel_get {V} ts (buf : buffer V) m : (forall x y, sel x -> sel y -> ix x = ix y -> x = y) ->
  sel_transfers placed sel ix ts -> allocated placed m -> (forall x, sel x -> buf (ix x) <> None) ->
  exists buf', run_elems (get_elem m) buf ts = Some buf' /\ get_selected placed sel ix m buf buf'.
Proof.
  intros HV R HA HB. destruct (get_run m ts buf) as (buf' & E & P1 & P2).
  { apply sel_NoDup_buf; auto. }
  { intros t Ht. destruct (sel_In ts t R Ht) as (x & Hx & Hp & Hi). split; [apply (HA x); exact Hp|].
    rewrite Hi. apply (HB x Hx). }
  exists buf'. split; [exact E|]. split.
  - intros x q Hx Hq. pose proof (sel_all ts x q R Hx Hq) as Hin. exact (P1 _ Hin).
  - intros i Hi. apply P2. intros Hin. apply in_map_iff in Hin as (t & E2 & Ht).
    destruct (sel_In ts t R Ht) as (x & Hx & _ & X). apply (Hi x Hx). congruence.
Qed.

Theorem sel_acc {V} f ts (buf : buffer V) m :
  sel_transfers placed sel ix ts -> allocated placed m -> (forall x, sel x -> buf (ix x) <> None) ->
  exists m', run_elems (acc_elem f buf) m ts = Some m' /\ acc_selected f placed sel ix buf m m'.
Proof.
  intros R HA HB. destruct (acc_events_run f (map (fun t => (buf, t)) ts) m) as (m' & E & P).
  { intros e He. apply in_map_iff in He as (t & <- & Ht). unfold ecell, evalue. cbn [fst snd].
    destruct (sel_In ts t R Ht) as (x & Hx & Hp & Hi). split; [apply (HA x); exact Hp|].
    rewrite Hi. apply (HB x Hx). }
  rewrite run_elems_map in E. exists m'. split; [exact E|]. split.
  - intros x q v w Hx Hq Hv Hw. rewrite P, Hv.
    rewrite (event_values_one buf q (ix x) ts w); [reflexivity| | |exact Hw].
    + apply sel_NoDup_cells. exact R.
    + apply sel_all; auto.
  - intros q Hq. rewrite P, event_values_other; [destruct (hget m q); reflexivity|].
    intros Hin. apply in_map_iff in Hin as (t & <- & Ht).
    destruct (sel_In ts t R Ht) as (x & Hx & Hp & _). exact (Hq x Hx Hp).
Qed.
End Sel.

(** ---- positions in the buffer are distinct ---- *)
Lemma room_grid_inj lo hi skip ld x y : Forall (fun s => 1 <= s) skip ->
  room (grid_counts lo hi skip) ld -> strided_sel lo hi skip x -> strided_sel lo hi skip y ->
  strided_ix lo skip ld x = strided_ix lo skip ld y -> x = y.
Proof.
  unfold strided_sel, strided_ix. intros HS. revert lo hi ld x y.
  induction HS as [|s skip Hs HS IH]; intros lo hi ld x y HR [BX GX] [BY GY] E.
  - destruct lo, x, y; cbn [on_grid] in *; try tauto; try reflexivity; destruct hi; cbn in *; tauto.
  - destruct lo as [|l lo], x as [|a x], y as [|b y]; cbn [on_grid] in GX, GY; try tauto.
    destruct hi as [|h hi]; [destruct BX|]. destruct BX as [Ha BX], BY as [Hb BY], GX as [Ga GX], GY as [Gb GY].
    apply Z.mod_divide in Ga; [|lia]. destruct Ga as (u & Hu). apply Z.mod_divide in Gb; [|lia]. destruct Gb as (v & Hv).
    assert (Eu : (a - l) / s = u) by (rewrite Hu; apply Z.div_mul; lia).
    assert (Ev : (b - l) / s = v) by (rewrite Hv; apply Z.div_mul; lia).
    assert (Bu : 0 <= u <= (h - l) / s).
    { split; [nia|]. apply Z.div_le_lower_bound; [lia|]. nia. }
    assert (Bv : 0 <= v <= (h - l) / s).
    { split; [nia|]. apply Z.div_le_lower_bound; [lia|]. nia. }
    assert (XX : u = v /\ x = y).
    { cbn [grid_counts grid_pos] in HR, E. rewrite Eu, Ev in E.
      destruct lo as [|l' lo].
      - destruct x, y, skip; cbn [on_grid] in GX, GY; try contradiction. cbn [grid_pos lin] in E. split; [lia|reflexivity].
      - destruct skip as [|s' skip], x as [|a' x], y as [|b' y]; cbn [on_grid] in GX, GY; try tauto.
        destruct hi as [|h' hi]; [destruct BX|].
        cbn [grid_counts] in HR. cbn [room] in HR. destruct ld as [|d ld]; [tauto|]. destruct HR as [R1 R2].
        cbn [grid_pos] in E. rewrite !lin_cons in E.
        set (P := lin ld ((a' - l') / s' :: grid_pos lo skip x)) in *.
        set (Q := lin ld ((b' - l') / s' :: grid_pos lo skip y)) in *.
        assert (PQ : P = Q).
        { clearbody P Q. revert R1 Bu Bv E. generalize ((h - l) / s). clear. intros z. intros. nia. }
        split.
        + rewrite PQ in E. clearbody P Q. clear - E. lia.
        + apply (IH (l' :: lo) (h' :: hi) ld (a' :: x) (b' :: y)); auto. }
    destruct XX as [-> ->]. f_equal. lia.
Qed.

(** ---- one piece ---- *)
Lemma room_pos cnt ld : Forall (fun c => 1 <= c) cnt -> room cnt ld -> Forall (fun d => 1 <= d) (firstn (length cnt - 1) ld).
Proof.
  intros HF. revert ld. induction HF as [|c cnt H HF IH]; intros ld HR; [constructor|].
  destruct cnt as [|c' cnt]; [constructor|]. cbn [room] in HR. destruct ld as [|d ld]; [tauto|]. destruct HR as [R1 R2].
  replace (length (c :: c' :: cnt) - 1)%nat with (S (length (c' :: cnt) - 1)) by (cbn [length]; lia).
  cbn [firstn]. constructor; [lia|]. apply IH. exact R2.
Qed.
Lemma grid_counts_pos lo hi skip : Forall (fun s => 1 <= s) skip -> Forall2 Z.le lo hi ->
  Forall (fun c => 1 <= c) (grid_counts lo hi skip).
Proof.
  intros HS HF. revert skip HS. induction HF as [|l h lo hi H HF IH]; intros [|s skip] HS; cbn [grid_counts]; constructor; inversion HS; subst; auto.
  assert (0 <= (h - l) / s) by (apply Z.div_pos; lia). lia.
Qed.
Lemma indices_one cnt : indices (1 :: cnt) = map (cons 0) (indices cnt).
Proof.
  cbn [indices]. change (seq 0 (Z.to_nat 1)) with [O]. induction (indices cnt) as [|t l IH]; [reflexivity|].
  cbn [flat_map map app] in *. rewrite IH. reflexivity.
Qed.
Lemma indices_NoDup cnt : NoDup (indices cnt).
Proof.
  induction cnt as [|c cnt IH]; cbn [indices]; [repeat constructor; tauto|].
  induction (indices cnt) as [|t l IHl]; [constructor|]. apply NoDup_cons_iff in IH as [Hn ND]. cbn [flat_map].
  assert (APP : forall A (l l' : list A), NoDup l -> NoDup l' -> (forall x, In x l -> ~ In x l') -> NoDup (l ++ l')).
  { intros A l1 l2 N1 N2 D. induction N1 as [|z l1 Hz N1 IH1]; [exact N2|]. cbn. constructor.
    - rewrite in_app_iff. intros [X|X]; [auto|]. apply (D z (or_introl eq_refl) X).
    - apply IH1. intros; apply D. now right. }
  apply APP; [|auto|].
  - apply FinFun.Injective_map_NoDup; [|apply seq_NoDup]. intros i j E. injection E. lia.
  - intros x Hx Hx'. apply in_map_iff in Hx as (i & <- & _). apply in_flat_map in Hx' as (t' & Ht' & Hx').
    apply in_map_iff in Hx' as (j & E & _). injection E as _ ->. auto.
Qed.
Lemma vadd_vmul_inj p skip k k' : Forall (fun s => 1 <= s) skip -> length skip = length p ->
  length k = length p -> length k' = length p -> vadd p (vmul k skip) = vadd p (vmul k' skip) -> k = k'.
Proof.
  intros HS. revert p k k'. induction HS as [|s skip Hs HS IH]; intros [|a p] [|u k] [|v k'] H1 H2 H3 E; cbn in *; try discriminate; auto.
  injection E as E1 E2. f_equal; [nia|]. apply (IH p); auto.
Qed.
Lemma vsub_vadd_mul p b skip k : length b = length p -> length k = length p -> length skip = length p ->
  vsub (vadd p (vmul k skip)) b = vadd (vsub p b) (vmul k skip).
Proof.
  revert b skip k. induction p as [|a p IH]; intros [|c b] [|s skip] [|u k] H1 H2 H3; cbn in *; try discriminate; auto.
  rewrite IH by lia. f_equal. lia.
Qed.
Lemma in_box_Forall2 p q x : in_box p q x -> Forall2 Z.le p x.
Proof. revert q x. induction p as [|a p IH]; intros [|b q] [|c x]; cbn; try tauto; [constructor|]. intros [H1 H2]. constructor; [lia|eauto]. Qed.
Lemma sub_box_extents lo hi lo' hi' : Forall2 Z.le lo' hi' -> length lo = length lo' -> length hi = length lo' ->
  (forall x, in_box lo' hi' x -> in_box lo hi x) -> Forall (fun n => n <= int_max) (extents lo hi) ->
  Forall (fun n => n <= int_max) (extents lo' hi').
Proof.
  intros HF. revert lo hi. induction HF as [|l h lo' hi' Hl HF IH]; intros [|a lo] [|b hi] L1 L2 HI HE; cbn [length] in *; try discriminate; cbn [extents] in *; constructor.
  - pose proof (lo_in_box _ _ HF) as B. pose proof (HI (l :: lo')) as X1. pose proof (HI (h :: lo')) as X2. cbn [in_box] in *.
    inversion HE; subst. assert (l <= l <= h) by lia. assert (l <= h <= h) by lia. intuition lia.
  - inversion HE; subst. apply (IH lo hi); try lia; auto. intros x Hx. specialize (HI (l :: x)). cbn [in_box] in HI. apply HI. split; [lia|exact Hx].
Qed.

Definition strided_elems (a : garray) (lo skip ld : list Z) (p : ipiece) : option (list (place * Z)) :=
  do x <- strided_piece a lo skip ld p;
  match x with None => Some [] | Some x' => xfer_elems (ga_elemsize a) x' end.

Lemma strided_piece_elems a lo hi skip ld p (placed : list Z -> place -> Prop) (shape : list Z -> Prop) :
  ga_group a = None -> good_strided a shape lo hi skip ld -> (length lo <= 2)%nat -> lo <> [] ->
  (forall sh, shape sh -> length sh = length lo /\ Forall (fun d => 1 <= d) sh) ->
  length (ip_lo p) = length lo -> (forall x, in_box (ip_lo p) (ip_hi p) x -> in_box lo hi x) ->
  Forall2 Z.le (ip_lo p) (ip_hi p) -> ip_seg p = ip_proc p ->
  (forall x, in_box (ip_lo p) (ip_hi p) x -> placed x (ip_proc p, ip_off p + lin (ip_ld p) (vsub x (ip_lo p)))) ->
  (exists sh, shape sh /\ forall k, length k = length (ip_lo p) -> lin (ip_ld p) k = lin sh k) ->
  exists l, strided_elems a lo skip ld p = Some (map fst l) /\ NoDup (map snd l) /\
    (forall x, In x (map snd l) <-> in_box (ip_lo p) (ip_hi p) x /\ on_grid lo skip x) /\
    forall t x, In (t, x) l -> placed x (fst t) /\ snd t = strided_ix lo skip ld x.
Proof.
  intros HG (Q1 & Q2 & Q3 & Q4 & Q5 & Q6 & Q7 & Q8 & Q9 & Q10 & Q11) H2 Hne HSh HL HI HF HS HP (sh & X & K).
  set (es := ga_elemsize a) in *. destruct (HSh sh X) as [Y1 Y2]. destruct (Q11 sh X) as [Y3 Y4].
  pose proof (Forall2_len _ _ _ Q3) as L3. pose proof (Forall2_len _ _ _ HF) as LF.
  assert (FP : Forall2 Z.le lo (ip_lo p)) by (eapply in_box_Forall2; apply HI, lo_in_box; exact HF).
  destruct (correct_patch_spec lo skip (ip_lo p) (ip_hi p) Q5 Q4 FP HF) as (r & E & R).
  unfold strided_elems, strided_piece. cbv zeta. fold es. rewrite E. destruct r as [(plo & phi)|].
  2:{ exists []. split; [reflexivity|]. split; [constructor|]. split; [|intros ? ? []].
      intros x. cbn. split; [tauto|]. intros [A B]. exact (R x A B). }
  destruct R as (R1 & R2 & R2' & R3 & R4).
  pose proof (Forall2_len _ _ _ R1) as LR1. pose proof (Forall2_len _ _ _ R2) as LR2.
  assert (SUB : forall x, in_box plo phi x -> in_box (ip_lo p) (ip_hi p) x).
  { clear - R2 R2'. revert R2 R2'. generalize (ip_lo p) (ip_hi p). intros bl bh R2. revert phi bh.
    induction R2 as [|b c bl cl Hb R2 IH]; intros phi bh R2' x.
    - destruct R2'; destruct x; cbn [in_box]; tauto.
    - destruct R2' as [|d e dl el Hd R2']; destruct x as [|y x]; cbn [in_box]; try tauto.
      intros [A B]. split; [lia|]. exact (IH dl el R2' x B). }
  assert (EX : Forall (fun n => n <= int_max) (extents plo phi)).
  { apply (sub_box_extents lo hi); auto; lia. }
  set (n := (length lo - 1)%nat) in *.
  assert (HN : length lo = S n) by (unfold n; destruct lo; [congruence|cbn; lia]).
  assert (F2 : Forall (fun d => 1 <= d) (firstn n sh)).
  { apply Forall_forall. intros d Hd. rewrite Forall_forall in Y2. apply Y2.
    rewrite <- (firstn_skipn n sh). apply in_app_iff. now left. }
  assert (FL : firstn n (ip_ld p) = firstn n sh).
  { apply same_ld; auto; [lia|]. intros k Hk. apply K. lia. }
  assert (LL : (n <= length (ip_ld p))%nat).
  { assert (length (firstn n (ip_ld p)) = n) by (rewrite FL; apply firstn_length_le; lia).
    rewrite firstn_length in H. lia. }
  rewrite find_offset_lin; [|lia|lia|intros Z0; rewrite Z0 in HL; cbn in HL; lia].
  assert (LP : Forall2 Z.le lo plo).
  { clear - FP R2. revert plo R2. induction FP; intros plo R2; inversion R2; subst; constructor; [lia|auto]. }
  rewrite skip_index_lin by (auto; lia).
  rewrite skip_count_ok by (auto; lia). rewrite to_int_ok by lia.
  assert (SN : skip <> []) by (intros ->; cbn in Q4; lia).
  destruct (skip_stride_rem_ok skip sh es SN Q8) as (sr & E1 & D1); auto; try (rewrite Q4; auto; fail).
  { rewrite Q4. lia. }
  destruct (skip_stride_loc_ok skip ld es SN Q8) as (sl & E2 & D2); auto; try (rewrite Q4; auto; fail).
  { rewrite Q4. replace (length lo) with (length (grid_counts lo hi skip)) by (apply grid_counts_length; lia).
    apply room_pos; auto. apply grid_counts_pos; auto. }
  assert (ER : skip_stride_rem skip (ip_ld p) es = Some sr).
  { rewrite skip_stride_rem_firstn, Q4. fold n. rewrite FL. unfold n. rewrite <- Q4.
    rewrite <- (skip_stride_rem_firstn skip sh es). exact E1. }
  rewrite ER, E2.
  unfold abs_rank. rewrite HG.
  set (cnt := grid_counts plo phi skip) in *.
  exists (map (fun k => (((ip_proc p, ip_off p + lin (ip_ld p) (vsub (vadd plo (vmul k skip)) (ip_lo p))),
                          strided_ix lo skip ld (vadd plo (vmul k skip))), vadd plo (vmul k skip))) (indices cnt)).
  assert (LC : length cnt = length lo) by (unfold cnt; rewrite grid_counts_length; lia).
  assert (CP : Forall (fun c => 1 <= c) cnt) by (apply grid_counts_pos; auto).
  assert (GE := fun x => grid_elems lo skip plo phi x Q5 R3 R1). fold cnt in GE.
  split; [|split; [|split]].
  - unfold xfer_elems. cbn [x_count x_proc x_seg].
    replace (elem_of es es) with (Some 1) by (symmetry; rewrite <- (Z.mul_1_r es) at 2; apply elem_of_mul; lia).
    rewrite HS, Z.eqb_refl.
    assert (FB : forallb (fun c => 0 <=? c) (es :: cnt) = true).
    { apply forallb_forall. intros c [<-|Hc]; [lia|]. rewrite Forall_forall in CP. specialize (CP c Hc). lia. }
    rewrite FB. cbn [andb]. rewrite indices_one. 
    rewrite (mapM_Some _ (fun k => match k with _ :: k' => (ip_proc p, ip_off p + lin (ip_ld p) (vsub (vadd plo (vmul k' skip)) (ip_lo p)),
                          strided_ix lo skip ld (vadd plo (vmul k' skip))) | [] => (0, 0, 0) end)).
    { rewrite !map_map. reflexivity. }
    intros k0 Hk. apply in_map_iff in Hk as (k & <- & Hk). apply indices_In in Hk. pose proof (in_range0_length _ _ Hk) as Lk.
    unfold elem_access. cbn [x_rem x_srem x_loc x_sloc x_seg dot]. rewrite D1, D2 by lia.
    rewrite !Z.mul_0_l, !Z.add_0_l, <- !Z.mul_add_distr_l, !elem_of_mul by lia.
    rewrite <- (K (vmul k skip)) by (rewrite vmul_length; lia).
    assert (LV : length (vmul k skip) = length lo) by (rewrite vmul_length; lia).
    unfold strided_ix. rewrite grid_pos_add by (auto; lia). rewrite lin_add by (rewrite grid_pos_length; [lia|exact R3]).
    rewrite vsub_vadd_mul by lia. rewrite lin_add by (rewrite vsub_length; lia). rewrite !Z.mul_1_l, Z.add_assoc. reflexivity.
  - rewrite map_map. cbn [snd].
    assert (NM : forall (ks : list (list Z)), NoDup ks -> (forall k, In k ks -> length k = length lo) ->
      NoDup (map (fun k => vadd plo (vmul k skip)) ks)).
    { induction 1 as [|k ks Hn ND IH]; intros HK; [constructor|]. cbn [map]. constructor; [|apply IH; intros; apply HK; now right].
      intros Hin. apply in_map_iff in Hin as (k' & EQ & Hk'). apply Hn.
      pose proof (HK k (or_introl eq_refl)). pose proof (HK k' (or_intror Hk')).
      rewrite (vadd_vmul_inj plo skip k k'); auto; lia. }
    apply NM; [apply indices_NoDup|]. intros k Hk. apply indices_In, in_range0_length in Hk. lia.
  - intros x. rewrite map_map. cbn [snd]. rewrite in_map_iff. split.
    + intros (k & EQ & Hk). apply indices_In in Hk. destruct (proj2 (GE x)) as [A B]; [exists k; auto|]. auto.
    + intros [A B]. destruct (proj1 (GE x)) as (k & Hk & EQ); [split; [apply R4; auto|exact B]|].
      exists k. split; [auto|]. apply indices_In. exact Hk.
  - intros t x Hin. apply in_map_iff in Hin as (k & EQ & Hk). injection EQ as <- <-. cbn [fst snd]. split; [|reflexivity].
    apply HP, SUB. apply indices_In in Hk. apply (proj2 (GE (vadd plo (vmul k skip)))). exists k. auto.
Qed.

(** ---- all pieces ---- *)
Lemma mapM_ex {A B} (f : A -> option (list B)) (C : Type) (g : C -> B) (Q : A -> list C -> Prop) ps :
  (forall p, In p ps -> exists l, f p = Some (map g l) /\ Q p l) ->
  exists ls, mapM f ps = Some (map (map g) ls) /\ Forall2 Q ps ls.
Proof.
  induction ps as [|p ps IH]; intros H; [exists []; split; [reflexivity|constructor]|].
  destruct (H p (or_introl eq_refl)) as (l & E & HQ). destruct IH as (ls & EL & F); [intros; apply H; now right|].
  exists (l :: ls). cbn [mapM map]. rewrite E, EL. split; [reflexivity|constructor; auto].
Qed.
Lemma Forall2_nth {A B} (Q : A -> B -> Prop) l l' k b : Forall2 Q l l' -> nth_error l' k = Some b ->
  exists a, nth_error l k = Some a /\ Q a b.
Proof.
  intros F. revert k. induction F as [|a0 b0 l l' H F IH]; intros [|k] E; cbn in *; try discriminate.
  - injection E as <-. eauto.
  - apply IH; auto.
Qed.
Lemma Forall2_nth_l {A B} (Q : A -> B -> Prop) l l' k a : Forall2 Q l l' -> nth_error l k = Some a ->
  exists b, nth_error l' k = Some b /\ Q a b.
Proof.
  intros F. revert k. induction F as [|a0 b0 l l' H F IH]; intros [|k] E; cbn in *; try discriminate.
  - injection E as <-. eauto.
  - apply IH; auto.
Qed.

Lemma strided_iterate_start fuel guess rnd nn me junk a lo hi :
  (distr_type (ga_desc a) = BLOCK_CYCLIC -> me = 0) ->
  strided_iterate fuel guess rnd nn me junk a lo hi = iterate fuel guess rnd nn a lo hi.
Proof.
  intros H. unfold strided_iterate, iterate. destruct (distr_type (ga_desc a)); try reflexivity.
  rewrite H by reflexivity. destruct fuel as [|f]; [reflexivity|]. cbn [drain].
  assert (E : bc_next (S f) a nn lo hi (BCState 0 0 junk) = bc_next (S f) a nn lo hi (BCState 0 0 0)) by reflexivity.
  rewrite E. reflexivity.
Qed.

Theorem strided_sel_transfers guess rnd nn me junk a lo hi skip ld placed shape :
  ga_group a = None -> (distr_type (ga_desc a) = BLOCK_CYCLIC -> me = 0) ->
  gives_cover guess rnd nn a lo hi placed shape -> good_strided a shape lo hi skip ld -> (length lo <= 2)%nat ->
  exists ts fuel0, (forall fuel, (fuel0 <= fuel)%nat -> strided_transfers fuel guess rnd nn me junk a lo hi skip ld = Some ts) /\
    sel_transfers placed (strided_sel lo hi skip) (strided_ix lo skip ld) ts.
Proof.
  intros HG HM (Hne & (ps & fuel0 & EI & HT & HP) & HSh) HQ H2.
  pose proof HQ as (Q1 & Q2 & Q3 & Q4 & Q5 & _).
  set (Q := fun (p : ipiece) (l : list (place * Z * list Z)) => NoDup (map snd l) /\
    (forall x, In x (map snd l) <-> in_box (ip_lo p) (ip_hi p) x /\ on_grid lo skip x) /\
    forall t x, In (t, x) l -> placed x (fst t) /\ snd t = strided_ix lo skip ld x).
  destruct (mapM_ex (strided_elems a lo skip ld) _ fst Q ps) as (ls & EL & F).
  { intros p Hp. destruct (HP p Hp) as (F & S & PL & SH).
    assert (IB : forall x, in_box (ip_lo p) (ip_hi p) x -> in_box lo hi x).
    { apply In_nth_error in Hp as (k & Hk). exact (proj1 HT k p Hk). }
    apply (strided_piece_elems a lo hi skip ld p placed shape); auto.
    destruct (in_box_len _ _ _ (IB _ (lo_in_box _ _ F))) as [Y _]. lia. }
  exists (map fst (concat ls)), fuel0. split.
  - intros fuel Hf. unfold strided_transfers. rewrite strided_iterate_start by exact HM. rewrite EI by exact Hf.
    replace (forallb (fun s => negb (s <? 1)) skip) with true.
    2:{ symmetry. apply forallb_forall. intros s Hs. rewrite Forall_forall in Q5. specialize (Q5 s Hs).
        destruct (Z.ltb_spec s 1); [lia|reflexivity]. }
    fold (strided_elems a lo skip ld). rewrite EL. rewrite concat_map. reflexivity.
  - assert (HIn : forall x, In x (map snd (concat ls)) <-> exists k p, nth_error ps k = Some p /\ in_box (ip_lo p) (ip_hi p) x /\ on_grid lo skip x).
    { intros x. split.
      - intros Hin. apply in_map_iff in Hin as (e & <- & Hin). apply in_concat in Hin as (l & Hl & He).
        apply In_nth_error in Hl as (k & Hk). destruct (Forall2_nth _ _ _ _ _ F Hk) as (p & Ep & _ & B & _).
        exists k, p. split; [exact Ep|]. apply B. apply in_map. exact He.
      - intros (k & p & Ep & HB). destruct (Forall2_nth_l _ _ _ _ _ F Ep) as (l & Hl & _ & B & _).
        apply B in HB. apply in_map_iff in HB as (e & <- & He). apply in_map, in_concat. exists l.
        split; [eapply nth_error_In; eauto|exact He]. }
    exists (concat ls). split; [reflexivity|]. split; [|split].
    + rewrite concat_map, <- flat_map_concat_map. apply NoDup_flat_map_nth.
      * intros l Hl. apply In_nth_error in Hl as (k & Hk). destruct (Forall2_nth _ _ _ _ _ F Hk) as (p & _ & N & _). exact N.
      * intros k k' l l' x Hk Hk' Hx Hx'.
        destruct (Forall2_nth _ _ _ _ _ F Hk) as (p & Ep & _ & B & _). destruct (Forall2_nth _ _ _ _ _ F Hk') as (p' & Ep' & _ & B' & _).
        apply B in Hx. apply B' in Hx'.
        destruct HT as [T1 T2]. destruct (T2 x (T1 _ _ Ep _ (proj1 Hx))) as (k0 & p0 & _ & _ & U).
        rewrite (U _ _ Ep (proj1 Hx)). symmetry. apply (U _ _ Ep' (proj1 Hx')).
    + intros x. rewrite HIn. unfold strided_sel. split.
      * intros (k & p & Ep & B & G). split; [exact (proj1 HT k p Ep x B)|exact G].
      * intros [B G]. destruct (proj2 HT x B) as (k & p & Ep & B' & _). exists k, p. auto.
    + intros t x Hin. apply in_concat in Hin as (l & Hl & He). apply In_nth_error in Hl as (k & Hk).
      destruct (Forall2_nth _ _ _ _ _ F Hk) as (p & _ & _ & _ & C). exact (C t x He).
Qed.
