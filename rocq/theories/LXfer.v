(** Lemmas about put, get and accumulate. *)
From Verif Require Import LStore MXfer.
Open Scope Z_scope.

Lemma to_int_ok x : 0 <= x <= int_max -> to_int x = Some x.
Proof. intros H. unfold to_int. replace ((- int_max - 1 <=? x) && (x <=? int_max)) with true by lia. reflexivity. Qed.

(** ---- gam_ComputePatchIndex ---- *)
Lemma patch_loop_spec lo plo ld f : length plo = length lo -> (length lo <= length ld)%nat -> lo <> [] ->
  patch_loop lo plo ld f = Some (f * (hd 0 ld) * lin (tl ld) (vsub plo lo)).
Proof.
  revert plo ld f. induction lo as [|l lo IH]; intros [|p plo] [|d ld] f H1 H2 Hne; cbn [length] in *; try discriminate; try lia; try congruence.
  cbn [patch_loop vsub hd tl]. destruct lo as [|l' lo].
  - destruct plo; [|discriminate]. cbn [patch_loop vsub lin]. f_equal. ring.
  - rewrite IH by (congruence || lia). destruct plo as [|p' plo]; [discriminate|].
    remember (l' :: lo) as lo1. remember (p' :: plo) as plo1.
    assert (exists v vs, vsub plo1 lo1 = v :: vs) as (v & vs & E) by (subst; cbn; eauto).
    destruct ld as [|d' ld]; [subst; cbn [length] in H2; lia|].
    rewrite E. cbn [lin hd tl]. f_equal. ring.
Qed.

Lemma patch_index_spec lo plo ld : length plo = length lo -> (length lo <= S (length ld))%nat -> lo <> [] ->
  patch_index lo plo ld = Some (lin ld (vsub plo lo)).
Proof.
  destruct lo as [|l lo]; [congruence|]. destruct plo as [|p plo]; [discriminate|]. cbn [length]. intros H1 H2 _.
  cbn [patch_index vsub]. destruct lo as [|l' lo].
  - destruct plo; [|discriminate]. cbn. f_equal. lia.
  - rewrite patch_loop_spec by (congruence || (cbn [length] in *; lia)).
    destruct plo as [|p' plo]; [discriminate|]. cbn [length] in *. destruct ld as [|d ld]; [cbn [length] in *; lia|].
    remember (l' :: lo) as lo1. remember (p' :: plo) as plo1.
    assert (exists v vs, vsub plo1 lo1 = v :: vs) as (v & vs & E) by (subst; cbn; eauto).
    rewrite E. cbn [lin hd tl]. f_equal. ring.
Qed.

Lemma compute_count_spec lo hi : Forall2 Z.le lo hi -> Forall (fun n => n <= int_max) (extents lo hi) ->
  compute_count lo hi = Some (extents lo hi).
Proof.
  induction 1 as [|l h lo hi H HF IH]; cbn [extents compute_count]; intros X; [reflexivity|].
  inversion X; subst. rewrite !to_int_ok by lia. rewrite IH by assumption. reflexivity.
Qed.

(** ---- gam_setstride ---- *)
Lemma set_stride_spec n es ld : 1 <= es -> (n <= length ld)%nat -> Forall (fun d => 1 <= d) (firstn n ld) ->
  int_strides es n ld ->
  exists s, set_stride n es ld = Some s /\
    forall k0 k, length k = n -> k0 * es + dot k s = es * lin ld (k0 :: k).
Proof.
  revert es ld. induction n as [|n IH]; intros es ld He HL HF HI.
  - exists []. split; [reflexivity|]. intros k0 k Hk. destruct k; [|discriminate]. cbn. lia.
  - destruct ld as [|d ld]; [cbn in HL; lia|]. cbn [length firstn] in *. inversion HF; subst.
    pose proof (HI O ltac:(lia)) as H0. cbn [firstn zprod] in H0.
    destruct (IH (es * d) ld) as (s & Es & K); try lia; auto; try nia.
    { intros i Hi. specialize (HI (S i) ltac:(lia)). cbn [firstn zprod] in *. rewrite <- Z.mul_assoc. exact HI. }
    exists (es * d :: s). cbn [set_stride]. rewrite to_int_ok by nia. rewrite to_int_ok by nia. rewrite Es.
    split; [reflexivity|]. intros k0 [|k1 k] Hk; [discriminate|]. cbn [length dot] in *.
    rewrite K by lia. remember (k1 :: k) as k1k. destruct k1k; [discriminate|]. rewrite Heqk1k in *. cbn [lin]. ring.
Qed.

Lemma lin_cons d ld a b k : lin (d :: ld) (a :: b :: k) = a + d * lin ld (b :: k).
Proof. reflexivity. Qed.

Lemma lin_zeros n ld : lin ld (repeat 0 n) = 0.
Proof.
  revert ld. induction n as [|n IH]; intros ld; [reflexivity|]. destruct n as [|n]; [reflexivity|].
  destruct ld as [|d ld]; [reflexivity|]. change (repeat 0 (S (S n))) with (0 :: 0 :: repeat 0 n).
  rewrite lin_cons. change (0 :: repeat 0 n) with (repeat 0 (S n)). rewrite IH. lia.
Qed.

Lemma lin_unit n ld : lin ld (1 :: repeat 0 n) = 1.
Proof.
  destruct n as [|n]; [reflexivity|]. destruct ld as [|d ld]; [reflexivity|].
  change (repeat 0 (S n)) with (0 :: repeat 0 n). rewrite lin_cons.
  change (0 :: repeat 0 n) with (repeat 0 (S n)). rewrite lin_zeros. lia.
Qed.

(** Leading dimensions are determined by the positions they give. *)
Lemma same_ld n ld sh : (n <= length sh)%nat -> Forall (fun d => 1 <= d) (firstn n sh) ->
  (forall k, length k = S n -> lin ld k = lin sh k) -> firstn n ld = firstn n sh.
Proof.
  revert ld sh. induction n as [|n IH]; intros ld [|s sh] HL HF HK; cbn [length firstn] in *; try lia; try reflexivity.
  inversion HF; subst.
  destruct ld as [|d ld].
  - specialize (HK (0 :: 1 :: repeat 0 n)). rewrite lin_cons, lin_unit in HK. cbn [length] in HK.
    rewrite repeat_length in HK. specialize (HK eq_refl). cbn [lin] in HK. lia.
  - assert (Ed : d = s).
    { specialize (HK (0 :: 1 :: repeat 0 n)). rewrite !lin_cons, !lin_unit in HK. cbn [length] in HK.
      rewrite repeat_length in HK. specialize (HK eq_refl). lia. }
    subst d. f_equal. apply IH; [lia|assumption|].
    intros [|k1 k] Hk; [discriminate|]. specialize (HK (0 :: k1 :: k)). rewrite !lin_cons in HK. cbn [length] in *.
    specialize (HK ltac:(lia)). nia.
Qed.

Lemma set_stride_firstn n es ld : set_stride n es ld = set_stride n es (firstn n ld).
Proof.
  revert es ld. induction n as [|n IH]; intros es [|d ld]; cbn [set_stride firstn]; auto.
  destruct (to_int d); [|reflexivity]. destruct (to_int _); [|reflexivity]. rewrite IH. reflexivity.
Qed.

Lemma lin_firstn n ld k : length k = S n -> lin (firstn n ld) k = lin ld k.
Proof.
  revert ld k. induction n as [|n IH]; intros ld k Hk.
  - destruct k as [|a [|b k]]; try discriminate. reflexivity.
  - destruct k as [|a k]; [discriminate|]. destruct k as [|b k]; [discriminate|].
    destruct ld as [|d ld]; [reflexivity|]. cbn [firstn]. remember (b :: k) as r. cbn [lin]. destruct r; [discriminate|].
    rewrite IH by (cbn in Hk; cbn; lia). reflexivity.
Qed.

(** ---- the enumeration of a box ---- *)
Lemma zseq_seq l n : zseq l n = map (fun i => l + Z.of_nat i) (seq 0 n).
Proof.
  revert l. induction n as [|n IH]; intros l; [reflexivity|]. cbn [zseq seq map]. f_equal; [lia|].
  rewrite IH, <- seq_shift, map_map. apply map_ext. intros; lia.
Qed.

Lemma box_indices lo hi : length hi = length lo -> box_list lo hi = map (vadd lo) (indices (extents lo hi)).
Proof.
  revert hi. induction lo as [|l lo IH]; intros [|h hi] H; try discriminate; [reflexivity|].
  cbn [box_list extents indices]. rewrite IH by (cbn in H; lia).
  rewrite !flat_map_concat_map, concat_map, !map_map. f_equal. apply map_ext. intros t.
  rewrite zseq_seq, !map_map. reflexivity.
Qed.

Lemma indices_In cnt k : In k (indices cnt) <-> in_range0 cnt k.
Proof.
  revert k. induction cnt as [|c cnt IH]; intros k; cbn [indices in_range0].
  - destruct k; cbn; intuition congruence.
  - rewrite in_flat_map. split.
    + intros (t & Ht & Hk). apply in_map_iff in Hk as (i & <- & Hi). apply in_seq in Hi.
      split; [lia|]. apply IH. exact Ht.
    + destruct k as [|a k]; [tauto|]. intros [Ha Hk]. exists k. split; [apply IH; exact Hk|].
      apply in_map_iff. exists (Z.to_nat a). split; [f_equal; lia|]. apply in_seq. lia.
Qed.

Lemma mapM_Some {A B} (f : A -> option B) (g : A -> B) l : (forall a, In a l -> f a = Some (g a)) ->
  mapM f l = Some (map g l).
Proof.
  induction l as [|a l IH]; intros H; [reflexivity|]. cbn [mapM map].
  rewrite H by now left. rewrite IH by (intros; apply H; now right). reflexivity.
Qed.

Lemma elem_of_mul es i : 1 <= es -> elem_of es (es * i) = Some i.
Proof.
  intros H. unfold elem_of. rewrite Z.mul_comm, Z.mod_mul, Z.eqb_refl, Z.div_mul by lia. reflexivity.
Qed.

(** Element transfers of one piece. *)
Definition piece_trans (lo ld : list Z) (p : ipiece) (k : list Z) : place * Z :=
  ((ip_proc p, ip_off p + lin (ip_ld p) k), lin ld (vsub (ip_lo p) lo) + lin ld k).

Lemma piece_xfer_spec es lo ld p sh : 1 <= es <= int_max -> ip_seg p = ip_proc p ->
  length (ip_lo p) = length lo -> lo <> [] -> Forall2 Z.le (ip_lo p) (ip_hi p) ->
  int_counts es (ip_lo p) (ip_hi p) ->
  (length lo <= S (length ld))%nat -> Forall (fun d => 1 <= d) (firstn (length lo - 1) ld) ->
  int_strides es (length lo - 1) ld ->
  (length lo <= S (length sh))%nat -> Forall (fun d => 1 <= d) (firstn (length lo - 1) sh) ->
  int_strides es (length lo - 1) sh ->
  (forall k, length k = length (ip_lo p) -> lin (ip_ld p) k = lin sh k) ->
  (do x <- piece_xfer es lo ld p; xfer_elems es x) =
  Some (map (piece_trans lo ld p) (indices (extents (ip_lo p) (ip_hi p)))).
Proof.
  intros He HS HL Hne HF HC L1 F1 I1 L2 F2 I2 HK.
  assert (HN : length lo = S (length lo - 1)) by (destruct lo; [congruence|cbn; lia]).
  set (n := (length lo - 1)%nat) in *.
  assert (FL : firstn n (ip_ld p) = firstn n sh).
  { apply same_ld; auto; [lia|]. intros k Hk. apply HK. lia. }
  destruct (set_stride_spec n es ld ltac:(lia) ltac:(lia) F1 I1) as (sl & E1 & K1).
  destruct (set_stride_spec n es sh ltac:(lia) ltac:(lia) F2 I2) as (sr & E2 & K2).
  unfold piece_xfer. fold n. rewrite patch_index_spec by (auto; lia).
  unfold int_counts in HC.
  assert (HE : exists e ex, extents (ip_lo p) (ip_hi p) = e :: ex).
  { destruct (ip_lo p) eqn:E; [cbn in HL; lia|]. inversion HF; subst. cbn. eauto. }
  destruct HE as (e & ex & HE). rewrite HE in HC. destruct HC as [HC1 HC2].
  rewrite compute_count_spec by (auto; rewrite HE; exact HC2). rewrite HE.
  assert (HP : Forall (fun c => 1 <= c) (e :: ex)).
  { rewrite <- HE. clear - HF. induction HF; cbn; constructor; auto; lia. }
  inversion HP; subst. rewrite to_int_ok by lia. rewrite (to_int_ok es) by lia.
  rewrite set_stride_firstn, FL, <- set_stride_firstn, E2, E1.
  unfold xfer_elems. cbn [x_count x_proc x_seg].
  replace (e * es) with (es * e) by ring. rewrite elem_of_mul by lia. rewrite HS, Z.eqb_refl.
  assert (FB : forallb (fun n => 0 <=? n) (es * e :: ex) = true).
  { apply forallb_forall. intros c [<-|Hc]; [nia|]. rewrite Forall_forall in H2. specialize (H2 c Hc). lia. }
  rewrite FB. cbn [andb]. apply mapM_Some. intros k Hk. apply indices_In in Hk. pose proof (in_range0_length _ _ Hk) as Lk.
  rewrite <- HE in Lk. rewrite extents_length in Lk by (eapply Forall2_len; eauto).
  unfold elem_access, piece_trans. cbn [x_rem x_srem x_loc x_sloc x_seg].
  destruct k as [|k0 k]; [cbn in Lk; lia|]. cbn [dot].
  rewrite K1, K2 by (cbn in Lk; lia). rewrite <- !Z.mul_add_distr_l, !elem_of_mul by lia. rewrite HK by exact Lk. reflexivity.
Qed.

(** What the list of element transfers of a region is. *)
Definition region_transfers (placed : list Z -> place -> Prop) (lo hi ld : list Z) (ts : list (place * Z)) : Prop :=
  exists l : list (place * Z * list Z),
    ts = map fst l /\ Permutation (map snd l) (box_list lo hi) /\
    forall t x, In (t, x) l -> placed x (fst t) /\ snd t = lin ld (vsub x lo).

Lemma filter_split {A} (f : A -> bool) l : Permutation (filter (fun x => negb (f x)) l ++ filter f l) l.
Proof.
  induction l as [|a l IH]; [constructor|]. cbn [filter]. destruct (f a); cbn [negb].
  - eapply perm_trans; [apply Permutation_sym, Permutation_middle|]. constructor. exact IH.
  - cbn [app]. constructor. exact IH.
Qed.

Lemma valid_ld_pos lo hi ld : Forall2 Z.le lo hi -> valid_ld lo hi ld ->
  (length lo <= S (length ld))%nat /\ Forall (fun d => 1 <= d) (firstn (length lo - 1) ld).
Proof.
  intros HF. revert ld. induction HF as [|l h lo hi H HF IH]; intros ld HV; [split; [cbn; lia|constructor]|].
  destruct HF as [|l' h' lo hi H' HF]; [split; [cbn; lia|constructor]|].
  cbn [valid_ld] in HV. destruct ld as [|d ld]; [tauto|]. destruct HV as [H1 H2].
  destruct (IH ld H2) as [I1 I2]. split; [cbn [length] in *; lia|].
  replace (length (l :: l' :: lo) - 1)%nat with (S (length (l' :: lo) - 1)) by (cbn [length]; lia).
  cbn [firstn]. constructor; [lia|exact I2].
Qed.

Definition shape_ok (n : nat) (es : Z) (shape : list Z -> Prop) : Prop :=
  forall sh, shape sh -> length sh = n /\ Forall (fun d => 1 <= d) sh /\ int_strides es (n - 1) sh.

Lemma int_counts_sub es lo hi lo' hi' : 1 <= es -> Forall2 Z.le lo' hi' -> length lo = length lo' -> length hi = length lo' ->
  (forall x, in_box lo' hi' x -> in_box lo hi x) -> int_counts es lo hi -> int_counts es lo' hi'.
Proof.
  intros He HF L1 L2 HI HC.
  assert (HE : Forall2 Z.le (extents lo' hi') (extents lo hi)).
  { clear HC. revert lo hi L1 L2 HI. induction HF as [|l h lo' hi' Hl HF IH]; intros [|a lo] [|b hi] L1 L2 HI; cbn [length] in *; try discriminate; cbn [extents]; constructor.
    - pose proof (lo_in_box _ _ HF) as B. pose proof (HI (l :: lo')) as X1. pose proof (HI (h :: lo')) as X2. cbn [in_box] in *.
      assert (l <= l <= h) by lia. assert (l <= h <= h) by lia. intuition lia.
    - apply IH; try lia. intros x Hx. specialize (HI (l :: x)). cbn [in_box] in HI. apply HI. split; [lia|exact Hx]. }
  unfold int_counts in *. destruct HE as [|e' e ex' ex H1 H2]; [exact I|]. destruct HC as [C1 C2]. inversion C2; subst.
  split; [nia|]. constructor; [lia|]. clear - H2 H4. induction H2; constructor; inversion H4; subst; auto; lia.
Qed.

Lemma cover_transfers fuel guess rnd nn smp a lo hi ld ps placed shape :
  1 <= ga_elemsize a <= int_max -> lo <> [] -> Forall2 Z.le lo hi ->
  iterate fuel guess rnd nn a lo hi = Some ps -> covers placed shape ps lo hi ->
  int_counts (ga_elemsize a) lo hi -> valid_ld lo hi ld -> int_strides (ga_elemsize a) (length lo - 1) ld ->
  shape_ok (length lo) (ga_elemsize a) shape ->
  exists ts, transfers fuel guess rnd nn smp a lo hi ld = Some ts /\ region_transfers placed lo hi ld ts.
Proof.
  intros He Hne HF EI [HT HP] HC HV HS HSh. set (es := ga_elemsize a) in *.
  destruct (valid_ld_pos lo hi ld HF HV) as [V1 V2].
  pose proof (Forall2_len _ _ _ HF) as HL.
  assert (LP : forall p, In p ps -> length (ip_lo p) = length lo /\ forall x, in_box (ip_lo p) (ip_hi p) x -> in_box lo hi x).
  { intros p Hp. destruct (HP p Hp) as (F & _). pose proof (lo_in_box _ _ F) as B.
    apply In_nth_error in Hp as (k & Hk). pose proof (proj1 HT k p Hk) as X. cbn [fst snd] in X. split; [|exact X].
    destruct (in_box_len _ _ _ (X _ B)) as [Y _]. lia. }
  unfold transfers. rewrite EI. set (order := filter _ ps ++ filter _ ps).
  assert (PO : Permutation order ps) by apply filter_split.
  rewrite (mapM_Some _ (fun p => map (piece_trans lo ld p) (indices (extents (ip_lo p) (ip_hi p))))).
  2:{ intros p Hp. eapply Permutation_in in Hp; [|exact PO]. destruct (HP p Hp) as (F & S & _ & sh & X & K).
      destruct (LP p Hp) as [L I]. destruct (HSh sh X) as (Y1 & Y2 & Y3). fold es.
      apply (piece_xfer_spec es lo ld p sh); auto; try lia.
      - pose proof (Forall2_len _ _ _ F). eapply int_counts_sub; [| | | |exact I|exact HC]; auto; lia.
      - apply Forall_forall. intros d Hd.
        rewrite Forall_forall in Y2. apply Y2. rewrite <- (firstn_skipn (length lo - 1) sh). apply in_app_iff. now left. }
  eexists. split; [reflexivity|].
  exists (concat (map (fun p => map (fun k => (piece_trans lo ld p k, vadd (ip_lo p) k)) (indices (extents (ip_lo p) (ip_hi p)))) order)).
  split; [|split].
  - rewrite concat_map, map_map. f_equal. apply map_ext. intros p. rewrite map_map. reflexivity.
  - rewrite concat_map, map_map.
    assert (Hsq : square (fun p => (ip_lo p, ip_hi p)) ps).
    { intros p Hp. destruct (HP p Hp) as (F & _). cbn. eapply Forall2_len; eauto. }
    eapply perm_trans; [|apply (proj1 (tiles_perm ps (fun p => (ip_lo p, ip_hi p)) lo hi Hsq HL) HT)].
    eapply perm_trans; [|apply flat_map_Permutation; exact PO].
    rewrite flat_map_concat_map.
    assert (EQ : forall l l' : list (list Z), l = l' -> Permutation l l') by (intros ? ? ->; apply Permutation_refl).
    apply EQ. f_equal. apply map_ext_in. intros p Hp. eapply Permutation_in in Hp; [|exact PO].
    unfold box_of. cbn [fst snd]. rewrite box_indices by (symmetry; apply (Hsq p Hp)).
    rewrite map_map. reflexivity.
  - intros t x Hin. apply in_concat in Hin as (l0 & Hl0 & Hin). apply in_map_iff in Hl0 as (p & <- & Hp).
    apply in_map_iff in Hin as (k & E & Hk). injection E as <- <-.
    eapply Permutation_in in Hp; [|exact PO]. destruct (HP p Hp) as (F & S & PL & _). destruct (LP p Hp) as [L I].
    pose proof (Forall2_len _ _ _ F) as LF.
    assert (Hx : in_box (ip_lo p) (ip_hi p) (vadd (ip_lo p) k)).
    { apply box_list_In; [exact LF|]. rewrite box_indices by (symmetry; exact LF). apply in_map. exact Hk. }
    apply indices_In, in_range0_length in Hk. rewrite extents_length in Hk by lia.
    assert (EV : vsub (vadd (ip_lo p) k) (ip_lo p) = k).
    { clear - Hk. revert k Hk. induction (ip_lo p) as [|l lo IH]; intros [|a k] H; try discriminate; [reflexivity|].
      cbn in *. rewrite IH by lia. f_equal. lia. }
    split.
    + specialize (PL _ Hx). rewrite EV in PL. exact PL.
    + cbn [piece_trans snd]. rewrite <- lin_add by (rewrite vsub_length; lia). f_equal.
      clear - Hk L. revert lo k L Hk. induction (ip_lo p) as [|c cs IH]; intros [|l lo] [|b k] H1 H2; try discriminate; [reflexivity|].
      cbn in *. rewrite IH by lia. f_equal. lia.
Qed.
