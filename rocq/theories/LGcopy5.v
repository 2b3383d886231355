(** Lemmas: GA_Transpose. *)
From Verif Require Import LRadix LXfer LXfer2 LStore LLoc LAccess LSelect2.
From Verif Require Export LGcopy4.
Open Scope Z_scope.

Lemma counts_In n i : In i (counts n) <-> 0 <= i < n.
Proof.
  unfold counts. rewrite in_map_iff. split.
  - intros (k & <- & H). apply in_seq in H. lia.
  - intros H. exists (Z.to_nat i). split; [lia|]. apply in_seq. lia.
Qed.
Lemma tr_stores_In nrow ncol ld k s : In (k, s) (tr_stores nrow ncol ld) <->
  exists i j, 0 <= i < ncol /\ 0 <= j < nrow /\ k = i + j * ncol /\ s = i * ld + j.
Proof.
  unfold tr_stores. rewrite in_flat_map. split.
  - intros (i & Hi & H). apply in_map_iff in H as (j & E & Hj). rewrite counts_In in *. injection E as <- <-. exists i, j. auto.
  - intros (i & j & Hi & Hj & -> & ->). exists i. rewrite counts_In. split; [exact Hi|]. apply in_map_iff. exists j.
    rewrite counts_In. auto.
Qed.
Lemma tr_index nrow ncol i j : 0 <= i < ncol -> 0 <= j < nrow -> 0 <= i + j * ncol < nrow * ncol /\
  (i + j * ncol) mod ncol = i /\ (i + j * ncol) / ncol = j.
Proof.
  intros Hi Hj. split; [nia|]. rewrite Z.mod_add, Z.div_add by lia. rewrite Z.mod_small, Z.div_small by lia. lia.
Qed.
Lemma tr_tmp_ok nrow ncol ld : tr_tmp nrow ncol ld = Some (tr_stores nrow ncol ld).
Proof.
  unfold tr_tmp. replace (forallb _ _) with true; [reflexivity|]. symmetry. apply forallb_forall. intros [k s] H.
  apply tr_stores_In in H as (i & j & Hi & Hj & -> & _). cbn [fst].
  destruct (tr_index nrow ncol i j Hi Hj) as [B _]. apply andb_true_iff. split; [apply Z.leb_le|apply Z.ltb_lt]; lia.
Qed.
Lemma tmp_at_spec nrow ncol ld i j : 0 <= i < ncol -> 0 <= j < nrow ->
  tmp_at (tr_stores nrow ncol ld) (i + j * ncol) = Some (i * ld + j).
Proof.
  intros Hi Hj. unfold tmp_at. destruct (find _ _) as [[k s]|] eqn:E.
  - apply find_some in E as [Hin Ek]. cbn [fst] in Ek. apply Z.eqb_eq in Ek. cbn [snd]. apply in_rev in Hin.
    apply tr_stores_In in Hin as (i' & j' & Hi' & Hj' & -> & ->).
    destruct (tr_index nrow ncol i j Hi Hj) as (_ & A & B). destruct (tr_index nrow ncol i' j' Hi' Hj') as (_ & A' & B').
    rewrite Ek in A', B'. f_equal. congruence.
  - exfalso. assert (Hin : In (i + j * ncol, i * ld + j) (rev (tr_stores nrow ncol ld))).
    { apply in_rev. rewrite rev_involutive. apply tr_stores_In. exists i, j. auto. }
    pose proof (find_none _ _ E _ Hin) as N. cbn in N. rewrite Z.eqb_refl in N. discriminate.
Qed.

(** The transposed subscript. *)
Definition swap (x : list Z) : list Z := rev x.

Lemma box2 l0 l1 h0 h1 x : in_box [l0; l1] [h0; h1] x -> exists x0 x1, x = [x0; x1] /\ l0 <= x0 <= h0 /\ l1 <= x1 <= h1.
Proof. destruct x as [|x0 [|x1 [|? ?]]]; cbn; try tauto. intros (A & B & _). exists x0, x1. auto. Qed.

Lemma mapM_total {A B} (F : A -> option B) g l : (forall a, In a l -> F a = Some (g a)) -> mapM F l = Some (map g l).
Proof.
  induction l as [|a l IH]; intros H; [reflexivity|]. cbn [mapM map]. rewrite H by (now left).
  rewrite IH by (intros; apply H; now right). reflexivity.
Qed.

Lemma tr_labelled (pa pb : list Z -> place -> Prop) l0 l1 h0 h1 ld ldt w off ts :
  l0 <= h0 -> l1 <= h1 ->
  (forall x, in_box [l0; l1] [h0; h1] x -> pa x (w, off + lin (ld :: ldt) (vsub x [l0; l1]))) ->
  region_transfers pb [l1; l0] [h1; h0] [h1 - l1 + 1] ts ->
  exists es, mapM (fun t => do s <- tmp_at (tr_stores (h0 - l0 + 1) (h1 - l1 + 1) ld) (snd t); Some (fst t, (w, off + s))) ts = Some es /\
    labelled swap pa pb (in_box [l0; l1] [h0; h1]) es.
Proof.
  intros H0 H1 HP R. set (ncol := h1 - l1 + 1). set (nrow := h0 - l0 + 1).
  assert (HLt : length [l1; l0] = length [h1; h0]) by reflexivity.
  assert (HK : forall t, In t ts -> exists x0 x1, l0 <= x0 <= h0 /\ l1 <= x1 <= h1 /\ pb [x1; x0] (fst t) /\ snd t = (x1 - l1) + (x0 - l0) * ncol).
  { intros t Ht. destruct (region_In pb _ _ _ HLt ts t R Ht) as (y & Hy & Hq & Hi).
    destruct (box2 _ _ _ _ _ Hy) as (x1 & x0 & -> & A & B). exists x0, x1. split; [lia|]. split; [lia|]. split; [exact Hq|].
    rewrite Hi. unfold ncol. cbn. lia. }
  exists (map (fun t => (fst t, (w, off + ((snd t mod ncol) * ld + snd t / ncol)))) ts). split.
  - apply mapM_total. intros t Ht. destruct (HK t Ht) as (x0 & x1 & A & B & _ & E). rewrite E.
    rewrite tmp_at_spec by (unfold ncol, nrow; lia).
    destruct (tr_index nrow ncol (x1 - l1) (x0 - l0) ltac:(unfold ncol; lia) ltac:(unfold nrow; lia)) as (_ & E1 & E2).
    rewrite E1, E2. reflexivity.
  - destruct R as (l & -> & P & H). clear HK.
    exists (map (fun tx => ((fst (fst tx), (w, off + ((snd (fst tx) mod ncol) * ld + snd (fst tx) / ncol))), rev (snd tx))) l).
    rewrite !map_map. split; [reflexivity|]. cbn [snd].
    assert (HM : map (fun x : place * Z * list Z => rev (snd x)) l = map (@rev Z) (map snd l)) by (rewrite map_map; reflexivity).
    rewrite HM. split.
    { apply FinFun.Injective_map_NoDup; [intros x y E; rewrite <- (rev_involutive x), E; apply rev_involutive|].
      eapply Permutation_NoDup; [apply Permutation_sym; exact P|apply box_list_NoDup]. }
    assert (HX : forall y, In y (map snd l) <-> in_box [l1; l0] [h1; h0] y).
    { intros y. rewrite <- box_list_In by reflexivity. split; apply Permutation_in; [exact P|apply Permutation_sym, P]. }
    split.
    + intros x. rewrite in_map_iff. split.
      * intros (y & <- & Hy). apply HX in Hy. destruct (box2 _ _ _ _ _ Hy) as (x1 & x0 & -> & A & B). cbn. auto.
      * intros Hx. destruct (box2 _ _ _ _ _ Hx) as (x0 & x1 & -> & A & B). exists [x1; x0]. split; [reflexivity|].
        apply HX. cbn. auto.
    + intros e x Hin. apply in_map_iff in Hin as ((t & y) & E & Hin). cbn [fst snd] in E. injection E as <- <-. cbn [fst snd].
      destruct (H _ _ Hin) as [Q1 Q2].
      assert (Hy : in_box [l1; l0] [h1; h0] y) by (apply HX, (in_map snd _ _ Hin)).
      destruct (box2 _ _ _ _ _ Hy) as (x1 & x0 & -> & A & B). split; [exact Q1|].
      assert (E : snd t = (x1 - l1) + (x0 - l0) * ncol) by (rewrite Q2; unfold ncol; cbn; lia).
      destruct (tr_index nrow ncol (x1 - l1) (x0 - l0) ltac:(unfold ncol; lia) ltac:(unfold nrow; lia)) as (_ & E1 & E2).
      rewrite E, E1, E2. cbn [rev app].
      specialize (HP [x0; x1] ltac:(cbn; auto)).
      replace (off + ((x1 - l1) * ld + (x0 - l0))) with (off + lin (ld :: ldt) (vsub [x0; x1] [l0; l1])); [exact HP|].
      destruct ldt; cbn; lia.
Qed.

Lemma piece2 (d : garray) (pd : list Z -> place -> Prop) sd w ps q : length (dims (ga_desc d)) = 2%nat ->
  local_cover pd (dims (ga_desc d)) w ps -> In q ps -> ld_shape sd (lp_lo q) (lp_hi q) (lp_ld q) ->
  exists l0 l1 h0 h1 ld ldt s0 s1, lp_lo q = [l0; l1] /\ lp_hi q = [h0; h1] /\ lp_ld q = ld :: ldt /\ sd [s0; s1] /\
    1 <= h0 - l0 + 1 <= s0 /\ 1 <= h1 - l1 + 1 <= s1.
Proof.
  intros H2 C Hq (sh & S1 & S2 & S3). destruct (piece_in_array _ _ _ _ _ C Hq) as (HL & I1 & I2).
  apply in_array_length in I1, I2. destruct (lp_lo q) as [|l0 [|l1 [|? ?]]]; cbn in I1; try lia.
  destruct (lp_hi q) as [|h0 [|h1 [|? ?]]]; cbn in I2; try lia.
  cbn [extents] in S2. inversion S2 as [|? s0 ? sh' A1 A2]; subst. inversion A2 as [|? s1 ? sh'' B1 B2]; subst. inversion B2; subst.
  cbn in S3. destruct (lp_ld q) as [|ld ldt]; [discriminate|].
  inversion HL as [|? ? ? ? C1 C2]; subst. inversion C2; subst.
  exists l0, l1, h0, h1, ld, ldt, s0, s1. repeat split; auto; lia.
Qed.

Theorem transpose_spec guess near wn rnd smp a b pa pb sa sb d0 d1 :
  good_guess guess -> (forall me q k, 0 <= rnd me q k) -> walk_layout a wn pa sa -> any_layout b wn pb sb ->
  small_local a sa -> small_local b sb -> dims (ga_desc a) = [d0; d1] -> dims (ga_desc b) = [d1; d0] ->
  ga_elemsize a = ga_elemsize b ->
  (forall me w, abs_rank a me = Some w -> near me w = true) ->
  exists ess n,
    Forall2 (fun me es => forall fuel, (n <= fuel)%nat ->
        ga_transpose fuel guess (near me) wn (rnd me) (smp me) a b me = Some es) (zseq 0 (Z.to_nat (ga_nproc a))) ess /\
    labelled swap pa pb (in_array (dims (ga_desc a))) (concat ess).
Proof.
  intros HG HR LA LB SA SB EA EB EE HNear.
  destruct (procs_fuel (fun fuel me => ga_transpose fuel guess (near me) wn (rnd me) (smp me) a b me)
     (fun me es => exists w, abs_rank a me = Some w /\
        labelled swap pa pb (fun x => in_array (dims (ga_desc a)) x /\ exists ad, pa x (w, ad)) es)
     (zseq 0 (Z.to_nat (ga_nproc a)))) as (ess & n & E & F).
  - intros me Hme. apply zseq_In in Hme. assert (Hm : 0 <= me < ga_nproc a) by lia.
    destruct (abs_rank_total a me (layout_group _ _ _ _ (proj1 LA)) Hm) as (w & EW).
    destruct (layout_walk guess (near me) wn a me w pa sa HG LA Hm EW (HNear _ _ EW)) as (ps & n & EI & C & L).
    destruct (mapM_fuel (fun fuel q => tr_piece fuel guess (rnd me q) wn (smp me) b q)
       (fun q es => labelled swap pa pb (in_box (lp_lo q) (lp_hi q)) es) ps) as (rs & n' & EM & F).
    { intros q Hq. destruct (piece2 a pa sa w ps q ltac:(rewrite EA; reflexivity) C Hq (L q Hq))
        as (l0 & l1 & h0 & h1 & ld & ldt & s0 & s1 & Q1 & Q2 & Q3 & Q4 & Q5 & Q6).
      destruct (piece_in_array _ _ _ _ _ C Hq) as (HL & I1 & I2). rewrite EA, Q1 in I1. rewrite EA, Q2 in I2.
      destruct (any_transfers guess (rnd me q) wn (smp me) b [l1; l0] [h1; h0] [h1 - l1 + 1] [h1 - l1 + 1; h0 - l0 + 1] pb sb)
        as (ts & (f0 & ET) & RT); auto.
      { rewrite EB. cbn in *. tauto. }
      { rewrite EB. cbn in *. tauto. }
      { repeat constructor; lia. }
      { cbn [extents]. apply le_refl_list. }
      { rewrite <- EE. pose proof (proj2 SA _ Q4) as X. pose proof (proj1 SA). cbn [zprod] in *.
        assert ((h1 - l1 + 1) * ((h0 - l0 + 1) * 1) <= s0 * (s1 * 1)) by nia. unfold zprod in *. cbn in *. nia. }
      destruct C as [_ C]. destruct (C q Hq) as (_ & Es & HP). rewrite Q1, Q2, Q3 in HP.
      destruct (tr_labelled pa pb l0 l1 h0 h1 ld ldt w (lp_off q) ts ltac:(lia) ltac:(lia) HP RT) as (es & EM & LE).
      exists es, f0. split; [|rewrite Q1, Q2; exact LE].
      intros fuel Hf. unfold tr_piece. rewrite Q1, Q2, Q3, tr_tmp_ok, ET, Es by exact Hf. exact EM. }
    exists (concat rs), (Nat.max n n'). split.
    + intros fuel Hf. unfold ga_transpose. rewrite EA, EB, EE, Z.eqb_refl. cbn [length Nat.eqb andb].
      rewrite EI, EM by lia. reflexivity.
    + exists w. split; [exact EW|]. eapply cover_labelled; eauto.
  - exists ess, n. split; [exact E|]. eapply whole_labelled; eauto.
Qed.
