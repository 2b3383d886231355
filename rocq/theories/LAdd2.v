(** Lemmas: sums of arrays, process by process. *)
From Verif Require Import LRadix LDist LStrided LStrided2 LIterReg LIterReg3 LIterSca LStore LXfer LXfer2 LLoc LAccess LSelect LSelect2 LOdo LGcopy5.
From Verif Require Export LAdd LCpatch4.
Open Scope Z_scope.

Lemma same_vec_true u : forall v, same_vec u v = true <-> u = v.
Proof.
  induction u as [|x u IH]; intros [|y v]; cbn; split; intros H; try discriminate; auto.
  - apply andb_prop in H as [H1 H2]. apply Z.eqb_eq in H1. apply IH in H2. congruence.
  - injection H as -> ->. rewrite Z.eqb_refl. apply IH. reflexivity.
Qed.
Lemma comp_patch_same alo ahi blo bhi : length ahi = length alo -> length bhi = length blo -> length alo = length blo ->
  (comp_patch alo ahi blo bhi = true <-> alo = blo /\ ahi = bhi).
Proof.
  intros H1 H2 H3. unfold comp_patch. rewrite H3, Nat.min_id.
  rewrite !skipn_all2, !firstn_all2 by lia. cbn [same_vec andb]. rewrite andb_true_iff, !same_vec_true. tauto.
Qed.
Lemma comp_patch_refl lo hi : length hi = length lo -> comp_patch lo hi lo hi = true.
Proof. intros H. apply comp_patch_same; auto. Qed.
Lemma comp_patch_differ alo ahi clo chi : length ahi = length alo -> length chi = length clo -> differ alo ahi clo chi -> comp_patch alo ahi clo chi = false.
Proof.
  intros H1 H2 (i & L1 & L2 & HD). apply not_true_is_false. intros E. unfold comp_patch in E.
  apply andb_prop in E as [E E4]. apply andb_prop in E as [E E3]. apply same_vec_true in E3, E4.
  assert (NF : forall (u v : list Z), firstn (Nat.min (length alo) (length clo)) u = firstn (Nat.min (length alo) (length clo)) v -> nth i u 0 = nth i v 0).
  { intros u v E'. rewrite <- (firstn_skipn (Nat.min (length alo) (length clo)) u), <- (firstn_skipn (Nat.min (length alo) (length clo)) v).
    destruct (Nat.lt_ge_cases i (length u)) as [Lu|Lu].
    - assert (length (firstn (Nat.min (length alo) (length clo)) u) = length (firstn (Nat.min (length alo) (length clo)) v)) by congruence.
      rewrite !firstn_length in H. rewrite !app_nth1 by (rewrite firstn_length; lia). congruence.
    - assert (length (firstn (Nat.min (length alo) (length clo)) u) = length (firstn (Nat.min (length alo) (length clo)) v)) by congruence.
      rewrite !firstn_length in H. rewrite !nth_overflow; [reflexivity| |]; rewrite firstn_skipn; lia. }
  destruct HD as [HD|HD]; apply HD; apply NF; assumption.
Qed.

(** ---- the test of compatibility ---- *)
Lemma all_true_In l : all_true l = true <-> forall b, In b l -> b = true.
Proof.
  induction l as [|b l IH]; cbn; [split; auto; intros ? ? []|]. rewrite andb_true_iff, IH. split.
  - intros [-> H] x [<-|Hx]; auto.
  - intros H. split; [apply H; now left|intros x Hx; apply H; now right].
Qed.
Lemma compat_total wn a c alo ahi clo chi : wf_array a -> wf_array c -> ga_nproc a = wn -> ga_nproc c = wn ->
  exists b, compat wn a c alo ahi clo chi = Some b /\
    (b = true -> 1 <= wn -> comp_patch alo ahi clo chi = true /\
       forall p, 0 <= p < wn -> exists da dc, distribution (ga_desc a) p = Some da /\ distribution (ga_desc c) p = Some dc /\
         comp_patch (fst da) (snd da) (fst dc) (snd dc) = true).
Proof.
  intros WA WC NA NC. unfold compat.
  set (g := fun p => match distribution (ga_desc a) p, distribution (ga_desc c) p with
                     | Some da, Some dc => comp_patch (fst da) (snd da) (fst dc) (snd dc) && comp_patch alo ahi clo chi
                     | _, _ => false end).
  assert (TOT : forall p, 0 <= p < wn -> exists da dc, distribution (ga_desc a) p = Some da /\ distribution (ga_desc c) p = Some dc).
  { intros p Hp. destruct (regular_blocks_inside _ _ p (proj1 WA)) as (l & h & E & _); [lia|].
    destruct (regular_blocks_inside _ _ p (proj1 WC)) as (l' & h' & E' & _); [lia|]. eauto. }
  rewrite (LGcopy5.mapM_total _ g).
  2:{ intros p Hp. apply counts_In in Hp. destruct (TOT p Hp) as (da & dc & E & E'). unfold g. rewrite E, E'. reflexivity. }
  eexists. split; [reflexivity|]. intros HT Hw. rewrite all_true_In in HT.
  assert (ALL : forall p, 0 <= p < wn -> exists da dc, distribution (ga_desc a) p = Some da /\ distribution (ga_desc c) p = Some dc /\
    comp_patch (fst da) (snd da) (fst dc) (snd dc) && comp_patch alo ahi clo chi = true).
  { intros p Hp. destruct (TOT p Hp) as (da & dc & E & E'). exists da, dc. split; [exact E|]. split; [exact E'|].
    specialize (HT (g p) (in_map g _ p (proj2 (counts_In wn p) Hp))). unfold g in HT. rewrite E, E' in HT. exact HT. }
  split.
  - destruct (ALL 0 ltac:(lia)) as (da & dc & _ & _ & X). apply andb_prop in X. apply X.
  - intros p Hp. destruct (ALL p Hp) as (da & dc & E1 & E2 & X). apply andb_prop in X. exists da, dc. split; [exact E1|]. split; [exact E2|]. apply X.
Qed.
Lemma compat_aligned wn a c alo ahi clo chi : wf_array a -> wf_array c -> ga_nproc a = wn -> ga_nproc c = wn -> 1 <= wn ->
  patch_of (dims (ga_desc a)) alo ahi -> patch_of (dims (ga_desc c)) clo chi ->
  length (dims (ga_desc a)) = length (dims (ga_desc c)) \/ differ alo ahi clo chi ->
  compat wn a c alo ahi clo chi = Some true -> length (dims (ga_desc a)) = length (dims (ga_desc c)) /\ aligned a c alo ahi clo chi.
Proof.
  intros WA WC NA NC Hw PA PC HL HC. destruct (patch_lens _ _ _ PA) as [A1 A2]. destruct (patch_lens _ _ _ PC) as [C1 C2].
  destruct (compat_total wn a c alo ahi clo chi WA WC NA NC) as (b & E & X). rewrite HC in E. injection E as <-.
  destruct (X eq_refl Hw) as [X1 X2].
  assert (LE : length (dims (ga_desc a)) = length (dims (ga_desc c))).
  { destruct HL as [HL|HL]; [exact HL|]. rewrite comp_patch_differ in X1 by (auto; lia). discriminate. }
  split; [exact LE|]. apply comp_patch_same in X1 as [-> ->]; try lia. split; [reflexivity|]. split; [reflexivity|].
  intros p Hp. destruct (X2 p ltac:(lia)) as ([l h] & [l' h'] & E1 & E2 & E3). cbn [fst snd] in E3.
  pose proof (proj1 (proj1 WA)) as TA. pose proof (proj1 (proj1 WC)) as TC.
  pose proof (dist_len _ _ _ _ TA E1). pose proof (dist_len _ _ _ _ TC E2).
  pose proof (dist_len_dims _ _ _ _ TA E1). pose proof (dist_len_dims _ _ _ _ TC E2).
  apply comp_patch_same in E3 as [-> ->]; try lia. congruence.
Qed.

(** ---- the blocks of a process ---- *)
Lemma lin_ext ld ld' ext : (forall k, length k = length ext -> lin ld k = lin ld' k) ->
  map (lin ld) (indices ext) = map (lin ld') (indices ext).
Proof. intros H. apply map_ext_in. intros k Hk. apply H. apply indices_In in Hk. apply in_range0_length in Hk. lia. Qed.

(** Direct access to an array with the same blocks and ghost widths. *)
Lemma access_same guess near a w lo hi blo bhi : good_guess guess -> wf_array a -> ga_group a = None -> near w = true ->
  0 <= w < ga_nproc a -> distribution (ga_desc a) w = Some (blo, bhi) -> in_box blo bhi lo -> in_box blo bhi hi -> Forall2 Z.le lo hi ->
  exists off ld, access_ptr guess near a lo hi = Some (w, off, ld) /\ (length lo - 1 <= length ld)%nat /\
    (forall k, length k = length lo -> lin ld k = lin (padded blo bhi (ga_width a)) k) /\
    forall x, in_box lo hi x -> reg_place a x (w, off + lin (padded blo bhi (ga_width a)) (vsub x lo)).
Proof.
  intros HG WA HGr HN Hw ED Hlo Hhi Hle. assert (EW : abs_rank a w = Some w) by (unfold abs_rank; rewrite HGr; reflexivity).
  destruct (access_ptr_spec guess near a lo hi w blo bhi w HG WA Hw ED Hlo Hhi Hle EW HN) as (off & ld & EA & HP).
  pose proof (access_sub_ld guess near a lo hi w blo bhi w off ld HG WA Hw ED Hlo Hhi Hle EW HN EA) as HL.
  destruct (reg_cover guess near a w w lo hi HG WA) as (ps & EP & _ & C); auto.
  { split; [|split; [|exact Hle]].
    - destruct (regular_blocks_inside _ _ _ (proj1 WA) Hw) as (l & h & E & I). rewrite ED in E. injection E as <- <-. apply I, Hlo.
    - destruct (regular_blocks_inside _ _ _ (proj1 WA) Hw) as (l & h & E & I). rewrite ED in E. injection E as <- <-. apply I, Hhi. }
  assert (KL : forall k, length k = length lo -> lin ld k = lin (padded blo bhi (ga_width a)) k).
  { intros k Hk. apply HL. destruct (in_box_len _ _ _ Hlo). lia. }
  exists off, ld. split; [exact EA|]. split; [|split; [exact KL|]].
  - unfold patch_reg in EP. rewrite ED in EP. cbn [fst snd] in EP. destruct (in_box_len _ _ _ Hlo) as [L1 L2]. pose proof (Forall2_len _ _ _ Hle) as L3.
    pose proof (patch_intersect_spec lo hi blo bhi ltac:(lia) ltac:(lia) ltac:(lia)) as X.
    destruct (patch_intersect lo hi blo bhi) as [[l h]|] eqn:EI; cbn [fst snd] in *.
    2:{ destruct (X lo (lo_in_box _ _ Hle) Hlo). }
    destruct X as [X1 X2].
    assert (l = lo /\ h = hi) as [-> ->].
    { unfold patch_intersect in EI. destruct (le_some lo hi && le_some blo bhi); [|discriminate].
      destruct (le_some blo hi && le_some lo bhi); [|discriminate]. injection EI as <- <-. clear - Hlo Hhi. split.
      - revert blo bhi Hlo Hhi. revert hi. induction lo as [|a lo IH]; intros hi [|b blo] [|d bhi]; cbn; try tauto. intros [A B]. destruct hi as [|h hi]; [tauto|]. intros [C D].
        f_equal; [destruct (Z.ltb_spec b a); lia|eapply IH; eauto].
      - revert blo bhi lo Hlo Hhi. induction hi as [|h hi IH]; intros [|b blo] [|d bhi] [|a lo]; cbn; try tauto. intros [A B] [C D].
        f_equal; [destruct (Z.ltb_spec h d); lia|eapply IH; eauto]. }
    rewrite EA in EP. injection EP as <-. specialize (C _ (or_introl eq_refl)). destruct C as (_ & _ & _ & C & _). exact C.
  - intros x Hx. destruct (in_box_len _ _ _ Hx). rewrite <- KL by (rewrite vsub_length; lia). apply HP, Hx.
Qed.

Lemma indices_marked_any {E} (Q : list Z -> E -> Prop) lo hi h : Forall2 Z.le lo hi ->
  (forall x, in_box lo hi x -> Q x (h (vsub x lo))) ->
  marked Q (in_box lo hi) (map h (indices (extents lo hi))).
Proof.
  intros HLE HQ. pose proof (Forall2_len _ _ _ HLE) as HL.
  assert (M : marked (fun x k => k = vsub x lo) (in_box lo hi) (indices (extents lo hi))).
  { exists (map (fun k => (k, vadd k lo)) (indices (extents lo hi))). rewrite !map_map. cbn [fst snd]. rewrite map_id.
    assert (IN : forall k, In k (indices (extents lo hi)) -> in_range0 (extents lo hi) k /\ length k = length lo).
    { intros k Hk. apply indices_In in Hk. split; [exact Hk|]. apply in_range0_length in Hk. destruct (LXfer2.extents_pos _ _ HLE). lia. }
    split; [reflexivity|]. split.
    { apply NoDup_map_inj; [|apply indices_NoDup]. intros k k' Hk Hk' Eq. destruct (IN k Hk), (IN k' Hk').
      rewrite <- (vsub_vadd lo k), <- (vsub_vadd lo k'), Eq by lia. reflexivity. }
    split.
    - intros x. rewrite in_map_iff. split.
      + intros (k & <- & Hk). apply vadd_in_box; [exact HLE|apply IN, Hk].
      + intros Hx. destruct (vsub_in_range _ _ _ Hx) as [A B]. exists (vsub x lo). split; [exact B|apply indices_In, A].
    - intros e x Hin. apply in_map_iff in Hin as (k & Eq & Hk). injection Eq as <- <-. destruct (IN k Hk). symmetry. apply vsub_vadd. lia. }
  eapply marked_map; [|exact M]. intros x k Hx ->. apply HQ, Hx.
Qed.

Lemma add_local_marked {V} (sa : V -> V) acc guess near w ha av hb bv hc c clo chi :
  good_guess guess -> wf_array av -> wf_array bv -> wf_array c ->
  ga_group av = None -> ga_group bv = None -> ga_group c = None -> ga_nproc av = ga_nproc c -> ga_nproc bv = ga_nproc c ->
  length (dims (ga_desc av)) = length (dims (ga_desc c)) -> length (dims (ga_desc bv)) = length (dims (ga_desc c)) ->
  ga_width av = ga_width c -> ga_width bv = ga_width c ->
  distribution (ga_desc av) w = distribution (ga_desc c) w -> distribution (ga_desc bv) w = distribution (ga_desc c) w ->
  near w = true -> 0 <= w < ga_nproc c -> length clo = length (dims (ga_desc c)) -> length chi = length clo ->
  exists l, add_local guess near w ha av hb bv hc c clo chi = Some l /\
    marked (sums sa acc (fun u v => acc (sa u) v) ha hb hc (reg_place av) (reg_place bv) (reg_place c))
      (fun x => in_box clo chi x /\ exists ad, reg_place c x (w, ad)) l.
Proof.
  intros HG WA WB WC GA GB GC NA NB LA LB WdA WdB DA DB HN Hw L1 L2.
  destruct (regular_blocks_inside _ _ _ (proj1 WC) Hw) as (blo & bhi & ED & _).
  pose proof (proj1 (proj1 WC)) as TC. pose proof (dist_len _ _ _ _ TC ED) as BL. pose proof (dist_len_dims _ _ _ _ TC ED) as BD.
  assert (EW : abs_rank c w = Some w) by (unfold abs_rank; rewrite GC; reflexivity).
  unfold add_local. rewrite DA, DB, ED. cbn [fst snd]. rewrite LA, LB.
  replace (used_dims (length (dims (ga_desc c))) (length (dims (ga_desc c))) (length (dims (ga_desc c)))) with (length (dims (ga_desc c)))
    by (unfold used_dims; rewrite Nat.ltb_irrefl; reflexivity).
  rewrite !(firstn_all2 blo), !(firstn_all2 bhi), comp_patch_refl by lia. cbn [negb].
  unfold cut_patch. rewrite !(firstn_all2 clo), !(firstn_all2 chi), !(firstn_all2 blo), !(firstn_all2 bhi) by lia.
  pose proof (patch_intersect_spec clo chi blo bhi ltac:(lia) ltac:(lia) ltac:(lia)) as X.
  destruct (patch_intersect clo chi blo bhi) as [[lo hi]|]; cbn [fst snd] in *.
  2:{ exists []. split; [reflexivity|]. apply marked_nil. intros x [Hx Hy].
      apply (reg_place_unique c x w w blo bhi WC Hw EW ED) in Hy. exact (X x Hx Hy). }
  destruct X as [Hle HX]. destruct (proj1 (HX lo) (lo_in_box _ _ Hle)) as [A1 A2]. destruct (proj1 (HX hi) (box_refl_hi _ _ Hle)) as [B1 B2].
  destruct (in_box_len _ _ _ A2) as [N1 N2]. pose proof (Forall2_len _ _ _ Hle) as N3.
  rewrite (skipn_all2 blo), (skipn_all2 bhi), !app_nil_r by lia.
  unfold access_long. rewrite LA, LB.
  destruct (Nat.ltb_spec (length lo) (length (dims (ga_desc c)))); [lia|]. rewrite !(firstn_all2 lo), !(firstn_all2 hi) by lia.
  destruct (access_same guess near av w lo hi blo bhi HG WA GA HN ltac:(lia) (eq_trans DA ED) A2 B2 Hle) as (oa & lda & EA & _ & _ & PA).
  destruct (access_same guess near bv w lo hi blo bhi HG WB GB HN ltac:(lia) (eq_trans DB ED) A2 B2 Hle) as (ob & ldb & EB & _ & _ & PB).
  destruct (access_same guess near c w lo hi blo bhi HG WC GC HN Hw ED A2 B2 Hle) as (oc & ldc & EC & LC & KC & PC).
  rewrite EA, EB, EC. cbn [fst snd].
  rewrite patch_offsets_ok; [|intros ->; cbn in N1; pose proof (proj1 (proj2 (proj1 WC))); destruct (dims (ga_desc c)); [congruence|cbn in *; lia]|exact Hle|exact LC].
  eexists. split; [reflexivity|].
  rewrite (lin_ext ldc (padded blo bhi (ga_width c))) by (intros k Hk; apply KC; destruct (LXfer2.extents_pos _ _ Hle); lia).
  rewrite map_map. rewrite WdA in PA. rewrite WdB in PB.
  eapply marked_ext; [|apply indices_marked_any; [exact Hle|]].
  - intros x. rewrite (reg_place_unique c x w w blo bhi WC Hw EW ED). apply HX.
  - intros x Hx. apply sums_add; auto.
Qed.

Lemma acc_local_marked {V} (sa : V -> V) acc guess near w hb hc c clo chi :
  good_guess guess -> wf_array c -> ga_group c = None ->
  near w = true -> 0 <= w < ga_nproc c -> length clo = length (dims (ga_desc c)) -> length chi = length clo ->
  exists l, acc_local guess near w hb c hc c clo chi = Some l /\
    marked (sums sa acc acc hc hb hc (reg_place c) (reg_place c) (reg_place c))
      (fun x => in_box clo chi x /\ exists ad, reg_place c x (w, ad)) l.
Proof.
  intros HG WC GC HN Hw L1 L2.
  destruct (regular_blocks_inside _ _ _ (proj1 WC) Hw) as (blo & bhi & ED & _).
  pose proof (proj1 (proj1 WC)) as TC. pose proof (dist_len _ _ _ _ TC ED) as BL. pose proof (dist_len_dims _ _ _ _ TC ED) as BD.
  assert (EW : abs_rank c w = Some w) by (unfold abs_rank; rewrite GC; reflexivity).
  unfold acc_local. rewrite ED. cbn [fst snd].
  pose proof (patch_intersect_spec clo chi blo bhi ltac:(lia) ltac:(lia) ltac:(lia)) as X.
  destruct (patch_intersect clo chi blo bhi) as [[lo hi]|]; cbn [fst snd] in *.
  2:{ exists []. split; [reflexivity|]. apply marked_nil. intros x [Hx Hy].
      apply (reg_place_unique c x w w blo bhi WC Hw EW ED) in Hy. exact (X x Hx Hy). }
  destruct X as [Hle HX]. destruct (proj1 (HX lo) (lo_in_box _ _ Hle)) as [A1 A2]. destruct (proj1 (HX hi) (box_refl_hi _ _ Hle)) as [B1 B2].
  destruct (in_box_len _ _ _ A2) as [N1 N2]. pose proof (Forall2_len _ _ _ Hle) as N3.
  destruct (access_same guess near c w lo hi blo bhi HG WC GC HN Hw ED A2 B2 Hle) as (oc & ldc & EC & LC & KC & PC).
  rewrite EC. cbn [fst snd].
  rewrite patch_offsets_ok; [|intros ->; cbn in N1; pose proof (proj1 (proj2 (proj1 WC))); destruct (dims (ga_desc c)); [congruence|cbn in *; lia]|exact Hle|exact LC].
  eexists. split; [reflexivity|].
  rewrite (lin_ext ldc (padded blo bhi (ga_width c))) by (intros k Hk; apply KC; destruct (LXfer2.extents_pos _ _ Hle); lia).
  rewrite map_map.
  eapply marked_ext; [|apply indices_marked_any; [exact Hle|]].
  - intros x. rewrite (reg_place_unique c x w w blo bhi WC Hw EW ED). apply HX.
  - intros x Hx. apply sums_acc; auto.
Qed.

(** ---- block by block ---- *)
Lemma add_piece_marked {V} (sa : V -> V) acc ta tb hc (placed : list Z -> place -> Prop) w plo phi q :
  Forall2 Z.le (lp_lo q) (lp_hi q) -> lp_seg q = w ->
  (forall x, in_box (lp_lo q) (lp_hi q) x -> placed x (w, lp_off q + lin (lp_ld q) (vsub x (lp_lo q)))) ->
  (length (lp_lo q) - 1 <= length (lp_ld q))%nat ->
  plo <> [] -> length phi = length plo -> length (lp_lo q) = length plo ->
  exists cs, add_piece ta tb hc plo phi q = Some cs /\
    marked (sums sa acc (fun u v => acc (sa u) v) ta tb hc placed placed placed) (fun x => in_box (lp_lo q) (lp_hi q) x /\ in_box plo phi x) cs.
Proof.
  intros QL ES HPl LL Hne L1 L2. pose proof (Forall2_len _ _ _ QL) as L3. unfold add_piece.
  pose proof (patch_intersect_spec plo phi (lp_lo q) (lp_hi q) ltac:(lia) ltac:(lia) ltac:(lia)) as X.
  destruct (patch_intersect plo phi (lp_lo q) (lp_hi q)) as [[lo hi]|]; cbn [fst snd] in *.
  2:{ exists []. split; [reflexivity|]. apply marked_nil. intros x [A B]. exact (X x B A). }
  destruct X as [Hle HX]. destruct (proj1 (HX lo) (lo_in_box _ _ Hle)) as [A1 A2].
  destruct (in_box_len _ _ _ A2) as [N1 N2].
  rewrite corner_offset_lin; [|intros ->; destruct plo; [congruence|cbn in *; lia]|lia|lia].
  rewrite patch_offsets_ok; [|intros ->; destruct plo; [congruence|cbn in *; lia]|exact Hle|lia].
  eexists. split; [reflexivity|]. rewrite map_map.
  eapply marked_ext; [|apply indices_marked_any; [exact Hle|]].
  - intros x. rewrite HX. tauto.
  - intros x Hx. destruct (proj1 (HX x) Hx) as [X1 X2]. destruct (in_box_len _ _ _ X2). cbv zeta beta.
    assert (P : placed x (lp_seg q, lp_off q + 1 * lin (lp_ld q) (vsub lo (lp_lo q)) + lin (lp_ld q) (vsub x lo))).
    { rewrite ES, Z.mul_1_l, <- Z.add_assoc, <- (lin_ld_sub (lp_lo q) (lp_hi q) (lp_ld q) lo A2 x X2) by lia. apply HPl, X2. }
    apply sums_add; exact P.
Qed.
Lemma add_blocks_proc {V} (sa : V -> V) acc guess near wn ta tb hc a me w plo phi placed shape :
  good_guess guess -> walk_layout a wn placed shape -> 0 <= me < ga_nproc a -> abs_rank a me = Some w -> near w = true ->
  patch_of (dims (ga_desc a)) plo phi ->
  exists cs n, (forall fuel, (n <= fuel)%nat -> add_blocks fuel guess near wn ta tb hc a me plo phi = Some cs) /\
    marked (sums sa acc (fun u v => acc (sa u) v) ta tb hc placed placed placed) (fun x => in_box plo phi x /\ exists ad, placed x (w, ad)) cs.
Proof.
  intros HG HL Hme EW HN HP. destruct (patch_lens _ _ _ HP) as [P1 P2].
  destruct (layout_walk guess near wn a me w placed shape HG HL Hme EW HN) as (ps & n & EI & C & LS).
  pose proof (any_layout_dims _ _ _ _ (proj1 HL)) as Hne.
  set (Q := sums sa acc (fun u v => acc (sa u) v) ta tb hc placed placed placed).
  destruct (mapM_fuel (fun _ q => add_piece ta tb hc plo phi q)
      (fun q cs => marked Q (fun x => in_box (lp_lo q) (lp_hi q) x /\ in_box plo phi x) cs) ps) as (ls & n' & EM & F).
  { intros q Hq. destruct (piece_in_array _ _ _ _ _ C Hq) as (QL & Q1 & Q2). apply in_array_length in Q1.
    pose proof C as [_ C']. destruct (C' q Hq) as (_ & ES & HPl). specialize (LS q Hq).
    destruct (add_piece_marked sa acc ta tb hc placed w plo phi q) as (l & E & X); auto; try lia.
    - eapply ld_shape_long; eauto.
    - intros ->. destruct (dims (ga_desc a)); [congruence|discriminate].
    - exists l, 0%nat. split; [intros; exact E|exact X]. }
  exists (concat ls), (Nat.max n n'). split.
  { intros fuel Hf. unfold add_blocks. rewrite EI by lia. specialize (EM fuel ltac:(lia)). cbv beta in EM.
    change (fun q => add_piece ta tb hc plo phi q) with (add_piece ta tb hc plo phi) in EM. rewrite EM. reflexivity. }
  eapply marked_ext; [|apply (marked_tiles Q ps (fun q => (lp_lo q, lp_hi q)) (fun x => in_array (dims (ga_desc a)) x /\ exists ad, placed x (w, ad)) (in_box plo phi) ls (proj1 C))].
  - intros x. cbv beta. split; [tauto|]. intros [X Y]. split; [|exact X]. split; [eapply patch_in; eauto|exact Y].
  - exact F.
Qed.
