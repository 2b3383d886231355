(** The iterator on arrays with a process grid (C14). *)
From Verif Require Export LIterBC.

Definition sl_visit (a : garray) (lo hi : list Z) (st : slstate)
  : option (option ipiece * slstate) :=
  do b <- grid_limits (ga_desc a) (sl_index st);
  do st' <- sl_advance (ga_desc a) b st;
  if overlap (fst b) (snd b) lo hi then
    do p <- sl_piece a lo hi b st; Some (Some p, st')
  else Some (None, st').
Definition sl_done (a : garray) (st : slstate) : bool := iter_nproc a <=? sl_iproc st.

Lemma sl_next_scan a lo hi fuel st :
  sl_next fuel a lo hi st = scan_next (sl_visit a lo hi) (sl_done a) (fun s => s) fuel st.
Proof.
  unfold sl_next, scan_next, sl_done. destruct (_ <=? _); [reflexivity|].
  revert st. induction fuel as [|fuel IH]; intros st; [reflexivity|].
  cbn [sl_loop scan_loop]. unfold sl_visit at 1.
  destruct (grid_limits (ga_desc a) (sl_index st)) as [b|]; [|reflexivity].
  destruct (sl_advance (ga_desc a) b st) as [st'|]; [|reflexivity].
  destruct (overlap _ _ lo hi).
  - destruct (sl_piece a lo hi b st); reflexivity.
  - destruct (_ <=? _); [reflexivity|]. apply IH.
Qed.

(** ---- the blocks of a grid process, in the order of the odometer ---- *)
Fixpoint hmax (nb grid pc : list Z) : list Z :=
  match nb, grid, pc with
  | n :: nb', g :: grid', p :: pc' => (n - 1 - p) / g :: hmax nb' grid' pc'
  | _, _, _ => []
  end.

Lemma hmax_gridok nb grid pc :
  Forall2 Z.le grid nb -> in_range0 grid pc -> gridok nb grid pc (hmax nb grid pc).
Proof.
  intros H. revert pc. induction H as [|g n grid nb Hgn H IH]; intros [|p pc] HR; cbn in HR; try contradiction; cbn; [exact I|].
  destruct HR as [Hp HR]. pose proof (Z.div_mod (n - 1 - p) g ltac:(lia)).
  pose proof (Z.mod_pos_bound (n - 1 - p) g ltac:(lia)).
  assert (0 <= (n - 1 - p) / g) by (apply Z.div_pos; lia).
  split; [lia|]. split; [lia|]. split; [lia|]. apply IH. exact HR.
Qed.

Lemma hmax_le nb grid pc : gridok nb grid pc (hmax nb grid pc) ->
  Forall2 Z.le (zeros (hmax nb grid pc)) (hmax nb grid pc).
Proof.
  revert grid pc. induction nb as [|n nb IH]; intros [|g grid] [|p pc]; cbn; try tauto; try constructor.
  - tauto.
  - apply IH. tauto.
Qed.

Lemma emb_range nb grid pc h t :
  gridok nb grid pc h -> in_range0 grid pc -> in_box (zeros h) h t -> in_range0 nb (emb pc grid t).
Proof.
  revert grid pc h t. induction nb as [|n nb IH]; intros [|g grid] [|p pc] [|m h] [|a t]; cbn; try tauto.
  intros (H1 & H2 & H3 & H4) [H5 H6] [H7 H8]. split; [nia|]. eapply IH; eauto.
Qed.

Lemma emb_vmod nb grid pc h t :
  gridok nb grid pc h -> in_range0 grid pc -> in_box (zeros h) h t -> vmod grid (emb pc grid t) = pc.
Proof.
  revert grid pc h t. induction nb as [|n nb IH]; intros [|g grid] [|p pc] [|m h] [|a t]; cbn; try tauto.
  intros (H1 & H2 & H3 & H4) [H5 H6] [H7 H8]. fold (vmod grid (emb pc grid t)). f_equal.
  - rewrite (Z.mul_comm g), Z.mod_add, Z.mod_small by lia. reflexivity.
  - eapply IH; eauto.
Qed.

Lemma emb_of_vmod nb grid pc h idx :
  gridok nb grid pc h -> in_range0 nb idx -> vmod grid idx = pc ->
  exists t, in_box (zeros h) h t /\ emb pc grid t = idx.
Proof.
  revert grid pc h idx. induction nb as [|n nb IH]; intros [|g grid] [|p pc] [|m h] [|i idx]; cbn; try tauto; try discriminate.
  - intros _ _ _. exists []. cbn. auto.
  - intros (H1 & H2 & H3 & H4) [H5 H6] [= H7 H8].
    destruct (IH grid pc h idx H4 H6 H8) as (t & Ht & Et).
    exists (i / g :: t). cbn. rewrite Et. pose proof (Z.div_mod i g ltac:(lia)).
    pose proof (Z.mod_pos_bound i g ltac:(lia)).
    assert (0 <= i / g) by (apply Z.div_pos; lia).
    split; [split; [nia|exact Ht]|]. f_equal. lia.
Qed.

Lemma emb_sorted nb grid pc h :
  gridok nb grid pc h -> in_range0 grid pc ->
  StronglySorted Z.lt (map (fun t => encode nb (emb pc grid t)) (box_list (zeros h) h)).
Proof.
  revert grid pc h. induction nb as [|n nb IH]; intros [|g grid] [|p pc] [|m h]; cbn [gridok in_range0]; try tauto.
  - intros _ _. cbn. repeat constructor.
  - intros (H1 & H2 & H3 & H4) [H5 H6]. specialize (IH grid pc h H4 H6).
    cbn [zeros map box_list]. fold (zeros h).
    assert (HS : forall ts, StronglySorted Z.lt (map (fun t => encode nb (emb pc grid t)) ts) ->
      StronglySorted Z.lt (map (fun t => encode (n :: nb) (emb (p :: pc) (g :: grid) t))
        (flat_map (fun t => map (fun a => a :: t) (zseq 0 (Z.to_nat (m - 0 + 1)))) ts))).
    { induction ts as [|t ts IHt]; cbn [map flat_map]; intros HS; [constructor|].
      apply StronglySorted_inv in HS as [HS HF]. rewrite map_app. apply app_sorted.
      - rewrite map_map. cbn [emb encode].
        assert (forall l k, 0 <= l -> StronglySorted Z.lt
          (map (fun x => p + g * x + n * encode nb (emb pc grid t)) (zseq l k))).
        { intros l k. revert l. induction k as [|k IHk]; intros l Hl; cbn [zseq map]; constructor; [apply IHk; lia|].
          apply Forall_forall. intros y Hy. apply in_map_iff in Hy as (x & <- & Hx). apply zseq_In in Hx. nia. }
        apply H; lia.
      - apply IHt. exact HS.
      - intros x y Hx Hy. apply in_map_iff in Hx as (t1 & <- & Hx). apply in_map_iff in Hx as (i & <- & Hi).
        apply in_map_iff in Hy as (t2 & <- & Hy). apply in_flat_map in Hy as (t' & Ht' & Hy).
        apply in_map_iff in Hy as (j & <- & Hj). apply zseq_In in Hi. apply zseq_In in Hj.
        rewrite Forall_forall in HF. specialize (HF _ (in_map (fun t => encode nb (emb pc grid t)) _ _ Ht')).
        cbv beta in HF. cbn [emb encode]. nia. }
    apply HS, IH.
Qed.

Section SL.
Variable a : garray.
Notation g := (ga_desc a).
Notation T := (zprod (num_blocks g)).
Notation N := (ga_nproc a).
Hypothesis WB : wf_blocks g.
Hypothesis WG : wf_grid N g.
Hypothesis HF : Forall2 Z.le (nblock g) (num_blocks g).
Notation pcoord p := (decode (nblock g) p).

Lemma sl_home k p : 0 <= k < T ->
  block_home N g k = Some p <-> 0 <= p < N /\ vmod (nblock g) (decode (num_blocks g) k) = pcoord p.
Proof.
  pose proof WG as (HW & HT & HL & Hpos & HN). intros Hk.
  destruct (wf_any_axes g HW) as (_ & _ & _ & Hnb & Hlen).
  pose proof (decode_range _ _ Hnb Hk) as Hr.
  pose proof (find_indices_decode _ k Hnb ltac:(lia)) as Ei.
  destruct (mod_indices_spec (nblock g) (decode (num_blocks g) k)) as (Em & Hrm); auto.
  { eapply in_range0_nonneg; eauto. } { rewrite decode_length; congruence. }
  assert (E : block_home N g k = Some (encode (nblock g) (vmod (nblock g) (decode (num_blocks g) k)))).
  { unfold block_home. destruct (distr_type g); try congruence;
      rewrite Ei; unfold find_proc_from_indices; rewrite Em, horner_encode by (apply in_range0_length; auto); auto. }
  rewrite E. pose proof (encode_range _ _ Hrm) as He. split.
  - intros [= <-]. split; [lia|]. rewrite decode_encode by auto. reflexivity.
  - intros [Hp ->]. f_equal. apply encode_decode; auto. lia.
Qed.

Lemma sl_pos : Forall (fun n => 1 <= n) (num_blocks g) /\ length (num_blocks g) = length (dims g).
Proof. destruct (wf_any_axes g (wf_blocks_any g WB)) as (_ & _ & _ & H & H'). auto. Qed.

Lemma sl_pcoord p : 0 <= p < N -> in_range0 (nblock g) (pcoord p).
Proof. pose proof WG as (HW & HT & HL & Hpos & HN). intros. apply decode_range; auto. lia. Qed.

Definition hs (p : Z) : list Z := hmax (num_blocks g) (nblock g) (pcoord p).
Lemma hs_ok p : 0 <= p < N -> gridok (num_blocks g) (nblock g) (pcoord p) (hs p).
Proof. intros Hp. apply hmax_gridok; [exact HF|apply sl_pcoord; auto]. Qed.
Definition bidx (p : Z) (t : list Z) : list Z := emb (pcoord p) (nblock g) t.

Lemma sl_column p : 0 <= p < N ->
  column a p = map (fun t => encode (num_blocks g) (bidx p t)) (box_list (zeros (hs p)) (hs p)).
Proof.
  intros Hp. pose proof (hs_ok p Hp) as G. pose proof (sl_pcoord p Hp) as R. destruct sl_pos as [Hnb _].
  apply sorted_unique.
  - apply filter_sorted, zseq_sorted.
  - apply emb_sorted; auto.
  - intros k. rewrite column_In, in_map_iff. split.
    + intros [Hk HH]. apply sl_home in HH as [_ HV]; [|exact Hk].
      destruct (emb_of_vmod _ _ _ _ _ G (decode_range _ _ Hnb Hk) HV) as (t & Ht & Et).
      exists t. split; [unfold bidx; rewrite Et; apply encode_decode; auto|].
      apply box_list_In; [|exact Ht]. unfold zeros. apply map_length.
    + intros (t & <- & Ht). apply box_list_In in Ht; [|unfold zeros; apply map_length].
      pose proof (emb_range _ _ _ _ _ G R Ht) as RI. pose proof (encode_range _ _ RI) as RE.
      split; [exact RE|]. apply sl_home; [exact RE|]. split; [exact Hp|]. rewrite decode_encode by exact RI.
      eapply emb_vmod; eauto.
Qed.

Lemma sl_limits k : 0 <= k < T -> grid_limits g (decode (num_blocks g) k) = Some (bx g k).
Proof.
  intros Hk. destruct sl_pos as [Hnb HL]. pose proof (decode_range _ _ Hnb Hk) as Hr.
  unfold grid_limits, bx, axes_of.
  destruct WB as [(HT & Hne & HB & HG & _)|[(HT & Hne & HV & _) _]].
  - pose proof WG as (_ & HNB & _). assert (length (decode (num_blocks g) k) = length (dims g)) by (rewrite decode_length; lia).
    destruct HT as [HT|[HT|HT]]; [congruence| |]; rewrite HT; apply bd_limits_axes; auto.
  - rewrite HT. clear - HV Hr. revert HV Hr. generalize (decode (num_blocks g) k).
    generalize (mapc g), (num_blocks g). induction (dims g) as [|d ds IH]; intros m [|n nb] [|i is];
      cbn [valid_maps in_range0 it_irreg_limits]; try tauto.
    intros [H1 H2] [Hi His]. pose proof H1 as (Hd & Hn & Hl & _).
    rewrite (zget_nth m i) by lia. unfold zdrop. rewrite IH by auto.
    cbn [map_axes blo bhi fst snd map_axis alo ahi].
    destruct (Z.eqb_spec i (n - 1)); auto.
    rewrite (zget_nth m (i + 1)) by lia. auto.
Qed.

Lemma sl_nproc : iter_nproc a = N.
Proof. unfold iter_nproc, num_rstrctd. rewrite (wf_blocks_unrestricted g WB). reflexivity. Qed.

Variable lo hi : list Z.
Hypothesis Hle : Forall2 Z.le lo hi.
Hypothesis Hlo : in_array (dims g) lo.
Hypothesis Hhi : in_array (dims g) hi.
Variable placed : list Z -> place -> Prop.
Variable shape : list Z -> Prop.

Notation Run := (run (sl_visit a lo hi) (sl_done a) (fun s => s)).

Hypothesis HPC : forall p k, 0 <= p < N -> 0 <= k < T -> block_home N g k = Some p ->
  overlap (fst (bx g k)) (snd (bx g k)) lo hi = true ->
  exists q, sl_piece a lo hi (bx g k) (SLState p (before a p k) (pcoord p) (decode (num_blocks g) k)) = Some q /\
    ip_lo q = patch_lo (fst (bx g k)) (snd (bx g k)) lo /\
    ip_hi q = patch_hi (fst (bx g k)) (snd (bx g k)) hi /\
    ip_seg q = ip_proc q /\
    (forall x, in_box (ip_lo q) (ip_hi q) x -> placed x (ip_proc q, ip_off q + lin (ip_ld q) (vsub x (ip_lo q)))) /\
    exists sh, shape sh /\ forall k, length k = length (ip_lo q) -> lin (ip_ld q) k = lin sh k.

Definition sl_pc (k : Z) : list ipiece :=
  if overlap (fst (bx g k)) (snd (bx g k)) lo hi then
    match block_home N g k with
    | Some p =>
        match sl_piece a lo hi (bx g k) (SLState p (before a p k) (pcoord p) (decode (num_blocks g) k)) with
        | Some q => [q]
        | None => []
        end
    | None => []
    end
  else [].

Lemma sl_visit_eq p k st' : 0 <= p < N -> 0 <= k < T -> block_home N g k = Some p ->
  sl_advance g (bx g k) (SLState p (before a p k) (pcoord p) (decode (num_blocks g) k)) = Some st' ->
  exists o, sl_visit a lo hi (SLState p (before a p k) (pcoord p) (decode (num_blocks g) k)) = Some (o, st') /\
    forall l, sl_pc k ++ l = match o with Some q => q :: l | None => l end.
Proof.
  intros Hp Hk HH EA. unfold sl_visit. cbn [sl_index]. rewrite (sl_limits k Hk), EA.
  unfold sl_pc. destruct (overlap _ _ lo hi) eqn:EO.
  - destruct (HPC p k Hp Hk HH EO) as (q & Eq & _). rewrite HH, Eq. exists (Some q). split; reflexivity.
  - exists None. split; reflexivity.
Qed.

Lemma sl_enter_eq p : 0 <= p -> sl_enter g p = Some (SLState p 0 (pcoord p) (pcoord p)).
Proof.
  pose proof WG as (_ & _ & _ & Hpos & _). intros Hp. unfold sl_enter.
  rewrite find_indices_decode by auto. reflexivity.
Qed.

Lemma sl_column_run p m l : 0 <= p < N ->
  Run m (SLState (p + 1) 0 (pcoord (p + 1)) (pcoord (p + 1))) l ->
  forall suf pre t, box_list (zeros (hs p)) (hs p) = pre ++ t :: suf ->
  let kk := map (fun t => encode (num_blocks g) (bidx p t)) in
  exists n, Run n (SLState p (zsum (map (block_size g) (kk pre))) (pcoord p) (bidx p t))
                  (flat_map sl_pc (kk (t :: suf)) ++ l).
Proof.
  intros Hp HR suf pre t E kk. revert pre t E. 
  pose proof (hs_ok p Hp) as G. pose proof (sl_pcoord p Hp) as R. destruct sl_pos as [Hnb HLnb].
  pose proof (hmax_le _ _ _ G) as HZ. fold (hs p) in HZ.
  assert (HN0 : forall t', in_box (zeros (hs p)) (hs p) t' -> t' <> []).
  { intros t' Ht'. destruct t'; [|discriminate]. intros _. pose proof (emb_range _ _ _ _ _ G R Ht') as X.
    apply in_range0_length in X. unfold emb in X. pose proof (wf_blocks_dims g WB).
    destruct (pcoord p), (nblock g), (num_blocks g), (dims g); cbn in *; congruence. }
  induction suf as [|t' suf IH]; intros pre t E.
  all: assert (Ht : in_box (zeros (hs p)) (hs p) t)
    by (apply box_list_In; [unfold zeros; apply map_length|rewrite E; apply in_app_iff; right; now left]).
  all: pose proof (emb_range _ _ _ _ _ G R Ht) as RI; fold (bidx p t) in RI; pose proof (encode_range _ _ RI) as RE.
  all: set (k := encode (num_blocks g) (bidx p t)) in *.
  all: assert (HH : block_home N g k = Some p)
    by (apply sl_home; [exact RE|split; [exact Hp|unfold k; rewrite decode_encode by exact RI; eapply emb_vmod; eauto]]).
  all: assert (EB : before a p k = zsum (map (block_size g) (kk pre)))
    by (assert (EC : exists r, column a p = kk pre ++ k :: r)
          by (rewrite sl_column, E by exact Hp; unfold kk; rewrite map_app; cbn [map]; eexists; reflexivity);
        destruct EC as (r & EC); rewrite (before_column _ _ _ _ _ EC); reflexivity).
  all: assert (ED : decode (num_blocks g) k = bidx p t) by (apply decode_encode; exact RI).
  all: destruct (carry_true _ _ _ _ t G Ht (HN0 t Ht)) as [C1 C2].
  all: destruct (box_list_step _ _ _ _ _ HZ E) as [[X1 X2]|(suf' & X1 & X2)]; try discriminate.
  - exists (S m). cbn [kk map flat_map]. fold k. rewrite app_nil_r.
    destruct (sl_visit_eq p k (SLState (p + 1) 0 (pcoord (p + 1)) (pcoord (p + 1))) Hp RE HH) as (o & V & Eo).
    { unfold sl_advance. cbn [sl_pidx sl_index sl_iproc sl_offset]. rewrite ED. unfold bidx.
      rewrite (C1 X2). apply sl_enter_eq. lia. }
    rewrite Eo. rewrite EB, ED in V.
    eapply run_step; [unfold sl_done; rewrite sl_nproc; cbn [sl_iproc]; lia|reflexivity|exact V|exact HR].
  - injection X1 as -> <-. destruct (C2 X2) as [C3 C4].
    destruct (IH (pre ++ [t]) (update_sub t (zeros (hs p)) (hs p))) as (n & RN).
    { rewrite <- app_assoc. exact E. }
    exists (S n).
    destruct (sl_visit_eq p k (SLState p (zsum (map (block_size g) (kk (pre ++ [t])))) (pcoord p)
               (bidx p (update_sub t (zeros (hs p)) (hs p)))) Hp RE HH) as (o & V & Eo).
    { unfold sl_advance. cbn [sl_pidx sl_index sl_iproc sl_offset]. rewrite ED. unfold bidx.
      rewrite C4, C3. f_equal. f_equal. unfold kk. rewrite !map_app, zsum_app. cbn [map zsum]. fold (bidx p t). fold k.
      rewrite EB, bx_size by auto. unfold kk. lia. }
    cbn [kk map flat_map] in RN |- *. fold k. rewrite <- !app_assoc in *. rewrite Eo. rewrite EB, ED in V.
    eapply run_step; [unfold sl_done; rewrite sl_nproc; cbn [sl_iproc]; lia|reflexivity|exact V|exact RN].
Qed.

Lemma emb_zeros nb grid pc h : gridok nb grid pc h -> emb pc grid (zeros h) = pc.
Proof.
  revert grid pc h. induction nb as [|n nb IH]; intros [|q grid] [|p pc] [|m h]; cbn [gridok]; try tauto.
  intros (_ & _ & _ & H). cbn [zeros map emb]. fold (zeros h). rewrite (IH _ _ _ H). f_equal. lia.
Qed.

Lemma sl_run d p : p + Z.of_nat d = N -> 0 <= p ->
  exists n, Run n (SLState p 0 (pcoord p) (pcoord p)) (flat_map (fun p => flat_map sl_pc (column a p)) (zseq p d)).
Proof.
  revert p. induction d as [|d IH]; intros p Hd Hp.
  - exists O. apply run_done. unfold sl_done. rewrite sl_nproc. cbn [sl_iproc]. lia.
  - destruct (IH (p + 1) ltac:(lia) ltac:(lia)) as (m & R).
    pose proof (hs_ok p ltac:(lia)) as G. pose proof (hmax_le _ _ _ G) as HZ. fold (hs p) in HZ.
    destruct (box_list_first _ _ HZ) as (suf & E).
    destruct (sl_column_run p m _ ltac:(lia) R suf [] _ E) as (n & R'). cbn [map zsum] in R'.
    unfold bidx at 1 in R'. rewrite (emb_zeros _ _ _ _ G) in R'.
    exists n. cbn [zseq flat_map]. rewrite (sl_column p ltac:(lia)), E. exact R'.
Qed.

Theorem iterate_sl guess rnd nn :
  exists ps fuel0,
    (forall fuel, (fuel0 <= fuel)%nat -> iterate fuel guess rnd nn a lo hi = Some ps) /\
    covers placed shape ps lo hi.
Proof.
  pose proof WG as (HW & HNB & HL & Hpos & HNp).
  assert (HN : 1 <= N) by (rewrite <- HNp; apply zprod_pos; auto).
  destruct (sl_run (Z.to_nat N) 0 ltac:(lia) ltac:(lia)) as (n & R).
  rewrite <- flat_map_flat_map in R.
  exists (flat_map sl_pc (flat_map (column a) (zseq 0 (Z.to_nat N)))), (S n). split.
  - intros fuel Hf. unfold iterate, sl_init. rewrite sl_enter_eq by lia.
    assert (ED : drain (sl_next fuel a lo hi) fuel (SLState 0 0 (pcoord 0) (pcoord 0)) =
                 Some (flat_map sl_pc (flat_map (column a) (zseq 0 (Z.to_nat N))))).
    { rewrite (drain_ext _ (scan_next (sl_visit a lo hi) (sl_done a) (fun s => s) fuel))
        by (intros; apply sl_next_scan).
      eapply run_drain; [exact R|lia|lia]. }
    assert (HT : distr_type g <> REGULAR /\ distr_type g <> BLOCK_CYCLIC).
    { destruct WB as [([HT|[HT|HT]] & _)|[(HT & _) _]]; split; congruence. }
    destruct (distr_type g); try tauto; exact ED.
  - assert (PM : Permutation (flat_map (column a) (zseq 0 (Z.to_nat N))) (zseq 0 (Z.to_nat T))).
    { apply columns_perm; [lia|]. intros k Hk. rewrite Z2Nat.id in Hk by (pose proof (zprod_ge1 g WB); lia).
      destruct (grid_home N g k WG Hk) as (p & _ & _ & _ & H1 & H2 & _). exists p. auto. }
    assert (KI : forall k, In k (flat_map (column a) (zseq 0 (Z.to_nat N))) <-> 0 <= k < T).
    { pose proof (zprod_ge1 g WB).
      intros k. split; intros H'.
      - eapply Permutation_in in H'; [|exact PM]. apply zseq_In in H'. lia.
      - eapply Permutation_in; [apply Permutation_sym; exact PM|]. apply zseq_In. lia. }
    pose proof (in_array_length _ _ Hlo) as Llo. pose proof (in_array_length _ _ Hhi) as Lhi.
    apply (blocks_cover lo hi placed shape _ (bx g)).
    + lia.
    + eapply Permutation_NoDup; [apply Permutation_sym; exact PM|apply zseq_NoDup].
    + intros x Hx. destruct (bx_cover g x WB) as (k & Hk & Hb).
      { exact (in_array_between _ _ _ _ Hlo Hhi Hx). }
      exists k. split; [now apply KI|exact Hb].
    + intros k k' x Hk Hk'. apply KI in Hk. apply KI in Hk'. apply bx_disj; auto.
    + intros k Hk. apply KI in Hk.
      destruct (bx_length g k WB) as [L1 L2].
      destruct (overlap (fst (bx g k)) (snd (bx g k)) lo hi) eqn:EO.
      * right. unfold sl_pc. rewrite EO.
        destruct (grid_home N g k WG Hk) as (p & _ & _ & _ & H1 & H2 & _).
        destruct (HPC p k H2 Hk H1 EO) as (q & Eq & E1 & E2 & E3 & E4). rewrite H1, Eq.
        exists q. split; [reflexivity|].
        destruct (overlap_true _ _ lo hi (bx_le g k WB Hk) Hle ltac:(lia) EO) as [P1 P2].
        split; [rewrite E1, E2; exact P1|]. split; [exact E3|]. split; [rewrite E1, E2; exact P2|exact E4].
      * left. unfold sl_pc. rewrite EO. split; [reflexivity|].
        apply overlap_false; auto; [apply bx_le; auto|lia].
Qed.
End SL.

(** Tiled arrays: blocks are stored one after the other. *)
Theorem iterate_tiled a lo hi guess rnd nn :
  distr_type (ga_desc a) <> SCALAPACK ->
  wf_blocks (ga_desc a) -> wf_grid (ga_nproc a) (ga_desc a) -> ga_group a = None ->
  Forall2 Z.le (nblock (ga_desc a)) (num_blocks (ga_desc a)) ->
  Forall2 Z.le lo hi -> in_array (dims (ga_desc a)) lo -> in_array (dims (ga_desc a)) hi ->
  exists ps fuel0,
    (forall fuel, (fuel0 <= fuel)%nat -> iterate fuel guess rnd nn a lo hi = Some ps) /\
    covers (block_place a) (block_shape a) ps lo hi.
Proof.
  intros HD WB WG HG HF Hle Hlo Hhi. apply iterate_sl; auto.
  intros p k Hp Hk HH EO. unfold sl_piece. cbn [sl_pidx sl_index sl_iproc sl_offset].
  pose proof WG as (_ & HNB & _ & Hpos & HNp).
  assert (1 <= ga_nproc a) by (rewrite <- HNp; apply zprod_pos; auto).
  rewrite (sl_nproc a WB).
  assert (E : cmod p (ga_nproc a) = Some p).
  { unfold cmod. destruct (Z.eqb_spec (ga_nproc a) 0); [lia|]. rewrite Z.rem_small by lia. reflexivity. }
  unfold num_rstrctd. rewrite (wf_blocks_unrestricted _ WB). cbn [length Z.of_nat Z.ltb Z.compare].
  rewrite E. unfold ptr_owner, abs_rank. rewrite HG.
  assert (HX : forall A (u v : A), match distr_type (ga_desc a) with SCALAPACK => u | _ => v end = v)
    by (intros; destruct (distr_type (ga_desc a)); congruence).
  rewrite HX. eexists. split; [reflexivity|]. cbn [ip_lo ip_hi ip_seg ip_proc ip_off ip_ld fst snd].
  split; [reflexivity|]. split; [reflexivity|]. split; [reflexivity|].
  pose proof (in_array_length _ _ Hlo) as Llo. split.
  { intros x Hx. eapply block_piece_place; eauto. }
  destruct (bx_length (ga_desc a) k WB) as [L1 L2].
  destruct (overlap_true _ _ lo hi (bx_le (ga_desc a) k WB Hk) Hle ltac:(lia) EO) as [P1 P2].
  apply (block_piece_shape a k _ [] 0 WB Hk). apply P2, lo_in_box, P1.
Qed.
