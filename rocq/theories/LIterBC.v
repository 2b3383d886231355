(** The simple block-cyclic iterator (C13). *)
From Verif Require Export LIterBlk.

Definition bc_visit (a : garray) (nn : Z) (lo hi : list Z) (st : bcstate)
  : option (option ipiece * bcstate) :=
  do b <- owns (ga_desc a) (bc_iblock st);
  if overlap (fst b) (snd b) lo hi then
    do p <- bc_piece a lo hi b st; Some (Some p, bc_advance a nn b st)
  else Some (None, bc_advance a nn b st).
Definition bc_done (a : garray) (st : bcstate) : bool := iter_nproc a <=? bc_iproc st.
Definition bc_norm (st : bcstate) : bcstate :=
  if bc_iblock st =? bc_iproc st then BCState (bc_iproc st) (bc_iblock st) 0 else st.

Lemma bc_next_scan a nn lo hi fuel st :
  bc_next fuel a nn lo hi st = scan_next (bc_visit a nn lo hi) (bc_done a) bc_norm fuel st.
Proof.
  unfold bc_next, scan_next, bc_done. destruct (_ <=? _); [reflexivity|].
  fold (bc_norm st). generalize (bc_norm st). clear st.
  induction fuel as [|fuel IH]; intros st; [reflexivity|].
  cbn [bc_loop scan_loop]. unfold bc_visit at 1.
  destruct (owns (ga_desc a) (bc_iblock st)) as [b|]; [|reflexivity]. cbv zeta.
  destruct (overlap _ _ lo hi).
  - destruct (bc_piece a lo hi b st); reflexivity.
  - destruct (_ <=? _); [reflexivity|]. apply IH.
Qed.

(** The blocks of process [p] in increasing order. *)
Definition column (a : garray) (p : Z) : list Z :=
  filter (fun k => match block_home (ga_nproc a) (ga_desc a) k with Some q => q =? p | None => false end)
         (zseq 0 (Z.to_nat (zprod (num_blocks (ga_desc a))))).
Definition before (a : garray) (p k : Z) : Z :=
  sizes_before (block_size (ga_desc a)) (block_home (ga_nproc a) (ga_desc a)) p (Z.to_nat k).

Lemma zsum_app l l' : zsum (l ++ l') = zsum l + zsum l'.
Proof. induction l as [|x l IH]; cbn in *; [reflexivity|rewrite IH; lia]. Qed.

Lemma before_column a p pre k suf : column a p = pre ++ k :: suf ->
  before a p k = zsum (map (block_size (ga_desc a)) pre).
Proof.
  intros E. unfold before. rewrite sizes_before_sum. f_equal. f_equal.
  eapply filter_zseq_split. exact E.
Qed.

Lemma column_In a p k : In k (column a p) <->
  0 <= k < zprod (num_blocks (ga_desc a)) /\ block_home (ga_nproc a) (ga_desc a) k = Some p.
Proof.
  unfold column. rewrite filter_In, zseq_In.
  destruct (block_home _ _ k) as [q|]; split; intros [H1 H2]; split; try lia; try discriminate.
  - f_equal. lia.
  - injection H2 as ->. lia.
Qed.

Section BC.
Variable a : garray.
Notation g := (ga_desc a).
Notation T := (zprod (num_blocks g)).
Notation N := (ga_nproc a).
Hypothesis HT : distr_type g = BLOCK_CYCLIC.
Hypothesis W : wf_blocked g.
Hypothesis HG : ga_group a = None.
Hypothesis HN : 1 <= N.
Hypothesis HNT : N <= T.
Variable lo hi : list Z.
Hypothesis Hle : Forall2 Z.le lo hi.
Hypothesis Hlo : in_array (dims g) lo.
Hypothesis Hhi : in_array (dims g) hi.

Let WB : wf_blocks g := or_introl W.
Notation Run := (run (bc_visit a N lo hi) (bc_done a) bc_norm).

Lemma bc_home_mod k : 0 <= k -> block_home N g k = Some (k mod N).
Proof.
  intros Hk. unfold block_home. rewrite HT. unfold cmod. destruct (Z.eqb_spec N 0); [lia|].
  rewrite Z.rem_mod_nonneg by lia. reflexivity.
Qed.

Lemma bc_nproc : iter_nproc a = N.
Proof. unfold iter_nproc, num_rstrctd. rewrite (wf_blocks_unrestricted g WB). reflexivity. Qed.

Definition bc_pc (k : Z) : list ipiece :=
  if overlap (fst (bx g k)) (snd (bx g k)) lo hi then
    let clo := patch_lo (fst (bx g k)) (snd (bx g k)) lo in
    let r := block_offset clo (fst (bx g k)) (snd (bx g k)) 1 in
    [IPiece (k mod N) (k mod N) clo (patch_hi (fst (bx g k)) (snd (bx g k)) hi)
            (fst r + before a (k mod N) k) (block_ld (fst (bx g k)) (snd (bx g k)) (snd r))]
  else [].

Lemma bc_visit_eq k : 0 <= k < T ->
  bc_visit a N lo hi (BCState (k mod N) k (before a (k mod N) k)) =
  Some (match bc_pc k with [q] => Some q | _ => None end,
        bc_advance a N (bx g k) (BCState (k mod N) k (before a (k mod N) k))).
Proof.
  intros Hk. unfold bc_visit, bc_pc. cbn [bc_iblock]. rewrite (bx_owns g k WB Hk).
  destruct (overlap _ _ lo hi); [|reflexivity].
  unfold bc_piece. cbn [bc_iblock bc_offset]. rewrite bc_nproc. unfold cmod.
  destruct (Z.eqb_spec N 0); [lia|]. rewrite Z.rem_mod_nonneg by lia.
  unfold ptr_owner, abs_rank. rewrite HG. reflexivity.
Qed.

Lemma mod_next k : (k + N) mod N = k mod N.
Proof. replace (k + N) with (k + 1 * N) by lia. apply Z.mod_add. lia. Qed.

Lemma column_next p pre k suf : column a p = pre ++ k :: suf ->
  (k + N < T /\ exists suf', suf = (k + N) :: suf') \/ (T <= k + N /\ suf = []).
Proof.
  clear HNT. intros E.
  assert (SS : StronglySorted Z.lt (column a p)) by (apply filter_sorted, zseq_sorted).
  assert (HI : forall j, In j (column a p) <-> 0 <= j < T /\ j mod N = p).
  { intros j. rewrite column_In. split; intros [H1 H2]; split; auto; rewrite bc_home_mod in * by lia; congruence. }
  assert (Hk : 0 <= k < T /\ k mod N = p) by (apply HI; rewrite E; apply in_app_iff; right; now left).
  rewrite E in SS.
  assert (SK : StronglySorted Z.lt (k :: suf)).
  { clear - SS. induction pre; [exact SS|]. inversion SS; auto. }
  assert (SP : forall j, In j pre -> j < k).
  { intros j Hj. clear - SS Hj. induction pre as [|x pre IH]; [contradiction|].
    inversion SS; subst. destruct Hj as [->|Hj]; [|auto].
    rewrite Forall_forall in H2. apply H2. apply in_app_iff. right. now left. }
  assert (HS : forall j, In j suf -> k + N <= j).
  { intros j Hj. inversion SK; subst. rewrite Forall_forall in H2. specialize (H2 _ Hj).
    assert (X : 0 <= j < T /\ j mod N = k mod N).
    { destruct Hk as [_ Hk]. rewrite Hk. apply HI. rewrite E. apply in_app_iff. right. now right. }
    destruct X as [X1 X2]. pose proof (Z.div_mod j N ltac:(lia)). pose proof (Z.div_mod k N ltac:(lia)).
    rewrite X2 in H. clear - H H0 H2 HN. generalize dependent (k mod N). intros r H H0.
    assert (k / N < j / N) by nia. nia. }
  destruct (Z_lt_ge_dec (k + N) T) as [L|L].
  - left. split; [exact L|].
    assert (X : In (k + N) (column a p)).
    { apply HI. split; [lia|]. rewrite mod_next. apply Hk. }
    rewrite E in X. apply in_app_iff in X as [X|[X|X]]; [specialize (SP _ X); lia|lia|].
    destruct suf as [|s suf']; [contradiction|]. exists suf'. f_equal.
    destruct X as [X|X]; [exact X|].
    assert (Y : s < k + N).
    { inversion SK as [|? ? SK1 _]; subst. inversion SK1 as [|? ? _ F]; subst.
      rewrite Forall_forall in F. apply F, X. }
    specialize (HS s (or_introl eq_refl)). lia.
  - right. split; [lia|]. destruct suf as [|s suf]; [reflexivity|].
    specialize (HS s (or_introl eq_refl)).
    assert (X : 0 <= s < T /\ s mod N = p) by (apply HI; rewrite E; apply in_app_iff; right; right; now left).
    lia.
Qed.

Lemma bc_column_run p m l : 0 <= p < N -> Run m (BCState (p + 1) (p + 1) 0) l ->
  forall suf pre k, column a p = pre ++ k :: suf ->
  exists n, Run n (BCState p k (before a p k)) (flat_map bc_pc (k :: suf) ++ l).
Proof.
  intros Hp HR. induction suf as [|k' suf IH]; intros pre k E.
  - destruct (column_next _ _ _ _ E) as [[_ (s & X)]|[HE _]]; [discriminate|].
    assert (Hk : 0 <= k < T /\ block_home N g k = Some p)
      by (apply column_In; rewrite E; apply in_app_iff; right; now left).
    destruct Hk as [Hk HH]. rewrite bc_home_mod in HH by lia. injection HH as HH.
    exists (S m). cbn [flat_map]. rewrite app_nil_r.
    pose proof (bc_visit_eq k Hk) as V. rewrite HH in V.
    assert (ES : bc_pc k ++ l = match match bc_pc k with [q] => Some q | _ => None end with
                                | Some q => q :: l | None => l end).
    { unfold bc_pc. destruct (overlap _ _ lo hi); reflexivity. }
    rewrite ES. eapply run_step; [| |exact V|].
    + unfold bc_done. rewrite bc_nproc. cbn [bc_iproc]. lia.
    + unfold bc_norm. cbn [bc_iblock bc_iproc]. destruct (Z.eqb_spec k p) as [->|]; [|reflexivity].
      rewrite (before_column _ _ _ _ _ E). destruct pre as [|x pre]; [reflexivity|]. exfalso.
      assert (X : 0 <= x < T /\ block_home N g x = Some p) by (apply column_In; rewrite E; now left).
      destruct X as [X1 X2]. rewrite bc_home_mod in X2 by lia. injection X2 as X2.
      assert (SS : StronglySorted Z.lt (column a p)) by (apply filter_sorted, zseq_sorted).
      rewrite E in SS. apply StronglySorted_inv in SS as [_ F]. rewrite Forall_forall in F.
      specialize (F p ltac:(apply in_app_iff; right; now left)). rewrite Z.mod_small in X2 by lia. lia.
    + unfold bc_advance. cbn [bc_iblock bc_iproc bc_offset].
      replace (T <=? k + N) with true by lia. exact HR.
  - destruct (column_next _ _ _ _ E) as [[HE (s & [= -> <-])]|[_ X]]; [|discriminate].
    destruct (IH (pre ++ [k]) (k + N)) as (n & R).
    { rewrite <- app_assoc. exact E. }
    assert (Hk : 0 <= k < T /\ block_home N g k = Some p)
      by (apply column_In; rewrite E; apply in_app_iff; right; now left).
    destruct Hk as [Hk HH]. rewrite bc_home_mod in HH by lia. injection HH as HH.
    exists (S n). cbn [flat_map] in *.
    pose proof (bc_visit_eq k Hk) as V. rewrite HH in V.
    rewrite <- app_assoc in *. cbn [app] in *.
    set (L := bc_pc (k + N) ++ flat_map bc_pc suf ++ l) in *.
    assert (ES : bc_pc k ++ L = match match bc_pc k with [q] => Some q | _ => None end with
                                | Some q => q :: L | None => L end).
    { unfold bc_pc. destruct (overlap _ _ lo hi); reflexivity. }
    replace (bc_pc k ++ (bc_pc (k + N) ++ flat_map bc_pc suf) ++ l) with (bc_pc k ++ L)
      by (unfold L; now rewrite !app_assoc).
    rewrite ES. eapply run_step; [| |exact V|].
    + unfold bc_done. rewrite bc_nproc. cbn [bc_iproc]. lia.
    + unfold bc_norm. cbn [bc_iblock bc_iproc]. destruct (Z.eqb_spec k p) as [->|]; [|reflexivity].
      rewrite (before_column _ _ _ _ _ E). destruct pre as [|x pre]; [reflexivity|]. exfalso.
      assert (X : 0 <= x < T /\ block_home N g x = Some p) by (apply column_In; rewrite E; now left).
      destruct X as [X1 X2]. rewrite bc_home_mod in X2 by lia. injection X2 as X2.
      assert (SS : StronglySorted Z.lt (column a p)) by (apply filter_sorted, zseq_sorted).
      rewrite E in SS. apply StronglySorted_inv in SS as [_ F]. rewrite Forall_forall in F.
      specialize (F p ltac:(apply in_app_iff; right; now left)). rewrite Z.mod_small in X2 by lia. lia.
    + unfold bc_advance. cbn [bc_iblock bc_iproc bc_offset].
      replace (T <=? k + N) with false by lia.
      replace (before a p k + count_elems (fst (bx g k)) (snd (bx g k))) with (before a p (k + N)); [exact R|].
      assert (E' : column a p = (pre ++ [k]) ++ (k + N) :: suf) by (rewrite <- app_assoc; exact E).
      rewrite (before_column _ _ _ _ _ E'), (before_column _ _ _ _ _ E), map_app, zsum_app.
      rewrite bx_size by auto. cbn. lia.
Qed.

Lemma bc_column_first p : 0 <= p < N -> exists suf, column a p = p :: suf /\ before a p p = 0.
Proof.
  intros Hp.
  assert (X : In p (column a p)).
  { apply column_In. split; [lia|]. rewrite bc_home_mod by lia. rewrite Z.mod_small by lia. reflexivity. }
  assert (SS : StronglySorted Z.lt (column a p)) by (apply filter_sorted, zseq_sorted).
  destruct (column a p) as [|x suf] eqn:E; [contradiction|].
  assert (x = p).
  { destruct X as [X|X]; [exact X|]. inversion SS; subst. rewrite Forall_forall in H2. specialize (H2 _ X).
    assert (Y : 0 <= x < T /\ block_home N g x = Some p) by (apply column_In; rewrite E; now left).
    destruct Y as [Y1 Y2]. rewrite bc_home_mod, Z.mod_small in Y2 by lia. congruence. }
  subst x. exists suf. split; [reflexivity|]. exact (before_column a p [] p suf E).
Qed.

Lemma bc_run d p : p + Z.of_nat d = N -> 0 <= p ->
  exists n, Run n (BCState p p 0) (flat_map (fun p => flat_map bc_pc (column a p)) (zseq p d)).
Proof.
  revert p. induction d as [|d IH]; intros p Hd Hp.
  - exists O. apply run_done. unfold bc_done. rewrite bc_nproc. cbn [bc_iproc]. lia.
  - destruct (IH (p + 1) ltac:(lia) ltac:(lia)) as (m & R).
    destruct (bc_column_first p ltac:(lia)) as (suf & E & E0).
    destruct (bc_column_run p m _ ltac:(lia) R suf [] p E) as (n & R'). rewrite E0 in R'.
    exists n. cbn [zseq flat_map]. rewrite E. exact R'.
Qed.

Theorem iterate_bc guess rnd :
  exists ps fuel0,
    (forall fuel, (fuel0 <= fuel)%nat -> iterate fuel guess rnd N a lo hi = Some ps) /\
    covers (block_place a) (block_shape a) ps lo hi.
Proof.
  destruct (bc_run (Z.to_nat N) 0 ltac:(lia) ltac:(lia)) as (n & R).
  rewrite <- flat_map_flat_map in R.
  exists (flat_map bc_pc (flat_map (column a) (zseq 0 (Z.to_nat N)))), (S n). split.
  - intros fuel Hf. unfold iterate. rewrite HT.
    rewrite (drain_ext _ (scan_next (bc_visit a N lo hi) (bc_done a) bc_norm fuel))
      by (intros; apply bc_next_scan).
    eapply run_drain; [exact R|lia|lia].
  - assert (PM : Permutation (flat_map (column a) (zseq 0 (Z.to_nat N))) (zseq 0 (Z.to_nat T))).
    { apply columns_perm; [lia|]. intros k Hk. rewrite Z2Nat.id in Hk by (pose proof (zprod_ge1 g WB); lia).
      exists (k mod N). split; [apply bc_home_mod; lia|apply Z.mod_pos_bound; lia]. }
    assert (KI : forall k, In k (flat_map (column a) (zseq 0 (Z.to_nat N))) <-> 0 <= k < T).
    { pose proof (zprod_ge1 g WB).
      intros k. split; intros H'.
      - eapply Permutation_in in H'; [|exact PM]. apply zseq_In in H'. lia.
      - eapply Permutation_in; [apply Permutation_sym; exact PM|]. apply zseq_In. lia. }
    pose proof (in_array_length _ _ Hlo) as Llo. pose proof (in_array_length _ _ Hhi) as Lhi.
    apply (blocks_cover lo hi (block_place a) (block_shape a) _ (bx g)).
    + lia.
    + eapply Permutation_NoDup; [apply Permutation_sym; exact PM|apply zseq_NoDup].
    + intros x Hx. destruct (bx_cover g x WB) as (k & Hk & Hb).
      { exact (in_array_between _ _ _ _ Hlo Hhi Hx). }
      exists k. split; [now apply KI|exact Hb].
    + intros k k' x Hk Hk'. apply KI in Hk. apply KI in Hk'. apply bx_disj; auto.
    + intros k Hk. apply KI in Hk.
      destruct (bx_length g k WB) as [L1 L2].
      destruct (overlap (fst (bx g k)) (snd (bx g k)) lo hi) eqn:EO.
      * right. unfold bc_pc. rewrite EO. eexists. split; [reflexivity|].
        destruct (overlap_true _ _ lo hi (bx_le g k WB Hk) Hle ltac:(lia) EO) as [P1 P2].
        cbn [ip_lo ip_hi ip_seg ip_proc ip_off ip_ld].
        split; [exact P1|]. split; [reflexivity|]. split; [exact P2|]. split.
        { intros x Hx. eapply block_piece_place; eauto; first [apply bc_home_mod; lia|unfold before; reflexivity|lia]. }
        apply (block_piece_shape a k _ [] 0 WB Hk). apply P2, lo_in_box, P1.
      * left. unfold bc_pc. rewrite EO. split; [reflexivity|].
        apply overlap_false; auto; [apply bx_le; auto|lia].
Qed.
End BC.
