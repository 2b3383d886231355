(** The REGULAR iterator: correctness of the whole scan (C11, C46). *)
From Verif Require Export LIterReg2.

Lemma dist_dims nproc g p lo hi : wf_regular nproc g -> 0 <= p < nproc ->
  distribution g p = Some (lo, hi) -> forall x, in_box lo hi x -> length x = length (dims g).
Proof.
  intros W Hp E x Hx. destruct (regular_blocks_inside nproc g p W Hp) as (lo' & hi' & E' & H).
  rewrite E in E'. injection E' as <- <-. apply in_array_length. auto.
Qed.

Lemma abs_rank_ok a p : wf_group a -> 0 <= p < ga_nproc a -> exists q, abs_rank a p = Some q.
Proof.
  intros HG Hp. unfold abs_rank, wf_group in *. destruct (ga_group a) as [l|]; [|eauto].
  destruct HG as [_ HL]. rewrite (zget_Some l p 0) by lia. eauto.
Qed.

Lemma abs_rank_inj a p p' q : wf_group a -> abs_rank a p = Some q -> abs_rank a p' = Some q -> p = p'.
Proof.
  intros HG. unfold abs_rank, wf_group in *. destruct (ga_group a) as [l|]; [|congruence].
  intros. eapply NoDup_zget; [apply HG|eassumption|eassumption].
Qed.

Lemma reg_location a o dlo dhi y :
  wf_array a -> 0 <= o < ga_nproc a -> distribution (ga_desc a) o = Some (dlo, dhi) ->
  in_box dlo dhi y ->
  exists rank q ld,
    (if num_rstrctd (ga_desc a) =? 0 then Some o else zget (rank_rstrctd (ga_desc a)) o) = Some rank /\
    abs_rank a o = Some q /\
    location a rank y = Some (q, lin (padded dlo dhi (ga_width a)) (vadd (vsub y dlo) (ga_width a)), ld) /\
    forall k, length k = length y -> lin ld k = lin (padded dlo dhi (ga_width a)) k.
Proof.
  intros (WR & HW & HW0 & HG & HE) Ho ED Hy.
  pose proof (dist_dims _ _ _ _ _ WR Ho ED y Hy) as HL.
  assert (Hne : y <> []).
  { intros ->. destruct WR as (_ & Hd & _). destruct (dims (ga_desc a)); [congruence|discriminate]. }
  destruct (abs_rank_ok a o HG Ho) as (q & Hq).
  destruct (loc_loop_spec y dlo dhi (ga_width a) 1 Hy ltac:(lia) Hne) as (ld & EL & Hld).
  assert (HLD : forall k, length k = length y ->
     lin match dlo, dhi, ga_width a with [l], [h], [w] => [h - l + 1 + 2 * w] | _, _, _ => ld end k
     = lin (padded dlo dhi (ga_width a)) k).
  { intros k Hk. specialize (Hld k Hk). destruct (in_box_len _ _ _ Hy) as [L1 L2].
    destruct dlo as [|l [|l' dlo]]; try exact Hld.
    destruct dhi as [|h [|h' dhi]], (ga_width a) as [|w [|w' ws]]; try exact Hld; reflexivity. }
  unfold location, ptr_owner. unfold distribution in ED.
  destruct (0 <? num_rstrctd (ga_desc a)) eqn:ER.
  - replace (num_rstrctd (ga_desc a) =? 0) with false by lia.
    destruct (zget (rank_rstrctd (ga_desc a)) o) as [rank|] eqn:Er; [|discriminate].
    exists rank, q, match dlo, dhi, ga_width a with [l], [h], [w] => [h - l + 1 + 2 * w] | _, _, _ => ld end.
    split; [reflexivity|]. split; [exact Hq|]. split; [|exact HLD].
    rewrite ED. cbn [fst snd]. rewrite EL.
    destruct WR as (HT & Hd & HV & [[Hn _]|(Hn & ND & SR & HZ)]).
    { unfold num_rstrctd in ER. rewrite Hn in ER. discriminate. }
    pose proof (set_ranks_spec _ _ _ _ ND SR) as (S1 & S2 & S3 & S4).
    destruct (in_dec Z.eq_dec o (rstrctd_list (ga_desc a))) as [Hin|Hout].
    + destruct (In_zget _ _ Hin) as (k & Hk & Gk). specialize (S2 k o Gk).
      assert (rank = k) by (rewrite Er in S2; injection S2; lia). subst rank. rewrite Gk.
      rewrite Hq. cbn [fst snd]. rewrite Z.mul_1_l. reflexivity.
    + rewrite S3 in Er by exact Hout. rewrite repeat_length in S1.
      rewrite zget_repeat in Er by lia. injection Er as <-.
      exfalso. unfold owns in ED. rewrite HT in ED.
      replace (num_rstrctd (ga_desc a) =? 0) with false in ED by lia.
      replace (-1 <? num_rstrctd (ga_desc a)) with true in ED by lia.
      unfold owns_no_handle in ED.
      replace ((zprod (nblock (ga_desc a)) - 1 <? -1) || (-1 <? 0)) with true in ED by lia.
      injection ED as <- <-. exact (in_box_empty _ _ Hd Hy).
  - assert (E0 : num_rstrctd (ga_desc a) = 0) by (unfold num_rstrctd in *; lia).
    rewrite E0 in *. cbn [Z.eqb].
    exists o, q, match dlo, dhi, ga_width a with [l], [h], [w] => [h - l + 1 + 2 * w] | _, _, _ => ld end.
    split; [reflexivity|]. split; [exact Hq|]. split; [|exact HLD].
    rewrite ED. cbn [fst snd]. rewrite EL, Hq. cbn [fst snd]. rewrite Z.mul_1_l. reflexivity.
Qed.

(** ---- one visit ---- *)
Definition reg_visit (a : garray) (pl : list piece) (perm : list Z) (st : rstate)
  : option (option ipiece * rstate) :=
  do p <- zget perm (r_count st);
  do pc <- zget pl p;
  let owner := fst pc in
  let blo := fst (snd pc) in
  let bhi := snd (snd pc) in
  if range_ok blo bhi then
    do over <- match r_over st with
               | Some sp => Some (Some sp)
               | None => start_split (ga_elemsize a) blo bhi
               end;
    let lo' := match over with Some sp => sub_lo blo (sp_inc sp) (sp_size sp) | None => blo end in
    let hi' := match over with Some sp => sub_hi lo' bhi (sp_size sp) | None => bhi end in
    do rank <- (if num_rstrctd (ga_desc a) =? 0 then Some owner
                else zget (rank_rstrctd (ga_desc a)) owner);
    do loc <- location a rank lo';
    do proc <- abs_rank a owner;
    Some (Some (IPiece proc (fst (fst loc)) lo' hi' (snd (fst loc)) (snd loc)),
          reg_advance (RState (r_count st) over))
  else Some (None, reg_advance st).

Definition reg_done (pl : list piece) (st : rstate) : bool := Z.of_nat (length pl) <=? r_count st.

Lemma reg_next_scan fuel a pl perm st r :
  scan_next (reg_visit a pl perm) (reg_done pl) (fun s => s) fuel st = Some r ->
  reg_next (S fuel) a pl perm st = Some r.
Proof.
  revert st. induction fuel as [|fuel IH]; intros st H.
  - cbn [reg_next]. unfold scan_next, reg_done in H. destruct (_ <=? _); [exact H|]. discriminate.
  - unfold scan_next in H. unfold reg_done in H at 1. remember (S fuel) as f.
    cbn [reg_next]. destruct (Z.of_nat (length pl) <=? r_count st) eqn:ED; [exact H|].
    rewrite Heqf in H. cbn [scan_loop] in H. unfold reg_visit in H at 1.
    destruct (zget perm (r_count st)) as [p|]; [|discriminate].
    destruct (zget pl p) as [pc|]; [|discriminate]. cbv zeta in *.
    destruct (range_ok (fst (snd pc)) (snd (snd pc))).
    + destruct (match r_over st with Some sp => _ | None => _ end) as [over|]; [|discriminate].
      destruct (if _ =? 0 then _ else _) as [rank|]; [|discriminate].
      destruct (location a rank _) as [loc|]; [|discriminate].
      destruct (abs_rank a (fst pc)) as [proc|]; [|discriminate]. exact H.
    + subst f. apply IH. unfold scan_next.
      destruct (reg_done pl (reg_advance st)); exact H.
Qed.

Lemma drain_mono {S} (f g : S -> option (option (ipiece * S))) fuel st l :
  (forall st r, f st = Some r -> g st = Some r) ->
  drain f fuel st = Some l -> drain g fuel st = Some l.
Proof.
  intros H. revert st l. induction fuel as [|fuel IH]; intros st l; cbn; [discriminate|].
  destruct (f st) as [r|] eqn:E; [|discriminate]. rewrite (H _ _ E).
  destruct r as [[p st']|]; [|auto].
  destruct (drain f fuel st') as [l'|] eqn:E'; [|discriminate]. rewrite (IH _ _ E'). auto.
Qed.

(** ---- pieces of one entry of the located list ---- *)
Definition piece_ok (a : garray) (pc : piece) : Prop :=
  0 <= fst pc < ga_nproc a /\
  length (fst (snd pc)) = length (snd (snd pc)) /\ fst (snd pc) <> [] /\
  exists dlo dhi, distribution (ga_desc a) (fst pc) = Some (dlo, dhi) /\
    forall x, in_box (fst (snd pc)) (snd (snd pc)) x -> in_box dlo dhi x.

Lemma range_ok_spec lo hi : length lo = length hi -> (range_ok lo hi = true <-> Forall2 Z.le lo hi).
Proof.
  revert hi. induction lo as [|l lo IH]; intros [|h hi] H; cbn in *; try discriminate.
  - split; auto.
  - rewrite andb_true_iff, IH by lia. split.
    + intros [H1 H2]. constructor; [lia|exact H2].
    + intros X. inversion X; subst. split; [lia|assumption].
Qed.

Lemma box_list_empty lo hi : length lo = length hi -> ~ Forall2 Z.le lo hi -> box_list lo hi = [].
Proof.
  intros HL Hn. destruct (box_list lo hi) as [|x l] eqn:E; [reflexivity|].
  exfalso. apply Hn. assert (In x (box_list lo hi)) by (rewrite E; now left).
  apply box_list_In in H; [|exact HL]. apply in_box_le in H as [H1 H2].
  clear - H1 H2. revert hi H2. induction H1; intros hi H2; inversion H2; subst; constructor; auto; lia.
Qed.

Definition good_piece (a : garray) (p : ipiece) : Prop :=
  Forall2 Z.le (ip_lo p) (ip_hi p) /\ ip_seg p = ip_proc p /\
  (forall x, in_box (ip_lo p) (ip_hi p) x ->
      reg_place a x (ip_proc p, ip_off p + lin (ip_ld p) (vsub x (ip_lo p)))) /\
  (exists sh, reg_shape a sh /\ forall k, length k = length (ip_lo p) -> lin (ip_ld p) k = lin sh k) /\
  ga_elemsize a * zprod (extents (ip_lo p) (ip_hi p)) <= max_int_value.

Lemma lo_in_box lo hi : Forall2 Z.le lo hi -> in_box lo hi lo.
Proof. induction 1; cbn; auto. split; [lia|auto]. Qed.

Lemma zprod_extents_le lo hi lo' hi' :
  Forall2 Z.le lo' hi' -> length lo = length lo' -> length hi = length lo' ->
  (forall x, in_box lo' hi' x -> in_box lo hi x) ->
  0 <= zprod (extents lo' hi') <= zprod (extents lo hi).
Proof.
  intros HF. revert lo hi. induction HF as [|l h lo' hi' Hl HF IH]; intros [|a lo] [|b hi] H1 H2 H;
    cbn in *; try discriminate; [lia|].
  assert (HH : in_box lo' hi' lo') by (apply lo_in_box; exact HF).
  destruct (IH lo hi) as [I1 I2]; try lia.
  { intros x Hx. specialize (H (l :: x)). cbn in H. apply H. split; [lia|exact Hx]. }
  assert (a <= l) by (specialize (H (l :: lo')); cbn in H; destruct H; [split; [lia|exact HH]|lia]).
  assert (h <= b) by (specialize (H (h :: lo')); cbn in H; destruct H; [split; [lia|exact HH]|lia]).
  nia.
Qed.

Lemma make_piece a pc lo' hi' :
  wf_array a -> piece_ok a pc -> Forall2 Z.le lo' hi' ->
  (forall x, in_box lo' hi' x -> in_box (fst (snd pc)) (snd (snd pc)) x) ->
  ga_elemsize a * zprod (extents lo' hi') <= max_int_value ->
  exists rank loc proc,
    (if num_rstrctd (ga_desc a) =? 0 then Some (fst pc)
     else zget (rank_rstrctd (ga_desc a)) (fst pc)) = Some rank /\
    location a rank lo' = Some loc /\ abs_rank a (fst pc) = Some proc /\
    good_piece a (IPiece proc (fst (fst loc)) lo' hi' (snd (fst loc)) (snd loc)).
Proof.
  intros W (Ho & _ & _ & dlo & dhi & ED & Hsub) HF Hin HE.
  pose proof (lo_in_box _ _ HF) as Hlo.
  destruct (reg_location a (fst pc) dlo dhi lo' W Ho ED (Hsub _ (Hin _ Hlo)))
    as (rank & q & ld & H1 & H2 & H3 & H4).
  exists rank, (q, lin (padded dlo dhi (ga_width a)) (vadd (vsub lo' dlo) (ga_width a)), ld), q.
  split; [exact H1|]. split; [exact H3|]. split; [exact H2|].
  unfold good_piece. cbn [ip_lo ip_hi ip_seg ip_proc ip_off ip_ld fst snd].
  split; [exact HF|]. split; [reflexivity|]. split; [|split; [|exact HE]].
  2:{ exists (padded dlo dhi (ga_width a)). split; [|exact H4]. exists (fst pc), dlo, dhi.
      split; [exact Ho|]. split; [exact ED|]. split; [|reflexivity].
      pose proof (in_box_le _ _ _ (Hsub _ (Hin _ Hlo))) as [Q1 Q2]. clear - Q1 Q2.
      revert dhi Q2. induction Q1; intros dhi Q2; inversion Q2; subst; constructor; auto; lia. }
  intros x Hx. exists (fst pc), dlo, dhi.
  pose proof (Hsub _ (Hin _ Hx)) as Hxd.
  split; [exact Ho|]. split; [exact ED|]. split; [exact Hxd|]. split; [exact H2|]. cbn [snd].
  destruct W as (WR & HW & _).
  pose proof (dist_dims _ _ _ _ _ WR Ho ED x Hxd) as Lx.
  pose proof (dist_dims _ _ _ _ _ WR Ho ED lo' (Hsub _ (Hin _ Hlo))) as Ll.
  destruct (in_box_len _ _ _ Hxd) as [Ld _].
  rewrite H4 by (rewrite vsub_length; lia).
  rewrite <- lin_add by (rewrite !vadd_length, !vsub_length; rewrite ?vsub_length; lia).
  rewrite vsub_chain by lia. reflexivity.
Qed.

Lemma emb_id hi t : length t = length hi -> emb (map (fun _ : Z => 0) hi) (map (fun _ : Z => 1) hi) t = t.
Proof.
  revert t. induction hi as [|h hi IH]; intros [|a t] H; cbn [map emb length] in *; try discriminate; [reflexivity|].
  rewrite IH by lia. f_equal. lia.
Qed.

Lemma sub_ext_le blo bhi t sizes :
  length bhi = length blo -> length t = length blo -> length sizes = length blo ->
  Forall2 Z.le (sub_lo blo t sizes) (sub_hi (sub_lo blo t sizes) bhi sizes) ->
  0 <= zprod (extents (sub_lo blo t sizes) (sub_hi (sub_lo blo t sizes) bhi sizes)) <= zprod sizes.
Proof.
  revert bhi t sizes. induction blo as [|l blo IH]; intros [|h bhi] [|i t] [|s sizes] H1 H2 H3 HF;
    cbn [length] in *; try discriminate; [cbn; lia|].
  cbn [sub_lo sub_hi extents zprod] in *. inversion HF; subst.
  destruct (IH bhi t sizes) as [I1 I2]; auto.
  destruct (l + i * s + s - 1 <? h) eqn:E; nia.
Qed.

Section Entry.
Variable a : garray.
Variable pl : list piece.
Variable perm : list Z.
Hypothesis W : wf_array a.
Variable c p : Z.
Variable pc : piece.
Hypothesis Hc : 0 <= c < Z.of_nat (length pl).
Hypothesis Hp : zget perm c = Some p.
Hypothesis Hpc : zget pl p = Some pc.
Hypothesis OK : piece_ok a pc.
Hypothesis SP : Forall2 Z.le (fst (snd pc)) (snd (snd pc)) ->
                splittable (ga_elemsize a) (fst (snd pc)) (snd (snd pc)).

Notation Run := (run (reg_visit a pl perm) (reg_done pl) (fun s => s)).
Notation blo := (fst (snd pc)).
Notation bhi := (snd (snd pc)).

(** Bounds and visit of one sub-block. *)
Lemma split_visit sizes ds t over :
  length ds = length blo -> Forall2 Z.le blo bhi ->
  Forall2 (fun s e => 1 <= s <= e) sizes (extents blo bhi) ->
  Forall2 (fun d se => fst se * (d - 1) < snd se <= fst se * d) ds (combine sizes (extents blo bhi)) ->
  ga_elemsize a * zprod sizes <= max_int_value ->
  in_box (map (fun _ => 0) ds) (map (fun d => d - 1) ds) t ->
  (over = Some (Split sizes ds t) \/
   (over = None /\ start_split (ga_elemsize a) blo bhi = Some (Some (Split sizes ds t)))) ->
  exists q, reg_visit a pl perm (RState c over) =
    Some (Some q, reg_advance (RState c (Some (Split sizes ds t)))) /\
    (ip_lo q, ip_hi q) = (sub_lo blo t sizes, sub_hi (sub_lo blo t sizes) bhi sizes) /\
    good_piece a q.
Proof.
  intros Hlds HF HS HD HE Ht Hov.
  destruct (sub_box_iff blo bhi sizes ds t [] (proj1 (proj2 OK)) HS HD Ht) as [_ HFs].
  assert (L1 : length t = length blo).
  { destruct (in_box_len _ _ _ Ht) as [L _]. rewrite map_length in L. lia. }
  assert (L2 : length bhi = length blo) by (symmetry; apply OK).
  assert (L3 : length sizes = length blo).
  { apply Forall2_len in HS. rewrite extents_length in HS by lia. exact HS. }
  destruct (make_piece a pc (sub_lo blo t sizes) (sub_hi (sub_lo blo t sizes) bhi sizes) W OK HFs)
    as (rank & loc & proc & G1 & G2 & G3 & G4).
  { intros x Hx. apply (sub_box_iff blo bhi sizes ds t x (proj1 (proj2 OK)) HS HD Ht) in Hx. tauto. }
  { eapply Z.le_trans; [|exact HE]. apply Z.mul_le_mono_nonneg_l; [destruct W as (_&_&_&_&?); lia|].
    apply sub_ext_le; auto. }
  eexists. split; [|split; [|exact G4]].
  - unfold reg_visit. cbn [r_count r_over]. rewrite Hp, Hpc. cbv zeta.
    rewrite (proj2 (range_ok_spec blo bhi (proj1 (proj2 OK))) HF).
    assert (EO : match over with Some sp => Some (Some sp)
                 | None => start_split (ga_elemsize a) blo bhi end = Some (Some (Split sizes ds t))).
    { destruct Hov as [->|[-> E]]; [reflexivity|exact E]. }
    rewrite EO. cbn [sp_inc sp_size]. rewrite G1, G2, G3. reflexivity.
  - reflexivity.
Qed.

(** The sub-blocks still to come, from counter [t] on. *)
Lemma split_run sizes ds m l :
  length ds = length blo ->
  Forall2 Z.le blo bhi ->
  Forall2 (fun s e => 1 <= s <= e) sizes (extents blo bhi) ->
  gridok ds (map (fun _ => 1) ds) (map (fun _ => 0) ds) (map (fun d => d - 1) ds) ->
  Forall2 (fun d se => fst se * (d - 1) < snd se <= fst se * d) ds (combine sizes (extents blo bhi)) ->
  ga_elemsize a * zprod sizes <= max_int_value ->
  Run m (RState (c + 1) None) l ->
  forall suf pre t over,
  box_list (map (fun _ => 0) ds) (map (fun d => d - 1) ds) = pre ++ t :: suf ->
  (over = Some (Split sizes ds t) \/
   (over = None /\ start_split (ga_elemsize a) blo bhi = Some (Some (Split sizes ds t)))) ->
  exists ps, Run (S (length suf) + m) (RState c over) (ps ++ l) /\
    map (fun q => (ip_lo q, ip_hi q)) ps =
      map (fun i => (sub_lo blo i sizes, sub_hi (sub_lo blo i sizes) bhi sizes)) (t :: suf) /\
    Forall (good_piece a) ps.
Proof.
  intros Hlds HF HS HG HD HE HR.
  assert (Hle : Forall2 Z.le (map (fun _ => 0) ds) (map (fun d => d - 1) ds)).
  { clear - HG. induction ds as [|d ds IH]; cbn [gridok map] in *; constructor; [lia|apply IH; tauto]. }
  assert (HND : forall o, reg_done pl (RState c o) = false)
    by (intros; unfold reg_done; cbn [r_count]; lia).
  induction suf as [|t' suf IH]; intros pre t over Ebox Hov.
  - assert (Ht : in_box (map (fun _ => 0) ds) (map (fun d => d - 1) ds) t).
    { apply box_list_In; [now rewrite !map_length|]. rewrite Ebox. apply in_app_iff. right. now left. }
    destruct (split_visit sizes ds t over Hlds HF HS HD HE Ht Hov) as (q & V & B & G).
    exists [q]. split; [|split; [cbn [map]; now rewrite B|auto]].
    destruct (box_list_step _ _ _ _ _ Hle Ebox) as [[_ Eh]|(s' & X & _)]; [|discriminate].
    cbn [length Nat.add app]. eapply (run_step _ _ _ m _ (Some q)); [apply HND|reflexivity|exact V|].
    unfold reg_advance. cbn [r_over sp_dim sp_inc r_count sp_size].
    assert (Hz : zeros (map (fun d => d - 1) ds) = map (fun _ => 0) ds) by (unfold zeros; apply map_map).
    assert (Hlt : length t = length ds).
    { destruct (in_box_len _ _ _ Ht) as [L _]. rewrite map_length in L. lia. }
    destruct (carry_true ds _ _ _ t HG ltac:(rewrite Hz; exact Ht)) as [C _].
    { intros ->. destruct ds; [|discriminate]. destruct OK as (_ & _ & Hne & _).
      destruct blo; [congruence|discriminate]. }
    rewrite (emb_id ds t Hlt) in C. rewrite (C Eh). exact HR.
  - assert (Ht : in_box (map (fun _ => 0) ds) (map (fun d => d - 1) ds) t).
    { apply box_list_In; [now rewrite !map_length|]. rewrite Ebox. apply in_app_iff. right. now left. }
    destruct (split_visit sizes ds t over Hlds HF HS HD HE Ht Hov) as (q & V & B & G).
    destruct (box_list_step _ _ _ _ _ Hle Ebox) as [[X _]|(s' & [= -> <-] & Hnh)]; [discriminate|].
    destruct (IH (pre ++ [t]) (update_sub t (map (fun _ => 0) ds) (map (fun d => d - 1) ds))
                (Some (Split sizes ds (update_sub t (map (fun _ => 0) ds) (map (fun d => d - 1) ds)))))
      as (ps & R & M & F).
    { rewrite <- app_assoc. exact Ebox. }
    { now left. }
    exists (q :: ps). split; [|split; [cbn [map]; rewrite B; f_equal; exact M|auto]].
    cbn [length Nat.add app]. eapply (run_step _ _ _ _ _ (Some q)); [apply HND|reflexivity|exact V|].
    unfold reg_advance. cbn [r_over sp_dim sp_inc r_count sp_size].
    assert (Hz : zeros (map (fun d => d - 1) ds) = map (fun _ => 0) ds) by (unfold zeros; apply map_map).
    assert (Hlt : length t = length ds).
    { destruct (in_box_len _ _ _ Ht) as [L _]. rewrite map_length in L. lia. }
    destruct (carry_true ds _ _ _ t HG ltac:(rewrite Hz; exact Ht)) as [_ C].
    { intros ->. destruct ds; [|discriminate]. destruct OK as (_ & _ & Hne & _).
      destruct blo; [congruence|discriminate]. }
    rewrite (emb_id ds t Hlt) in C. destruct (C Hnh) as [C1 C2]. rewrite C2.
    rewrite C1, Hz, emb_id.
    + exact R.
    + assert (Hin : In (update_sub t (map (fun _ => 0) ds) (map (fun d => d - 1) ds))
                   (box_list (map (fun _ => 0) ds) (map (fun d => d - 1) ds))).
      { rewrite Ebox. apply in_app_iff. right. right. now left. }
      apply box_list_In in Hin; [|now rewrite !map_length].
      destruct (in_box_len _ _ _ Hin) as [L _]. rewrite map_length in L. lia.
Qed.

(** One entry of the located list. *)
Lemma entry_run m l :
  Run m (RState (c + 1) None) l ->
  exists n ps, Run (n + m) (RState c None) (ps ++ l) /\
    Permutation (flat_map (fun q => box_list (ip_lo q) (ip_hi q)) ps) (box_list blo bhi) /\
    Forall (good_piece a) ps.
Proof.
  intros HR.
  assert (HND : forall o, reg_done pl (RState c o) = false)
    by (intros; unfold reg_done; cbn [r_count]; lia).
  destruct (range_ok blo bhi) eqn:Erng.
  - assert (HF : Forall2 Z.le blo bhi) by (apply range_ok_spec; [apply OK|exact Erng]).
    assert (HX : Forall (fun e => 1 <= e) (extents blo bhi)).
    { clear - HF. induction HF; cbn [extents]; constructor; [lia|assumption]. }
    assert (HLX : length (extents blo bhi) = length blo) by (apply extents_length; apply OK).
    pose proof W as (WR & HW & HW0 & HG & HE).
    destruct (max_int_value <? ga_elemsize a * zprod (extents blo bhi)) eqn:EB.
    + destruct (halve_spec (ga_elemsize a) (extents blo bhi)) as (sizes & EH & HS & HB).
      { intros X. rewrite X in HLX. destruct OK as (_ & _ & Hne & _). destruct blo; [congruence|discriminate]. }
      { exact HX. }
      { lia. }
      { intros i Hi. apply (SP HF). lia. }
      destruct (split_dims_spec (extents blo bhi) sizes HS) as (ds & ED & Hl & HGr & HD).
      assert (Hle : Forall2 Z.le (map (fun _ => 0) ds) (map (fun d => d - 1) ds)).
      { clear - HGr. induction ds as [|d ds IH]; cbn [gridok map] in *; constructor; [lia|apply IH; tauto]. }
      destruct (box_list_first _ _ Hle) as (suf & Ebox).
      assert (Ez : map (fun _ : Z => 0) (extents blo bhi) = map (fun _ => 0) ds).
      { clear - Hl. revert Hl. generalize (extents blo bhi). clear.
        induction ds as [|d ds IH]; intros [|e l] H; cbn in *; try discriminate; auto. f_equal. auto. }
      destruct (split_run sizes ds m l ltac:(lia) HF HS HGr HD HB HR suf [] (map (fun _ => 0) ds) None)
        as (ps & R & M & F).
      { exact Ebox. }
      { right. split; [reflexivity|]. unfold start_split. rewrite EB, EH, ED, Ez. reflexivity. }
      eexists _, ps. split; [exact R|]. split; [|exact F].
      assert (E : flat_map (fun q => box_list (ip_lo q) (ip_hi q)) ps =
                  flat_map (fun b => box_list (fst b) (snd b)) (map (fun q => (ip_lo q, ip_hi q)) ps)).
      { clear. induction ps as [|q ps IH]; cbn; [reflexivity|now rewrite IH]. }
      rewrite E, M, <- Ebox.
      assert (E' : forall ll, flat_map (fun b : list Z * list Z => box_list (fst b) (snd b))
         (map (fun i => (sub_lo blo i sizes, sub_hi (sub_lo blo i sizes) bhi sizes)) ll) =
         flat_map (fun i => box_list (sub_lo blo i sizes) (sub_hi (sub_lo blo i sizes) bhi sizes)) ll).
      { clear. induction ll as [|q ps IH]; cbn; [reflexivity|now rewrite IH]. }
      rewrite E'. apply sub_boxes_perm; [apply OK|exact HS|exact HD].
    + destruct (make_piece a pc blo bhi) as (rank & loc & proc & G1 & G2 & G3 & G4); auto.
      { lia. }
      exists 1%nat, [IPiece proc (fst (fst loc)) blo bhi (snd (fst loc)) (snd loc)].
      split; [|split; [cbn [flat_map ip_lo ip_hi]; rewrite app_nil_r; apply Permutation_refl|auto]].
      cbn [app]. eapply (run_step _ _ _ m _ (Some _)); [apply HND|reflexivity| |exact HR].
      unfold reg_visit. cbn [r_count r_over]. rewrite Hp, Hpc. cbv zeta. rewrite Erng.
      unfold start_split. rewrite EB. rewrite G1, G2, G3. reflexivity.
  - exists 1%nat, []. split; [|split; [|constructor]].
    + cbn [app]. eapply (run_step _ _ _ m _ None); [apply HND|reflexivity| |exact HR].
      unfold reg_visit. cbn [r_count]. rewrite Hp, Hpc. cbv zeta. rewrite Erng. reflexivity.
    + cbn. rewrite box_list_empty; [constructor|apply OK|].
      intros X. apply range_ok_spec in X; [|apply OK]. congruence.
Qed.
End Entry.

Lemma upd_length {A} i (v : A) l : length (upd i v l) = length l.
Proof. revert i; induction l as [|a l IH]; intros [|i]; cbn; auto. Qed.

Lemma zprod_le_pointwise l l' : Forall2 (fun x y => 0 <= x <= y) l l' -> 0 <= zprod l <= zprod l'.
Proof. induction 1; cbn [zprod]; [lia|nia]. Qed.

Lemma Forall2_upd {A B} (R : A -> B -> Prop) i x y l l' :
  Forall2 R l l' -> R x y -> Forall2 R (upd i x l) (upd i y l').
Proof.
  intros H Hxy. revert i. induction H; intros [|i]; cbn; constructor; auto.
Qed.

Lemma extents_sub lo hi lo' hi' :
  Forall2 Z.le lo' hi' -> length lo = length lo' -> length hi = length lo' ->
  (forall x, in_box lo' hi' x -> in_box lo hi x) ->
  Forall2 (fun x y => 0 <= x <= y) (extents lo' hi') (extents lo hi).
Proof.
  intros HF. revert lo hi. induction HF as [|l h lo' hi' Hl HF IH]; intros [|a lo] [|b hi] H1 H2 H;
    cbn in *; try discriminate; [constructor|].
  assert (HH : in_box lo' hi' lo') by (apply lo_in_box; exact HF).
  constructor.
  - assert (a <= l) by (specialize (H (l :: lo')); cbn in H; destruct H; [split; [lia|exact HH]|lia]).
    assert (h <= b) by (specialize (H (h :: lo')); cbn in H; destruct H; [split; [lia|exact HH]|lia]).
    lia.
  - apply IH; try lia. intros x Hx. specialize (H (l :: x)). cbn in H. apply H. split; [lia|exact Hx].
Qed.

Lemma splittable_sub es lo hi lo' hi' :
  0 <= es -> Forall2 Z.le lo' hi' -> length lo = length lo' -> length hi = length lo' ->
  (forall x, in_box lo' hi' x -> in_box lo hi x) ->
  splittable es lo hi -> splittable es lo' hi'.
Proof.
  intros He HF H1 H2 H S i Hi. eapply Z.le_trans; [|apply (S i); lia].
  apply Z.mul_le_mono_nonneg_l; [exact He|].
  apply zprod_le_pointwise. apply Forall2_upd; [|lia]. apply extents_sub; auto.
Qed.

(** All entries of the visiting order from position [c] on. *)
Lemma entries_run a pl perm :
  wf_array a -> (forall pc, In pc pl -> piece_ok a pc) ->
  (forall pc, In pc pl -> Forall2 Z.le (fst (snd pc)) (snd (snd pc)) ->
     splittable (ga_elemsize a) (fst (snd pc)) (snd (snd pc))) ->
  length perm = length pl ->
  (forall p, In p perm -> 0 <= p < Z.of_nat (length pl)) ->
  forall suf pre, perm = pre ++ suf ->
  exists n ps, run (reg_visit a pl perm) (reg_done pl) (fun s => s) n
                   (RState (Z.of_nat (length pre)) None) ps /\
    Permutation (flat_map (fun q => box_list (ip_lo q) (ip_hi q)) ps)
       (flat_map (fun p => match zget pl p with
                           | Some pc => box_list (fst (snd pc)) (snd (snd pc))
                           | None => [] end) suf) /\
    Forall (good_piece a) ps.
Proof.
  intros W OK SP HL HR. induction suf as [|p suf IH]; intros pre E.
  - exists O, []. split; [|split; constructor]. apply run_done. unfold reg_done. cbn [r_count].
    subst perm. rewrite app_nil_r in HL. lia.
  - destruct (IH (pre ++ [p])) as (n & ps & R & P & F).
    { rewrite <- app_assoc. exact E. }
    rewrite app_length in R. cbn [length] in R.
    replace (Z.of_nat (length pre + 1)) with (Z.of_nat (length pre) + 1) in R by lia.
    assert (Hp : 0 <= p < Z.of_nat (length pl)) by (apply HR; rewrite E; apply in_app_iff; right; now left).
    destruct (zget pl p) as [pc|] eqn:Epc; [|rewrite (zget_Some pl p (0, ([], []))) in Epc by lia; discriminate].
    assert (Hin : In pc pl) by (eapply zget_In; eauto).
    destruct (entry_run a pl perm W (Z.of_nat (length pre)) p pc) with (m := n) (l := ps)
      as (m & qs & R' & P' & F'); auto.
    { rewrite <- HL, E, app_length. cbn [length]. lia. }
    { subst perm. unfold zget. replace (Z.of_nat (length pre) <? 0) with false by lia.
      rewrite Nat2Z.id, nth_error_app2 by lia. now rewrite Nat.sub_diag. }
    exists (m + n)%nat, (qs ++ ps). split; [exact R'|]. split.
    + rewrite flat_map_app. cbn [flat_map]. rewrite Epc. apply Permutation_app; auto.
    + apply Forall_app. auto.
Qed.

Lemma flat_map_zseq {A B} (f : A -> list B) l :
  flat_map (fun p => match zget l p with Some x => f x | None => [] end) (zseq 0 (length l))
  = flat_map f l.
Proof.
  assert (H : forall (suf pre : list A), l = pre ++ suf ->
    flat_map (fun p => match zget l p with Some x => f x | None => [] end)
             (zseq (Z.of_nat (length pre)) (length suf)) = flat_map f suf).
  { induction suf as [|b suf IH]; intros pre E; [reflexivity|].
    cbn [length zseq flat_map]. f_equal.
    - rewrite E. unfold zget. replace (Z.of_nat (length pre) <? 0) with false by lia.
      rewrite Nat2Z.id, nth_error_app2 by lia. now rewrite Nat.sub_diag.
    - rewrite <- (IH (pre ++ [b])) by (rewrite <- app_assoc; exact E).
      rewrite app_length. cbn [length]. do 2 f_equal. lia. }
  exact (H l [] eq_refl).
Qed.

Theorem iterate_regular guess rnd nn a lo hi :
  good_guess guess -> (forall k, 0 <= rnd k) -> wf_array a ->
  in_array (dims (ga_desc a)) lo -> in_array (dims (ga_desc a)) hi -> Forall2 Z.le lo hi ->
  splittable (ga_elemsize a) lo hi ->
  exists ps fuel0,
    (forall fuel, (fuel0 <= fuel)%nat -> iterate fuel guess rnd nn a lo hi = Some ps) /\
    covers (reg_place a) (reg_shape a) ps lo hi /\
    forall p, In p ps -> ga_elemsize a * zprod (extents (ip_lo p) (ip_hi p)) <= max_int_value.
Proof.
  intros Hg Hr W Hlo Hhi Hle Hsp. pose proof W as (WR & HW & HW0 & HG & HE).
  destruct (locate_region_regular_full _ _ _ _ _ Hg WR Hlo Hhi Hle) as (pl & EL & T & _ & HP).
  assert (Hd : dims (ga_desc a) <> []) by apply WR.
  apply in_array_length in Hlo as Llo. apply in_array_length in Hhi as Lhi.
  assert (Hsq : square snd pl).
  { intros [o [plo phi]] Hin. destruct (HP _ _ _ Hin) as (L1 & L2 & _). cbn. lia. }
  pose proof (proj1 (tiles_perm pl snd lo hi Hsq ltac:(lia)) T) as TP.
  destruct (permute_list_spec rnd (Z.of_nat (length pl)) Hr ltac:(lia)) as (perm & EP & PP).
  rewrite Nat2Z.id in PP.
  destruct (entries_run a pl perm W) with (suf := perm) (pre := @nil Z) as (n & ps & R & PB & F).
  { intros [o [plo phi]] Hin. destruct (HP _ _ _ Hin) as (L1 & L2 & Ho & X).
    split; [exact Ho|]. cbn [fst snd]. split; [lia|]. split; [|exact X].
    intros ->. destruct (dims (ga_desc a)); [congruence|discriminate]. }
  { intros [o [plo phi]] Hin HF. cbn [fst snd] in *. destruct (HP _ _ _ Hin) as (L1 & L2 & _).
    apply (splittable_sub _ lo hi); auto; try lia.
    intros x Hx. apply In_nth_error in Hin as (k & Hk). exact (proj1 T _ _ Hk x Hx). }
  { apply Permutation_length in PP. rewrite zseq_length in PP. exact PP. }
  { intros p Hin. eapply Permutation_in in Hin; [|exact PP]. apply zseq_In in Hin. lia. }
  { reflexivity. }
  assert (Hsq' : square (fun p => (ip_lo p, ip_hi p)) ps).
  { intros p Hin. rewrite Forall_forall in F. destruct (F p Hin) as (X & _). cbn.
    eapply Forall2_len; exact X. }
  exists ps, (n + 2)%nat. split; [|split].
  - intros fuel Hf. unfold iterate. rewrite (proj1 WR), EL, EP.
    destruct fuel as [|fuel]; [lia|].
    eapply drain_mono; [intros st r; apply reg_next_scan|].
    eapply run_drain; [exact R|lia|lia].
  - split.
    + apply (tiles_perm ps _ lo hi Hsq' ltac:(lia)).
      eapply perm_trans; [exact PB|]. eapply perm_trans; [|exact TP].
      eapply perm_trans; [apply flat_map_Permutation; exact PP|].
      assert (EQ : forall l l' : list (list Z), l = l' -> Permutation l l')
        by (intros ? ? ->; apply Permutation_refl).
      apply EQ. exact (flat_map_zseq (fun pc : piece => box_list (fst (snd pc)) (snd (snd pc))) pl).
    + intros p Hin. rewrite Forall_forall in F. destruct (F p Hin) as (X1 & X2 & X3 & X4 & _). auto.
  - intros p Hin. rewrite Forall_forall in F. apply (F p Hin).
Qed.
