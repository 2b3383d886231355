(** Lemmas: products of patches. *)
From Verif Require Import LRadix LDist LDist2 LStrided LStrided2 LIterReg LIterReg3 LIterSca LStore LXfer LXfer2 LLoc LAccess LSelect LSelect2 LOdo LGcopy5.
From Verif Require Export LAdd4 MDot.
Open Scope Z_scope.

(** Every element of the patch of A has a partner. *)
Lemma partner trans alo ahi blo bhi x : Forall2 Z.le blo bhi -> zprod (extents blo bhi) = zprod (extents alo ahi) -> in_box alo ahi x ->
  exists y, corresponds trans blo bhi alo ahi y x.
Proof.
  intros HB EZ Hx. pose proof (Forall2_len _ _ _ HB) as LB. destruct trans.
  - assert (HB' : Forall2 Z.le (rev blo) (rev bhi)) by (clear -HB; induction HB; cbn; [constructor|apply Forall2_app; auto]).
    assert (EZ' : zprod (extents alo ahi) = zprod (extents (rev blo) (rev bhi))) by (rewrite rev_extents, zprod_rev by lia; auto).
    exists (rev (target false alo ahi (rev blo) (rev bhi) x)).
    destruct (proj2 (target_corresponds false alo ahi (rev blo) (rev bhi) x _ HB' EZ' Hx) eq_refl) as (_ & H2 & H3).
    split; [|split; [exact Hx|]].
    + apply rev_in_box in H2. rewrite !rev_involutive in H2. exact H2.
    + rewrite rev_involutive. symmetry. exact H3.
  - exists (target false alo ahi blo bhi x). destruct (proj2 (target_corresponds false alo ahi blo bhi x _ HB (eq_sym EZ) Hx) eq_refl) as (H1 & H2 & H3).
    split; [exact H2|]. split; [exact H1|]. symmetry. exact H3.
Qed.

Definition pairs (pa pb : list Z -> place -> Prop) (x : list Z) (e : place * place) : Prop := pa x (fst e) /\ pb x (snd e).

(** ---- the sum ---- *)
Section Sum.
Context {V : Type} (add : V -> V -> V) (zero : V) (mul : V -> V -> V).
Hypothesis HM : sums_freely add zero.
Notation total := (fold_right add zero).

Lemma add_zero_r x : add x zero = x.
Proof. destruct HM as (_ & C & U). rewrite C. apply U. Qed.
Lemma total_app l l' : total (l ++ l') = add (total l) (total l').
Proof. destruct HM as (A & C & U). induction l as [|x l IH]; cbn; [symmetry; apply U|]. rewrite IH, A. reflexivity. Qed.
Lemma total_perm l l' : Permutation l l' -> total l = total l'.
Proof.
  destruct HM as (A & C & U). induction 1; cbn; [reflexivity|congruence| |congruence]. rewrite !A, (C y x). reflexivity.
Qed.
Lemma total_concat ls : total (map total ls) = total (concat ls).
Proof. induction ls as [|l ls IH]; cbn; [reflexivity|]. rewrite total_app, IH. reflexivity. Qed.

Definition val (m : heap V) (q : place) : V := match hget m q with Some v => v | None => zero end.
Definition term (ma mb : heap V) (e : place * place) : V := mul (val ma (fst e)) (val mb (snd e)).
Lemma dot_loop_total ma mb ps : forall s, (forall e, In e ps -> hget ma (fst e) <> None /\ hget mb (snd e) <> None) ->
  dot_loop add mul ma mb s ps = Some (add s (total (map (term ma mb) ps))).
Proof.
  destruct HM as (A & C & U). induction ps as [|e ps IH]; intros s H; cbn [dot_loop map fold_right]; [rewrite add_zero_r; reflexivity|].
  destruct (H e (or_introl eq_refl)) as [H1 H2]. unfold term at 1, val.
  destruct (hget ma (fst e)) as [va|]; [|congruence]. destruct (hget mb (snd e)) as [vb|]; [|congruence].
  rewrite IH by (intros; apply H; now right). rewrite A. reflexivity.
Qed.

Lemma dot_sum trans (pa pb pb' : list Z -> place -> Prop) alo ahi blo bhi (ma mb m2 : heap V) pss :
  (forall x q q', pa x q -> pa x q' -> q = q') -> allocated pa ma -> allocated pb mb -> allocated pb' m2 ->
  Forall2 Z.le blo bhi -> zprod (extents blo bhi) = zprod (extents alo ahi) ->
  (forall y, in_box blo bhi y -> exists q, pb y q) ->
  (forall x y qb q', corresponds trans blo bhi alo ahi y x -> pb y qb -> pb' x q' -> hget m2 q' = hget mb qb) ->
  marked (pairs pa pb') (in_box alo ahi) (concat pss) ->
  exists vs, mapM (dot_loop add mul ma m2 zero) pss = Some vs /\
    forall vs', Permutation vs vs' -> dot_value add zero mul trans pa pb alo ahi blo bhi ma mb (total vs').
Proof.
  intros FA AA AB A2 HB EZ TB HC (l & El & ND & HI & HQ). pose proof HM as (_ & _ & U).
  assert (OK : forall e, In e (concat pss) -> hget ma (fst e) <> None /\ hget m2 (snd e) <> None).
  { intros e He. rewrite El in He. apply in_map_iff in He as ((e' & x) & <- & He). destruct (HQ _ _ He) as [P1 P2]. split; [apply (AA x _ P1)|apply (A2 x _ P2)]. }
  exists (map (fun ps => total (map (term ma m2) ps)) pss). split.
  - apply mapM_total. intros ps Hp. rewrite dot_loop_total; [rewrite U; reflexivity|].
    intros e He. apply OK. apply in_concat. eauto.
  - intros vs' HP xs NX HX.
    assert (PX : Permutation (map snd l) xs).
    { apply NoDup_Permutation; auto. intros x. rewrite HI, HX. reflexivity. }
    apply Permutation_sym in PX. apply Permutation_map_inv in PX as (l' & -> & PL).
    exists (map (fun ex => term ma m2 (fst ex)) l'). split.
    + assert (HQ' : forall e x, In (e, x) l' -> pairs pa pb' x e) by (intros e x He; apply HQ; eapply Permutation_in; [apply Permutation_sym; exact PL|exact He]).
      assert (HB' : forall e x, In (e, x) l' -> in_box alo ahi x).
      { intros e x He. apply HI. apply (in_map snd l (e, x)). eapply Permutation_in; [apply Permutation_sym; exact PL|exact He]. }
      clear - FA AA AB HQ' HB' HB EZ TB HC. induction l' as [|[e x] l' IH]; cbn [map snd]; constructor.
      * destruct (HQ' e x (or_introl eq_refl)) as [P1 P2]. pose proof (HB' e x (or_introl eq_refl)) as Hx.
        destruct (partner trans alo ahi blo bhi x HB EZ Hx) as (y & Hy). destruct (TB y (proj1 Hy)) as (qb & Hqb).
        pose proof (AA x _ P1) as NA. pose proof (AB y _ Hqb) as NB. pose proof (HC x y qb _ Hy Hqb P2) as E2.
        destruct (hget ma (fst e)) as [va|] eqn:Ea; [|congruence]. destruct (hget mb qb) as [vb|] eqn:Eb; [|congruence].
        exists y, (fst e), qb, va, vb. split; [exact Hy|]. split; [exact P1|]. split; [exact Hqb|]. split; [exact Ea|]. split; [exact Eb|].
        unfold term, val. cbn [fst]. rewrite Ea, E2. reflexivity.
      * apply IH; intros; [apply HQ'|eapply HB']; right; eauto.
    + rewrite <- (total_perm _ _ HP), <- (map_map (fun ps => map (term ma m2) ps) total), total_concat, <- concat_map, El, map_map.
      apply total_perm, Permutation_map, PL.
Qed.
End Sum.

(** ---- the pairs of a process ---- *)
Lemma dot_local_marked guess near w a bv alo ahi :
  good_guess guess -> wf_array a -> wf_array bv ->
  ga_group a = None -> ga_group bv = None -> ga_nproc bv = ga_nproc a ->
  length (dims (ga_desc bv)) = length (dims (ga_desc a)) -> ga_width bv = ga_width a ->
  distribution (ga_desc bv) w = distribution (ga_desc a) w ->
  near w = true -> 0 <= w < ga_nproc a -> length alo = length (dims (ga_desc a)) -> length ahi = length alo ->
  exists l, dot_local guess near w a bv alo ahi = Some l /\
    marked (pairs (reg_place a) (reg_place bv)) (fun x => in_box alo ahi x /\ exists ad, reg_place a x (w, ad)) l.
Proof.
  intros HG WA WB GA GB NB LB WdB DB HN Hw L1 L2.
  destruct (regular_blocks_inside _ _ _ (proj1 WA) Hw) as (blo & bhi & ED & _).
  pose proof (proj1 (proj1 WA)) as TA. pose proof (dist_len _ _ _ _ TA ED) as BL. pose proof (dist_len_dims _ _ _ _ TA ED) as BD.
  assert (EW : abs_rank a w = Some w) by (unfold abs_rank; rewrite GA; reflexivity).
  unfold dot_local. rewrite DB, ED. cbn [fst snd]. rewrite LB, Nat.min_id.
  rewrite comp_patch_refl by lia. cbn [negb].
  unfold cut_patch. rewrite !(firstn_all2 alo), !(firstn_all2 ahi), !(firstn_all2 blo), !(firstn_all2 bhi) by lia.
  pose proof (patch_intersect_spec alo ahi blo bhi ltac:(lia) ltac:(lia) ltac:(lia)) as X.
  destruct (patch_intersect alo ahi blo bhi) as [[lo hi]|]; cbn [fst snd] in *.
  2:{ exists []. split; [reflexivity|]. apply marked_nil. intros x [Hx Hy].
      apply (reg_place_unique a x w w blo bhi WA Hw EW ED) in Hy. exact (X x Hx Hy). }
  destruct X as [Hle HX]. destruct (proj1 (HX lo) (lo_in_box _ _ Hle)) as [A1 A2]. destruct (proj1 (HX hi) (box_refl_hi _ _ Hle)) as [B1 B2].
  destruct (in_box_len _ _ _ A2) as [N1 N2]. pose proof (Forall2_len _ _ _ Hle) as N3.
  rewrite (skipn_all2 blo), (skipn_all2 bhi), !app_nil_r by lia.
  unfold access_long. rewrite LB.
  destruct (Nat.ltb_spec (length lo) (length (dims (ga_desc a)))); [lia|]. rewrite !(firstn_all2 lo), !(firstn_all2 hi) by lia.
  destruct (access_same guess near bv w lo hi blo bhi HG WB GB HN ltac:(lia) (eq_trans DB ED) A2 B2 Hle) as (ob & ldb & EB & _ & _ & PB).
  destruct (access_same guess near a w lo hi blo bhi HG WA GA HN Hw ED A2 B2 Hle) as (oa & lda & EA & LA & KA & PA).
  rewrite EA, EB. cbn [fst snd].
  rewrite patch_offsets_ok; [|intros ->; cbn in N1; pose proof (proj1 (proj2 (proj1 WA))); destruct (dims (ga_desc a)); [congruence|cbn in *; lia]|exact Hle|exact LA].
  eexists. split; [reflexivity|].
  rewrite (lin_ext lda (padded blo bhi (ga_width a))) by (intros k Hk; apply KA; destruct (LXfer2.extents_pos _ _ Hle); lia).
  rewrite map_map. rewrite WdB in PB.
  eapply marked_ext; [|apply indices_marked_any; [exact Hle|]].
  - intros x. rewrite (reg_place_unique a x w w blo bhi WA Hw EW ED). apply HX.
  - intros x Hx. split; cbn [fst snd]; auto.
Qed.
Lemma dot_local_all guess near a bv alo ahi :
  good_guess guess -> (forall me, near me me = true) -> wf_array a -> wf_array bv ->
  ga_group a = None -> ga_group bv = None -> ga_nproc bv = ga_nproc a ->
  length (dims (ga_desc bv)) = length (dims (ga_desc a)) -> ga_width bv = ga_width a ->
  (forall p, 0 <= p < ga_nproc a -> distribution (ga_desc bv) p = distribution (ga_desc a) p) ->
  patch_of (dims (ga_desc a)) alo ahi ->
  exists ls, Forall2 (fun me l => dot_local guess (near me) me a bv alo ahi = Some l) (zseq 0 (Z.to_nat (ga_nproc a))) ls /\
    marked (pairs (reg_place a) (reg_place bv)) (in_box alo ahi) (concat ls).
Proof.
  intros HG HN WA WB GA GB NB LB WdB DB PA. destruct (patch_lens _ _ _ PA) as [L1 L2].
  destruct (procs_fuel (fun _ me => dot_local guess (near me) me a bv alo ahi)
     (fun me l => exists w, abs_rank a me = Some w /\ marked (pairs (reg_place a) (reg_place bv)) (fun x => in_box alo ahi x /\ exists ad, reg_place a x (w, ad)) l)
     (zseq 0 (Z.to_nat (ga_nproc a)))) as (ls & n & E & F).
  { intros me Hme. apply zseq_In in Hme.
    destruct (dot_local_marked guess (near me) me a bv alo ahi) as (l & E & M); auto; try lia; [apply DB; lia|].
    exists l, 0%nat. split; [auto|]. exists me. split; [apply world_rank, GA|exact M]. }
  exists ls. split; [eapply Forall2_weaken; [|exact E]; intros me es X; exact (X n (le_n n))|].
  apply (whole_marked _ a 0 (reg_place a) (reg_shape a)); [left; auto| |exact F].
  intros x Hx. eapply patch_in; eauto.
Qed.

Lemma dot_piece_marked (placed : list Z -> place -> Prop) w plo phi q :
  Forall2 Z.le (lp_lo q) (lp_hi q) -> lp_seg q = w ->
  (forall x, in_box (lp_lo q) (lp_hi q) x -> placed x (w, lp_off q + lin (lp_ld q) (vsub x (lp_lo q)))) ->
  (length (lp_lo q) - 1 <= length (lp_ld q))%nat ->
  plo <> [] -> length phi = length plo -> length (lp_lo q) = length plo ->
  exists cs, dot_piece plo phi q = Some cs /\
    marked (pairs placed placed) (fun x => in_box (lp_lo q) (lp_hi q) x /\ in_box plo phi x) cs.
Proof.
  intros QL ES HPl LL Hne L1 L2. pose proof (Forall2_len _ _ _ QL) as L3. unfold dot_piece.
  pose proof (patch_intersect_spec plo phi (lp_lo q) (lp_hi q) ltac:(lia) ltac:(lia) ltac:(lia)) as X.
  destruct (patch_intersect plo phi (lp_lo q) (lp_hi q)) as [[lo hi]|]; cbn [fst snd] in *.
  2:{ exists []. split; [reflexivity|]. apply marked_nil. intros x [A B]. exact (X x B A). }
  destruct X as [Hle HX]. destruct (proj1 (HX lo) (lo_in_box _ _ Hle)) as [A1 A2].
  destruct (in_box_len _ _ _ A2) as [N1 N2].
  rewrite corner_offset_lin; [|intros ->; destruct plo; [congruence|cbn in *; lia]|lia|lia].
  rewrite patch_offsets_ok; [|intros ->; destruct plo; [congruence|cbn in *; lia]|exact Hle|lia].
  eexists. split; [reflexivity|]. rewrite map_map.
  eapply marked_ext; [|apply indices_marked_any; [exact Hle|]].
  - intros x. rewrite HX. tauto.
  - intros x Hx. destruct (proj1 (HX x) Hx) as [X1 X2]. destruct (in_box_len _ _ _ X2). cbv zeta beta.
    assert (P : placed x (lp_seg q, lp_off q + 1 * lin (lp_ld q) (vsub lo (lp_lo q)) + lin (lp_ld q) (vsub x lo))).
    { rewrite ES, Z.mul_1_l, <- Z.add_assoc, <- (lin_ld_sub (lp_lo q) (lp_hi q) (lp_ld q) lo A2 x X2) by lia. apply HPl, X2. }
    split; exact P.
Qed.
Lemma dot_blocks_proc guess near wn a me w plo phi placed shape :
  good_guess guess -> walk_layout a wn placed shape -> 0 <= me < ga_nproc a -> abs_rank a me = Some w -> near w = true ->
  patch_of (dims (ga_desc a)) plo phi ->
  exists cs n, (forall fuel, (n <= fuel)%nat -> dot_blocks fuel guess near wn a me plo phi = Some cs) /\
    marked (pairs placed placed) (fun x => in_box plo phi x /\ exists ad, placed x (w, ad)) cs.
Proof.
  intros HG HL Hme EW HN HP. destruct (patch_lens _ _ _ HP) as [P1 P2].
  destruct (layout_walk guess near wn a me w placed shape HG HL Hme EW HN) as (ps & n & EI & C & LS).
  pose proof (any_layout_dims _ _ _ _ (proj1 HL)) as Hne.
  destruct (mapM_fuel (fun _ q => dot_piece plo phi q)
      (fun q cs => marked (pairs placed placed) (fun x => in_box (lp_lo q) (lp_hi q) x /\ in_box plo phi x) cs) ps) as (ls & n' & EM & F).
  { intros q Hq. destruct (piece_in_array _ _ _ _ _ C Hq) as (QL & Q1 & Q2). apply in_array_length in Q1.
    pose proof C as [_ C']. destruct (C' q Hq) as (_ & ES & HPl). specialize (LS q Hq).
    destruct (dot_piece_marked placed w plo phi q) as (l & E & X); auto; try lia.
    - eapply ld_shape_long; eauto.
    - intros ->. destruct (dims (ga_desc a)); [congruence|discriminate].
    - exists l, 0%nat. split; [intros; exact E|exact X]. }
  exists (concat ls), (Nat.max n n'). split.
  { intros fuel Hf. unfold dot_blocks. rewrite EI by lia. specialize (EM fuel ltac:(lia)). cbv beta in EM.
    change (fun q => dot_piece plo phi q) with (dot_piece plo phi) in EM. rewrite EM. reflexivity. }
  eapply marked_ext; [|apply (marked_tiles (pairs placed placed) ps (fun q => (lp_lo q, lp_hi q)) (fun x => in_array (dims (ga_desc a)) x /\ exists ad, placed x (w, ad)) (in_box plo phi) ls (proj1 C))].
  - intros x. cbv beta. split; [tauto|]. intros [X Y]. split; [|exact X]. split; [eapply patch_in; eauto|exact Y].
  - exact F.
Qed.
Lemma dot_blocks_all guess near wn a plo phi placed shape :
  good_guess guess -> (forall me w, abs_rank a me = Some w -> near me w = true) -> walk_layout a wn placed shape -> patch_of (dims (ga_desc a)) plo phi ->
  exists ls n, Forall2 (fun me l => forall fuel, (n <= fuel)%nat -> dot_blocks fuel guess (near me) wn a me plo phi = Some l) (zseq 0 (Z.to_nat (ga_nproc a))) ls /\
    marked (pairs placed placed) (in_box plo phi) (concat ls).
Proof.
  intros HG HN HL HP.
  destruct (procs_fuel (fun fuel me => dot_blocks fuel guess (near me) wn a me plo phi)
     (fun me l => exists w, abs_rank a me = Some w /\ marked (pairs placed placed) (fun x => in_box plo phi x /\ exists ad, placed x (w, ad)) l)
     (zseq 0 (Z.to_nat (ga_nproc a)))) as (ls & n & E & F).
  { intros me Hme. apply zseq_In in Hme. assert (Hm : 0 <= me < ga_nproc a) by lia.
    destruct (abs_rank_total a me (layout_group _ _ _ _ (proj1 HL)) Hm) as (w & EW).
    destruct (dot_blocks_proc guess (near me) wn a me w plo phi placed shape) as (l & n & E & M); auto. exists l, n. split; [exact E|eauto]. }
  exists ls, n. split; [exact E|]. apply (whole_marked _ a wn placed shape); [apply HL| |exact F]. intros x Hx. eapply patch_in; eauto.
Qed.

(** Identical distributions. *)
Lemma dot_same_all guess near ha hb a b :
  good_guess guess -> wf_array a -> wf_array b -> ga_elemsize a = ga_elemsize b ->
  ga_group b = ga_group a -> ga_nproc b = ga_nproc a -> (forall me w, abs_rank a me = Some w -> near me w = true) ->
  has_ghosts a = false -> has_ghosts b = false ->
  (forall p, 0 <= p < ga_nproc a -> distribution (ga_desc b) p = distribution (ga_desc a) p) ->
  no_empty_block a -> (ha = hb -> a = b) ->
  exists ls, Forall2 (fun me l => dot_same guess (near me) ha hb a b me = Some l) (zseq 0 (Z.to_nat (ga_nproc a))) ls /\
    marked (pairs (reg_place a) (reg_place b)) (in_array (dims (ga_desc a))) (concat ls).
Proof.
  intros HG WA WB EE GB NB HNear GhA GhB DB NE SAB.
  destruct (procs_fuel (fun _ me => dot_same guess (near me) ha hb a b me)
     (fun me l => exists w, abs_rank a me = Some w /\ marked (pairs (reg_place a) (reg_place b)) (fun x => in_array (dims (ga_desc a)) x /\ exists ad, reg_place a x (w, ad)) l)
     (zseq 0 (Z.to_nat (ga_nproc a)))) as (ls & n & E & F).
  { intros me Hme. apply zseq_In in Hme. assert (Hm : 0 <= me < ga_nproc a) by lia.
    destruct (abs_rank_total a me (layout_group _ 0 _ _ (or_introl (conj WA (conj eq_refl eq_refl)))) Hm) as (w & EW).
    assert (EWb : abs_rank b me = Some w) by (unfold abs_rank in *; rewrite GB; exact EW).
    destruct (regular_blocks_inside _ _ _ (proj1 WA) Hm) as (lo & hi & ED & _).
    assert (EDb : distribution (ga_desc b) me = Some (lo, hi)) by (rewrite DB by exact Hm; exact ED).
    assert (OWN : forall x, in_box lo hi x <-> in_array (dims (ga_desc a)) x /\ exists ad, reg_place a x (w, ad))
      by (intros x; apply (in_own_block a me w WA Hm EW lo hi x ED)).
    unfold dot_same. unfold held_cells. rewrite ED, EDb. cbn [fst snd]. rewrite EE, Z.eqb_refl.
    destruct (Z.ltb_spec 0 (hd 0 lo)) as [Hp|Hp].
    - pose proof (NE me lo hi Hm ED Hp) as HLE.
      destruct (block_cells_form guess (near me) a me w lo hi HG WA Hm EW (HNear _ _ EW) ED HLE GhA) as (oa & Ea & Pa).
      destruct (block_cells_form guess (near me) b me w lo hi HG WB ltac:(lia) EWb (HNear _ _ EW) EDb HLE GhB) as (ob & Eb & Pb).
      rewrite Ea, Eb. set (L := indices (extents lo hi)) in *.
      set (fa := (fun k => (w, oa + lin (extents lo hi) k)) : list Z -> place) in *.
      set (fb := (fun k => (w, ob + lin (extents lo hi) k)) : list Z -> place) in *.
      assert (XB : exists fb', (if ha =? hb then Some (map fa L) else Some (map fb L)) = Some (map fb' L) /\ forall x, in_box lo hi x -> reg_place b x (fb' (vsub x lo))).
      { destruct (Z.eqb_spec ha hb) as [E|E]; [exists fa|exists fb]; split; auto. intros x Hx. rewrite <- (SAB E). apply Pa, Hx. }
      destruct XB as (fb' & -> & Pb'). rewrite !map_length, Nat.eqb_refl. cbn [negb].
      assert (CM : combine (map fa L) (map fb' L) = map (fun k => (fa k, fb' k)) L) by (clear; induction L as [|x L IH]; cbn; [|rewrite IH]; reflexivity).
      rewrite CM. exists (map (fun k => (fa k, fb' k)) L), 0%nat. split; [reflexivity|]. exists w. split; [exact EW|].
      eapply marked_ext; [intros x; apply OWN|].
      apply (indices_marked_any _ lo hi (fun k => (fa k, fb' k)) HLE). intros x Hx. split; cbn [fst snd]; auto. apply Pa, Hx.
    - assert (E2 : (if ha =? hb then Some (@nil place) else Some []) = Some []) by (destruct (ha =? hb); reflexivity).
      rewrite E2. exists [], 0%nat. split; [reflexivity|]. exists w. split; [exact EW|]. apply marked_nil. intros x Hx. apply OWN in Hx. apply (no_block a me lo hi x WA Hm ED); [lia|exact Hx]. }
  exists ls. split; [eapply Forall2_weaken; [|exact E]; intros me es X; exact (X n (le_n n))|].
  apply (whole_marked _ a 0 (reg_place a) (reg_shape a)); [left; auto|auto|exact F].
Qed.
