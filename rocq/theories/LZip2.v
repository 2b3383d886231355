(** Lemmas: operations on corresponding elements, process by process. *)
From Verif Require Import LRadix LDist LStrided LStrided2 LIterReg LIterReg3 LIterSca LStore LXfer LXfer2 LLoc LAccess LSelect LSelect2 LOdo LGcopy5.
From Verif Require Export LZip.
Open Scope Z_scope.

(** An array whose elements are where those of C are. *)
Definition twin (c av : garray) : Prop :=
  wf_array av /\ ga_group av = None /\ ga_nproc av = ga_nproc c /\ length (dims (ga_desc av)) = length (dims (ga_desc c)) /\ ga_width av = ga_width c /\
  forall p, 0 <= p < ga_nproc c -> distribution (ga_desc av) p = distribution (ga_desc c) p.
Lemma twin_refl c : wf_array c -> ga_group c = None -> twin c c.
Proof. intros. repeat split; auto; apply H. Qed.
Definition placed_at (s : Z * garray) : Z * (list Z -> place -> Prop) := (fst s, reg_place (snd s)).

Lemma Forall2_combine_map {A B C D} (f : A -> B) (g : C -> D) (R : A -> C -> Prop) (l : list A) (l' : list C) : Forall2 R l l' ->
  length l = length l'.
Proof. induction 1; cbn; auto. Qed.

Section Local.
Variables (guess : Z -> Z -> Z -> Z) (near : Z -> bool) (w hc : Z) (c : garray) (clo chi : list Z).
Hypotheses (HG : good_guess guess) (WC : wf_array c) (GC : ga_group c = None) (HN : near w = true) (Hw : 0 <= w < ga_nproc c)
  (L1 : length clo = length (dims (ga_desc c))) (L2 : length chi = length clo).

Lemma zip_at_marked srcs blo bhi lo hi : Forall (fun s => twin c (snd s)) srcs ->
  distribution (ga_desc c) w = Some (blo, bhi) -> in_box blo bhi lo -> in_box blo bhi hi -> Forall2 Z.le lo hi ->
  exists l, zip_at guess near srcs hc c (length (dims (ga_desc c))) lo hi = Some l /\
    marked (zips (map placed_at srcs) hc (reg_place c)) (in_box lo hi) l.
Proof.
  intros HT ED A2 B2 Hle. pose proof (proj1 (proj1 WC)) as TC. pose proof (dist_len _ _ _ _ TC ED) as BL. pose proof (dist_len_dims _ _ _ _ TC ED) as BD.
  destruct (in_box_len _ _ _ A2) as [N1 N2]. pose proof (Forall2_len _ _ _ Hle) as N3.
  assert (LONG : forall av, length (dims (ga_desc av)) = length (dims (ga_desc c)) -> access_long guess near av lo hi = access_ptr guess near av lo hi).
  { intros av E. unfold access_long. rewrite E. destruct (Nat.ltb_spec (length lo) (length (dims (ga_desc c)))); [lia|]. rewrite !firstn_all2 by lia. reflexivity. }
  unfold zip_at.
  assert (SRC : exists rs, mapM (fun s => do r <- access_long guess near (snd s) lo hi; Some (fst s, fst r)) srcs = Some rs /\
    forall x, in_box lo hi x -> Forall2 (fun (s : Z * garray) (r : Z * place) => fst r = fst s /\
        reg_place (snd s) x (fst (snd r), snd (snd r) + lin (padded blo bhi (ga_width c)) (vsub x lo))) srcs rs).
  { induction HT as [|s srcs (WA & GA & NA & LA & WD & DA) HT IH]; [exists []; split; [reflexivity|constructor]|].
    destruct IH as (rs & E & H).
    destruct (access_same guess near (snd s) w lo hi blo bhi HG WA GA HN ltac:(lia)) as (oa & lda & EA & _ & _ & PA); auto; [rewrite DA by lia; exact ED|].
    cbn [mapM]. rewrite LONG, EA by exact LA. cbn [fst snd]. rewrite E. exists ((fst s, (w, oa)) :: rs). split; [reflexivity|].
    intros x Hx. constructor; [|auto]. cbn [fst snd]. split; [reflexivity|]. rewrite <- WD. auto. }
  destruct SRC as (rs & ES & SRC). rewrite ES.
  destruct (access_same guess near c w lo hi blo bhi HG WC GC HN Hw ED A2 B2 Hle) as (oc & ldc & EC & LC & KC & PC).
  rewrite LONG, EC by reflexivity. cbn [fst snd]. rewrite !firstn_all2 by lia.
  rewrite patch_offsets_ok; [|intros ->; cbn in N1; pose proof (proj1 (proj2 (proj1 WC))); destruct (dims (ga_desc c)); [congruence|cbn in *; lia]|exact Hle|exact LC].
  eexists. split; [reflexivity|].
  rewrite (lin_ext ldc (padded blo bhi (ga_width c))) by (intros k Hk; apply KC; destruct (LXfer2.extents_pos _ _ Hle); lia).
  rewrite map_map. apply indices_marked_any; [exact Hle|]. intros x Hx. set (k := lin (padded blo bhi (ga_width c)) (vsub x lo)).
  exists (map (fun r => (fst (snd r), snd (snd r) + k)) rs), (w, oc + k). split; [|split; [apply PC, Hx|]].
  - specialize (SRC x Hx). clear - SRC. induction SRC as [|s r srcs rs [_ H] F IH]; constructor; auto.
  - f_equal. specialize (SRC x Hx). clear - SRC. induction SRC as [|s r srcs rs [E _] F IH]; cbn [map combine placed_at fst snd]; [reflexivity|]. f_equal; [f_equal; exact E|exact IH].
Qed.

Lemma cut_marked (G : list Z -> list Z -> option (list zop)) Q blo bhi :
  distribution (ga_desc c) w = Some (blo, bhi) ->
  (forall lo hi, in_box blo bhi lo -> in_box blo bhi hi -> Forall2 Z.le lo hi -> exists l, G lo hi = Some l /\ marked Q (in_box lo hi) l) ->
  exists l, match cut_patch (length (dims (ga_desc c))) clo chi blo bhi with None => Some [] | Some b => G (fst b) (snd b) end = Some l /\
    marked Q (fun x => in_box clo chi x /\ exists ad, reg_place c x (w, ad)) l.
Proof.
  intros ED H. pose proof (proj1 (proj1 WC)) as TC. pose proof (dist_len _ _ _ _ TC ED) as BL. pose proof (dist_len_dims _ _ _ _ TC ED) as BD.
  assert (EW : abs_rank c w = Some w) by (unfold abs_rank; rewrite GC; reflexivity).
  unfold cut_patch. rewrite !(firstn_all2 clo), !(firstn_all2 chi), !(firstn_all2 blo), !(firstn_all2 bhi) by lia.
  pose proof (patch_intersect_spec clo chi blo bhi ltac:(lia) ltac:(lia) ltac:(lia)) as X.
  destruct (patch_intersect clo chi blo bhi) as [[lo hi]|]; cbn [fst snd] in *.
  2:{ exists []. split; [reflexivity|]. apply marked_nil. intros x [Hx Hy].
      apply (reg_place_unique c x w w blo bhi WC Hw EW ED) in Hy. exact (X x Hx Hy). }
  destruct X as [Hle HX]. destruct (proj1 (HX lo) (lo_in_box _ _ Hle)) as [A1 A2]. destruct (proj1 (HX hi) (box_refl_hi _ _ Hle)) as [B1 B2].
  rewrite (skipn_all2 blo), (skipn_all2 bhi), !app_nil_r by lia. destruct (H lo hi A2 B2 Hle) as (l & E & M). exists l. split; [exact E|].
  eapply marked_ext; [|exact M]. intros x. rewrite (reg_place_unique c x w w blo bhi WC Hw EW ED). apply HX.
Qed.

Lemma elem2_local_marked t ha av hb bv : listed_type t = true -> twin c av -> twin c bv ->
  exists l, elem2_local guess near w t ha av hb bv hc c clo chi = Some l /\
    marked (zips (map placed_at [(ha, av); (hb, bv)]) hc (reg_place c)) (fun x => in_box clo chi x /\ exists ad, reg_place c x (w, ad)) l.
Proof.
  intros Ht TA TB. destruct (regular_blocks_inside _ _ _ (proj1 WC) Hw) as (blo & bhi & ED & _).
  pose proof (proj1 (proj1 WC)) as TC. pose proof (dist_len _ _ _ _ TC ED) as BL. pose proof (dist_len_dims _ _ _ _ TC ED) as BD.
  pose proof TA as (_ & _ & _ & LA & _ & DA). pose proof TB as (_ & _ & _ & LB & _ & DB).
  unfold elem2_local. rewrite DA, DB, ED by lia. cbn [fst snd]. rewrite LA, LB.
  replace (used_dims (length (dims (ga_desc c))) (length (dims (ga_desc c))) (length (dims (ga_desc c)))) with (length (dims (ga_desc c)))
    by (unfold used_dims; rewrite Nat.ltb_irrefl; reflexivity).
  rewrite !(firstn_all2 blo), !(firstn_all2 bhi), comp_patch_refl by lia. cbn [negb]. rewrite Ht.
  apply (cut_marked (fun lo hi => zip_at guess near [(ha, av); (hb, bv)] hc c (length (dims (ga_desc c))) lo hi)); [exact ED|].
  intros lo hi X1 X2 X3. apply zip_at_marked with (blo := blo) (bhi := bhi); auto.
Qed.
Lemma median_local_marked t srcs : listed_type t = true -> Forall (fun s => twin c (snd s)) srcs ->
  exists l, median_local guess near w t srcs hc c clo chi = Some l /\
    marked (zips (map placed_at srcs) hc (reg_place c)) (fun x => in_box clo chi x /\ exists ad, reg_place c x (w, ad)) l.
Proof.
  intros Ht TA. destruct (regular_blocks_inside _ _ _ (proj1 WC) Hw) as (blo & bhi & ED & _).
  pose proof (proj1 (proj1 WC)) as TC. pose proof (dist_len _ _ _ _ TC ED) as BL. pose proof (dist_len_dims _ _ _ _ TC ED) as BD.
  unfold median_local. rewrite ED. cbn [fst snd].
  rewrite (LGcopy5.mapM_total _ (fun _ => true)).
  2:{ intros s Hs. rewrite Forall_forall in TA. destruct (TA s Hs) as (_ & _ & _ & _ & _ & D). rewrite D, ED by lia. cbn [fst snd]. rewrite comp_patch_refl by lia. reflexivity. }
  replace (all_true (map (fun _ => true) srcs)) with true by (clear; induction srcs; cbn; auto). cbn [negb]. rewrite Ht.
  replace (fold_right Nat.min (length (dims (ga_desc c))) (map (fun s => length (dims (ga_desc (snd s)))) srcs)) with (length (dims (ga_desc c))).
  2:{ clear - TA. induction TA as [|s srcs (_ & _ & _ & E & _) F IH]; cbn; [reflexivity|]. rewrite <- IH, E. lia. }
  apply (cut_marked (fun lo hi => zip_at guess near srcs hc c (length (dims (ga_desc c))) lo hi)); [exact ED|].
  intros lo hi X1 X2 X3. apply zip_at_marked with (blo := blo) (bhi := bhi); auto.
Qed.
End Local.

(** ---- block by block ---- *)
Definition all_at (p : list Z -> place -> Prop) (h : Z) : Z * (list Z -> place -> Prop) := (h, p).
Lemma zip_cells_marked hs hc (placed : list Z -> place -> Prop) w q lo hi :
  Forall2 Z.le (lp_lo q) (lp_hi q) -> lp_seg q = w ->
  (forall x, in_box (lp_lo q) (lp_hi q) x -> placed x (w, lp_off q + lin (lp_ld q) (vsub x (lp_lo q)))) ->
  (length (lp_lo q) - 1 <= length (lp_ld q))%nat -> lp_lo q <> [] ->
  Forall2 Z.le lo hi -> (forall x, in_box lo hi x -> in_box (lp_lo q) (lp_hi q) x) ->
  exists cs, zip_cells hs hc q lo hi = Some cs /\ marked (zips (map (all_at placed) hs) hc placed) (in_box lo hi) cs.
Proof.
  intros QL ES HPl LL Hne Hle HX. pose proof (Forall2_len _ _ _ QL) as L3. pose proof (HX lo (lo_in_box _ _ Hle)) as A2.
  destruct (in_box_len _ _ _ A2) as [N1 N2]. unfold zip_cells.
  rewrite corner_offset_lin; [|intros ->; destruct (lp_lo q); [congruence|cbn in *; lia]|lia|lia].
  rewrite patch_offsets_ok; [|intros ->; destruct (lp_lo q); [congruence|cbn in *; lia]|exact Hle|lia].
  eexists. split; [reflexivity|]. rewrite map_map. apply indices_marked_any; [exact Hle|].
  intros x Hx. pose proof (HX x Hx) as X2. destruct (in_box_len _ _ _ X2). cbv zeta beta.
  set (P := (lp_seg q, lp_off q + 1 * lin (lp_ld q) (vsub lo (lp_lo q)) + lin (lp_ld q) (vsub x lo)) : place).
  assert (HP : placed x P).
  { unfold P. rewrite ES, Z.mul_1_l, <- Z.add_assoc, <- (lin_ld_sub (lp_lo q) (lp_hi q) (lp_ld q) lo A2 x X2) by lia. apply HPl, X2. }
  exists (map (fun _ => P) hs), P. split; [|split; [exact HP|]].
  - clear - HP. induction hs; constructor; auto.
  - f_equal. clear. induction hs as [|h hs IH]; cbn [map combine all_at fst]; [reflexivity|]. rewrite IH. reflexivity.
Qed.
Lemma elem2_piece_marked t ta tb hc (placed : list Z -> place -> Prop) w plo phi q : listed_type t = true ->
  Forall2 Z.le (lp_lo q) (lp_hi q) -> lp_seg q = w ->
  (forall x, in_box (lp_lo q) (lp_hi q) x -> placed x (w, lp_off q + lin (lp_ld q) (vsub x (lp_lo q)))) ->
  (length (lp_lo q) - 1 <= length (lp_ld q))%nat ->
  plo <> [] -> length phi = length plo -> length (lp_lo q) = length plo ->
  exists cs, elem2_piece t ta tb hc plo phi q = Some cs /\
    marked (zips (map (all_at placed) [ta; tb]) hc placed) (fun x => in_box (lp_lo q) (lp_hi q) x /\ in_box plo phi x) cs.
Proof.
  intros Ht QL ES HPl LL Hne L1 L2. pose proof (Forall2_len _ _ _ QL) as L3. unfold elem2_piece.
  pose proof (patch_intersect_spec plo phi (lp_lo q) (lp_hi q) ltac:(lia) ltac:(lia) ltac:(lia)) as X.
  destruct (patch_intersect plo phi (lp_lo q) (lp_hi q)) as [[lo hi]|]; cbn [fst snd] in *.
  2:{ exists []. split; [reflexivity|]. apply marked_nil. intros x [A B]. exact (X x B A). }
  destruct X as [Hle HX]. rewrite Ht.
  destruct (zip_cells_marked [ta; tb] hc placed w q lo hi) as (cs & E & M); auto.
  { intros E. rewrite E in L2. destruct plo; [congruence|discriminate]. }
  { intros x Hx. apply HX, Hx. }
  exists cs. split; [exact E|]. eapply marked_ext; [|exact M]. intros x. rewrite HX. tauto.
Qed.
(** A walk over the blocks of a process. *)
Lemma walk_marked {Q} (G : lpiece -> option (list zop)) guess near wn a me w (D : list Z -> Prop) placed shape :
  good_guess guess -> walk_layout a wn placed shape -> 0 <= me < ga_nproc a -> abs_rank a me = Some w -> near w = true ->
  (forall q, Forall2 Z.le (lp_lo q) (lp_hi q) -> lp_seg q = w -> length (lp_lo q) = length (dims (ga_desc a)) -> lp_lo q <> [] ->
     (forall x, in_box (lp_lo q) (lp_hi q) x -> placed x (w, lp_off q + lin (lp_ld q) (vsub x (lp_lo q)))) ->
     (length (lp_lo q) - 1 <= length (lp_ld q))%nat -> (forall x, in_box (lp_lo q) (lp_hi q) x -> in_array (dims (ga_desc a)) x) ->
     exists cs, G q = Some cs /\ marked Q (fun x => in_box (lp_lo q) (lp_hi q) x /\ D x) cs) ->
  (forall x, D x -> in_array (dims (ga_desc a)) x) ->
  exists cs n, (forall fuel, (n <= fuel)%nat -> (do ps <- local_iterate fuel guess near wn a me; do ls <- mapM G ps; Some (concat ls)) = Some cs) /\
    marked Q (fun x => D x /\ exists ad, placed x (w, ad)) cs.
Proof.
  intros HG HL Hme EW HN HQ HD.
  destruct (layout_walk guess near wn a me w placed shape HG HL Hme EW HN) as (ps & n & EI & C & LS).
  pose proof (any_layout_dims _ _ _ _ (proj1 HL)) as Hne.
  destruct (mapM_fuel (fun _ q => G q) (fun q cs => marked Q (fun x => in_box (lp_lo q) (lp_hi q) x /\ D x) cs) ps) as (ls & n' & EM & F).
  { intros q Hq. destruct (piece_in_array _ _ _ _ _ C Hq) as (QL & Q1 & Q2). pose proof (conj Q1 (conj Q2 QL) : patch_of (dims (ga_desc a)) (lp_lo q) (lp_hi q)) as PQ. apply in_array_length in Q1.
    pose proof C as [_ C']. destruct (C' q Hq) as (_ & ES & HPl). specialize (LS q Hq).
    destruct (HQ q) as (l & E & X); auto.
    - intros E. rewrite E in Q1. destruct (dims (ga_desc a)); [congruence|discriminate].
    - eapply ld_shape_long; eauto.
    - intros x Hx. eapply patch_in; eauto.
    - exists l, 0%nat. split; [intros; exact E|exact X]. }
  exists (concat ls), (Nat.max n n'). split.
  { intros fuel Hf. rewrite EI by lia. specialize (EM fuel ltac:(lia)). cbv beta in EM.
    change (fun q => G q) with G in EM. rewrite EM. reflexivity. }
  eapply marked_ext; [|apply (marked_tiles Q ps (fun q => (lp_lo q, lp_hi q)) (fun x => in_array (dims (ga_desc a)) x /\ exists ad, placed x (w, ad)) D ls (proj1 C))].
  - intros x. cbv beta. split; [tauto|]. intros [X Y]. split; [|exact X]. split; [apply HD, X|exact Y].
  - exact F.
Qed.
Lemma elem2_blocks_proc guess near wn t ta tb hc a me w plo phi placed shape : listed_type t = true ->
  good_guess guess -> walk_layout a wn placed shape -> 0 <= me < ga_nproc a -> abs_rank a me = Some w -> near w = true ->
  patch_of (dims (ga_desc a)) plo phi ->
  exists cs n, (forall fuel, (n <= fuel)%nat -> elem2_blocks fuel guess near wn t ta tb hc a me plo phi = Some cs) /\
    marked (zips (map (all_at placed) [ta; tb]) hc placed) (fun x => in_box plo phi x /\ exists ad, placed x (w, ad)) cs.
Proof.
  intros Ht HG HL Hme EW HN HP. destruct (patch_lens _ _ _ HP) as [P1 P2].
  apply (walk_marked (elem2_piece t ta tb hc plo phi) guess near wn a me w (in_box plo phi) placed shape); auto.
  - intros q QL ES LQ NQ HPl LL _. apply elem2_piece_marked with (w := w); auto; try lia. intros ->. destruct (dims (ga_desc a)), (lp_lo q); try discriminate; congruence.
  - intros x Hx. eapply patch_in; eauto.
Qed.
Lemma median_blocks_proc guess near wn t hs hc a me w placed shape : listed_type t = true ->
  good_guess guess -> walk_layout a wn placed shape -> 0 <= me < ga_nproc a -> abs_rank a me = Some w -> near w = true ->
  exists cs n, (forall fuel, (n <= fuel)%nat -> median_blocks fuel guess near wn t hs hc a me = Some cs) /\
    marked (zips (map (all_at placed) hs) hc placed) (fun x => in_array (dims (ga_desc a)) x /\ exists ad, placed x (w, ad)) cs.
Proof.
  intros Ht HG HL Hme EW HN.
  apply (walk_marked (median_piece t hs hc) guess near wn a me w (in_array (dims (ga_desc a))) placed shape); auto.
  intros q QL ES LQ NQ HPl LL IA. unfold median_piece. rewrite Ht.
  destruct (zip_cells_marked hs hc placed w q (lp_lo q) (lp_hi q)) as (cs & E & M); auto. exists cs. split; [exact E|].
  eapply marked_ext; [|exact M]. intros x. split; [auto|tauto].
Qed.
