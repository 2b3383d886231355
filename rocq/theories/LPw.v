(** Lemmas: elementwise operations on one array. *)
From Verif Require Import LRadix LStrided LStrided2 LIterReg LIterReg3 LIterSca LStore LXfer LXfer2 LLoc LAccess LSelect LSelect2 LOdo.
From Verif Require Export LLab SpecPw MPw LCpatch2.
Open Scope Z_scope.

(** ---- running updates ---- *)
Lemma upd_run {V} (f : V -> V) es : forall m,
  NoDup es -> (forall q, In q es -> hget m q <> None) ->
  exists m', run_elems (upd_elem f) m es = Some m' /\
    (forall q, In q es -> exists v, hget m q = Some v /\ hget m' q = Some (f v)) /\
    (forall q, ~ In q es -> hget m' q = hget m q).
Proof.
  induction es as [|e es IH]; intros m ND HD.
  { exists m. split; [reflexivity|]. split; [intros ? []|reflexivity]. }
  apply NoDup_cons_iff in ND as [Hn ND]. pose proof (HD e (or_introl eq_refl)) as D.
  destruct (hget m e) as [v|] eqn:Ev; [|congruence].
  destruct (IH (hset m e (f v)) ND) as (m' & E & P1 & P2).
  { intros q Hq. rewrite hget_hset_other; [apply HD; now right|]. intros ->. auto. }
  exists m'. split; [cbn [run_elems]; unfold upd_elem at 1; rewrite Ev; exact E|]. split.
  - intros q [<-|Hq].
    + exists v. split; [exact Ev|]. rewrite (P2 _ Hn). apply hget_hset_same.
    + destruct (P1 q Hq) as (u & E1 & E2). exists u. split; [|exact E2]. rewrite <- E1. symmetry. apply hget_hset_other. intros ->. auto.
  - intros q Hq. rewrite P2 by (intros X; apply Hq; now right). apply hget_hset_other. intros ->. apply Hq. now left.
Qed.

Lemma marked_updated {V} (placed : list Z -> place -> Prop) (D : list Z -> Prop) (f : V -> V) m es :
  (forall x q q', placed x q -> placed x q' -> q = q') -> (forall x y q, placed x q -> placed y q -> x = y) ->
  allocated placed m -> marked placed D es ->
  exists m', run_elems (upd_elem f) m es = Some m' /\ updated D f placed m m'.
Proof.
  intros HF HI HA HM. pose proof (marked_NoDup placed D es HI HM) as ND. destruct HM as (l & -> & N & I & J).
  destruct (upd_run f (map fst l) m ND) as (m' & E & P1 & P2).
  { intros q Hq. apply in_map_iff in Hq as ((q' & x) & <- & Hin). eapply HA, J, Hin. }
  exists m'. split; [exact E|]. split.
  - intros x q Hx Hq. apply I in Hx. apply in_map_iff in Hx as ((q' & x') & <- & Hin). cbn [snd] in *.
    rewrite (HF _ _ _ Hq (J _ _ Hin)). apply P1. apply (in_map fst _ _ Hin).
  - intros q Hq. apply P2. intros Hin. apply in_map_iff in Hin as ((q' & x) & <- & Hin). cbn [fst] in *.
    apply (Hq x); [apply I, (in_map snd _ _ Hin)|apply (J _ _ Hin)].
Qed.

(** ---- offsets of a patch ---- *)
Lemma dot_baselds k : forall p ld, (length k <= length ld)%nat -> dot k (baselds p ld) = p * match ld with [] => 0 | d :: ld' => d * lin ld' k end.
Proof.
  induction k as [|a k IH]; intros p ld HL; [destruct ld; cbn [dot lin]; ring|].
  destruct ld as [|d ld]; [cbn in HL; lia|]. cbn [baselds dot]. rewrite IH by (cbn in *; lia).
  destruct k as [|b k]; [destruct ld; cbn [lin]; ring|]. destruct ld as [|d2 ld]; [cbn in HL; lia|].
  cbn [lin]. ring.
Qed.
Lemma lin_dot j k ld : (length k <= length ld)%nat -> lin ld (j :: k) = j + dot k (baselds 1 ld).
Proof.
  intros HL. rewrite dot_baselds by exact HL. destruct k as [|b k]; [destruct ld; cbn [lin]; ring|].
  destruct ld as [|d ld]; [cbn in HL; lia|]. rewrite Z.mul_1_l. reflexivity.
Qed.
Lemma bunits_units los : forall his u, length his = length los -> bunits los his u = units u (extents los his).
Proof. induction los as [|l los IH]; intros [|h his] u HL; try discriminate; cbn; [reflexivity|]. rewrite IH by (cbn in HL; lia). reflexivity. Qed.
Lemma baselds_length ld : forall p, length (baselds p ld) = length ld.
Proof. induction ld as [|d ld IH]; intros p; cbn; [reflexivity|]. rewrite IH. reflexivity. Qed.

Lemma patch_offsets_ok lo hi ld : lo <> [] -> Forall2 Z.le lo hi -> (length lo - 1 <= length ld)%nat ->
  patch_offsets lo hi ld = Some (map (lin ld) (indices (extents lo hi))).
Proof.
  intros Hne HLE HL. destruct HLE as [|l h lo hi Hlh HLE]; [congruence|]. cbn [length] in HL.
  destruct (LXfer2.extents_pos _ _ HLE) as [EL EP]. pose proof (Forall2_len _ _ _ HLE) as LH.
  unfold patch_offsets. cbn [extents tl]. rewrite bunits_units by lia. rewrite <- (decode_0 _ EP).
  rewrite odo_offsets_ok; [|lia|exact EP|rewrite baselds_length; lia|reflexivity].
  f_equal. cbn [indices]. rewrite decode_indices by exact EP.
  rewrite !flat_map_concat_map, !map_map, concat_map, map_map. f_equal. apply map_ext_in. intros p Hp. unfold counts.
  rewrite !map_map. apply map_ext. intros i. rewrite lin_dot; [lia|].
  apply zseq_In in Hp. pose proof (in_range0_length _ _ (decode_range (extents lo hi) p EP ltac:(lia))). lia.
Qed.

Lemma indices_marked (Q : list Z -> place -> Prop) lo hi h : Forall2 Z.le lo hi ->
  (forall x, in_box lo hi x -> Q x (h (vsub x lo))) ->
  marked Q (in_box lo hi) (map h (indices (extents lo hi))).
Proof.
  intros HLE HQ. pose proof (Forall2_len _ _ _ HLE) as HL.
  assert (IN : forall k, In k (indices (extents lo hi)) -> in_range0 (extents lo hi) k /\ length k = length lo).
  { intros k Hk. apply indices_In in Hk. split; [exact Hk|]. apply in_range0_length in Hk. destruct (LXfer2.extents_pos _ _ HLE). lia. }
  exists (map (fun k => (h k, vadd k lo)) (indices (extents lo hi))). rewrite !map_map. cbn [fst snd].
  split; [reflexivity|]. split.
  { apply NoDup_map_inj; [|apply indices_NoDup]. intros k k' Hk Hk' Eq. destruct (IN k Hk), (IN k' Hk').
    rewrite <- (vsub_vadd lo k), <- (vsub_vadd lo k'), Eq by lia. reflexivity. }
  split.
  - intros x. rewrite in_map_iff. split.
    + intros (k & <- & Hk). apply vadd_in_box; [exact HLE|apply IN, Hk].
    + intros Hx. destruct (vsub_in_range _ _ _ Hx) as [A B]. exists (vsub x lo). split; [exact B|apply indices_In, A].
  - intros e x Hin. apply in_map_iff in Hin as (k & Eq & Hk). injection Eq as <- <-. destruct (IN k Hk).
    rewrite <- (vsub_vadd lo k) at 2 by lia. apply HQ, vadd_in_box; auto.
Qed.

(** ---- one piece ---- *)
Lemma lt_some_eq a : forall b, Forall2 Z.le a b -> lt_some a b = false -> a = b.
Proof.
  induction a as [|x a IH]; intros b H HF; inversion H; subst; [reflexivity|]. cbn in HF. apply orb_false_iff in HF as [A B].
  f_equal; [lia|auto].
Qed.
Lemma in_box_le lo hi x : in_box lo hi x -> Forall2 Z.le lo x.
Proof. revert hi x. induction lo as [|l lo IH]; intros [|h hi] [|a x]; cbn; try tauto; constructor; [lia|eapply IH; apply H]. Qed.
Lemma lin_self ld x : lin ld (vsub x x) = 0.
Proof.
  replace (vsub x x) with (repeat 0 (length x)); [apply LGcopy2.lin_zero|].
  induction x as [|a x IH]; cbn; [reflexivity|]. f_equal; [lia|exact IH].
Qed.

Lemma piece_cells_marked (placed : list Z -> place -> Prop) w plo phi q :
  Forall2 Z.le (lp_lo q) (lp_hi q) -> lp_seg q = w ->
  (forall x, in_box (lp_lo q) (lp_hi q) x -> placed x (w, lp_off q + lin (lp_ld q) (vsub x (lp_lo q)))) ->
  (length (lp_lo q) - 1 <= length (lp_ld q))%nat ->
  plo <> [] -> length phi = length plo -> length (lp_lo q) = length plo ->
  exists cs, piece_cells plo phi q = Some cs /\
    marked placed (fun x => in_box (lp_lo q) (lp_hi q) x /\ in_box plo phi x) cs.
Proof.
  intros QL ES HPl LL Hne L1 L2. pose proof (Forall2_len _ _ _ QL) as L3. unfold piece_cells.
  pose proof (patch_intersect_spec plo phi (lp_lo q) (lp_hi q) ltac:(lia) ltac:(lia) ltac:(lia)) as X.
  destruct (patch_intersect plo phi (lp_lo q) (lp_hi q)) as [[lo hi]|]; cbn [fst snd] in *.
  2:{ exists []. split; [reflexivity|]. apply marked_nil. intros x [A B]. exact (X x B A). }
  destruct X as [Hle HX]. destruct (proj1 (HX lo) (lo_in_box _ _ Hle)) as [A1 A2].
  destruct (in_box_len _ _ _ A2) as [N1 N2].
  assert (EO : (if lt_some (lp_lo q) lo then corner_offset lo (lp_lo q) (lp_ld q) 1 else Some 0) = Some (lin (lp_ld q) (vsub lo (lp_lo q)))).
  { destruct (lt_some (lp_lo q) lo) eqn:EL.
    - rewrite corner_offset_lin; [f_equal; lia|intros ->; destruct plo; [congruence|cbn in *; lia]|lia|lia].
    - rewrite (lt_some_eq _ _ (in_box_le _ _ _ A2) EL). rewrite lin_self. reflexivity. }
  rewrite EO, patch_offsets_ok; [|intros ->; destruct plo; [congruence|cbn in *; lia]|exact Hle|lia].
  eexists. split; [reflexivity|]. rewrite map_map.
  eapply marked_ext; [|apply (indices_marked placed lo hi (fun k => (lp_seg q, lp_off q + lin (lp_ld q) (vsub lo (lp_lo q)) + lin (lp_ld q) k)))].
  - intros x. rewrite HX. tauto.
  - exact Hle.
  - intros x Hx. destruct (proj1 (HX x) Hx) as [X1 X2]. destruct (in_box_len _ _ _ X2).
    rewrite ES, <- Z.add_assoc, <- (lin_ld_sub (lp_lo q) (lp_hi q) (lp_ld q) lo A2 x X2) by lia. apply HPl, X2.
Qed.

(** ---- one process ---- *)
Lemma patch_cells_proc guess near wn a me w plo phi placed shape :
  good_guess guess -> walk_layout a wn placed shape -> 0 <= me < ga_nproc a -> abs_rank a me = Some w -> near w = true ->
  length plo = length (dims (ga_desc a)) -> length phi = length plo ->
  exists cs n, (forall fuel, (n <= fuel)%nat -> patch_cells fuel guess near wn a me plo phi = Some cs) /\
    marked placed (fun x => (in_array (dims (ga_desc a)) x /\ in_box plo phi x) /\ exists ad, placed x (w, ad)) cs.
Proof.
  intros HG HL Hme EW HN P1 P2.
  destruct (layout_walk guess near wn a me w placed shape HG HL Hme EW HN) as (ps & n & EI & C & LS).
  pose proof (any_layout_dims _ _ _ _ (proj1 HL)) as Hne.
  destruct (mapM_fuel (fun _ q => piece_cells plo phi q)
      (fun q cs => marked placed (fun x => in_box (lp_lo q) (lp_hi q) x /\ in_box plo phi x) cs) ps) as (ls & n' & EM & F).
  { intros q Hq. destruct (piece_in_array _ _ _ _ _ C Hq) as (QL & Q1 & Q2). apply in_array_length in Q1.
    pose proof C as [_ C']. destruct (C' q Hq) as (_ & ES & HPl). specialize (LS q Hq).
    destruct (piece_cells_marked placed w plo phi q) as (l & E & X); auto; try lia.
    - eapply ld_shape_long; eauto.
    - intros ->. destruct (dims (ga_desc a)); [congruence|discriminate].
    - exists l, 0%nat. split; [intros; exact E|exact X]. }
  exists (concat ls), (Nat.max n n'). split.
  { intros fuel Hf. unfold patch_cells. rewrite EI by lia. specialize (EM fuel ltac:(lia)). cbv beta in EM.
    change (fun q => piece_cells plo phi q) with (piece_cells plo phi) in EM. rewrite EM. reflexivity. }
  eapply marked_ext; [|apply (marked_tiles placed ps (fun q => (lp_lo q, lp_hi q)) (fun x => in_array (dims (ga_desc a)) x /\ exists ad, placed x (w, ad)) (in_box plo phi) ls (proj1 C))].
  - intros x. cbv beta. tauto.
  - exact F.
Qed.

(** ---- all processes ---- *)
Lemma whole_marked {E} (Q : list Z -> E -> Prop) (d : garray) wn pd sd (D : list Z -> Prop) (ess : list (list E)) :
  any_layout d wn pd sd -> (forall x, D x -> in_array (dims (ga_desc d)) x) ->
  Forall2 (fun me es => exists w, abs_rank d me = Some w /\
    marked Q (fun x => D x /\ exists ad, pd x (w, ad)) es) (zseq 0 (Z.to_nat (ga_nproc d))) ess ->
  marked Q D (concat ess).
Proof.
  intros LD HD F. destruct (any_storage _ _ _ _ LD) as (alloc & S1 & S2 & S3 & S4).
  apply (marked_procs Q pd D (abs_rank d) (ga_nproc d)); auto.
  - intros x q Hq. destruct (S4 x q Hq) as (r & n & Hr & E1 & _). eauto.
  - intros p p' w. apply abs_rank_inj. eapply layout_group; eauto.
Qed.

Theorem patch_cells_spec guess near wn a plo phi placed shape :
  good_guess guess -> walk_layout a wn placed shape -> (forall me w, abs_rank a me = Some w -> near me w = true) ->
  length plo = length (dims (ga_desc a)) -> length phi = length plo ->
  exists ess n,
    Forall2 (fun me es => forall fuel, (n <= fuel)%nat -> patch_cells fuel guess (near me) wn a me plo phi = Some es)
            (zseq 0 (Z.to_nat (ga_nproc a))) ess /\
    marked placed (fun x => in_array (dims (ga_desc a)) x /\ in_box plo phi x) (concat ess).
Proof.
  intros HG HL HNear P1 P2.
  destruct (procs_fuel (fun fuel me => patch_cells fuel guess (near me) wn a me plo phi)
     (fun me es => exists w, abs_rank a me = Some w /\
        marked placed (fun x => (in_array (dims (ga_desc a)) x /\ in_box plo phi x) /\ exists ad, placed x (w, ad)) es)
     (zseq 0 (Z.to_nat (ga_nproc a)))) as (ess & n & E & F).
  - intros me Hme. apply zseq_In in Hme. assert (Hm : 0 <= me < ga_nproc a) by lia.
    destruct (abs_rank_total a me (layout_group _ _ _ _ (proj1 HL)) Hm) as (w & EW).
    destruct (patch_cells_proc guess (near me) wn a me w plo phi placed shape HG HL Hm EW (HNear _ _ EW) P1 P2) as (es & n & E & L).
    exists es, n. split; [exact E|]. eauto.
  - exists ess, n. split; [exact E|]. eapply whole_marked; [apply HL| |exact F]. intros x [X _]. exact X.
Qed.
