(** Property theorems: GA_Norm1 and GA_Norm_infinity (C86). *)
From Verif Require Import LRadix LXfer LXfer2 LStore LLoc LGcopy LGcopy2 LGcopy3 LGcopy4 LGcopy5 LDot LPw2 LDiag LNorm PDist PIter PIterBlk PXfer PLoc PGat PGcopy PCpatch PAdd PDiag MNorm.
Open Scope Z_scope.

(** Every process has at most one block. *)
Definition one_block guess (near : Z -> Z -> bool) wn (a : garray) : Prop :=
  forall me fuel ps, 0 <= me < ga_nproc a -> local_iterate fuel guess (near me) wn a me = Some ps -> (length ps <= 1)%nat.
Lemma regular_one_block guess near wn a : distr_type (ga_desc a) = REGULAR -> one_block guess near wn a.
Proof.
  intros HT me fuel ps _. unfold local_iterate, loc_init. rewrite HT. destruct fuel as [|fuel]; [discriminate|]. cbn [loc_drain].
  unfold loc_next at 1. rewrite HT. change (0 <? 0) with false. cbv iota.
  destruct (distribution (ga_desc a) me) as [b|]; [|discriminate]. destruct (le_all (fst b) (snd b)); [|intros E; injection E as <-; cbn; lia].
  destruct (access_ptr guess (near me) a (fst b) (snd b)) as [r|]; [|discriminate]. destruct fuel as [|fuel]; [discriminate|]. cbn [loc_drain].
  unfold loc_next. rewrite HT. change (0 <? 0 + 1) with true. cbv iota. intros E. injection E as <-. cbn. lia.
Qed.

Section Walk.
Variables (guess : Z -> Z -> Z -> Z) (near : Z -> Z -> bool) (wn : Z) (a : garray) (pa : list Z -> place -> Prop) (sa : list Z -> Prop) (byrow : bool).
Hypotheses (HG : good_guess guess) (LA : walk_layout a wn pa sa)
  (HNear : forall me w, abs_rank a me = Some w -> near me w = true)
  (H2 : (length (dims (ga_desc a)) <= 2)%nat) (H0 : dims (ga_desc a) <> []).

Lemma norm_walk : exists ess n,
  Forall2 (fun me es => forall fuel, (n <= fuel)%nat -> walk fuel guess (near me) wn a me (block_list byrow) = Some es) (zseq 0 (Z.to_nat (ga_nproc a))) ess /\
  marked pa (in_array (dims (ga_desc a))) (concat ess).
Proof.
  destruct (walk_spec pa guess near wn a pa sa (fun _ => True) (fun _ _ q => block_list byrow q) HG LA HNear) as (ess & n & F & M).
  - intros me w ps q Hm EW C Hq HS _. destruct (norm_cells_marked byrow pa sa a w ps q H2 H0 C Hq HS) as (cs & E & M).
    exists ((lp_seg q, lp_off q) :: cs), 0%nat. split.
    + intros. unfold block_list. rewrite E. cbn [fst snd]. rewrite !Z.eqb_refl. reflexivity.
    + eapply marked_ext; [|exact M]. intros x. tauto.
  - exists ess, n. split; [exact F|]. eapply marked_ext; [|exact M]. intros x. tauto.
Qed.
End Walk.

(** The walk of a process with at most one block. *)
Lemma one_walk fuel guess near wn a me byrow es : (forall ps, local_iterate fuel guess near wn a me = Some ps -> (length ps <= 1)%nat) ->
  walk fuel guess near wn a me (block_list byrow) = Some es ->
  (local_iterate fuel guess near wn a me = Some [] /\ es = []) \/
  (exists q cs, local_iterate fuel guess near wn a me = Some [q] /\ es = (lp_seg q, lp_off q) :: cs /\ norm_cells byrow q = Some (Some es)).
Proof.
  intros OB. unfold walk. destruct (local_iterate fuel guess near wn a me) as [ps|]; [|discriminate]. specialize (OB _ eq_refl).
  destruct ps as [|q [|q' ps]]; cbn in OB; [| |lia]; cbn [mapM].
  - intros E. injection E as <-. now left.
  - destruct (block_list byrow q) as [l|] eqn:E; [|discriminate]. cbn [concat]. rewrite app_nil_r. intros E'. injection E' as <-.
    destruct (block_list_inv _ _ _ E) as (cs & -> & E2). right. eauto.
Qed.

Lemma dims_guard (ds : list Z) : (length ds <= 2)%nat -> (2 <? Z.of_nat (length ds)) = false.
Proof. intros. apply Z.ltb_ge. lia. Qed.

(** GA_Norm1, if no process has more than one block. *)
Theorem C86_norm1_partial : forall {V N} (nrm : V -> N) add zero guess near wn t a pa sa (m : heap V),
  sums_freely add zero -> good_guess guess -> (forall me, near me me = true) ->
  walk_layout a wn pa sa -> (length (dims (ga_desc a)) <= 2)%nat -> ga_group a = None -> t <> E_longlong ->
  one_block guess near wn a -> allocated pa m ->
  exists cs n,
    Forall2 (fun me c => forall fuel, (n <= fuel)%nat -> norm1_proc nrm add zero fuel guess (near me) wn t a me m = Some c)
      (zseq 0 (Z.to_nat (ga_nproc a))) cs /\
    forall cs', Permutation cs cs' -> sum_value nrm add zero pa (in_array (dims (ga_desc a))) m (gop_sum add zero cs').
Proof.
  intros V N nrm add zero guess near wn t a pa sa m HM HG HN LA H2 GA HT OB AA.
  destruct (norm_walk guess near wn a pa sa true HG LA) as (ess & n & F & M); auto.
  { intros me w E. rewrite (world_rank a me GA) in E. injection E as <-. apply HN. }
  { apply (any_layout_dims _ _ _ _ (proj1 LA)). }
  destruct (values_of pa _ m ess AA M) as (vss & FV & HV).
  exists (map (fun vs => fold_right add zero (map nrm vs)) vss), n. split.
  - assert (HR : forall me, In me (zseq 0 (Z.to_nat (ga_nproc a))) -> 0 <= me < ga_nproc a) by (intros me Hme; apply zseq_In in Hme; lia).
    clear M HV. revert vss FV HR. induction F as [|me es l ess E F IH]; intros vss FV HR; inversion FV as [|? vs ? vss' Fv FV']; subst; cbn [map]; constructor.
    + intros fuel Hf. unfold norm1_proc. rewrite (dims_guard _ H2), (listed_ok t HT). cbn [orb negb].
      destruct (one_walk _ _ _ _ _ _ _ _ (fun ps => OB me fuel ps (HR me (or_introl eq_refl))) (E fuel Hf)) as [[-> ->]|(q & cs & -> & -> & EC)].
      * inversion Fv; subst. reflexivity.
      * cbn [over_blocks]. unfold norm1_block. rewrite EC, (sum_loop_ok nrm add zero m _ vs HM Fv).
        destruct HM as (_ & _ & U). rewrite U. reflexivity.
    + apply IH; auto. intros me' Hm'. apply HR. now right.
  - intros cs' PT xs NX HX. destruct (HV xs NX HX) as (vs & E & P). exists vs. split; [exact E|]. unfold gop_sum.
    rewrite <- (total_perm add zero HM _ _ PT). rewrite <- (total_perm add zero HM _ _ (Permutation_map nrm P)).
    rewrite concat_map, <- (total_concat add zero HM), map_map. reflexivity.
Qed.
Print Assumptions C86_norm1_partial.

(** GA_Norm_infinity, if no process has more than one block. *)
Theorem C86_norm_inf_partial : forall {V N} (nrm sgn : V -> N) zero ltb guess near wn t a pa sa (m : heap V),
  ordered nrm ltb zero sgn -> good_guess guess -> (forall me, near me me = true) ->
  walk_layout a wn pa sa -> (length (dims (ga_desc a)) <= 2)%nat -> ga_group a = None -> t <> E_longlong ->
  one_block guess near wn a -> allocated pa m ->
  exists cs n,
    Forall2 (fun me c => forall fuel, (n <= fuel)%nat -> norm_inf_proc nrm sgn zero ltb fuel guess (near me) wn t a me m = Some c)
      (zseq 0 (Z.to_nat (ga_nproc a))) cs /\
    forall cs', Permutation cs cs' -> max_value nrm ltb pa (in_array (dims (ga_desc a))) m (gop_max zero ltb cs').
Proof.
  intros V N nrm sgn zero ltb guess near wn t a pa sa m HO HG HN LA H2 GA HT OB AA.
  destruct (norm_walk guess near wn a pa sa (elt_eqb t E_dbl) HG LA) as (ess & n & F & M); auto.
  { intros me w E. rewrite (world_rank a me GA) in E. injection E as <-. apply HN. }
  { apply (any_layout_dims _ _ _ _ (proj1 LA)). }
  destruct (values_of pa _ m ess AA M) as (vss & FV & HV).
  assert (X : exists cs, Forall2 (fun me c => forall fuel, (n <= fuel)%nat -> norm_inf_proc nrm sgn zero ltb fuel guess (near me) wn t a me m = Some c)
      (zseq 0 (Z.to_nat (ga_nproc a))) cs /\ Forall2 (max_part nrm zero ltb) cs vss).
  { assert (HR : forall me, In me (zseq 0 (Z.to_nat (ga_nproc a))) -> 0 <= me < ga_nproc a) by (intros me Hme; apply zseq_In in Hme; lia).
    clear M HV. revert vss FV HR. induction F as [|me es l ess E F IH]; intros vss FV HR; inversion FV as [|? vs ? vss' Fv FV']; subst.
    { exists []. split; constructor. }
    destruct (IH vss' FV') as (cs & F1 & F2); [intros me' Hm'; apply HR; now right|].
    assert (Y : exists c, (forall fuel, (n <= fuel)%nat -> norm_inf_proc nrm sgn zero ltb fuel guess (near me) wn t a me m = Some c) /\ max_part nrm zero ltb c vs).
    { destruct vs as [|v vs].
      - exists zero. split; [|reflexivity]. inversion Fv; subst. intros fuel Hf. unfold norm_inf_proc. rewrite (dims_guard _ H2), (listed_ok t HT). cbn [orb negb].
        destruct (one_walk _ _ _ _ _ _ _ _ (fun ps => OB me fuel ps (HR me (or_introl eq_refl))) (E fuel Hf)) as [[-> _]|(q & cs' & _ & X & _)]; [reflexivity|discriminate X].
      - destruct (max_loop_ok nrm sgn zero ltb HO m es (v :: vs) Fv (first_value nrm sgn t v)) as (r & ER & H1 & H3 & H4).
        exists r. split.
        + intros fuel Hf. unfold norm_inf_proc. rewrite (dims_guard _ H2), (listed_ok t HT). cbn [orb negb].
          destruct (one_walk _ _ _ _ _ _ _ _ (fun ps => OB me fuel ps (HR me (or_introl eq_refl))) (E fuel Hf)) as [[_ ->]|(q & cs' & -> & Ees & EC)]; [inversion Fv|].
          cbn [over_blocks]. unfold norm_inf_block. rewrite EC. rewrite Ees in Fv. inversion Fv as [|? ? ? ? Ev _]; subst. rewrite Ev, ER. reflexivity.
        + cbn [max_part]. split; [|exact H4]. destruct H1 as [-> | H1]; [|exact H1]. left. specialize (H4 v (or_introl eq_refl)).
          destruct HO as (_ & _ & _ & HS). destruct (HS v) as [S1|S1]; destruct t; cbn [first_value] in *; congruence. }
    destruct Y as (c & Y1 & Y2). exists (c :: cs). split; constructor; auto. }
  destruct X as (cs & F1 & F2). exists cs, n. split; [exact F1|]. intros cs' PT.
  destruct (Permutation_Forall2 PT F2) as (vss' & PV & F3).
  (* an enumeration of the array *)
  assert (EN : exists xs, NoDup xs /\ forall x, In x xs <-> in_array (dims (ga_desc a)) x).
  { destruct M as (l & _ & ND & HI & _). exists (map snd l). auto. }
  destruct EN as (xs & NX & HX). destruct (HV xs NX HX) as (vs & EV & PC).
  assert (PC' : Permutation (concat vss') vs).
  { eapply Permutation_trans; [|exact PC]. clear - PV. apply Permutation_sym in PV. induction PV; cbn; auto.
    - apply Permutation_app_head. exact IHPV.
    - rewrite !app_assoc. apply Permutation_app_tail, Permutation_app_comm.
    - eapply Permutation_trans; eauto. }
  assert (NE : concat vss' <> []).
  { pose proof (whole_patch a wn pa sa (proj1 LA)) as (P1 & _ & _). apply HX in P1. intros X. rewrite X in PC'. apply Permutation_nil in PC'. subst vs.
    inversion EV; subst. destruct P1. }
  destruct (max_parts nrm sgn zero ltb HO cs' vss' F3 NE) as [G1 G2]. destruct (any_storage _ _ _ _ (proj1 LA)) as (alloc & _ & FA & _).
  split.
  - intros x q v Hx Hq Ev. apply G2. apply (Permutation_in _ (Permutation_sym PC')). apply HX in Hx. clear - EV Hx Hq Ev FA.
    induction EV as [|y u xs vs (q' & A & B) F IH]; [destruct Hx|]. destruct Hx as [->|Hx]; [|right; auto]. left. rewrite (FA x q q' Hq A) in Ev. congruence.
  - apply in_map_iff in G1 as (v & E & Hv). apply (Permutation_in _ PC') in Hv. rewrite <- E.
    assert (Y : exists x q, In x xs /\ pa x q /\ hget m q = Some v).
    { clear - EV Hv. induction EV as [|y u xs vs (q' & A & B) F IH]; [destruct Hv|]. destruct Hv as [->|Hv]; [exists y, q'; split; [now left|auto]|].
      destruct (IH Hv) as (x & q & A1 & A2). exists x, q. split; [now right|exact A2]. }
    destruct Y as (x & q & A1 & A2 & A3). exists x, q, v. split; [apply HX, A1|auto].
Qed.
Print Assumptions C86_norm_inf_partial.

(** Map-distributed arrays. *)
Theorem C86_regular_partial : forall {V N} (nrm sgn : V -> N) add zero ltb guess near wn t a (m : heap V),
  sums_freely add zero -> ordered nrm ltb zero sgn -> good_guess guess -> (forall me, near me me = true) ->
  wf_array a -> (length (dims (ga_desc a)) <= 2)%nat -> ga_group a = None -> t <> E_longlong -> allocated (reg_place a) m ->
  exists cs cs' n,
    Forall2 (fun me c => forall fuel, (n <= fuel)%nat -> norm1_proc nrm add zero fuel guess (near me) wn t a me m = Some c)
      (zseq 0 (Z.to_nat (ga_nproc a))) cs /\
    Forall2 (fun me c => forall fuel, (n <= fuel)%nat -> norm_inf_proc nrm sgn zero ltb fuel guess (near me) wn t a me m = Some c)
      (zseq 0 (Z.to_nat (ga_nproc a))) cs' /\
    sum_value nrm add zero (reg_place a) (in_array (dims (ga_desc a))) m (gop_sum add zero cs) /\
    max_value nrm ltb (reg_place a) (in_array (dims (ga_desc a))) m (gop_max zero ltb cs').
Proof.
  intros V N nrm sgn add zero ltb guess near wn t a m HM HO HG HN W H2 GA HT AA.
  pose proof (reg_walk_layout wn a W) as LA. pose proof (regular_one_block guess near wn a (proj1 (proj1 W))) as OB.
  destruct (C86_norm1_partial nrm add zero guess near wn t a _ _ m HM HG HN LA H2 GA HT OB AA) as (cs & n & F & S1).
  destruct (C86_norm_inf_partial nrm sgn zero ltb guess near wn t a _ _ m HO HG HN LA H2 GA HT OB AA) as (cs' & n' & F' & S2).
  exists cs, cs', (Nat.max n n'). split; [eapply Forall2_weaken; [|exact F]; cbn beta; intros me c E fuel Hf; apply E; lia|].
  split; [eapply Forall2_weaken; [|exact F']; cbn beta; intros me c E fuel Hf; apply E; lia|]. split; [apply S1|apply S2]; apply Permutation_refl.
Qed.
Print Assumptions C86_regular_partial.

(** ** Examples *)
Definition ex_signed : heap Z := fun p o => if (0 <=? o) && (o <? 30) then Some (if o =? 9 then -(40 + p) else if (o <? 1) || (o mod 4 =? 0) || (o mod 4 =? 3) then 1000 else 1) else None.
Example C86_ex_ordered : ordered Z.abs Z.ltb 0 (fun v => v) /\ sums_freely Z.add 0.
Proof.
  split; [|repeat split; intros; lia]. split; [intros x y H; apply Z.ltb_lt in H; apply Z.ltb_ge; lia|]. split.
  - intros x y z H1 H2. apply Z.ltb_ge in H1, H2. apply Z.ltb_ge. lia.
  - split; intros v; rewrite Z.ltb_lt; lia.
Qed.
(** The ghost cells of the 4x5 matrix hold 1000. *)
Example C86_ex : wf_array ex_M /\ one_block ex_guess (fun me w => w =? me) 2 ex_M /\
  mapM (fun me => norm1_proc Z.abs Z.add 0 9 ex_guess (fun w => w =? me) 2 E_dbl ex_M me ex_signed) [0; 1] = Some [9 + 40; 9 + 41] /\
  mapM (fun me => norm_inf_proc Z.abs (fun v => v) 0 Z.ltb 9 ex_guess (fun w => w =? me) 2 E_dbl ex_M me ex_signed) [0; 1] = Some [40; 41].
Proof. split; [exact ex_M_wf|]. split; [apply regular_one_block; reflexivity|]. split; vm_compute; reflexivity. Qed.

(** Nine elements in blocks of two on two processes, all 1: only the last block of
    each process counts for GA_Norm1; a greater element in the first block does not
    count for GA_Norm_infinity. *)
Definition ex_nine (v : Z) : heap Z := fun p o => if (0 <=? p) && (p <? 2) && (0 <=? o) && (o <? 9) then Some (if (p =? 0) && (o =? 0) then v else 1) else None.
Lemma ex_nine_alloc v : allocated (block_place (ex_bc1 9 2 None)) (ex_nine v).
Proof.
  intros x [p o] (k & lo & hi & Hk & HD & HB & HA & HO). change (zprod _) with 5 in Hk. cbn [fst snd] in *. unfold hget, ex_nine. cbn [fst snd].
  assert (O : k = 0 \/ k = 1 \/ k = 2 \/ k = 3 \/ k = 4) by lia.
  destruct O as [-> | [-> | [-> | [-> | ->]]]]; vm_compute in HD; injection HD as <- <-; vm_compute in HA; injection HA as <-;
    destruct x as [|x0 [|? ?]]; cbn in HB; try (exfalso; tauto);
    cbn [vsub lin extents] in HO; match goal with |- context[if ?b then _ else _] => idtac end;
    match type of HO with o = ?a + ?b => let c := eval vm_compute in a in change a with c in HO end;
    destruct (Z.leb_spec 0 o); destruct (Z.ltb_spec o 9); cbn; try discriminate; exfalso; lia.
Qed.
Lemma ex_nine_layout : walk_layout (ex_bc1 9 2 None) 2 (block_place (ex_bc1 9 2 None)) (block_shape (ex_bc1 9 2 None)).
Proof.
  split; [right|discriminate].
  split; [reflexivity|]. left. split; [reflexivity|]. split; [apply ex_bc1_wf; lia|]. split; [reflexivity|].
  split; [vm_compute; split; discriminate|auto].
Qed.
Theorem C86_blocks_refuted : exists a placed shape (m : heap Z) cs cs',
  walk_layout a 2 placed shape /\ ga_group a = None /\ dims (ga_desc a) = [9] /\ allocated placed m /\
  mapM (fun me => norm1_proc Z.abs Z.add 0 9 ex_guess (fun w => w =? me) 2 E_dbl a me m) [0; 1] = Some cs /\
  mapM (fun me => norm_inf_proc Z.abs (fun v => v) 0 Z.ltb 9 ex_guess (fun w => w =? me) 2 E_dbl a me m) [0; 1] = Some cs' /\
  ~ sum_value Z.abs Z.add 0 placed (in_array (dims (ga_desc a))) m (gop_sum Z.add 0 cs) /\
  ~ max_value Z.abs Z.ltb placed (in_array (dims (ga_desc a))) m (gop_max 0 Z.ltb cs').
Proof.
  exists (ex_bc1 9 2 None), (block_place (ex_bc1 9 2 None)), (block_shape (ex_bc1 9 2 None)), (ex_nine 7), [1; 2], [1; 1].
  split; [exact ex_nine_layout|]. split; [reflexivity|]. split; [reflexivity|]. split; [apply ex_nine_alloc|].
  split; [vm_compute; reflexivity|]. split; [vm_compute; reflexivity|]. split.
  - intros H. destruct (H (map (fun i => [i]) [1; 2; 3; 4; 5; 6; 7; 8; 9])) as (vs & F & E).
    + apply NoDup_map_inj; [intros i j _ _ X; congruence|]. repeat constructor; cbn; lia.
    + intros x. rewrite in_map_iff. split.
      * intros (i & <- & Hi). cbn in Hi |- *. lia.
      * intros Hx. destruct x as [|x0 [|? ?]]; cbn in Hx; try (exfalso; tauto). exists x0. split; [reflexivity|]. cbn. lia.
    + assert (L : length vs = 9%nat) by (apply Forall2_len' in F; cbn in F; congruence).
      assert (P : Forall (fun v => 1 <= Z.abs v) vs).
      { clear - F. unfold values in F. induction F as [|x v xs vs (q & _ & E) F IH]; constructor; [|exact IH]. unfold hget, ex_nine in E.
        destruct (_ && _); [|discriminate]. destruct (_ && _); injection E as <-; cbn; lia. }
      destruct vs as [|v1 [|v2 [|v3 [|v4 vs]]]]; try discriminate L. cbn [map fold_right gop_sum] in E.
      assert (N : 0 <= fold_right Z.add 0 (map Z.abs vs)) by (clear; induction vs; cbn; lia).
      inversion P as [|? ? P1 P']; subst. inversion P' as [|? ? P2 P'']; subst. inversion P'' as [|? ? P3 P3']; subst. inversion P3' as [|? ? P4 P4']; subst. lia.
  - intros [H _]. specialize (H [1] (0, 0) 7 ltac:(cbn; lia)). discriminate H; [|reflexivity].
    exists 0, [1], [2]. split; [cbn; lia|]. split; [reflexivity|]. split; [cbn; lia|]. split; reflexivity.
Qed.
Print Assumptions C86_blocks_refuted.
Theorem C86_longlong_refuted : forall fuel near (m : heap Z),
  norm1_proc Z.abs Z.add 0 fuel ex_guess near 2 E_longlong ex_M 0 m = None /\
  norm_inf_proc Z.abs (fun v => v) 0 Z.ltb fuel ex_guess near 2 E_longlong ex_M 0 m = None.
Proof. split; reflexivity. Qed.
Print Assumptions C86_longlong_refuted.
