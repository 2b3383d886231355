(** Lemmas: the walk over the local pieces, with their leading dimensions. *)
From Verif Require Import LIterBlk LIterBC LIterSca LStore LXfer2 LLoc LAccess LSelect2.
From Verif Require Export LGcopy2.
Open Scope Z_scope.

Definition ld_shape (shape : list Z -> Prop) (lo hi ld : list Z) : Prop :=
  exists sh, shape sh /\ Forall2 Z.le (extents lo hi) sh /\ firstn (length lo - 1) ld = firstn (length lo - 1) sh.

Lemma lin_ld_shape (shape : list Z -> Prop) lo hi ld sh : lo <> [] -> shape sh -> Forall2 Z.le lo hi -> Forall2 Z.le (extents lo hi) sh ->
  (forall k, length k = length lo -> lin ld k = lin sh k) -> ld_shape shape lo hi ld.
Proof.
  intros Hne HS HL HE HK. exists sh. split; [exact HS|]. split; [exact HE|].
  destruct (LXfer2.extents_pos lo hi HL) as [EL EP]. pose proof (Forall2_len _ _ _ HE) as SL.
  assert (length lo = S (length lo - 1)) by (destruct lo; [congruence|cbn; lia]).
  apply lin_pins; [lia| |intros k Hk; apply HK; lia].
  clear - EP HE. revert EP HE. generalize (extents lo hi). intros l EP HE. induction HE; constructor; inversion EP; subst; [lia|auto].
Qed.

Lemma le_refl_list l : Forall2 Z.le l l.
Proof. induction l; constructor; auto; lia. Qed.

(** Map-distributed arrays. *)
Lemma extents_padded lo hi w : length lo = length hi -> length w = length lo -> Forall (fun v => 0 <= v) w -> Forall2 Z.le (extents lo hi) (padded lo hi w).
Proof.
  revert hi w. induction lo as [|l lo IH]; intros [|h hi] [|v w] H1 H2 HW; cbn [extents padded length] in *; try discriminate; [constructor|].
  inversion HW; subst. constructor; [lia|]. apply IH; auto; lia.
Qed.

Lemma regular_walk guess near wn a me w :
  good_guess guess -> wf_array a -> 0 <= me < ga_nproc a -> abs_rank a me = Some w -> near w = true ->
  exists ps, (forall fuel, (2 <= fuel)%nat -> local_iterate fuel guess near wn a me = Some ps) /\
    local_cover (reg_place a) (dims (ga_desc a)) w ps /\
    forall q, In q ps -> ld_shape (reg_shape a) (lp_lo q) (lp_hi q) (lp_ld q).
Proof.
  intros HG WA Hme EW HN. destruct (regular_iterate guess near wn a me w HG WA Hme EW HN) as (ps & E & C).
  exists ps. split; [exact E|]. split; [exact C|]. intros q Hq.
  pose proof WA as (WR & HWl & HW0 & _). pose proof WR as (HT & Hne & _).
  specialize (E 2%nat (le_n 2)). unfold local_iterate, loc_init in E. rewrite HT in E. cbn [loc_drain] in E.
  unfold loc_next in E. rewrite HT in E. change (0 <? 0) with false in E. cbn iota in E.
  destruct (distribution (ga_desc a) me) as [[lo hi]|] eqn:ED; [|discriminate]. cbn [fst snd] in E.
  destruct (le_all lo hi) eqn:LE; [|injection E as <-; contradiction].
  destruct (access_ptr guess near a lo hi) as [[[sg off] ld]|] eqn:EA; [|discriminate].
  change (0 <? 0 + 1) with true in E. cbn iota in E. injection E as <-. destruct Hq as [<-|[]]. cbn.
  pose proof (dist_len _ _ _ _ HT ED) as HL. pose proof (proj1 (le_all_true lo hi HL) LE) as Hle.
  assert (sg = w) as ->.
  { destruct C as [_ C]. destruct (C _ (or_introl eq_refl)) as (_ & X & _). exact X. }
  destruct (regular_blocks_inside _ _ _ WR Hme) as (l1 & h1 & E1 & HI). rewrite ED in E1. injection E1 as <- <-.
  pose proof (in_array_length _ _ (HI _ (lo_in_box _ _ Hle))) as LD.
  apply (lin_ld_shape _ lo hi ld (padded lo hi (ga_width a))); auto.
  - intros ->. destruct (dims (ga_desc a)); [congruence|discriminate].
  - exists me, lo, hi. auto.
  - apply extents_padded; auto. lia.
  - exact (access_ptr_ld guess near a lo hi me w off ld HG WA Hme ED Hle EW HN EA).
Qed.

(** Block distributions. *)
Lemma blocks_init_ld a k ld : wf_blocks (ga_desc a) -> 0 <= k < zprod (num_blocks (ga_desc a)) ->
  ld = init_ld (extents (fst (bx (ga_desc a) k)) (snd (bx (ga_desc a) k))) ->
  ld_shape (block_shape a) (fst (bx (ga_desc a) k)) (snd (bx (ga_desc a) k)) ld.
Proof.
  intros WB Hk ->. pose proof (bx_le _ k WB Hk) as HLE. destruct (LXfer2.extents_pos _ _ HLE) as [EL _].
  apply (lin_ld_shape _ _ _ _ (extents (fst (bx (ga_desc a) k)) (snd (bx (ga_desc a) k)))); auto.
  - intros E. destruct (bx_length _ k WB) as [L1 _]. rewrite E in L1.
    assert (Hne : dims (ga_desc a) <> []) by (destruct WB as [(_ & H & _)|[(_ & H & _) _]]; exact H).
    destruct (dims (ga_desc a)); [congruence|discriminate].
  - exists k, (fst (bx (ga_desc a) k)), (snd (bx (ga_desc a) k)). split; [exact Hk|]. split; [|auto].
    rewrite bx_distribution by auto. destruct (bx (ga_desc a) k); reflexivity.
  - apply le_refl_list.
  - intros j Hj. apply init_ld_lin. lia.
Qed.

Definition block_lds shape wn a : Prop := forall k p off ld, 0 <= k < zprod (num_blocks (ga_desc a)) ->
  access_block_ptr wn a k = Some (p, off, ld) -> ld_shape shape (fst (bx (ga_desc a) k)) (snd (bx (ga_desc a) k)) ld.

Lemma bc_lds a : distr_type (ga_desc a) = BLOCK_CYCLIC -> wf_blocked (ga_desc a) -> block_lds (block_shape a) (ga_nproc a) a.
Proof.
  intros HT W k p off ld Hk E. pose proof (or_introl W : wf_blocks (ga_desc a)) as WB. apply blocks_init_ld; auto.
  unfold access_block_ptr in E. destruct (_ || _); [discriminate|]. rewrite HT in E.
  rewrite bx_owns in E by auto. repeat (match goal with H : match ?e with Some _ => _ | None => None end = Some _ |- _ => destruct e; [|discriminate] end).
  congruence.
Qed.

Lemma irreg_lds wn a : distr_type (ga_desc a) = TILED_IRREG -> wf_strict_tiled_irreg (ga_desc a) -> wf_grid (ga_nproc a) (ga_desc a) ->
  ga_group a = None -> block_lds (block_shape a) wn a.
Proof.
  intros HT W WG HG k p0 off ld Hk EA. assert (WB : wf_blocks (ga_desc a)) by (right; exact W).
  destruct (grid_block a k WB WG Hk) as (p & Hp & HP & _ & _ & _ & _ & R1 & R2 & HM).
  pose proof W as [(_ & _ & HV & _) _]. pose proof WG as (_ & _ & HLg & _).
  destruct (irreg_dims_spec _ (mapc (ga_desc a)) _ _ _ _ HV HLg R1 R2 HM) as (ts & E & ES & EO).
  rewrite (access_grid a wn k (irreg_offset ts 1) (init_ld (map i_size ts)) p) in EA; auto.
  2:{ rewrite HT, E. reflexivity. }
  injection EA as _ _ <-. apply blocks_init_ld; auto. rewrite ES. f_equal.
  assert (HA : axes_of (ga_desc a) = map_axes (dims (ga_desc a)) (num_blocks (ga_desc a)) (mapc (ga_desc a))) by (unfold axes_of; rewrite HT; reflexivity).
  unfold bx. cbn [fst snd]. rewrite blo_bhi_extents, HA; [reflexivity|].
  rewrite decode_length, <- (map_length an), HA, map_axes_an by auto. reflexivity.
Qed.

Lemma tiled_lds wn a : distr_type (ga_desc a) = TILED -> wf_blocked (ga_desc a) -> wf_grid (ga_nproc a) (ga_desc a) ->
  Forall (fun n => n = 2) (nblock (ga_desc a)) -> ga_group a = None -> block_lds (block_shape a) wn a.
Proof.
  intros HT W WG H2 HG k p0 off ld Hk EA. assert (WB : wf_blocks (ga_desc a)) by (left; exact W).
  destruct (grid_block a k WB WG Hk) as (p & Hp & HP & _ & _ & _ & _ & R1 & R2 & HM).
  pose proof W as (_ & _ & HV & HGr & _). pose proof WG as (_ & _ & HLg & _).
  destruct (tiled_dims_spec _ _ _ _ _ _ HV HGr HLg H2 R1 R2 HM) as (ts & E & ES & _ & EO).
  rewrite (access_grid a wn k (tiled_offset ts 1) (init_ld (map t_size ts)) p) in EA; auto.
  2:{ rewrite HT, E. reflexivity. }
  injection EA as _ _ <-. apply blocks_init_ld; auto. rewrite ES. f_equal.
  assert (HA : axes_of (ga_desc a) = bd_axes (dims (ga_desc a)) (block_dims (ga_desc a))) by (unfold axes_of; rewrite HT; reflexivity).
  unfold bx. cbn [fst snd]. rewrite blo_bhi_extents, HA; [reflexivity|].
  rewrite decode_length, HA, wf_blocked_lens by auto. reflexivity.
Qed.

Lemma shift_le lo hi y sh : Forall2 Z.le lo hi -> in_range0 sh y -> in_range0 sh (vadd y (vsub hi lo)) -> length y = length lo ->
  Forall2 Z.le (extents lo hi) sh.
Proof.
  intros H. revert y sh. induction H as [|l h lo hi Hl H IH]; intros [|y ys] [|s sh]; cbn [in_range0 vsub vadd extents length]; try tauto; try discriminate.
  - intros. constructor.
  - intros [A B] [C D] E. constructor; [lia|]. eapply IH; [exact B|exact D|lia].
Qed.

Lemma scalapack_lds wn a : distr_type (ga_desc a) = SCALAPACK -> wf_blocked (ga_desc a) -> wf_grid (ga_nproc a) (ga_desc a) ->
  ga_group a = None -> block_lds (scalapack_shape a) wn a.
Proof.
  intros HT W WG HG k p0 off ld0 Hk EA. assert (WB : wf_blocks (ga_desc a)) by (left; exact W).
  destruct (grid_block a k WB WG Hk) as (p & Hp & HP & _ & _ & _ & _ & R1 & R2 & HM).
  set (g := ga_desc a) in *. pose proof W as (_ & Hne & HV & HGr & _). pose proof WG as (_ & _ & HLg & Hpos & HNp).
  destruct (sl_lds_spec (dims g) (block_dims g) (nblock g) (decode (nblock g) p)) as (ld & EL & LL & KL & OL); auto.
  assert (HA : axes_of g = bd_axes (dims g) (block_dims g)) by (unfold axes_of; rewrite HT; reflexivity).
  destruct (sl_pos a WB) as [Hnb HLb]. fold g in Hnb, HLb.
  assert (Hin : Forall (fun i => 0 <= i) (decode (num_blocks g) k)) by (eapply in_range0_nonneg; eauto).
  assert (LD : length (decode (num_blocks g) k) = length (dims g)) by (rewrite decode_length; exact HLb).
  specialize (OL (decode (num_blocks g) k) 1 LD Hin HM).
  erewrite (access_grid a wn k _ ld p) in EA; auto.
  2:{ fold g. rewrite HT, EL, OL. reflexivity. }
  injection EA as _ _ <-.
  pose proof (bx_le g k WB Hk) as HLE. destruct (bx_length g k WB) as [L1 L2].
  pose proof (lo_in_box _ _ HLE) as Hlo.
  assert (Hhi : in_box (fst (bx g k)) (snd (bx g k)) (snd (bx g k))) by (clear - HLE; induction HLE; cbn; auto; split; [lia|auto]).
  assert (GC : forall x, in_box (fst (bx g k)) (snd (bx g k)) x -> grid_coords (block_dims g) (nblock g) x = decode (nblock g) p).
  { intros x Hx. destruct (in_box_len _ _ _ Hx) as [X1 X2]. rewrite <- HM. apply (grid_coords_block (dims g)); auto; try lia.
    unfold in_block. rewrite <- HA. exact Hx. }
  apply (lin_ld_shape _ _ _ _ (local_extents (dims g) (block_dims g) (nblock g) (decode (nblock g) p))); auto.
  - intros E. rewrite E in L1. destruct (dims g); [congruence|discriminate].
  - exists (fst (bx g k)). fold g. split; [eapply bx_inside; eauto|]. rewrite GC by exact Hlo. reflexivity.
  - pose proof (local_range _ _ _ _ HV HLg Hpos (bx_inside g k _ WB Hk Hlo)) as Q1. rewrite GC in Q1 by exact Hlo.
    pose proof (local_range _ _ _ _ HV HLg Hpos (bx_inside g k _ WB Hk Hhi)) as Q2. rewrite GC in Q2 by exact Hhi.
    rewrite (local_coords_shift (dims g) (block_dims g) (nblock g) (decode (num_blocks g) k) (snd (bx g k)) (fst (bx g k))) in Q2; auto.
    2:{ unfold in_block. rewrite <- HA. exact Hhi. }
    2:{ unfold in_block. rewrite <- HA. exact Hlo. }
    apply (shift_le _ _ _ _ HLE Q1 Q2). apply in_range0_length in Q1.
    rewrite L1. rewrite Q1. clear - HV HLg R1. revert HV HLg R1. generalize (block_dims g) (nblock g) (decode (nblock g) p).
    induction (dims g) as [|d ds IH]; intros [|b bs] [|n ns] [|c cs]; cbn; try tauto; try discriminate.
    intros (_ & _ & H) HL [_ HR]. f_equal. apply (IH bs ns cs); auto.
  - intros j Hj. apply KL. lia.
Qed.

Lemma pieces_lds shape wn a me : wf_blocks (ga_desc a) -> block_lds shape wn a ->
  (forall k, 0 <= k < zprod (num_blocks (ga_desc a)) -> exists r, access_block_ptr wn a k = Some r) ->
  forall q, In q (map (pc_of a (access_block_ptr wn a)) (column a me)) -> ld_shape shape (lp_lo q) (lp_hi q) (lp_ld q).
Proof.
  intros WB HL HA q Hq. apply in_map_iff in Hq as (k & <- & Hk). apply column_In in Hk as [Hk _].
  destruct (HA k Hk) as ([[p off] ld] & E). unfold pc_of. rewrite E. cbn. eapply HL; eauto.
Qed.

Lemma fits_le nb grid pc : nb <> [] -> Forall2 Z.le grid nb -> in_range0 grid pc -> fits_but_last nb pc.
Proof.
  intros Hne H. revert pc. induction H as [|g n grid nb Hg H IH]; intros [|p pc]; cbn [in_range0]; try tauto.
  intros [H1 H2]. destruct nb as [|n' nb], pc as [|p' pc].
  - exact I.
  - inversion H; subst. cbn in H2. tauto.
  - inversion H; subst. cbn in H2. tauto.
  - change (p < n /\ fits_but_last (n' :: nb) (p' :: pc)). split; [lia|]. apply IH; [discriminate|exact H2].
Qed.

(** ---- any layout ---- *)
Theorem layout_walk guess near wn a me w placed shape :
  good_guess guess -> walk_layout a wn placed shape -> 0 <= me < ga_nproc a -> abs_rank a me = Some w -> near w = true ->
  exists ps n, (forall fuel, (n <= fuel)%nat -> local_iterate fuel guess near wn a me = Some ps) /\
    local_cover placed (dims (ga_desc a)) w ps /\
    forall q, In q ps -> ld_shape shape (lp_lo q) (lp_hi q) (lp_ld q).
Proof.
  intros HG [HL H2] Hme EW HN. destruct HL as [(W & -> & ->)|(Hg & HL)].
  { destruct (regular_walk guess near wn a me w HG W Hme EW HN) as (ps & E & C & L). exists ps, 2%nat. auto. }
  unfold abs_rank in EW. rewrite Hg in EW. injection EW as <-.
  destruct HL as [(T & W & -> & HNp & -> & ->)|[(T & W & WG & HF & -> & ->)|(T & W & WG & HF & -> & ->)]].
  - pose proof (or_introl W : wf_blocks (ga_desc a)) as WB.
    assert (HA := fun k Hk => block_access_bx (block_place a) (ga_nproc a) a k WB Hk (access_bc a k T W Hg ltac:(lia) Hk)).
    destruct (bc_pieces guess near a me T W Hg Hme) as (n & HI).
    eexists _, n. split; [exact HI|]. split.
    + apply column_cover; auto. intros x q q'. apply block_place_fun, WB.
    + apply pieces_lds; auto; [apply bc_lds; auto|]. intros k Hk. destruct (HA k Hk) as (? & ? & ? & E & _). eauto.
  - assert (HNP : Forall (fun n => 1 <= n) (num_blocks (ga_desc a))) by (apply (sl_pos a W)).
    assert (FT : fits_but_last (num_blocks (ga_desc a)) (decode (nblock (ga_desc a)) me)).
    { apply (fits_le _ (nblock (ga_desc a))); auto.
      - destruct (sl_pos a W) as [_ HL]. intros E. rewrite E in HL. pose proof (wf_blocks_dims _ W) as Hd.
        destruct (dims (ga_desc a)); [congruence|discriminate].
      - exact (sl_pcoord a WG me Hme). }
    assert (HA : forall k, 0 <= k < zprod (num_blocks (ga_desc a)) -> block_access (block_place a) wn a k).
    { intros k Hk. destruct T as [T|T].
      - assert (W' : wf_blocked (ga_desc a)) by (destruct W as [W|[(W & _) _]]; [exact W|congruence]). apply access_tiled; auto.
      - assert (W' : wf_strict_tiled_irreg (ga_desc a)) by (destruct W as [(W & _)|W]; [destruct W as [W|[W|W]]; congruence|exact W]).
        apply access_irreg; auto. }
    assert (HB := fun k Hk => block_access_bx (block_place a) wn a k W Hk (HA k Hk)).
    destruct (grid_iterate guess near wn a me (block_place a) W WG Hme HB FT) as (n & HI).
    eexists _, n. split; [exact HI|]. split.
    + apply column_cover; auto. intros x q q'. apply block_place_fun, W.
    + apply pieces_lds; auto.
      * destruct T as [T|T].
        -- assert (W' : wf_blocked (ga_desc a)) by (destruct W as [W|[(W & _) _]]; [exact W|congruence]). apply tiled_lds; auto.
        -- assert (W' : wf_strict_tiled_irreg (ga_desc a)) by (destruct W as [(W & _)|W]; [destruct W as [W|[W|W]]; congruence|exact W]).
           apply irreg_lds; auto.
      * intros k Hk. destruct (HB k Hk) as (? & ? & ? & E & _). eauto.
  - pose proof (or_introl W : wf_blocks (ga_desc a)) as WB.
    assert (FT : fits_but_last (num_blocks (ga_desc a)) (decode (nblock (ga_desc a)) me)).
    { apply (fits_le _ (nblock (ga_desc a))); auto.
      - destruct (sl_pos a WB) as [_ HL]. intros E. rewrite E in HL. pose proof (wf_blocks_dims _ WB) as Hd.
        destruct (dims (ga_desc a)); [congruence|discriminate].
      - exact (sl_pcoord a WG me Hme). }
    assert (HA := fun k Hk => block_access_bx (scalapack_place a) wn a k WB Hk (access_scalapack wn a k T W WG Hg Hk)).
    destruct (grid_iterate guess near wn a me (scalapack_place a) WB WG Hme HA FT) as (n & HI).
    eexists _, n. split; [exact HI|]. split.
    + apply column_cover; auto. intros x q q'. apply scalapack_place_fun.
    + apply pieces_lds; auto; [apply scalapack_lds; auto|]. intros k Hk. destruct (HA k Hk) as (? & ? & ? & E & _). eauto.
Qed.
