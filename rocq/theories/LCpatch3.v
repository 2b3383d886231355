(** Lemmas: reshaping and transposing copies by scatter. *)
From Verif Require Import LRadix LStrided LIterReg LIterReg3 LIterSca LStore LXfer LXfer2 LOdo LGat LLoc LAccess LSelect LSelect2.
From Verif Require Export LCpatch2.
Open Scope Z_scope.

(** ---- the counter ---- *)
Lemma odo_dim u e v i : 1 <= u -> 1 <= e -> 0 <= i -> v = (i / u) mod e ->
  let v1 := if (i + 1) mod u =? 0 then v + 1 else v in (if e - 1 <? v1 then 0 else v1) = ((i + 1) / u) mod e.
Proof.
  intros Hu He Hi ->. cbv zeta.
  pose proof (Z.div_mod (i + 1) u ltac:(lia)) as D1. pose proof (Z.mod_pos_bound (i + 1) u ltac:(lia)) as M1.
  pose proof (Z.div_mod i u ltac:(lia)) as D0. pose proof (Z.mod_pos_bound i u ltac:(lia)) as M0.
  pose proof (Z.mod_pos_bound (i / u) e ltac:(lia)) as ME.
  destruct (Z.eqb_spec ((i + 1) mod u) 0) as [E|E].
  - assert (Q : (i + 1) / u = i / u + 1) by nia. rewrite Q.
    destruct (Z.ltb_spec (e - 1) ((i / u) mod e + 1)).
    + assert ((i / u) mod e = e - 1) by lia. rewrite Zplus_mod, H0.
      destruct (Z.eq_dec e 1) as [->|]; [now rewrite !Z.mod_1_r|]. rewrite (Z.mod_small 1) by lia.
      replace (e - 1 + 1) with e by lia. now rewrite Z.mod_same by lia.
    + rewrite Zplus_mod. destruct (Z.eq_dec e 1) as [->|]; [rewrite Z.mod_1_r in *; lia|]. rewrite (Z.mod_small 1) by lia.
      symmetry. apply Z.mod_small. lia.
  - assert (Q : (i + 1) / u = i / u) by nia. rewrite Q. destruct (Z.ltb_spec (e - 1) ((i / u) mod e)); [lia|reflexivity].
Qed.

Fixpoint dig (u i : Z) (los his : list Z) : list Z :=
  match los, his with
  | l :: los', h :: his' => l + (i / u) mod (h - l + 1) :: dig (u * (h - l + 1)) i los' his'
  | _, _ => []
  end.
Lemma odo_step los his : Forall2 Z.le los his -> forall u i, 1 <= u -> 0 <= i ->
  odo_bump i (dig u i los his) (bunits los his u) los his = Some (dig u (i + 1) los his).
Proof.
  induction 1 as [|l h los his Hl H IH]; intros u i Hu Hi; cbn [dig bunits odo_bump]; [reflexivity|].
  rewrite cmod_pos by lia. rewrite IH by nia. cbv zeta. f_equal. f_equal.
  pose proof (odo_dim u (h - l + 1) _ i Hu ltac:(lia) Hi eq_refl) as X. cbv zeta in X. rewrite <- X.
  destruct (_ =? 0); destruct (Z.ltb_spec h (l + (i / u) mod (h - l + 1) + 1)), (Z.ltb_spec h (l + (i / u) mod (h - l + 1)));
    destruct (Z.ltb_spec (h - l + 1 - 1) ((i / u) mod (h - l + 1) + 1)), (Z.ltb_spec (h - l + 1 - 1) ((i / u) mod (h - l + 1))); lia.
Qed.
Lemma src_subs_dig los his : Forall2 Z.le los his -> forall n i, 0 <= i ->
  src_subs n i (dig 1 i los his) (bunits los his 1) los his = Some (map (fun j => dig 1 j los his) (zseq i n)).
Proof.
  intros H. induction n as [|n IH]; intros i Hi; cbn [src_subs zseq map]; [reflexivity|].
  rewrite odo_step by (auto; lia). rewrite IH by lia. reflexivity.
Qed.
Lemma dig_decode los his : Forall2 Z.le los his -> forall u i, 1 <= u -> dig u i los his = vadd los (decode (extents los his) (i / u)).
Proof.
  induction 1 as [|l h los his Hl H IH]; intros u i Hu; cbn [dig extents decode vadd]; [reflexivity|].
  rewrite IH by nia. rewrite Z.div_div by lia. reflexivity.
Qed.
Lemma src_subs_box los his : Forall2 Z.le los his ->
  src_subs (Z.to_nat (zprod (extents los his))) 0 los (bunits los his 1) los his = Some (box_list los his).
Proof.
  intros H. destruct (LXfer2.extents_pos _ _ H) as [EL EP]. pose proof (Forall2_len _ _ _ H) as HL.
  assert (D0 : dig 1 0 los his = los).
  { clear - H. induction H as [|l h los his Hl H IH]; [reflexivity|]. assert (G : forall u, 1 <= u -> dig u 0 los his = los).
    { clear IH Hl. induction H as [|l' h' los his Hl' H IH]; intros u Hu; cbn [dig]; [reflexivity|].
      rewrite IH by nia. rewrite Z.div_0_l, Z.mod_0_l by lia. f_equal. lia. }
    cbn [dig]. rewrite G by lia. rewrite Z.div_0_l, Z.mod_0_l by lia. f_equal. lia. }
  pose proof (src_subs_dig los his H (Z.to_nat (zprod (extents los his))) 0 ltac:(lia)) as X. rewrite D0 in X. rewrite X. f_equal.
  rewrite (box_indices los his) by lia. rewrite (decode_indices _ EP), map_map. apply map_ext. intros j.
  rewrite dig_decode by (auto; lia). rewrite Z.div_1_r. reflexivity.
Qed.

(** ---- scatter ---- *)
Lemma scatter_labelled f (pa pb : list Z -> place -> Prop) (P : list Z -> Prop) xs (src : list Z -> Z) w off ts :
  NoDup xs -> (forall x, In x xs <-> P x) -> (forall x, P x -> pa x (w, off + src x)) ->
  list_transfers pb (map f xs) ts ->
  exists es, mapM (fun t => do s <- zget (map src xs) (snd t); Some (fst t, (w, off + s))) ts = Some es /\ labelled f pa pb P es.
Proof.
  intros ND HI HP [PT HT]. rewrite map_length in PT.
  set (lab := fun t : place * Z => nth (Z.to_nat (snd t)) xs []).
  assert (RG : forall t, In t ts -> 0 <= snd t < Z.of_nat (length xs)).
  { intros t Ht. assert (X : In (snd t) (zseq 0 (length xs))) by (eapply Permutation_in; [exact PT|apply in_map, Ht]). apply zseq_In in X. lia. }
  assert (ZM : forall (B : Type) (g : list Z -> B) t, In t ts -> zget (map g xs) (snd t) = Some (g (lab t))).
  { intros B g t Ht. pose proof (RG t Ht). rewrite (zget_Some _ _ (g [])) by (rewrite map_length; lia). rewrite map_nth. reflexivity. }
  exists (map (fun t => (fst t, (w, off + src (lab t)))) ts). split.
  { apply mapM_Some. intros t Ht. rewrite ZM by exact Ht. reflexivity. }
  exists (map (fun t => ((fst t, (w, off + src (lab t))), lab t)) ts). rewrite !map_map. cbn [fst snd]. split; [reflexivity|].
  assert (PX : Permutation (map lab ts) xs).
  { unfold lab. rewrite <- (map_map snd (fun i => nth (Z.to_nat i) xs [])).
    eapply Permutation_trans; [apply Permutation_map; exact PT|].
    assert (E : map (fun i => nth (Z.to_nat i) xs []) (zseq 0 (length xs)) = xs).
    { clear. assert (G : forall pre, map (fun i => nth (Z.to_nat i) (pre ++ xs) []) (zseq (Z.of_nat (length pre)) (length xs)) = xs).
      { induction xs as [|x xs IH]; intros pre; [reflexivity|]. cbn [length zseq map]. f_equal.
        - rewrite Nat2Z.id, app_nth2, Nat.sub_diag by lia. reflexivity.
        - specialize (IH (pre ++ [x])). rewrite <- app_assoc in IH. cbn [app] in IH. rewrite app_length in IH. cbn [length] in IH.
          replace (Z.of_nat (length pre) + 1) with (Z.of_nat (length pre + 1)) by lia. exact IH. }
      exact (G []). }
    rewrite E. apply Permutation_refl. }
  split; [eapply Permutation_NoDup; [apply Permutation_sym; exact PX|exact ND]|]. split.
  - intros x. rewrite <- HI. split; apply Permutation_in; [exact PX|apply Permutation_sym, PX].
  - intros e x Hin. apply in_map_iff in Hin as (t & E & Ht). injection E as <- <-. cbn [fst snd].
    assert (HL : P (lab t)) by (apply HI; eapply Permutation_in; [exact PX|apply in_map, Ht]).
    destruct (HT t Ht) as (y & Ey & Hy). rewrite ZM in Ey by exact Ht. injection Ey as <-. split; [exact Hy|]. apply HP, HL.
Qed.

(** One process of the group of A. *)
Lemma reshape_proc guess near wn pre trans a b (pa pb : list Z -> place -> Prop) sa me w alo ahi blo bhi :
  good_guess guess -> walk_layout a wn pa sa -> distr_type (ga_desc a) = REGULAR ->
  patch_of (dims (ga_desc a)) alo ahi -> patch_of (dims (ga_desc b)) blo bhi ->
  zprod (extents alo ahi) = zprod (extents blo bhi) ->
  0 <= me < ga_nproc a -> abs_rank a me = Some w -> near w = true ->
  (forall ys, Forall (in_array (dims (ga_desc b))) ys -> Z.of_nat (length ys) <= zprod (extents alo ahi) ->
     exists ts, gatscat guess wn w pre b ys = Some ts /\ list_transfers pb ys ts) ->
  exists es, (forall fuel,
      (do ps <- patch_pieces fuel guess near wn true a me alo ahi;
       do ls <- mapM (reshape_put guess wn w pre true trans b alo ahi blo bhi) ps;
       Some (concat ls)) = Some es) /\
    labelled (target trans alo ahi blo bhi) pa pb (fun x => in_box alo ahi x /\ exists ad, pa x (w, ad)) es.
Proof.
  intros HG LA T PA PB EZ Hme EW HN HGS.
  assert (REG : wf_array a /\ pa = reg_place a /\ sa = reg_shape a).
  { destruct LA as [[X|(_ & X)] _]; [exact X|]. exfalso. destruct X as [(T' & _)|[([T'|T'] & _)|(T' & _)]]; congruence. }
  destruct REG as (WA & -> & ->).
  destruct (reg_cover guess near a me w alo ahi HG WA PA Hme EW HN) as (ps & E & TL & C).
  destruct (patch_lens _ _ _ PA) as [P1 P2]. destruct (patch_lens _ _ _ PB) as [P3 P4].
  pose proof PB as (_ & _ & LB). destruct (LXfer2.extents_pos _ _ LB) as [EL EP].
  destruct (mapM_fuel (fun _ q => reshape_put guess wn w pre true trans b alo ahi blo bhi q)
      (fun q es => labelled (target trans alo ahi blo bhi) (reg_place a) pb (in_box (lp_lo q) (lp_hi q)) es) ps) as (ls & n & EM & F).
  { intros q Hq. destruct (C q Hq) as (QL & QS & QP & QD & _).
    assert (IN : forall x, in_box (lp_lo q) (lp_hi q) x -> in_box alo ahi x).
    { intros x Hx. apply In_nth_error in Hq as (i & Hi). exact (proj1 (proj1 TL i q Hi x Hx)). }
    pose proof (Forall2_len _ _ _ QL) as HL. set (xs := box_list (lp_lo q) (lp_hi q)).
    assert (HX : forall x, In x xs <-> in_box (lp_lo q) (lp_hi q) x) by (intros x; apply box_list_In; exact HL).
    assert (Q0 : length (lp_lo q) = length alo) by (destruct (in_box_len _ _ _ (IN _ (lo_in_box _ _ QL))); lia).
    assert (EY : mapM (fun x => unlin (if trans then lin_index_t x alo (extents alo ahi) else lin_index x alo (extents alo ahi) 1)
                                (extents blo bhi) blo) xs = Some (map (target trans alo ahi blo bhi) xs)).
    { apply mapM_Some. intros x Hx. apply HX in Hx. pose proof (IN x Hx) as Ix. destruct (in_box_len _ _ _ Ix) as [N1 N2].
      assert (EQ : (if trans then lin_index_t x alo (extents alo ahi) else lin_index x alo (extents alo ahi) 1) = pos_a trans alo ahi x).
      { pose proof (LXfer2.extents_pos _ _ (box_le _ _ _ Ix)) as [EA _]. unfold pos_a, lin_index_t. destruct trans.
        - rewrite lin_index_encode by (rewrite !rev_length; lia). rewrite rev_extents by lia. lia.
        - rewrite lin_index_encode by lia. lia. }
      rewrite EQ. pose proof (pos_a_range trans _ _ _ Ix). rewrite unlin_decode by (auto; lia). reflexivity. }
    assert (ES : mapM (fun x => corner_offset x (lp_lo q) (lp_ld q) 1) xs = Some (map (fun x => lin (lp_ld q) (vsub x (lp_lo q))) xs)).
    { apply mapM_Some. intros x Hx. apply HX in Hx. destruct (in_box_len _ _ _ Hx) as [N1 N2]. rewrite corner_offset_lin; try lia.
      - f_equal. lia.
      - intros ->. pose proof (wf_array_dims a WA). destruct (dims (ga_desc a)); [congruence|cbn in *; lia]. }
    destruct (HGS (map (target trans alo ahi blo bhi) xs)) as (ts & EG & LT).
    { apply Forall_forall. intros y Hy. apply in_map_iff in Hy as (x & <- & Hx). apply HX in Hx.
      apply (patch_in _ blo bhi); [exact PB|]. apply target_in; auto. }
    { rewrite map_length. assert (INC : incl xs (box_list alo ahi)).
      { intros x Hx. apply box_list_In; [lia|]. apply IN, HX, Hx. }
      pose proof (NoDup_incl_length (box_list_NoDup _ _ : NoDup xs) INC) as NL.
      replace (zprod (extents alo ahi)) with (Z.of_nat (length (box_list alo ahi))); [lia|].
      pose proof PA as (_ & _ & LA0). destruct (LXfer2.extents_pos _ _ LA0) as [_ EPA].
      rewrite box_indices, map_length by lia. rewrite (decode_indices _ EPA), map_length, zseq_length.
      pose proof (zprod_pos _ EPA). lia. }
    destruct (scatter_labelled (target trans alo ahi blo bhi) (reg_place a) pb (in_box (lp_lo q) (lp_hi q)) xs
       (fun x => lin (lp_ld q) (vsub x (lp_lo q))) w (lp_off q) ts (box_list_NoDup _ _) HX QP LT) as (es & EE & LL).
    exists es, 0%nat. split; [|exact LL]. intros _ _. unfold reshape_put. rewrite src_subs_box by exact QL. fold xs.
    rewrite EY, ES, EG, QS. exact EE. }
  exists (concat ls). split.
  - intros fuel. unfold patch_pieces. rewrite T, E. specialize (EM n (le_n n)). cbv beta in EM.
    change (fun q => reshape_put guess wn w pre true trans b alo ahi blo bhi q) with (reshape_put guess wn w pre true trans b alo ahi blo bhi) in EM.
    rewrite EM. reflexivity.
  - apply (tiles_labelled _ _ _ _ ps ls TL F).
Qed.

(** ---- all processes ---- *)
Lemma whole_patch (d : garray) wn pd sd f (pa pb : list Z -> place -> Prop) plo phi (ess : list (list (place * place))) :
  walk_layout d wn pd sd -> patch_of (dims (ga_desc d)) plo phi ->
  Forall2 (fun me es => exists w, abs_rank d me = Some w /\
    labelled f pa pb (fun x => in_box plo phi x /\ exists ad, pd x (w, ad)) es) (zseq 0 (Z.to_nat (ga_nproc d))) ess ->
  labelled f pa pb (in_box plo phi) (concat ess).
Proof.
  intros [LD _] HP F. destruct (any_storage _ _ _ _ LD) as (alloc & S1 & S2 & S3 & S4).
  apply (procs_labelled f pa pb pd (in_box plo phi) (abs_rank d) (ga_nproc d)); auto.
  - intros x Hx. apply S1. eapply patch_in; eauto.
  - intros x q Hq. destruct (S4 x q Hq) as (r & n & Hr & E & _). eauto.
  - intros p p' w. apply abs_rank_inj. eapply layout_group; eauto.
Qed.

Lemma patch_inside_ok ds lo hi : patch_of ds lo hi -> patch_inside ds lo hi = true.
Proof.
  intros HP. destruct (patch_lens _ _ _ HP) as [L1 L2]. destruct HP as (H1 & H2 & _). unfold patch_inside.
  rewrite L1, L2, Nat.eqb_refl, !andb_true_r. apply andb_true_intro. split.
  - clear - H1. revert lo H1. induction ds as [|d ds IH]; intros [|l lo]; cbn; try tauto. intros [A B]. rewrite (IH lo B). lia.
  - apply le_some_spec; [lia|]. clear - H2. revert hi H2. induction ds as [|d ds IH]; intros [|l lo]; cbn; try tauto; [constructor|].
    intros [A B]. constructor; [lia|auto].
Qed.

Lemma shift_prod plo phi olo ohi : length phi = length plo -> length olo = length plo -> shift plo olo phi = ohi ->
  zprod (extents plo phi) = zprod (extents olo ohi).
Proof. intros H1 H2 <-. rewrite extents_shift by lia. reflexivity. Qed.

(** The checks at the beginning pass. *)
Lemma passes_checks same ds alo ahi blo bhi : passes same alo ahi blo bhi -> patch_of ds alo ahi -> Forall2 Z.le blo bhi ->
  same && (same_vec alo blo && same_vec ahi bhi) = false /\
  same && match patch_intersect alo ahi blo bhi with Some _ => true | None => false end = false.
Proof.
  intros [->|[HL HX]] PA LB; [split; reflexivity|]. destruct same; [|split; reflexivity]. cbn [andb].
  destruct (patch_lens _ _ _ PA). pose proof (Forall2_len _ _ _ LB). split.
  - destruct (same_vec alo blo) eqn:E; [|reflexivity]. apply same_vec_eq in E. subst blo. destruct (same_vec ahi bhi) eqn:E; [|reflexivity].
    apply same_vec_eq in E. subst bhi. destruct (HX alo); apply lo_in_box; apply PA.
  - pose proof (patch_intersect_spec alo ahi blo bhi ltac:(lia) ltac:(lia) ltac:(lia)) as X.
    destruct (patch_intersect alo ahi blo bhi) as [[l h]|]; [|reflexivity]. destruct X as [Hle X]. cbn [fst snd] in *.
    destruct (proj1 (X l) (lo_in_box _ _ Hle)). destruct (HX l); assumption.
Qed.
