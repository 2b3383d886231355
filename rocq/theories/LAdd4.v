(** Lemmas: GA_Add on arrays with one distribution. *)
From Verif Require Import LRadix LDist LDist2 LStrided LStrided2 LIterReg LIterReg3 LIterSca LStore LXfer LXfer2 LLoc LAccess LSelect LSelect2 LOdo LGcopy5.
From Verif Require Export LAdd3.
Open Scope Z_scope.

Lemma block_cells_form guess near a me w lo hi :
  good_guess guess -> wf_array a -> 0 <= me < ga_nproc a -> abs_rank a me = Some w -> near w = true ->
  distribution (ga_desc a) me = Some (lo, hi) -> Forall2 Z.le lo hi -> has_ghosts a = false ->
  exists off, block_cells guess near a lo hi = Some (map (fun k => (w, off + lin (extents lo hi) k) : place) (indices (extents lo hi))) /\
    forall x, in_box lo hi x -> reg_place a x (w, off + lin (extents lo hi) (vsub x lo)).
Proof.
  intros HG WA Hme EW HN ED HLE NG. pose proof WA as (WR & HWl & HW0 & _). pose proof WR as (HT & Hne & _).
  pose proof (dist_len_dims _ _ _ _ HT ED) as LD. pose proof (Forall2_len _ _ _ HLE) as LH.
  destruct (access_ptr_spec guess near a lo hi me lo hi w HG WA Hme ED (lo_in_box _ _ HLE) (box_refl_hi _ _ HLE) HLE EW HN) as (off & ld & EA & HP).
  pose proof (access_ptr_ld guess near a lo hi me w off ld HG WA Hme ED HLE EW HN EA) as HLd.
  rewrite no_ghosts_padded in HLd by (auto; lia). destruct (LXfer2.extents_pos _ _ HLE) as [EL EP].
  assert (NE : lo <> []) by (intros ->; destruct (dims (ga_desc a)); [congruence|discriminate]).
  assert (F : firstn (length lo - 1) ld = firstn (length lo - 1) (extents lo hi)).
  { assert (length lo = S (length lo - 1)) by (destruct lo; [congruence|cbn; lia]). apply lin_pins; [lia|exact EP|intros k Hk; apply HLd; lia]. }
  unfold block_cells. rewrite EA. cbn [fst snd]. rewrite get_elems_ok by (auto; lia). exists off. split.
  - f_equal. rewrite run_indices by exact EP. apply map_ext_in. intros k Hk. apply indices_In in Hk. apply in_range0_length in Hk.
    rewrite lin_encode by lia. reflexivity.
  - intros x Hx. destruct (in_box_len _ _ _ Hx). rewrite <- HLd by (rewrite vsub_length; lia). apply HP, Hx.
Qed.
Lemma combine_maps {A B C D} (f : A -> B) (g : A -> C) (h : A -> D) l :
  combine (map f l) (combine (map g l) (map h l)) = map (fun k => (f k, (g k, h k))) l.
Proof. induction l as [|x l IH]; cbn; [|rewrite IH]; reflexivity. Qed.

Section Same.
Context {V : Type} (sa : V -> V) (acc : V -> V -> V).
Variables (guess : Z -> Z -> Z -> Z) (near : Z -> Z -> bool) (ha hb hc : Z) (a b c : garray).
Hypotheses (HG : good_guess guess) (WA : wf_array a) (WB : wf_array b) (WC : wf_array c)
  (EA : ga_elemsize a = ga_elemsize c) (EB : ga_elemsize b = ga_elemsize c)
  (GA : ga_group a = ga_group c) (GB : ga_group b = ga_group c)
  (NA : ga_nproc a = ga_nproc c) (NB : ga_nproc b = ga_nproc c)
  (HNear : forall me w, abs_rank c me = Some w -> near me w = true)
  (GhA : has_ghosts a = false) (GhB : has_ghosts b = false) (GhC : has_ghosts c = false)
  (DA : forall p, 0 <= p < ga_nproc c -> distribution (ga_desc a) p = distribution (ga_desc c) p)
  (DB : forall p, 0 <= p < ga_nproc c -> distribution (ga_desc b) p = distribution (ga_desc c) p)
  (NE : no_empty_block c) (SAC : ha = hc -> a = c) (SBC : hb = hc -> b = c) (NS : ~ (ha = hc /\ hb = hc)).
Notation g := (fun u v => acc (sa u) v).
Notation Q := (sums sa acc g ha hb hc (reg_place a) (reg_place b) (reg_place c)).

Lemma add_same_proc me w : 0 <= me < ga_nproc c -> abs_rank c me = Some w ->
  exists l, add_same guess (near me) ha hb hc a b c me = Some l /\
    marked Q (fun x => in_array (dims (ga_desc c)) x /\ exists ad, reg_place c x (w, ad)) l.
Proof.
  intros Hme EW. assert (EWa : abs_rank a me = Some w) by (unfold abs_rank in *; rewrite GA; exact EW).
  assert (EWb : abs_rank b me = Some w) by (unfold abs_rank in *; rewrite GB; exact EW).
  destruct (regular_blocks_inside _ _ _ (proj1 WC) Hme) as (lo & hi & ED & _).
  assert (EDa : distribution (ga_desc a) me = Some (lo, hi)) by (rewrite DA by exact Hme; exact ED).
  assert (EDb : distribution (ga_desc b) me = Some (lo, hi)) by (rewrite DB by exact Hme; exact ED).
  assert (OWN : forall x, in_box lo hi x <-> in_array (dims (ga_desc c)) x /\ exists ad, reg_place c x (w, ad))
    by (intros x; apply (in_own_block c me w WC Hme EW lo hi x ED)).
  unfold add_same. unfold held_cells. rewrite ED, EDa, EDb. cbn [fst snd].
  assert (EDl : distribution (ga_desc (if hb =? hc then (if ha =? hc then c else a) else b)) me = Some (lo, hi)).
  { destruct (hb =? hc); [destruct (ha =? hc)|]; auto. }
  rewrite EDl. cbn [fst snd]. rewrite EA, EB, !Z.eqb_refl. cbv iota.
  destruct (Z.ltb_spec 0 (hd 0 lo)) as [Hp|Hp].
  - pose proof (NE me lo hi Hme ED Hp) as HLE.
    destruct (block_cells_form guess (near me) c me w lo hi HG WC Hme EW (HNear _ _ EW) ED HLE GhC) as (oc & Ec & Pc).
    destruct (block_cells_form guess (near me) a me w lo hi HG WA ltac:(lia) EWa (HNear _ _ EW) EDa HLE GhA) as (oa & Ea & Pa).
    destruct (block_cells_form guess (near me) b me w lo hi HG WB ltac:(lia) EWb (HNear _ _ EW) EDb HLE GhB) as (ob & Eb & Pb).
    rewrite Ec, Ea, Eb. set (L := indices (extents lo hi)) in *.
    set (fc := (fun k => (w, oc + lin (extents lo hi) k)) : list Z -> place) in *. set (fa := (fun k => (w, oa + lin (extents lo hi) k)) : list Z -> place) in *.
    set (fb := (fun k => (w, ob + lin (extents lo hi) k)) : list Z -> place) in *.
    assert (XA : exists fa', (if ha =? hc then Some (map fc L) else Some (map fa L)) = Some (map fa' L) /\ forall x, in_box lo hi x -> reg_place a x (fa' (vsub x lo))).
    { destruct (Z.eqb_spec ha hc) as [E|E]; [exists fc|exists fa]; split; auto. intros x Hx. rewrite (SAC E). apply Pc, Hx. }
    assert (XB : exists fb', (if hb =? hc then Some (map fc L) else Some (map fb L)) = Some (map fb' L) /\ forall x, in_box lo hi x -> reg_place b x (fb' (vsub x lo))).
    { destruct (Z.eqb_spec hb hc) as [E|E]; [exists fc|exists fb]; split; auto. intros x Hx. rewrite (SBC E). apply Pc, Hx. }
    destruct XA as (fa' & -> & Pa'). destruct XB as (fb' & -> & Pb'). rewrite !map_length, !Nat.eqb_refl. cbn [negb orb].
    assert (X : (ha =? hc) && (hb =? hc) = false).
    { apply not_true_is_false. intros X. apply andb_prop in X as [X1 X2]. apply Z.eqb_eq in X1, X2. apply NS; auto. }
    rewrite X. eexists. split; [reflexivity|]. rewrite combine_maps, map_map. cbn [fst snd].
    eapply marked_ext; [intros x; apply OWN|].
    apply (indices_marked_any Q lo hi (fun k => GAdd hc (fc k) ha (fa' k) hb (fb' k)) HLE).
    intros x Hx. apply sums_add; auto. apply Pc, Hx.
  - assert (E1 : (if ha =? hc then Some (@nil place) else Some []) = Some []) by (destruct (ha =? hc); reflexivity).
    assert (E2 : (if hb =? hc then Some (@nil place) else Some []) = Some []) by (destruct (hb =? hc); reflexivity).
    rewrite E1, E2. exists []. split; [reflexivity|]. apply marked_nil. intros x Hx. apply OWN in Hx. eapply no_block; eauto. lia.
Qed.

Lemma add_same_all : exists ls,
  Forall2 (fun me l => add_same guess (near me) ha hb hc a b c me = Some l) (zseq 0 (Z.to_nat (ga_nproc c))) ls /\
  marked Q (in_array (dims (ga_desc c))) (concat ls).
Proof.
  destruct (procs_fuel (fun _ me => add_same guess (near me) ha hb hc a b c me)
     (fun me l => exists w, abs_rank c me = Some w /\ marked Q (fun x => in_array (dims (ga_desc c)) x /\ exists ad, reg_place c x (w, ad)) l)
     (zseq 0 (Z.to_nat (ga_nproc c)))) as (ls & n & E & F).
  { intros me Hme. apply zseq_In in Hme. assert (Hm : 0 <= me < ga_nproc c) by lia.
    destruct (abs_rank_total c me (layout_group _ 0 _ _ (or_introl (conj WC (conj eq_refl eq_refl)))) Hm) as (w & EW).
    destruct (add_same_proc me w Hm EW) as (l & E & M). exists l, 0%nat. split; eauto. }
  exists ls. split; [eapply Forall2_weaken; [|exact E]; intros me es X; exact (X n (le_n n))|].
  apply (whole_marked Q c 0 (reg_place c) (reg_shape c)); [left; auto|auto|exact F].
Qed.
End Same.

(** The whole array as a patch. *)
Lemma maps_pos ds : forall ns m, valid_maps ds ns m -> Forall (fun d => 1 <= d) ds.
Proof. induction ds as [|d ds IH]; intros [|n ns] m H; cbn in H; try tauto; constructor; [apply H|eapply IH, H]. Qed.
Lemma bdims_pos ds : forall bs, valid_bdims ds bs -> Forall (fun d => 1 <= d) ds.
Proof. induction ds as [|d ds IH]; intros [|b bs] H; cbn in H; try tauto; constructor; [apply H|eapply IH, H]. Qed.
Lemma layout_dims_pos a wn placed shape : any_layout a wn placed shape -> Forall (fun d => 1 <= d) (dims (ga_desc a)).
Proof.
  intros [(((_ & _ & W & _) & _) & _)|(_ & [(_ & (_ & _ & W & _) & _)|[(_ & W & _)|(_ & (_ & _ & W & _) & _)]])].
  - eapply maps_pos, W.
  - eapply bdims_pos, W.
  - destruct W as [(_ & _ & W & _)|((_ & _ & W & _) & _)]; [eapply bdims_pos, W|eapply maps_pos, W].
  - eapply bdims_pos, W.
Qed.
Lemma whole_patch a wn placed shape : any_layout a wn placed shape ->
  patch_of (dims (ga_desc a)) (repeat 1 (length (dims (ga_desc a)))) (dims (ga_desc a)).
Proof.
  intros HL. assert (P : Forall (fun d => 1 <= d) (dims (ga_desc a))) by (eapply layout_dims_pos; eauto).
  clear HL. unfold patch_of. induction (dims (ga_desc a)) as [|d ds IH]; [repeat split; constructor|].
  inversion P; subst. destruct (IH H2) as (I1 & I2 & I3). cbn. split; [split; [lia|exact I1]|]. split; [split; [lia|exact I2]|]. constructor; [lia|exact I3].
Qed.
Lemma whole_box ds x : in_box (repeat 1 (length ds)) ds x <-> in_array ds x.
Proof.
  revert x. induction ds as [|d ds IH]; intros [|y x]; cbn; try tauto. rewrite <- IH. unfold in_box. tauto.
Qed.
