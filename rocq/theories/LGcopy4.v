(** Lemmas: GA_Copy and GA_Transpose. *)
From Verif Require Import LRadix LXfer LXfer2 LStore LLoc LAccess LSelect2.
From Verif Require Export LGcopy3.
Open Scope Z_scope.

Lemma mapM_fuel {A B} (F : nat -> A -> option B) (R : A -> B -> Prop) l :
  (forall q, In q l -> exists r n, (forall fuel, (n <= fuel)%nat -> F fuel q = Some r) /\ R q r) ->
  exists rs n, (forall fuel, (n <= fuel)%nat -> mapM (F fuel) l = Some rs) /\ Forall2 R l rs.
Proof.
  induction l as [|q l IH]; intros H; [exists [], 0%nat; split; [reflexivity|constructor]|].
  destruct (H q (or_introl eq_refl)) as (r & n & E & HR).
  destruct IH as (rs & n' & E' & F'); [intros; apply H; now right|].
  exists (r :: rs), (Nat.max n n'). split; [|constructor; auto].
  intros fuel Hf. cbn [mapM]. rewrite E, E' by lia. reflexivity.
Qed.

Lemma procs_fuel {B} (F : nat -> Z -> option B) (R : Z -> B -> Prop) (l : list Z) :
  (forall p, In p l -> exists r n, (forall fuel, (n <= fuel)%nat -> F fuel p = Some r) /\ R p r) ->
  exists rs n, Forall2 (fun p r => forall fuel, (n <= fuel)%nat -> F fuel p = Some r) l rs /\ Forall2 R l rs.
Proof.
  intros H. destruct (mapM_fuel F R l H) as (rs & n & E & HR). exists rs, n. split; [|exact HR].
  clear HR H. revert rs E. induction l as [|p l IH]; intros rs E.
  - specialize (E n (le_n n)). injection E as <-. constructor.
  - destruct (F n p) as [r|] eqn:Er.
    2:{ specialize (E n (le_n n)). cbn in E. rewrite Er in E. discriminate. }
    destruct (mapM (F n) l) as [rs'|] eqn:Ers.
    2:{ specialize (E n (le_n n)). cbn in E. rewrite Er, Ers in E. discriminate. }
    pose proof (E n (le_n n)) as E0. cbn in E0. rewrite Er, Ers in E0. injection E0 as <-.
    assert (EE : forall fuel, (n <= fuel)%nat -> F fuel p = Some r /\ mapM (F fuel) l = Some rs').
    { intros fuel Hf. specialize (E fuel Hf). cbn in E. destruct (F fuel p); [|discriminate].
      destruct (mapM (F fuel) l); [|discriminate]. injection E as <- <-. auto. }
    constructor; [intros; apply EE; auto|]. apply IH. intros; apply EE; auto.
Qed.

Lemma region_labelled_put (pa pb : list Z -> place -> Prop) lo hi ld w off ts :
  Forall2 Z.le lo hi ->
  (forall x, in_box lo hi x -> pa x (w, off + lin ld (vsub x lo))) ->
  region_transfers pb lo hi ld ts ->
  labelled (fun x => x) pa pb (in_box lo hi) (map (fun t => (fst t, (w, off + snd t))) ts).
Proof.
  intros HL HP (l & -> & P & H). exists (map (fun tx => ((fst (fst tx), (w, off + snd (fst tx))), snd tx)) l).
  rewrite !map_map. split; [reflexivity|]. cbn [snd]. 
  split; [eapply Permutation_NoDup; [apply Permutation_sym; exact P|apply box_list_NoDup]|]. split.
  - intros x. rewrite <- (box_list_In lo hi x (Forall2_len _ _ _ HL)). split; apply Permutation_in; [exact P|apply Permutation_sym, P].
  - intros e x Hin. apply in_map_iff in Hin as ((t & y) & E & Hin). cbn [fst snd] in E. injection E as <- <-. cbn [fst snd].
    destruct (H _ _ Hin) as [H1 H2]. split; [exact H1|]. rewrite H2. apply HP.
    apply box_list_In; [exact (Forall2_len _ _ _ HL)|]. eapply Permutation_in; [exact P|]. apply (in_map snd _ _ Hin).
Qed.
Lemma region_labelled_get (pa pb : list Z -> place -> Prop) lo hi ld w off ts :
  Forall2 Z.le lo hi ->
  (forall x, in_box lo hi x -> pb x (w, off + lin ld (vsub x lo))) ->
  region_transfers pa lo hi ld ts ->
  labelled (fun x => x) pa pb (in_box lo hi) (map (fun t => ((w, off + snd t), fst t)) ts).
Proof.
  intros HL HP R. destruct (region_labelled_put pb pa lo hi ld w off ts HL HP R) as (l & E & N & I & J).
  exists (map (fun ex => ((snd (fst ex), fst (fst ex)), snd ex)) l). rewrite !map_map. cbn [snd].
  split.
  - transitivity (map (fun e : place * place => (snd e, fst e)) (map (fun t : place * Z => (fst t, (w, off + snd t))) ts)).
    + rewrite map_map. reflexivity.
    + rewrite E, map_map. reflexivity.
  - split; [exact N|]. split; [exact I|]. intros e x Hin. apply in_map_iff in Hin as ((e' & y) & Eq & Hin).
    cbn [fst snd] in Eq. injection Eq as <- <-. cbn [fst snd]. destruct (J _ _ Hin). auto.
Qed.

Lemma piece_in_array (placed : list Z -> place -> Prop) ds w ps q : local_cover placed ds w ps -> In q ps ->
  Forall2 Z.le (lp_lo q) (lp_hi q) /\ in_array ds (lp_lo q) /\ in_array ds (lp_hi q).
Proof.
  intros [[T _] P] Hq. destruct (P q Hq) as (HL & _). split; [exact HL|]. apply In_nth_error in Hq as (i & Hi).
  split; apply (T i q Hi); cbn [fst snd]; [apply lo_in_box, HL|].
  clear - HL. induction HL; cbn; auto. split; [lia|auto].
Qed.

(** One process of the group of the array that is walked. *)
Section Drive.
Variables (guess : Z -> Z -> Z -> Z) (near : Z -> bool) (wn : Z) (rnd : lpiece -> Z -> Z) (smp : Z -> bool).
Variables (d o : garray) (pd po : list Z -> place -> Prop) (sd so : list Z -> Prop).
Hypothesis HG : good_guess guess.
Hypothesis HR : forall q k, 0 <= rnd q k.
Hypothesis LD : walk_layout d wn pd sd.
Hypothesis LO : any_layout o wn po so.
Hypothesis SD : small_local d sd.
Hypothesis SO : small_local o so.
Hypothesis EES : ga_elemsize d = ga_elemsize o.

Lemma drive_piece ps w q : dims (ga_desc d) = dims (ga_desc o) -> local_cover pd (dims (ga_desc d)) w ps -> In q ps ->
  ld_shape sd (lp_lo q) (lp_hi q) (lp_ld q) ->
  exists ts, gives_transfers guess (rnd q) wn smp o (lp_lo q) (lp_hi q) (lp_ld q) po ts.
Proof.
  intros ED C Hq (sh & S1 & S2 & S3). destruct (piece_in_array _ _ _ _ _ C Hq) as (HL & I1 & I2).
  rewrite ED in I1, I2. apply (any_transfers guess (rnd q) wn smp o _ _ _ sh po so); auto.
  rewrite <- EES. apply (proj2 SD), S1.
Qed.

Lemma drive_proc me w (mk : lpiece -> place * Z -> place * place) (pa pb : list Z -> place -> Prop) :
  dims (ga_desc d) = dims (ga_desc o) -> 0 <= me < ga_nproc d -> abs_rank d me = Some w -> near w = true ->
  (forall ps q ts, local_cover pd (dims (ga_desc d)) w ps -> In q ps ->
     region_transfers po (lp_lo q) (lp_hi q) (lp_ld q) ts ->
     labelled (fun x => x) pa pb (in_box (lp_lo q) (lp_hi q)) (map (mk q) ts)) ->
  exists es n, (forall fuel, (n <= fuel)%nat ->
      (do ps <- local_iterate fuel guess near wn d me;
       do ls <- mapM (fun q =>
                  do ts <- transfers fuel guess (rnd q) wn smp o (lp_lo q) (lp_hi q) (lp_ld q);
                  Some (map (mk q) ts)) ps;
       Some (concat ls)) = Some es) /\
    labelled (fun x => x) pa pb (fun x => in_array (dims (ga_desc d)) x /\ exists ad, pd x (w, ad)) es.
Proof.
  intros ED Hme EW HN HM. destruct (layout_walk guess near wn d me w pd sd HG LD Hme EW HN) as (ps & n & EI & C & L).
  destruct (mapM_fuel (fun fuel q => do ts <- transfers fuel guess (rnd q) wn smp o (lp_lo q) (lp_hi q) (lp_ld q);
                  Some (map (mk q) ts))
              (fun q es => labelled (fun x => x) pa pb (in_box (lp_lo q) (lp_hi q)) es) ps) as (rs & n' & EM & F).
  { intros q Hq. destruct (drive_piece ps w q ED C Hq (L q Hq)) as (ts & (f0 & ET) & RT).
    exists (map (mk q) ts), f0. split; [intros fuel Hf; rewrite ET by exact Hf; reflexivity|]. eapply HM; eauto. }
  exists (concat rs), (Nat.max n n'). split.
  - intros fuel Hf. rewrite EI, EM by lia. reflexivity.
  - eapply cover_labelled; eauto.
Qed.
End Drive.

Lemma copy_checks_ok a b : dims (ga_desc a) = dims (ga_desc b) -> ga_elemsize a = ga_elemsize b -> copy_checks a b = true.
Proof.
  intros E1 E2. unfold copy_checks. rewrite E1, E2, Nat.eqb_refl, Z.eqb_refl, andb_true_r. cbn [andb].
  apply forallb_forall. intros [x y] H. cbn [fst snd]. apply Z.eqb_eq.
  clear - H. induction (dims (ga_desc b)) as [|z l IH]; cbn in H; [contradiction|]. destruct H as [H|H]; [congruence|auto].
Qed.

Lemma abs_rank_total a p : wf_group a -> 0 <= p < ga_nproc a -> exists w, abs_rank a p = Some w.
Proof.
  unfold wf_group, abs_rank. destruct (ga_group a) as [l|]; [|eauto]. intros [_ HL] Hp.
  unfold zget. destruct (Z.ltb_spec p 0); [lia|]. destruct (nth_error l (Z.to_nat p)) eqn:E; [eauto|].
  apply nth_error_None in E. lia.
Qed.
Lemma layout_group a wn placed shape : any_layout a wn placed shape -> wf_group a.
Proof.
  intros [((_ & _ & _ & H & _) & _)|(H & _)]; [exact H|]. unfold wf_group. rewrite H. exact I.
Qed.

Lemma whole_labelled (d : garray) wn pd sd f pa pb (ess : list (list (place * place))) :
  walk_layout d wn pd sd ->
  Forall2 (fun me es => exists w, abs_rank d me = Some w /\
    labelled f pa pb (fun x => in_array (dims (ga_desc d)) x /\ exists ad, pd x (w, ad)) es) (zseq 0 (Z.to_nat (ga_nproc d))) ess ->
  labelled f pa pb (in_array (dims (ga_desc d))) (concat ess).
Proof.
  intros [LD _] F. destruct (any_storage _ _ _ _ LD) as (alloc & S1 & S2 & S3 & S4).
  apply (procs_labelled f pa pb pd (in_array (dims (ga_desc d))) (abs_rank d) (ga_nproc d)); auto.
  - intros x q Hq. destruct (S4 x q Hq) as (r & n & Hr & E & _). eauto.
  - intros p p' w. apply abs_rank_inj. eapply layout_group; eauto.
Qed.

Theorem copy_put_spec guess near wn rnd smp a b pa pb sa sb :
  good_guess guess -> (forall me q k, 0 <= rnd me q k) -> walk_layout a wn pa sa -> any_layout b wn pb sb ->
  small_local a sa -> small_local b sb -> dims (ga_desc a) = dims (ga_desc b) -> ga_elemsize a = ga_elemsize b ->
  ga_nproc a <= ga_nproc b ->
  (forall me w, abs_rank a me = Some w -> near me w = true) ->
  forall meb, exists ess n,
    Forall2 (fun me es => forall fuel, (n <= fuel)%nat ->
        ga_copy fuel guess (near me) wn (rnd me) (smp me) a b me (meb me) = Some es) (zseq 0 (Z.to_nat (ga_nproc a))) ess /\
    labelled (fun x => x) pa pb (in_array (dims (ga_desc a))) (concat ess).
Proof.
  intros HG HR LA LB SA SB ED EE HN HNear meb.
  destruct (procs_fuel (fun fuel me => ga_copy fuel guess (near me) wn (rnd me) (smp me) a b me (meb me))
     (fun me es => exists w, abs_rank a me = Some w /\
        labelled (fun x => x) pa pb (fun x => in_array (dims (ga_desc a)) x /\ exists ad, pa x (w, ad)) es)
     (zseq 0 (Z.to_nat (ga_nproc a)))) as (ess & n & E & F).
  - intros me Hme. apply zseq_In in Hme. assert (Hm : 0 <= me < ga_nproc a) by lia.
    destruct (abs_rank_total a me (layout_group _ _ _ _ (proj1 LA)) Hm) as (w & EW).
    destruct (drive_proc guess (near me) wn (rnd me) (smp me) a b pa pb sa sb HG (HR me) LA LB SA SB EE me w
       (fun q t => (fst t, (lp_seg q, lp_off q + snd t))) pa pb ED Hm EW (HNear _ _ EW)) as (es & n & E & L).
    { intros ps q ts C Hq R. destruct C as [_ C]. destruct (C q Hq) as (HL & Es & HP). rewrite Es.
      eapply region_labelled_put; eauto. }
    exists es, n. split; [|eauto]. intros fuel Hf. unfold ga_copy. rewrite copy_checks_ok by auto.
    destruct (Z.leb_spec (ga_nproc a) (ga_nproc b)); [|lia]. apply E, Hf.
  - exists ess, n. split; [exact E|]. eapply whole_labelled; eauto.
Qed.

Theorem copy_get_spec guess near wn rnd smp a b pa pb sa sb :
  good_guess guess -> (forall me q k, 0 <= rnd me q k) -> any_layout a wn pa sa -> walk_layout b wn pb sb ->
  small_local a sa -> small_local b sb -> dims (ga_desc a) = dims (ga_desc b) -> ga_elemsize a = ga_elemsize b ->
  ga_nproc b < ga_nproc a ->
  (forall me w, abs_rank b me = Some w -> near me w = true) ->
  forall mea, exists ess n,
    Forall2 (fun me es => forall fuel, (n <= fuel)%nat ->
        ga_copy fuel guess (near me) wn (rnd me) (smp me) a b (mea me) me = Some es) (zseq 0 (Z.to_nat (ga_nproc b))) ess /\
    labelled (fun x => x) pa pb (in_array (dims (ga_desc a))) (concat ess).
Proof.
  intros HG HR LA LB SA SB ED EE HN HNear mea.
  destruct (procs_fuel (fun fuel me => ga_copy fuel guess (near me) wn (rnd me) (smp me) a b (mea me) me)
     (fun me es => exists w, abs_rank b me = Some w /\
        labelled (fun x => x) pa pb (fun x => in_array (dims (ga_desc b)) x /\ exists ad, pb x (w, ad)) es)
     (zseq 0 (Z.to_nat (ga_nproc b)))) as (ess & n & E & F).
  - intros me Hme. apply zseq_In in Hme. assert (Hm : 0 <= me < ga_nproc b) by lia.
    destruct (abs_rank_total b me (layout_group _ _ _ _ (proj1 LB)) Hm) as (w & EW).
    destruct (drive_proc guess (near me) wn (rnd me) (smp me) b a pb pa sb sa HG (HR me) LB LA SB SA (eq_sym EE) me w
       (fun q t => ((lp_seg q, lp_off q + snd t), fst t)) pa pb (eq_sym ED) Hm EW (HNear _ _ EW)) as (es & n & E & L).
    { intros ps q ts C Hq R. destruct C as [_ C]. destruct (C q Hq) as (HL & Es & HP). rewrite Es.
      eapply region_labelled_get; eauto. }
    exists es, n. split; [|eauto]. intros fuel Hf. unfold ga_copy. rewrite copy_checks_ok by auto.
    destruct (Z.leb_spec (ga_nproc a) (ga_nproc b)); [lia|]. apply E, Hf.
  - exists ess, n. split; [exact E|]. rewrite ED. eapply whole_labelled; eauto.
Qed.
