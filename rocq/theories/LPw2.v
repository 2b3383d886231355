(** Lemmas: GA_Zero, GA_Scale, GA_Fill. *)
From Verif Require Import LRadix LDist LStrided LStrided2 LIterReg LIterReg3 LIterSca LStore LXfer LXfer2 LLoc LAccess LSelect LSelect2 LOdo LGcopy5.
From Verif Require Export LPw.
Open Scope Z_scope.

(** ---- consecutive elements ---- *)
Lemma counts_zseq n : counts n = zseq 0 (Z.to_nat n).
Proof. unfold counts. rewrite zseq_seq. apply map_ext. intros i. lia. Qed.
Lemma no_ghosts_padded lo hi w : length hi = length lo -> length w = length lo -> Forall (fun v => 0 <= v) w ->
  existsb (fun v => 0 <? v) w = false -> padded lo hi w = extents lo hi.
Proof.
  revert hi w. induction lo as [|l lo IH]; intros [|h hi] [|v w] H1 H2 HF HE; try discriminate; [reflexivity|].
  cbn in HE. apply orb_false_iff in HE as [A B]. inversion HF; subst. cbn [padded extents]. rewrite IH by (auto; cbn in *; lia).
  f_equal. lia.
Qed.
Lemma get_elems_ok lo : forall hi ld, lo <> [] -> length hi = length lo ->
  firstn (length lo - 1) ld = firstn (length lo - 1) (extents lo hi) -> get_elems lo hi ld = Some (zprod (extents lo hi)).
Proof.
  induction lo as [|l lo IH]; intros [|h hi] ld Hne HL HF; try discriminate; [congruence|].
  destruct lo as [|l2 lo], hi as [|h2 hi]; try discriminate; [cbn; f_equal; lia|].
  cbn [length] in HF. replace (S (S (length lo)) - 1)%nat with (S (length lo)) in HF by lia.
  destruct ld as [|d ld]; cbn [firstn extents] in HF; [discriminate|]. injection HF as -> HF.
  cbn [get_elems]. rewrite Z.eqb_refl.
  specialize (IH (h2 :: hi) ld ltac:(discriminate) ltac:(cbn in *; lia)).
  cbn [length] in IH. replace (S (length lo) - 1)%nat with (length lo) in IH by lia. cbn [get_elems] in IH.
  rewrite IH by exact HF. cbn [extents zprod]. f_equal. ring.
Qed.
Lemma run_indices w off ext : Forall (fun c => 1 <= c) ext ->
  run_cells w off (zprod ext) = map (fun k => (w, off + encode ext k)) (indices ext).
Proof.
  intros HP. unfold run_cells. rewrite counts_zseq, decode_indices, map_map by exact HP.
  apply map_ext_in. intros p Hp. apply zseq_In in Hp. rewrite encode_decode by (auto; lia). reflexivity.
Qed.

(** ---- map-distributed arrays ---- *)
Lemma block_cells_marked guess near a me w lo hi :
  good_guess guess -> wf_array a -> 0 <= me < ga_nproc a -> abs_rank a me = Some w -> near w = true ->
  distribution (ga_desc a) me = Some (lo, hi) -> Forall2 Z.le lo hi -> has_ghosts a = false ->
  exists cs, block_cells guess near a lo hi = Some cs /\ marked (reg_place a) (in_box lo hi) cs.
Proof.
  intros HG WA Hme EW HN ED HLE NG. pose proof WA as (WR & HWl & HW0 & _). pose proof WR as (HT & Hne & _).
  pose proof (dist_len_dims _ _ _ _ HT ED) as LD. pose proof (Forall2_len _ _ _ HLE) as LH.
  destruct (access_ptr_spec guess near a lo hi me lo hi w HG WA Hme ED (lo_in_box _ _ HLE) (box_refl_hi _ _ HLE) HLE EW HN) as (off & ld & EA & HP).
  pose proof (access_ptr_ld guess near a lo hi me w off ld HG WA Hme ED HLE EW HN EA) as HLd.
  rewrite no_ghosts_padded in HLd by (auto; lia). destruct (LXfer2.extents_pos _ _ HLE) as [EL EP].
  assert (NE : lo <> []) by (intros ->; destruct (dims (ga_desc a)); [congruence|discriminate]).
  assert (F : firstn (length lo - 1) ld = firstn (length lo - 1) (extents lo hi)).
  { assert (length lo = S (length lo - 1)) by (destruct lo; [congruence|cbn; lia]). apply lin_pins; [lia|exact EP|intros k Hk; apply HLd; lia]. }
  unfold block_cells. rewrite EA. cbn [fst snd]. rewrite get_elems_ok by (auto; lia). eexists. split; [reflexivity|].
  rewrite run_indices by exact EP.
  apply (indices_marked (reg_place a) lo hi (fun k => (w, off + encode (extents lo hi) k)) HLE).
  intros x Hx. destruct (in_box_len _ _ _ Hx). rewrite <- lin_encode by (rewrite vsub_length; lia).
  rewrite <- HLd by (rewrite vsub_length; lia). apply HP, Hx.
Qed.

Lemma no_block a me lo hi x : wf_array a -> 0 <= me < ga_nproc a -> distribution (ga_desc a) me = Some (lo, hi) ->
  ~ 0 < hd 0 lo -> in_box lo hi x -> False.
Proof.
  intros WA Hme ED Hn Hx. pose proof WA as (WR & _). pose proof WR as (_ & Hne & _).
  destruct (regular_blocks_inside _ _ _ WR Hme) as (l & h & E & HI). rewrite ED in E. injection E as <- <-.
  pose proof (HI _ (lo_in_box _ _ (box_le _ _ _ Hx))) as IN. destruct (dims (ga_desc a)) as [|d ds]; [congruence|].
  destruct lo as [|l lo]; cbn in IN; [tauto|]. cbn in Hn. lia.
Qed.

Section Reg.
Variables (guess : Z -> Z -> Z -> Z) (near : Z -> bool) (wn : Z) (a : garray) (me w : Z).
Hypotheses (HG : good_guess guess) (WA : wf_array a) (Hme : 0 <= me < ga_nproc a) (EW : abs_rank a me = Some w) (HN : near w = true).

Lemma reg_walk_layout : walk_layout a wn (reg_place a) (reg_shape a).
Proof. split; [left; auto|]. intros T. destruct WA as ((T' & _) & _). congruence. Qed.

Lemma own_block_cells lo hi : distribution (ga_desc a) me = Some (lo, hi) ->
  exists cs n, (forall fuel, (n <= fuel)%nat -> patch_cells fuel guess near wn a me lo hi = Some cs) /\
    marked (reg_place a) (fun x => in_array (dims (ga_desc a)) x /\ exists ad, reg_place a x (w, ad)) cs.
Proof.
  intros ED. pose proof WA as (WR & _). pose proof WR as (HT & _).
  pose proof (dist_len_dims _ _ _ _ HT ED) as LD. pose proof (dist_len _ _ _ _ HT ED) as LE.
  destruct (patch_cells_proc guess near wn a me w lo hi _ _ HG reg_walk_layout Hme EW HN LD ltac:(lia)) as (cs & n & E & M).
  exists cs, n. split; [exact E|]. eapply marked_ext; [|exact M]. intros x. cbv beta.
  rewrite (reg_place_unique a x me w lo hi WA Hme EW ED). tauto.
Qed.

Lemma in_own_block lo hi x : distribution (ga_desc a) me = Some (lo, hi) ->
  in_box lo hi x <-> in_array (dims (ga_desc a)) x /\ exists ad, reg_place a x (w, ad).
Proof.
  intros ED. rewrite (reg_place_unique a x me w lo hi WA Hme EW ED). split; [|tauto]. intros Hx. split; [|exact Hx].
  destruct WA as (WR & _). destruct (regular_blocks_inside _ _ _ WR Hme) as (l & h & E & HI). rewrite ED in E. injection E as <- <-. auto.
Qed.

Lemma reg_cells (scale : bool) : no_empty_block a ->
  exists cs n, (forall fuel, (n <= fuel)%nat ->
      (if scale then scale_cells fuel guess near wn a w me else zero_cells fuel guess near wn a w me) = Some cs) /\
    marked (reg_place a) (fun x => in_array (dims (ga_desc a)) x /\ exists ad, reg_place a x (w, ad)) cs.
Proof.
  intros NE. pose proof WA as (WR & _). pose proof WR as (HT & _).
  destruct (regular_blocks_inside _ _ _ WR Hme) as (lo & hi & ED & _).
  destruct (own_block_cells lo hi ED) as (cs & n & E & M).
  assert (EMP : ~ 0 < hd 0 lo -> marked (reg_place a) (fun x => in_array (dims (ga_desc a)) x /\ exists ad, reg_place a x (w, ad)) []).
  { intros Hn. apply marked_nil. intros x Hx. apply (in_own_block lo hi x ED) in Hx. eapply no_block; eauto. }
  assert (PLAIN : 0 < hd 0 lo -> has_ghosts a = false -> exists cs', block_cells guess near a lo hi = Some cs' /\
            marked (reg_place a) (fun x => in_array (dims (ga_desc a)) x /\ exists ad, reg_place a x (w, ad)) cs').
  { intros Hp NG. destruct (block_cells_marked guess near a me w lo hi HG WA Hme EW HN ED (NE _ _ _ Hme ED Hp) NG) as (cs' & E' & M').
    exists cs'. split; [exact E'|]. eapply marked_ext; [|exact M']. intros x. apply in_own_block, ED. }
  unfold zero_cells, scale_cells. rewrite HT, ED. cbn [fst snd].
  destruct (Z.ltb_spec 0 (hd 0 lo)) as [Hp|Hp], (has_ghosts a) eqn:HGh.
  - exists cs, n. split; [intros; destruct scale; apply E; assumption|exact M].
  - destruct (PLAIN Hp eq_refl) as (cs' & E' & M'). exists cs', 0%nat. split; [intros; destruct scale; exact E'|exact M'].
  - destruct scale.
    + exists cs, n. split; [intros; apply E; assumption|exact M].
    + exists [], 0%nat. split; [reflexivity|apply EMP; lia].
  - exists [], 0%nat. split; [intros; destruct scale; reflexivity|apply EMP; lia].
Qed.
End Reg.

Theorem reg_cells_spec guess near wn a (scale : bool) :
  good_guess guess -> wf_array a -> (forall me w, abs_rank a me = Some w -> near me w = true) -> no_empty_block a ->
  forall rk, (forall me, 0 <= me < ga_nproc a -> abs_rank a me = Some (rk me)) ->
  exists ess n,
    Forall2 (fun me es => forall fuel, (n <= fuel)%nat ->
        (if scale then scale_cells fuel guess (near me) wn a (rk me) me else zero_cells fuel guess (near me) wn a (rk me) me) = Some es)
      (zseq 0 (Z.to_nat (ga_nproc a))) ess /\
    marked (reg_place a) (in_array (dims (ga_desc a))) (concat ess).
Proof.
  intros HG WA HNear NE rk HRK.
  destruct (procs_fuel (fun fuel me => if scale then scale_cells fuel guess (near me) wn a (rk me) me else zero_cells fuel guess (near me) wn a (rk me) me)
     (fun me es => exists w, abs_rank a me = Some w /\
        marked (reg_place a) (fun x => in_array (dims (ga_desc a)) x /\ exists ad, reg_place a x (w, ad)) es)
     (zseq 0 (Z.to_nat (ga_nproc a)))) as (ess & n & E & F).
  - intros me Hme. apply zseq_In in Hme. assert (Hm : 0 <= me < ga_nproc a) by lia.
    destruct (reg_cells guess (near me) wn a me (rk me) HG WA Hm (HRK _ Hm) (HNear _ _ (HRK _ Hm)) scale NE) as (es & n & E & L).
    exists es, n. split; [exact E|]. exists (rk me). auto.
  - exists ess, n. split; [exact E|]. eapply (whole_marked _ a wn (reg_place a) (reg_shape a)); [left; auto|auto|exact F].
Qed.

(** ---- whole memories ---- *)
Lemma alloc_total a wn placed shape me w : any_layout a wn placed shape -> 0 <= me < ga_nproc a -> abs_rank a me = Some w ->
  exists n, alloc_elems wn w me a = Some n.
Proof.
  intros [(WA & _)|(HGr & HL)] Hme EW.
  { pose proof WA as (WR & _). pose proof WR as (HT & _). destruct (regular_blocks_inside _ _ _ WR Hme) as (lo & hi & ED & _).
    unfold alloc_elems. rewrite HT, ED. destruct (_ || _); eauto. }
  unfold abs_rank in EW. rewrite HGr in EW. injection EW as <-.
  destruct HL as [(HT & W & -> & HNp & _)|HL].
  { unfold alloc_elems. rewrite HT.
    destruct (strided_mod (ga_nproc a) (zprod (num_blocks (ga_desc a))) me ltac:(lia) Hme) as (js & E & _ & HI). rewrite E.
    rewrite owned_size_spec; [eauto|left; exact W|]. intros k Hk. apply HI in Hk. tauto. }
  assert (HL' : wf_blocks (ga_desc a) /\ wf_grid (ga_nproc a) (ga_desc a) /\
     (distr_type (ga_desc a) = TILED \/ distr_type (ga_desc a) = TILED_IRREG \/ distr_type (ga_desc a) = SCALAPACK)).
  { destruct HL as [(T & WB & WG & _)|(T & WB & WG & _)]; [|split; [left; exact WB|auto]]. split; [exact WB|]. split; [exact WG|tauto]. }
  clear HL. destruct HL' as (WB & WG & HT).
  set (g := ga_desc a) in *. pose proof WG as (_ & _ & HLg & Hpos & HNp).
  destruct (wf_any_axes g (wf_blocks_any g WB)) as (_ & _ & _ & Hnb & HLn).
  assert (Hr : in_range0 (nblock g) (decode (nblock g) me)) by (apply decode_range; auto; lia).
  unfold alloc_elems. fold g. rewrite (wf_blocks_num g WB), Z.eqb_refl, HNp, Z.eqb_refl.
  rewrite find_indices_decode by (auto; lia).
  assert (BD : wf_blocked g -> exists n, grid_size_bd (dims g) (block_dims g) (num_blocks g) (nblock g) (decode (nblock g) me) = Some n).
  { intros (_ & _ & HV & _).
    assert (LBd : length (block_dims g) = length (dims g)).
    { clear - HV. revert HV. generalize (block_dims g). induction (dims g) as [|d ds IH]; intros [|b bs]; cbn; try tauto.
      intros (_ & _ & H). f_equal. auto. }
    destruct (grid_size_bd_spec (dims g) (block_dims g) (num_blocks g) (nblock g) (decode (nblock g) me)) as (Js & E & HJ & HL); eauto. }
  destruct HT as [HT|[HT|HT]]; rewrite HT.
  - destruct WB as [W|[W _]]; [auto|destruct W as (X & _); congruence].
  - destruct WB as [W|W]; [destruct W as ([X|[X|X]] & _); congruence|].
    pose proof W as [(_ & _ & HV & _) _].
    destruct (grid_size_map_spec (dims g) (mapc g) (num_blocks g) (nblock g) (decode (nblock g) me)) as (Js & E & HJ & HL); eauto.
  - destruct WB as [W|[W _]]; [auto|destruct W as (X & _); congruence].
Qed.

Lemma any_storage_wn a wn placed shape : any_layout a wn placed shape -> sound_storage a placed (fun q r => alloc_elems wn q r a).
Proof.
  intros [(W & -> & ->)|(HG & [(T & W & -> & HN & -> & ->)|[(T & W & WG & HF & -> & ->)|(T & W & WG & HF & -> & ->)]])].
  - apply regular_storage, W.
  - apply bc_storage; auto. apply HN.
  - apply tiled_storage; auto.
  - apply scalapack_storage; auto.
Qed.

Lemma run_cells_In w off n q : In q (run_cells w off n) <-> fst q = w /\ off <= snd q < off + n.
Proof.
  unfold run_cells. rewrite in_map_iff. split.
  - intros (k & <- & Hk). apply counts_In in Hk. cbn. lia.
  - intros [<- H]. exists (snd q - off). split; [destruct q; cbn in *; f_equal; lia|apply counts_In; lia].
Qed.
Lemma run_cells_NoDup w off n : NoDup (run_cells w off n).
Proof.
  unfold run_cells. apply NoDup_map_inj; [intros a b _ _ E; injection E; lia|]. rewrite counts_zseq. apply zseq_NoDup.
Qed.

(** Every process updates all the memory it has allocated for the array. *)
Theorem whole_updated {V} a wn placed shape (f : V -> V) (m : heap V) ess es :
  any_layout a wn placed shape ->
  (forall q, owned a (fun q r => alloc_elems wn q r a) q -> hget m q <> None) ->
  Forall2 (fun me cs => exists w n, abs_rank a me = Some w /\ alloc_elems wn w me a = Some n /\ cs = run_cells w 0 n) (zseq 0 (Z.to_nat (ga_nproc a))) ess ->
  Permutation (concat ess) es ->
  exists m', run_elems (upd_elem f) m es = Some m' /\
    updated_cells f (owned a (fun q r => alloc_elems wn q r a)) m m'.
Proof.
  intros HL HA F PE.
  pose proof (layout_group _ _ _ _ HL) as WGr.
  assert (IN : forall q, In q (concat ess) <-> owned a (fun q r => alloc_elems wn q r a) q).
  { intros q. rewrite in_concat. split.
    - intros (cs & Hcs & Hq). assert (X : exists me, In me (zseq 0 (Z.to_nat (ga_nproc a))) /\ exists w n, abs_rank a me = Some w /\ alloc_elems wn w me a = Some n /\ cs = run_cells w 0 n).
      { clear - F Hcs. induction F as [|me c ms css H F IH]; [destruct Hcs|]. destruct Hcs as [->|Hcs]; [exists me; split; [now left|exact H]|].
        destruct (IH Hcs) as (me' & A & B). exists me'. split; [now right|exact B]. }
      destruct X as (me & Hme & w & n & EW & EN & ->). apply zseq_In in Hme. apply run_cells_In in Hq as [<- Hq].
      exists me, n. split; [lia|]. split; [exact EW|]. split; [exact EN|lia].
    - intros (r & n & Hr & EW & EN & Hq).
      assert (X : exists cs, In cs ess /\ exists w n, abs_rank a r = Some w /\ alloc_elems wn w r a = Some n /\ cs = run_cells w 0 n).
      { assert (Hin : In r (zseq 0 (Z.to_nat (ga_nproc a)))) by (apply zseq_In; lia). clear - F Hin.
        induction F as [|me c ms css H F IH]; [destruct Hin|]. destruct Hin as [->|Hin]; [exists c; split; [now left|exact H]|].
        destruct (IH Hin) as (c' & A & B). exists c'. split; [now right|exact B]. }
      destruct X as (cs & Hcs & w & n' & EW' & EN' & ->). exists (run_cells w 0 n'). split; [exact Hcs|]. apply run_cells_In.
      rewrite EW in EW'. injection EW' as <-. rewrite EN in EN'. injection EN' as <-. split; [reflexivity|lia]. }
  assert (ND : NoDup (concat ess)).
  { assert (NZ := zseq_NoDup 0 (Z.to_nat (ga_nproc a))). clear - F NZ WGr.
    induction F as [|me c ms css (w & n & EW & EN & ->) F IH]; [constructor|]. apply NoDup_cons_iff in NZ as [Hn NZ].
    cbn [concat]. apply NoDup_app_intro; [apply run_cells_NoDup|auto|].
    intros q Hq Hq'. apply run_cells_In in Hq as [Eq _]. apply in_concat in Hq' as (cs & Hcs & Hq').
    clear IH. induction F as [|me' c' ms css (w' & n' & EW' & EN' & ->) F IH]; [destruct Hcs|].
    destruct Hcs as [<-|Hcs].
    - apply run_cells_In in Hq' as [Eq' _]. apply Hn. left. eapply abs_rank_inj; [exact WGr|exact EW'|congruence].
    - apply NoDup_cons_iff in NZ as [_ NZ]. apply IH; auto. intros X. apply Hn. now right. }
  destruct (upd_run f es m) as (m' & E & P1 & P2).
  - eapply Permutation_NoDup; eauto.
  - intros q Hq. apply HA, IN. eapply Permutation_in; [apply Permutation_sym; exact PE|exact Hq].
  - exists m'. split; [exact E|]. split.
    + intros q Hq. apply P1. eapply Permutation_in; [exact PE|]. apply IN, Hq.
    + intros q Hq. apply P2. intros Hin. apply Hq, IN. eapply Permutation_in; [apply Permutation_sym; exact PE|exact Hin].
Qed.

(** ---- synchronisations ---- *)
Lemma same_syncs callers k : forall t g, g <> [] -> incl g callers -> (forall p, In p g -> t p = repeat g k) ->
  (forall p, In p callers -> ~ In p g -> t p = []) -> syncs_end callers t.
Proof.
  induction k as [|k IH]; intros t g Hne HI HT HO.
  - apply syncs_done. intros p Hp. destruct (in_dec Z.eq_dec p g) as [H|H]; [apply (HT p H)|auto].
  - apply (syncs_step callers g); [exact Hne|intros p Hp; exists (repeat g k); apply (HT p Hp)|].
    assert (EB : forall p, existsb (Z.eqb p) g = true <-> In p g).
    { intros p. rewrite existsb_exists. split; [intros (y & Hy & E); apply Z.eqb_eq in E; subst; exact Hy|intros H; exists p; split; [exact H|apply Z.eqb_refl]]. }
    apply (IH _ g Hne HI).
    + intros p Hp. rewrite (proj2 (EB p) Hp), (HT p Hp). reflexivity.
    + intros p Hp Hn. destruct (existsb (Z.eqb p) g) eqn:E; [apply EB in E; tauto|auto].
Qed.
(** A barrier none of whose participants can pass. *)
Lemma stuck_syncs callers (t : Z -> list (list Z)) p g r : In p callers -> t p = g :: r ->
  (exists q, In q g /\ t q = []) -> ~ syncs_end callers t.
Proof.
  intros Hp ET (q & Hq & EQ) H. revert p g r q Hp ET Hq EQ. induction H as [t HD|g0 t Hne HS H IH]; intros p g r q Hp ET Hq EQ.
  - rewrite (HD p Hp) in ET. discriminate.
  - assert (NP : existsb (Z.eqb p) g0 = false).
    { destruct (existsb (Z.eqb p) g0) eqn:E; [|reflexivity]. apply existsb_exists in E as (y & Hy & E). apply Z.eqb_eq in E. subst y.
      destruct (HS p Hy) as (r' & E'). rewrite ET in E'. injection E' as <- _. destruct (HS q Hq) as (r2 & E2). congruence. }
    assert (NQ : existsb (Z.eqb q) g0 = false).
    { destruct (existsb (Z.eqb q) g0) eqn:E; [|reflexivity]. apply existsb_exists in E as (y & Hy & E). apply Z.eqb_eq in E. subst y.
      destruct (HS q Hy) as (r' & E'). congruence. }
    apply (IH p g r q); auto; rewrite ?NP, ?NQ; auto.
Qed.
(** Two processes of the same group with different numbers of barriers. *)
Lemma unequal_syncs callers (t : Z -> list (list Z)) p q g k l : In q callers -> In p g -> In q g ->
  t p = repeat g k -> t q = repeat g l -> (k < l)%nat -> ~ syncs_end callers t.
Proof.
  intros Hc Hp Hq E1 E2 HK H. revert k l E1 E2 HK. induction H as [t HD|g0 t Hne HS H IH]; intros k l E1 E2 HK.
  - rewrite (HD q Hc) in E2. destruct l; [lia|discriminate].
  - assert (EB : forall p, existsb (Z.eqb p) g0 = true <-> In p g0).
    { intros x. rewrite existsb_exists. split; [intros (y & Hy & E); apply Z.eqb_eq in E; subst; exact Hy|intros X; exists x; split; [exact X|apply Z.eqb_refl]]. }
    destruct (in_dec Z.eq_dec p g0) as [P0|P0].
    + destruct (HS p P0) as (r & E). rewrite E1 in E. destruct k as [|k]; [discriminate|]. injection E as <- _.
      destruct l as [|l]; [lia|].
      apply (IH k l); [rewrite (proj2 (EB p) Hp), E1; reflexivity|rewrite (proj2 (EB q) Hq), E2; reflexivity|lia].
    + assert (Q0 : ~ In q g0).
      { intros Q0. destruct (HS q Q0) as (r & E). rewrite E2 in E. destruct l as [|l]; [discriminate|]. injection E as <- _. auto. }
      assert (B1 : existsb (Z.eqb p) g0 = false) by (destruct (existsb (Z.eqb p) g0) eqn:E; [apply EB in E; tauto|reflexivity]).
      assert (B2 : existsb (Z.eqb q) g0 = false) by (destruct (existsb (Z.eqb q) g0) eqn:E; [apply EB in E; tauto|reflexivity]).
      apply (IH k l); rewrite ?B1, ?B2; auto.
Qed.
