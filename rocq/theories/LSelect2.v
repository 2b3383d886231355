(** Where the selection finds the elements (C70). *)
From Verif Require Import MNb MHandle MGroup.
From Verif Require Export LSelect LStore.

Lemma packed_init ext : packed ext (init_ld ext).
Proof. induction ext as [|e [|e' ext] IH]; cbn [packed init_ld]; auto. Qed.

(** Leading dimensions that address like the extents are the extents. *)
Lemma lin_zero ld n : lin ld (repeat 0 n) = 0.
Proof.
  revert ld. induction n as [|n IH]; intros ld; [reflexivity|]. destruct n as [|n]; [reflexivity|].
  destruct ld as [|l ld]; [reflexivity|]. change (0 + l * lin ld (repeat 0 (S n)) = 0). rewrite IH. lia.
Qed.
Lemma lin_ext_packed ext ld : Forall (fun n => 1 <= n) ext ->
  (forall k, length k = length ext -> lin ld k = lin ext k) -> packed ext ld.
Proof.
  revert ld. induction ext as [|e ext IH]; intros ld HP HL; [exact I|]. apply Forall_cons_iff in HP as [He HP].
  destruct ext as [|e' ext]; [exact I|].
  assert (H1 : lin ld (0 :: 1 :: repeat 0 (length ext)) = e).
  { rewrite HL by (cbn; rewrite repeat_length; reflexivity). cbn [lin]. destruct ext; [cbn; lia|].
    cbn [length repeat]. pose proof (lin_zero (z :: ext) (S (length ext))) as Z0. cbn [repeat] in Z0. rewrite Z0. lia. }
  destruct ld as [|l ld]; [cbn [lin] in H1; lia|].
  assert (El : l = e).
  { rewrite <- H1. cbn [lin]. destruct ext; [cbn; lia|]. cbn [length repeat]. destruct ld; [lia|].
    pose proof (lin_zero ld (S (length ext))) as Z0. cbn [repeat] in Z0. rewrite Z0. lia. }
  split; [exact El|]. apply IH; [exact HP|]. intros k Hk.
  assert (X : lin (l :: ld) (0 :: k) = lin (e :: e' :: ext) (0 :: k)) by (apply HL; cbn in *; lia).
  destruct k as [|a k]; [discriminate|].
  change (0 + l * lin ld (a :: k) = 0 + e * lin (e' :: ext) (a :: k)) in X. rewrite El in X.
  apply Z.mul_reg_l with e; lia.
Qed.

(** The pointer to a whole block: its leading dimensions. *)
Lemma access_ptr_ld guess near a lo hi p w off ld :
  good_guess guess -> wf_array a -> 0 <= p < ga_nproc a ->
  distribution (ga_desc a) p = Some (lo, hi) -> Forall2 Z.le lo hi ->
  abs_rank a p = Some w -> near w = true ->
  access_ptr guess near a lo hi = Some (w, off, ld) ->
  forall k, length k = length lo -> lin ld k = lin (padded lo hi (ga_width a)) k.
Proof.
  intros HG WA Hp ED Hle EA HN. pose proof (lo_in_box _ _ Hle) as Hlo.
  assert (Hhi : in_box lo hi hi) by (clear - Hle; induction Hle; cbn; auto; split; [lia|auto]).
  unfold access_ptr.
  rewrite (corner_owner_in guess near a lo p lo hi w) by auto.
  rewrite (corner_owner_in guess near a hi p lo hi w) by auto.
  rewrite (proj2 (le_all_true lo hi (Forall2_len _ _ _ Hle)) Hle).
  pose proof WA as (WR & HW & HW0 & HGr & HE). rewrite (grp_rank_abs a p w HGr EA).
  destruct (reg_location a p lo hi lo WA Hp ED Hlo) as (rank & q & ld' & E1 & E2 & E3 & E4).
  assert (ER : (if 0 <? num_rstrctd (ga_desc a) then zget (rank_rstrctd (ga_desc a)) p else Some p) = Some rank).
  { assert (0 <= num_rstrctd (ga_desc a)) by (unfold num_rstrctd; lia).
    destruct (Z.eqb_spec (num_rstrctd (ga_desc a)) 0), (Z.ltb_spec 0 (num_rstrctd (ga_desc a))); try lia; exact E1. }
  rewrite ER, E3. intros [= _ _ <-]. exact E4.
Qed.

Lemma padded_zero lo hi w : length w = length lo -> Forall (fun x => x = 0) w -> padded lo hi w = extents lo hi.
Proof.
  revert hi w. induction lo as [|l lo IH]; intros [|h hi] [|x w] HL HF; cbn in HL; try lia; try reflexivity.
  apply Forall_cons_iff in HF as [-> HF]. cbn [padded extents]. rewrite IH by (auto; lia). f_equal. lia.
Qed.

Lemma regular_packed guess near wn a me w ps fuel :
  good_guess guess -> wf_array a -> Forall (fun x => x = 0) (ga_width a) ->
  0 <= me < ga_nproc a -> abs_rank a me = Some w -> near w = true -> (2 <= fuel)%nat ->
  local_iterate fuel guess near wn a me = Some ps ->
  (length ps <= 1)%nat /\ forall q, In q ps -> packed (extents (lp_lo q) (lp_hi q)) (lp_ld q).
Proof.
  intros HG WA HZ Hme EW HN Hf. pose proof WA as (WR & HWl & _ & HGr & _). pose proof WR as (HT & _).
  destruct (regular_blocks_inside _ _ _ WR Hme) as (lo & hi & ED & HI).
  pose proof (dist_len _ _ _ _ HT ED) as HL.
  destruct fuel as [|[|f]]; try lia. unfold local_iterate, loc_init. rewrite HT. cbn [loc_drain].
  unfold loc_next at 1. rewrite HT, ED. cbn [fst snd Z.ltb Z.compare].
  destruct (le_all lo hi) eqn:LE; [|intros [= <-]; split; [cbn; lia|intros q []]].
  pose proof (proj1 (le_all_true lo hi HL) LE) as Hle. pose proof (lo_in_box _ _ Hle) as Hlo.
  destruct (access_ptr_spec guess near a lo hi me lo hi w HG WA Hme ED Hlo) as (off & ld & EA & HP); auto.
  { clear - Hle. induction Hle; cbn; auto. split; [lia|auto]. }
  rewrite EA. unfold loc_next. rewrite HT. intros [= <-]. split; [cbn; lia|].
  intros q [<-|[]]. cbn [lpiece_of lp_lo lp_hi lp_ld fst snd].
  destruct (extents_pos _ _ Hle) as [EP EL]. apply lin_ext_packed; [exact EP|]. intros k Hk.
  pose proof (in_array_length _ _ (HI _ Hlo)) as LA.
  rewrite (access_ptr_ld guess near a lo hi me w off ld) by (auto; lia).
  rewrite padded_zero; auto. lia.
Qed.

(** ---- simple block-cyclic ---- *)
Lemma bc_ld wn a k p off ld : distr_type (ga_desc a) = BLOCK_CYCLIC -> wf_blocked (ga_desc a) ->
  0 <= k < zprod (num_blocks (ga_desc a)) ->
  access_block_ptr wn a k = Some (p, off, ld) -> ld = init_ld (extents (fst (bx (ga_desc a) k)) (snd (bx (ga_desc a) k))).
Proof.
  intros HT W Hk. unfold access_block_ptr. destruct (_ || _); [discriminate|]. rewrite HT.
  rewrite (bx_owns _ k (or_introl W) Hk).
  destruct (cmod k wn); [|discriminate]. destruct (strided _ _ _ _); [|discriminate].
  destruct (owned_size _ _); [|discriminate]. destruct (ptr_owner _ _); [|discriminate]. intros [= _ _ <-]. reflexivity.
Qed.

Lemma bc_two a me : distr_type (ga_desc a) = BLOCK_CYCLIC -> 0 <= me < ga_nproc a ->
  ga_nproc a <= zprod (num_blocks (ga_desc a)) <= 2 * ga_nproc a -> (1 <= length (column a me) <= 2)%nat.
Proof.
  intros HT Hme HB.
  assert (HH : forall j, 0 <= j -> block_home (ga_nproc a) (ga_desc a) j = Some (j mod ga_nproc a)) by (intros; apply bc_home_mod; auto; lia).
  assert (HI : In me (column a me)) by (apply column_In; split; [lia|]; rewrite HH, Z.mod_small by lia; reflexivity).
  split; [destruct (column a me); [contradiction|cbn; lia]|].
  change 2%nat with (length [me; me + ga_nproc a]). apply NoDup_incl_length; [apply NoDup_filter, zseq_NoDup|].
  intros k Hk. apply column_In in Hk as [Kr Kh]. rewrite HH in Kh by lia. injection Kh as Kh.
  pose proof (Z.div_mod k (ga_nproc a) ltac:(lia)) as DM. rewrite Kh in DM.
  assert (0 <= k / ga_nproc a < 2) by (split; [apply Z.div_pos; lia|apply Z.div_lt_upper_bound; lia]).
  assert (k / ga_nproc a = 0 \/ k / ga_nproc a = 1) as [Q|Q] by lia; rewrite Q in DM; [left|right; left]; lia.
Qed.
