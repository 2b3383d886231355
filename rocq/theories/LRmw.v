(** Proofs about read-and-increment. *)
From Verif Require Export LXfer LXfer2 LAccess MRmw SpecElem.

Lemma block_offset_of_lin sub lo ld f : length sub = length lo -> length lo = S (length ld) ->
  block_offset_of sub lo ld f = Some (f * lin ld (vsub sub lo)).
Proof.
  revert lo ld f. induction sub as [|s sub IH]; intros [|l lo] ld f H1 H2; cbn [length] in *; try discriminate.
  destruct sub as [|s' sub].
  - destruct lo; [|discriminate]. cbn. f_equal. ring.
  - destruct lo as [|l' lo]; [discriminate|]. destruct ld as [|d ld]; [discriminate|].
    change (block_offset_of (s :: s' :: sub) (l :: l' :: lo) (d :: ld) f) with
      (do r <- block_offset_of (s' :: sub) (l' :: lo) ld (f * d); Some ((s - l) * f + r)).
    rewrite IH by (cbn [length] in *; lia). cbn [vsub]. rewrite lin_cons. f_equal. ring.
Qed.

Lemma elem_layout_access a nn placed k :
  elem_layout a nn placed -> distr_type (ga_desc a) <> REGULAR -> 0 <= k < zprod (num_blocks (ga_desc a)) ->
  block_access placed nn a k.
Proof.
  intros [(W & _) | (HG & [(T & W & -> & HN & ->)|(WG & [(T & W & ->)|[(T & W & ->)|(T & W & H2 & ->)]])])] HT Hk.
  - destruct W as ((T & _) & _). congruence.
  - apply access_bc; auto.
  - apply access_irreg; auto.
  - apply access_scalapack; auto.
  - apply access_tiled; auto.
Qed.

Lemma elem_layout_blocked a nn placed : elem_layout a nn placed -> distr_type (ga_desc a) <> REGULAR ->
  wf_blocked (ga_desc a) \/ wf_tiled_irreg (ga_desc a).
Proof.
  intros [(W & _) | (HG & [(T & W & -> & HN & ->)|(WG & [(T & W & ->)|[(T & W & ->)|(T & W & H2 & ->)]])])] HT; auto.
  - destruct W as ((T & _) & _). congruence.
  - right. apply W.
Qed.

Lemma elem_layout_placed a nn placed : elem_layout a nn placed ->
  (forall x, in_array (dims (ga_desc a)) x -> exists q, placed x q) /\
  (forall x q q', placed x q -> placed x q' -> q = q') /\ (forall x y q, placed x q -> placed y q -> x = y).
Proof.
  intros [(W & ->) | (HG & [(T & W & -> & HN & ->)|(WG & [(T & W & ->)|[(T & W & ->)|(T & W & H2 & ->)]])])].
  - destruct (regular_storage a 0 W) as (H0 & H1 & H2 & _). auto.
  - destruct (bc_storage a T W HG HN) as (H0 & H1 & H2 & _). auto.
  - destruct (tiled_storage a 0 (or_intror T) (or_intror W) WG HG) as (H0 & H1 & H2 & _). auto.
  - destruct (scalapack_storage a 0 T W WG HG) as (H0 & H1 & H2 & _). auto.
  - destruct (tiled_storage a 0 (or_introl T) (or_introl W) WG HG) as (H0 & H1 & H3 & _). auto.
Qed.

Lemma read_inc_addr_spec guess nn a placed x :
  good_guess guess -> elem_layout a nn placed -> in_array (dims (ga_desc a)) x ->
  exists q, read_inc_addr guess nn a x = Some (q, fst q) /\ placed x q.
Proof.
  intros HG HL Hx. unfold read_inc_addr.
  destruct (distr_type (ga_desc a)) eqn:ET.
  { destruct HL as [(W & ->)|(_ & [(T & _)|(_ & [(T & _)|[(T & _)|(T & _)]])])]; try congruence.
    pose proof W as (WR & _). destruct (locate_in guess _ _ _ HG WR Hx) as (p & lo & hi & E1 & Hp & E2 & Hb).
    rewrite E1. destruct (reg_location a p lo hi x W Hp E2 Hb) as (rank & q & ld & H1 & H2 & H3 & H4).
    rewrite H1, H3, H2. cbn [fst]. exists (q, lin (padded lo hi (ga_width a)) (vadd (vsub x lo) (ga_width a))).
    split; [reflexivity|].
    exists p, lo, hi. cbn [fst snd]. auto. }
  all: assert (HT : distr_type (ga_desc a) <> REGULAR) by congruence.
  all: pose proof (elem_layout_blocked a nn placed HL HT) as WB.
  all: destruct (blocked_unique_block guess _ _ HG WB Hx) as (k & Hk & E1 & (lo & hi & E2 & Hb) & _).
  all: rewrite E1, E2.
  all: destruct (elem_layout_access a nn placed k HL HT Hk) as (lo' & hi' & p & off & ld & D & E & H & LL & P).
  all: rewrite E2 in D; injection D as <- <-.
  all: rewrite E; cbn [fst snd].
  all: destruct (in_box_len _ _ _ Hb) as [B1 B2].
  all: rewrite block_offset_of_lin by lia.
  all: assert (HGr : ga_group a = None) by
    (destruct HL as [((T & _) & _)|(? & _)]; [destruct T; congruence|assumption]).
  all: unfold block_home in H; rewrite ET in H.
  - assert (nn = ga_nproc a) as -> by (destruct HL as [((T & _) & _)|(_ & [(_ & _ & ? & _)|(_ & [(? & _)|[(? & _)|(? & _)]])])]; try congruence; destruct T; congruence).
    rewrite H. unfold abs_rank. rewrite HGr. exists (p, off + 1 * lin ld (vsub x lo)). split; [reflexivity|]. rewrite Z.mul_1_l. auto.
  - destruct (find_indices (num_blocks (ga_desc a)) k); [|discriminate]. rewrite H.
    unfold abs_rank. rewrite HGr. exists (p, off + 1 * lin ld (vsub x lo)). split; [reflexivity|]. rewrite Z.mul_1_l. auto.
  - destruct (find_indices (num_blocks (ga_desc a)) k); [|discriminate]. rewrite H.
    unfold abs_rank. rewrite HGr. exists (p, off + 1 * lin ld (vsub x lo)). split; [reflexivity|]. rewrite Z.mul_1_l. auto.
  - destruct (find_indices (num_blocks (ga_desc a)) k); [|discriminate]. rewrite H.
    unfold abs_rank. rewrite HGr. exists (p, off + 1 * lin ld (vsub x lo)). split; [reflexivity|]. rewrite Z.mul_1_l. auto.
Qed.

Lemma wrap32_id x : - 2 ^ 31 <= x < 2 ^ 31 -> wrap32 x = x.
Proof. intros H. unfold wrap32. rewrite Z.mod_small; lia. Qed.

Lemma fits_true bits x : - 2 ^ (bits - 1) <= x < 2 ^ (bits - 1) -> fits bits x = true.
Proof. intros H. unfold fits. apply andb_true_iff. split; [apply Z.leb_le|apply Z.ltb_lt]; lia. Qed.

Lemma read_inc_spec guess nn bits a placed m x q v inc :
  good_guess guess -> elem_layout a nn placed -> in_array (dims (ga_desc a)) x -> placed x q -> hget m q = Some v ->
  - 2 ^ 31 <= inc < 2 ^ 31 -> - 2 ^ (bits - 1) <= v + inc < 2 ^ (bits - 1) ->
  exists m', read_inc guess nn bits a m x inc = Some (v, m') /\ hget m' q = Some (v + inc) /\
    forall q', q' <> q -> hget m' q' = hget m q'.
Proof.
  intros HG HL Hx HP HV HI HF. unfold read_inc.
  destruct (read_inc_addr_spec guess nn a placed x HG HL Hx) as (q' & E & HP').
  destruct (elem_layout_placed a nn placed HL) as (_ & HU & _). assert (q' = q) by (eapply HU; eauto). subst q'.
  rewrite E. cbn [fst snd]. unfold rmw. rewrite Z.eqb_refl, HV, wrap32_id by lia.
  rewrite fits_true by lia. eexists. split; [reflexivity|]. split; [apply hget_hset_same|].
  intros q' Hne. apply hget_hset_other. congruence.
Qed.

(** Sums of increments before every call. *)
Fixpoint results (v : list Z -> Z) (calls : list (list Z * Z)) : list Z :=
  match calls with
  | [] => []
  | c :: calls' =>
      v (fst c) :: results (fun x => if list_eq_dec Z.eq_dec (fst c) x then v x + snd c else v x) calls'
  end.

Lemma read_incs_spec guess nn bits a placed calls : forall m v,
  good_guess guess -> elem_layout a nn placed ->
  (forall x q, placed x q -> hget m q = Some (v x)) ->
  (forall c, In c calls -> in_array (dims (ga_desc a)) (fst c) /\ - 2 ^ 31 <= snd c < 2 ^ 31) ->
  (forall pre post x, calls = pre ++ post -> in_array (dims (ga_desc a)) x ->
     - 2 ^ (bits - 1) <= v x + increments x pre < 2 ^ (bits - 1)) ->
  exists m', read_incs guess nn bits a m calls = Some (results v calls, m') /\
    (forall x q, placed x q -> hget m' q = Some (v x + increments x calls)) /\
    (forall q, (forall c, In c calls -> ~ placed (fst c) q) -> hget m' q = hget m q).
Proof.
  induction calls as [|c calls IH]; intros m v HG HL HM HC HB.
  - exists m. split; [reflexivity|]. split; [|auto]. intros x q Hq. cbn. rewrite Z.add_0_r. auto.
  - destruct (HC c (or_introl eq_refl)) as [C1 C2]. destruct (elem_layout_placed a nn placed HL) as (HE & HU & HI).
    destruct (HE _ C1) as (q & Hq).
    destruct (read_inc_spec guess nn bits a placed m (fst c) q (v (fst c)) (snd c)) as (m1 & E1 & V1 & F1); auto.
    { specialize (HB [c] calls (fst c) eq_refl C1). cbn [increments] in HB.
      destruct (list_eq_dec Z.eq_dec (fst c) (fst c)); [lia|congruence]. }
    set (v' := fun x => if list_eq_dec Z.eq_dec (fst c) x then v x + snd c else v x).
    assert (K : forall x, v' x = v x + (if list_eq_dec Z.eq_dec (fst c) x then snd c else 0)).
    { intros x. unfold v'. destruct (list_eq_dec Z.eq_dec (fst c) x); lia. }
    destruct (IH m1 v') as (m2 & E2 & V2 & F2); auto.
    { intros x q' Hx. unfold v'. destruct (list_eq_dec Z.eq_dec (fst c) x) as [<-|Hne].
      - assert (q' = q) by (eapply HU; eauto). subst. exact V1.
      - rewrite F1; auto. intros ->. apply Hne. eapply HI; eauto. }
    { intros c' Hc'. apply HC. now right. }
    { intros pre post x E Hx. rewrite K. specialize (HB (c :: pre) post x). cbn [increments] in HB.
      rewrite E in HB. specialize (HB eq_refl Hx). lia. }
    cbn [read_incs results]. rewrite E1. cbn [fst snd]. fold v'. rewrite E2. cbn [fst snd].
    exists m2. split; [reflexivity|]. split.
    + intros x q' Hx. rewrite (V2 x q' Hx), K. cbn [increments]. f_equal. lia.
    + intros q' Hn. rewrite F2 by (intros; apply Hn; now right). apply F1. intros ->. apply (Hn c (or_introl eq_refl)). exact Hq.
Qed.

Lemma results_nth calls : forall v i c, nth_error calls i = Some c ->
  nth_error (results v calls) i = Some (v (fst c) + increments (fst c) (firstn i calls)).
Proof.
  induction calls as [|c0 calls IH]; intros v [|i] c E; cbn [nth_error] in E; try discriminate.
  - injection E as ->. cbn. f_equal. lia.
  - cbn [results nth_error firstn increments]. rewrite (IH _ i c E). f_equal.
    destruct (list_eq_dec Z.eq_dec (fst c0) (fst c)); lia.
Qed.
Lemma results_length calls : forall v, length (results v calls) = length calls.
Proof. induction calls as [|c calls IH]; intros v; cbn; auto. Qed.

Lemma results_ticket x n : forall v, results v (repeat (x, 1) n) = zseq (v x) n.
Proof.
  induction n as [|n IH]; intros v; [reflexivity|]. cbn [repeat results fst snd zseq]. rewrite IH.
  destruct (list_eq_dec Z.eq_dec x x); [reflexivity|congruence].
Qed.
