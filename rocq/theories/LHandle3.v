(** Proofs about array handles and memory accounting: limits, memory without
    arrays, properties. *)
From Coq Require Import ZArith List Lia Bool.
From Verif Require Import LRadix.
From Verif Require Export LHandle2.
Import ListNotations.
Open Scope Z_scope.

Lemma limit_sim w max s b m : sim w max s b -> m < 0 \/ b_limit b = Some (b_first b) \/ (b_limit b = None /\ in_use max b = 0) ->
  sim w max (set_memory_limit s m) (set_limit b m).
Proof.
  intros S H. pose proof S as [S1 S2 S3 S4 S5 S6 S7 S8 S9 S10 S11 S12]. unfold set_memory_limit.
  assert (U : in_use max (set_limit b m) = in_use max b) by reflexivity.
  destruct (b_limit b) as [l|] eqn:L.
  - destruct S8 as (A & B & C). rewrite A. destruct (Z.leb_spec 0 m) as [P|P].
    + constructor; cbn [set_total h_max h_tab h_blocks h_next h_raw h_limited h_total h_limit h_groups set_limit b_arr b_raw b_limit b_first b_groups]; auto.
      destruct (Z.ltb_spec m 0); [lia|]. rewrite L. split; [exact A|]. split; [|exact C]. rewrite U.
      destruct H as [H|[H|[H _]]]; [lia| |discriminate]. injection H as ->. rewrite B, C. lia.
    + constructor; cbn [set_total h_max h_tab h_blocks h_next h_raw h_limited h_total h_limit h_groups set_limit b_arr b_raw b_limit b_first b_groups]; auto.
      destruct (Z.ltb_spec m 0); [reflexivity|lia].
  - rewrite S8. constructor; cbn [set_total h_max h_tab h_blocks h_next h_raw h_limited h_total h_limit h_groups set_limit b_arr b_raw b_limit b_first b_groups]; auto.
    rewrite L. destruct (Z.ltb_spec m 0); destruct (Z.leb_spec 0 m); try lia; try reflexivity. split; [reflexivity|]. split; [|reflexivity].
    rewrite U. destruct H as [H'|[H'|[_ H']]]; [lia|discriminate|lia].
Qed.

Lemma raw_own w s k : own_of w s (ORaw k) = Some k <-> In k (map fst (h_raw s)).
Proof.
  cbn [own_of]. destruct (existsb _ _) eqn:E.
  - apply existsb_exists in E as (e & I & Q). apply Z.eqb_eq in Q. split; [|reflexivity]. intros _. subst k. apply in_map. exact I.
  - split; [discriminate|]. intros I. exfalso. apply in_map_iff in I as (e & Q & I). assert (X : existsb (fun e0 => fst e0 =? k) (h_raw s) = true).
    { apply existsb_exists. exists e. split; [exact I|]. apply Z.eqb_eq. exact Q. } congruence.
Qed.
Lemma raw_own_val w s k v : own_of w s (ORaw k) = Some v -> v = k.
Proof. cbn [own_of]. destruct (existsb _ _); congruence. Qed.

Lemma getmem_sim w max s b n o : sim w max s b -> 0 <= n -> granted max b n o = true ->
  exists s' k, getmem s n o = (s', k) /\ ~ In k (map fst (b_raw b)) /\ h_cur s' = h_cur s /\
    sim w max s' (Book (b_arr b) ((k, n) :: b_raw b) (b_limit b) (b_first b) (b_groups b)).
Proof.
  intros S Hn G. pose proof S as [S1 S2 S3 S4 S5 S6 S7 S8 S9 S10 S11 S12]. unfold getmem. rewrite credit_upds.
  set (t := if h_limited s then h_total s + - n else h_total s).
  assert (V : vote (Gas (h_max s) (h_tab s) t (h_limited s) (h_limit s) (h_cur s) (h_blocks s) (h_next s) (h_groups s) (h_raw s)) o = true).
  { unfold vote. cbn [h_limited h_total]. rewrite (vote_granted w max s b n o t S); [exact G|]. unfold t. intros ->. lia. }
  rewrite V. unfold alloc. cbn [h_next h_blocks]. eexists. exists (h_next s). split; [reflexivity|].
  assert (F : ~ In (h_next s) (map fst (b_raw b))).
  { destruct S7 as (R & _). rewrite <- R. rewrite <- (raw_own w). intros Q. apply (ow_in _ _ _ S4) in Q. apply (ow_next _ _ _ S4) in Q. lia. }
  split; [exact F|]. split; [reflexivity|]. constructor; cbn [set_raw set_blocks h_max h_tab h_blocks h_next h_raw h_limited h_total h_limit h_groups b_arr b_raw b_limit b_first b_groups]; auto.
  - apply (own_new (own_of w s)) with (o := ORaw (h_next s)); [| |exact S4].
    + intros [j|j|k] N; left; [reflexivity|reflexivity|]. cbn [own_of set_raw set_blocks h_raw existsb fst].
      destruct (Z.eqb_spec (h_next s) k); [congruence|reflexivity].
    + cbn [own_of set_raw set_blocks h_raw existsb fst]. rewrite Z.eqb_refl. reflexivity.
  - destruct S7 as (R & D & P). split; [congruence|]. split; [constructor; assumption|]. constructor; assumption.
  - assert (U : in_use max (Book (b_arr b) ((h_next s, n) :: b_raw b) (b_limit b) (b_first b) (b_groups b)) = in_use max b + n).
    { unfold in_use, in_arrays. cbn [b_arr b_raw fold_right snd]. lia. }
    rewrite U. destruct (b_limit b); [|exact S8]. destruct S8 as (A & B & C). split; [exact A|]. split; [|exact C]. unfold t. rewrite A, B. lia.
Qed.

Lemma raw_find (l : list (Z * Z)) k n : NoDup (map fst l) -> In (k, n) l -> find (fun e => fst e =? k) l = Some (k, n).
Proof.
  induction l as [|[k' n'] l IH]; [intros _ []|]. cbn [map fst find]. intros D [Q|Q].
  - injection Q as -> ->. rewrite Z.eqb_refl. reflexivity.
  - inversion D as [|? ? D1 D2]; subst. destruct (Z.eqb_spec k' k) as [->|]; [|auto]. exfalso. apply D1. change k with (fst (k, n)). apply in_map. exact Q.
Qed.
Lemma raw_filter_sum (l : list (Z * Z)) k n : NoDup (map fst l) -> In (k, n) l -> raw_sum (filter (fun e => negb (fst e =? k)) l) = raw_sum l - n.
Proof.
  induction l as [|[k' n'] l IH]; [intros _ []|]. cbn [map fst filter]. intros D Q. inversion D as [|? ? D1 D2]; subst.
  destruct (Z.eqb_spec k' k) as [->|N]; cbn [negb].
  - assert (n' = n).
    { destruct Q as [Q|Q]; [congruence|]. exfalso. apply D1. change k with (fst (k, n)). apply in_map. exact Q. }
    subst n'. assert (F : filter (fun e => negb (fst e =? k)) l = l).
    { clear - D1. induction l as [|[k2 n2] l IH]; [reflexivity|]. cbn [filter fst]. destruct (Z.eqb_spec k2 k) as [->|]; cbn [negb].
      - exfalso. apply D1. left. reflexivity.
      - f_equal. apply IH. intros Q. apply D1. right. exact Q. }
    rewrite F. unfold raw_sum. cbn [fold_right snd]. lia.
  - destruct Q as [Q|Q]; [congruence|]. unfold raw_sum in *. cbn [fold_right snd]. rewrite (IH D2 Q). lia.
Qed.
Lemma NoDup_map_filter {A B} (f : A -> B) (p : A -> bool) l : NoDup (map f l) -> NoDup (map f (filter p l)).
Proof.
  induction l as [|a l IH]; cbn [map filter]; intros H; [exact H|]. inversion H as [|? ? H1 H2]; subst. destruct (p a); [|auto].
  cbn [map]. constructor; [|auto]. intros I. apply H1. apply in_map_iff in I as (y & <- & I). apply filter_In in I as [I _]. apply in_map. exact I.
Qed.

Lemma freemem_sim w max s b k n : sim w max s b -> In (k, n) (b_raw b) ->
  exists s', freemem s k = Done s' /\ h_cur s' = h_cur s /\
    sim w max s' (Book (b_arr b) (filter (fun e => negb (fst e =? k)) (b_raw b)) (b_limit b) (b_first b) (b_groups b)).
Proof.
  intros S I. pose proof S as [S1 S2 S3 S4 S5 S6 (R & D & P) S8 S9 S10 S11 S12]. unfold freemem. rewrite R, (raw_find _ _ _ D I).
  assert (O : own_of w s (ORaw k) = Some k) by (apply raw_own; rewrite R; change k with (fst (k, n)); apply in_map; exact I).
  rewrite release_ok by exact (ow_in _ _ _ S4 _ _ O). cbn [set_blocks h_raw]. rewrite credit_upds. eexists. split; [reflexivity|]. split; [reflexivity|].
  constructor; cbn [set_raw set_blocks h_max h_tab h_blocks h_next h_raw h_limited h_total h_limit h_groups b_arr b_raw b_limit b_first b_groups]; auto.
  - eapply own_free with (o := ORaw k); [exact O| | |exact S4].
    + intros [j|j|k']; [left; reflexivity|left; reflexivity|]. cbn [own_of set_raw set_blocks h_raw].
      destruct (existsb (fun e => fst e =? k') (filter _ _)) eqn:Q; [|right; reflexivity]. left. apply existsb_exists in Q as (e & Q1 & Q2).
      apply filter_In in Q1 as [Q1 _]. rewrite R in *. assert (X : existsb (fun e0 => fst e0 =? k') (b_raw b) = true) by (apply existsb_exists; eauto). rewrite X. reflexivity.
    + intros Q. cbn [own_of set_raw set_blocks h_raw] in Q.
      destruct (existsb (fun e => fst e =? k) (filter _ _)) eqn:X; [|discriminate]. apply existsb_exists in X as (e & Q1 & Q2). apply filter_In in Q1 as [_ Q1].
      rewrite Q2 in Q1. discriminate.
  - rewrite R. split; [reflexivity|]. split; [apply NoDup_map_filter; exact D|]. apply Forall_forall. intros e Ie. apply filter_In in Ie as [Ie _].
    rewrite Forall_forall in P. auto.
  - assert (U : in_use max (Book (b_arr b) (filter (fun e => negb (fst e =? k)) (b_raw b)) (b_limit b) (b_first b) (b_groups b)) = in_use max b - n).
    { unfold in_use, in_arrays. cbn [b_arr b_raw]. pose proof (raw_filter_sum _ _ _ D I) as Q. unfold raw_sum in Q. rewrite Q. lia. }
    rewrite U. destruct (b_limit b); [|exact S8]. destruct S8 as (A & B & C). split; [exact A|]. split; [|exact C]. rewrite A, B. lia.
Qed.

Lemma read_cache_sim w max s b g e : sim w max s b -> b_arr b g = Some e -> e_prop e = Plain ->
  exists s', set_read_cache s g = Done s' /\ h_cur s' = h_cur s /\
    sim w max s' (set_entry b g (Some (Entry (e_alloc e) (e_nd e) (e_grp e) (e_desc e) ReadCache))).
Proof.
  intros S E EP. destruct (slot_of _ _ _ _ _ _ S E) as [Hg (H1 & H2 & H3 & H4 & H5 & H6 & H7 & H8)].
  unfold set_read_cache. rewrite (index_ok _ _ _ _ _ S Hg). cbv zeta. rewrite H4, (grp_usable _ _ _ _ _ _ S E), H6, EP. cbn [prop_no NO_PROPERTY Z.eqb negb].
  eexists. split; [reflexivity|]. split; [reflexivity|]. apply sim_plain; [exact S|exact Hg| | | | | |].
  - split; [exact H1|]. cbn. repeat split; auto. discriminate.
  - rewrite E. reflexivity.
  - cbn. intros Q. split; [exact Q|]. unfold aptr. rewrite H4. reflexivity.
  - cbn. intros _ _. left. reflexivity.
  - intros e' [= <-]. cbn. exact (si_grp_live _ _ _ _ S g e E).
  - intros e' [= <-]. cbn. discriminate.
Qed.

Lemma cached_read_sim w max s b g e n : sim w max s b -> b_arr b g = Some e -> e_alloc e = Some n ->
  exists s', cached_read s g = Done s' /\ h_cur s' = h_cur s /\ sim w max s' b.
Proof.
  intros S E A. destruct (slot_of _ _ _ _ _ _ S E) as [Hg (H1 & H2 & H3 & H4 & H5 & H6 & H7 & H8)]. rewrite A in H8. destruct H8 as (H8 & H9 & Hn).
  unfold cached_read. rewrite (index_ok _ _ _ _ _ S Hg). cbv zeta. set (i := g + 1000) in *. set (x := h_tab s i) in *. rewrite H8. cbn [negb].
  destruct (Z.eqb_spec (prop x) READ_CACHE) as [Q|Q]; cbn [negb]; [|exists s; auto].
  destruct (si_cache _ _ _ _ S i H2 Q) as [K|(_ & k & K)]; fold x in K; rewrite K.
  - unfold alloc. eexists. split; [reflexivity|]. split; [reflexivity|].
    apply sim_book with (b := set_entry b g (Some e)); try reflexivity.
    { intros j. cbn [set_entry b_arr]. unfold put. destruct (Z.eqb_spec j g) as [->|]; [exact E|reflexivity]. }
    match goal with |- sim _ _ (set_tab _ _ ?y) _ => change (sim w max (upds s i y (h_total s) (h_cur s) (h_next s :: h_blocks s) (h_next s + 1)) (set_entry b g (Some e))) end.
    apply sim_change; [exact S|exact Hg| | | | | | |].
    + split; [exact H1|]. cbn. rewrite A. repeat split; auto.
    + apply (own_new (own_of w s)) with (o := OCache i); [| |exact (si_own _ _ _ _ S)].
      * intros o N. left. destruct (owner_dec o (OArr i)) as [->|N2]; [|apply own_upds_other; assumption].
        fold i. rewrite own_upds_arr. cbn. fold x. rewrite H8. unfold aptr. fold x. reflexivity.
      * fold i. rewrite own_upds_cache. cbn. fold x. rewrite H2, Q. reflexivity.
    + cbn. intros _. destruct (si_arr _ _ _ _ S i H8) as (k & K'). exists k. exact K'.
    + cbn. intros _ _. right. split; [reflexivity|eauto].
    + intros _. rewrite E. lia.
    + intros e' [= <-]. exact (si_grp_live _ _ _ _ S g e E).
    + intros e' [= <-]. exact (si_ro _ _ _ _ S g e E).
  - assert (O : own_of w s (OCache i) = Some k) by (cbn [own_of]; fold x; rewrite H2, Q, K; reflexivity).
    pose proof (ow_in _ _ _ (si_own _ _ _ _ S) _ _ O) as I. assert (X : existsb (Z.eqb k) (h_blocks s) = true) by (apply existsb_exists; exists k; split; [exact I|apply Z.eqb_refl]).
    rewrite X. exists s. auto.
Qed.

Lemma unset_cache_sim w max s b g e tn n o1 o2 : sim w max s b -> b_arr b g = Some e -> e_prop e <> ReadOnly ->
  exists s', unset_property w s g tn n o1 o2 = Done s' /\ h_cur s' = h_cur s /\ sim w max s' b.
Proof.
  intros S E NR. destruct (slot_of _ _ _ _ _ _ S E) as [Hg (H1 & H2 & H3 & H4 & H5 & H6 & H7 & H8)].
  unfold unset_property. rewrite (index_ok _ _ _ _ _ S Hg). cbv zeta. set (i := g + 1000) in *. set (x := h_tab s i) in *.
  rewrite H6, (prop_ro e NR). destruct (Z.eqb_spec (prop_no (e_prop e)) READ_CACHE) as [Q|Q]; [|exists s; auto].
  destruct (free_cache_ok w max s b i S H2) as (bl & FC & O). pose proof (FC (h_tab s)) as FC1. rewrite <- (gas_eta s) in FC1. fold x in FC1. rewrite FC1.
  eexists. split; [reflexivity|]. split; [reflexivity|].
  apply sim_book with (b := set_entry b g (Some e)); try reflexivity.
  { intros j. cbn [set_entry b_arr]. unfold put. destruct (Z.eqb_spec j g) as [->|]; [exact E|reflexivity]. }
  match goal with |- sim _ _ (set_tab _ _ ?y) _ => change (sim w max (upds s i y (h_total s) (h_cur s) bl (h_next s)) (set_entry b g (Some e))) end.
  apply sim_change; [exact S|exact Hg| | | | | | |].
  - split; [exact H1|]. cbn. repeat split; auto.
  - eapply own_ext; [|exact O]. intros o. unfold set_own. destruct (owner_dec o (OCache i)) as [->|N].
    + left. fold i. rewrite own_upds_cache. cbn. destruct (hnd x && _); reflexivity.
    + left. destruct (owner_dec o (OArr i)) as [->|N2]; [|apply own_upds_other; assumption].
      fold i. rewrite own_upds_arr. cbn. fold x. unfold aptr. fold x. reflexivity.
  - cbn. intros Y. destruct (si_arr _ _ _ _ S i Y) as (k & K'). exists k. exact K'.
  - cbn. intros _ _. left. reflexivity.
  - intros _. rewrite E. lia.
  - intros e' [= <-]. exact (si_grp_live _ _ _ _ S g e E).
  - intros e' [= <-]. exact (si_ro _ _ _ _ S g e E).
Qed.

(** ---- read-only ---- *)
Lemma sim_twice w max s b g o1 o2 : sim w max s (set_entry (set_entry b g o1) g o2) -> sim w max s (set_entry b g o2).
Proof.
  apply sim_book; try reflexivity. intros j. cbn [set_entry b_arr]. unfold put. destruct (j =? g); reflexivity.
Qed.
Lemma granted_change max b g o n n' others : handle_ok max g -> n' = bytes_of o - bytes_of (b_arr b g) + n ->
  granted max (set_entry b g o) n others = granted max b n' others.
Proof.
  intros Hg ->. unfold granted. rewrite in_use_change by exact Hg. cbn [set_entry b_limit]. destruct (b_limit b); [|reflexivity]. f_equal. f_equal. lia.
Qed.

Lemma temporary_sim w max s b nd n o : sim w max s b -> room max b -> 1 <= nd <= 7 -> 0 <= n -> granted max b n o = true ->
  exists s' t, temporary w s (-1) nd n o = Done (s', t) /\ handle_ok max t /\ b_arr b t = None /\ h_cur s' = h_cur s + n /\
    sim w max s' (set_entry b t (Some (Entry (Some n) nd (-1) [] Plain))).
Proof.
  intros S R Hd Hn G. unfold temporary. destruct (create_sim _ _ _ _ S R) as (s1 & t & -> & Ht & Et & C1 & S1).
  destruct (set_data_sim w max s1 _ t nd [] (Entry None (-1) (-2) [] Plain) S1) as (s2 & -> & C2 & S2); [apply put_same|reflexivity|exact Hd|]. apply sim_twice in S2. cbn [e_grp e_prop] in S2.
  destruct (set_pgroup_sim w max s2 _ t (-1) (Entry None nd (-2) [] Plain) S2) as (s3 & -> & C3 & S3); [apply put_same|reflexivity|discriminate|left; reflexivity|]. apply sim_twice in S3. cbn [e_nd e_desc e_prop] in S3.
  destruct (allocate_sim w max s3 _ t n o (Entry None nd (-1) [] Plain) S3) as (s4 & H4 & C4 & S4); [apply put_same|reflexivity|cbn; lia|exact Hn|]. apply sim_twice in S4.
  rewrite (granted_change max b t _ n n o Ht) in H4, C4, S4 by (rewrite Et; cbn; lia). rewrite G in *. rewrite H4. cbn [e_nd e_grp e_desc e_prop Z.eqb] in S4.
  exists s4, t. split; [reflexivity|]. split; [exact Ht|]. split; [exact Et|]. split; [lia|exact S4].
Qed.

(** Slot [g] exchanges its storage. *)
Lemma sim_swap w max s b g e m e' n x k t c : sim w max s b -> b_arr b g = Some e -> e_alloc e = Some m -> e_prop e <> ReadCache ->
  aptr w s (g + 1000) = Blk k -> e_alloc e' = Some n -> slot_ok (Some e') x -> e_prop e' <> ReadCache ->
  ptr x (rank_in w (grp x)) = Blk (h_next s) -> (h_limited s = true -> t = h_total s + m - n) ->
  (-1 <= e_grp e' <= 0 \/ (0 < e_grp e' < max /\ b_groups b (e_grp e') = true)) -> (e_prop e' = ReadOnly -> 0 < e_grp e') ->
  sim w max (upds s (g + 1000) x t c (h_next s :: remove Z.eq_dec k (h_blocks s)) (h_next s + 1)) (set_entry b g (Some e')).
Proof.
  intros S E A NC K A' X NC' Px Ht Hg' Hr. destruct (slot_of _ _ _ _ _ _ S E) as [Hg (H1 & H2 & H3 & H4 & H5 & H6 & H7 & H8)]. rewrite A in H8. destruct H8 as (H8 & H9 & Hn).
  pose proof X as (X1 & X2 & X3 & X4 & X5 & X6 & X7 & X8). rewrite A' in X8. destruct X8 as (X8 & X9 & X10).
  assert (PX : (prop x =? READ_CACHE) = false) by (rewrite X6; destruct (e_prop e'); try reflexivity; now destruct NC').
  apply sim_change; [exact S|exact Hg|exact X| | | | | |].
  - set (own1 := set_own (own_of w s) (OArr (g + 1000)) None).
    assert (O1 : own_ok own1 (remove Z.eq_dec k (h_blocks s)) (h_next s)).
    { eapply own_free with (o := OArr (g + 1000)); [| | |exact (si_own _ _ _ _ S)].
      - cbn [own_of]. rewrite H8, K. reflexivity.
      - intros o. unfold own1, set_own. destruct (owner_dec _ _); auto.
      - unfold own1, set_own. destruct (owner_dec _ _); [discriminate|congruence]. }
    apply (own_new own1) with (o := OArr (g + 1000)); [| |exact O1].
    + intros o N. destruct (owner_dec o (OCache (g + 1000))) as [->|N2].
      * right. rewrite own_upds_cache, X2, PX. reflexivity.
      * left. rewrite own_upds_other by assumption. unfold own1, set_own. destruct (owner_dec _ _); [contradiction|reflexivity].
    + rewrite own_upds_arr, X8, Px. reflexivity.
  - intros _. rewrite Px. eauto.
  - intros _ Q. rewrite Q in PX. discriminate.
  - intros L. rewrite (Ht L), E. cbn [bytes_of]. rewrite A, A'. lia.
  - intros e2 [= <-]. auto.
  - intros e2 [= <-] Q. eauto.
Qed.

Lemma sim_group w max s b p : sim w max s b -> sim w max (set_group s p true) (Book (b_arr b) (b_raw b) (b_limit b) (b_first b) (put (b_groups b) p true)).
Proof.
  intros S. pose proof S as [S1 S2 S3 S4 S5 S6 S7 S8 S9 S10 S11 S12].
  assert (M : forall q, b_groups b q = true -> put (b_groups b) p true q = true) by (intros q Q; unfold put; destruct (q =? p); auto).
  constructor; cbn [set_group h_max h_tab h_blocks h_next h_raw h_limited h_total h_limit h_groups b_arr b_raw b_limit b_first b_groups]; auto.
  - intros q. unfold fset, put. destruct (q =? p); auto.
  - intros g e Q. destruct (S10 g e Q) as [H|[H|[H1 H2]]]; auto.
  - destruct S12 as [H|[H1 H2]]; auto.
Qed.
Lemma sim_ungroup w max s b p : sim w max s b -> 0 < p < max -> b_groups b p = true -> s_dflt w <> p ->
  (forall g e, b_arr b g = Some e -> e_grp e <> p) ->
  pgroup_destroy s p = Done (set_group s p false) /\
  sim w max (set_group s p false) (Book (b_arr b) (b_raw b) (b_limit b) (b_first b) (put (b_groups b) p false)).
Proof.
  intros S Hp L ND H. pose proof S as [S1 S2 S3 S4 S5 S6 S7 S8 S9 S10 S11 S12]. split.
  - unfold pgroup_destroy. rewrite S1, S9, L. destruct (Z.ltb_spec p 0), (Z.leb_spec max p); try lia. cbn [orb negb].
    rewrite attached_false; [reflexivity|]. intros j Hj Q. pose proof (S2 (j - 1000)) as X. replace (j - 1000 + 1000) with j in X by lia.
    destruct X as [_ X]. destruct (b_arr b (j - 1000)) as [e|] eqn:E.
    + destruct X as (_ & _ & X & _). rewrite X. eapply H. exact E.
    + destruct X as [_ X]. congruence.
  - constructor; cbn [set_group h_max h_tab h_blocks h_next h_raw h_limited h_total h_limit h_groups b_arr b_raw b_limit b_first b_groups]; auto.
    + intros q. unfold fset, put. destruct (q =? p); auto.
    + intros g e Q. destruct (S10 g e Q) as [X|[X|[X1 X2]]]; auto. right. right. split; [exact X1|]. rewrite put_other; [exact X2|]. eapply H. exact Q.
    + destruct S12 as [X|[X1 X2]]; auto. right. split; [exact X1|]. rewrite put_other; [exact X2|exact ND].
Qed.

Lemma set_entry_swap b g h o1 o2 j : g <> h -> b_arr (set_entry (set_entry b g o1) h o2) j = b_arr (set_entry (set_entry b h o2) g o1) j.
Proof. intros N. cbn [set_entry b_arr]. unfold put. destruct (Z.eqb_spec j h), (Z.eqb_spec j g); congruence. Qed.

Lemma set_read_only_sim w max s b g p tn n o1 o2 e m : sim w max s b -> room max b -> 0 <= tn -> 0 <= n -> 0 < p < max ->
  b_groups b p = false -> b_arr b g = Some e -> e_alloc e = Some m -> e_prop e = Plain -> e_grp e = -1 -> 1 <= e_nd e <= 7 ->
  granted max b tn o1 = true -> granted max b (tn - m + n) o2 = true ->
  exists s', set_read_only w s g p tn n o1 o2 = Done s' /\ h_cur s' = h_cur s - m + n /\
    sim w max s' (Book (put (b_arr b) g (Some (Entry (Some n) (e_nd e) p (e_desc e) ReadOnly))) (b_raw b) (b_limit b) (b_first b) (put (b_groups b) p true)).
Proof.
  intros S R Htn Hn Hp Fp E A EP EG Hd G1 G2. destruct (slot_of _ _ _ _ _ _ S E) as [Hg (H1 & H2 & H3 & H4 & H5 & H6 & H7 & H8)]. rewrite A in H8. destruct H8 as (H8 & H9 & Hm).
  destruct (si_arr _ _ _ _ S _ H8) as (k & K).
  destruct (temporary_sim w max s b (e_nd e) tn o1 S R Hd Htn G1) as (s1 & t & T & Ht & Et & C1 & S1).
  assert (NT : g <> t) by congruence. assert (E1 : b_arr (set_entry b t (Some (Entry (Some tn) (e_nd e) (-1) [] Plain))) g = Some e) by (cbn [set_entry b_arr]; rewrite put_other by exact NT; exact E).
  set (b1 := set_entry b t (Some (Entry (Some tn) (e_nd e) (-1) [] Plain))) in *.
  unfold set_read_only. rewrite (index_ok _ _ _ _ _ S Hg). cbv zeta. rewrite H4, (grp_usable _ _ _ _ _ _ S E), H6, EP, EG, H3. cbn [prop_no NO_PROPERTY Z.eqb negb]. rewrite T.
  clear H1 H2 H3 H4 H5 H6 H7 H8 H9 K k. destruct (slot_of _ _ _ _ _ _ S1 E1) as [_ (H1 & H2 & H3 & H4 & H5 & H6 & H7 & H8)]. rewrite A in H8. destruct H8 as (H8 & H9 & _).
  destruct (si_arr _ _ _ _ S1 _ H8) as (k & K). set (i := g + 1000) in *. set (x := h_tab s1 i) in *. rewrite H8. cbn [negb].
  assert (Pk : ptr x (s_me w) = Blk k) by (rewrite <- K; unfold aptr; fold x; rewrite H4, EG; reflexivity). rewrite Pk.
  assert (Ik : In k (h_blocks s1)) by (eapply (ow_in _ _ _ (si_own _ _ _ _ S1) (OArr i)); cbn [own_of]; fold x; rewrite H8, K; reflexivity).
  rewrite release_ok by exact Ik. rewrite !credit_upds. cbn [set_group set_blocks set_cur h_max h_tab h_total h_limited h_limit h_cur h_blocks h_next h_groups h_raw].
  set (tot := if h_limited s1 then (if h_limited s1 then h_total s1 + size x else h_total s1) + - n else (if h_limited s1 then h_total s1 + size x else h_total s1)).
  assert (Tot : h_limited s1 = true -> tot = h_total s1 + m - n) by (unfold tot; intros ->; rewrite H9; lia).
  match goal with |- context [vote ?q o2] => assert (V : vote q o2 = true) end.
  { unfold vote. cbn [set_cur h_limited h_total]. rewrite (vote_granted w max s1 b1 (n - m) o2 tot S1) by (intros L; rewrite (Tot L); lia).
    unfold b1. rewrite (granted_change max b t _ (n - m) (tn - m + n) o2 Ht); [exact G2|]. rewrite Et. cbn. lia. }
  rewrite V. cbn [negb].
  set (y := Slot true (hnd x) (ndim x) p n (ptr x) (overlay x) READ_ONLY (chead x) (content x) (grp x)).
  match goal with |- context [get_memory ?q i (rank_in w p) true] => set (q1 := q) end.
  assert (Ty : h_tab q1 i = y) by (unfold q1; cbn; apply fset_same).
  destruct (get_memory_yes q1 i (rank_in w p) y Ty) as (s2 & -> & C2 & Q2).
  pose proof (sim_group w max s1 b1 p S1) as Sg.
  set (e' := Entry (Some n) (e_nd e) p (e_desc e) ReadOnly).
  pose proof (sim_swap w max _ _ g e m e' n (set_ptr y (rank_in w p) (Blk (h_next s1))) k tot 0 Sg) as Sw. cbn [b_arr set_group h_tab h_next h_total h_limited] in Sw.
  assert (S2 : sim w max s2 (set_entry (Book (b_arr b1) (b_raw b1) (b_limit b1) (b_first b1) (put (b_groups b1) p true)) g (Some e'))).
  { eapply sim_eq; [|apply Sw].
    - destruct Q2 as (Q1 & Q2 & Q3 & Q4 & Q5 & Q6 & Q7 & Q8 & Q9). unfold q1 in *. cbn in *. unfold gas_eq. cbn. fold i. repeat split; auto.
      intros j. rewrite Q2. apply fset_twice.
    - exact E1.
    - exact A.
    - congruence.
    - exact K.
    - reflexivity.
    - unfold slot_ok. cbn. rewrite H1, H2, H3, H5, H4, EG. repeat split; auto.
    - discriminate.
    - cbn. apply fset_same.
    - exact Tot.
    - right. cbn. split; [exact Hp|]. apply put_same.
    - intros _. cbn. lia. }
  destruct (destroy_sim w max s2 _ t (Entry (Some tn) (e_nd e) (-1) [] Plain) tn S2) as (s3 & -> & C3 & S3); [|reflexivity|discriminate|].
  { cbn [set_entry b_arr]. rewrite put_other by congruence. apply put_same. }
  exists s3. split; [reflexivity|]. split; [rewrite C3, C2; unfold q1; cbn; rewrite H9; lia|].
  eapply sim_book; [| | | | |exact S3]; try reflexivity. intros j. cbn [set_entry b_arr b1]. unfold b1, set_entry, put. cbn [b_arr].
  destruct (Z.eqb_spec j g), (Z.eqb_spec j t); congruence.
Qed.

Lemma unset_read_only_sim w max s b g tn n o1 o2 e m : sim w max s b -> room max b -> 0 <= tn -> 0 <= n ->
  b_arr b g = Some e -> e_alloc e = Some m -> e_prop e = ReadOnly -> e_grp e <> s_dflt w -> 1 <= e_nd e <= 7 ->
  (forall g' e', g' <> g -> b_arr b g' = Some e' -> e_grp e' <> e_grp e) ->
  granted max b tn o1 = true -> granted max b (tn - m + n) o2 = true ->
  exists s', unset_property w s g tn n o1 o2 = Done s' /\ h_cur s' = h_cur s - m /\
    sim w max s' (Book (put (b_arr b) g (Some (Entry (Some n) (e_nd e) (-1) (e_desc e) Plain))) (b_raw b) (b_limit b) (b_first b) (put (b_groups b) (e_grp e) false)).
Proof.
  intros S R Htn Hn E A EP EG Hd Oth G1 G2. destruct (slot_of _ _ _ _ _ _ S E) as [Hg (H1 & H2 & H3 & H4 & H5 & H6 & H7 & H8)].
  destruct (si_ro _ _ _ _ S g e E EP) as (_ & _ & Pos).
  assert (Hp : 0 < e_grp e < max /\ b_groups b (e_grp e) = true).
  { destruct (si_grp_live _ _ _ _ S g e E) as [[Q _]|[Q|Q]]; [lia|lia|exact Q]. }
  destruct (temporary_sim w max s b (e_nd e) tn o1 S R Hd Htn G1) as (s1 & t & T & Ht & Et & C1 & S1).
  assert (NT : g <> t) by congruence. assert (E1 : b_arr (set_entry b t (Some (Entry (Some tn) (e_nd e) (-1) [] Plain))) g = Some e) by (cbn [set_entry b_arr]; rewrite put_other by exact NT; exact E).
  set (b1 := set_entry b t (Some (Entry (Some tn) (e_nd e) (-1) [] Plain))) in *.
  unfold unset_property. rewrite (index_ok _ _ _ _ _ S Hg). cbv zeta. rewrite H6, EP, H3. cbn [prop_no READ_ONLY Z.eqb Pos.eqb]. rewrite (H7 EP). rewrite T.
  clear H1 H2 H3 H4 H5 H6 H7 H8. destruct (slot_of _ _ _ _ _ _ S1 E1) as [_ (H1 & H2 & H3 & H4 & H5 & H6 & H7 & H8)]. rewrite A in H8. destruct H8 as (H8 & H9 & _).
  destruct (si_arr _ _ _ _ S1 _ H8) as (k & K). set (i := g + 1000) in *. set (x := h_tab s1 i) in *.
  assert (Up : use_group s1 (grp x) = Done tt) by (rewrite H4; eapply grp_usable; [exact S1|exact E1]). rewrite Up.
  unfold aptr in K. fold x in K. rewrite K.
  assert (Ik : In k (h_blocks s1)) by (eapply (ow_in _ _ _ (si_own _ _ _ _ S1) (OArr i)); cbn [own_of]; unfold aptr; fold x; rewrite H8, K; reflexivity).
  rewrite release_ok by exact Ik. rewrite !credit_upds. cbn [set_group set_blocks set_cur h_max h_tab h_total h_limited h_limit h_cur h_blocks h_next h_groups h_raw].
  set (tot := if h_limited s1 then (if h_limited s1 then h_total s1 + size x else h_total s1) + - n else (if h_limited s1 then h_total s1 + size x else h_total s1)).
  assert (Tot : h_limited s1 = true -> tot = h_total s1 + m - n) by (unfold tot; intros ->; rewrite H9; lia).
  match goal with |- context [vote ?q o2] => assert (V : vote q o2 = true) end.
  { unfold vote. cbn [set_cur h_limited h_total]. rewrite (vote_granted w max s1 b1 (n - m) o2 tot S1) by (intros L; rewrite (Tot L); lia).
    unfold b1. rewrite (granted_change max b t _ (n - m) (tn - m + n) o2 Ht); [exact G2|]. rewrite Et. cbn. lia. }
  rewrite V. cbn [negb]. rewrite (H7 EP). change (rank_in w (-1)) with (s_me w).
  set (y := Slot (actv x) (hnd x) (ndim x) (-1) n (ptr x) (overlay x) NO_PROPERTY (chead x) (content x) (-1)).
  match goal with |- context [get_memory ?q i (s_me w) true] => set (q1 := q) end.
  assert (Ty : h_tab q1 i = y) by (unfold q1; cbn; apply fset_same).
  destruct (get_memory_yes q1 i (s_me w) y Ty) as (s2 & -> & C2 & Q2).
  set (e' := Entry (Some n) (e_nd e) (-1) (e_desc e) Plain).
  assert (S2 : sim w max s2 (set_entry b1 g (Some e'))).
  { eapply sim_eq; [|apply (sim_swap w max s1 b1 g e m e' n (set_ptr y (s_me w) (Blk (h_next s1))) k tot 0 S1)].
    - destruct Q2 as (Q1 & Q2 & Q3 & Q4 & Q5 & Q6 & Q7 & Q8 & Q9). unfold q1 in *. cbn in *. unfold gas_eq. cbn. fold i. repeat split; auto.
      intros j. rewrite Q2. apply fset_twice.
    - exact E1.
    - exact A.
    - congruence.
    - exact K.
    - reflexivity.
    - unfold slot_ok. cbn. rewrite H1, H2, H3, H5, H8. repeat split; auto.
    - discriminate.
    - cbn. apply fset_same.
    - exact Tot.
    - left. cbn. lia.
    - discriminate. }
  rewrite H4. destruct (sim_ungroup w max s2 _ (e_grp e) S2) as (-> & S3).
  - apply Hp.
  - apply Hp.
  - congruence.
  - intros g' e2. cbn [set_entry b_arr b1]. destruct (Z.eq_dec g' g) as [->|N]; [rewrite put_same; intros [= <-]; cbn; lia|rewrite put_other by exact N].
    unfold b1, set_entry. cbn [b_arr]. destruct (Z.eq_dec g' t) as [->|N2]; [rewrite put_same; intros [= <-]; cbn; lia|rewrite put_other by exact N2]. apply Oth. exact N.
  - destruct (destroy_sim w max _ _ t (Entry (Some tn) (e_nd e) (-1) [] Plain) tn S3) as (s4 & -> & C4 & S4); [|reflexivity|discriminate|].
    { cbn [set_entry b_arr]. rewrite put_other by congruence. apply put_same. }
    exists s4. split; [reflexivity|]. split; [rewrite C4; cbn [set_group h_cur]; rewrite C2; unfold q1; cbn; rewrite H9; lia|].
    eapply sim_book; [| | | | |exact S4]; try reflexivity. intros j. unfold b1, set_entry, put. cbn [b_arr].
    destruct (Z.eqb_spec j g), (Z.eqb_spec j t); congruence.
Qed.

(** ---- one call, and a run ---- *)
Definition nd_ok (b : book) : Prop := forall g e, b_arr b g = Some e -> (e_nd e = -1 /\ e_alloc e = None) \/ 1 <= e_nd e <= 7.
Lemma nd_put b g e : nd_ok b -> (e_nd e = -1 /\ e_alloc e = None) \/ 1 <= e_nd e <= 7 ->
  forall g' e', put (b_arr b) g (Some e) g' = Some e' -> (e_nd e' = -1 /\ e_alloc e' = None) \/ 1 <= e_nd e' <= 7.
Proof. intros N H g' e'. unfold put. destruct (g' =? g); [intros [= <-]; exact H|apply N]. Qed.
Lemma nd_step max dflt b c a b' : nd_ok b -> allowed max dflt b c -> book_step max dflt b c a b' -> nd_ok b'.
Proof.
  intros N Al S. assert (D : forall g, nd_ok (set_entry b g None)).
  { intros g g' e'. cbn [set_entry b_arr]. unfold put. destruct (g' =? g); [discriminate|apply N]. }
  destruct S; auto; try (refine (nd_put b _ _ N _); cbn).
  - left. auto.
  - right. cbn in Al. destruct Al as (_ & _ & _ & Q). exact Q.
  - destruct (N _ _ H) as [[Q _]|Q]; auto.
  - right. cbn in Al. destruct Al as (e2 & Q1 & _ & Q2 & _). assert (e2 = e) by congruence. subst. destruct (N _ _ H) as [[Q _]|Q]; [contradiction|exact Q].
  - right. destruct (N _ _ H) as [[_ Q]|Q]; [congruence|exact Q].
  - right. destruct (N _ _ H) as [[_ Q]|Q]; [congruence|exact Q].
  - exact (N _ _ H).
  - right. destruct (N _ _ H) as [[_ Q]|Q]; [congruence|exact Q].
  - right. destruct (N _ _ H) as [[_ Q]|Q]; [congruence|exact Q].
Qed.

Lemma allowed_sim w max s b c : sim w max s b -> nd_ok b -> allowed max (s_dflt w) b c ->
  exists s' a b', ga_step w s c = Done (s', a) /\ book_step max (s_dflt w) b c a b' /\ sim w max s' b'.
Proof.
  intros S N Al. destruct c; cbn [allowed] in Al; cbn [ga_step].
  - destruct (create_sim _ _ _ _ S Al) as (s' & h & -> & H1 & H2 & _ & H3). eexists _, _, _. split; [reflexivity|]. split; [|exact H3]. constructor; assumption.
  - destruct Al as (e & E & A & H). destruct (set_data_sim w max s b g nd d e S E A H) as (s' & -> & _ & H3). eexists _, _, _. split; [reflexivity|]. split; [|exact H3]. constructor; assumption.
  - destruct Al as (e & E & A & R & H). destruct (set_pgroup_sim w max s b g p e S E A R H) as (s' & -> & _ & H3). eexists _, _, _. split; [reflexivity|]. split; [|exact H3]. constructor; assumption.
  - destruct Al as (e & E & A & D & H). destruct (allocate_sim w max s b g n others e S E A D H) as (s' & -> & _ & H3). eexists _, _, _. split; [reflexivity|]. split; [|exact H3].
    destruct (granted max b n others) eqn:G; [|eapply S_no_memory; eassumption]. apply S_allocate; assumption.
  - contradiction.
  - destruct Al as (R & e & n & E & A & P). destruct (duplicate_sim w max s b g d others e n S R E A P) as (s' & h & -> & H1 & H2 & _ & H3). eexists _, _, _. split; [reflexivity|]. split; [|exact H3].
    destruct (granted max b n others) eqn:G; [|eapply S_no_duplicate; eassumption]. apply S_duplicate; assumption.
  - destruct Al as (e & n & E & A & P). destruct (destroy_sim w max s b g e n S E A P) as (s' & -> & _ & H3). eexists _, _, _. split; [reflexivity|]. split; [|exact H3]. econstructor; eassumption.
  - destruct Al as (e & n & E & A & P). destruct (deallocate_sim w max s b g e n S E A P) as (s' & -> & _ & H3). eexists _, _, _. split; [reflexivity|]. split; [|exact H3]. econstructor; eassumption.
  - eexists _, _, _. split; [reflexivity|]. split; [constructor|]. apply limit_sim; assumption.
  - destruct Al as (H & G). destruct (getmem_sim w max s b n others S H G) as (s' & k & -> & H1 & _ & H3). eexists _, _, _. split; [reflexivity|]. split; [|exact H3]. constructor; assumption.
  - apply in_map_iff in Al as ([k n] & Q & I). cbn [fst] in Q. subst k. rename b0 into k. destruct (freemem_sim w max s b k n S I) as (s' & -> & _ & H3).
    eexists _, _, _. split; [reflexivity|]. split; [|exact H3]. econstructor; eassumption.
  - destruct Al as (e & E & P). destruct (read_cache_sim w max s b g e S E P) as (s' & -> & _ & H3). eexists _, _, _. split; [reflexivity|]. split; [|exact H3]. constructor; assumption.
  - destruct Al as (e & n & E & P). destruct (cached_read_sim w max s b g e n S E P) as (s' & -> & _ & H3). eexists _, _, _. split; [reflexivity|]. split; [|exact H3]. econstructor; eassumption.
  - destruct Al as (R & Ht & Hn & Hp & _ & F & e & m & E & A & P & G & G1 & G2).
    assert (Hd : 1 <= e_nd e <= 7) by (destruct (N _ _ E) as [[_ Q]|Q]; [congruence|exact Q]).
    destruct (set_read_only_sim w max s b g p tn n others1 others2 e m) as (s' & -> & _ & H3); auto.
    eexists _, _, _. split; [reflexivity|]. split; [|exact H3]. econstructor; eassumption.
  - destruct Al as (e & E & H). destruct (e_prop e) eqn:P.
    + destruct (unset_cache_sim w max s b g e tn n others1 others2 S E) as (s' & -> & _ & H3); [congruence|]. eexists _, _, _. split; [reflexivity|]. split; [|exact H3]. econstructor; [eassumption|congruence].
    + destruct (H eq_refl) as (m & R & Ht & Hn & A & G & O & G1 & G2).
      assert (Hd : 1 <= e_nd e <= 7) by (destruct (N _ _ E) as [[_ Q]|Q]; [congruence|exact Q]).
      destruct (unset_read_only_sim w max s b g tn n others1 others2 e m) as (s' & -> & _ & H3); auto.
      eexists _, _, _. split; [reflexivity|]. split; [|exact H3]. econstructor; eassumption.
    + destruct (unset_cache_sim w max s b g e tn n others1 others2 S E) as (s' & -> & _ & H3); [congruence|]. eexists _, _, _. split; [reflexivity|]. split; [|exact H3]. econstructor; [eassumption|congruence].
Qed.

Lemma book_step_det max dflt b c a b1 b2 : book_step max dflt b c a b1 -> book_step max dflt b c a b2 -> b1 = b2.
Proof.
  intros H1 H2. destruct H1; inversion H2; subst; try reflexivity; try congruence;
    repeat match goal with H : b_arr b ?g = Some ?e, H' : b_arr b ?g = Some ?e' |- _ => assert (e' = e) by congruence; subst e'; clear H' end;
    try congruence.
Qed.
Lemma sim_init w max limit groups : (-1 <= s_dflt w <= 0 \/ (0 < s_dflt w < max /\ groups (s_dflt w) = true)) ->
  sim w max (ga_init max limit groups) (book0 limit groups).
Proof.
  intros D. constructor; cbn [ga_init book0 h_max h_tab h_blocks h_next h_raw h_limited h_total h_limit h_groups b_arr b_raw b_limit b_first b_groups]; auto.
  - intros g. split; [reflexivity|split; reflexivity].
  - congruence.
  - constructor.
    + intros [i|i|k] b; cbn; discriminate.
    + intros [i|i|k] o b; cbn; discriminate.
    + intros b [].
  - cbn. discriminate.
  - cbn. discriminate.
  - split; [reflexivity|]. split; constructor.
  - destruct (Z.ltb_spec limit 0); destruct (Z.leb_spec 0 limit); try lia; try reflexivity. split; [reflexivity|]. split; [|reflexivity].
    assert (Q : forall n g, sum_over (fun _ => 0) g n = 0) by (induction n; intros; cbn [sum_over]; [reflexivity|rewrite IHn; reflexivity]).
    unfold in_use, in_arrays. cbn. rewrite Q. lia.
  - discriminate.
  - discriminate.
Qed.
Lemma run_sim w max cs : forall s b s' l b', sim w max s b -> nd_ok b -> ga_run w s cs = Done (s', l) ->
  book_run max (s_dflt w) b cs l b' -> sim w max s' b' /\ nd_ok b'.
Proof.
  induction cs as [|c cs IH]; intros s b s' l b' S N R B; cbn [ga_run] in R.
  - injection R as <- <-. inversion B; subst. auto.
  - destruct (ga_step w s c) as [[s1 a]| |] eqn:E; try discriminate. destruct (ga_run w s1 cs) as [[s2 l2]| |] eqn:E2; try discriminate.
    injection R as <- <-. inversion B as [|? ? ? b1 ? ? ? Al St Rest]; subst.
    destruct (allowed_sim w max s b c S N Al) as (s3 & a3 & b3 & E3 & St3 & S3). rewrite E in E3. injection E3 as <- <-.
    rewrite (book_step_det _ _ _ _ _ _ _ St3 St) in S3. eapply IH; [exact S3| |exact E2|exact Rest]. eapply nd_step; [exact N|exact Al|exact St].
Qed.
