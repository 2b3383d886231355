(** Proofs about array handles and memory accounting: the calls. *)
From Coq Require Import ZArith List Lia Bool.
From Verif Require Import LRadix.
From Verif Require Export LHandle.
Import ListNotations.
Open Scope Z_scope.

Lemma prop_cache e : prop_no (e_prop e) = READ_CACHE -> e_prop e = ReadCache.
Proof. destruct (e_prop e); cbn; intros H; try discriminate H; reflexivity. Qed.
Lemma prop_ro e : e_prop e <> ReadOnly -> (prop_no (e_prop e) =? READ_ONLY) = false.
Proof. destruct (e_prop e); cbn; intros H; try reflexivity. now destruct H. Qed.

Lemma gas_eq_trans s1 s2 s3 : gas_eq s1 s2 -> gas_eq s2 s3 -> gas_eq s1 s3.
Proof.
  intros (A1 & A2 & A3 & A4 & A5 & A6 & A7 & A8 & A9) (B1 & B2 & B3 & B4 & B5 & B6 & B7 & B8 & B9). unfold gas_eq.
  repeat split; try congruence.
Qed.
(** Destroying an array whose pointer is NULL. *)
Lemma destroy_null w s g i z : index s g = Done i -> h_tab s i = z -> use_group s (grp z) = Done tt -> actv z = true ->
  ptr z (rank_in w (grp z)) = Null -> (prop z =? READ_ONLY) = false -> (prop z = READ_CACHE -> chead z = Null) ->
  exists s2, destroy w s g = Done (s2, true) /\
    gas_eq (set_tab s i (Slot false false (ndim z) (grp z) (size z) (ptr z) (overlay z) (prop z) Null (content z) (oldgrp z))) s2 /\ h_cur s2 = h_cur s.
Proof.
  intros I T Up A Pz PR HC. unfold destroy. rewrite I. cbv zeta. rewrite T, Up, A. cbn [negb]. rewrite Pz, PR.
  unfold free_cache. destruct (Z.eqb_spec (prop z) READ_CACHE) as [Q|Q].
  - rewrite (HC Q). eexists. split; [reflexivity|]. split; [|reflexivity]. unfold gas_eq. cbn. repeat split; auto. intros j. apply fset_twice.
  - eexists. split; [reflexivity|]. split; [|reflexivity]. unfold gas_eq. cbn. repeat split; auto. intros j. apply fset_twice.
Qed.

Lemma get_memory_yes s i me x : h_tab s i = x -> exists s', get_memory s i me true = s' /\ h_cur s' = h_cur s /\
  gas_eq (upds s i (set_ptr x me (Blk (h_next s))) (h_total s) (h_cur s) (h_next s :: h_blocks s) (h_next s + 1)) s'.
Proof.
  intros <-. eexists. split; [reflexivity|]. split; [reflexivity|]. unfold get_memory, alloc, gas_eq. cbn. repeat split; auto.
Qed.

Lemma allocate_sim w max s b g n o e : sim w max s b -> b_arr b g = Some e -> e_alloc e = None -> e_nd e <> -1 -> 0 <= n ->
  exists s', allocate w s g n o = Done (s', granted max b n o) /\
    h_cur s' = h_cur s + (if granted max b n o then n else 0) /\
    sim w max s' (set_entry b g (if granted max b n o
      then Some (Entry (Some n) (e_nd e) (if e_grp e =? -2 then s_dflt w else e_grp e) (e_desc e) (e_prop e)) else None)).
Proof.
  intros S E A ND Hn. destruct (slot_of _ _ _ _ _ _ S E) as [Hg (H1 & H2 & H3 & H4 & H5 & H6 & H7 & H8)]. rewrite A in H8.
  unfold allocate. rewrite (index_ok _ _ _ _ _ S Hg). cbv zeta. set (i := g + 1000) in *. set (x := h_tab s i) in *. rewrite H3.
  destruct (Z.eqb_spec (e_nd e) (-1)) as [|_]; [contradiction|]. rewrite H4. set (p := if e_grp e =? -2 then s_dflt w else e_grp e).
  assert (Hp : -1 <= p <= 0 \/ (0 < p < max /\ b_groups b p = true)).
  { unfold p. destruct (Z.eqb_spec (e_grp e) (-2)); [exact (si_dflt _ _ _ _ S)|]. destruct (si_grp_live _ _ _ _ S g e E) as [[Q _]|Q]; [contradiction|exact Q]. }
  assert (Up : use_group s p = Done tt) by (eapply use_group_ok; [exact S|]; destruct Hp; [left; lia|right; assumption]). rewrite Up.
  assert (NR : e_prop e <> ReadOnly).
  { intros Q. destruct (si_ro _ _ _ _ S g e E Q) as (k & Y & _). congruence. }
  assert (HC : e_prop e = ReadCache -> chead x = Null).
  { intros Q. destruct (si_cache _ _ _ _ S i) as [Z|[Z _]]; [exact H2| |exact Z|].
    - fold x. rewrite H6, Q. reflexivity.
    - fold x in Z. congruence. }
  set (y := Slot true (hnd x) (Some (e_nd e)) p n (ptr x) (overlay x) (prop x) (chead x) (content x) (oldgrp x)).
  set (t := if h_limited s then h_total s + - n else h_total s).
  rewrite credit_upds. cbn [set_tab h_max h_tab h_total h_limited h_limit h_cur h_blocks h_next h_groups h_raw]. fold t.
  change (Gas (h_max s) (fset (h_tab s) i y) t (h_limited s) (h_limit s) (h_cur s) (h_blocks s) (h_next s) (h_groups s) (h_raw s))
    with (upds s i y t (h_cur s) (h_blocks s) (h_next s)).
  assert (V : vote (upds s i y t (h_cur s) (h_blocks s) (h_next s)) o = granted max b n o).
  { unfold vote. cbn [upds h_limited h_total]. apply (vote_granted w); [exact S|]. unfold t. intros ->. lia. }
  rewrite V. assert (Ey : h_tab (upds s i y t (h_cur s) (h_blocks s) (h_next s)) i = y) by (cbn [upds h_tab]; apply fset_same).
  destruct (granted max b n o) eqn:G.
  - destruct (get_memory_yes (upds s i y t (h_cur s) (h_blocks s) (h_next s)) i (rank_in w p) y Ey) as (s2 & -> & C2 & Q2).
    eexists. split; [reflexivity|]. split; [cbn [set_cur h_cur]; rewrite C2; reflexivity|].
    eapply sim_eq with (s := upds s (g + 1000) (set_ptr y (rank_in w p) (Blk (h_next s))) t (h_cur s) (h_next s :: h_blocks s) (h_next s + 1)).
    { destruct Q2 as (Q1 & Q2 & Q3 & Q4 & Q5 & Q6 & Q7 & Q8 & Q9). cbn in *. unfold gas_eq. cbn. fold i. repeat split; auto.
      intros j. rewrite Q2. apply fset_twice. }
    apply sim_grant with (n := n) (p := p); auto.
    + right. eauto.
    + cbn. apply fset_same.
    + unfold t. intros ->. lia.
  - unfold get_memory. rewrite Ey. rewrite credit_upds. cbn [set_tab upds h_max h_tab h_total h_limited h_limit h_cur h_blocks h_next h_groups h_raw].
    set (z := set_ptr y (rank_in w p) Null).
    match goal with |- context [destroy w ?s1 g] => set (s1' := s1) end.
    assert (I : index s1' g = Done i) by (unfold s1'; pose proof (index_ok _ _ _ _ _ S Hg) as H; unfold index in *; exact H).
    assert (T : h_tab s1' i = z) by (unfold s1'; cbn; apply fset_same).
    destruct (destroy_null w s1' g i z I T) as (s2 & -> & Q2 & C2); auto.
    { cbn. apply fset_same. }
    { change (prop z) with (prop x). rewrite H6. apply prop_ro. exact NR. }
    { intros Q. apply HC, prop_cache. rewrite <- H6. exact Q. }
    cbn [fst]. eexists. split; [reflexivity|]. split; [rewrite C2; unfold s1'; cbn; lia|].
    eapply sim_eq; [|eapply sim_drop with (c := h_cur s); [exact S|exact Hg|right; eauto| | |]].
    { eapply gas_eq_trans; [|exact Q2]. unfold gas_eq, s1'. cbn. repeat split; auto; [intros j; rewrite !fset_twice; reflexivity|].
      unfold t. destruct (h_limited s); lia. }
    + exact H1.
    + reflexivity.
    + reflexivity.
Qed.

(** Books that agree at every handle. *)
Lemma sim_book w max s b b' : (forall g, b_arr b' g = b_arr b g) -> b_raw b' = b_raw b -> b_limit b' = b_limit b -> b_first b' = b_first b ->
  (forall p, b_groups b' p = b_groups b p) -> sim w max s b -> sim w max s b'.
Proof.
  intros A R L F G [S1 S2 S3 S4 S5 S6 S7 S8 S9 S10 S11 S12]. constructor; auto.
  - intros g. rewrite A. apply S2.
  - intros g. rewrite A. apply S3.
  - rewrite R. exact S7.
  - rewrite L, F. assert (U : in_use max b' = in_use max b); [|rewrite U; exact S8]. unfold in_use, in_arrays. rewrite R. f_equal.
    apply sum_over_ext. intros j _. rewrite A. reflexivity.
  - intros p. rewrite G. apply S9.
  - intros g e. rewrite A. intros H. rewrite G. eapply S10. exact H.
  - intros g e. rewrite A. apply S11.
  - rewrite G. exact S12.
Qed.
Lemma bytes_pos w max s b g e n : sim w max s b -> b_arr b g = Some e -> e_alloc e = Some n -> 0 <= n.
Proof. intros S E A. destruct (slot_of _ _ _ _ _ _ S E) as [_ H]. destruct H as (_ & _ & _ & _ & _ & _ & _ & H). rewrite A in H. tauto. Qed.

Lemma duplicate_sim w max s b g d o e n : sim w max s b -> room max b -> b_arr b g = Some e -> e_alloc e = Some n -> e_prop e = Plain ->
  exists s' h, duplicate w s g d o = Done (s', (h, granted max b n o)) /\ handle_ok max h /\ b_arr b h = None /\
    h_cur s' = h_cur s + (if granted max b n o then n else 0) /\
    sim w max s' (if granted max b n o then set_entry b h (Some (Entry (Some n) (e_nd e) (e_grp e) d (e_prop e))) else b).
Proof.
  intros S R E A EP. destruct (slot_of _ _ _ _ _ _ S E) as [Hg (H1 & H2 & H3 & H4 & H5 & H6 & H7 & H8)]. rewrite A in H8. destruct H8 as (H8 & H9 & Hn).
  unfold duplicate. rewrite (index_ok _ _ _ _ _ S Hg). cbv zeta. set (y := h_tab s (g + 1000)) in *.
  rewrite H4. assert (Up : use_group s (e_grp e) = Done tt) by (eapply grp_usable; [exact S|exact E]). rewrite Up, H8. cbn [negb].
  pose proof (first_free_sim w max s b S) as F. destruct (first_free _ _ _) as [j|]; [|contradiction]. destruct F as [Hh Fh]. set (h := j - 1000) in *.
  change (j - GA_OFFSET) with h. assert (Ej : j = h + 1000) by (unfold h; lia). rewrite Ej. clearbody h. set (i := h + 1000). clear Ej j.
  assert (Hp : -1 <= e_grp e <= 0 \/ (0 < e_grp e < max /\ b_groups b (e_grp e) = true)).
  { destruct (si_grp_live _ _ _ _ S g e E) as [[_ Q]|Q]; [congruence|exact Q]. }
  rewrite H2, H3, H1, H6, H9. set (p := e_grp e) in *. set (x := h_tab s i).
  set (v := Slot true true (Some (e_nd e)) p n (ptr x) false (prop_no (e_prop e)) (chead y) d (oldgrp y)).
  set (t := if h_limited s then h_total s + - n else h_total s).
  rewrite credit_upds. cbn [set_tab h_max h_tab h_total h_limited h_limit h_cur h_blocks h_next h_groups h_raw]. fold t.
  change (Gas (h_max s) (fset (h_tab s) i v) t (h_limited s) (h_limit s) (h_cur s) (h_blocks s) (h_next s) (h_groups s) (h_raw s))
    with (upds s i v t (h_cur s) (h_blocks s) (h_next s)).
  assert (V : vote (upds s i v t (h_cur s) (h_blocks s) (h_next s)) o = granted max b n o).
  { unfold vote. cbn [upds h_limited h_total]. apply (vote_granted w); [exact S|]. unfold t. intros ->. lia. }
  rewrite V. assert (Ey : h_tab (upds s i v t (h_cur s) (h_blocks s) (h_next s)) i = v) by (cbn [upds h_tab]; apply fset_same).
  destruct (granted max b n o) eqn:G.
  - destruct (get_memory_yes (upds s i v t (h_cur s) (h_blocks s) (h_next s)) i (rank_in w p) v Ey) as (s2 & -> & C2 & Q2).
    eexists. exists h. split; [reflexivity|]. split; [exact Hh|]. split; [exact Fh|]. split; [cbn [set_cur h_cur]; rewrite C2; reflexivity|].
    eapply sim_eq with (s := upds s (h + 1000) (set_ptr v (rank_in w p) (Blk (h_next s))) t (h_cur s) (h_next s :: h_blocks s) (h_next s + 1)).
    { destruct Q2 as (Q1 & Q2 & Q3 & Q4 & Q5 & Q6 & Q7 & Q8 & Q9). cbn in *. unfold gas_eq. cbn. fold i. repeat split; auto.
      intros k. rewrite Q2. apply fset_twice. }
    apply sim_grant with (n := n) (p := p); auto.
    + cbn. apply fset_same.
    + cbn. congruence.
    + cbn. congruence.
    + unfold t. intros ->. lia.
  - unfold get_memory. rewrite Ey. rewrite credit_upds. cbn [set_tab upds h_max h_tab h_total h_limited h_limit h_cur h_blocks h_next h_groups h_raw].
    set (z := set_ptr v (rank_in w p) Null).
    match goal with |- context [destroy w ?s1 h] => set (s1' := s1) end.
    assert (I : index s1' h = Done i) by (unfold s1'; pose proof (index_ok _ _ _ _ _ S Hh) as H; unfold index in *; exact H).
    assert (T : h_tab s1' i = z) by (unfold s1'; cbn; apply fset_same).
    destruct (destroy_null w s1' h i z I T) as (s2 & -> & Q2 & C2); auto.
    { cbn. apply fset_same. }
    { cbn. rewrite EP. reflexivity. }
    { cbn. rewrite EP. discriminate. }
    cbn [fst]. eexists. exists h. split; [reflexivity|]. split; [exact Hh|]. split; [exact Fh|]. split; [rewrite C2; unfold s1'; cbn; lia|].
    apply sim_book with (b := set_entry b h None); try reflexivity.
    { intros k. cbn [set_entry b_arr]. unfold put. destruct (Z.eqb_spec k h) as [->|]; [exact Fh|reflexivity]. }
    eapply sim_eq; [|eapply sim_drop with (c := h_cur s); [exact S|exact Hh|left; exact Fh| | |]].
    { eapply gas_eq_trans; [|exact Q2]. unfold gas_eq, s1'. cbn. repeat split; auto; [intros k; rewrite !fset_twice; reflexivity|].
      unfold t. destruct (h_limited s); lia. }
    + reflexivity.
    + reflexivity.
    + reflexivity.
Qed.

(** Releasing the cached reads of slot [i]. *)
Lemma free_cache_ok w max s b i : sim w max s b -> (hnd (h_tab s i) = true) ->
  exists bl, (forall tab, free_cache (Gas (h_max s) tab (h_total s) (h_limited s) (h_limit s) (h_cur s) (h_blocks s) (h_next s) (h_groups s) (h_raw s)) (h_tab s i)
     = Done (Gas (h_max s) tab (h_total s) (h_limited s) (h_limit s) (h_cur s) bl (h_next s) (h_groups s) (h_raw s))) /\
    own_ok (set_own (own_of w s) (OCache i) None) bl (h_next s).
Proof.
  intros S Hh. pose proof (si_own _ _ _ _ S) as O. unfold free_cache. destruct (Z.eqb_spec (prop (h_tab s i)) READ_CACHE) as [Q|Q].
  - destruct (si_cache _ _ _ _ S i Hh Q) as [N|(_ & k & K)].
    + rewrite N. exists (h_blocks s). split; [reflexivity|]. eapply own_ext; [|exact O]. intros o. unfold set_own. destruct (owner_dec o (OCache i)); auto.
    + rewrite K. assert (OK : own_of w s (OCache i) = Some k) by (cbn [own_of]; rewrite Hh, Q, K; reflexivity).
      exists (remove Z.eq_dec k (h_blocks s)). split.
      * intros tab. rewrite release_ok; [reflexivity|]. exact (ow_in _ _ _ O _ _ OK).
      * eapply own_free; [exact OK| | |exact O].
        -- intros o. unfold set_own. destruct (owner_dec o (OCache i)); auto.
        -- unfold set_own. destruct (owner_dec _ _); [discriminate|congruence].
  - exists (h_blocks s). split; [reflexivity|]. eapply own_ext; [|exact O]. intros o. unfold set_own. destruct (owner_dec o (OCache i)); auto.
Qed.

(** Slot [g] gives up its storage. *)
Lemma sim_release w max s b g o e n x k bl c : sim w max s b -> b_arr b g = Some e -> e_alloc e = Some n ->
  aptr w s (g + 1000) = Blk k -> own_ok (set_own (own_of w s) (OCache (g + 1000)) None) bl (h_next s) ->
  slot_ok o x -> actv x = false -> (prop x = READ_CACHE -> chead x = Null) -> bytes_of o = 0 ->
  (forall e', o = Some e' -> (e_grp e' = -2 /\ e_alloc e' = None) \/ -1 <= e_grp e' <= 0 \/ (0 < e_grp e' < max /\ b_groups b (e_grp e') = true)) ->
  (forall e', o = Some e' -> e_prop e' <> ReadOnly) ->
  sim w max (upds s (g + 1000) x (if h_limited s then h_total s + n else h_total s) c (remove Z.eq_dec k bl) (h_next s)) (set_entry b g o).
Proof.
  intros S E A K O X1 X2 X3 X4 X5 X6. destruct (slot_of _ _ _ _ _ _ S E) as [Hg (H1 & H2 & H3 & H4 & H5 & H6 & H7 & H8)]. rewrite A in H8. destruct H8 as (H8 & H9 & Hn).
  apply sim_change; [exact S|exact Hg|exact X1| | | | |exact X5|].
  - eapply own_free with (o := OArr (g + 1000)); [| | |exact O].
    + unfold set_own. destruct (owner_dec _ _); [discriminate|]. cbn [own_of]. rewrite H8, K. reflexivity.
    + intros o'. unfold set_own. destruct (owner_dec o' (OCache (g + 1000))) as [->|N].
      * left. rewrite own_upds_cache. destruct (hnd x); [|reflexivity]. destruct (Z.eqb_spec (prop x) READ_CACHE) as [Q|Q]; [|reflexivity]. rewrite (X3 Q). reflexivity.
      * destruct (owner_dec o' (OArr (g + 1000))) as [->|N2]; [right; rewrite own_upds_arr, X2; reflexivity|left; apply own_upds_other; assumption].
    + rewrite own_upds_arr, X2. discriminate.
  - congruence.
  - intros _ Q. left. auto.
  - intros ->. rewrite E. cbn [bytes_of]. rewrite A, X4. lia.
  - intros e' Q1 Q2. exfalso. exact (X6 e' Q1 Q2).
Qed.

Lemma own_sub own own' bl nx o b : (forall o', own' o' = own o' \/ own' o' = None) -> own o = Some b -> own' o = Some b -> own_ok own' bl nx -> In b bl.
Proof. intros _ _ E [A _ _]. eauto. Qed.

Lemma destroy_sim w max s b g e n : sim w max s b -> b_arr b g = Some e -> e_alloc e = Some n -> e_prop e <> ReadOnly ->
  exists s', destroy w s g = Done (s', true) /\ h_cur s' = h_cur s - n /\ sim w max s' (set_entry b g None).
Proof.
  intros S E A NR. destruct (slot_of _ _ _ _ _ _ S E) as [Hg (H1 & H2 & H3 & H4 & H5 & H6 & H7 & H8)]. rewrite A in H8. destruct H8 as (H8 & H9 & Hn).
  destruct (si_arr _ _ _ _ S _ H8) as (k & K). destruct (free_cache_ok w max s b _ S H2) as (bl & FC & O).
  assert (Ik : In k bl).
  { eapply (ow_in _ _ _ O (OArr (g + 1000))). unfold set_own. destruct (owner_dec _ _); [discriminate|]. cbn [own_of]. rewrite H8, K. reflexivity. }
  unfold destroy. rewrite (index_ok _ _ _ _ _ S Hg). cbv zeta. set (i := g + 1000) in *. set (x := h_tab s i) in *.
  assert (Up : use_group s (grp x) = Done tt) by (rewrite H4; eapply grp_usable; [exact S|exact E]). rewrite Up, H8. cbn [negb].
  unfold set_tab. rewrite FC. rewrite H6, (prop_ro e NR). unfold aptr in K. fold x in K. rewrite K, H1.
  match goal with |- context [use_group ?q (grp x)] => change (use_group q (grp x)) with (use_group s (grp x)) end. rewrite Up.
  rewrite release_ok by exact Ik. rewrite credit_upds. eexists. split; [reflexivity|].
  split; [cbn; rewrite H9; lia|].
  eapply sim_eq; [|eapply (sim_release w max s b g None e n (Slot false false (ndim x) (grp x) (size x) (ptr x) false (prop_no (e_prop e)) Null (content x) (oldgrp x)) k bl 0 S E A)].
  - unfold gas_eq. cbn. rewrite H9. repeat split; auto. intros j. rewrite fset_twice. reflexivity.
  - exact K.
  - exact O.
  - split; [reflexivity|split; reflexivity].
  - reflexivity.
  - reflexivity.
  - reflexivity.
  - discriminate.
  - discriminate.
Qed.

Lemma deallocate_sim w max s b g e n : sim w max s b -> b_arr b g = Some e -> e_alloc e = Some n -> e_prop e <> ReadOnly ->
  exists s', deallocate w s g = Done (s', true) /\ h_cur s' = h_cur s - n /\
    sim w max s' (set_entry b g (Some (Entry None (e_nd e) (e_grp e) (e_desc e) (e_prop e)))).
Proof.
  intros S E A NR. destruct (slot_of _ _ _ _ _ _ S E) as [Hg (H1 & H2 & H3 & H4 & H5 & H6 & H7 & H8)]. rewrite A in H8. destruct H8 as (H8 & H9 & Hn).
  destruct (si_arr _ _ _ _ S _ H8) as (k & K). destruct (free_cache_ok w max s b _ S H2) as (bl & FC & O).
  assert (Ik : In k bl).
  { eapply (ow_in _ _ _ O (OArr (g + 1000))). unfold set_own. destruct (owner_dec _ _); [discriminate|]. cbn [own_of]. rewrite H8, K. reflexivity. }
  unfold deallocate. rewrite (index_ok _ _ _ _ _ S Hg). cbv zeta. set (i := g + 1000) in *. set (x := h_tab s i) in *.
  assert (Up : use_group s (grp x) = Done tt) by (rewrite H4; eapply grp_usable; [exact S|exact E]). rewrite Up, H8. cbn [negb].
  pose proof (FC (h_tab s)) as FC1. rewrite <- (gas_eta s) in FC1. fold x in FC1. rewrite FC1. unfold aptr in K. fold x in K. rewrite K, H1.
  match goal with |- context [use_group ?q (grp x)] => change (use_group q (grp x)) with (use_group s (grp x)) end. rewrite Up.
  rewrite release_ok by exact Ik. rewrite credit_upds. eexists. split; [reflexivity|].
  split; [cbn; rewrite H9; lia|].
  eapply sim_eq; [|eapply (sim_release w max s b g (Some (Entry None (e_nd e) (e_grp e) (e_desc e) (e_prop e))) e n (Slot false (hnd x) (ndim x) (grp x) (size x) (ptr x) false (prop x) Null (content x) (oldgrp x)) k bl 0 S E A)].
  - unfold gas_eq. cbn. rewrite H9. repeat split; auto.
  - exact K.
  - exact O.
  - split; [reflexivity|]. cbn. repeat split; auto.
  - reflexivity.
  - reflexivity.
  - reflexivity.
  - intros e' [= <-]. cbn. destruct (si_grp_live _ _ _ _ S g e E) as [[_ Q]|Q]; [congruence|auto].
  - intros e' [= <-]. cbn. exact NR.
Qed.
