(** Lemmas: symmetrising an array. *)
From Verif Require Import LRadix LDist LStrided LStrided2 LIterReg LIterReg3 LIterSca LStore LXfer LXfer2 LLoc LAccess LSelect LSelect2 LOdo LGcopy2 LGcopy5 LCpatch.
From Verif Require Export LDiag LPw2 MSym.
Open Scope Z_scope.

(** ---- the last two components ---- *)
Lemma split2 {A} (l : list A) : (2 <= length l)%nat -> exists h x y, l = h ++ [x; y].
Proof.
  intros H. destruct (@exists_last _ l) as (l1 & y & ->); [intros ->; cbn in H; lia|]. rewrite app_length in H. cbn in H.
  destruct (@exists_last _ l1) as (h & x & ->); [intros ->; cbn in H; lia|]. exists h, x, y. now rewrite <- app_assoc.
Qed.
Lemma mirror_app h : forall x y, mirror (h ++ [x; y]) = h ++ [y; x].
Proof.
  induction h as [|a h IH]; intros x y; [reflexivity|]. cbn [app]. destruct h as [|b [|c h]]; [reflexivity..|].
  change (mirror (a :: (b :: c :: h) ++ [x; y])) with (a :: mirror ((b :: c :: h) ++ [x; y])). now rewrite IH.
Qed.
Lemma mirror_short x : (length x < 2)%nat -> mirror x = x.
Proof. destruct x as [|a [|b x]]; cbn; intros; try lia; reflexivity. Qed.
Lemma mirror_length x : length (mirror x) = length x.
Proof.
  destruct (le_lt_dec 2 (length x)) as [H|H]; [|now rewrite mirror_short]. destruct (split2 x H) as (h & a & b & ->).
  rewrite mirror_app, !app_length. reflexivity.
Qed.
Lemma mirror_mirror x : mirror (mirror x) = x.
Proof.
  destruct (le_lt_dec 2 (length x)) as [H|H]; [|rewrite (mirror_short x H); now apply mirror_short]. destruct (split2 x H) as (h & a & b & ->). now rewrite !mirror_app.
Qed.
Lemma sym_box_mirror l : (2 <= length l)%nat -> sym_box l = mirror l.
Proof.
  intros H. destruct (split2 l H) as (h & a & b & ->). rewrite mirror_app. unfold sym_box. rewrite app_length. cbn [length].
  replace (length h + 2 - 2)%nat with (length h) by lia. replace (length h + 2 - 1)%nat with (S (length h)) by lia.
  rewrite firstn_app, firstn_all, Nat.sub_diag, firstn_O, app_nil_r. rewrite !app_nth2 by lia.
  replace (S (length h) - length h)%nat with 1%nat by lia. now rewrite Nat.sub_diag.
Qed.
Lemma extents_app lh : forall hh a b c d, length lh = length hh ->
  extents (lh ++ [a; b]) (hh ++ [c; d]) = extents lh hh ++ [c - a + 1; d - b + 1].
Proof. induction lh as [|l lh IH]; intros [|h hh] a b c d L; try discriminate; [reflexivity|]. cbn. f_equal. apply IH. now injection L. Qed.
Lemma split_pair (lo hi : list Z) : (2 <= length lo)%nat -> length hi = length lo ->
  exists lh hh a b c d, lo = lh ++ [a; b] /\ hi = hh ++ [c; d] /\ length lh = length hh.
Proof.
  intros H L. destruct (split2 lo H) as (lh & a & b & ->). destruct (split2 hi) as (hh & c & d & ->); [lia|].
  rewrite !app_length in L. cbn in L. exists lh, hh, a, b, c, d. repeat split. lia.
Qed.
Lemma extents_mirror lo hi : length hi = length lo -> extents (mirror lo) (mirror hi) = mirror (extents lo hi).
Proof.
  intros L. destruct (le_lt_dec 2 (length lo)) as [H|H].
  - destruct (split_pair lo hi H L) as (lh & hh & a & b & c & d & -> & -> & E). now rewrite !mirror_app, !extents_app, mirror_app.
  - destruct lo as [|a [|? ?]], hi as [|b [|? ?]]; try discriminate; cbn in H; try lia; reflexivity.
Qed.
Lemma Forall_mirror (P : Z -> Prop) l : Forall P l -> Forall P (mirror l).
Proof.
  intros F. destruct (le_lt_dec 2 (length l)) as [H|H]; [|now rewrite mirror_short]. destruct (split2 l H) as (h & a & b & ->).
  rewrite mirror_app. apply Forall_app in F as [F1 F2]. apply Forall_app. split; [exact F1|].
  inversion F2 as [|? ? A F3]; subst. inversion F3; subst. auto.
Qed.

Lemma Forall2_mirror (P : Z -> Z -> Prop) l l' : Forall2 P l l' -> Forall2 P (mirror l) (mirror l').
Proof.
  induction 1 as [|x y l l' A F IH]; [constructor|]. inversion F as [|x1 y1 l1 l1' B F1]; subst; [constructor; auto|].
  inversion F1; subst; [repeat constructor; auto|]. change (mirror (x :: x1 :: x0 :: l)) with (x :: mirror (x1 :: x0 :: l)).
  change (mirror (y :: y1 :: y0 :: l')) with (y :: mirror (y1 :: y0 :: l')). constructor; [exact A|exact IH].
Qed.
Lemma box_app lh : forall hh xh a b c d x y, length lh = length hh -> length lh = length xh ->
  in_box (lh ++ [a; b]) (hh ++ [c; d]) (xh ++ [x; y]) <-> in_box lh hh xh /\ a <= x <= c /\ b <= y <= d.
Proof.
  induction lh as [|l lh IH]; intros [|h hh] [|z xh] a b c d x y L1 L2; try discriminate; cbn [app in_box]; [tauto|].
  rewrite IH by (cbn in *; lia). tauto.
Qed.
Lemma range_app ns : forall ks a b x y, length ns = length ks ->
  in_range0 (ns ++ [a; b]) (ks ++ [x; y]) <-> in_range0 ns ks /\ 0 <= x < a /\ 0 <= y < b.
Proof.
  induction ns as [|n ns IH]; intros [|k ks] a b x y L; try discriminate; cbn [app in_range0]; [tauto|].
  rewrite IH by (cbn in *; lia). tauto.
Qed.
Lemma encode_app2 ns : forall ks a b x y, length ns = length ks ->
  encode (ns ++ [a; b]) (ks ++ [x; y]) = encode ns ks + zprod ns * (x + a * y).
Proof.
  induction ns as [|n ns IH]; intros [|k ks] a b x y L; try discriminate; cbn [app encode zprod fold_right]; [ring|].
  rewrite IH by (cbn in *; lia). unfold zprod. cbn [fold_right]. ring.
Qed.
Lemma zprod_app2 ns a b : zprod (ns ++ [a; b]) = zprod ns * (a * b).
Proof. unfold zprod. induction ns as [|n ns IH]; cbn [app fold_right]; [ring|]. rewrite IH. ring. Qed.
Lemma zprod_mirror l : zprod (mirror l) = zprod l.
Proof.
  destruct (le_lt_dec 2 (length l)) as [H|H]; [|now rewrite mirror_short]. destruct (split2 l H) as (h & a & b & ->).
  rewrite mirror_app, !zprod_app2. ring.
Qed.
Lemma vsub_mirror x y : length x = length y -> vsub (mirror x) (mirror y) = mirror (vsub x y).
Proof.
  revert y. induction x as [|a x IH]; intros [|b y] L; try discriminate; [reflexivity|].
  destruct x as [|a1 [|a2 x]], y as [|b1 [|b2 y]]; try discriminate; [reflexivity..|].
  change (mirror (a :: a1 :: a2 :: x)) with (a :: mirror (a1 :: a2 :: x)). change (mirror (b :: b1 :: b2 :: y)) with (b :: mirror (b1 :: b2 :: y)).
  cbn [vsub]. rewrite IH by (cbn in *; lia). reflexivity.
Qed.
Lemma box_mirror lo hi x : in_box lo hi x -> in_box (mirror lo) (mirror hi) (mirror x).
Proof.
  intros Hx. destruct (in_box_len _ _ _ Hx) as [L1 L2]. destruct (le_lt_dec 2 (length lo)) as [H|H]; [|rewrite !mirror_short by lia; exact Hx].
  destruct (split_pair lo hi H) as (lh & hh & a & b & c & d & -> & -> & E); [lia|]. destruct (split2 x) as (xh & u & v & ->); [lia|].
  rewrite !app_length in *. cbn [length] in *. rewrite !mirror_app. apply box_app in Hx; try lia. apply box_app; try lia. tauto.
Qed.

(** ---- the loop ---- *)
Section Loop.
Variables (P nr nc : Z).
Hypotheses (HP : 1 <= P) (Hr : 1 <= nr) (Hc : 1 <= nc).
Definition sym_a (j i : Z) : Z := j + P * (i / nc) + P * nr * (i mod nc).
Definition sym_b (j i : Z) : Z := j + P * i.

Lemma sym_inner_map j n : forall i m ia, 0 <= j < P -> 0 <= i -> i + Z.of_nat n <= nr * nc ->
  (ia < P * nr * nc /\ ia = sym_a j i /\ m = i / nc) \/ (P * nr * nc <= ia /\ i mod nc = 0 /\ m + 1 = i / nc) ->
  sym_inner n j m (P * nr) P (P * nr * nc) ia (sym_b j i) = map (fun i => (sym_a j i, sym_b j i)) (zseq i n).
Proof.
  induction n as [|n IH]; intros i m ia Hj Hi HN HS; [reflexivity|]. cbn [sym_inner zseq map].
  assert (HQ : (if P * nr * nc <=? ia then m + 1 else m) = i / nc).
  { destruct HS as [(A & _ & B)|(A & _ & B)]; destruct (Z.leb_spec (P * nr * nc) ia); lia. }
  rewrite HQ. set (ja := if P * nr * nc <=? ia then j + i / nc * P else ia).
  assert (EA : ja = sym_a j i).
  { unfold ja, sym_a. destruct HS as [(A & B & _)|(A & B & _)]; destruct (Z.leb_spec (P * nr * nc) ia); [lia|exact B|rewrite B; lia|lia]. }
  fold ja. rewrite EA. f_equal. replace (sym_b j i + P) with (sym_b j (i + 1)) by (unfold sym_b; ring). apply IH; try lia.
  assert (HM : 0 <= i mod nc < nc) by (apply Z.mod_pos_bound; lia). pose proof (Z.div_mod i nc ltac:(lia)) as DM.
  assert (HD : 0 <= i / nc < nr).
  { split; [apply Z.div_pos; lia|]. apply Z.div_lt_upper_bound; lia. }
  set (q := i / nc) in *. set (r := i mod nc) in *.
  destruct (Z.lt_ge_cases (r + 1) nc) as [L|L].
  - left. assert (E1 : (i + 1) / nc = q) by (symmetry; apply Z.div_unique with (r + 1); lia).
    assert (E2 : (i + 1) mod nc = r + 1) by (symmetry; apply Z.mod_unique with q; lia).
    unfold sym_a. rewrite E1, E2. fold q r. assert (P * q + j + 1 <= P * nr) by nia. assert (P * nr * (r + 2) <= P * nr * nc) by (apply Z.mul_le_mono_nonneg_l; nia).
    split; [nia|]. split; [ring|reflexivity].
  - right. assert (r = nc - 1) by lia. assert (E1 : (i + 1) / nc = q + 1) by (symmetry; apply Z.div_unique with 0; nia).
    assert (E2 : (i + 1) mod nc = 0) by (symmetry; apply Z.mod_unique with (q + 1); nia).
    unfold sym_a. fold q r. rewrite E1, E2. assert (P * nr * r + P * nr = P * nr * nc) by (replace nc with (r + 1) by lia; ring).
    assert (0 <= P * q) by (apply Z.mul_nonneg_nonneg; lia). split; [lia|]. split; [reflexivity|lia].
Qed.

Lemma flat_in_ext {A B} (f g : A -> list B) l : (forall a, In a l -> f a = g a) -> flat_map f l = flat_map g l.
Proof. induction l as [|a l IH]; intros H; [reflexivity|]. cbn. rewrite (H a (or_introl eq_refl)), IH; [reflexivity|]. intros; apply H; now right. Qed.
Lemma flat_NoDup {A B C} (f : A -> B -> C) (l : list A) (l' : list B) : NoDup l -> NoDup l' ->
  (forall a a' b b', In a l -> In a' l -> In b l' -> In b' l' -> f a b = f a' b' -> a = a' /\ b = b') ->
  NoDup (flat_map (fun a => map (f a) l') l).
Proof.
  intros N N' HI. induction l as [|a l IH]; [constructor|]. apply NoDup_cons_iff in N as [Hn N]. cbn [flat_map]. apply NoDup_app_intro.
  - apply NoDup_map_inj; [|exact N']. intros b b' Hb Hb' E. eapply HI in E; cbn; auto. tauto.
  - apply IH; [exact N|]. intros; eapply HI; cbn; eauto.
  - intros c H1 H2. apply in_map_iff in H1 as (b & <- & Hb). apply in_flat_map in H2 as (a' & Ha' & H2).
    apply in_map_iff in H2 as (b' & E & Hb'). apply HI in E as [-> _]; cbn; auto.
Qed.
End Loop.

Lemma sym_loop_perm lo hi : (2 <= length lo)%nat -> Forall2 Z.le lo hi ->
  Permutation (map (fun k => (encode (extents lo hi) k, encode (mirror (extents lo hi)) (mirror k))) (indices (extents lo hi)))
              (sym_loop lo hi (zprod (extents lo hi))).
Proof.
  intros H2 HLE. pose proof (Forall2_len _ _ _ HLE) as HL. destruct (LXfer2.extents_pos _ _ HLE) as [EL EP].
  unfold sym_loop. rewrite <- EL. assert (H2' : (2 <= length (extents lo hi))%nat) by lia.
  set (ext := extents lo hi) in *. clearbody ext. clear lo hi H2 HLE HL EL.
  destruct (split2 ext H2') as (he & nr & nc & ->). apply Forall_app in EP as [EP1 EP2].
  inversion EP2 as [|? ? Hr EP3]; subst. inversion EP3 as [|? ? Hc _]; subst. clear EP2 EP3.
  rewrite app_length. cbn [length].
  replace (length he + 2 - 2)%nat with (length he) by lia. replace (length he + 2 - 1)%nat with (S (length he)) by lia.
  rewrite firstn_app, firstn_all, Nat.sub_diag, firstn_O, app_nil_r. rewrite !app_nth2 by lia.
  replace (S (length he) - length he)%nat with 1%nat by lia. rewrite Nat.sub_diag. cbn [nth].
  pose proof (zprod_pos he EP1) as HP. rewrite zprod_app2. set (P := zprod he) in *. rewrite (Z.mul_assoc P nr nc).

  assert (EF : flat_map (fun j => sym_inner (Z.to_nat (nr * nc)) j 0 (P * nr) P (P * nr * nc) j j) (counts P) =
               flat_map (fun j => map (fun i => (sym_a P nr nc j i, sym_b P j i)) (counts (nr * nc))) (counts P)).
  { apply flat_in_ext. intros j Hj. apply counts_In in Hj. rewrite <- zseq_counts.
    replace j with (sym_b P j 0) at 3 by (unfold sym_b; ring). apply sym_inner_map; try lia.
    left. unfold sym_a. rewrite Zdiv_0_l, Zmod_0_l. assert (1 <= nr * nc) by (clear - Hr Hc; nia). assert (P * 1 <= P * (nr * nc)) by (apply Z.mul_le_mono_nonneg_l; lia). split; [lia|]. split; [ring|reflexivity]. }
  rewrite EF. clear EF.
  assert (DM : forall i, 0 <= i < nr * nc -> 0 <= i mod nc < nc /\ 0 <= i / nc < nr /\ i = nc * (i / nc) + i mod nc).
  { intros i Hi. split; [apply Z.mod_pos_bound; lia|]. split; [|apply Z.div_mod; lia]. split; [apply Z.div_pos; lia|apply Z.div_lt_upper_bound; lia]. }
  assert (PU : forall j j' i i', 0 <= j < P -> 0 <= j' < P -> j + P * i = j' + P * i' -> j = j' /\ i = i').
  { intros j j' i i' Hj Hj' E. assert (i = (j + P * i) / P) by (apply Z.div_unique with j; lia). assert (i' = (j' + P * i') / P) by (apply Z.div_unique with j'; lia).
    assert (i = i') by congruence. subst i'. lia. }
  apply NoDup_Permutation.
  - apply NoDup_map_inj; [|apply indices_NoDup]. intros k k' Hk Hk' E. apply indices_In in Hk, Hk'. injection E as E _. eapply encode_inj; eauto.
  - apply flat_NoDup; try apply counts_NoDup. intros j j' i i' Hj Hj' _ _ E. apply counts_In in Hj, Hj'. injection E as _ E. unfold sym_b in E. auto.
  - intros [u v]. rewrite in_map_iff, in_flat_map. split.
    + intros (k & E & Hk). apply indices_In in Hk. pose proof (in_range0_length _ _ Hk) as LK. rewrite app_length in LK. cbn [length] in LK.
      destruct (split2 k) as (kh & x & y & ->); [lia|]. rewrite app_length in LK. cbn [length] in LK. apply range_app in Hk; [|lia].
      destruct Hk as (K1 & K2 & K3). rewrite !mirror_app, !encode_app2 in E by lia. fold P in E. pose proof (encode_range _ _ K1) as R. fold P in R.
      exists (encode he kh). split; [apply counts_In; exact R|]. apply in_map_iff. exists (y + nc * x). split.
      * assert (D1 : (y + nc * x) / nc = x) by (symmetry; apply Z.div_unique with y; lia).
        assert (D2 : (y + nc * x) mod nc = y) by (symmetry; apply Z.mod_unique with x; lia).
        unfold sym_a, sym_b. rewrite D1, D2. rewrite <- E. f_equal; ring.
      * apply counts_In. nia.
    + intros (j & Hj & H). apply counts_In in Hj. apply in_map_iff in H as (i & E & Hi). apply counts_In in Hi.
      destruct (DM i Hi) as (D1 & D2 & D3). exists (decode he j ++ [i / nc; i mod nc]). pose proof (decode_length he j) as LD. split.
      * rewrite !mirror_app, !encode_app2 by lia. rewrite encode_decode by auto. fold P. rewrite <- E. unfold sym_a, sym_b. f_equal; [ring|].
        rewrite D3 at 3. ring.
      * apply indices_In, range_app; [lia|]. split; [apply decode_range; auto|auto].
Qed.

(** ---- the buffer ---- *)
Lemma box_vec_at (pv : list Z -> place -> Prop) lo hi ld ts y : length hi = length lo -> valid_ld lo hi ld ->
  region_transfers pv lo hi ld ts -> in_box lo hi y -> exists p, vec_at ts (lin ld (vsub y lo)) = Some p /\ pv y p.
Proof.
  intros HL HV RT Hy. unfold vec_at. destruct (find _ ts) as [t|] eqn:EF.
  - apply find_some in EF as [Hin Ek]. apply Z.eqb_eq in Ek. destruct (region_In pv lo hi ld (eq_sym HL) ts t RT Hin) as (y' & B & P & E).
    exists (fst t). split; [reflexivity|]. rewrite (lin_ld_inj lo hi ld y y' HV Hy B); [exact P|]. lia.
  - exfalso. destruct RT as (l & -> & PT & H).
    assert (Hin : In y (map snd l)).
    { eapply Permutation_in; [apply Permutation_sym; exact PT|]. apply box_list_In; [congruence|exact Hy]. }
    apply in_map_iff in Hin as ((t & y') & Ey & Hin). cbn [snd] in Ey. subst y'. destruct (H _ _ Hin) as [_ Q2].
    pose proof (find_none _ _ EF t (in_map fst _ _ Hin)) as N. cbv beta in N. rewrite Q2, Z.eqb_refl in N. discriminate.
Qed.

Lemma marked_indices {E} (Q : list Z -> E -> Prop) lo hi h : Forall2 Z.le lo hi ->
  (forall x, in_box lo hi x -> Q x (h (vsub x lo))) ->
  marked Q (in_box lo hi) (map h (indices (extents lo hi))).
Proof.
  intros HLE HQ. pose proof (Forall2_len _ _ _ HLE) as HL.
  assert (IN : forall k, In k (indices (extents lo hi)) -> in_range0 (extents lo hi) k /\ length k = length lo).
  { intros k Hk. apply indices_In in Hk. split; [exact Hk|]. apply in_range0_length in Hk. destruct (LXfer2.extents_pos _ _ HLE). lia. }
  exists (map (fun k => (h k, vadd k lo)) (indices (extents lo hi))). rewrite !map_map. cbn [fst snd].
  split; [reflexivity|]. split.
  { apply NoDup_map_inj; [|apply indices_NoDup]. intros k k' Hk Hk' Eq. destruct (IN k Hk), (IN k' Hk').
    rewrite <- (vsub_vadd lo k), <- (vsub_vadd lo k'), Eq by lia. reflexivity. }
  split.
  - intros x. rewrite in_map_iff. split.
    + intros (k & <- & Hk). apply vadd_in_box; [exact HLE|apply IN, Hk].
    + intros Hx. destruct (vsub_in_range _ _ _ Hx) as [A B]. exists (vsub x lo). split; [exact B|apply indices_In, A].
  - intros e x Hin. apply in_map_iff in Hin as (k & Eq & Hk). injection Eq as <- <-. destruct (IN k Hk).
    rewrite <- (vsub_vadd lo k) at 2 by lia. apply HQ, vadd_in_box; auto.
Qed.

Definition pair_at (pa : list Z -> place -> Prop) (x : list Z) (e : place * place) : Prop := pa x (fst e) /\ pa (mirror x) (snd e).

Lemma marked_symmetrized {V} (pa : list Z -> place -> Prop) ds (f : V -> V -> V) m es :
  (forall x q q', pa x q -> pa x q' -> q = q') -> (forall x y q, pa x q -> pa y q -> x = y) ->
  allocated pa m -> marked (pair_at pa) (in_array ds) es ->
  exists m', run_elems (use_elem f m) m es = Some m' /\ symmetrized ds f pa m m'.
Proof.
  intros FA IA HA HM.
  assert (ND : NoDup (map fst es)).
  { apply (marked_NoDup pa (in_array ds)); [exact IA|]. eapply marked_map; [|exact HM]. intros x e _ [X _]. exact X. }
  destruct HM as (l & -> & N & I & J).
  destruct (use_run f m (map fst l) m ND) as (m' & E & P1 & P2).
  { intros e He. apply in_map_iff in He as ((e' & x) & <- & Hin). destruct (J _ _ Hin) as [A B]. split; [eapply HA, B|eapply HA, A]. }
  exists m'. split; [exact E|]. split.
  - intros x qa qv Hx Ha Hv. apply I in Hx. apply in_map_iff in Hx as ((e & x') & <- & Hin). cbn [snd] in *.
    destruct (J _ _ Hin) as [A B]. rewrite (FA _ _ _ Ha A), (FA _ _ _ Hv B). apply P1. apply (in_map fst _ _ Hin).
  - intros q Hq. apply P2. intros Hin. rewrite map_map in Hin. apply in_map_iff in Hin as ((e & x) & <- & Hin). cbn [fst] in *.
    apply (Hq x); [apply I, (in_map snd _ _ Hin)|apply (J _ _ Hin)].
Qed.

(** ---- one process ---- *)
Lemma map_entry_pos d n m i : valid_map d n m -> (i < Z.to_nat n)%nat -> 1 <= nth i m 0.
Proof.
  intros (_ & _ & _ & H0 & HM & _). induction i as [|i IH]; intros Hi; [lia|]. specialize (HM i). rewrite Nat.add_1_r in HM.
  specialize (HM Hi). specialize (IH ltac:(lia)). lia.
Qed.
Lemma dist_pos a p lo hi : wf_array a -> distribution (ga_desc a) p = Some (lo, hi) -> forallb (fun h => 0 <? h) hi = true -> 0 < hd 0 lo.
Proof.
  intros ((HT & Hne & VM & _) & _) ED HF. unfold distribution, owns, owns_no_handle in ED. rewrite HT in ED.
  assert (X : forall k, map (fun _ => -1) (dims (ga_desc a)) = k -> forallb (fun h => 0 <? h) k = true -> False).
  { intros k <- F. destruct (dims (ga_desc a)); [congruence|discriminate]. }
  revert ED. match goal with |- match ?e with _ => _ end = _ -> _ => destruct e as [k|]; [|discriminate] end.
  assert (Y : forall k, 0 <= k -> owns_dims (dims (ga_desc a)) (nblock (ga_desc a)) (mapc (ga_desc a)) k = Some (lo, hi) -> 0 < hd 0 lo).
  { intros j Hj. destruct (dims (ga_desc a)) as [|d ds]; [congruence|]. destruct (nblock (ga_desc a)) as [|n nb]; [destruct VM|].
    destruct VM as [VM _]. cbn [owns_dims]. pose proof VM as (_ & Hn & Hl & _). unfold cmod. destruct (Z.eqb_spec n 0); [lia|].
    pose proof (Z.rem_bound_pos j n Hj ltac:(lia)). rewrite (zget_Some _ _ 0) by lia.
    destruct (cdiv j n); [|discriminate].
    match goal with |- match ?e with _ => _ end = _ -> _ => destruct e; [|discriminate] end.
    match goal with |- match ?e with _ => _ end = _ -> _ => destruct e; [|discriminate] end.
    intros [= <- _]. cbn [hd]. pose proof (map_entry_pos d n (mapc (ga_desc a)) (Z.to_nat (Z.rem j n)) VM ltac:(lia)). lia. }
  repeat match goal with |- (if ?b then _ else _) = _ -> _ => destruct b eqn:?B end; intros E; try (injection E as _ E; exfalso; eapply X; [symmetry; exact (eq_sym E)|exact HF]);
    (eapply Y; [|exact E]; apply orb_false_iff in B0 || idtac; lia).
Qed.
Lemma mapM_all {A B} (f : A -> option B) (g : A -> B) l : (forall a, In a l -> f a = Some (g a)) -> mapM f l = Some (map g l).
Proof. induction l as [|a l IH]; intros H; [reflexivity|]. cbn [mapM map]. rewrite (H a (or_introl eq_refl)), IH; [reflexivity|]. intros; apply H; now right. Qed.
Lemma array_mirror h n x : in_array (h ++ [n; n]) x -> in_array (h ++ [n; n]) (mirror x).
Proof.
  intros Hx. pose proof (in_array_length _ _ Hx) as L. rewrite app_length in L. cbn [length] in L.
  destruct (split2 x) as (xh & u & v & ->); [lia|]. rewrite mirror_app. rewrite app_length in L. cbn [length] in L.
  revert xh Hx L. induction h as [|a h IH]; intros [|b xh] Hx L; cbn in L; try lia; cbn [app in_array] in *; [tauto|].
  split; [tauto|]. apply IH; [tauto|lia].
Qed.
Lemma valid_extents lo : forall hi n, length hi = length lo -> (length lo - 1 <= n)%nat -> valid_ld lo hi (firstn n (extents lo hi)).
Proof.
  induction lo as [|l lo IH]; intros [|h hi] n L N; try discriminate; [exact I|]. destruct lo as [|l' lo]; [exact I|].
  destruct n as [|n]; [cbn in N; lia|]. cbn [extents firstn]. destruct hi as [|h' hi]; [discriminate|].
  change (h - l + 1 <= h - l + 1 /\ valid_ld (l' :: lo) (h' :: hi) (firstn n (extents (l' :: lo) (h' :: hi)))).
  split; [lia|]. apply IH; cbn in *; lia.
Qed.
Lemma lin_firstn sh : forall k n, (length k - 1 <= n)%nat -> lin (firstn n sh) k = lin sh k.
Proof.
  induction sh as [|s sh IH]; intros k n N; [now rewrite firstn_nil|]. destruct k as [|a [|b k]]; [reflexivity..|].
  destruct n as [|n]; [cbn in N; lia|]. cbn [firstn]. rewrite !lin_cons. rewrite IH by (cbn in *; lia). reflexivity.
Qed.

Lemma sym_reg_proc guess near wn rnd smp a me w h n :
  good_guess guess -> (forall k, 0 <= rnd k) -> wf_array a -> no_empty_block a -> has_ghosts a = false -> small_local a (reg_shape a) ->
  dims (ga_desc a) = h ++ [n; n] -> 0 <= me < ga_nproc a -> abs_rank a me = Some w -> near w = true ->
  exists es f0, (forall fuel, (f0 <= fuel)%nat -> sym_reg fuel guess near wn rnd smp a me = Some es) /\
    marked (pair_at (reg_place a)) (fun x => in_array (dims (ga_desc a)) x /\ exists ad, reg_place a x (w, ad)) es.
Proof.
  intros HG HR WA NE NG SA EDs Hme EW HN. pose proof WA as (WR & HWl & HW0 & _). pose proof WR as (HT & Hne & _).
  destruct (regular_blocks_inside _ _ _ WR Hme) as (lo & hi & ED & HI).
  pose proof (dist_len_dims _ _ _ _ HT ED) as LD. pose proof (dist_len _ _ _ _ HT ED) as LE.
  assert (L2 : length (dims (ga_desc a)) = (length h + 2)%nat) by (rewrite EDs, app_length; reflexivity).
  assert (SQ : nth (length (dims (ga_desc a)) - 1) (dims (ga_desc a)) 0 = nth (length (dims (ga_desc a)) - 2) (dims (ga_desc a)) 0).
  { rewrite L2, EDs, !app_nth2 by lia. replace (length h + 2 - 1 - length h)%nat with 1%nat by lia.
    replace (length h + 2 - 2 - length h)%nat with 0%nat by lia. reflexivity. }
  unfold sym_reg. cbv zeta. rewrite SQ, Z.eqb_refl. destruct (Nat.ltb_spec (length (dims (ga_desc a))) 2); [lia|]. cbn [negb]. rewrite ED. cbn [fst snd].
  destruct (forallb (fun h => 0 <? h) hi) eqn:HF.
  2:{ exists [], 0%nat. split; [reflexivity|]. apply marked_nil. intros x [Hx Hp]. pose proof (proj2 (in_own_block a me w WA Hme EW lo hi x ED) (conj Hx Hp)) as Hb.
      clear - Hb HF HI Hx. assert (X : forall y ds, in_array ds y -> forall l0 h0, in_box l0 h0 y -> forallb (fun h => 0 <? h) h0 = true).
      { induction y as [|v y IH]; intros [|d ds] A [|l l0] [|u h0] B; cbn in *; try tauto. apply andb_true_iff. split; [apply Z.ltb_lt; lia|]. eapply IH; [apply A|apply B]. }
      rewrite (X x _ Hx lo hi Hb) in HF. discriminate. }
  pose proof (NE _ _ _ Hme ED (dist_pos a me lo hi WA ED HF)) as HLE.
  destruct (access_ptr_spec guess near a lo hi me lo hi w HG WA Hme ED (lo_in_box _ _ HLE) (box_refl_hi _ _ HLE) HLE EW HN) as (off & ld & EA & HP).
  pose proof (access_ptr_ld guess near a lo hi me w off ld HG WA Hme ED HLE EW HN EA) as HLd.
  rewrite no_ghosts_padded in HLd by (auto; lia). destruct (LXfer2.extents_pos _ _ HLE) as [EL EP].
  rewrite !sym_box_mirror by lia.
  assert (Ilo : in_array (dims (ga_desc a)) lo) by (apply HI, lo_in_box, HLE).
  assert (Ihi : in_array (dims (ga_desc a)) hi) by (apply HI, box_refl_hi, HLE).
  assert (EM : extents (mirror lo) (mirror hi) = mirror (extents lo hi)) by (apply extents_mirror; lia).
  destruct (any_transfers guess rnd wn smp a (mirror lo) (mirror hi) (firstn (length (dims (ga_desc a)) - 1) (extents (mirror lo) (mirror hi)))
              (extents (mirror lo) (mirror hi)) (reg_place a) (reg_shape a) HG HR (or_introl (conj WA (conj eq_refl eq_refl))) SA) as (ts & (f0 & ET) & RT).
  - rewrite EDs in *. apply array_mirror, Ilo.
  - rewrite EDs in *. apply array_mirror, Ihi.
  - apply Forall2_mirror, HLE.
  - apply le_refl_list.
  - rewrite mirror_length, firstn_firstn. f_equal. rewrite LD. lia.
  - rewrite EM, zprod_mirror. apply (proj2 SA). exists me, lo, hi. split; [exact Hme|]. split; [exact ED|]. split; [exact HLE|].
    symmetry. apply no_ghosts_padded; auto; lia.
  - assert (VA : forall x, in_box lo hi x -> exists p, vec_at ts (encode (mirror (extents lo hi)) (mirror (vsub x lo))) = Some p /\ reg_place a (mirror x) p).
    { intros x Hx. destruct (in_box_len _ _ _ Hx) as [X1 X2].
      assert (VL : valid_ld (mirror lo) (mirror hi) (firstn (length (dims (ga_desc a)) - 1) (extents (mirror lo) (mirror hi)))).
      { apply valid_extents; rewrite !mirror_length; lia. }
      destruct (box_vec_at (reg_place a) (mirror lo) (mirror hi) _ ts (mirror x) ltac:(rewrite !mirror_length; lia) VL RT (box_mirror _ _ _ Hx)) as (p & E & Q).
      exists p. split; [|exact Q]. rewrite <- E. f_equal. rewrite vsub_mirror, lin_firstn, EM by (try rewrite mirror_length, vsub_length; lia).
      symmetry. apply lin_encode. rewrite !mirror_length, vsub_length; lia. }
    exists (map (fun u => ((w, off + fst u), match vec_at ts (snd u) with Some p => p | None => (0, 0) end)) (sym_loop lo hi (zprod (extents lo hi)))), f0.
    pose proof (sym_loop_perm lo hi ltac:(lia) HLE) as PM.
    split.
    + intros fuel Hf. rewrite EA, ET by exact Hf.
      replace (forallb _ ts) with true.
      2:{ symmetry. apply forallb_forall. intros t Ht.
          assert (LM : length (mirror lo) = length (mirror hi)) by (rewrite !mirror_length; lia).
          destruct (region_In (reg_place a) _ _ _ LM ts t RT Ht) as (y & Hy & _ & ->).
          destruct (in_box_len _ _ _ Hy) as [Y1 Y2]. rewrite mirror_length in Y1, Y2.
          rewrite lin_firstn by (rewrite vsub_length; rewrite ?mirror_length; lia). pose proof (LStore.lin_range _ _ (extents_range _ _ _ Hy)) as R.
          rewrite <- (zprod_mirror (extents lo hi)), <- EM. apply andb_true_iff. split; [apply Z.leb_le|apply Z.ltb_lt]; lia. }
      unfold use_pairs, lpiece_of. cbn [lp_seg lp_off fst snd]. apply mapM_all. intros u Hu.
      apply (Permutation_in _ (Permutation_sym PM)) in Hu. apply in_map_iff in Hu as (k & <- & Hk). cbn [fst snd]. apply indices_In in Hk.
      pose proof (in_range0_length _ _ Hk) as LK.
      destruct (VA (vadd k lo) (vadd_in_box _ _ _ HLE Hk)) as (p & E & _). rewrite vsub_vadd in E by lia. rewrite E. reflexivity.
    + eapply marked_ext; [apply (fun x => in_own_block a me w WA Hme EW lo hi x ED)|]. eapply marked_perm; [apply Permutation_map, PM|].
      rewrite map_map. cbn [fst snd]. apply marked_indices; [exact HLE|]. intros x Hx. destruct (in_box_len _ _ _ Hx) as [X1 X2]. split; cbn [fst snd].
      * rewrite <- lin_encode by (rewrite vsub_length; lia). rewrite <- HLd by (rewrite vsub_length; lia). apply HP, Hx.
      * destruct (VA x Hx) as (p & -> & Q). exact Q.
Qed.

Theorem sym_reg_spec guess near wn rnd smp a h n :
  good_guess guess -> (forall me k, 0 <= rnd me k) -> wf_array a -> no_empty_block a -> has_ghosts a = false -> small_local a (reg_shape a) ->
  dims (ga_desc a) = h ++ [n; n] -> (forall me w, abs_rank a me = Some w -> near me w = true) ->
  exists ess f0,
    Forall2 (fun me es => forall fuel, (f0 <= fuel)%nat -> sym_reg fuel guess (near me) wn (rnd me) (smp me) a me = Some es)
      (zseq 0 (Z.to_nat (ga_nproc a))) ess /\
    marked (pair_at (reg_place a)) (in_array (dims (ga_desc a))) (concat ess).
Proof.
  intros HG HR WA NE NG SA EDs HN.
  destruct (procs_fuel (fun fuel me => sym_reg fuel guess (near me) wn (rnd me) (smp me) a me)
    (fun me es => exists w, abs_rank a me = Some w /\
       marked (pair_at (reg_place a)) (fun x => in_array (dims (ga_desc a)) x /\ exists ad, reg_place a x (w, ad)) es)
    (zseq 0 (Z.to_nat (ga_nproc a)))) as (ess & f0 & E & F).
  - intros me Hme. apply zseq_In in Hme. assert (Hm : 0 <= me < ga_nproc a) by lia.
    destruct (abs_rank_total a me (proj1 (proj2 (proj2 (proj2 WA)))) Hm) as (w & EW).
    destruct (sym_reg_proc guess (near me) wn (rnd me) (smp me) a me w h n HG (HR me) WA NE NG SA EDs Hm EW (HN _ _ EW)) as (es & f0 & A & B).
    exists es, f0. split; [exact A|]. exists w. auto.
  - exists ess, f0. split; [exact E|].
    apply (whole_marked (pair_at (reg_place a)) a wn (reg_place a) (reg_shape a)); auto. left. auto.
Qed.
