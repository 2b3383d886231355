(** Lemmas about the odometer and gai_mem_copy. *)
From Coq Require Import ZArith List Lia Bool Permutation.
From Verif Require Import SpecBox MBase SpecCopy MXfer MOdo LRadix LIterReg LXfer LXfer2 LStrided LStrided2.
Import ListNotations.
Open Scope Z_scope.

Lemma zseq_app2 l n m : zseq l (n + m) = zseq l n ++ zseq (l + Z.of_nat n) m.
Proof.
  revert l. induction n as [|n IH]; intros l; cbn [zseq Nat.add app]; [f_equal; lia|]. rewrite IH. f_equal. f_equal. f_equal. lia.
Qed.

Lemma decode_indices cnt : Forall (fun c => 1 <= c) cnt -> indices cnt = map (decode cnt) (zseq 0 (Z.to_nat (zprod cnt))).
Proof.
  induction 1 as [|c cnt Hc H IH]; [reflexivity|]. cbn [indices zprod decode]. rewrite IH. rewrite flat_map_concat_map, map_map.
  assert (HP : 1 <= zprod cnt) by (apply zprod_pos; exact H).
  assert (G : forall n l, 0 <= l -> concat (map (fun x => map (fun i => Z.of_nat i :: decode cnt x) (seq 0 (Z.to_nat c))) (zseq l n)) =
              map (fun p => p mod c :: decode cnt (p / c)) (zseq (c * l) (Z.to_nat c * n))).
  { induction n as [|n IHn]; intros l Hl; [rewrite Nat.mul_0_r; reflexivity|]. cbn [zseq map concat]. rewrite IHn by lia.
    rewrite Nat.mul_succ_r, Nat.add_comm, zseq_app2, map_app. f_equal; [|f_equal; f_equal; lia].
    rewrite zseq_seq, map_map. apply map_ext_in. intros i Hi. apply in_seq in Hi.
    replace (c * l + Z.of_nat i) with (Z.of_nat i + l * c) by ring. rewrite Z.mod_add, Z.div_add by lia.
    rewrite Z.mod_small, Z.div_small by lia. f_equal. }
  rewrite G by lia. rewrite Z.mul_0_r. f_equal. f_equal. rewrite Z2Nat.inj_mul by lia. reflexivity.
Qed.

(** ---- the odometer ---- *)
Fixpoint units (u : Z) (cnt : list Z) : list Z := match cnt with [] => [] | c :: cnt' => u :: units (u * c) cnt' end.

Lemma odo_units_ok cnt : forall u, 1 <= u -> Forall (fun c => 1 <= c) cnt -> u * zprod cnt <= int_max -> odo_units u cnt = Some (units u cnt).
Proof.
  induction cnt as [|c cnt IH]; intros u Hu H HB; [reflexivity|]. apply Forall_cons_iff in H as [Hc H]. cbn [zprod] in HB.
  destruct cnt as [|c2 cnt]; [reflexivity|]. assert (HP : 1 <= zprod (c2 :: cnt)) by (apply zprod_pos; exact H).
  change (odo_units u (c :: c2 :: cnt)) with (do u' <- to_int (u * c); do r <- odo_units u' (c2 :: cnt); Some (u :: r)).
  rewrite to_int_ok by nia. rewrite IH; [reflexivity|nia|exact H|]. rewrite <- Z.mul_assoc. exact HB.
Qed.
Lemma int_prod_ok cnt : forall u, 0 <= u -> Forall (fun c => 1 <= c) cnt -> u * zprod cnt <= int_max -> int_prod u cnt = Some (u * zprod cnt).
Proof.
  induction cnt as [|c cnt IH]; intros u Hu H HB; cbn [int_prod zprod] in *; [f_equal; ring|]. apply Forall_cons_iff in H as [Hc H].
  assert (HP : 1 <= zprod cnt) by (apply zprod_pos; exact H). rewrite to_int_ok by nia. rewrite IH; [f_equal; ring|nia|exact H|]. rewrite <- Z.mul_assoc. exact HB.
Qed.

Lemma next_digit i u c : 0 <= i -> 1 <= u -> 1 <= c ->
  (let b := (i / u) mod c in
   let b1 := if (i + 1) mod u =? 0 then b + 1 else b in if c - 1 <? b1 then 0 else b1) = ((i + 1) / u) mod c.
Proof.
  intros Hi Hu Hc. cbv zeta.
  assert (Hb : 0 <= (i / u) mod c < c) by (apply Z.mod_pos_bound; lia).
  assert (E : (i + 1) / u = i / u + (if (i + 1) mod u =? 0 then 1 else 0)).
  { pose proof (Z.div_mod i u ltac:(lia)) as D1. pose proof (Z.mod_pos_bound i u ltac:(lia)) as M1.
    pose proof (Z.div_mod (i + 1) u ltac:(lia)) as D2. pose proof (Z.mod_pos_bound (i + 1) u ltac:(lia)) as M2.
    destruct (Z.eqb_spec ((i + 1) mod u) 0) as [E|E]; nia. }
  rewrite E. destruct ((i + 1) mod u =? 0).
  - destruct (Z.ltb_spec (c - 1) ((i / u) mod c + 1)).
    + assert (EQ : (i / u) mod c = c - 1) by lia. rewrite <- Z.add_mod_idemp_l by lia. rewrite EQ. replace (c - 1 + 1) with c by ring. rewrite Z.mod_same by lia. reflexivity.
    + rewrite <- Z.add_mod_idemp_l by lia. rewrite (Z.mod_small ((i / u) mod c + 1)) by lia. reflexivity.
  - rewrite Z.add_0_r. destruct (Z.ltb_spec (c - 1) ((i / u) mod c)); lia.
Qed.

Lemma odo_step_ok mul cnt : forall i u st, 0 <= i -> 1 <= u -> Forall (fun c => 1 <= c) cnt -> (length cnt <= length st)%nat ->
  (forall k c s, nth_error cnt k = Some c -> nth_error st k = Some s -> forall b, 0 <= b < c -> mul b s = Some (b * s)) ->
  odo_step mul i (decode cnt (i / u)) (units u cnt) cnt st = Some (dot (decode cnt (i / u)) st, decode cnt ((i + 1) / u)).
Proof.
  induction cnt as [|c cnt IH]; intros i u st Hi Hu H HL HM; [reflexivity|]. apply Forall_cons_iff in H as [Hc H].
  destruct st as [|s st]; [cbn in HL; lia|]. cbn [decode units odo_step].
  rewrite (HM 0%nat c s eq_refl eq_refl) by (apply Z.mod_pos_bound; lia).
  rewrite cmod_pos by lia. cbv zeta.
  assert (HN : 1 <= u * c) by nia. specialize (IH i (u * c) st Hi HN H ltac:(cbn in HL; lia) (fun k => HM (S k))).
  rewrite <- !Z.div_div in IH by lia. rewrite IH. cbn [fst snd dot].
  rewrite <- (next_digit i u c Hi Hu Hc). reflexivity.
Qed.

Lemma odo_offsets_ok mul cnt st n : forall i, 0 <= i -> Forall (fun c => 1 <= c) cnt -> (length cnt <= length st)%nat ->
  (forall k c s, nth_error cnt k = Some c -> nth_error st k = Some s -> forall b, 0 <= b < c -> mul b s = Some (b * s)) ->
  odo_offsets mul n i (decode cnt i) (units 1 cnt) cnt st = Some (map (fun p => dot (decode cnt p) st) (zseq i n)).
Proof.
  induction n as [|n IH]; intros i Hi H HL HM; [reflexivity|]. cbn [odo_offsets zseq map].
  pose proof (odo_step_ok mul cnt i 1 st Hi ltac:(lia) H HL HM) as E. rewrite !Z.div_1_r in E. rewrite E. cbn [fst snd].
  rewrite IH by (auto; lia). reflexivity.
Qed.
Lemma decode_0 cnt : Forall (fun c => 1 <= c) cnt -> decode cnt 0 = repeat 0 (length cnt).
Proof.
  induction 1 as [|c cnt Hc H IH]; [reflexivity|]. cbn [decode length repeat]. rewrite Z.mod_0_l, Z.div_0_l by lia. now rewrite IH.
Qed.
Lemma odometer_ok mul cnt st : Forall (fun c => 1 <= c) cnt -> (length cnt <= 6)%nat -> (length cnt <= length st)%nat -> zprod cnt <= int_max ->
  (forall k c s, nth_error cnt k = Some c -> nth_error st k = Some s -> forall b, 0 <= b < c -> mul b s = Some (b * s)) ->
  odometer mul cnt st = Some (map (fun k => dot k st) (indices cnt)).
Proof.
  intros H H6 HL HP HM. unfold odometer. rewrite (proj2 (Nat.leb_le _ _) H6).
  rewrite int_prod_ok by (auto; lia). rewrite odo_units_ok by (auto; lia). rewrite Z.mul_1_l. rewrite <- (decode_0 cnt H).
  rewrite odo_offsets_ok by (auto; lia). rewrite decode_indices by exact H. rewrite map_map. reflexivity.
Qed.

(** ---- strides of a small buffer ---- *)
Fixpoint strides (es : Z) (n : nat) (ld : list Z) : list Z :=
  match n, ld with S n', d :: ld' => es * d :: strides (es * d) n' ld' | _, _ => [] end.

Lemma set_stride_strides n : forall es ld, 1 <= es -> (n <= length ld)%nat -> Forall (fun d => 1 <= d) (firstn n ld) -> int_strides es n ld ->
  set_stride n es ld = Some (strides es n ld).
Proof.
  induction n as [|n IH]; intros es ld He HL HF HI; [reflexivity|]. destruct ld as [|d ld]; [cbn in HL; lia|].
  cbn [firstn] in HF. apply Forall_cons_iff in HF as [Hd HF]. cbn [set_stride strides].
  pose proof (HI O ltac:(lia)) as H0. cbn [firstn zprod] in H0. rewrite !to_int_ok by nia. rewrite IH; [reflexivity|nia|cbn in HL; lia|exact HF|].
  intros i Hi. specialize (HI (S i) ltac:(lia)). cbn [firstn zprod] in *. rewrite <- Z.mul_assoc. exact HI.
Qed.
Lemma strides_length n : forall es ld, (n <= length ld)%nat -> length (strides es n ld) = n.
Proof. induction n as [|n IH]; intros es [|d ld] H; cbn in *; try reflexivity; try lia. rewrite IH; lia. Qed.

(** A patch that fits into a small buffer: strides and offsets are ints. *)
Lemma small_ints cnt : forall c es start ld, patch_fits (c :: cnt) start ld -> 1 <= es ->
  es * zprod (firstn (length cnt) ld ++ [last (c :: cnt) 1]) <= int_max ->
  (length cnt <= length ld)%nat /\ Forall (fun d => 1 <= d) (firstn (length cnt) ld) /\ int_strides es (length cnt) ld /\
  (forall k n s, nth_error cnt k = Some n -> nth_error (strides es (length cnt) ld) k = Some s -> 1 <= s /\ (n - 1) * s <= int_max) /\
  zprod (c :: cnt) * es <= int_max /\ Forall (fun n => 1 <= n) (c :: cnt) /\ length start = S (length cnt).
Proof.
  induction cnt as [|c2 cnt IH]; intros c es start ld HP He HS.
  - destruct start as [|s [|s2 start]]; cbn [patch_fits] in HP; try tauto. cbn [length firstn app last zprod] in *.
    split; [lia|]. split; [constructor|]. split; [intros i Hi; lia|]. split; [intros [|k]; discriminate|]. split; [nia|]. split; [repeat constructor; lia|reflexivity].
  - destruct start as [|s start]; [destruct HP|]. destruct ld as [|d ld]; [destruct HP|].
    change (1 <= c /\ 0 <= s /\ s + c <= d /\ patch_fits (c2 :: cnt) start ld) in HP. destruct HP as (H1 & H2 & H3 & HP).
    cbn [length firstn] in HS. change (last (c :: c2 :: cnt) 1) with (last (c2 :: cnt) 1) in HS. rewrite <- app_comm_cons in HS. cbn [zprod] in HS.
    assert (He' : 1 <= es * d) by nia. rewrite Z.mul_assoc in HS.
    destruct (IH c2 (es * d) start ld HP He' HS) as (A1 & A2 & A3 & A4 & A5 & A6 & A7). cbn [length firstn].
    assert (HZ : 1 <= zprod (c2 :: cnt)) by (apply zprod_pos; exact A6).
    split; [lia|]. split; [constructor; [lia|exact A2]|]. split.
    { intros [|i] Hi.
      - cbn [firstn zprod]. nia.
      - cbn [firstn zprod]. rewrite Z.mul_assoc. apply A3. lia. }
    split; [|split; [|split; [constructor; [lia|exact A6]|lia]]].
    { intros [|k] n t Hn Ht; cbn [strides nth_error] in *; [|eapply A4; eauto]. injection Hn as <-. injection Ht as <-.
      split; [exact He'|]. cbn [zprod] in A5, HZ. apply Forall_cons_iff in A6 as [A6 A6']. assert (1 <= zprod cnt) by (apply zprod_pos; exact A6'). nia. }
    cbn [zprod] in *. nia.
Qed.

Lemma start_offset_ok start : forall ld f, start <> [] -> (length start <= S (length ld))%nat -> start_offset start ld f = Some (f * lin ld start).
Proof.
  induction start as [|s start IH]; intros ld f HN HL; [contradiction|]. destruct start as [|s2 start]; [cbn; f_equal; ring|].
  destruct ld as [|d ld]; [cbn in HL; lia|].
  change (start_offset (s :: s2 :: start) (d :: ld) f) with (do r <- start_offset (s2 :: start) ld (f * d); Some (s * f + r)).
  rewrite IH by (try discriminate; cbn in *; lia). rewrite lin_cons. f_equal. ring.
Qed.

Lemma dot_strides k : forall es ld k0, (length k <= length ld)%nat -> k0 * es + dot k (strides es (length k) ld) = es * lin ld (k0 :: k).
Proof.
  induction k as [|k1 k IH]; intros es ld k0 HL; [cbn; ring|]. destruct ld as [|d ld]; [cbn in HL; lia|].
  cbn [length strides dot]. rewrite lin_cons. specialize (IH (es * d) ld k1 ltac:(cbn in HL; lia)). transitivity (k0 * es + (es * d * lin ld (k1 :: k))); [rewrite <- IH; ring|ring].
Qed.

Lemma lin_patch_inj cnt : forall start ld k k', patch_fits cnt start ld -> in_range0 cnt k -> in_range0 cnt k' -> lin ld k = lin ld k' -> k = k'.
Proof.
  induction cnt as [|c cnt IH]; intros start ld k k' HP Hk Hk' E.
  - destruct k, k'; cbn in *; tauto.
  - destruct k as [|a k], k' as [|b k']; try (cbn in *; tauto). destruct Hk as [Ha Hk], Hk' as [Hb Hk'].
    pose proof (in_range0_length _ _ Hk) as L1. pose proof (in_range0_length _ _ Hk') as L2.
    destruct cnt as [|c2 cnt].
    + destruct k, k'; try discriminate. cbn in E. now subst.
    + destruct k as [|a2 k], k' as [|b2 k']; try discriminate. destruct start as [|s start]; [destruct HP|]. destruct ld as [|d ld]; [destruct HP|].
      change (1 <= c /\ 0 <= s /\ s + c <= d /\ patch_fits (c2 :: cnt) start ld) in HP. destruct HP as (H1 & H2 & H3 & HP).
      rewrite !lin_cons in E. set (x := lin ld (a2 :: k)) in *. set (y := lin ld (b2 :: k')) in *.
      assert (EQ : a = b /\ x = y).
      { assert (x = y) by (clearbody x y; clear - E Ha Hb H2 H3; nia). split; [nia|assumption]. }
      destruct EQ as [-> EQ]. f_equal. exact (IH start ld _ _ HP Hk Hk' EQ).
Qed.

Lemma mapM_map {A B C} (f : B -> option C) (g : A -> B) l : mapM f (map g l) = mapM (fun a => f (g a)) l.
Proof. induction l as [|a l IH]; [reflexivity|]. cbn. now rewrite IH. Qed.
Lemma NoDup_map_on {A B} (f : A -> B) l : NoDup l -> (forall x y, In x l -> In y l -> f x = f y -> x = y) -> NoDup (map f l).
Proof.
  induction 1 as [|a l Hn ND IH]; intros HI; [constructor|]. cbn [map]. constructor.
  - intros X. apply in_map_iff in X as (b & E & Hb). apply Hn. rewrite (HI a b (or_introl eq_refl) (or_intror Hb) (eq_sym E)). exact Hb.
  - apply IH. intros x y Hx Hy. apply HI; right; assumption.
Qed.
Lemma combine_map {A B C} (f : A -> B) (g : A -> C) l : combine (map f l) (map g l) = map (fun a => (f a, g a)) l.
Proof. induction l as [|a l IH]; [reflexivity|]. cbn. now rewrite IH. Qed.

Theorem mem_copy_ok es cnt ss sld ds dld : 1 <= es -> (length cnt <= 7)%nat ->
  patch_fits cnt ss sld -> patch_fits cnt ds dld -> small_buffer es cnt sld -> small_buffer es cnt dld ->
  mem_copy es cnt ss sld ds dld = Some (map (fun k => (lin dld (vadd ds k), lin sld (vadd ss k))) (indices cnt)).
Proof.
  intros He HL PS PD SS SD. destruct cnt as [|c cnt]; [destruct ss; destruct PS|]. cbn [length] in HL. unfold small_buffer in *.
  cbn [length] in SS, SD. rewrite Nat.sub_succ, Nat.sub_0_r in SS, SD.
  destruct (small_ints cnt c es ss sld PS He SS) as (A1 & A2 & A3 & A4 & A5 & A6 & A7).
  destruct (small_ints cnt c es ds dld PD He SD) as (B1 & B2 & B3 & B4 & _ & _ & B7).
  apply Forall_cons_iff in A6 as [Hc A6]. cbn [zprod] in A5. assert (HP : 1 <= zprod cnt) by (apply zprod_pos; exact A6).
  unfold mem_copy. rewrite start_offset_ok by (try (intros ->; discriminate); lia). rewrite start_offset_ok by (try (intros ->; discriminate); lia).
  rewrite to_int_ok by nia. rewrite !set_stride_strides by auto.
  assert (M : forall st : list Z, (forall k n s, nth_error cnt k = Some n -> nth_error st k = Some s -> 1 <= s /\ (n - 1) * s <= int_max) ->
    forall k n s, nth_error cnt k = Some n -> nth_error st k = Some s -> forall b, 0 <= b < n -> mul_int b s = Some (b * s)).
  { intros st H k n s Hn Hs b Hb. destruct (H k n s Hn Hs). unfold mul_int. apply to_int_ok. nia. }
  assert (HI : zprod cnt <= int_max). { assert (zprod cnt <= c * zprod cnt) by nia. assert (c * zprod cnt <= c * zprod cnt * es) by nia. lia. }
  rewrite (odometer_ok _ cnt (strides es (length cnt) sld)); [|exact A6|lia|rewrite strides_length by exact A1; lia|exact HI|apply M; exact A4].
  rewrite (odometer_ok _ cnt (strides es (length cnt) dld)); [|exact A6|lia|rewrite strides_length by exact B1; lia|exact HI|apply M; exact B4].
  rewrite combine_map, mapM_map.
  rewrite (mapM_Some _ (fun t => map (fun i => (lin dld (vadd ds (Z.of_nat i :: t)), lin sld (vadd ss (Z.of_nat i :: t)))) (seq 0 (Z.to_nat c)))).
  - cbn [indices]. rewrite flat_map_concat_map, concat_map, map_map. do 2 f_equal. apply map_ext. intros t. rewrite map_map. reflexivity.
  - intros t Ht. apply indices_In, in_range0_length in Ht. cbn [fst snd].
    assert (G : forall start ld, length start = S (length cnt) -> (length cnt <= length ld)%nat ->
       elem_of es (1 * lin ld start * es + dot t (strides es (length cnt) ld)) = Some (lin ld start + lin ld (0 :: t))).
    { intros start ld Hs Hd. rewrite <- (elem_of_mul es) by exact He. f_equal. rewrite Z.mul_add_distr_l. rewrite <- (dot_strides t es ld 0) by lia. rewrite Ht. ring. }
    rewrite !G by assumption. rewrite Z.mul_comm. rewrite elem_of_mul by exact He. f_equal. apply map_ext. intros i.
    assert (G2 : forall start ld, length start = S (length cnt) -> (length cnt <= length ld)%nat ->
       lin ld start + lin ld (0 :: t) + Z.of_nat i = lin ld (vadd start (Z.of_nat i :: t))).
    { intros start ld Hs Hd. rewrite lin_add by (cbn [length]; lia). destruct t as [|t1 t]; [cbn; ring|]. destruct ld; [cbn in *; lia|]. rewrite !lin_cons. ring. }
    rewrite !G2 by assumption. reflexivity.
Qed.

Lemma copy_run {V} (src : buffer V) ts : forall dst,
  NoDup (map fst ts) -> (forall t, In t ts -> src (snd t) <> None /\ dst (fst t) <> None) ->
  exists dst', run_elems (copy_elem src) dst ts = Some dst' /\
    (forall t, In t ts -> dst' (fst t) = src (snd t)) /\ (forall i, ~ In i (map fst ts) -> dst' i = dst i).
Proof.
  induction ts as [|t ts IH]; intros dst ND HD.
  - exists dst. split; [reflexivity|]. split; [intros e []|auto].
  - cbn [map] in ND. apply NoDup_cons_iff in ND as [Hn ND]. destruct (HD t (or_introl eq_refl)) as [HS HT].
    cbn [run_elems]. unfold copy_elem at 1. destruct (src (snd t)) as [v|] eqn:Ev; [|contradiction]. destruct (dst (fst t)) as [w|] eqn:Ew; [|contradiction].
    destruct (IH (bset dst (fst t) v) ND) as (dst' & E & H1 & H2).
    { intros t' Ht'. destruct (HD t' (or_intror Ht')) as [X Y]. split; [exact X|]. unfold bset. destruct (fst t' =? fst t); [discriminate|exact Y]. }
    exists dst'. split; [exact E|]. split.
    + intros t' [<-|Ht']; [|auto]. rewrite H2 by exact Hn. unfold bset. rewrite Z.eqb_refl. congruence.
    + intros i Hi. cbn [map In] in Hi. rewrite H2 by tauto. unfold bset. destruct (Z.eqb_spec i (fst t)); [subst; tauto|reflexivity].
Qed.

Theorem copy_spec {V} es cnt ss sld ds dld (src dst : buffer V) : 1 <= es -> (length cnt <= 7)%nat ->
  patch_fits cnt ss sld -> patch_fits cnt ds dld -> small_buffer es cnt sld -> small_buffer es cnt dld ->
  has_patch src cnt ss sld -> has_patch dst cnt ds dld ->
  exists ts dst', mem_copy es cnt ss sld ds dld = Some ts /\ run_elems (copy_elem src) dst ts = Some dst' /\ copied cnt ss sld ds dld src dst dst'.
Proof.
  intros He HL PS PD SS SD HS HD. rewrite (mem_copy_ok es cnt ss sld ds dld He HL PS PD SS SD).
  assert (LS : forall k, in_range0 cnt k -> length ds = length k).
  { intros k Hk. rewrite (in_range0_length _ _ Hk). destruct cnt as [|c cnt]; [destruct ds; destruct PD|]. unfold small_buffer in SD. cbn [length] in SD. rewrite Nat.sub_succ, Nat.sub_0_r in SD.
    destruct (small_ints cnt c es ds dld PD He SD) as (_ & _ & _ & _ & _ & _ & E). exact E. }
  destruct (copy_run src (map (fun k => (lin dld (vadd ds k), lin sld (vadd ss k))) (indices cnt)) dst) as (dst' & E & H1 & H2).
  - rewrite map_map. cbn [fst]. apply NoDup_map_on; [apply indices_NoDup|]. intros k k' Hk Hk' EQ. apply indices_In in Hk, Hk'.
    rewrite !lin_add in EQ by (apply LS; assumption). eapply (lin_patch_inj cnt ds dld); eauto. lia.
  - intros t Ht. apply in_map_iff in Ht as (k & <- & Hk). apply indices_In in Hk. cbn [fst snd]. auto.
  - eexists. exists dst'. split; [reflexivity|]. split; [exact E|]. split.
    + intros k Hk. apply (H1 (lin dld (vadd ds k), lin sld (vadd ss k))). apply in_map_iff. exists k. split; [reflexivity|apply indices_In; exact Hk].
    + intros i Hi. apply H2. intros X. rewrite map_map in X. apply in_map_iff in X as (k & EQ & Hk). apply indices_In in Hk. exact (Hi k Hk EQ).
Qed.
