(** Proofs about the strided transfers of ComEx. *)
From Coq Require Import ZArith List Lia Bool.
From Verif Require Import SpecBox SpecStore SpecXfer SpecCopy MBase MXfer MOdo MComex LRadix LXfer LStrided LStrided2 LOdo.
Import ListNotations.
Open Scope Z_scope.

(** ---- runs of bytes ---- *)
Lemma mapM_all {A B} (f : A -> option B) l : (forall a, In a l -> f a <> None) ->
  exists r, mapM f l = Some r /\ length r = length l /\ forall i a, nth_error l i = Some a -> nth_error r i = f a.
Proof.
  induction l as [|a l IH]; intros H.
  - exists []. repeat split. intros [|i] a; discriminate.
  - destruct (IH (fun b Hb => H b (or_intror Hb))) as (r & E & HL & HN). pose proof (H a (or_introl eq_refl)) as Ha. cbn [mapM].
    destruct (f a) as [b|] eqn:Eb; [|contradiction]. rewrite E. exists (b :: r). split; [reflexivity|]. split; [cbn; lia|].
    intros [|i] x Hx; cbn in *; [congruence|auto].
Qed.
Lemma nth_error_seq n i : (i < n)%nat -> nth_error (seq 0 n) i = Some i.
Proof. intros H. rewrite (nth_error_nth' _ O) by now rewrite seq_length. now rewrite seq_nth. Qed.
Lemma nth_error_ext_eq {A} : forall (l l' : list A), (forall i, nth_error l i = nth_error l' i) -> l = l'.
Proof.
  induction l as [|a l IH]; intros [|b l'] H; [reflexivity|specialize (H O); discriminate|specialize (H O); discriminate|].
  f_equal; [specialize (H O); cbn in H; congruence|]. apply IH. intros i. exact (H (S i)).
Qed.
Lemma skipn_skipn' {A} b : forall a (l : list A), skipn a (skipn b l) = skipn (b + a) l.
Proof. induction b as [|b IH]; intros a l; [reflexivity|]. destruct l; [now rewrite !skipn_nil|]. apply IH. Qed.

Lemma read_run_ok {V} (m : buffer V) a n : (forall i, (i < n)%nat -> m (a + Z.of_nat i) <> None) ->
  exists l, read_run m a n = Some l /\ length l = n /\ bytes_at m a l.
Proof.
  intros H. destruct (mapM_all (fun i => m (a + Z.of_nat i)) (seq 0 n)) as (l & E & HL & HN).
  - intros i Hi. apply in_seq in Hi. apply H. lia.
  - exists l. rewrite seq_length in HL. split; [exact E|]. split; [exact HL|]. intros i Hi. symmetry. apply HN. apply nth_error_seq. lia.
Qed.
Lemma bytes_at_unique {V} (m : buffer V) a l l' : length l = length l' -> bytes_at m a l -> bytes_at m a l' -> l = l'.
Proof.
  intros HL H H'. apply nth_error_ext_eq. intros i. destruct (Nat.lt_ge_cases i (length l)) as [Hi|Hi].
  - rewrite <- H by exact Hi. apply H'. lia.
  - rewrite (proj2 (nth_error_None l i)) by lia. symmetry. apply nth_error_None. lia.
Qed.

Lemma write_run_ok {V} l : forall (m : buffer V) a, (forall i, (i < length l)%nat -> m (a + Z.of_nat i) <> None) ->
  exists m', write_run m a l = Some m' /\ bytes_at m' a l /\ (forall x, ~ (a <= x < a + Z.of_nat (length l)) -> m' x = m x) /\ (forall x, m x <> None -> m' x <> None).
Proof.
  induction l as [|v l IH]; intros m a H.
  - exists m. split; [reflexivity|]. split; [intros i Hi; cbn in Hi; lia|]. auto.
  - cbn [write_run]. pose proof (H O ltac:(cbn; lia)) as H0. rewrite Z.add_0_r in H0. destruct (m a) as [w|] eqn:Ew; [|contradiction].
    destruct (IH (bset m a v) (a + 1)) as (m' & E & HB & HO & HP).
    { intros i Hi. unfold bset. destruct (Z.eqb_spec (a + 1 + Z.of_nat i) a); [discriminate|]. replace (a + 1 + Z.of_nat i) with (a + Z.of_nat (S i)) by lia. apply H. cbn. lia. }
    exists m'. split; [exact E|]. split; [|split].
    + intros [|i] Hi.
      * rewrite Z.add_0_r, HO by lia. unfold bset. now rewrite Z.eqb_refl.
      * replace (a + Z.of_nat (S i)) with (a + 1 + Z.of_nat i) by lia. cbn [nth_error]. apply HB. cbn in Hi. lia.
    + intros x Hx. cbn [length] in Hx. rewrite HO by lia. unfold bset. destruct (Z.eqb_spec x a); [lia|reflexivity].
    + intros x Hx. apply HP. unfold bset. destruct (x =? a); [discriminate|exact Hx].
Qed.

(** ---- messages ---- *)
Lemma msg_size_range mx n : 1 <= mx -> 1 <= n -> 1 <= msg_size mx n <= n.
Proof. intros. unfold msg_size. destruct (Z.ltb_spec mx n); lia. Qed.

Lemma back_ok {V} mx : 1 <= mx -> forall f f' (data : list V), (1 <= length data <= f)%nat -> (length data <= f')%nat ->
  exists l, send_back f mx data = Some l /\ recv_back f' mx (Z.of_nat (length data)) l = Some data.
Proof.
  intros Hm. induction f as [|f IH]; intros f' data HL HL'; [lia|]. destruct f' as [|f']; [lia|].
  cbn [send_back]. set (n := Z.of_nat (length data)). assert (Hn : 1 <= n) by (subst n; lia).
  pose proof (msg_size_range mx n Hm Hn) as Hp. set (p := msg_size mx n) in *.
  assert (HM : length (skipn (Z.to_nat (n - p)) data) = Z.to_nat p) by (rewrite skipn_length; subst n; lia).
  destruct (Z.ltb_spec 0 (n - p)) as [Hlt|Hge].
  - assert (HF : length (firstn (Z.to_nat (n - p)) data) = Z.to_nat (n - p)) by (rewrite firstn_length; subst n; lia).
    destruct (IH f' (firstn (Z.to_nat (n - p)) data)) as (l & E & R); [rewrite HF; subst n; lia|rewrite HF; subst n; lia|].
    rewrite E. eexists. split; [reflexivity|]. cbn [recv_back]. fold p. rewrite HM, Z2Nat.id by lia. rewrite Z.eqb_refl.
    rewrite (proj2 (Z.ltb_lt _ _) Hlt). rewrite HF, Z2Nat.id in R by lia. rewrite R. now rewrite firstn_skipn.
  - eexists. split; [reflexivity|]. cbn [recv_back]. fold p. rewrite HM, Z2Nat.id by lia. rewrite Z.eqb_refl.
    rewrite (proj2 (Z.ltb_ge _ _) Hge). replace (n - p) with 0 by lia. reflexivity.
Qed.
Lemma fwd_ok {V} mx : 1 <= mx -> forall f f' (data : list V), (1 <= length data <= f)%nat -> (length data <= f')%nat ->
  exists l, send_fwd f mx data = Some l /\ recv_fwd f' mx (Z.of_nat (length data)) l = Some data.
Proof.
  intros Hm. induction f as [|f IH]; intros f' data HL HL'; [lia|]. destruct f' as [|f']; [lia|].
  cbn [send_fwd]. set (n := Z.of_nat (length data)). assert (Hn : 1 <= n) by (subst n; lia).
  pose proof (msg_size_range mx n Hm Hn) as Hp. set (p := msg_size mx n) in *.
  assert (HM : length (firstn (Z.to_nat p) data) = Z.to_nat p) by (rewrite firstn_length; subst n; lia).
  destruct (Z.ltb_spec 0 (n - p)) as [Hlt|Hge].
  - assert (HF : length (skipn (Z.to_nat p) data) = Z.to_nat (n - p)) by (rewrite skipn_length; subst n; lia).
    destruct (IH f' (skipn (Z.to_nat p) data)) as (l & E & R); [rewrite HF; subst n; lia|rewrite HF; subst n; lia|].
    rewrite E. eexists. split; [reflexivity|]. cbn [recv_fwd]. fold p. rewrite HM, Z2Nat.id by lia. rewrite Z.eqb_refl.
    rewrite (proj2 (Z.ltb_lt _ _) Hlt). rewrite HF, Z2Nat.id in R by lia. rewrite R. now rewrite firstn_skipn.
  - eexists. split; [reflexivity|]. cbn [recv_fwd]. fold p. rewrite HM, Z2Nat.id by lia. rewrite Z.eqb_refl.
    rewrite (proj2 (Z.ltb_ge _ _) Hge). rewrite firstn_all2 by (subst n; lia). reflexivity.
Qed.
Lemma by_messages_back_ok {V} mx (data : list V) : 1 <= mx -> data <> [] -> by_messages_back mx data = Some data.
Proof.
  intros Hm Hd. unfold by_messages_back. assert (1 <= length data)%nat by (destruct data; [contradiction|cbn; lia]).
  destruct (back_ok mx Hm (length data) (length data) data ltac:(lia) ltac:(lia)) as (l & -> & R). exact R.
Qed.
Lemma by_messages_fwd_ok {V} mx (data : list V) : 1 <= mx -> data <> [] -> by_messages_fwd mx data = Some data.
Proof.
  intros Hm Hd. unfold by_messages_fwd. assert (1 <= length data)%nat by (destruct data; [contradiction|cbn; lia]).
  destruct (fwd_ok mx Hm (length data) (length data) data ltac:(lia) ltac:(lia)) as (l & -> & R). exact R.
Qed.

(** ---- a sequence of segments ---- *)
(** [m'] is [m] after the arrival of the segments [L] (source, destination). *)
Definition arrived {V} (op : list V -> list V -> list V) (c : Z) (src m m' : buffer V) (L : list (Z * Z)) : Prop :=
  (forall so d, In (so, d) L -> exists old new, length old = Z.to_nat c /\ length new = Z.to_nat c /\
     bytes_at m d old /\ bytes_at src so new /\ bytes_at m' d (op old new)) /\
  (forall x, (forall so d, In (so, d) L -> ~ (d <= x < d + c)) -> m' x = m x).
Definition keeps {V} (op : list V -> list V -> list V) (n : nat) : Prop :=
  forall old new, length old = n -> length new = n -> length (op old new) = n.
Definition apart (c : Z) (L : list (Z * Z)) : Prop :=
  forall i j x y, nth_error L i = Some x -> nth_error L j = Some y -> i <> j -> forall a, ~ (snd x <= a < snd x + c /\ snd y <= a < snd y + c).

Lemma apply_seg_ok {V} op (m : buffer V) d c new : 1 <= c -> keeps op (Z.to_nat c) -> length new = Z.to_nat c ->
  (forall i, 0 <= i < c -> m (d + i) <> None) ->
  exists old m', apply_seg op m d new = Some m' /\ length old = Z.to_nat c /\ bytes_at m d old /\ bytes_at m' d (op old new) /\
    (forall x, ~ (d <= x < d + c) -> m' x = m x) /\ (forall x, m x <> None -> m' x <> None).
Proof.
  intros Hc HK HN HM. unfold apply_seg. rewrite HN.
  destruct (read_run_ok m d (Z.to_nat c)) as (old & E & HL & HB); [intros i Hi; apply HM; lia|]. rewrite E.
  destruct (write_run_ok (op old new) m d) as (m' & EW & HW & HO & HP).
  { rewrite HK by assumption. intros i Hi. apply HM. lia. }
  exists old, m'. rewrite (HK old new HL HN) in HO. rewrite Z2Nat.id in HO by lia. auto 10.
Qed.

Lemma arrived_cons {V} op c (src m m1 m' : buffer V) so d L old new :
  1 <= c -> keeps op (Z.to_nat c) -> apart c ((so, d) :: L) ->
  length old = Z.to_nat c -> length new = Z.to_nat c -> bytes_at m d old -> bytes_at src so new -> bytes_at m1 d (op old new) ->
  (forall x, ~ (d <= x < d + c) -> m1 x = m x) -> arrived op c src m1 m' L -> arrived op c src m m' ((so, d) :: L).
Proof.
  intros Hc HK HA HLo HLn HBo HBn HB1 HO [H1 H2]. assert (HLop := HK old new HLo HLn).
  assert (DIS : forall so' d', In (so', d') L -> forall a, ~ (d <= a < d + c /\ d' <= a < d' + c)).
  { intros so' d' Hin. apply In_nth_error in Hin as (j & Hj). apply (HA O (S j) (so, d) (so', d') eq_refl Hj). discriminate. }
  split.
  - intros so' d' [E|Hin].
    + injection E as <- <-. exists old, new. repeat split; auto. intros i Hi. rewrite <- HB1 by exact Hi. apply H2. intros so' d' Hin X. apply (DIS so' d' Hin (d + Z.of_nat i)). lia.
    + destruct (H1 so' d' Hin) as (o & n & Ho & Hn & Bo & Bn & B). exists o, n. repeat split; auto. intros i Hi. rewrite <- Bo by exact Hi. symmetry. apply HO.
      intros X. apply (DIS so' d' Hin (d' + Z.of_nat i)). lia.
  - intros x Hx. rewrite H2 by (intros so' d' Hin; apply (Hx so' d'); right; exact Hin). apply HO. apply (Hx so d). left. reflexivity.
Qed.
Lemma apart_tail c x L : apart c (x :: L) -> apart c L.
Proof. intros H i j a b Hi Hj Hij. apply (H (S i) (S j) a b Hi Hj). lia. Qed.

Lemma contigs_ok {V} k eg extra op c (src : buffer V) L : forall m, 1 <= c -> 1 <= k_max k -> keeps op (Z.to_nat c) -> apart c L ->
  (forall so d, In (so, d) L -> forall i, 0 <= i < c -> src (so + i) <> None /\ m (d + i) <> None) ->
  exists m', contigs k eg extra op src m c L = Some m' /\ arrived op c src m m' L.
Proof.
  induction L as [|[so d] L IH]; intros m Hc Hm HK HA HR.
  - exists m. split; [reflexivity|]. split; [intros so d []|auto].
  - cbn [contigs]. unfold contig at 1. rewrite (proj2 (Z.ltb_lt 0 c)) by lia.
    destruct (read_run_ok src so (Z.to_nat c)) as (new & E & HL & HB); [intros i Hi; apply (HR so d (or_introl eq_refl)); lia|]. rewrite E.
    assert (HN : new <> []) by (intros ->; cbn in HL; lia).
    assert (G : (if k_near k then Some new else if eg && eager k (extra + c) then Some new else by_messages_fwd (k_max k) new) = Some new).
    { destruct (k_near k); [reflexivity|]. destruct (eg && _); [reflexivity|]. apply by_messages_fwd_ok; assumption. }
    rewrite G. destruct (apply_seg_ok op m d c new Hc HK HL) as (old & m1 & E1 & HLo & Bo & B1 & HO & HP); [intros i Hi; apply (HR so d (or_introl eq_refl)); lia|].
    rewrite E1. destruct (IH m1 Hc Hm HK (apart_tail _ _ _ HA)) as (m' & E' & HArr).
    { intros so' d' Hin i Hi. destruct (HR so' d' (or_intror Hin) i Hi). auto. }
    exists m'. split; [exact E'|]. exact (arrived_cons op c src m m1 m' so d L old new Hc HK HA HLo HL Bo HB B1 HO HArr).
Qed.

Lemma unpack_ok {V} op c (src : buffer V) L : forall m segs, 1 <= c -> keeps op (Z.to_nat c) -> apart c L ->
  mapM (fun o => read_run src o (Z.to_nat c)) (map fst L) = Some segs ->
  (forall so d, In (so, d) L -> forall i, 0 <= i < c -> src (so + i) <> None /\ m (d + i) <> None) ->
  exists m', unpack_segs op (Z.to_nat c) m (map snd L) (concat segs) = Some m' /\ arrived op c src m m' L.
Proof.
  induction L as [|[so d] L IH]; intros m segs Hc HK HA HM HR.
  - exists m. split; [reflexivity|]. split; [intros so d []|auto].
  - cbn [map fst mapM] in HM.
    destruct (read_run_ok src so (Z.to_nat c)) as (new & E & HL & HB); [intros i Hi; apply (HR so d (or_introl eq_refl)); lia|]. rewrite E in HM.
    destruct (mapM _ (map fst L)) as [segs'|] eqn:ES; [|discriminate]. injection HM as <-.
    cbn [map snd concat unpack_segs]. rewrite (proj2 (Nat.leb_le _ _)) by (rewrite app_length; lia).
    rewrite firstn_app, <- HL, firstn_all, Nat.sub_diag, firstn_O, app_nil_r. rewrite skipn_app, skipn_all, Nat.sub_diag, skipn_O, app_nil_l.
    destruct (apply_seg_ok op m d c new Hc HK HL) as (old & m1 & E1 & HLo & Bo & B1 & HO & HP); [intros i Hi; apply (HR so d (or_introl eq_refl)); lia|].
    rewrite E1. rewrite HL. destruct (IH m1 segs' Hc HK (apart_tail _ _ _ HA) eq_refl) as (m' & E' & HArr).
    { intros so' d' Hin i Hi. destruct (HR so' d' (or_intror Hin) i Hi). auto. }
    exists m'. split; [exact E'|]. exact (arrived_cons op c src m m1 m' so d L old new Hc HK HA HLo HL Bo HB B1 HO HArr).
Qed.

(** ---- the segments of a description ---- *)
Lemma dot_at st : forall t, dot t st = at_strides st t.
Proof. induction st as [|s st IH]; intros [|a t]; cbn; try reflexivity. now rewrite IH. Qed.
Definition segs (cnt sst dst : list Z) : list (Z * Z) := map (fun t => (at_strides sst t, at_strides dst t)) (indices cnt).
Lemma odo_long cnt st : Forall (fun c => 1 <= c) cnt -> (length cnt <= 6)%nat -> (length cnt <= length st)%nat -> zprod cnt <= int_max ->
  odometer mul_long cnt st = Some (map (at_strides st) (indices cnt)).
Proof.
  intros. rewrite odometer_ok by (auto; intros; reflexivity). f_equal. apply map_ext. intros t. apply dot_at.
Qed.
Lemma segs_apart c cnt sst dst : separate c cnt dst -> apart c (segs cnt sst dst).
Proof.
  intros HS i j x y Hi Hj Hij a [Ha Hb]. unfold segs in Hi, Hj. rewrite nth_error_map in Hi, Hj.
  destruct (nth_error (indices cnt) i) as [t|] eqn:Et; [|discriminate]. destruct (nth_error (indices cnt) j) as [t'|] eqn:Et'; [|discriminate].
  injection Hi as <-. injection Hj as <-. cbn [snd] in *. apply Hij.
  assert (t = t').
  { apply (HS (a - at_strides dst t) t (a - at_strides dst t') t'); try lia; apply indices_In; eapply nth_error_In; eassumption. }
  subst t'. apply (proj1 (NoDup_nth_error (indices cnt)) (indices_NoDup cnt)); [apply nth_error_Some; congruence|congruence].
Qed.
Lemma segs_valid {V} (src m : buffer V) c cnt sst dst : has_segments src c cnt sst -> has_segments m c cnt dst ->
  forall so d, In (so, d) (segs cnt sst dst) -> forall i, 0 <= i < c -> src (so + i) <> None /\ m (d + i) <> None.
Proof.
  intros HS HD so d Hin i Hi. apply in_map_iff in Hin as (t & E & Ht). injection E as <- <-. apply indices_In in Ht. auto.
Qed.
Lemma arrived_same {V} op c (src m m' : buffer V) cnt sst dst : arrived op c src m m' (segs cnt sst dst) -> other_bytes_same c cnt dst m m'.
Proof.
  intros [_ H] a Ha. apply H. intros so d Hin X. apply in_map_iff in Hin as (t & E & Ht). injection E as <- <-. apply indices_In in Ht.
  apply (Ha (a - at_strides dst t) t); [lia|exact Ht|lia].
Qed.

Definition good_desc (c : Z) (cnt sst dst : list Z) : Prop :=
  1 <= c /\ Forall (fun n => 1 <= n) cnt /\ (length cnt <= 6)%nat /\ length sst = length cnt /\ length dst = length cnt /\ c * zprod cnt <= int_max.

Lemma desc_prod c cnt : 1 <= c -> Forall (fun n => 1 <= n) cnt -> c * zprod cnt <= int_max -> 1 <= zprod cnt <= int_max.
Proof. intros Hc H HP. assert (1 <= zprod cnt) by (apply zprod_pos; exact H). nia. Qed.

Lemma segmentwise_ok {V} k eg extra op (src m : buffer V) c cnt sst dst :
  good_desc c cnt sst dst -> 1 <= k_max k -> keeps op (Z.to_nat c) -> separate c cnt dst -> has_segments src c cnt sst -> has_segments m c cnt dst ->
  exists m', segmentwise k eg extra op src sst m dst (c :: cnt) = Some m' /\ arrived op c src m m' (segs cnt sst dst).
Proof.
  intros (Hc & HF & H6 & HS & HD & HP) Hm HK HSep HVs HVd. pose proof (desc_prod c cnt Hc HF HP). unfold segmentwise.
  rewrite !odo_long by (auto; lia). rewrite combine_map. apply contigs_ok; auto. apply (segs_apart c cnt sst dst HSep). apply segs_valid; assumption.
Qed.
Lemma packed_size_ok c cnt : 1 <= c -> Forall (fun n => 1 <= n) cnt -> c * zprod cnt <= int_max -> packed_size (c :: cnt) = Some (zprod cnt * c).
Proof.
  intros Hc HF HP. pose proof (desc_prod c cnt Hc HF HP). unfold packed_size. rewrite int_prod_ok by (auto; lia). rewrite to_int_ok by nia. f_equal. ring.
Qed.
Lemma indices_nonempty cnt : Forall (fun n => 1 <= n) cnt -> indices cnt <> [].
Proof.
  intros H E. assert (HI : In (repeat 0 (length cnt)) (indices cnt)).
  { apply indices_In. clear E. induction H; cbn; [exact I|]. split; [lia|exact IHForall]. }
  rewrite E in HI. destruct HI.
Qed.
Lemma packed_ok {V} k eg extra op (src m : buffer V) c cnt sst dst :
  good_desc c cnt sst dst -> 1 <= k_max k -> keeps op (Z.to_nat c) -> separate c cnt dst -> has_segments src c cnt sst -> has_segments m c cnt dst ->
  exists m', packed k eg extra op src sst m dst (c :: cnt) = Some m' /\ arrived op c src m m' (segs cnt sst dst).
Proof.
  intros (Hc & HF & H6 & HS & HD & HP) Hm HK HSep HVs HVd. pose proof (desc_prod c cnt Hc HF HP). unfold packed.
  rewrite (proj2 (Nat.leb_le _ _)) by (cbn; lia). unfold pack, unpack. rewrite packed_size_ok by auto.
  rewrite !odo_long by (auto; lia).
  destruct (mapM_all (fun o => read_run src o (Z.to_nat c)) (map (at_strides sst) (indices cnt))) as (ls & E & HL & HN).
  { intros o Ho. apply in_map_iff in Ho as (t & <- & Ht). apply indices_In in Ht.
    destruct (read_run_ok src (at_strides sst t) (Z.to_nat c)) as (l & -> & _); [intros i Hi; apply HVs; [lia|exact Ht]|discriminate]. }
  rewrite E. assert (NE : concat ls <> []).
  { destruct (indices cnt) as [|t l] eqn:EI; [exfalso; exact (indices_nonempty cnt HF EI)|]. cbn [map] in E, HN. destruct ls as [|x ls]; [discriminate|].
    specialize (HN O _ eq_refl). cbn [nth_error] in HN. symmetry in HN. destruct (read_run_ok src (at_strides sst t) (Z.to_nat c)) as (y & Ey & HLy & _).
    { intros i Hi. apply HVs; [lia|]. apply indices_In. rewrite EI. left. reflexivity. }
    rewrite Ey in HN. injection HN as ->. destruct x; [cbn in HLy; lia|discriminate]. }
  assert (G : (if eg && eager k (extra + k_stride k + Z.of_nat (length (concat ls))) then Some (concat ls) else by_messages_back (k_max k) (concat ls)) = Some (concat ls)).
  { destruct (eg && _); [reflexivity|]. apply by_messages_back_ok; assumption. }
  rewrite G. replace (map (at_strides dst) (indices cnt)) with (map snd (segs cnt sst dst)) by (unfold segs; rewrite map_map; reflexivity).
  apply unpack_ok; auto; [apply segs_apart; exact HSep| |apply segs_valid; assumption].
  unfold segs. rewrite map_map. exact E.
Qed.

Lemma arrived_copied {V} c (src m m' : buffer V) cnt sst dst : 1 <= c -> arrived copy_op c src m m' (segs cnt sst dst) -> strided_copied c cnt sst dst src m m'.
Proof.
  intros Hc HA. split; [|eapply arrived_same; eassumption]. intros i t Hi Ht. destruct HA as [HA _].
  destruct (HA (at_strides sst t) (at_strides dst t)) as (old & new & HLo & HLn & _ & Bn & B).
  { apply in_map_iff. exists t. split; [reflexivity|apply indices_In; exact Ht]. }
  specialize (B (Z.to_nat i)). specialize (Bn (Z.to_nat i)). unfold copy_op in B. rewrite Z2Nat.id in * by lia. rewrite B, Bn by lia. reflexivity.
Qed.

(** ---- accumulate ---- *)
Lemma acc_bytes_length {V} k es (f : list V -> list V -> list V) : (forall a b, length a = es -> length b = es -> length (f a b) = es) ->
  forall old new, length old = length new -> (k * es <= length old)%nat -> length (acc_bytes k es f old new) = length old.
Proof.
  intros Hf. induction k as [|k IH]; intros old new HL HK; [reflexivity|]. cbn [acc_bytes]. rewrite app_length, Hf by (rewrite firstn_length; lia).
  rewrite IH by (rewrite ?skipn_length; lia). rewrite skipn_length. lia.
Qed.
Lemma acc_bytes_nth {V} k es (f : list V -> list V -> list V) : (forall a b, length a = es -> length b = es -> length (f a b) = es) ->
  forall e old new, length old = length new -> (k * es <= length old)%nat -> (e < k)%nat ->
  firstn es (skipn (e * es) (acc_bytes k es f old new)) = f (firstn es (skipn (e * es) old)) (firstn es (skipn (e * es) new)).
Proof.
  intros Hf. induction k as [|k IH]; intros e old new HL HK He; [lia|]. cbn [acc_bytes].
  assert (H0 : length (f (firstn es old) (firstn es new)) = es) by (apply Hf; rewrite firstn_length; lia).
  destruct e as [|e].
  - cbn [Nat.mul skipn]. rewrite firstn_app, H0, Nat.sub_diag, firstn_O, app_nil_r. apply firstn_all2. lia.
  - cbn [Nat.mul]. rewrite skipn_app, H0. rewrite skipn_all2 by lia. cbn [app]. replace (es + e * es - es)%nat with (e * es)%nat by lia.
    rewrite IH by (rewrite ?skipn_length; lia). rewrite !skipn_skipn'. reflexivity.
Qed.

Lemma acc_op_keeps {V} es (f : list V -> list V -> list V) n : 1 <= es ->
  (forall a b, length a = Z.to_nat es -> length b = Z.to_nat es -> length (f a b) = Z.to_nat es) -> keeps (acc_op es f) n.
Proof.
  intros He Hf old new HLo HLn. unfold acc_op. rewrite acc_bytes_length; auto; [lia|].
  pose proof (Z.div_mod (Z.of_nat (length old)) es ltac:(lia)). pose proof (Z.mod_pos_bound (Z.of_nat (length old)) es ltac:(lia)).
  assert (0 <= Z.of_nat (length old) / es) by (apply Z.div_pos; lia). nia.
Qed.
Lemma bytes_at_sub {V} (m : buffer V) a l p n : bytes_at m a l -> bytes_at m (a + Z.of_nat p) (firstn n (skipn p l)).
Proof.
  intros H i Hi. rewrite firstn_length, skipn_length in Hi. rewrite <- Z.add_assoc, <- Nat2Z.inj_add, H by lia.
  assert (HI : (i < n)%nat) by lia. assert (HP : (p + i < length l)%nat) by lia. clear - HI HP.
  destruct (nth_error l (p + i)) as [v|] eqn:E; [|apply nth_error_None in E; lia].
  rewrite <- (firstn_skipn p l) in E. rewrite nth_error_app2 in E by (rewrite firstn_length; lia). rewrite firstn_length in E. replace (p + i - Nat.min p (length l))%nat with i in E by lia.
  rewrite <- E. rewrite <- (firstn_skipn n (skipn p l)) at 1. rewrite nth_error_app1; [reflexivity|]. apply nth_error_Some. intros X.
  rewrite <- (firstn_skipn n (skipn p l)) in E. apply nth_error_None in X. rewrite firstn_length, skipn_length in X. lia.
Qed.
Lemma arrived_acc {V} es f c (src m m' : buffer V) cnt sst dst : 1 <= es -> 1 <= c ->
  (forall a b, length a = Z.to_nat es -> length b = Z.to_nat es -> length (f a b) = Z.to_nat es) ->
  arrived (acc_op es f) c src m m' (segs cnt sst dst) -> strided_accumulated es f c cnt sst dst src m m'.
Proof.
  intros He Hc Hf HA. split; [|eapply arrived_same; eassumption]. intros e t l r He0 He1 Ht HLl HLr Bl Br. destruct HA as [HA _].
  destruct (HA (at_strides sst t) (at_strides dst t)) as (old & new & HLo & HLn & Bo & Bn & B).
  { apply in_map_iff. exists t. split; [reflexivity|apply indices_In; exact Ht]. }
  set (n := Z.to_nat es) in *. set (p := (Z.to_nat e * n)%nat).
  assert (EP : Z.of_nat p = e * es) by (subst p n; lia).
  assert (HP : (p + n <= Z.to_nat c)%nat) by (subst p n; nia).
  assert (El : l = firstn n (skipn p old)).
  { eapply bytes_at_unique; [rewrite firstn_length, skipn_length; lia|exact Bl|]. rewrite <- EP. now apply bytes_at_sub. }
  assert (Er : r = firstn n (skipn p new)).
  { eapply bytes_at_unique; [rewrite firstn_length, skipn_length; lia|exact Br|]. rewrite <- EP. now apply bytes_at_sub. }
  rewrite El, Er. subst p. unfold acc_op in B. rewrite HLo in B.
  assert (HK : Z.of_nat (Z.to_nat (Z.of_nat (Z.to_nat c) / es)) = c / es) by (rewrite (Z2Nat.id c) by lia; apply Z2Nat.id, Z.div_pos; lia).
  assert (HK1 : e < c / es) by (assert (e + 1 <= c / es) by (apply Z.div_le_lower_bound; lia); lia).
  assert (HK2 : c / es * es <= c) by (pose proof (Z.div_mod c es ltac:(lia)); pose proof (Z.mod_pos_bound c es ltac:(lia)); lia).
  rewrite <- (acc_bytes_nth (Z.to_nat (Z.of_nat (Z.to_nat c) / es)) n f Hf (Z.to_nat e) old new) by (subst n; nia).
  rewrite <- EP. apply bytes_at_sub. exact B.
Qed.

(** ---- data types ---- *)
Lemma dtype_sizes_ok st : forall prev cnt, 1 <= prev -> nested prev st cnt -> Forall (fun c => 1 <= c) cnt ->
  exists z, dtype_sizes prev st cnt = Some z /\ forall k0 t, in_range0 cnt (k0 :: t) -> prev * sub_offset z (k0 :: t) = prev * k0 + at_strides st t.
Proof.
  induction st as [|s st IH]; intros prev cnt Hp HN HF.
  - destruct cnt as [|c [|c2 cnt]]; try (destruct HN; fail). apply Forall_cons_iff in HF as [Hc _]. exists [c]. cbn [dtype_sizes].
    rewrite (proj2 (Z.leb_le 1 c) Hc). split; [reflexivity|]. intros k0 t Hk. cbn. destruct t; ring.
  - destruct cnt as [|c cnt]; [destruct HN|]. cbn [nested] in HN. destruct HN as (q & -> & Hq & HN). apply Forall_cons_iff in HF as [Hc HF].
    assert (Hs : 1 <= prev * q) by nia. destruct (IH (prev * q) cnt Hs HN HF) as (z & E & HZ). exists (q :: z). cbn [dtype_sizes].
    rewrite cdiv_pos by lia. rewrite E. rewrite (Z.mul_comm prev q), Z.div_mul by lia.
    rewrite (proj2 (Z.leb_le 1 c) Hc), (proj2 (Z.leb_le c q) Hq). split; [reflexivity|].
    intros k0 t Hk. cbn [in_range0] in Hk. destruct Hk as [_ Hk]. destruct t as [|k1 t].
    { destruct cnt; [destruct st; destruct HN|destruct Hk]. }
    cbn [sub_offset at_strides]. specialize (HZ k1 t Hk). cbn [sub_offset] in HZ. nia.
Qed.
Lemma write_at_ok {V} l : forall (m : buffer V), NoDup (map fst l) -> (forall a, In a (map fst l) -> m a <> None) ->
  exists m', write_at m l = Some m' /\ (forall a v, In (a, v) l -> m' a = Some v) /\ (forall a, ~ In a (map fst l) -> m' a = m a).
Proof.
  induction l as [|[a v] l IH]; intros m ND HD.
  - exists m. split; [reflexivity|]. split; [intros a v []|auto].
  - cbn [map fst] in *. apply NoDup_cons_iff in ND as [Hn ND]. cbn [write_at]. destruct (m a) as [w|] eqn:Ew; [|exfalso; exact (HD a (or_introl eq_refl) Ew)].
    destruct (IH (bset m a v) ND) as (m' & E & H1 & H2).
    { intros b Hb. unfold bset. destruct (b =? a); [discriminate|]. apply HD. right. exact Hb. }
    exists m'. split; [exact E|]. split.
    + intros b x [EQ|Hin]; [|auto]. injection EQ as <- <-. rewrite H2 by exact Hn. unfold bset. now rewrite Z.eqb_refl.
    + intros b Hb. cbn [In] in Hb. rewrite H2 by tauto. unfold bset. destruct (Z.eqb_spec b a); [subst; tauto|reflexivity].
Qed.
Lemma combine_fst {A B} (l : list A) : forall (r : list B), length l = length r -> map fst (combine l r) = l.
Proof. induction l as [|a l IH]; intros [|b r] H; cbn in *; try discriminate; [reflexivity|]. f_equal. apply IH. lia. Qed.

Lemma datatype_ok {V} (src m : buffer V) c cnt sst dst :
  1 <= c -> Forall (fun n => 1 <= n) cnt -> (length cnt <= 6)%nat -> nested 1 sst (c :: cnt) -> nested 1 dst (c :: cnt) ->
  separate c cnt dst -> has_segments src c cnt sst -> has_segments m c cnt dst ->
  exists m', by_datatype src sst m dst (c :: cnt) = Some m' /\ strided_copied c cnt sst dst src m m'.
Proof.
  intros Hc HF H6 NS ND HSep HVs HVd. assert (HF' : Forall (fun n => 1 <= n) (c :: cnt)) by (constructor; assumption).
  destruct (dtype_sizes_ok sst 1 (c :: cnt) ltac:(lia) NS HF') as (zs & Es & Hs).
  destruct (dtype_sizes_ok dst 1 (c :: cnt) ltac:(lia) ND HF') as (zd & Ed & Hd).
  unfold by_datatype, dtype. rewrite (proj2 (Nat.leb_le _ _)) by (cbn; lia). rewrite Es, Ed.
  set (I := indices (c :: cnt)).
  assert (IN : forall k, In k I -> exists i t, k = i :: t /\ 0 <= i < c /\ in_range0 cnt t /\ sub_offset zs k = at_strides sst t + i /\ sub_offset zd k = at_strides dst t + i).
  { intros k Hk. apply indices_In in Hk. destruct k as [|i t]; [destruct Hk|]. pose proof (Hs i t Hk). pose proof (Hd i t Hk). destruct Hk as [Hi Ht].
    exists i, t. repeat split; auto; lia. }
  assert (NO : forall i t, 0 <= i < c -> in_range0 cnt t -> In (i :: t) I) by (intros i t Hi Ht; apply indices_In; split; assumption).
  destruct (mapM_all src (map (sub_offset zs) I)) as (data & E & HL & HN).
  { intros a Ha. apply in_map_iff in Ha as (k & <- & Hk). destruct (IN k Hk) as (i & t & _ & Hi & Ht & -> & _). apply HVs; assumption. }
  rewrite E. rewrite map_length in HL. destruct (write_at_ok (combine (map (sub_offset zd) I) data) m) as (m' & EW & H1 & H2).
  - rewrite combine_fst by (rewrite map_length; lia). apply NoDup_map_on; [apply indices_NoDup|]. intros k k' Hk Hk' EQ.
    destruct (IN k Hk) as (i & t & -> & Hi & Ht & _ & A). destruct (IN k' Hk') as (i' & t' & -> & Hi' & Ht' & _ & B).
    assert (t = t') by (apply (HSep i t i' t'); auto; lia). subst t'. f_equal. lia.
  - rewrite combine_fst by (rewrite map_length; lia). intros a Ha. apply in_map_iff in Ha as (k & <- & Hk). destruct (IN k Hk) as (i & t & _ & Hi & Ht & _ & ->). apply HVd; assumption.
  - exists m'. split; [exact EW|]. split.
    + intros i t Hi Ht. pose proof (NO i t Hi Ht) as Hk. destruct (IN _ Hk) as (i' & t' & EQ & _ & _ & A & B). injection EQ as <- <-.
      rewrite <- A, <- B. apply In_nth_error in Hk as (j & Hj).
      pose proof (HN j (sub_offset zs (i :: t)) ltac:(rewrite nth_error_map, Hj; reflexivity)) as HD.
      destruct (nth_error data j) as [v|] eqn:Ev; [|apply nth_error_None in Ev; assert (j < length I)%nat by (apply nth_error_Some; congruence); lia].
      rewrite <- HD. apply H1. clear - Hj Ev. revert j data Hj Ev. induction I as [|k I IH]; intros [|j] [|x data] Hj Ev; cbn in *; try discriminate; [left; congruence|right; eauto].
    + intros a Ha. apply H2. rewrite combine_fst by (rewrite map_length; lia). intros X. apply in_map_iff in X as (k & EQ & Hk).
      destruct (IN k Hk) as (i & t & _ & Hi & Ht & _ & A). apply (Ha i t Hi Ht). lia.
Qed.

(** ---- the three operations ---- *)
Lemma contig_segs {V} k eg extra op (src m : buffer V) c m' : contigs k eg extra op src m c (segs [] [] []) = Some m' -> contig k eg extra op src 0 m 0 c = Some m'.
Proof. cbn. destruct (contig k eg extra op src 0 m 0 c); [auto|discriminate]. Qed.

Lemma xfer_ok {V} k eg extra op (src m : buffer V) c cnt sst dst :
  good_desc c cnt sst dst -> 1 <= k_max k -> keeps op (Z.to_nat c) -> separate c cnt dst -> has_segments src c cnt sst -> has_segments m c cnt dst ->
  cnt = [] -> exists m', contig k eg extra op src 0 m 0 c = Some m' /\ arrived op c src m m' (segs cnt sst dst).
Proof.
  intros GD Hm HK HSep HVs HVd ->. destruct (segmentwise_ok k eg extra op src m c [] sst dst GD Hm HK HSep HVs HVd) as (m' & E & HA).
  destruct GD as (_ & _ & _ & HS & HD & _). destruct sst; [|discriminate]. destruct dst; [|discriminate].
  exists m'. split; [|exact HA]. apply contig_segs. exact E.
Qed.

Theorem strided_ok {V} k eg (src m : buffer V) c cnt sst dst :
  good_desc c cnt sst dst -> 1 <= k_max k -> separate c cnt dst -> has_segments src c cnt sst -> has_segments m c cnt dst ->
  (k_dtype k = true -> k_far k = true -> k_thr k < c * zprod cnt -> nested 1 sst (c :: cnt) /\ nested 1 dst (c :: cnt)) ->
  exists m', strided_xfer k eg src sst m dst (c :: cnt) = Some m' /\ strided_copied c cnt sst dst src m m'.
Proof.
  intros GD Hm HSep HVs HVd HN. pose proof GD as (Hc & HF & H6 & HS & HD & HP).
  assert (HK : keeps (@copy_op V) (Z.to_nat c)) by (intros a b _ H; exact H).
  assert (FIN : forall m', arrived copy_op c src m m' (segs cnt sst dst) -> strided_copied c cnt sst dst src m m') by (intros; now apply arrived_copied).
  destruct cnt as [|c2 cnt].
  - destruct (xfer_ok k eg 0 copy_op src m c [] sst dst GD Hm HK HSep HVs HVd eq_refl) as (m' & E & HA). exists m'. auto.
  - unfold strided_xfer. rewrite packed_size_ok by auto.
    assert (G : exists m', (if k_packed k && k_far k then packed k eg 0 copy_op src sst m dst (c :: c2 :: cnt) else segmentwise k eg 0 copy_op src sst m dst (c :: c2 :: cnt)) = Some m' /\ strided_copied c (c2 :: cnt) sst dst src m m').
    { destruct (k_packed k && k_far k).
      - destruct (packed_ok k eg 0 copy_op src m c (c2 :: cnt) sst dst GD Hm HK HSep HVs HVd) as (m' & E & HA). exists m'. auto.
      - destruct (segmentwise_ok k eg 0 copy_op src m c (c2 :: cnt) sst dst GD Hm HK HSep HVs HVd) as (m' & E & HA). exists m'. auto. }
    destruct (k_dtype k) eqn:E1; [|exact G].
    destruct (k_far k) eqn:E2; [|exact G]. cbn [andb].
    destruct (Z.ltb_spec (k_thr k) (zprod (c2 :: cnt) * c)) as [Hlt|Hge]; [|exact G].
    rewrite Z.mul_comm in Hlt. destruct (HN eq_refl eq_refl Hlt) as [N1 N2]. apply datatype_ok; auto.
Qed.

Theorem accs_ok {V} k es f (src m : buffer V) c cnt sst dst : 1 <= es ->
  (forall a b, length a = Z.to_nat es -> length b = Z.to_nat es -> length (f a b) = Z.to_nat es) ->
  good_desc c cnt sst dst -> 1 <= k_max k -> separate c cnt dst -> has_segments src c cnt sst -> has_segments m c cnt dst ->
  exists m', nb_accs k es f src sst m dst (c :: cnt) = Some m' /\ strided_accumulated es f c cnt sst dst src m m'.
Proof.
  intros He Hf GD Hm HSep HVs HVd. pose proof GD as (Hc & _).
  assert (HK : keeps (acc_op es f) (Z.to_nat c)) by (apply acc_op_keeps; assumption).
  assert (FIN : forall m', arrived (acc_op es f) c src m m' (segs cnt sst dst) -> strided_accumulated es f c cnt sst dst src m m') by (intros; now apply arrived_acc).
  destruct cnt as [|c2 cnt].
  - destruct (xfer_ok k true es (acc_op es f) src m c [] sst dst GD Hm HK HSep HVs HVd eq_refl) as (m' & E & HA). exists m'. auto.
  - unfold nb_accs. destruct (k_packed k && k_far k).
    + destruct (packed_ok k true es (acc_op es f) src m c (c2 :: cnt) sst dst GD Hm HK HSep HVs HVd) as (m' & E & HA). exists m'. auto.
    + destruct (segmentwise_ok k true es (acc_op es f) src m c (c2 :: cnt) sst dst GD Hm HK HSep HVs HVd) as (m' & E & HA). exists m'. auto.
Qed.
