(** Pointwise reasoning on vectors, and neighbouring blocks. *)
From Coq Require Import ZArith List Lia Bool.
From Verif Require Import SpecBox SpecStore SpecPeri MBase SpecCopy MXfer MOdo MGhost LRadix LAxis LIterReg LXfer LOdo LIterBlk.

Definition tab {A} (n : nat) (f : nat -> A) : list A := map f (seq 0 n).
Lemma tab_length {A} n (f : nat -> A) : length (tab n f) = n.
Proof. unfold tab. now rewrite map_length, seq_length. Qed.
Lemma nth_tab {A} n (f : nat -> A) j d : (j < n)%nat -> nth j (tab n f) d = f j.
Proof.
  intros H. unfold tab. rewrite (nth_indep _ d (f (nth j (seq 0 n) O))) by (now rewrite map_length, seq_length).
  rewrite map_nth. now rewrite seq_nth.
Qed.
Lemma tab_S {A} n (f : nat -> A) : tab (S n) f = f O :: tab n (fun j => f (S j)).
Proof. unfold tab. cbn. now rewrite <- seq_shift, map_map. Qed.
Lemma list_ext (l l' : list Z) n : length l = n -> length l' = n -> (forall j, (j < n)%nat -> nth j l 0 = nth j l' 0) -> l = l'.
Proof. intros H1 H2 H. apply (nth_ext _ _ 0 0); [congruence|]. intros j Hj. apply H. congruence. Qed.

Lemma Sn_all (P : nat -> Prop) n : (forall j, (j < S n)%nat -> P j) <-> P O /\ forall j, (j < n)%nat -> P (S j).
Proof.
  split.
  - intros H. split; [apply H; lia|]. intros j Hj. apply H. lia.
  - intros [H0 H] [|j] Hj; [exact H0|]. apply H. lia.
Qed.

Lemma in_box_nth n : forall lo hi x, length lo = n -> length hi = n -> length x = n ->
  (in_box lo hi x <-> forall j, (j < n)%nat -> nth j lo 0 <= nth j x 0 <= nth j hi 0).
Proof.
  induction n as [|n IH]; intros [|l lo] [|h hi] [|a x]; try discriminate; intros L1 L2 L3.
  - cbn. split; [intros _ j Hj; lia|tauto].
  - cbn [in_box]. rewrite (Sn_all (fun j => nth j (l :: lo) 0 <= nth j (a :: x) 0 <= nth j (h :: hi) 0)). cbn [nth].
    rewrite (IH lo hi x) by (cbn in *; lia). tauto.
Qed.
Lemma in_range0_nth n : forall ns k, length ns = n -> length k = n ->
  (in_range0 ns k <-> forall j, (j < n)%nat -> 0 <= nth j k 0 < nth j ns 0).
Proof.
  induction n as [|n IH]; intros [|c ns] [|a k]; try discriminate; intros L1 L2.
  - cbn. split; [intros _ j Hj; lia|tauto].
  - cbn [in_range0]. rewrite (Sn_all (fun j => 0 <= nth j (a :: k) 0 < nth j (c :: ns) 0)). cbn [nth].
    rewrite (IH ns k) by (cbn in *; lia). tauto.
Qed.
Lemma in_box_lengths lo : forall hi x, in_box lo hi x -> length lo = length x /\ length hi = length x.
Proof. induction lo as [|l lo IH]; intros [|h hi] [|a x]; cbn; try tauto. intros [_ H]. destruct (IH _ _ H). lia. Qed.

Lemma nth_vadd x : forall y j, length x = length y -> (j < length x)%nat -> nth j (vadd x y) 0 = nth j x 0 + nth j y 0.
Proof. induction x as [|a x IH]; intros [|b y] [|j] H Hj; try discriminate; cbn in *; try lia. apply IH; lia. Qed.
Lemma nth_vsub x : forall y j, length x = length y -> (j < length x)%nat -> nth j (vsub x y) 0 = nth j x 0 - nth j y 0.
Proof. induction x as [|a x IH]; intros [|b y] [|j] H Hj; try discriminate; cbn in *; try lia. apply IH; lia. Qed.
Lemma padded_length n : forall lo hi w, length lo = n -> length hi = n -> length w = n -> length (padded lo hi w) = n.
Proof. induction n as [|n IH]; intros [|l lo] [|h hi] [|a w]; try discriminate; cbn; intros; auto; try (f_equal; apply IH; lia). Qed.
Lemma nth_padded n : forall lo hi w j, length lo = n -> length hi = n -> length w = n -> (j < n)%nat ->
  nth j (padded lo hi w) 0 = nth j hi 0 - nth j lo 0 + 1 + 2 * nth j w 0.
Proof. induction n as [|n IH]; intros [|l lo] [|h hi] [|a w] [|j]; try discriminate; cbn; intros; try lia. apply IH; lia. Qed.
Lemma wrapv_length dims : forall x, length dims = length x -> length (wrapv dims x) = length x.
Proof. induction dims as [|d dims IH]; intros [|a x]; try discriminate; cbn; auto. Qed.
Lemma nth_wrapv dims : forall x j, length dims = length x -> (j < length x)%nat -> nth j (wrapv dims x) 0 = wrap (nth j dims 0) (nth j x 0).
Proof. induction dims as [|d dims IH]; intros [|a x] [|j] H Hj; try discriminate; cbn in *; try lia. apply IH; lia. Qed.

Definition ax0 := Axis 0 0 (fun _ => 0) (fun _ => 0).
Lemma nth_blo axs : forall is j, length axs = length is -> (j < length is)%nat -> nth j (blo axs is) 0 = alo (nth j axs ax0) (nth j is 0).
Proof. induction axs as [|a axs IH]; intros [|i is] [|j] H Hj; try discriminate; cbn in *; try lia. apply IH; lia. Qed.
Lemma nth_bhi axs : forall is j, length axs = length is -> (j < length is)%nat -> nth j (bhi axs is) 0 = ahi (nth j axs ax0) (nth j is 0).
Proof. induction axs as [|a axs IH]; intros [|i is] [|j] H Hj; try discriminate; cbn in *; try lia. apply IH; lia. Qed.

Lemma upd_len {A} i (v : A) l : length (upd i v l) = length l.
Proof. revert i; induction l as [|a l IH]; intros [|i]; cbn; auto. Qed.
Lemma nth_upd {A} (v d : A) l : forall i j, (j < length l)%nat -> nth j (upd i v l) d = if Nat.eqb j i then v else nth j l d.
Proof. induction l as [|a l IH]; intros [|i] [|j] H; cbn in *; try lia; auto. apply IH. lia. Qed.

Lemma rem_region_length s n : forall idx lo hi dims w, length lo = n -> length hi = n -> length dims = n -> length w = n ->
  length (fst (rem_region s idx lo hi dims w)) = n /\ length (snd (rem_region s idx lo hi dims w)) = n.
Proof.
  induction n as [|n IH]; intros idx [|l lo] [|h hi] [|d dims] [|g w]; try discriminate; cbn [rem_region fst snd length]; intros; auto.
  destruct (IH (idx - 1) lo hi dims w); cbn in *; try lia.
Qed.
Lemma nth_rem_region s n : forall i idx lo hi dims w j, length lo = n -> length hi = n -> length dims = n -> length w = n -> (j < n)%nat -> idx = Z.of_nat i ->
  nth j (fst (rem_region s idx lo hi dims w)) 0 = (if Nat.eqb j i then fst (rem_dim s (nth j lo 0) (nth j hi 0) (nth j dims 0) (nth j w 0)) else nth j lo 0) /\
  nth j (snd (rem_region s idx lo hi dims w)) 0 = (if Nat.eqb j i then snd (rem_dim s (nth j lo 0) (nth j hi 0) (nth j dims 0) (nth j w 0)) else nth j hi 0).
Proof.
  assert (HN : forall n idx lo hi dims w j, length lo = n -> length hi = n -> length dims = n -> length w = n -> (j < n)%nat -> idx < 0 ->
    nth j (fst (rem_region s idx lo hi dims w)) 0 = nth j lo 0 /\ nth j (snd (rem_region s idx lo hi dims w)) 0 = nth j hi 0).
  { clear n. induction n as [|n IH]; intros idx [|l lo] [|h hi] [|d dims] [|g w] j; try discriminate; try lia.
    intros. cbn [rem_region fst snd]. destruct (Z.eqb_spec idx 0); [lia|]. destruct j as [|j]; [auto|]. cbn [nth fst snd]. apply IH; cbn in *; lia. }
  induction n as [|n IH]; intros i idx [|l lo] [|h hi] [|d dims] [|g w] j; try discriminate; try lia.
  intros L1 L2 L3 L4 Hj ->. cbn [rem_region fst snd]. destruct i as [|i].
  - change (Z.of_nat 0 =? 0) with true. cbn [fst snd]. destruct j as [|j]; [auto|]. cbn [nth Nat.eqb]. apply (HN n); cbn in *; lia.
  - destruct (Z.eqb_spec (Z.of_nat (S i)) 0); [lia|]. destruct j as [|j]; [auto|]. cbn [nth Nat.eqb fst snd]. apply IH; try (cbn [length] in *; lia).
Qed.

Definition lb0 := LBox 0 0 0 0.
Lemma msg_box_length neg n : forall idx lo hi w inc, length lo = n -> length hi = n -> length w = n -> length inc = n ->
  length (msg_box neg idx lo hi w inc) = n.
Proof. induction n as [|n IH]; intros idx [|l lo] [|h hi] [|g w] [|i inc]; try discriminate; cbn; intros; auto; try (f_equal; apply IH; lia). Qed.
Lemma nth_msg_box neg n : forall idx lo hi w inc j, length lo = n -> length hi = n -> length w = n -> length inc = n -> (j < n)%nat ->
  nth j (msg_box neg idx lo hi w inc) lb0 = msg_dim neg (idx =? Z.of_nat j) (nth j lo 0) (nth j hi 0) (nth j w 0) (nth j inc 0).
Proof.
  induction n as [|n IH]; intros idx [|l lo] [|h hi] [|g w] [|i inc] j; try discriminate; try lia. intros. destruct j as [|j]; [reflexivity|].
  cbn [msg_box nth]. rewrite IH by (cbn in *; lia). f_equal. destruct (Z.eqb_spec (idx - 1) (Z.of_nat j)), (Z.eqb_spec idx (Z.of_nat (S j))); lia || reflexivity.
Qed.

(** ---- neighbouring blocks of an axis ---- *)
Definition prv (n i : Z) : Z := if i =? 0 then n - 1 else i - 1.
Definition nxt (n i : Z) : Z := if i =? n - 1 then 0 else i + 1.
Lemma prv_range n i : 0 <= i < n -> 0 <= prv n i < n.
Proof. unfold prv. destruct (Z.eqb_spec i 0); lia. Qed.
Lemma nxt_range n i : 0 <= i < n -> 0 <= nxt n i < n.
Proof. unfold nxt. destruct (Z.eqb_spec i (n - 1)); lia. Qed.
Lemma prv_nxt n i : 0 <= i < n -> prv n (nxt n i) = i.
Proof. unfold prv, nxt. intros H. destruct (Z.eqb_spec i (n - 1)); [cbn; lia|]. destruct (Z.eqb_spec (i + 1) 0); lia. Qed.
Lemma nxt_prv n i : 0 <= i < n -> nxt n (prv n i) = i.
Proof. unfold prv, nxt. intros H. destruct (Z.eqb_spec i 0); [subst; rewrite Z.eqb_refl; lia|]. destruct (Z.eqb_spec (i - 1) (n - 1)); lia. Qed.

(** Every block of the axis has at least [w] elements and at least one. *)
Definition wide_axis (w : Z) (a : axis) : Prop := forall i, 0 <= i < an a -> alo a i <= ahi a i /\ w <= ahi a i - alo a i + 1.

Lemma axis_first a w : valid_axis a -> wide_axis w a -> alo a 0 = 1.
Proof.
  intros (H1 & H2 & H3 & H4) HW. destruct (H3 0 ltac:(lia)) as [A B]. destruct (HW 0 ltac:(lia)) as [C _].
  destruct (H2 1 ltac:(lia)) as (i & Hi & Hx). destruct (Z.eq_dec i 0) as [->|]; [lia|]. specialize (H4 0 i ltac:(lia) ltac:(lia)). lia.
Qed.
Lemma axis_last a w : valid_axis a -> wide_axis w a -> ahi a (an a - 1) = ad a.
Proof.
  intros (H1 & H2 & H3 & H4) HW. destruct (H3 (an a - 1) ltac:(lia)) as [A B]. destruct (HW (an a - 1) ltac:(lia)) as [C _].
  destruct (H2 (ad a) ltac:(lia)) as (i & Hi & Hx). destruct (Z.eq_dec i (an a - 1)) as [->|]; [lia|]. specialize (H4 i (an a - 1) ltac:(lia) ltac:(lia)). lia.
Qed.
Lemma axis_adj a w i : valid_axis a -> wide_axis w a -> 0 <= i -> i + 1 < an a -> alo a (i + 1) = ahi a i + 1.
Proof.
  intros (H1 & H2 & H3 & H4) HW H0 Hn. pose proof (H4 i (i + 1) ltac:(lia) ltac:(lia)) as A.
  destruct (H3 i ltac:(lia)) as [B1 B2], (H3 (i + 1) ltac:(lia)) as [C1 C2]. destruct (HW i ltac:(lia)) as [D1 _], (HW (i + 1) ltac:(lia)) as [E1 _].
  destruct (H2 (ahi a i + 1) ltac:(lia)) as (j & Hj & Hx).
  destruct (Z.eq_dec j (i + 1)) as [->|N]; [lia|]. destruct (Z.lt_trichotomy j i) as [L|[->|L]]; [|lia|].
  - specialize (H4 j i ltac:(lia) ltac:(lia)). lia.
  - specialize (H4 (i + 1) j ltac:(lia) ltac:(lia)). lia.
Qed.

Lemma rem_neg a w i s : valid_axis a -> wide_axis w a -> 1 <= w -> 0 <= i < an a -> s = ToNeg \/ s = FromNeg ->
  rem_dim s (alo a i) (ahi a i) (ad a) w = (ahi a (prv (an a) i) - w + 1, ahi a (prv (an a) i)).
Proof.
  intros HV HW H1 Hi Hs. unfold prv. destruct (Z.eqb_spec i 0) as [->|N].
  - rewrite (axis_first a w HV HW), (axis_last a w HV HW). destruct Hs as [->| ->]; cbn [rem_dim];
      match goal with |- context [if ?b then _ else _] => destruct b eqn:E end; try reflexivity; lia.
  - pose proof (axis_adj a w (i - 1) HV HW ltac:(lia) ltac:(lia)) as E. replace (i - 1 + 1) with i in E by lia.
    destruct (HW (i - 1) ltac:(lia)) as [A B]. pose proof HV as (_ & _ & H3 & _). destruct (H3 (i - 1) ltac:(lia)) as [C D].
    destruct Hs as [->| ->]; cbn [rem_dim]; match goal with |- context [if ?b then _ else _] => destruct b eqn:E2 end; try lia; f_equal; lia.
Qed.
Lemma rem_pos a w i s : valid_axis a -> wide_axis w a -> 1 <= w -> 0 <= i < an a -> s = ToPos \/ s = FromPos ->
  rem_dim s (alo a i) (ahi a i) (ad a) w = (alo a (nxt (an a) i), alo a (nxt (an a) i) + w - 1).
Proof.
  intros HV HW H1 Hi Hs. unfold nxt. destruct (Z.eqb_spec i (an a - 1)) as [->|N].
  - rewrite (axis_first a w HV HW), (axis_last a w HV HW). destruct Hs as [->| ->]; cbn [rem_dim];
      match goal with |- context [if ?b then _ else _] => destruct b eqn:E end; try lia; f_equal; lia.
  - pose proof (axis_adj a w i HV HW ltac:(lia) ltac:(lia)) as E.
    destruct (HW (i + 1) ltac:(lia)) as [A B]. pose proof HV as (_ & _ & H3 & _). destruct (H3 (i + 1) ltac:(lia)) as [C D].
    destruct Hs as [->| ->]; cbn [rem_dim]; match goal with |- context [if ?b then _ else _] => destruct b eqn:E2 end; try lia; f_equal; lia.
Qed.

(** The same element seen from two neighbours. *)
Lemma wrap_period d x : 1 <= d -> wrap d (x + d) = wrap d x.
Proof. intros H. unfold wrap. replace (x + d - 1) with (x - 1 + 1 * d) by ring. rewrite Z.mod_add by lia. reflexivity. Qed.
Lemma wrap_id d x : 1 <= x <= d -> wrap d x = x.
Proof. intros H. unfold wrap. rewrite Z.mod_small by lia. lia. Qed.
Lemma wrap_next a w i k : valid_axis a -> wide_axis w a -> 1 <= ad a -> 0 <= i < an a ->
  wrap (ad a) (ahi a i + 1 + k) = wrap (ad a) (alo a (nxt (an a) i) + k).
Proof.
  intros HV HW Hd Hi. unfold nxt. destruct (Z.eqb_spec i (an a - 1)) as [->|N].
  - rewrite (axis_first a w HV HW), (axis_last a w HV HW). rewrite <- (wrap_period _ (1 + k)) by exact Hd. f_equal. ring.
  - rewrite (axis_adj a w i HV HW) by lia. reflexivity.
Qed.
Lemma wrap_prev a w i k : valid_axis a -> wide_axis w a -> 1 <= ad a -> 0 <= i < an a ->
  wrap (ad a) (alo a i + k) = wrap (ad a) (ahi a (prv (an a) i) + 1 + k).
Proof.
  intros HV HW Hd Hi. rewrite (wrap_next a w (prv (an a) i)) by (auto using prv_range). now rewrite nxt_prv.
Qed.
