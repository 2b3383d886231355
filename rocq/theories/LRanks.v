(** Lemmas on progress ranks. *)
From Verif Require Import SpecRanks MBase MHandle MGroup MRanks LNb LDist.
From Coq Require Import Permutation.

Lemma nd_len {A} (l m : list A) : NoDup l -> NoDup m -> (forall x, In x l <-> In x m) -> length l = length m.
Proof. intros N M H. apply Permutation_length, NoDup_Permutation; auto. Qed.

Lemma zseq0_In n x : In x (zseq 0 (Z.to_nat n)) <-> 0 <= x < n.
Proof. rewrite zseq_In. lia. Qed.

Lemma count_list n f l : NoDup l -> (forall x, In x l <-> 0 <= x < n /\ f x = true) -> count n f = Z.of_nat (length l).
Proof.
  intros N H. unfold count. f_equal. apply nd_len; auto.
  - apply NoDup_filter, zseq_NoDup.
  - intros x. rewrite filter_In, zseq0_In, H. tauto.
Qed.

Lemma count_ext n f g : (forall x, 0 <= x < n -> f x = g x) -> count n f = count n g.
Proof.
  intros H. unfold count. f_equal. f_equal. apply filter_ext_in. intros x Hx. apply zseq0_In in Hx. auto.
Qed.

Lemma smallest_spec hs me l : forall s, hostof hs s = hostof hs me ->
  let x := smallest hs me l s in
  hostof hs x = hostof hs me /\ (x = s \/ In x l) /\ x <= s /\
  (forall i, In i l -> hostof hs i = hostof hs me -> x <= i).
Proof.
  induction l as [|i l IH]; intros s Hs; cbn [smallest].
  - repeat split; auto; [lia|]. intros i [].
  - destruct (same_host hs me i && (i <? s)) eqn:E.
    + apply andb_true_iff in E. destruct E as [E1 E2]. unfold same_host in E1. apply Z.eqb_eq in E1. apply Z.ltb_lt in E2.
      destruct (IH i E1) as (A & B & C & D). split; [exact A|]. split; [right; destruct B as [->|B]; [left; reflexivity|right; exact B]|].
      split; [lia|]. intros j [->|J] HJ; [exact C|]. apply D; auto.
    + destruct (IH s Hs) as (A & B & C & D). split; [exact A|]. split; [destruct B as [->|B]; [left; reflexivity|right; right; exact B]|].
      split; [exact C|]. intros j [->|J] HJ; [|apply D; auto].
      apply andb_false_iff in E. destruct E as [E|E]; [unfold same_host in E; apply Z.eqb_neq in E; congruence|apply Z.ltb_ge in E; lia].
Qed.

Lemma largest_spec hs me l : forall s, hostof hs s = hostof hs me ->
  let x := largest hs me l s in
  hostof hs x = hostof hs me /\ (x = s \/ In x l) /\ s <= x /\
  (forall i, In i l -> hostof hs i = hostof hs me -> i <= x).
Proof.
  induction l as [|i l IH]; intros s Hs; cbn [largest].
  - repeat split; auto; [lia|]. intros i [].
  - destruct (same_host hs me i && (s <? i)) eqn:E.
    + apply andb_true_iff in E. destruct E as [E1 E2]. unfold same_host in E1. apply Z.eqb_eq in E1. apply Z.ltb_lt in E2.
      destruct (IH i E1) as (A & B & C & D). split; [exact A|]. split; [right; destruct B as [->|B]; [left; reflexivity|right; exact B]|].
      split; [lia|]. intros j [->|J] HJ; [exact C|]. apply D; auto.
    + destruct (IH s Hs) as (A & B & C & D). split; [exact A|]. split; [destruct B as [->|B]; [left; reflexivity|right; right; exact B]|].
      split; [exact C|]. intros j [->|J] HJ; [|apply D; auto].
      apply andb_false_iff in E. destruct E as [E|E]; [unfold same_host in E; apply Z.eqb_neq in E; congruence|apply Z.ltb_ge in E; lia].
Qed.

(** [a], [s], the number of processes of the node of [r] for each server. *)
Lemma node_interval hs r : contiguous (nranks hs) (hostof hs) -> 0 <= r < nranks hs ->
  let a := smallest hs r (ranks hs) r in
  let b := largest hs r (ranks hs) r in
  0 <= a <= r /\ r <= b < nranks hs /\
  (forall i, 0 <= i < nranks hs -> (hostof hs i = hostof hs r <-> a <= i <= b)) /\
  size_node hs r = b - a + 1.
Proof.
  intros C R a b.
  destruct (smallest_spec hs r (ranks hs) r eq_refl) as (A1 & A2 & A3 & A4).
  destruct (largest_spec hs r (ranks hs) r eq_refl) as (B1 & B2 & B3 & B4).
  fold a in A1, A2, A3, A4. fold b in B1, B2, B3, B4. clearbody a b.
  assert (forall x, In x (ranks hs) <-> 0 <= x < nranks hs) as RI.
  { intros x. unfold ranks, nranks. rewrite zseq_In. lia. }
  assert (0 <= a < nranks hs) as HA by (destruct A2 as [->|A2]; [lia|apply RI; exact A2]).
  assert (0 <= b < nranks hs) as HB by (destruct B2 as [->|B2]; [lia|apply RI; exact B2]).
  split; [lia|]. split; [lia|].
  assert (forall i, 0 <= i < nranks hs -> (hostof hs i = hostof hs r <-> a <= i <= b)) as K.
  { intros i Hi. split; intros H.
    - split; [apply A4|apply B4]; try apply RI; auto.
    - rewrite (C a i b); [exact A1| | |congruence]; lia. }
  split; [exact K|].
  unfold size_node. replace (b - a + 1) with (Z.of_nat (length (zseq a (Z.to_nat (b - a + 1))))) by (rewrite zseq_length; lia).
  f_equal. apply nd_len; [apply NoDup_filter, zseq_NoDup|apply zseq_NoDup|].
  intros x. rewrite filter_In, RI, zseq_In. unfold same_host. rewrite Z.eqb_eq. split.
  - intros [H1 H2]. apply K in H2; lia.
  - intros H. split; [lia|]. apply K; lia.
Qed.

(** Arithmetic of one node: ranks [a], ..., [a + k * s - 1]. *)
Section node.
Variables (a k s : Z) (packed : bool).
Hypotheses (Ha : 0 <= a) (Hk : 0 < k) (Hs : 2 <= s).
Let b := a + k * s - 1.
Definition mast (r : Z) : Z := my_master r s a b k packed.

Lemma mast_packed r : packed = true \/ k = 1 -> a <= r <= b -> mast r = b - s * ((b - r) / s).
Proof.
  intros P R. unfold mast, my_master. destruct packed; [|destruct P as [P| ->]; [discriminate|]; cbn [Z.eqb Pos.eqb]];
    rewrite Z.quot_div_nonneg; lia.
Qed.
Lemma mast_cyclic r : packed = false -> k <> 1 -> a <= r <= b -> mast r = b - k + 1 + (r - a) mod k.
Proof.
  intros P K R. unfold mast, my_master. rewrite P. destruct (Z.eqb_spec k 1); [lia|]. rewrite Z.rem_mod_nonneg; lia.
Qed.
Lemma packed_dec : (packed = true \/ k = 1) \/ (packed = false /\ k <> 1).
Proof. destruct packed; auto. destruct (Z.eq_dec k 1); auto. Qed.

Lemma div_block r : a <= r <= b -> 0 <= (b - r) / s < k.
Proof.
  intros R. split; [apply Z.div_pos; lia|]. apply Z.div_lt_upper_bound; [lia|]. unfold b in *. nia.
Qed.
Lemma mast_in r : a <= r <= b -> a <= mast r <= b.
Proof.
  intros R. destruct packed_dec as [P|[P K]].
  - rewrite mast_packed; auto. pose proof (div_block r R) as D. revert D. generalize ((b - r) / s). intros q D. unfold b in *. nia.
  - rewrite mast_cyclic; auto. pose proof (Z.mod_pos_bound (r - a) k Hk). unfold b in *. nia.
Qed.
Lemma mast_self r : a <= r <= b -> mast (mast r) = mast r.
Proof.
  intros R. pose proof (mast_in r R) as M. destruct packed_dec as [P|[P K]].
  - rewrite (mast_packed (mast r)); auto. rewrite (mast_packed r) in *; auto.
    replace (b - (b - s * ((b - r) / s))) with ((b - r) / s * s) by lia. rewrite Z.div_mul by lia. lia.
  - rewrite (mast_cyclic (mast r)); auto. rewrite (mast_cyclic r) in *; auto.
    replace (b - k + 1 + (r - a) mod k - a) with ((r - a) mod k + (s - 1) * k) by (unfold b; lia).
    rewrite Z.mod_add by lia. rewrite Z.mod_mod by lia. reflexivity.
Qed.

(** The processes that [mast r] serves. *)
Definition served (r : Z) : list Z :=
  if packed || (k =? 1) then zseq (mast r - s + 1) (Z.to_nat s)
  else map (fun t => a + (r - a) mod k + k * t) (zseq 0 (Z.to_nat s)).
Lemma served_length r : length (served r) = Z.to_nat s.
Proof. unfold served. destruct (packed || (k =? 1)); [apply zseq_length|rewrite map_length; apply zseq_length]. Qed.
Lemma NoDup_map_lin (c d : Z) l : d <> 0 -> NoDup l -> NoDup (map (fun t => c + d * t) l).
Proof.
  intros D N. apply FinFun.Injective_map_NoDup; auto. intros x y E. nia.
Qed.
Lemma served_NoDup r : NoDup (served r).
Proof. unfold served. destruct (packed || (k =? 1)); [apply zseq_NoDup|apply NoDup_map_lin; [lia|apply zseq_NoDup]]. Qed.
Lemma served_In r : a <= r <= b -> forall i, In i (served r) <-> a <= i <= b /\ mast i = mast r.
Proof.
  intros R i. unfold served. destruct packed_dec as [P|[P K]].
  - replace (packed || (k =? 1)) with true by (destruct P as [-> | ->]; [reflexivity|destruct packed; reflexivity]).
    rewrite zseq_In. rewrite Z2Nat.id by lia. rewrite (mast_packed r) by auto. split.
    + intros H. pose proof (div_block r R) as D. assert (a <= i <= b) as I.
      { revert H D. generalize ((b - r) / s). intros q H D. unfold b in *. nia. }
      split; [exact I|]. rewrite mast_packed by auto. do 2 f_equal.
      symmetry. apply Z.div_unique with (r := b - s * ((b - r) / s) - i). left. lia. lia.
    + intros [I E]. rewrite mast_packed in E by auto.
      assert ((b - i) / s = (b - r) / s) as Q by nia. rewrite <- Q.
      pose proof (Z.div_mod (b - i) s ltac:(lia)). pose proof (Z.mod_pos_bound (b - i) s ltac:(lia)). lia.
  - replace (packed || (k =? 1)) with false by (rewrite P; symmetry; apply Z.eqb_neq; exact K).
    rewrite in_map_iff. setoid_rewrite zseq0_In. rewrite (mast_cyclic r) by auto.
    pose proof (Z.mod_pos_bound (r - a) k Hk) as B. split.
    + intros (t & <- & T). assert (a <= a + (r - a) mod k + k * t <= b) as I by (unfold b; nia).
      split; [exact I|]. rewrite mast_cyclic by auto. f_equal.
      replace (a + (r - a) mod k + k * t - a) with ((r - a) mod k + t * k) by lia. rewrite Z.mod_add by lia. apply Z.mod_mod. lia.
    + intros [I E]. rewrite mast_cyclic in E by auto. exists ((i - a) / k).
      pose proof (Z.div_mod (i - a) k ltac:(lia)). split; [lia|]. split; [apply Z.div_pos; lia|].
      apply Z.div_lt_upper_bound; [lia|]. unfold b in *. nia.
Qed.

(** The servers of the node. *)
Definition servers : list Z :=
  if packed || (k =? 1) then map (fun t => b + (- s) * t) (zseq 0 (Z.to_nat k)) else zseq (b - k + 1) (Z.to_nat k).
Lemma servers_length : length servers = Z.to_nat k.
Proof. unfold servers. destruct (packed || (k =? 1)); [rewrite map_length|]; apply zseq_length. Qed.
Lemma servers_NoDup : NoDup servers.
Proof. unfold servers. destruct (packed || (k =? 1)); [apply NoDup_map_lin; [lia|]|]; apply zseq_NoDup. Qed.
Lemma servers_In m : In m servers <-> a <= m <= b /\ mast m = m.
Proof.
  unfold servers. destruct packed_dec as [P|[P K]].
  - replace (packed || (k =? 1)) with true by (destruct P as [-> | ->]; [reflexivity|destruct packed; reflexivity]).
    rewrite in_map_iff. setoid_rewrite zseq0_In. split.
    + intros (t & <- & T). assert (a <= b + - s * t <= b) as I by (unfold b; nia). split; [exact I|].
      rewrite mast_packed by auto. replace (b - (b + - s * t)) with (t * s) by lia. rewrite Z.div_mul by lia. lia.
    + intros [I E]. rewrite mast_packed in E by auto. exists ((b - m) / s). split; [lia|]. apply div_block. exact I.
  - replace (packed || (k =? 1)) with false by (rewrite P; symmetry; apply Z.eqb_neq; exact K).
    rewrite zseq_In. rewrite Z2Nat.id by lia. split.
    + intros H. assert (a <= m <= b) as I by (unfold b in *; nia). split; [exact I|]. rewrite mast_cyclic by auto.
      replace (m - a) with (m - (b - k + 1) + (s - 1) * k) by (unfold b; lia). rewrite Z.mod_add by lia. rewrite Z.mod_small by lia. lia.
    + intros [I E]. rewrite mast_cyclic in E by auto. pose proof (Z.mod_pos_bound (m - a) k Hk). lia.
Qed.
End node.
