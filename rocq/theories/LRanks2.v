(** Lemmas on progress ranks: initialisation. *)
From Verif Require Import SpecRanks MBase MHandle MGroup MRanks LNb LDist LRanks.
From Coq Require Import Permutation.

(** The master of process [r], without the checks. *)
Definition masterof (hs : list Z) (k : Z) (packed : bool) (r : Z) : Z :=
  my_master r (Z.quot (size_node hs r) k) (smallest hs r (ranks hs) r) (largest hs r (ranks hs) r) k packed.

Lemma ranks_In hs x : In x (ranks hs) <-> 0 <= x < nranks hs.
Proof. unfold ranks, nranks. rewrite zseq_In. lia. Qed.
Lemma size_count hs r : size_node hs r = count (nranks hs) (fun i => hostof hs i =? hostof hs r).
Proof. unfold size_node, count, same_host, ranks, nranks. rewrite Nat2Z.id. reflexivity. Qed.

Section init.
Variables (hs : list Z) (k : Z) (packed : bool).
Hypotheses (C : contiguous (nranks hs) (hostof hs)) (Hk : 0 < k) (OK : sizes_ok (nranks hs) k (hostof hs)).
Let n := nranks hs.
Let M := masterof hs k packed.
Definition lo (r : Z) : Z := smallest hs r (ranks hs) r.
Definition per (r : Z) : Z := size_node hs r / k.

Lemma node_shape r : 0 <= r < n ->
  0 <= lo r /\ 2 <= per r /\ size_node hs r = k * per r /\ lo r <= r <= lo r + k * per r - 1 /\ lo r + k * per r - 1 < n /\
  (forall i, 0 <= i < n -> (hostof hs i = hostof hs r <-> lo r <= i <= lo r + k * per r - 1)) /\
  M r = mast (lo r) k (per r) packed r.
Proof.
  intros R. destruct (node_interval hs r C R) as (A & B & I & L). destruct (OK r R) as [S1 [q S2]].
  rewrite <- size_count in S1, S2. fold (lo r) in *. 
  assert (per r = q) as P by (unfold per; rewrite S2; apply Z.div_mul; lia).
  assert (largest hs r (ranks hs) r = lo r + k * per r - 1) as E by lia.
  rewrite E in *. split; [lia|]. split; [nia|]. split; [lia|]. split; [lia|]. split; [lia|]. split; [exact I|].
  unfold M, masterof, mast. rewrite E. fold (lo r). f_equal. unfold per. apply Z.quot_div_nonneg; lia.
Qed.

(** Processes of one node have the same interval. *)
Lemma node_same r i : 0 <= r < n -> 0 <= i < n -> hostof hs i = hostof hs r -> lo i = lo r /\ per i = per r.
Proof.
  intros R I E. destruct (node_shape r R) as (A1 & A2 & A3 & A4 & A5 & A6 & _).
  destruct (node_shape i I) as (B1 & B2 & B3 & B4 & B5 & B6 & _).
  assert (size_node hs i = size_node hs r) as S by (rewrite !size_count, E; reflexivity).
  assert (per i = per r) as P by (unfold per; rewrite S; reflexivity). rewrite P in *. split; [|reflexivity].
  assert (lo r <= lo i) by (apply (A6 (lo i)); [nia|]; rewrite <- E; apply B6; nia).
  assert (lo i <= lo r) by (apply (B6 (lo r)); [nia|]; rewrite E; apply A6; nia). lia.
Qed.

Lemma M_mast r i : 0 <= r < n -> lo r <= i <= lo r + k * per r - 1 -> M i = mast (lo r) k (per r) packed i.
Proof.
  intros R I. destruct (node_shape r R) as (A1 & A2 & A3 & A4 & A5 & A6 & A7).
  assert (0 <= i < n) as I' by lia. destruct (node_shape i I') as (_ & _ & _ & _ & _ & _ & B7).
  destruct (node_same r i R I' (proj2 (A6 i I') I)) as [-> ->] in B7. exact B7.
Qed.

Lemma M_home r : 0 <= r < n -> 0 <= M r < n /\ hostof hs (M r) = hostof hs r.
Proof.
  intros R. destruct (node_shape r R) as (A1 & A2 & A3 & A4 & A5 & A6 & A7).
  pose proof (mast_in (lo r) k (per r) packed Hk A2 r A4) as I. rewrite <- A7 in I.
  split; [lia|]. apply A6; lia.
Qed.
Lemma M_self r : 0 <= r < n -> M (M r) = M r.
Proof.
  intros R. destruct (node_shape r R) as (A1 & A2 & A3 & A4 & A5 & A6 & A7).
  pose proof (mast_in (lo r) k (per r) packed Hk A2 r A4) as I. rewrite <- A7 in I.
  rewrite (M_mast r (M r) R I), A7. apply mast_self; auto.
Qed.
(** The processes that the server of [r] serves. *)
Lemma M_served r : 0 <= r < n -> forall i, In i (served (lo r) k (per r) packed r) <-> 0 <= i < n /\ M i = M r.
Proof.
  intros R i. destruct (node_shape r R) as (A1 & A2 & A3 & A4 & A5 & A6 & A7).
  rewrite served_In by auto. split.
  - intros [I E]. split; [lia|]. rewrite (M_mast r i R I), A7. exact E.
  - intros [I E]. assert (lo r <= i <= lo r + k * per r - 1) as I2.
    { apply A6; [lia|]. rewrite <- (proj2 (M_home i I)), E. apply M_home. exact R. }
    split; [exact I2|]. rewrite <- (M_mast r i R I2), <- A7. exact E.
Qed.
Lemma M_count r : 0 <= r < n -> count n (fun i => M i =? M r) = per r.
Proof.
  intros R. destruct (node_shape r R) as (A1 & A2 & _).
  rewrite (count_list _ _ (served (lo r) k (per r) packed r)).
  - rewrite served_length. lia.
  - apply served_NoDup; auto.
  - intros i. rewrite M_served by auto. rewrite Z.eqb_eq. tauto.
Qed.
Lemma M_servers r : 0 <= r < n -> forall m, In m (servers (lo r) k (per r) packed) <-> 0 <= m < n /\ hostof hs m = hostof hs r /\ M m = m.
Proof.
  intros R m. destruct (node_shape r R) as (A1 & A2 & A3 & A4 & A5 & A6 & A7). rewrite servers_In by auto. split.
  - intros [I E]. split; [lia|]. split; [apply A6; lia|]. rewrite (M_mast r m R I). exact E.
  - intros (I & H & E). apply A6 in H; [|exact I]. split; [exact H|]. rewrite <- (M_mast r m R H). exact E.
Qed.

Lemma M_progress : progress n k (hostof hs) M.
Proof.
  split.
  - apply M_home.
  - apply M_self.
  - intros r R. rewrite M_count by auto. destruct (node_shape r R) as (_ & _ & A3 & _). rewrite <- A3. symmetry. rewrite size_count. reflexivity.
  - intros r R. destruct (node_shape r R) as (A1 & A2 & _).
    rewrite (count_list _ _ (servers (lo r) k (per r) packed)).
    + rewrite servers_length. lia.
    + apply servers_NoDup; auto.
    + intros m. rewrite M_servers by auto. rewrite andb_true_iff, !Z.eqb_eq. tauto.
Qed.

(** All servers, node by node. *)
Definition firsts : list Z := filter (fun r => lo r =? r) (ranks hs).
Definition all_servers : list Z := flat_map (fun r => servers r k (per r) packed) firsts.
Lemma firsts_In r : In r firsts <-> 0 <= r < n /\ lo r = r.
Proof. unfold firsts. rewrite filter_In, ranks_In, Z.eqb_eq. tauto. Qed.
Lemma all_servers_In m : In m all_servers <-> In m (map M (ranks hs)).
Proof.
  unfold all_servers. rewrite in_flat_map, in_map_iff. setoid_rewrite firsts_In. setoid_rewrite ranks_In. split.
  - intros (r & [R E] & I). rewrite <- E in I at 1. apply M_servers in I; [|exact R]. exists m. tauto.
  - intros (r & <- & R). destruct (node_shape r R) as (A1 & A2 & A3 & A4 & A5 & A6 & A7).
    assert (0 <= lo r < n) as R2 by lia. assert (hostof hs (lo r) = hostof hs r) as H by (apply A6; nia).
    destruct (node_same r (lo r) R R2 H) as [E1 E2].
    exists (lo r). split; [tauto|]. rewrite E2. apply M_servers; auto. destruct (M_home r R) as [X1 X2]. split; [exact X1|]. split; [congruence|]. apply M_self. exact R.
Qed.
Lemma NoDup_flat_map {A B} (f : A -> list B) l : NoDup l -> (forall x, In x l -> NoDup (f x)) ->
  (forall x y z, In x l -> In y l -> In z (f x) -> In z (f y) -> x = y) -> NoDup (flat_map f l).
Proof.
  induction l as [|a l IH]; cbn [flat_map]; intros N F D; [constructor|]. inversion_clear N as [|? ? N1 N2].
  assert (forall (p q : list B), NoDup p -> NoDup q -> (forall z, In z p -> ~ In z q) -> NoDup (p ++ q)) as AP.
  { induction p as [|z p IHp]; intros q Np Nq Dq; cbn [app]; auto. inversion_clear Np as [|? ? Np1 Np2]. constructor.
    - rewrite in_app_iff. intros [X|X]; [auto|]. apply (Dq z); [left; reflexivity|exact X].
    - apply IHp; auto. intros w Hw. apply Dq. right. exact Hw. }
  apply AP.
  - apply F. left. reflexivity.
  - apply IH; auto. { intros x Hx. apply F. right. exact Hx. } intros x y z Hx Hy. apply D; right; assumption.
  - intros z Hz Hz2. apply in_flat_map in Hz2. destruct Hz2 as (y & Hy & Hz2).
    assert (a = y) by (apply (D a y z); [left; reflexivity|right; exact Hy|exact Hz|exact Hz2]). subst. contradiction.
Qed.
Lemma all_servers_NoDup : NoDup all_servers.
Proof.
  apply NoDup_flat_map.
  - apply NoDup_filter. unfold ranks. apply zseq_NoDup.
  - intros r Hr. apply firsts_In in Hr. destruct Hr as [R E]. destruct (node_shape r R) as (A1 & A2 & _). apply servers_NoDup; lia.
  - intros x y z Hx Hy. apply firsts_In in Hx. apply firsts_In in Hy. destruct Hx as [X EX]. destruct Hy as [Y EY].
    pose proof (M_servers x X z) as SX. rewrite EX in SX. pose proof (M_servers y Y z) as SY. rewrite EY in SY.
    intros H1 H2. apply SX in H1. apply SY in H2. rewrite <- EX, <- EY.
    apply node_same; auto. destruct H1 as (_ & H1 & _). destruct H2 as (_ & H2 & _). congruence.
Qed.
Lemma flat_map_length_const {A B} (f : A -> list B) c l : (forall x, In x l -> length (f x) = c) -> length (flat_map f l) = (length l * c)%nat.
Proof.
  induction l as [|a l IH]; cbn [flat_map length Nat.mul]; intros H; [reflexivity|].
  rewrite app_length, (H a), IH; [lia|intros; apply H; right; assumption|left; reflexivity].
Qed.
Lemma all_servers_length : Z.of_nat (length all_servers) = num_nodes hs * k.
Proof.
  unfold all_servers. rewrite (flat_map_length_const _ (Z.to_nat k)).
  - unfold num_nodes. fold firsts. rewrite Nat2Z.inj_mul, Z2Nat.id by lia. reflexivity.
  - intros. apply servers_length.
Qed.

Lemma init_masters_ok rs : (forall r, In r rs -> 0 <= r < n) -> init_masters hs k packed rs = Done (map M rs).
Proof.
  induction rs as [|r rs IH]; intros H; cbn [init_masters map]; [reflexivity|].
  rewrite IH by (intros; apply H; right; assumption).
  destruct (node_shape r (H r (or_introl eq_refl))) as (A1 & A2 & A3 & _).
  unfold init_master. destruct (Z.ltb_spec (size_node hs r) (2 * k)); [nia|].
  rewrite Z.rem_mod_nonneg by nia. rewrite A3 at 1. rewrite Z.mul_comm, Z.mod_mul by lia. reflexivity.
Qed.
End init.

(** One process that fails the checks stops all. *)
Lemma init_masters_bad hs k packed rs r : 0 < k -> In r rs ->
  ~ (2 * k <= size_node hs r /\ (k | size_node hs r)) -> init_masters hs k packed rs = Abort.
Proof.
  intros Hk. assert (forall i, 0 <= size_node hs i) as P by (intros; unfold size_node; lia).
  assert (forall i, init_master hs k packed i = Abort \/ exists m, init_master hs k packed i = Done m) as T.
  { intros i. unfold init_master. destruct (_ <? _); auto. destruct (0 <? _); eauto. }
  induction rs as [|i rs IH]; [intros []|]. cbn [init_masters]. intros [->|I] B.
  - assert (init_master hs k packed r = Abort) as ->; [|reflexivity]. unfold init_master.
    destruct (Z.ltb_spec (size_node hs r) (2 * k)); [reflexivity|].
    destruct (Z.ltb_spec 0 (Z.rem (size_node hs r) k)) as [|X]; [reflexivity|]. exfalso. apply B. split; [lia|].
    apply Z.mod_divide; [lia|]. specialize (P r). rewrite Z.rem_mod_nonneg in X by lia. pose proof (Z.mod_pos_bound (size_node hs r) k Hk). lia.
  - destruct (T i) as [->|[m ->]]; [reflexivity|]. rewrite IH by auto. reflexivity.
Qed.

Lemma split_list_ok cap D ms : Z.of_nat (length D) <= cap -> forall seen acc,
  NoDup acc -> (forall x, In x acc <-> In x seen) -> (forall x, In x acc \/ In x ms -> In x D) ->
  exists l, split_list cap seen acc ms = Done l /\ NoDup l /\ (forall x, In x l <-> In x acc \/ In x ms).
Proof.
  intros L. induction ms as [|m ms IH]; intros seen acc N E I; cbn [split_list].
  - exists acc. split; [reflexivity|]. split; [exact N|]. intros x. cbn [In]. tauto.
  - destruct (existsb (Z.eqb m) seen) eqn:S.
    + apply existsb_exists in S. destruct S as (y & Y1 & Y2). apply Z.eqb_eq in Y2. subst y.
      destruct (IH (seen ++ [m]) acc N) as (l & L1 & L2 & L3).
      * intros x. rewrite E, in_app_iff. cbn [In]. split; [tauto|]. intros [H|[<-|[]]]; [exact H|exact Y1].
      * intros x H. apply I. cbn [In]. tauto.
      * exists l. split; [exact L1|]. split; [exact L2|]. intros x. rewrite L3. cbn [In]. apply E in Y1. split; [tauto|].
        intros [H|[<-|H]]; auto.
    + assert (~ In m acc) as NI.
      { rewrite E. intros H. assert (existsb (Z.eqb m) seen = true); [|congruence]. apply existsb_exists. exists m. split; [exact H|]. apply Z.eqb_refl. }
      assert (NoDup (acc ++ [m])) as N2.
      { apply (Permutation_NoDup (l := m :: acc)); [apply Permutation_cons_append|]. constructor; auto. }
      assert (length (acc ++ [m]) <= length D)%nat as LE.
      { apply NoDup_incl_length; auto. intros x. rewrite in_app_iff. cbn [In]. intros [H|[<-|[]]]; apply I; [tauto|right; left; reflexivity]. }
      rewrite app_length in LE. cbn [length] in LE. destruct (Z.ltb_spec (Z.of_nat (length acc)) cap); [|lia].
      destruct (IH (seen ++ [m]) (acc ++ [m]) N2) as (l & L1 & L2 & L3).
      * intros x. rewrite !in_app_iff, E. tauto.
      * intros x. rewrite in_app_iff. cbn [In]. intros H1. apply I. cbn [In]. tauto.
      * exists l. split; [exact L1|]. split; [exact L2|]. intros x. rewrite L3, in_app_iff. cbn [In]. tauto.
Qed.

Lemma stamp_none l : forall j m st, ~ In m l -> stamp l j m st = st.
Proof.
  induction l as [|x l IH]; intros j m st H; cbn [stamp]; [reflexivity|]. rewrite IH by (intros X; apply H; right; exact X).
  destruct (Z.eqb_spec x m) as [->|]; [|reflexivity]. exfalso. apply H. left. reflexivity.
Qed.
Lemma stamp_ok l : NoDup l -> forall j m st, 0 <= j -> In m l -> exists i, stamp l j m st = Done (j + i) /\ zget l i = Some m.
Proof.
  induction l as [|x l IH]; intros N j m st J I; [destruct I|]. inversion_clear N as [|? ? N1 N2]. cbn [stamp].
  destruct (Z.eqb_spec x m) as [->|NE].
  - rewrite stamp_none by exact N1. exists 0. split; [f_equal; lia|reflexivity].
  - destruct I as [->|I]; [contradiction|]. destruct (IH N2 (j + 1) m st ltac:(lia) I) as (i & E1 & E2).
    exists (i + 1). split; [rewrite E1; f_equal; lia|]. apply zget_inv in E2 as E3. unfold zget in *. destruct (Z.ltb_spec i 0); [discriminate|].
    destruct (Z.ltb_spec (i + 1) 0); [lia|]. replace (Z.to_nat (i + 1)) with (S (Z.to_nat i)) by lia. exact E2.
Qed.
Lemma stamps_ok l ms : NoDup l -> (forall m, In m ms -> In m l) ->
  exists ss, stamps l ms = Done ss /\ Forall2 (fun m s => zget l s = Some m) ms ss.
Proof.
  intros N. induction ms as [|m ms IH]; intros H; cbn [stamps]; [exists []; auto|].
  destruct (stamp_ok l N 0 m Undef ltac:(lia) (H m (or_introl eq_refl))) as (i & -> & E).
  destruct IH as (ss & -> & F); [intros; apply H; right; assumption|]. exists ((0 + i) :: ss). split; [reflexivity|]. constructor; auto.
Qed.

Lemma at_rank_nth ms ss l r : Forall2 (fun m s => zget l s = Some m) ms ss -> 0 <= r < Z.of_nat (length ms) ->
  zget l (at_rank ss r) = Some (at_rank ms r).
Proof.
  intros F. unfold at_rank. revert r. induction F as [|m s ms ss E F IH]; intros r; cbn [length]; [lia|]. intros R.
  destruct (Z.eq_dec r 0) as [->|]; [exact E|]. replace (Z.to_nat r) with (S (Z.to_nat (r - 1))) by lia. cbn [nth]. apply IH. lia.
Qed.
Lemma at_rank_map (f : Z -> Z) m r : 0 <= r < Z.of_nat m -> at_rank (map f (zseq 0 m)) r = f r.
Proof.
  intros R. unfold at_rank. rewrite (nth_indep _ _ (f 0)) by (rewrite map_length, zseq_length; lia).
  rewrite map_nth, zseq_nth by lia. f_equal. lia.
Qed.

Lemma init_ok hs env k packed : num_progress env = Done k -> 0 < k ->
  contiguous (nranks hs) (hostof hs) -> sizes_ok (nranks hs) k (hostof hs) ->
  exists ss, comex_group_init hs env packed = Done (map (masterof hs k packed) (ranks hs), ss) /\
    length ss = length hs /\
    (forall i j, 0 <= i < nranks hs -> 0 <= j < nranks hs ->
       (at_rank ss i = at_rank ss j <-> masterof hs k packed i = masterof hs k packed j)).
Proof.
  intros EK Hk C OK. unfold comex_group_init. rewrite EK, (init_masters_ok hs k packed C Hk OK) by (intros; apply ranks_In; assumption).
  set (M := masterof hs k packed). set (ms := map M (ranks hs)).
  destruct (split_list_ok (num_nodes hs * k) (all_servers hs k packed) ms) with (seen := @nil Z) (acc := @nil Z) as (l & L1 & L2 & L3).
  - rewrite all_servers_length by auto. lia.
  - constructor.
  - tauto.
  - intros x [[]|X]. apply all_servers_In; auto.
  - rewrite L1. cbn [In] in L3.
    assert (length l = length (all_servers hs k packed)) as LL.
    { apply nd_len; auto; [apply all_servers_NoDup; auto|]. intros x. rewrite L3, all_servers_In by auto. fold M. fold ms. tauto. }
    destruct (Z.ltb_spec (Z.of_nat (length l)) (num_nodes hs * k)) as [X|_].
    { rewrite LL, all_servers_length in X by auto. lia. }
    destruct (stamps_ok l ms L2) as (ss & -> & F). { intros m Hm. apply L3. tauto. }
    exists ss. split; [reflexivity|]. assert (length ms = length hs) as LM by (unfold ms, ranks; rewrite map_length, zseq_length; reflexivity).
    split; [rewrite <- (Forall2_len _ _ _ F); exact LM|].
    intros i j Hi Hj.
    pose proof (at_rank_nth ms ss l i F ltac:(unfold nranks in *; lia)) as E1.
    pose proof (at_rank_nth ms ss l j F ltac:(unfold nranks in *; lia)) as E2.
    unfold ms, ranks in E1, E2. rewrite at_rank_map in E1, E2 by assumption.
    split; intros E; [rewrite E in E1; congruence|].
    rewrite E in E1. assert (forall a b x, zget l a = Some x -> zget l b = Some x -> a = b) as U.
    { intros a b x Xa Xb. pose proof (zget_inv l a x Xa). pose proof (zget_inv l b x Xb).
      unfold zget in Xa, Xb. destruct (Z.ltb_spec a 0); [lia|]. destruct (Z.ltb_spec b 0); [lia|].
      enough (Z.to_nat a = Z.to_nat b) by lia. eapply NoDup_nth_error; eauto.
      - apply nth_error_Some. congruence.
      - congruence. }
    eapply U; eauto.
Qed.
