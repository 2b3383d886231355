(** Lemmas on progress ranks: messages about new memory. *)
From Verif Require Import SpecRanks MBase MHandle MGroup MRanks LNb LDist LRanks LRanks2.
From Coq Require Import Permutation.

Lemma map_at_rank l : map (at_rank l) (zseq 0 (length l)) = l.
Proof.
  assert (forall pre, map (at_rank (pre ++ l)) (zseq (Z.of_nat (length pre)) (length l)) = l) as G; [|exact (G [])].
  induction l as [|x l IH]; intros pre; cbn [length zseq map]; [reflexivity|]. f_equal.
  - unfold at_rank. rewrite Nat2Z.id, app_nth2, Nat.sub_diag by lia. reflexivity.
  - specialize (IH (pre ++ [x])). rewrite <- app_assoc in IH. cbn [app] in IH. rewrite app_length in IH. cbn [length] in IH.
    replace (Z.of_nat (length pre + 1)) with (Z.of_nat (length pre) + 1) in IH by lia. exact IH.
Qed.
Lemma filter_map {A B} (f : B -> bool) (g : A -> B) l : length (filter f (map g l)) = length (filter (fun x => f (g x)) l).
Proof. induction l as [|a l IH]; cbn [map filter]; [reflexivity|]. destruct (f (g a)); cbn [length]; rewrite IH; reflexivity. Qed.
Lemma node_size_count ss r : node_size ss r = count (Z.of_nat (length ss)) (fun i => at_rank ss i =? at_rank ss r).
Proof.
  unfold node_size, count. rewrite Nat2Z.id. f_equal. transitivity (length (filter (fun s => s =? at_rank ss r) (map (at_rank ss) (zseq 0 (length ss))))); [rewrite map_at_rank; reflexivity|apply filter_map].
Qed.
Lemma filter_flat_map {A B} (f : B -> bool) (g : A -> list B) l : filter f (flat_map g l) = flat_map (fun x => filter f (g x)) l.
Proof. induction l as [|a l IH]; cbn [flat_map]; [reflexivity|]. rewrite filter_app, IH. reflexivity. Qed.
Lemma flat_map_single {A B} (g : A -> list B) l s : NoDup l -> In s l -> (forall x, In x l -> x <> s -> g x = []) -> flat_map g l = g s.
Proof.
  induction l as [|a l IH]; intros N I E; [destruct I|]. inversion_clear N as [|? ? N1 N2]. cbn [flat_map]. destruct I as [->|I].
  - replace (flat_map g l) with (@nil B); [apply app_nil_r|]. symmetry. clear IH N2.
    induction l as [|b l IH]; cbn [flat_map]; [reflexivity|].
    rewrite (E b); [|right; left; reflexivity|intros ->; apply N1; left; reflexivity]. apply IH.
    + intros X. apply N1. right. exact X.
    + intros x Hx. apply E. destruct Hx as [->|Hx]; [left; reflexivity|right; right; exact Hx].
  - rewrite (E a); [|left; reflexivity|intros ->; contradiction]. cbn [app]. apply IH; auto. intros x Hx. apply E. right. exact Hx.
Qed.

Lemma filter_parts {A} (f : A -> bool) l : length l = (length (filter (fun x => negb (f x)) l) + length (filter f l))%nat.
Proof. induction l as [|a l IH]; cbn [filter length]; [reflexivity|]. destruct (f a); cbn [negb length]; lia. Qed.

(** Each member has one that speaks for it, among the members with its server. *)
Record notify_ok (hs ms ss : list Z) (k : Z) (packed : bool) (group : list Z) : Prop := {
  no_len : length ms = length hs;
  no_nodup : NoDup group;
  no_range : forall r, In r group -> 0 <= r < nranks hs;
  no_size : forall r, In r group -> node_size ss r = count (nranks hs) (fun i => at_rank ms i =? at_rank ms r);
  no_speak : forall r, In r group -> In (group_master hs ss k packed group r) group /\ at_rank ms (group_master hs ss k packed group r) = at_rank ms r;
  no_same : forall r r', In r group -> In r' group -> at_rank ms r = at_rank ms r' -> group_master hs ss k packed group r = group_master hs ss k packed group r' }.

Section announce.
Variables (hs ms ss : list Z) (k : Z) (packed : bool) (size : Z -> Z) (group : list Z).
Let n := nranks hs.
Let gm := group_master hs ss k packed group.
Hypothesis (SZ : forall i, 0 <= size i) (NO : notify_ok hs ms ss k packed group).
Let LM := no_len _ _ _ _ _ _ NO.
Let ND := no_nodup _ _ _ _ _ _ NO.
Let GR := no_range _ _ _ _ _ _ NO.
Let NS := no_size _ _ _ _ _ _ NO.
Let G1 : forall r, In r group -> In (gm r) group /\ at_rank ms (gm r) = at_rank ms r := no_speak _ _ _ _ _ _ NO.
Let G2 : forall r r', In r group -> In r' group -> at_rank ms r = at_rank ms r' -> gm r = gm r' := no_same _ _ _ _ _ _ NO.

Definition mine (r : Z) : list Z := filter (fun i => (at_rank ms i =? at_rank ms r) && (0 <? size i)) group.

Lemma local_entries_ok r g : In r group -> (forall i, In i g -> In i group) ->
  local_entries ms size r (gm r) g = Done (filter (fun i => (at_rank ms i =? at_rank ms r) && (0 <? size i)) g).
Proof.
  intros R. destruct (G1 r R) as [I E]. 
  assert (zget ms (gm r) = Some (at_rank ms r)) as Z1.
  { pose proof (GR _ I) as B. unfold n, nranks in B. rewrite <- E. unfold zget, at_rank. destruct (Z.ltb_spec (gm r) 0); [lia|].
    apply nth_error_nth'. pose proof LM as LM2. lia. }
  induction g as [|i g IH]; intros H; cbn [local_entries filter]; [reflexivity|].
  rewrite IH by (intros; apply H; right; assumption). rewrite Z1. pose proof (SZ i).
  destruct (Z.eqb_spec (size i) 0); destruct (Z.ltb_spec 0 (size i)); try lia; [rewrite andb_false_r; reflexivity|].
  rewrite andb_true_r. destruct (Z.eqb_spec i r) as [->|]; [rewrite Z.eqb_refl; reflexivity|].
  destruct (_ =? _); reflexivity.
Qed.
Lemma mine_fits r : In r group -> Z.of_nat (length (mine r)) <= node_size ss r.
Proof.
  intros R. rewrite NS by exact R. unfold count. apply inj_le. apply NoDup_incl_length; [apply NoDup_filter; exact ND|].
  intros i. unfold mine. rewrite !filter_In, zseq0_In. intros [I E]. apply andb_true_iff in E. split; [apply GR; exact I|tauto].
Qed.
Lemma comex_malloc_ok r : In r group ->
  comex_malloc hs ms ss k packed size group r =
  Done (mine r, if r =? gm r then [(r, at_rank ms r, mine r)] else []).
Proof.
  intros R. unfold comex_malloc, is_notifier. fold (gm r). rewrite local_entries_ok by auto. fold (mine r).
  destruct (r =? gm r); [|reflexivity]. pose proof (mine_fits r R). destruct (Z.leb_spec (Z.of_nat (length (mine r))) (node_size ss r)); [reflexivity|lia].
Qed.
Lemma malloc_all_ok rs : (forall r, In r rs -> In r group) ->
  malloc_all hs ms ss k packed size group rs =
  Done (map (fun r => (r, mine r)) rs, flat_map (fun r => if r =? gm r then [(r, at_rank ms r, mine r)] else []) rs).
Proof.
  induction rs as [|r rs IH]; intros H; cbn [malloc_all map flat_map]; [reflexivity|].
  rewrite comex_malloc_ok by (apply H; left; reflexivity). rewrite IH by (intros; apply H; right; assumption). reflexivity.
Qed.
Lemma announce : exists msgs,
  malloc_all hs ms ss k packed size group group = Done (map (fun r => (r, mine r)) group, msgs) /\
  announced group (at_rank ms) size msgs.
Proof.
  eexists. split; [apply malloc_all_ok; auto|]. split.
  - intros q Q. apply in_map_iff in Q. destruct Q as (r & <- & R). destruct (G1 r R) as [I E]. exists (gm r). split; [exact I|].
    rewrite filter_flat_map. rewrite (flat_map_single _ group (gm r)); auto.
    + rewrite (G2 (gm r) r I R E), Z.eqb_refl. cbn [filter fst snd]. rewrite E, Z.eqb_refl. f_equal. f_equal. unfold mine. rewrite E. reflexivity.
    + intros x X NE. destruct (Z.eqb_spec x (gm x)) as [EX|]; [|reflexivity]. cbn [filter fst snd].
      destruct (Z.eqb_spec (at_rank ms x) (at_rank ms r)) as [EM|]; [|reflexivity]. exfalso. apply NE. rewrite EX. apply G2; auto.
  - intros s q es H. apply in_flat_map in H. destruct H as (r & R & H). destruct (r =? gm r); [|destruct H].
    destruct H as [H|[]]. inversion H. subst. apply in_map. exact R.
Qed.
End announce.

(** The group of all processes that are not servers. *)
Lemma workers_In ms r : In r (workers ms) <-> 0 <= r < Z.of_nat (length ms) /\ at_rank ms r <> r.
Proof. unfold workers. rewrite filter_In, zseq_In, negb_true_iff, Z.eqb_neq. lia. Qed.
Lemma workers_NoDup ms : NoDup (workers ms).
Proof. apply NoDup_filter, zseq_NoDup. Qed.

Definition gap (k : Z) (packed : bool) : Z := if packed || (k =? 1) then 1 else k.
Lemma gap_arith a k s packed r l m : 0 < k -> 2 <= s -> a <= r <= a + k * s - 1 -> mast a k s packed r <> r ->
  a <= l <= a + k * s - 1 -> mast a k s packed l <> l -> a <= m <= a + k * s - 1 ->
  (forall i, a <= i <= a + k * s - 1 -> mast a k s packed i <> i -> m <= i <= l) ->
  my_master r s m l k packed = mast a k s packed r - gap k packed /\
  a <= mast a k s packed r - gap k packed <= a + k * s - 1 /\
  mast a k s packed (mast a k s packed r - gap k packed) = mast a k s packed r /\ 0 < gap k packed.
Proof.
  intros Hk A2 A4 NR B1 L2 D1 IN.
  destruct (packed_dec k packed) as [P|[P K]].
  - assert (gap k packed = 1) as -> by (unfold gap; destruct P as [-> | ->]; [reflexivity|destruct packed; reflexivity]).
    assert (my_master r s m l k packed = l - s * ((l - r) / s)) as ->.
    { unfold my_master. assert (m <= r <= l) by (apply IN; auto).
      destruct packed; [|destruct P as [P| ->]; [discriminate|]; cbn [Z.eqb Pos.eqb]]; rewrite Z.quot_div_nonneg; lia. }
    assert (l = a + k * s - 2) as EL.
    { assert (l <> a + k * s - 1).
      { intros ->. apply L2. rewrite mast_packed by (auto; lia). replace (a + k * s - 1 - (a + k * s - 1)) with 0 by lia. rewrite Z.div_0_l by lia. lia. }
      assert (a + k * s - 2 <= l); [|lia]. apply IN; [nia|]. rewrite mast_packed by (auto; nia).
      replace (a + k * s - 1 - (a + k * s - 2)) with 1 by lia. rewrite Z.div_small by lia. lia. }
    subst l. rewrite (mast_packed _ _ _ _ Hk A2 r) in NR |- * by auto.
    assert ((a + k * s - 2 - r) / s = (a + k * s - 1 - r) / s) as EQ.
    { set (x := a + k * s - 1 - r) in *. replace (a + k * s - 2 - r) with (x - 1) by (unfold x; lia).
      pose proof (Z.div_mod x s ltac:(lia)) as Q. pose proof (Z.mod_pos_bound x s ltac:(lia)) as B.
      assert (x mod s <> 0) by (intros Z0; apply NR; unfold x in *; lia).
      symmetry. apply Z.div_unique with (r := x mod s - 1); [left; lia|lia]. }
    rewrite EQ. split; [lia|]. rewrite <- (mast_packed a k s packed Hk A2 r P A4).
    split; [|split].
    + pose proof (div_block a k s A2 r A4) as DB. rewrite (mast_packed _ _ _ _ Hk A2 r) by auto.
      revert DB. generalize ((a + k * s - 1 - r) / s). intros q DB. clear - DB A2. nia.
    + apply (served_In a k s packed Hk A2 r A4). unfold served.
      replace (packed || (k =? 1)) with true by (destruct P as [-> | ->]; [reflexivity|destruct packed; reflexivity]).
      apply zseq_In. clear - A2. lia.
    + clear. lia.
  - assert (gap k packed = k) as -> by (unfold gap; rewrite P; destruct (Z.eqb_spec k 1); [contradiction|reflexivity]).
    assert (m = a) as EM.
    { assert (m <= a); [|lia]. apply IN; [nia|]. rewrite mast_cyclic by (auto; nia). rewrite Z.sub_diag, Z.mod_0_l by lia. nia. }
    assert (l = a + k * s - 1 - k) as EL.
    { assert (a + k * s - 1 - k <= l).
      { apply IN; [nia|]. rewrite mast_cyclic by (auto; nia). pose proof (Z.mod_pos_bound (a + k * s - 1 - k - a) k Hk). lia. }
      assert (~ (a + k * s - 1 - k < l)); [|lia]. intros X. apply L2.
      apply (servers_In a k s packed Hk A2). unfold servers.
      replace (packed || (k =? 1)) with false by (rewrite P; symmetry; apply Z.eqb_neq; exact K). apply zseq_In. lia. }
    subst m l. unfold my_master. rewrite P. destruct (Z.eqb_spec k 1); [contradiction|]. rewrite Z.rem_mod_nonneg by lia.
    rewrite <- P. split; [rewrite mast_cyclic by auto; lia|]. pose proof (Z.mod_pos_bound (r - a) k Hk) as MB.
    split; [|split].
    + rewrite mast_cyclic by auto. revert MB. generalize ((r - a) mod k). intros q MB. clear - MB A2. nia.
    + rewrite (mast_cyclic a k s packed Hk r) by auto. rewrite mast_cyclic by (auto; nia). f_equal.
      replace (a + k * s - 1 - k + 1 + (r - a) mod k - k - a) with ((r - a) mod k + (s - 2) * k) by lia.
      rewrite Z.mod_add by lia. apply Z.mod_mod. lia.
    + lia.
Qed.

Section kinds.
Variables (hs : list Z) (k : Z) (packed : bool).
Hypotheses (C : contiguous (nranks hs) (hostof hs)) (Hk : 0 < k) (OK : sizes_ok (nranks hs) k (hostof hs)).
Let n := nranks hs.
Let M := masterof hs k packed.
Let ms := map M (ranks hs).
Variable ss : list Z.
Hypothesis LS : length ss = length hs.
Hypothesis ES : forall i j, 0 <= i < n -> 0 <= j < n -> (at_rank ss i = at_rank ss j <-> M i = M j).

Lemma ms_length : length ms = length hs.
Proof. unfold ms, ranks. rewrite map_length, zseq_length. reflexivity. Qed.
Lemma ms_at r : 0 <= r < n -> at_rank ms r = M r.
Proof. intros R. apply at_rank_map. exact R. Qed.
Lemma ns_per r : 0 <= r < n -> node_size ss r = count n (fun i => at_rank ms i =? at_rank ms r) /\ node_size ss r = per hs k r.
Proof.
  intros R. rewrite node_size_count, LS. change (Z.of_nat (length hs)) with n.
  assert (count n (fun i => at_rank ss i =? at_rank ss r) = count n (fun i => M i =? M r)) as E1.
  { apply count_ext. intros i I. destruct (Z.eqb_spec (M i) (M r)) as [E|E].
    - apply Z.eqb_eq. apply ES; auto.
    - apply Z.eqb_neq. intros X. apply E. apply ES; auto. }
  split.
  - rewrite E1. apply count_ext. intros i I. rewrite !ms_at by auto. reflexivity.
  - rewrite E1. apply M_count; auto.
Qed.

(** One server: any group. *)
Lemma one_server_same i j : k = 1 -> 0 <= i < n -> 0 <= j < n -> (M i = M j <-> hostof hs i = hostof hs j).
Proof.
  intros K I J. split; intros E.
  - rewrite <- (proj2 (M_home hs k packed C Hk OK i I)), <- (proj2 (M_home hs k packed C Hk OK j J)). fold M. rewrite E. reflexivity.
  - destruct (node_same hs k packed C Hk OK j i J I E) as [E1 E2].
    destruct (node_shape hs k packed C Hk OK i I) as (A1 & A2 & A3 & A4 & A5 & A6 & A7).
    destruct (node_shape hs k packed C Hk OK j J) as (B1 & B2 & B3 & B4 & B5 & B6 & B7).
    unfold M. rewrite A7, B7, E1, E2 in *. rewrite !mast_packed by auto.
    rewrite !Z.div_small by lia. reflexivity.
Qed.
Lemma one_server_gm group r : k = 1 -> (forall i, In i group -> 0 <= i < n) -> In r group ->
  group_master hs ss k packed group r = largest hs r group r.
Proof.
  intros K G R. destruct (largest_spec hs r group r eq_refl) as (B1 & B2 & B3 & B4). cbv zeta in *.
  unfold group_master, my_master. destruct (ns_per r (G r R)) as [_ ->].
  set (b := largest hs r group r) in *. clearbody b.
  assert (In b group) as IB by (destruct B2 as [->|B2]; assumption).
  destruct (node_shape hs k packed C Hk OK r (G r R)) as (A1 & A2 & A3 & A4 & A5 & A6 & A7).
  apply A6 in B1; [|apply G; exact IB].
  assert (b - per hs k r * Z.quot (b - r) (per hs k r) = b) as E by (rewrite Z.quot_small by lia; lia).
  destruct packed; [exact E|]. destruct (Z.eqb_spec k 1); [exact E|contradiction].
Qed.
Lemma largest_same group r r' : In r group -> In r' group -> hostof hs r = hostof hs r' -> largest hs r group r = largest hs r' group r'.
Proof.
  intros R R' E. destruct (largest_spec hs r group r eq_refl) as (B1 & B2 & B3 & B4).
  destruct (largest_spec hs r' group r' eq_refl) as (D1 & D2 & D3 & D4). cbv zeta in *.
  set (b := largest hs r group r) in *. set (d := largest hs r' group r') in *. clearbody b d.
  assert (In b group) by (destruct B2 as [->|B2]; assumption). assert (In d group) by (destruct D2 as [->|D2]; assumption).
  assert (b <= d) by (apply D4; [assumption|congruence]). assert (d <= b) by (apply B4; [assumption|congruence]). lia.
Qed.
Lemma one_server_notify group : k = 1 -> NoDup group -> (forall r, In r group -> 0 <= r < n) -> notify_ok hs ms ss k packed group.
Proof.
  intros K ND G. constructor; auto.
  - apply ms_length.
  - intros r R. apply ns_per. auto.
  - intros r R. rewrite one_server_gm by auto. destruct (largest_spec hs r group r eq_refl) as (B1 & B2 & B3 & B4). cbv zeta in *.
    set (b := largest hs r group r) in *. clearbody b. assert (In b group) as IB by (destruct B2 as [->|B2]; assumption).
    split; [exact IB|]. rewrite !ms_at by auto. apply one_server_same; auto.
  - intros r r' R R' E. rewrite !one_server_gm by auto. apply largest_same; auto. apply one_server_same; auto. rewrite <- !ms_at by auto. exact E.
Qed.

(** All workers: any number of servers. *)
Let W := workers ms.
Lemma W_In r : In r W <-> 0 <= r < n /\ M r <> r.
Proof.
  unfold W. rewrite workers_In, ms_length. change (Z.of_nat (length hs)) with n.
  split; intros [H1 H2]; (split; [exact H1|]); rewrite ms_at in * by exact H1; exact H2.
Qed.
Lemma world_gm r : In r W -> group_master hs ss k packed W r = M r - gap k packed /\ In (M r - gap k packed) W /\ M (M r - gap k packed) = M r.
Proof.
  intros RW. apply W_In in RW as [R NR].
  destruct (node_shape hs k packed C Hk OK r R) as (A1 & A2 & A3 & A4 & A5 & A6 & A7). fold M in A7. fold n in A5, A6.
  pose proof (fun i => M_mast hs k packed C Hk OK r i R) as MM. fold M in MM.
  set (a := lo hs r) in *. set (s := per hs k r) in *. 
  destruct (largest_spec hs r W r eq_refl) as (B1 & B2 & B3 & B4). cbv zeta in *.
  destruct (smallest_spec hs r W r eq_refl) as (D1 & D2 & D3 & D4). cbv zeta in *.
  set (l := largest hs r W r) in *. set (m := smallest hs r W r) in *.
  assert (In r W) as RW by (apply W_In; auto).
  assert (In l W) as LW by (destruct B2 as [->|B2]; assumption). assert (In m W) as MW by (destruct D2 as [->|D2]; assumption).
  apply W_In in LW as [L1 L2]. apply W_In in MW as [M1 M2].
  apply A6 in B1; [|exact L1]. apply A6 in D1; [|exact M1].
  rewrite (MM l B1) in L2. rewrite (MM m D1) in M2.
  assert (forall i, a <= i <= a + k * s - 1 -> mast a k s packed i <> i -> m <= i <= l) as IN.
  { intros i I1 I2. assert (In i W) as IW by (apply W_In; split; [lia|]; rewrite (MM i I1); exact I2).
    split; [apply D4|apply B4]; auto; apply A6; lia. }
  unfold group_master. fold l. fold m. destruct (ns_per r R) as [_ ->]. fold s.
  clear B2 B3 B4 D2 D3 D4. clearbody l m a s. rewrite A7 in *.
  assert (forall x, a <= x <= a + k * s - 1 -> mast a k s packed x = mast a k s packed r -> x <> mast a k s packed r -> 
     In x W /\ M x = mast a k s packed r) as FIN.
  { intros x X1 X2 X3. split; [|rewrite (MM x X1); exact X2]. apply W_In. split; [lia|]. rewrite (MM x X1), X2. congruence. }
  destruct (gap_arith a k s packed r l m Hk A2 A4 NR B1 L2 D1 IN) as (X1 & X2 & X3 & X4).
  split; [exact X1|]. apply FIN; auto. clear - X4. lia.
Qed.
Lemma world_notify : notify_ok hs ms ss k packed W.
Proof.
  constructor; auto.
  - apply ms_length.
  - apply workers_NoDup.
  - intros r R. apply W_In in R. tauto.
  - intros r R. apply W_In in R. apply ns_per. tauto.
  - intros r R. destruct (world_gm r R) as (-> & I & E). split; [exact I|]. apply W_In in I. apply W_In in R. rewrite !ms_at by tauto. exact E.
  - intros r r' R R' E. destruct (world_gm r R) as (-> & _ & _). destruct (world_gm r' R') as (-> & _ & _).
    apply W_In in R. apply W_In in R'. rewrite !ms_at in E by tauto. rewrite E. reflexivity.
Qed.
Lemma workers_length : Z.of_nat (length W) = n - num_nodes hs * k.
Proof.
  assert (length W + length (all_servers hs k packed) = length hs)%nat as L.
  { rewrite (nd_len (all_servers hs k packed) (filter (fun r => at_rank ms r =? r) (zseq 0 (length ms)))).
    - unfold W, workers. rewrite <- (filter_parts (fun r => at_rank ms r =? r) (zseq 0 (length ms))), zseq_length. apply ms_length.
    - apply all_servers_NoDup; auto.
    - apply NoDup_filter, zseq_NoDup.
    - intros x. rewrite all_servers_In by auto. fold M. fold ms. rewrite filter_In, zseq_In, Z.eqb_eq. rewrite ms_length. split.
      + intros X. apply in_map_iff in X. destruct X as (r & <- & R). apply ranks_In in R. destruct (M_home hs k packed C Hk OK r R) as [H1 H2].
        split; [exact H1|]. rewrite ms_at by exact H1. apply M_self; auto.
      + intros [X E]. rewrite <- E, ms_at by exact X. apply in_map. apply ranks_In. exact X. }
  rewrite <- (all_servers_length hs k packed Hk). unfold n, nranks. lia.
Qed.
End kinds.
