(** C59-C61: progress ranks. *)
From Verif Require Import SpecRanks MBase MHandle MGroup MRanks LNb LDist LRanks LRanks2 LRanks3.
From Coq Require Import Permutation.

(** C59 for placements in which the ranks of each node are consecutive: every
    process gets a server on its own node, and node_comm joins exactly the
    processes with the same server.  Missing: other placements, for which it is
    false. *)
Theorem C59_progress_partial hs env k packed :
  num_progress env = Done k -> contiguous (nranks hs) (hostof hs) -> sizes_ok (nranks hs) k (hostof hs) ->
  exists ms ss, comex_group_init hs env packed = Done (ms, ss) /\
    length ms = length hs /\ length ss = length hs /\
    progress (nranks hs) k (hostof hs) (at_rank ms) /\
    (forall i j, 0 <= i < nranks hs -> 0 <= j < nranks hs -> (at_rank ss i = at_rank ss j <-> at_rank ms i = at_rank ms j)).
Proof.
  intros EK C OK. assert (0 < k) as Hk.
  { unfold num_progress in EK. destruct env as [e|]; [destruct ((0 <? e) && (e <? 16)) eqn:B; [|discriminate]|]; inversion EK; subst; [|lia].
    apply andb_true_iff in B. lia. }
  destruct (init_ok hs env k packed EK Hk C OK) as (ss & E & L & S).
  exists (map (masterof hs k packed) (ranks hs)), ss. split; [exact E|]. split; [apply ms_length|]. split; [exact L|].
  pose proof (M_progress hs k packed C Hk OK) as [P1 P2 P3 P4].
  assert (forall r, 0 <= r < nranks hs -> at_rank (map (masterof hs k packed) (ranks hs)) r = masterof hs k packed r) as AT.
  { intros r R. apply at_rank_map. exact R. }
  split.
  - split.
    + intros r R. rewrite AT by exact R. apply P1. exact R.
    + intros r R. rewrite (AT r R). rewrite AT by (apply P1; exact R). apply P2. exact R.
    + intros r R. rewrite <- P3 by exact R. f_equal. apply count_ext. intros i I. rewrite !AT by auto. reflexivity.
    + intros r R. etransitivity; [|exact (P4 r R)]. apply count_ext. intros i I. rewrite AT by auto. reflexivity.
  - intros i j I J. rewrite S by auto. rewrite !AT by auto. reflexivity.
Qed.

(** For every placement: with a wrong number of processes on some node the
    library stops. *)
Theorem C59_sizes hs env k packed r : num_progress env = Done k -> 0 <= r < nranks hs ->
  (let c := count (nranks hs) (fun i => hostof hs i =? hostof hs r) in c < 2 * k \/ ~ (k | c)) ->
  comex_group_init hs env packed = Abort.
Proof.
  intros EK R B. assert (0 < k) as Hk.
  { unfold num_progress in EK. destruct env as [e|]; [destruct ((0 <? e) && (e <? 16)) eqn:X; [|discriminate]|]; inversion EK; subst; [|lia].
    apply andb_true_iff in X. lia. }
  unfold comex_group_init. rewrite EK. cbv zeta in B. rewrite <- size_count in B.
  rewrite (init_masters_bad hs k packed (ranks hs) r); auto; [apply ranks_In; exact R|]. intros [X1 X2]. destruct B; [lia|contradiction].
Qed.

(** Two nodes of two processes each, ranks dealt out in turn: every process would
    be its own server, and the list of servers is written beyond its end. *)
Theorem C59_round_robin_refuted : exists hs,
  sizes_ok (nranks hs) 1 (hostof hs) /\ comex_group_init hs None true = Undef /\
  (exists ms, init_masters hs 1 true (ranks hs) = Done ms /\ workers ms = []).
Proof.
  exists [0; 1; 0; 1]. split.
  - intros r R. unfold nranks in *. cbn [length Z.of_nat] in R.
    assert (r = 0 \/ r = 1 \/ r = 2 \/ r = 3) as D by (cbn in R; lia).
    destruct D as [->|[->|[->| ->]]]; vm_compute; (split; [discriminate|]); exists 2; reflexivity.
  - split; [vm_compute; reflexivity|]. eexists. split; vm_compute; reflexivity.
Qed.
(** A number of progress ranks that the library does not accept is not reported:
    the number used is not initialised. *)
Theorem C59_number_refuted : exists env, (exists e, env = Some e) /\ forall hs packed, comex_group_init hs env packed = Undef.
Proof. exists (Some 16). split; [eauto|]. intros. reflexivity. Qed.

(** Two nodes, of 4 and 6 processes, two servers on each. *)
Example C59_example : exists hs ms ss,
  contiguous (nranks hs) (hostof hs) /\ sizes_ok (nranks hs) 2 (hostof hs) /\
  comex_group_init hs (Some 2) true = Done (ms, ss) /\ ms = [1; 1; 3; 3; 6; 6; 6; 9; 9; 9] /\
  comex_group_init hs (Some 2) false = Done ([2; 3; 2; 3; 8; 9; 8; 9; 8; 9], [0; 1; 0; 1; 2; 3; 2; 3; 2; 3]).
Proof.
  exists [7; 7; 7; 7; 4; 4; 4; 4; 4; 4], [1; 1; 3; 3; 6; 6; 6; 9; 9; 9], [0; 0; 1; 1; 2; 2; 2; 3; 3; 3].
  split; [|split; [|vm_compute; auto]].
  - assert (forall r, 0 <= r < 10 -> hostof [7; 7; 7; 7; 4; 4; 4; 4; 4; 4] r = if r <? 4 then 7 else 4) as H.
    { intros r R. assert (r = 0 \/ r = 1 \/ r = 2 \/ r = 3 \/ r = 4 \/ r = 5 \/ r = 6 \/ r = 7 \/ r = 8 \/ r = 9) as D by lia.
      repeat (destruct D as [->|D]; [reflexivity|]). subst. reflexivity. }
    unfold nranks. cbn [length]. intros i j l I J. change (Z.of_nat 10) with 10 in J. rewrite !H by lia.
    destruct (Z.ltb_spec i 4), (Z.ltb_spec j 4), (Z.ltb_spec l 4); intros; try discriminate; try reflexivity; lia.
  - intros r R. unfold nranks in *. cbn [length] in R.
    assert (r = 0 \/ r = 1 \/ r = 2 \/ r = 3 \/ r = 4 \/ r = 5 \/ r = 6 \/ r = 7 \/ r = 8 \/ r = 9) as D by lia.
    repeat (destruct D as [->|D]; [vm_compute; (split; [discriminate|]); first [exists 2; reflexivity|exists 3; reflexivity]|]).
    subst. vm_compute; (split; [discriminate|]); exists 3; reflexivity.
Qed.

(** C60 with one progress rank on each node, any group, and with several of them
    for the group of all processes: each server of a member is told once of the
    memory it has to serve, and each member knows of the memory of those with the
    same server.  Missing: other groups with several servers on a node, for
    which it is false; placements whose nodes are not consecutive ranks. *)
Theorem C60_one_server_partial hs env packed ms ss size group :
  num_progress env = Done 1 -> contiguous (nranks hs) (hostof hs) -> sizes_ok (nranks hs) 1 (hostof hs) ->
  comex_group_init hs env packed = Done (ms, ss) ->
  (forall i, 0 <= size i) -> NoDup group -> (forall r, In r group -> In r (workers ms)) ->
  exists msgs,
    malloc_all hs ms ss 1 packed size group group =
      Done (map (fun r => (r, filter (fun i => (at_rank ms i =? at_rank ms r) && (0 <? size i)) group)) group, msgs) /\
    announced group (at_rank ms) size msgs.
Proof.
  intros EK C OK E SZ ND G. destruct (init_ok hs env 1 packed EK ltac:(lia) C OK) as (ss' & E' & L & S).
  rewrite E' in E. injection E as <- <-.
  apply announce; auto. apply (one_server_notify hs 1 packed C ltac:(lia) OK ss' L S group eq_refl ND).
  intros r R. apply G, workers_In in R. rewrite ms_length in R. tauto.
Qed.
Theorem C60_world_partial hs env k packed ms ss size :
  num_progress env = Done k -> contiguous (nranks hs) (hostof hs) -> sizes_ok (nranks hs) k (hostof hs) ->
  comex_group_init hs env packed = Done (ms, ss) -> (forall i, 0 <= size i) ->
  exists msgs,
    malloc_all hs ms ss k packed size (workers ms) (workers ms) =
      Done (map (fun r => (r, filter (fun i => (at_rank ms i =? at_rank ms r) && (0 <? size i)) (workers ms))) (workers ms), msgs) /\
    announced (workers ms) (at_rank ms) size msgs.
Proof.
  intros EK C OK E SZ. assert (0 < k) as Hk.
  { unfold num_progress in EK. destruct env as [e|]; [destruct ((0 <? e) && (e <? 16)) eqn:B; [|discriminate]|]; inversion EK; subst; [|lia].
    apply andb_true_iff in B. lia. }
  destruct (init_ok hs env k packed EK Hk C OK) as (ss' & E' & L & S).
  rewrite E' in E. injection E as <- <-. apply announce; auto. apply (world_notify hs k packed C Hk OK ss' L S).
Qed.

(** Eight processes on one node, two servers (3 and 7), a group of 2 and 5:
    process 2 stands back for process 5, which tells only its own server, so
    nobody tells server 3 of the memory of 2.  In the cyclic arrangement of the
    same node (servers 6 and 7), in the group of 1 and 4, neither tells
    server 7 of the memory of 1. *)
Theorem C60_subgroup_refuted : exists hs ms ss group,
  contiguous (nranks hs) (hostof hs) /\ sizes_ok (nranks hs) 2 (hostof hs) /\
  comex_group_init hs (Some 2) true = Done (ms, ss) /\ NoDup group /\ (forall r, In r group -> In r (workers ms)) /\
  (exists regs msgs, malloc_all hs ms ss 2 true (fun _ => 8) group group = Done (regs, msgs) /\
     In 3 (map (at_rank ms) group) /\ forall s es, ~ In (s, 3, es) msgs).
Proof.
  exists (repeat 0 8), [3; 3; 3; 3; 7; 7; 7; 7], [0; 0; 0; 0; 1; 1; 1; 1], [2; 5].
  assert (forall r, 0 <= r < 8 -> hostof (repeat 0 8) r = 0) as H.
  { intros r R. assert (r = 0 \/ r = 1 \/ r = 2 \/ r = 3 \/ r = 4 \/ r = 5 \/ r = 6 \/ r = 7) as D by lia.
    repeat (destruct D as [->|D]; [reflexivity|]). subst. reflexivity. }
  split; [|split; [|split; [vm_compute; reflexivity|split; [|split]]]].
  - intros i j l I J _. change (nranks (repeat 0 8)) with 8 in J. rewrite !H by lia. reflexivity.
  - intros r R. change (nranks (repeat 0 8)) with 8 in *.
    rewrite (count_ext 8 _ (fun _ => true)) by (intros i I; rewrite !H by lia; reflexivity).
    vm_compute. split; [discriminate|]. exists 4. reflexivity.
  - repeat constructor; cbn; intuition lia.
  - intros r [<-|[<-|[]]]; vm_compute; tauto.
  - exists [(2, [2; 5]); (5, [5])], [(5, 7, [5])]. split; [vm_compute; reflexivity|].
    split; [left; reflexivity|]. intros s es [X|[]]. discriminate.
Qed.
Theorem C60_cyclic_subgroup_refuted : exists hs ms ss group,
  comex_group_init hs (Some 2) false = Done (ms, ss) /\ NoDup group /\ (forall r, In r group -> In r (workers ms)) /\
  (exists regs msgs, malloc_all hs ms ss 2 false (fun _ => 8) group group = Done (regs, msgs) /\
     In 7 (map (at_rank ms) group) /\ forall s es, ~ In (s, 7, es) msgs).
Proof.
  exists (repeat 0 8), [6; 7; 6; 7; 6; 7; 6; 7], [0; 1; 0; 1; 0; 1; 0; 1], [1; 4].
  split; [vm_compute; reflexivity|]. split; [repeat constructor; cbn; intuition lia|].
  split; [intros r [<-|[<-|[]]]; vm_compute; tauto|].
  eexists. eexists. split; [vm_compute; reflexivity|].
  split; [left; reflexivity|]. intros s es. cbn. intuition discriminate.
Qed.

(** C61.  The first process of a node is no server. *)
Lemma first_worker hs k packed r : 0 < k -> contiguous (nranks hs) (hostof hs) -> sizes_ok (nranks hs) k (hostof hs) ->
  0 <= r < nranks hs -> (forall i, 0 <= i < r -> hostof hs i <> hostof hs r) -> masterof hs k packed r <> r.
Proof.
  intros Hk C OK R F. destruct (node_shape hs k packed C Hk OK r R) as (A1 & A2 & A3 & A4 & A5 & A6 & A7).
  assert (lo hs r = r) as E.
  { destruct (Z.eq_dec (lo hs r) r) as [E|N]; [exact E|]. exfalso. apply (F (lo hs r)); [lia|]. apply A6; nia. }
  rewrite A7, E in *. destruct (packed_dec k packed) as [P|[P K]].
  - rewrite mast_packed by auto. replace (r + k * per hs k r - 1 - r) with (per hs k r - 1 + (k - 1) * per hs k r) by lia.
    rewrite Z.div_add by lia. rewrite Z.div_small by lia. nia.
  - rewrite mast_cyclic by auto. rewrite Z.sub_diag, Z.mod_0_l by lia. nia.
Qed.

(** C61 on one node: no memory is accessed that was not made, and the message
    has the right number; but only the mutexes of process 0 are given back. *)
Theorem C61_one_node_partial hs env k packed ms ss num r :
  num_progress env = Done k -> (forall i, 0 <= i < nranks hs -> hostof hs i = hostof hs 0) -> sizes_ok (nranks hs) k (hostof hs) ->
  comex_group_init hs env packed = Done (ms, ss) -> In r (workers ms) ->
  mutexes_gone hs ms num r = Done (r =? 0).
Proof.
  intros EK ON OK E R. assert (0 < k) as Hk.
  { unfold num_progress in EK. destruct env as [e|]; [destruct ((0 <? e) && (e <? 16)) eqn:B; [|discriminate]|]; inversion EK; subst; [|lia].
    apply andb_true_iff in B. lia. }
  assert (contiguous (nranks hs) (hostof hs)) as C by (intros i j l I J _; rewrite (ON i), (ON j) by lia; reflexivity).
  destruct (init_ok hs env k packed EK Hk C OK) as (ss' & E' & L & S). rewrite E' in E. injection E as <- <-.
  set (ms := map (masterof hs k packed) (ranks hs)) in *.
  assert (length ms = length hs) as LM by apply ms_length.
  apply workers_In in R as R2. rewrite LM in R2. fold (nranks hs) in R2. destruct R2 as [R2 R3].
  assert (In 0 (workers ms)) as W0.
  { apply workers_In. rewrite LM. fold (nranks hs). split; [lia|]. unfold ms, ranks. rewrite at_rank_map by (unfold nranks in *; lia).
    apply first_worker; auto; [lia|]. intros i I. lia. }
  assert (hostof hs r = hostof hs 0) as HR by (apply ON; exact R2).
  destruct (smallest_spec hs r (workers ms) r eq_refl) as (B1 & B2 & B3 & B4). cbv zeta in *.
  assert (smallest hs r (workers ms) r = 0) as S0.
  { assert (smallest hs r (workers ms) r <= 0) by (apply B4; [exact W0|congruence]).
    destruct B2 as [B2|B2]; [lia|]. apply workers_In in B2. lia. }
  unfold mutexes_gone, destroy_mutexes. rewrite S0, Z.eqb_sym. destruct (Z.eqb_spec r 0) as [->|]; [|reflexivity].
  assert (zget (mutex_counts ms num) 0 = Some (num 0)) as ->.
  { unfold mutex_counts, workers in *. rewrite LM in *. destruct hs as [|h hs']; [cbn in R2; unfold nranks in R2; cbn in R2; lia|].
    cbn [length zseq filter] in *. destruct (at_rank ms 0 =? 0) eqn:X; [|reflexivity]. exfalso. apply R3. apply Z.eqb_eq. exact X. }
  unfold destroy_handler. rewrite Z.leb_refl. reflexivity.
Qed.

(** The first process of a node reads beyond the table of counts as soon as its
    rank is not smaller than the number of workers. *)
Theorem C61_outside hs env k packed ms ss num r :
  num_progress env = Done k -> contiguous (nranks hs) (hostof hs) -> sizes_ok (nranks hs) k (hostof hs) ->
  comex_group_init hs env packed = Done (ms, ss) ->
  0 <= r < nranks hs -> (forall i, 0 <= i < r -> hostof hs i <> hostof hs r) ->
  nranks hs - num_nodes hs * k <= r ->
  In r (workers ms) /\ mutexes_gone hs ms num r = Undef.
Proof.
  intros EK C OK E R F G. assert (0 < k) as Hk.
  { unfold num_progress in EK. destruct env as [e|]; [destruct ((0 <? e) && (e <? 16)) eqn:B; [|discriminate]|]; inversion EK; subst; [|lia].
    apply andb_true_iff in B. lia. }
  destruct (init_ok hs env k packed EK Hk C OK) as (ss' & E' & L & S). rewrite E' in E. injection E as <- <-.
  pose proof (workers_length hs k packed C Hk OK ss' L S) as WL. 
  set (ms := map (masterof hs k packed) (ranks hs)) in *.
  assert (length ms = length hs) as LM by apply ms_length.
  split.
  - apply workers_In. rewrite LM. split; [exact R|]. unfold ms, ranks. rewrite at_rank_map by exact R. apply first_worker; auto.
  - destruct (smallest_spec hs r (workers ms) r eq_refl) as (B1 & B2 & B3 & B4). cbv zeta in *.
    assert (smallest hs r (workers ms) r = r) as S0.
    { destruct B2 as [B2|B2]; [exact B2|]. apply workers_In in B2.
      destruct (Z.eq_dec (smallest hs r (workers ms) r) r); [assumption|]. exfalso. apply (F (smallest hs r (workers ms) r)); [lia|exact B1]. }
    unfold mutexes_gone, destroy_mutexes. rewrite S0, Z.eqb_refl.
    assert (zget (mutex_counts ms num) r = None) as ->; [|reflexivity].
    destruct (zget (mutex_counts ms num) r) eqn:X; [|reflexivity]. apply zget_inv in X. unfold mutex_counts in X. rewrite map_length in X. lia.
Qed.

(** Two nodes of two processes: process 2 reads entry 2 of a table of 2. *)
Theorem C61_outside_refuted : exists hs ms ss r,
  comex_group_init hs None true = Done (ms, ss) /\ In r (workers ms) /\ forall num, mutexes_gone hs ms num r = Undef.
Proof.
  exists [0; 0; 1; 1], [1; 1; 3; 3], [0; 0; 1; 1], 2. split; [vm_compute; reflexivity|]. split; [vm_compute; tauto|].
  intros num. reflexivity.
Qed.
(** Two nodes of three: process 3 sends the number of mutexes of process 4. *)
Theorem C61_count_refuted : exists hs ms ss r num,
  comex_group_init hs None true = Done (ms, ss) /\ In r (workers ms) /\ (forall i, 0 <= num i) /\
  destroy_mutexes hs ms num r = Done (Some (num (r + 1))) /\ num (r + 1) <> num r /\ mutexes_gone hs ms num r = Undef.
Proof.
  exists [0; 0; 0; 1; 1; 1], [2; 2; 2; 5; 5; 5], [0; 0; 0; 1; 1; 1], 3, (fun i => if i =? 4 then 2 else 1).
  split; [vm_compute; reflexivity|]. split; [vm_compute; tauto|]. split; [intros i; destruct (i =? 4); lia|].
  split; [reflexivity|]. split; [discriminate|reflexivity].
Qed.
(** Two workers on one node: the mutexes of process 1 stay. *)
Theorem C61_left_refuted : exists hs ms ss r,
  comex_group_init hs None true = Done (ms, ss) /\ In r (workers ms) /\ forall num, mutexes_gone hs ms num r = Done false.
Proof.
  exists [0; 0; 0], [2; 2; 2], [0; 0; 0], 1. split; [vm_compute; reflexivity|]. split; [vm_compute; tauto|]. reflexivity.
Qed.

Print Assumptions C59_progress_partial.
Print Assumptions C59_sizes.
Print Assumptions C59_round_robin_refuted.
Print Assumptions C59_number_refuted.
Print Assumptions C60_one_server_partial.
Print Assumptions C60_world_partial.
Print Assumptions C60_subgroup_refuted.
Print Assumptions C60_cyclic_subgroup_refuted.
Print Assumptions C61_one_node_partial.
Print Assumptions C61_outside.
Print Assumptions C61_outside_refuted.
Print Assumptions C61_count_refuted.
Print Assumptions C61_left_refuted.
