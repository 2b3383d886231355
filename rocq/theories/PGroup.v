(** Process groups: C42 and C43. *)
From Verif Require Import SpecGroup MBase MNb MHandle MGroup LRadix LDist LNb LIterBlk LGroup LGroup2.

(** A machine and its nodes: [j], [np] give the processes of this node. *)
Definition machine (k : gcfg) (j np : Z) : Prop :=
  1 <= gc_n k /\ 1 <= gc_max k /\ 0 <= gc_me k < gc_n k /\ 0 <= j /\ 0 <= np /\ j + np <= gc_n k.
(** Every call of the history [cs] is allowed, given the answers of the calls
    before it. *)
Definition history_ok (k : gcfg) (s0 : gstate) (cs : list gcall) : Prop :=
  forall n c, nth_error cs n = Some c -> forall s l b, group_run k s0 (firstn n cs) = Done (s, l) ->
    gbook_run (gc_n k) (gc_max k) gbook0 (firstn n cs) l b -> gallowed (gc_n k) (gc_max k) b c.

Lemma run_app n max b cs l b1 c a b2 : gbook_run n max b cs l b1 -> gallowed n max b1 c -> gbook_step n max b1 c a b2 -> gbook_run n max b (cs ++ [c]) (l ++ [a]) b2.
Proof. induction 1; intros; cbn; econstructor; eauto. constructor. Qed.
Lemma group_run_app k s cs s1 l c s2 a : group_run k s cs = Done (s1, l) -> group_step k s1 c = Done (s2, a) -> group_run k s (cs ++ [c]) = Done (s2, l ++ [a]).
Proof.
  revert s l; induction cs as [|c0 cs IH]; intros s l E1 E2; cbn [group_run app] in *.
  - injection E1 as <- <-. rewrite E2; auto.
  - destruct (group_step k s c0) as [[s0 a0]| |]; try discriminate. cbn [fst snd] in *.
    destruct (group_run k s0 cs) as [[s3 l3]| |] eqn:E; try discriminate. injection E1 as <- <-. cbn [fst snd] in *.
    rewrite (IH s0 l3 E E2); auto.
Qed.
Lemma group_runs k s0 cs : gsim k s0 gbook0 -> history_ok k s0 cs ->
  exists s l b, group_run k s0 cs = Done (s, l) /\ gbook_run (gc_n k) (gc_max k) gbook0 cs l b /\ gsim k s b.
Proof.
  intros S. induction cs as [|c cs IH] using rev_ind; intros H.
  - exists s0, [], gbook0. split; auto. split; [constructor|auto].
  - destruct IH as (s & l & b & E & R & SS).
    { intros n c' N s l b. assert (L : (n < length cs)%nat) by (apply nth_error_Some; congruence).
      specialize (H n c'). rewrite firstn_app in H. replace (n - length cs)%nat with O in H by lia. cbn [firstn] in H. rewrite app_nil_r in H.
      rewrite nth_error_app1 in H by auto. apply (H N s l b). }
    assert (A : gallowed (gc_n k) (gc_max k) b c).
    { specialize (H (length cs) c). rewrite firstn_app, Nat.sub_diag, firstn_all in H. cbn [firstn] in H. rewrite app_nil_r in H.
      rewrite nth_error_app2, Nat.sub_diag in H by auto. apply (H eq_refl s l b); auto. }
    destruct (gstep_sim k s b c SS A) as (s' & a & b' & E1 & R1 & S1).
    exists s', (l ++ [a]), b'. split; [eapply group_run_app; eauto|]. split; [eapply run_app; eauto|auto].
Qed.

(** What the program sees of the group [g] with members [c] (in order of rank). *)
Definition shows (k : gcfg) (s : gstate) (g : Z) (c : list Z) : Prop :=
  pgroup_nnodes k s g = Done (Z.of_nat (length c)) /\
  (forall r p, zget c r = Some p -> absolute_id k s g r = Done p) /\
  (forall r, zget c r = Some (gc_me k) -> pgroup_nodeid k s g = Done r) /\
  (~ In (gc_me k) c -> pgroup_nodeid k s g = Done (-1)) /\
  exists mp inv, pg_maps k s g = Done (mp, inv) /\
    (forall r p, zget c r = Some p -> zget mp p = Some r /\ zget inv r = Some p) /\
    (forall p, 0 <= p < gc_n k -> ~ In p c -> zget mp p = Some (-1)).

Lemma sim_shows k s b g c : gsim k s b -> gb_grp b g = Some c -> shows k s g c.
Proof.
  intros S E. destruct (gs_live _ _ _ S _ _ E) as (H1 & H2 & H3 & mp & inv & id & T & M & F & N).
  destruct (gs_cfg _ _ _ S) as [C1 C2].
  assert (R : pg_read k s g = Done (gt_tab s g)).
  { unfold pg_read, in_table. destruct (Z.leb_spec 0 g); [|lia]. destruct (Z.ltb_spec g (gc_max k)); [auto|lia]. }
  destruct M as (M1 & M2 & M3 & M4 & M5).
  unfold shows, pgroup_nnodes, pgroup_nodeid, absolute_id, pg_maps. rewrite R, T; cbn [pg_mem pg_nproc pg_id need fst snd].
  destruct (Z.leb_spec 0 g); [|lia]. destruct (Z.eqb_spec g (-1)); [lia|].
  split; auto. split; [|split; [|split]].
  - intros r p Z. destruct (Z.eqb_spec id 0); [contradiction|]. rewrite F, Z. auto.
  - intros r Z. apply M3 in Z; destruct Z as [-> _]; auto.
  - intros NI. rewrite M4; auto.
  - exists mp, inv; auto.
Qed.

(** C42: after any history of allowed calls, on every process, every group has
    exactly the members that the calls gave it (the ledger [b] is what the calls
    and their answers mean), ranks and absolute numbers are translated in both
    directions, and processes that are not members have no rank. *)
Theorem C42_groups_partial : forall k j np cs,
  machine k j np -> exists s0, group_init k j np = Done s0 /\ (history_ok k s0 cs ->
  exists s l b, group_run k s0 cs = Done (s, l) /\
    gbook_run (gc_n k) (gc_max k) gbook0 cs l b /\
    (forall g c, gb_grp b g = Some c -> NoDup c /\ (forall p, In p c -> 0 <= p < gc_n k) /\ shows k s g c) /\
    gt_def s = gb_def b).
Proof.
  intros k j np cs (M1 & M2 & M3 & M4 & M5 & M6).
  destruct (init_sim k j np M1 M2 M3 M4 M5 M6) as (s0 & E0 & S0). exists s0. split; auto. intros H.
  destruct (group_runs k s0 cs S0 H) as (s & l & b & E & R & S).
  exists s, l, b. split; auto. split; auto. split; [|apply S].
  intros g c G. destruct (gs_live _ _ _ S _ _ G) as (L1 & L2 & L3 & _). split; auto. split; auto. eapply sim_shows; eauto.
Qed.

(** What the ledger says of a creation: the listed processes of the default
    group, and no others, are members; the other groups stay as they are. *)
Theorem C42_create_members : forall n max b l h b' pm,
  gmembers n b (gb_def b) = Some pm -> gbook_step n max b (GCreate l) (GHandle h) b' ->
  (exists c, gb_grp b' h = Some c /\ (forall p, In p c <-> exists r, In r l /\ zget pm r = Some p) /\ length c = length l) /\
  (forall g, g <> h -> gb_grp b' g = gb_grp b g) /\ gb_grp b h = None /\ gb_def b' = gb_def b.
Proof.
  intros n max b l h b' pm PM H. inversion H as [? ? pm' c H1 H2 H3 H4| | |]; subst. rewrite PM in H3; injection H3 as <-.
  cbn [gb_grp gb_def]. split; [|split; [|split; auto]].
  - exists c. unfold gput; rewrite Z.eqb_refl. split; auto. split; [intros p; now apply chosen_In|].
    destruct H4 as (l' & P & _ & F). rewrite (Permutation_length P). symmetry. eapply Forall2_len; eauto.
  - intros g N. unfold gput. destruct (Z.eqb_spec g h); congruence.
Qed.

(** Six processes; a group of 1, 4, 5 made with the list 5 1 4; in it a group of
    its ranks 2 and 0, that is 1 and 5. *)
Lemma by_group {A} (r : out (gstate * A)) (P : gstate -> A -> Prop) :
  match r with Done (s, l) => P s l | _ => False end -> exists s l, r = Done (s, l) /\ P s l.
Proof. destruct r as [[s l]| |]; intros H; [exists s, l; auto|contradiction|contradiction]. Qed.
Definition no_state : gstate := GState (fun _ => PGrp false MNever 0 0 None) [] 0 0.
Definition first_state (k : gcfg) (j np : Z) : gstate := match group_init k j np with Done s => s | _ => no_state end.
Definition k6 : gcfg := GCfg 6 10 4.
Definition s6 : gstate := first_state k6 3 3.
Example C42_nested : machine k6 3 3 /\ exists s l, group_run k6 s6 [GCreate [5; 1; 4]; GSetDefault 1; GCreate [2; 0]] = Done (s, l) /\
  (l = [GHandle 1; GUnit; GHandle 2] /\ pgroup_nodeid k6 s 1 = Done 1 /\ pgroup_nodeid k6 s 2 = Done (-1) /\
   absolute_id k6 s 2 0 = Done 1 /\ absolute_id k6 s 2 1 = Done 5).
Proof. split; [unfold machine; cbn; lia|]. apply by_group. vm_compute; auto 10. Qed.
Example C42_hypotheses : history_ok k6 s6 [GCreate [5; 1; 4]; GSetDefault 1; GCreate [2; 0]].
Proof.
  assert (ND3 : NoDup [5; 1; 4]) by (repeat constructor; cbn; lia).
  assert (ND2 : NoDup [2; 0]) by (repeat constructor; cbn; lia).
  intros [|[|[|n]]] c E s l b R B; cbn [firstn nth_error] in *; [| | |destruct n; discriminate]; injection E as <-.
  - inversion B; subst. split; [exists 1; split; [unfold ghandle_ok; cbn; lia|auto]|]. split; auto.
    eexists; split; [reflexivity|]. rewrite zseq_length. cbn [In]. intros r; cbn; lia.
  - assert (l = [GHandle 1]) by (vm_compute in R; congruence). subst l. clear R.
    inversion B as [|? ? ? ? ? ? ? A ST R']; subst. inversion R'; subst. inversion ST; subst. right.
    cbn [gb_grp]. unfold gput; cbn. eauto.
  - assert (l = [GHandle 1; GUnit]) by (vm_compute in R; congruence). subst l. clear R.
    inversion B as [|? ? ? b1 ? ? ? A ST R']; subst. inversion R' as [|? ? ? b2 ? ? ? A2 ST2 R2]; subst. inversion R2; subst. inversion ST2; subst.
    inversion ST as [? ? pm c H1 H2 H3 H4| | |]; subst. cbn [gb_grp gb_par gb_def] in *.
    split; [exists 2; split; [unfold ghandle_ok; cbn; lia|reflexivity]|]. split; auto.
    exists c. split; [reflexivity|]. destruct H4 as (l' & P & _ & F). pose proof (Forall2_len _ _ _ F) as L. rewrite <- L, <- (Permutation_length P). cbn; lia.
Qed.

(** A list may name a process outside the default group: it is checked against
    the number of all processes only. *)
Theorem C42_outside_refuted : exists s l, group_run (GCfg 4 10 0) (first_state (GCfg 4 10 0) 0 4) [GCreate [0; 1]; GSetDefault 1] = Done (s, l) /\
  pgroup_nnodes (GCfg 4 10 0) s 1 = Done 2 /\ pgroup_create (GCfg 4 10 0) s [2] = Undef.
Proof. apply by_group. vm_compute; auto. Qed.
(** A duplicate of a group has other members for the translation to absolute
    numbers than for the number of processes and the own rank. *)
Theorem C42_duplicate_refuted : exists s l, group_run (GCfg 4 10 2) (first_state (GCfg 4 10 2) 0 4) [GCreate [2; 3]; GDuplicate 1] = Done (s, l) /\
  l = [GHandle 1; GHandle 2] /\ absolute_id (GCfg 4 10 2) s 1 0 = Done 2 /\ absolute_id (GCfg 4 10 2) s 2 0 = Done 0 /\ pgroup_nodeid (GCfg 4 10 2) s 2 = Done 0.
Proof. apply by_group. vm_compute; auto. Qed.
Theorem C42_duplicate_world_refuted : forall k j np, machine k j np -> 2 <= gc_max k ->
  exists s, group_init k j np = Done s /\ pgroup_duplicate k s (-1) = Undef.
Proof.
  intros k j np (M1 & M2 & M3 & M4 & M5 & M6) H. destruct (init_sim k j np M1 M2 M3 M4 M5 M6) as (s & E & S). exists s. split; auto.
  unfold pgroup_duplicate. cbn. replace (Z.to_nat (gc_max k)) with (Datatypes.S (Datatypes.S (Z.to_nat (gc_max k - 2)))) by lia. cbn [pg_free].
  rewrite (gs_0 _ _ _ S). cbn [Z.add]. rewrite (gs_free _ _ _ S 1) by (auto; lia). auto.
Qed.
(** The library's group 0 of the processes of this node has no ComEx group. *)
Theorem C42_mirror_refuted : forall k j np r, machine k j np -> exists s, group_init k j np = Done s /\ absolute_id k s 0 r = Undef.
Proof.
  intros k j np r (M1 & M2 & M3 & M4 & M5 & M6). unfold group_init.
  destruct (fill_maps k (zseq j (Z.to_nat np))) as (mp & inv & E & M); try lia.
  { apply zseq_NoDup. } { intros p I; apply zseq_In in I; lia. }
  rewrite E; cbn [need fst snd]. eexists; split; [reflexivity|]. unfold absolute_id, pg_read, in_table; cbn.
  destruct (Z.ltb_spec 0 (gc_max k)); [auto|lia].
Qed.
(** With group 0 as default group (two nodes of two processes, on the second) the
    new group has the members 2 and 3 for its ranks, 0 and 1 for translation. *)
Theorem C42_mirror_default_refuted : exists s l, group_run (GCfg 4 10 2) (first_state (GCfg 4 10 2) 2 2) [GSetDefault 0; GCreate [0; 1]] = Done (s, l) /\
  l = [GUnit; GHandle 1] /\ pgroup_nodeid (GCfg 4 10 2) s 1 = Done 0 /\ absolute_id (GCfg 4 10 2) s 1 0 = Done 0.
Proof. apply by_group. vm_compute; auto. Qed.
(** Destroying a group twice: fatal error rather than an answer. *)
Theorem C42_destroy_twice_refuted : exists s l, group_run (GCfg 4 10 2) (first_state (GCfg 4 10 2) 0 4) [GCreate [2; 3]; GDestroy 1 false] = Done (s, l) /\
  l = [GHandle 1; GStatus true] /\ pgroup_destroy (GCfg 4 10 2) s 1 false = Abort.
Proof. apply by_group. vm_compute; auto. Qed.

(** C43: after any history, splitting a group [g] (-1: all processes; [gm]: its
    members) of which this process has rank [m] into [num] groups makes
    [split_count] new groups, at most [num], of [split_size] processes each (the
    last may have fewer); the process of rank r is in the one at position
    r / [split_size], and in no other; the answer is the group of this process.
    All other groups and the default group stay as they are. *)
Definition after (k : gcfg) (j np : Z) (cs : list gcall) (s : gstate) (b : gbook) : Prop :=
  machine k j np /\ exists s0 l, group_init k j np = Done s0 /\ history_ok k s0 cs /\ group_run k s0 cs = Done (s, l) /\ gbook_run (gc_n k) (gc_max k) gbook0 cs l b.
Definition handles_left (max : Z) (b : gbook) (n : Z) : Prop :=
  exists l, Z.of_nat (length l) = n /\ NoDup l /\ forall h, In h l -> ghandle_ok max h /\ gb_grp b h = None.

Lemma step_det n max b c a b1 b2 : gbook_step n max b c a b1 -> gbook_step n max b c a b2 -> b1 = b2.
Proof.
  intros H1 H2. destruct H1 as [l h pm c A1 A2 A3 A4|g|g c A1|g h c A1 A2 A3]; inversion H2 as [? ? pm' c' B1 B2 B3 B4| | |? ? c' B1 B2 B3]; subst; auto.
  - assert (pm = pm') by congruence; subst pm'. assert (c = c'); [|congruence].
    destruct A4 as (l1 & P1 & S1 & F1); destruct B4 as (l2 & P2 & S2 & F2).
    assert (l1 = l2) as <-.
    { apply sorted_unique; auto. intros x; split; intros I; [apply Permutation_in with l; auto; apply Permutation_in with l1; auto; now symmetry|apply Permutation_in with l; auto; apply Permutation_in with l2; auto; now symmetry]. }
    clear - F1 F2. revert c' F2; induction F1 as [|r p l1 c [A1 A2] F IH]; intros c1 F2; inversion F2 as [|? q ? c2 [B1 B2] F3]; subst; auto. f_equal; [congruence|auto].
  - congruence.
Qed.
Lemma run_det n max b cs l b1 b2 : gbook_run n max b cs l b1 -> gbook_run n max b cs l b2 -> b1 = b2.
Proof.
  intros R; revert b2; induction R as [b|b c a b1 cs l b2 A S R IH]; intros b3 R3; inversion R3; subst; auto.
  apply IH. match goal with X : gbook_step _ _ _ _ _ ?y, Y : gbook_run _ _ ?y _ _ _ |- _ => rewrite (step_det _ _ _ _ _ _ _ S X) end. auto.
Qed.
Lemma after_sim k j np cs s b : after k j np cs s b -> gsim k s b.
Proof.
  intros ((M1 & M2 & M3 & M4 & M5 & M6) & s0 & l & E0 & H & E & R).
  destruct (init_sim k j np M1 M2 M3 M4 M5 M6) as (s0' & E0' & S0). rewrite E0 in E0'; injection E0' as <-.
  destruct (group_runs k s0 cs S0 H) as (s' & l' & b' & E' & R' & S'). rewrite E in E'; injection E' as <- <-.
  now rewrite (run_det _ _ _ _ _ _ _ R R').
Qed.
Lemma handles_free max b n : handles_left max b n -> n <= Z.of_nat (length (gfree max b)).
Proof.
  intros (l & <- & ND & H). apply inj_le. apply NoDup_incl_length; auto. intros h I. apply gfree_In; auto.
Qed.

Theorem C43_split_partial : forall k j np cs s b g gm m num,
  after k j np cs s b -> gallowed (gc_n k) (gc_max k) b (GSetDefault g) -> gmembers (gc_n k) b g = Some gm -> zget gm m = Some (gc_me k) ->
  1 <= num -> handles_left (gc_max k) b (split_count (Z.of_nat (length gm)) num) ->
  exists s' b' hs h, pgroup_split k s g num = Done (s', h) /\
    zget hs (m / split_size (Z.of_nat (length gm)) num) = Some h /\
    Z.of_nat (length hs) = split_count (Z.of_nat (length gm)) num /\ Z.of_nat (length hs) <= num /\
    NoDup hs /\ (forall h', In h' hs -> ghandle_ok (gc_max k) h' /\ gb_grp b h' = None) /\
    (forall t h', zget hs t = Some h' -> exists c, gb_grp b' h' = Some c /\
      (forall p, In p c <-> exists r, zget gm r = Some p /\ r / split_size (Z.of_nat (length gm)) num = t)) /\
    (forall h', ~ In h' hs -> gb_grp b' h' = gb_grp b h') /\ gb_def b' = gb_def b /\ gt_def s' = gt_def s /\
    (forall g' c, gb_grp b' g' = Some c -> shows k s' g' c).
Proof.
  intros k j np cs s b g gm m num AF A GM ME NUM HL. pose proof (after_sim _ _ _ _ _ _ AF) as S. pose proof (handles_free _ _ _ HL) as FR.
  destruct (split_sim k s b g gm m num S A GM ME NUM FR) as (s' & b' & hs & h & E & S' & D & L & ND & F & O & Z & G).
  exists s', b', hs, h. split; auto. split; auto. split; auto.
  split. { rewrite L. apply split_count_le; auto. pose proof (zget_inv _ _ _ ME). lia. }
  split; auto. split; [intros h' I; destruct (F h' I); auto|]. split; auto. split; auto. split; auto.
  split; [rewrite (gs_def _ _ _ S), (gs_def _ _ _ S'); auto|]. intros g' c G'. eapply sim_shows; eauto.
Qed.
(** The number of groups is the number asked for if (and only if) that many
    groups of the rounded up size are needed; so always if it divides. *)
Theorem C43_count_partial : forall np num, 1 <= np -> 1 <= num ->
  (split_count np num = num <-> (num - 1) * split_size np num < np) /\ (np mod num = 0 -> split_count np num = num).
Proof.
  intros np num H1 H2. assert (A : split_count np num = num <-> (num - 1) * split_size np num < np).
  { split; [|apply split_count_eq; auto]. intros E. unfold split_count in E. pose proof (split_size_pos np num H1 H2).
    pose proof (Z.mul_div_le (np - 1) (split_size np num) ltac:(lia)). replace (num - 1) with ((np - 1) / split_size np num) by lia. lia. }
  split; auto. intros M. apply A. pose proof (Z.div_mod np num ltac:(lia)) as D. rewrite M in D.
  assert (E : split_size np num = np / num). { unfold split_size. symmetry. apply Z.div_unique with (num - 1); lia. }
  rewrite E. assert (1 <= np / num) by (apply Z.div_le_lower_bound; try lia; destruct (Z.eq_dec (np / num) 0) as [e|]; [rewrite e in D; lia|]; pose proof (Z.div_pos np num); nia). nia.
Qed.
(** Splitting by colours: the group of the members with the same colour. *)
Theorem C43_colours : forall k j np cs s b g gm m col,
  after k j np cs s b -> gallowed (gc_n k) (gc_max k) b (GSetDefault g) -> gmembers (gc_n k) b g = Some gm -> zget gm m = Some (gc_me k) ->
  0 <= col m -> groom (gc_max k) b ->
  exists s' b' h c, pgroup_split_irreg k s g col (col m) = Done (s', h) /\
    gb_grp b h = None /\ gb_grp b' h = Some c /\ (forall p, In p c <-> exists r, zget gm r = Some p /\ col r = col m) /\
    (forall h', h' <> h -> gb_grp b' h' = gb_grp b h') /\ gb_def b' = gb_def b /\ gt_def s' = gt_def s /\
    (forall g' c, gb_grp b' g' = Some c -> shows k s' g' c).
Proof.
  intros k j np cs s b g gm m col AF A GM ME C RM. pose proof (after_sim _ _ _ _ _ _ AF) as S.
  destruct (irreg_sim k s b g gm m col S A GM ME C RM) as (s' & b' & h & c & E & S' & D & N & G & O & P).
  exists s', b', h, c. split; auto. split; auto. split; auto. split; auto. split; auto. split; auto.
  split; [rewrite (gs_def _ _ _ S), (gs_def _ _ _ S'); auto|]. intros g' c' G'. eapply sim_shows; eauto.
Qed.
(** Six processes in the world into three groups of two; into four groups: there
    are three. *)
Example C43_six : after k6 3 3 [] s6 gbook0 /\ handles_left 10 gbook0 3 /\ split_count 6 3 = 3 /\
  exists s h, pgroup_split k6 s6 (-1) 3 = Done (s, h) /\ (h = 3 /\ absolute_id k6 s 3 0 = Done 4 /\ absolute_id k6 s 3 1 = Done 5).
Proof.
  split; [|split; [|split; [reflexivity|apply by_group; vm_compute; auto]]].
  - split; [unfold machine; cbn; lia|]. exists s6, []. split; [vm_compute; reflexivity|]. split; [intros [|n] c E; discriminate|]. split; [reflexivity|constructor].
  - exists [1; 2; 3]. split; [reflexivity|]. split; [repeat constructor; cbn; lia|]. intros h I; cbn in I. unfold ghandle_ok; split; auto; lia.
Qed.
Theorem C43_count_refuted : exists s h, pgroup_split (GCfg 5 10 0) (first_state (GCfg 5 10 0) 0 5) (-1) 4 = Done (s, h) /\
  h = 1 /\ pgroup_nnodes (GCfg 5 10 0) s 1 = Done 2 /\ pgroup_nnodes (GCfg 5 10 0) s 2 = Done 2 /\ pgroup_nnodes (GCfg 5 10 0) s 3 = Done 1 /\
  pg_actv (gt_tab s 4) = false.
Proof. apply by_group. vm_compute; auto 10. Qed.
(** A process outside the group that is split gets a group that it is not in. *)
Theorem C43_outsider_refuted : exists s l, group_run (GCfg 5 10 4) (first_state (GCfg 5 10 4) 0 5) [GCreate [0; 1; 2; 3]] = Done (s, l) /\
  exists s' h, pgroup_split (GCfg 5 10 4) s 1 2 = Done (s', h) /\ (h = 2 /\ pgroup_nodeid (GCfg 5 10 4) s' 2 = Done (-1) /\ absolute_id (GCfg 5 10 4) s' 2 0 = Done 0).
Proof.
  assert (H : exists s l, group_run (GCfg 5 10 4) (first_state (GCfg 5 10 4) 0 5) [GCreate [0; 1; 2; 3]] = Done (s, l) /\
    match pgroup_split (GCfg 5 10 4) s 1 2 with
    | Done (s', h) => h = 2 /\ pgroup_nodeid (GCfg 5 10 4) s' 2 = Done (-1) /\ absolute_id (GCfg 5 10 4) s' 2 0 = Done 0
    | _ => False
    end) by (apply by_group; vm_compute; auto).
  destruct H as (s & l & E & H). exists s, l. split; auto. apply by_group; auto.
Qed.

Print Assumptions C42_groups_partial.
Print Assumptions C42_create_members.
Print Assumptions C42_outside_refuted.
Print Assumptions C42_duplicate_refuted.
Print Assumptions C42_duplicate_world_refuted.
Print Assumptions C42_mirror_refuted.
Print Assumptions C42_mirror_default_refuted.
Print Assumptions C42_destroy_twice_refuted.
Print Assumptions C43_split_partial.
Print Assumptions C43_count_partial.
Print Assumptions C43_colours.
Print Assumptions C43_count_refuted.
Print Assumptions C43_outsider_refuted.
