(** C62: processes and servers translate remote addresses to the right memory. *)
From Verif Require Import SpecReg SpecRanks MBase MHandle MGroup MRanks MReg LNb LDist LRanks LRanks2 LRanks3 LReg LReg2 LReg3 PRanks.

(** What process [p] makes of addresses of process [r], whose memory are the
    segments [l]: an access inside a segment is an access to its object at the
    distance from its start, any other access is refused. *)
Definition translates (c : caches) (p r : Z) (l : list segm) : Prop :=
  forall a len, 0 < a -> 0 <= len ->
    (forall s, In s l -> inside a len s -> translate c p r a len = Done (sg_obj s, a - sg_addr s)) /\
    ((forall s, In s l -> ~ inside a len s) -> translate c p r a len = Abort).

Lemma translates_ok c p r live : sane (c p r) -> map seg_of (c p r) = segments r live -> translates c p r (segments r live).
Proof.
  intros S E a len A L. destruct (find_ok (c p r) a len S A L) as (o & F & O). unfold translate. rewrite F. split.
  - intros s I IN. rewrite <- E in I. apply in_map_iff in I. destruct I as (e & <- & I).
    destruct o as [f|]; cbn [answers] in O.
    + destruct O as [J IF]. assert (f = e) as ->; [|reflexivity].
      destruct S as [_ P]. clear -P I J IN IF. revert I J. induction P as [|x l P1 P2 IH]; [intros []|].
      rewrite Forall_forall in P1. intros [->|I] [->|J]; auto; exfalso.
      * specialize (P1 f J). unfold inside, apart in *. lia.
      * specialize (P1 e I). unfold inside, apart in *. lia.
    + exfalso. apply (O e I IN).
  - intros N. destruct o as [f|]; [|reflexivity]. exfalso. destruct O as [J IF]. apply (N (seg_of f)); [|exact IF].
    rewrite <- E. apply in_map. exact J.
Qed.

Lemma calls_mono (ok ok' : list Z -> Prop) : (forall g, NoDup g -> ok g -> ok' g) ->
  forall live cs, calls_ok ok live cs -> calls_ok ok' live cs.
Proof.
  intros H live cs. induction 1 as [|live a cs A C IH|live i cs I C IH].
  - constructor.
  - constructor; [|exact IH]. destruct A as [A1 A2 A3 A4 A5]. constructor; auto.
  - constructor; auto.
Qed.

Section start.
Variables (hs ms ss : list Z) (env : option Z) (k : Z) (packed : bool).
Hypotheses (EK : num_progress env = Done k) (C : contiguous (nranks hs) (hostof hs)) (OK : sizes_ok (nranks hs) k (hostof hs))
  (E : comex_group_init hs env packed = Done (ms, ss)).
Lemma start_progress : progress (nranks hs) k (hostof hs) (at_rank ms).
Proof.
  destruct (C59_progress_partial hs env k packed EK C OK) as (ms' & ss' & E' & _ & _ & P & _).
  rewrite E' in E. injection E as <- <-. exact P.
Qed.

(** What holds after a run, for all calls by groups as in [usable]. *)
Lemma run_translates cs : calls_ok (usable hs ms ss k packed) [] cs ->
  exists c live, reg_run hs ms ss k packed no_caches [] cs = Done (c, live) /\ live = fold_left live_step cs [] /\
    (forall r, translates c (at_rank ms r) r (segments r live)) /\
    (forall p r, at_rank ms p = at_rank ms r -> p <> at_rank ms r ->
       translates c p r (segments r (filter (fun a => existsb (Z.eqb p) (al_group a)) live))).
Proof.
  intros O.
  destruct (run_good hs ms ss k packed start_progress cs no_caches []) as (c & R & A & G1 & G2); auto.
  - intros p i. reflexivity.
  - split; [constructor|]. intros i. split; constructor.
  - set (live := fold_left live_step cs []) in *. clearbody live. exists c, live. split; [exact R|]. split; [reflexivity|]. split.
    + intros r. assert (c (at_rank ms r) r = memory r live) as V.
      { rewrite (A (at_rank ms r) r). unfold view, memory. apply flat_map_ext_in. intros a _.
        assert (seen ms (at_rank ms r) r a = has r a) as ->; [|reflexivity]. unfold seen, has. rewrite Z.eqb_refl. cbn [orb]. apply andb_true_r. }
      apply translates_ok; rewrite V; [apply G2|]. apply memory_segments.
    + intros p r EM N. assert (c p r = memory r (filter (fun a => existsb (Z.eqb p) (al_group a)) live)) as V.
      { rewrite (A p r). unfold view, memory. clear -EM N. induction live as [|a live IH]; [reflexivity|].
        cbn [flat_map filter]. rewrite IH. unfold seen at 1. fold (has r a). rewrite EM, Z.eqb_refl.
        destruct (Z.eqb_spec p (at_rank ms r)) as [X|_]; [contradiction|]. cbn [orb]. rewrite andb_true_r.
        destruct (existsb (Z.eqb p) (al_group a)); cbn [flat_map]; [rewrite andb_true_r; reflexivity|rewrite andb_false_r; reflexivity]. }
      apply translates_ok; rewrite V; [|apply memory_segments].
      rewrite <- V, (A p r). apply view_sane. apply G2.
Qed.
End start.

Lemma progress_positive env k : num_progress env = Done k -> 0 < k.
Proof.
  unfold num_progress. destruct env as [e|]; [destruct ((0 <? e) && (e <? 16)) eqn:B; [|discriminate]|]; intros X; inversion X; subst; [|lia].
  apply andb_true_iff in B. lia.
Qed.

(** C62 with one server per node, for groups of any workers.  Missing: placements
    with nodes that are not consecutive ranks (C59), more servers. *)
Theorem C62_one_server_partial hs env packed ms ss cs :
  num_progress env = Done 1 -> contiguous (nranks hs) (hostof hs) -> sizes_ok (nranks hs) 1 (hostof hs) ->
  comex_group_init hs env packed = Done (ms, ss) ->
  calls_ok (fun g => forall r, In r g -> In r (workers ms)) [] cs ->
  exists c live, reg_run hs ms ss 1 packed no_caches [] cs = Done (c, live) /\ live = fold_left live_step cs [] /\
    (forall r, translates c (at_rank ms r) r (segments r live)) /\
    (forall p r, at_rank ms p = at_rank ms r -> p <> at_rank ms r ->
       translates c p r (segments r (filter (fun a => existsb (Z.eqb p) (al_group a)) live))).
Proof.
  intros EK C OK E O. apply (run_translates hs ms ss env 1 packed EK C OK E cs).
  revert O. apply calls_mono. intros g ND G. split; [|exact G].
  destruct (init_ok hs env 1 packed EK ltac:(lia) C OK) as (ss' & E' & L & S). rewrite E' in E. injection E as <- <-.
  apply (one_server_notify hs 1 packed C ltac:(lia) OK ss' L S g eq_refl ND).
  intros r R. apply G, workers_In in R. rewrite ms_length in R. tauto.
Qed.
(** C62 with any number of servers per node, for the group of all workers. *)
Theorem C62_world_partial hs env k packed ms ss cs :
  num_progress env = Done k -> contiguous (nranks hs) (hostof hs) -> sizes_ok (nranks hs) k (hostof hs) ->
  comex_group_init hs env packed = Done (ms, ss) ->
  calls_ok (fun g => g = workers ms) [] cs ->
  exists c live, reg_run hs ms ss k packed no_caches [] cs = Done (c, live) /\ live = fold_left live_step cs [] /\
    (forall r, translates c (at_rank ms r) r (segments r live)) /\
    (forall p r, at_rank ms p = at_rank ms r -> p <> at_rank ms r ->
       translates c p r (segments r (filter (fun a => existsb (Z.eqb p) (al_group a)) live))).
Proof.
  intros EK C OK E O. pose proof (progress_positive env k EK) as Hk. apply (run_translates hs ms ss env k packed EK C OK E cs).
  revert O. apply calls_mono. intros g ND ->. split; [|auto].
  destruct (init_ok hs env k packed EK Hk C OK) as (ss' & E' & L & S). rewrite E' in E. injection E as <- <-.
  apply (world_notify hs k packed C Hk OK ss' L S).
Qed.
(** Memory that overlaps registered memory is refused, whatever the sizes. *)
Theorem C62_overlap l b len o f : sane l -> 0 < b -> 0 < len -> In f l -> ~ apart (seg_of f) (Segm b len o) ->
  rc_insert l (REnt b len o) = Abort.
Proof. intros S B L I A. apply (insert_refused l (REnt b len o) f); auto. Qed.

(** With two servers on a node of eight processes and a group of 2 and 5, the
    server of 2 refuses accesses to the memory of 2 (C60). *)
Theorem C62_subgroup_refuted : exists hs ms ss a c,
  comex_group_init hs (Some 2) true = Done (ms, ss) /\
  alloc_ok (fun g => forall r, In r g -> In r (workers ms)) [] a /\
  reg_run hs ms ss 2 true no_caches [] [MAlloc a] = Done (c, [a]) /\
  In (Segm 4096 8 7) (segments 2 [a]) /\ inside 4096 8 (Segm 4096 8 7) /\ translate c (at_rank ms 2) 2 4096 8 = Abort.
Proof.
  exists (repeat 0 8), [3; 3; 3; 3; 7; 7; 7; 7], [0; 0; 0; 0; 1; 1; 1; 1], (GAlloc [2; 5] (fun _ => 8) (fun _ => 4096) (fun _ => 7)).
  eexists. split; [vm_compute; reflexivity|]. split; [|split; [vm_compute; reflexivity|]].
  - constructor; cbn [al_group al_size al_addr].
    + repeat constructor; cbn; intuition lia.
    + intros r [<-|[<-|[]]]; vm_compute; tauto.
    + intros; lia.
    + intros; cbn; lia.
    + intros r s t [].
  - split; [left; reflexivity|]. split; [unfold inside; cbn; lia|]. vm_compute. reflexivity.
Qed.

(** Two nodes of three processes; servers 2 and 5.  The group of 0, 3 and 4
    allocates (0 asks for nothing), then all workers, then the first is freed. *)
Example C62_example : exists ms ss cs c live,
  let hs := [0; 0; 0; 1; 1; 1] in
  num_progress None = Done 1 /\ contiguous (nranks hs) (hostof hs) /\ sizes_ok (nranks hs) 1 (hostof hs) /\
  comex_group_init hs None true = Done (ms, ss) /\
  calls_ok (fun g => forall r, In r g -> In r (workers ms)) [] cs /\ length cs = 3%nat /\
  reg_run hs ms ss 1 true no_caches [] cs = Done (c, live) /\
  segments 4 live = [Segm 200 16 3] /\
  translate c 5 4 208 8 = Done (3, 8) /\ translate c 3 4 208 8 = Done (3, 8) /\ translate c 5 4 100 8 = Abort /\ translate c 5 4 209 8 = Abort.
Proof.
  exists [2; 2; 2; 5; 5; 5]. eexists.
  exists [MAlloc (GAlloc [4; 0; 3] (fun r => if r =? 0 then 0 else 16) (fun r => if r =? 0 then 0 else 100) (fun r => 1));
          MAlloc (GAlloc [0; 1; 3; 4] (fun r => 16) (fun r => 200) (fun r => 3)); MFree 0].
  eexists. eexists. cbv zeta. assert (forall r, 0 <= r < 6 -> r = 0 \/ r = 1 \/ r = 2 \/ r = 3 \/ r = 4 \/ r = 5) as D by lia.
  split; [reflexivity|]. split; [|split; [|split; [vm_compute; reflexivity|split]]].
  - intros i j l I J. change (nranks [0; 0; 0; 1; 1; 1]) with 6 in J.
    destruct (D i ltac:(lia)) as [->|[->|[->|[->|[->| ->]]]]]; destruct (D j ltac:(lia)) as [->|[->|[->|[->|[->| ->]]]]];
    destruct (D l ltac:(lia)) as [->|[->|[->|[->|[->| ->]]]]]; vm_compute; intros; try discriminate; try reflexivity; lia.
  - intros r R. change (nranks [0; 0; 0; 1; 1; 1]) with 6 in *.
    destruct (D r R) as [->|[->|[->|[->|[->| ->]]]]]; vm_compute; (split; [discriminate|]); exists 3; reflexivity.
  - constructor; [|constructor; [|constructor; [cbn; lia|constructor]]].
    + constructor; cbn [al_group al_size al_addr].
      * repeat constructor; cbn; intuition lia.
      * intros r [<-|[<-|[<-|[]]]]; vm_compute; tauto.
      * intros r. destruct (r =? 0); lia.
      * intros r _. destruct (r =? 0); cbn; lia.
      * intros r s t [].
    + constructor; cbn [al_group al_size al_addr app].
      * repeat constructor; cbn; intuition lia.
      * intros r [<-|[<-|[<-|[<-|[]]]]]; vm_compute; tauto.
      * intros r. lia.
      * intros r _. cbn; lia.
      * intros r s t S T. unfold segments, segm_of in S, T. cbn [flat_map al_group al_size al_addr al_obj] in S, T.
        destruct (existsb _ _ && _) in S; [|destruct S]. destruct (existsb _ _ && _) in T; [|destruct T].
        destruct S as [<-|[]]. destruct T as [<-|[]]. unfold apart. cbn [sg_addr sg_len]. destruct (r =? 0); lia.
  - split; [reflexivity|]. split; [vm_compute; reflexivity|]. split; [vm_compute; reflexivity|]. repeat split; vm_compute; reflexivity.
Qed.

Print Assumptions C62_one_server_partial.
Print Assumptions C62_world_partial.
Print Assumptions C62_overlap.
Print Assumptions C62_subgroup_refuted.
Print Assumptions C62_example.
