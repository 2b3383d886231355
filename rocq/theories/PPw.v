(** Property theorems: elementwise operations on one array (C80, C81). *)
From Verif Require Import LRadix LXfer2 LGcopy2 LGcopy4 LStore LIterSca LLoc LPw LPw2 PDist PIter PIterBlk PXfer PLoc PGcopy.
Open Scope Z_scope.

(** * C80: GA_Fill_patch, GA_Zero_patch, GA_Scale_patch *)
(** [f] = store of the value, store of zero, multiplication by the value. *)
Theorem C80_patch_partial : forall {V} guess near wn a placed shape plo phi (f : V -> V) (m : heap V),
  good_guess guess -> walk_layout a wn placed shape -> (forall me w, abs_rank a me = Some w -> near me w = true) ->
  length plo = length (dims (ga_desc a)) -> length phi = length (dims (ga_desc a)) -> allocated placed m ->
  exists ess n,
    Forall2 (fun me es => forall fuel, (n <= fuel)%nat -> patch_cells fuel guess (near me) wn a me plo phi = Some es)
            (zseq 0 (Z.to_nat (ga_nproc a))) ess /\
    forall es, Permutation (concat ess) es ->
      exists m', run_elems (upd_elem f) m es = Some m' /\
        updated (fun x => in_array (dims (ga_desc a)) x /\ in_box plo phi x) f placed m m'.
Proof.
  intros V guess near wn a placed shape plo phi f m HG HL HN P1 P2 HA.
  destruct (patch_cells_spec guess near wn a plo phi placed shape HG HL HN P1 ltac:(lia)) as (ess & n & E & M).
  exists ess, n. split; [exact E|]. intros es PE. destruct (any_storage _ _ _ _ (proj1 HL)) as (al & _ & S2 & S3 & _).
  apply marked_updated; auto. eapply marked_perm; eauto.
Qed.
Print Assumptions C80_patch_partial.

(** All processes of the default group have to call. *)
Theorem C80_syncs : forall wn, 1 <= wn -> forall zero : bool,
  syncs_end (counts wn) (fun p => if existsb (Z.eqb p) (counts wn) then (if zero then zero_patch_syncs wn else patch_syncs wn) else []).
Proof.
  intros wn Hw zero. assert (EB : forall p, In p (counts wn) -> existsb (Z.eqb p) (counts wn) = true).
  { intros p Hp. apply existsb_exists. exists p. split; [exact Hp|apply Z.eqb_refl]. }
  apply (same_syncs _ (if zero then 4 else 2)%nat _ (counts wn)).
  - intros E. assert (X : In 0 (counts wn)) by (apply LGcopy5.counts_In; lia). rewrite E in X. destruct X.
  - apply incl_refl.
  - intros p Hp. rewrite (EB p Hp). destruct zero; reflexivity.
  - intros p Hp X. tauto.
Qed.
Print Assumptions C80_syncs.
(** On a smaller group the members wait for processes that do not call. *)
Theorem C80_group_refuted : exists a wn, wf_array a /\ forall zero : bool,
  ~ syncs_end (group_list a) (fun p => if existsb (Z.eqb p) (group_list a) then (if zero then zero_patch_syncs wn else patch_syncs wn) else []).
Proof.
  exists ex_ga, 8. split; [exact ex_ga_wf|]. intros zero.
  apply (stuck_syncs _ _ 5 (counts 8) (if zero then [counts 8; counts 8; counts 8] else [counts 8])).
  - left. reflexivity.
  - destruct zero; reflexivity.
  - exists 1. split; [vm_compute; tauto|reflexivity].
Qed.
Print Assumptions C80_group_refuted.

(** * C81: GA_Zero, GA_Scale, GA_Fill *)
(** GA_Zero (scale = false) and GA_Scale of a map-distributed array: ghost
    cells keep their values. *)
Theorem C81_regular_partial : forall {V} guess near wn a (scale : bool) (f : V -> V) (m : heap V) rk,
  good_guess guess -> wf_array a -> (forall me w, abs_rank a me = Some w -> near me w = true) -> no_empty_block a ->
  (forall me, 0 <= me < ga_nproc a -> abs_rank a me = Some (rk me)) -> allocated (reg_place a) m ->
  exists ess n,
    Forall2 (fun me es => forall fuel, (n <= fuel)%nat ->
        (if scale then scale_cells fuel guess (near me) wn a (rk me) me else zero_cells fuel guess (near me) wn a (rk me) me) = Some es)
      (zseq 0 (Z.to_nat (ga_nproc a))) ess /\
    forall es, Permutation (concat ess) es ->
      exists m', run_elems (upd_elem f) m es = Some m' /\ updated (in_array (dims (ga_desc a))) f (reg_place a) m m'.
Proof.
  intros V guess near wn a scale f m rk HG WA HN NE HRK HA.
  destruct (reg_cells_spec guess near wn a scale HG WA HN NE rk HRK) as (ess & n & E & M).
  exists ess, n. split; [exact E|]. intros es PE.
  destruct (regular_storage a wn WA) as (_ & S2 & S3 & _). apply marked_updated; auto. eapply marked_perm; eauto.
Qed.
Print Assumptions C81_regular_partial.

(** What [updated_cells] on the memory of the array means for the elements. *)
Lemma cells_elements {V} a wn placed shape (f : V -> V) m m' : any_layout a wn placed shape ->
  updated_cells f (owned a (fun q r => alloc_elems wn q r a)) m m' ->
  forall x q, placed x q -> exists v, hget m q = Some v /\ hget m' q = Some (f v).
Proof. intros HL [U _] x q Hq. apply U. exact (proj2 (proj2 (proj2 (any_storage_wn a wn placed shape HL))) x q Hq). Qed.

(** GA_Zero and GA_Scale of a block-distributed array: the whole memory of the
    array and nothing else. *)
Theorem C81_blocked_partial : forall {V} guess near wn a placed shape (scale : bool) (f : V -> V) (m : heap V) rk,
  block_layout a wn placed shape ->
  (forall me, 0 <= me < ga_nproc a -> abs_rank a me = Some (rk me)) ->
  (forall q, owned a (fun q r => alloc_elems wn q r a) q -> hget m q <> None) ->
  exists ess,
    Forall2 (fun me es => forall fuel,
        (if scale then scale_cells fuel guess (near me) wn a (rk me) me else zero_cells fuel guess (near me) wn a (rk me) me) = Some es)
      (zseq 0 (Z.to_nat (ga_nproc a))) ess /\
    forall es, Permutation (concat ess) es ->
      exists m', run_elems (upd_elem f) m es = Some m' /\
        updated_cells f (owned a (fun q r => alloc_elems wn q r a)) m m' /\
        forall x q, placed x q -> exists v, hget m q = Some v /\ hget m' q = Some (f v).
Proof.
  intros V guess near wn a placed shape scale f m rk HB HRK HA. assert (HL : any_layout a wn placed shape) by (right; exact HB).
  assert (HT : distr_type (ga_desc a) <> REGULAR).
  { destruct HB as (_ & [(T & _)|[([T|T] & _)|(T & _)]]); congruence. }
  destruct (procs_fuel (fun _ me => segment_cells wn (rk me) me a)
     (fun me cs => exists w n, abs_rank a me = Some w /\ alloc_elems wn w me a = Some n /\ cs = run_cells w 0 n)
     (zseq 0 (Z.to_nat (ga_nproc a)))) as (ess & n & E & F).
  { intros me Hme. apply zseq_In in Hme. assert (Hm : 0 <= me < ga_nproc a) by lia.
    destruct (alloc_total a wn placed shape me (rk me) HL Hm (HRK _ Hm)) as (k & EK).
    exists (run_cells (rk me) 0 k), 0%nat. split; [|exists (rk me), k; auto].
    intros _ _. unfold segment_cells, access_segment. rewrite Z.eqb_refl.
    destruct (Z.ltb_spec me 0); [lia|]. destruct (Z.leb_spec (ga_nproc a) me); [lia|]. cbn [orb negb].
    unfold ptr_owner. rewrite (HRK _ Hm), EK. reflexivity. }
  exists ess. split.
  - eapply Forall2_weaken; [|exact E]. intros me es H fuel. specialize (H n (le_n n)).
    unfold scale_cells, zero_cells. destruct (distr_type (ga_desc a)); [congruence|..]; destruct scale; exact H.
  - intros es PE. destruct (whole_updated a wn placed shape f m ess es HL HA F PE) as (m' & R & U).
    exists m'. split; [exact R|]. split; [exact U|]. eapply cells_elements; eauto.
Qed.
Print Assumptions C81_blocked_partial.

(** GA_Fill: the whole memory of the array, ghost cells included, if no process
    holds more than INT_MAX elements. *)
Theorem C81_fill_partial : forall {V} wn a placed shape (f : V -> V) (m : heap V) rk,
  any_layout a wn placed shape ->
  (forall me, 0 <= me < ga_nproc a -> abs_rank a me = Some (rk me)) ->
  (forall me n, 0 <= me < ga_nproc a -> alloc_elems wn (rk me) me a = Some n -> n <= int_max) ->
  (forall q, owned a (fun q r => alloc_elems wn q r a) q -> hget m q <> None) ->
  exists ess,
    Forall2 (fun me es => fill_cells wn a (rk me) me = Some es) (zseq 0 (Z.to_nat (ga_nproc a))) ess /\
    forall es, Permutation (concat ess) es ->
      exists m', run_elems (upd_elem f) m es = Some m' /\
        updated_cells f (owned a (fun q r => alloc_elems wn q r a)) m m' /\
        forall x q, placed x q -> exists v, hget m q = Some v /\ hget m' q = Some (f v).
Proof.
  intros V wn a placed shape f m rk HL HRK HI HA.
  destruct (procs_fuel (fun _ me => fill_cells wn a (rk me) me)
     (fun me cs => exists w n, abs_rank a me = Some w /\ alloc_elems wn w me a = Some n /\ cs = run_cells w 0 n)
     (zseq 0 (Z.to_nat (ga_nproc a)))) as (ess & n & E & F).
  { intros me Hme. apply zseq_In in Hme. assert (Hm : 0 <= me < ga_nproc a) by lia.
    destruct (alloc_total a wn placed shape me (rk me) HL Hm (HRK _ Hm)) as (k & EK). pose proof (HI me k Hm EK) as HK.
    exists (run_cells (rk me) 0 k), 0%nat. split; [|exists (rk me), k; auto].
    intros _ _. unfold fill_cells.
    assert (X : match distr_type (ga_desc a) with
                | REGULAR => do seg <- ptr_owner a me; do n <- alloc_elems wn (rk me) me a; Some (seg, n)
                | _ => do s <- access_segment wn (rk me) me a (rk me); Some (fst (fst s), snd s)
                end = Some (rk me, k)).
    { destruct HL as [((WR & _) & _)|(HG & _)].
      - destruct WR as (-> & _). unfold ptr_owner. rewrite (HRK _ Hm), EK. reflexivity.
      - assert (ER : rk me = me) by (specialize (HRK _ Hm); unfold abs_rank in HRK; rewrite HG in HRK; congruence).
        assert (Y : access_segment wn (rk me) me a (rk me) = Some (rk me, 0, k)).
        { unfold access_segment. rewrite ER at 1 2 3. rewrite Z.eqb_refl.
          destruct (Z.ltb_spec me 0); [lia|]. destruct (Z.leb_spec (ga_nproc a) me); [lia|]. cbn [orb negb].
          unfold ptr_owner. rewrite ER at 1. rewrite (HRK _ Hm), EK. reflexivity. }
        rewrite Y. unfold ptr_owner. rewrite (HRK _ Hm), EK. destruct (distr_type (ga_desc a)); reflexivity. }
    rewrite X. cbn [fst snd]. destruct (Z.leb_spec k int_max); [reflexivity|lia]. }
  exists ess. split; [eapply Forall2_weaken; [|exact E]; intros me es H; exact (H n (le_n n))|].
  intros es PE. destruct (whole_updated a wn placed shape f m ess es HL HA F PE) as (m' & R & U).
  exists m'. split; [exact R|]. split; [exact U|]. eapply cells_elements; eauto.
Qed.
Print Assumptions C81_fill_partial.

(** Without ghost cells, and for GA_Fill always, the members of the group of the
    array synchronise among themselves. *)
Theorem C81_syncs_partial : forall wn a placed shape, any_layout a wn placed shape -> 1 <= ga_nproc a ->
  (forall t, (forall p, In p (group_list a) -> t p = fill_syncs a) -> syncs_end (group_list a) t) /\
  (has_ghosts a = false \/ distr_type (ga_desc a) <> REGULAR ->
   (forall t, (forall p, In p (group_list a) -> t p = scale_syncs wn a) -> syncs_end (group_list a) t) /\
   (forall t, (forall me p, 0 <= me < ga_nproc a -> abs_rank a me = Some p -> Some (t p) = zero_syncs wn a me) -> syncs_end (group_list a) t)).
Proof.
  intros wn a placed shape HL Hn.
  assert (NE : group_list a <> []).
  { pose proof (layout_group _ _ _ _ HL) as WG. unfold group_list, wf_group in *. destruct (ga_group a) as [l|].
    - intros ->. cbn in WG. lia.
    - intros E. assert (X : In 0 (counts (ga_nproc a))) by (apply LGcopy5.counts_In; lia). rewrite E in X. destruct X. }
  assert (RK : forall p, In p (group_list a) -> exists me, 0 <= me < ga_nproc a /\ abs_rank a me = Some p).
  { intros p Hp. pose proof (layout_group _ _ _ _ HL) as WG. unfold group_list, wf_group, abs_rank in *. destruct (ga_group a) as [l|].
    - apply In_nth_error in Hp as (i & Hi). exists (Z.of_nat i). assert (i < length l)%nat by (apply nth_error_Some; congruence).
      split; [lia|]. unfold zget. destruct (Z.ltb_spec (Z.of_nat i) 0); [lia|]. rewrite Nat2Z.id. exact Hi.
    - apply LGcopy5.counts_In in Hp. exists p. auto. }
  assert (TWO : forall t, (forall p, In p (group_list a) -> t p = [group_list a; group_list a]) -> syncs_end (group_list a) t).
  { intros t H. apply (same_syncs _ 2 _ (group_list a) NE (incl_refl _) H). intros p Hp X. tauto. }
  split; [exact TWO|]. intros HG. split.
  - intros t H. apply TWO. intros p Hp. rewrite (H p Hp). unfold scale_syncs.
    destruct HG as [HG|HG]; [rewrite HG|]; destruct (distr_type (ga_desc a)); congruence.
  - intros t H. apply TWO. intros p Hp. destruct (RK p Hp) as (me & Hm & E). specialize (H me p Hm E). unfold zero_syncs in H.
    assert (X : Some (t p) = Some [group_list a; group_list a]); [|congruence]. rewrite H.
    destruct HG as [HG|HG].
    + rewrite HG. destruct (distr_type (ga_desc a)) eqn:ET; try reflexivity.
      destruct HL as [((WR & _) & _)|(_ & [(T & _)|[([T|T] & _)|(T & _)]])]; try congruence.
      destruct (LDist.regular_blocks_inside _ _ _ WR Hm) as (lo & hi & ED & _). rewrite ED, andb_false_r. reflexivity.
    + destruct (distr_type (ga_desc a)); [congruence|..]; reflexivity.
Qed.
Print Assumptions C81_syncs_partial.

(** ** Where it fails *)
(** A 4-element array in two blocks with ghost cells on three processes: the
    third has no data and calls fewer barriers than the others in GA_Zero. *)
Definition ex_idle : garray :=
  {| ga_desc := {| distr_type := REGULAR; dims := [4]; nblock := [2]; mapc := [1; 3];
                   block_dims := []; num_blocks := []; rstrctd_list := []; rank_rstrctd := [] |};
     ga_width := [1]; ga_group := None; ga_nproc := 3; ga_elemsize := 8 |}.
Lemma ex_idle_wf : wf_array ex_idle.
Proof.
  split; [|split; [reflexivity|split; [repeat constructor; lia|split; [exact I|cbn; lia]]]].
  split; [reflexivity|]. split; [discriminate|]. split; [split; [solve_map|exact I]|]. left. split; [reflexivity|cbn; lia].
Qed.
Theorem C81_idle_refuted : exists a, wf_array a /\ no_empty_block a /\ ga_group a = None /\
  forall t, (forall me, 0 <= me < ga_nproc a -> Some (t me) = zero_syncs (ga_nproc a) a me) -> ~ syncs_end (group_list a) t.
Proof.
  exists ex_idle. split; [exact ex_idle_wf|]. split.
  { intros p lo hi Hp ED H0. cbn in Hp. assert (p = 0 \/ p = 1 \/ p = 2) as [-> |[-> | ->]] by lia;
      vm_compute in ED; injection ED as <- <-; try (repeat constructor; lia). cbn in H0. lia. }
  split; [reflexivity|]. intros t H.
  pose proof (H 0 ltac:(cbn; lia)) as H0. pose proof (H 2 ltac:(cbn; lia)) as H2. vm_compute in H0, H2. injection H0 as H0. injection H2 as H2.
  apply (unequal_syncs _ t 2 0 [0; 1; 2] 2 5); [vm_compute; tauto|cbn; tauto|cbn; tauto|exact H2|exact H0|lia].
Qed.
Print Assumptions C81_idle_refuted.
(** With ghost cells on a group that is not the whole world, GA_Zero and
    GA_Scale wait for processes outside the group. *)
Theorem C81_ghost_group_refuted : exists a wn, wf_array a /\ no_empty_block a /\
  (forall t, (forall p, ~ In p (group_list a) -> t p = []) -> (forall p, In p (group_list a) -> t p = scale_syncs wn a) -> ~ syncs_end (group_list a) t) /\
  (forall t, (forall p, ~ In p (group_list a) -> t p = []) ->
     (forall me p, 0 <= me < ga_nproc a -> abs_rank a me = Some p -> Some (t p) = zero_syncs wn a me) -> ~ syncs_end (group_list a) t).
Proof.
  assert (ST : forall k t, (forall p, ~ In p [5; 2; 7; 0] -> t p = []) -> (forall p, In p [5; 2; 7; 0] -> t p = [5; 2; 7; 0] :: repeat (counts 8) (S k)) ->
            ~ syncs_end [5; 2; 7; 0] t).
  { intros k t HO HI H. inversion H as [t0 HD|g t0 Hne HS H']; subst.
    - specialize (HD 5 ltac:(cbn; tauto)). rewrite HI in HD by (cbn; tauto). discriminate.
    - assert (G : g = [5; 2; 7; 0]).
      { destruct g as [|x g]; [congruence|]. destruct (HS x (or_introl eq_refl)) as (r & E).
        destruct (in_dec Z.eq_dec x [5; 2; 7; 0]) as [X|X]; [rewrite (HI x X) in E; congruence|rewrite (HO x X) in E; discriminate]. }
      subst g. revert H'. apply (stuck_syncs _ _ 5 (counts 8) (repeat (counts 8) k)).
      + now left.
      + cbn [existsb Z.eqb orb Pos.eqb]. rewrite HI by (cbn; tauto). reflexivity.
      + exists 1. split; [vm_compute; tauto|]. cbn [existsb Z.eqb orb Pos.eqb]. apply HO. cbn. lia. }
  exists ex_ga, 8. split; [exact ex_ga_wf|]. split.
  { intros p lo hi Hp ED H0. cbn in Hp. assert (p = 0 \/ p = 1 \/ p = 2 \/ p = 3) as [-> |[-> |[-> | ->]]] by lia;
      vm_compute in ED; injection ED as <- <-; repeat constructor; lia. }
  split.
  - intros t HO H. apply (ST 1%nat t HO). intros p Hp. rewrite (H p Hp). reflexivity.
  - intros t HO H. apply (ST 3%nat t HO). intros p Hp.
    assert (X : Some (t p) = Some ([5; 2; 7; 0] :: repeat (counts 8) 4)); [|congruence].
    destruct Hp as [<-|[<-|[<-|[<-|[]]]]].
    + apply (H 0); [cbn; lia|reflexivity].
    + apply (H 1); [cbn; lia|reflexivity].
    + apply (H 2); [cbn; lia|reflexivity].
    + apply (H 3); [cbn; lia|reflexivity].
Qed.
Print Assumptions C81_ghost_group_refuted.

(** A map with an empty block: GA_Zero and GA_Scale stop with an error. *)
Definition ex_hole : garray :=
  {| ga_desc := {| distr_type := REGULAR; dims := [4]; nblock := [3]; mapc := [1; 3; 3];
                   block_dims := []; num_blocks := []; rstrctd_list := []; rank_rstrctd := [] |};
     ga_width := [0]; ga_group := None; ga_nproc := 3; ga_elemsize := 8 |}.
Theorem C81_empty_block_refuted : exists a me, wf_array a /\ 0 <= me < ga_nproc a /\
  (exists w, abs_rank a me = Some w) /\
  forall fuel near wn w, near w = true -> exists guess, good_guess guess /\
    zero_cells fuel guess near wn a w me = None /\ scale_cells fuel guess near wn a w me = None.
Proof.
  exists ex_hole, 1. split.
  { split; [|split; [reflexivity|split; [repeat constructor; lia|split; [exact I|cbn; lia]]]].
    split; [reflexivity|]. split; [discriminate|]. split; [split; [solve_map|exact I]|]. left. split; [reflexivity|cbn; lia]. }
  split; [cbn; lia|]. split; [eexists; reflexivity|]. intros fuel near wn w HN. exists ex_guess. split; [exact ex_guess_good|].
  unfold zero_cells, scale_cells. change (distr_type (ga_desc ex_hole)) with REGULAR. cbv iota.
  change (distribution (ga_desc ex_hole) 1) with (Some ([3], [2])). change (has_ghosts ex_hole) with false. cbn [fst snd hd Z.ltb Z.compare].
  unfold block_cells, access_ptr. change (le_all [3] [2]) with false.
  destruct (corner_owner ex_guess near ex_hole [3]); [|split; reflexivity]. destruct (corner_owner ex_guess near ex_hole [2]); split; reflexivity.
Qed.
Print Assumptions C81_empty_block_refuted.

(** More than INT_MAX elements on a process: the loop index of GA_Fill
    overflows. *)
Definition ex_large : garray :=
  {| ga_desc := {| distr_type := REGULAR; dims := [3000000000]; nblock := [1]; mapc := [1];
                   block_dims := []; num_blocks := []; rstrctd_list := []; rank_rstrctd := [] |};
     ga_width := [0]; ga_group := None; ga_nproc := 1; ga_elemsize := 8 |}.
Theorem C81_fill_large_refuted : exists a, wf_array a /\ forall wn, fill_cells wn a 0 0 = None.
Proof.
  exists ex_large. split; [|reflexivity].
  split; [|split; [reflexivity|split; [repeat constructor; lia|split; [exact I|cbn; lia]]]].
  split; [reflexivity|]. split; [discriminate|]. split; [split; [solve_map|exact I]|]. left. split; [reflexivity|cbn; lia].
Qed.
Print Assumptions C81_fill_large_refuted.
(** GA_Fill of a block-cyclic array on a group looks up the memory by the rank in
    the world and stops; GA_Zero does not. *)
Theorem C81_fill_group_refuted : exists a wn w me, wf_blocked (ga_desc a) /\ wf_group a /\
  0 <= me < ga_nproc a /\ abs_rank a me = Some w /\
  (exists cs, forall fuel guess near, zero_cells fuel guess near wn a w me = Some cs) /\ fill_cells wn a w me = None.
Proof.
  exists (ex_bc1 9 2 (Some [2; 3])), 4, 2, 0. split; [apply ex_bc1_wf; lia|].
  split; [split; [repeat constructor; cbn; lia|reflexivity]|]. split; [cbn; lia|]. split; [reflexivity|].
  split; [eexists; intros; vm_compute; reflexivity|reflexivity].
Qed.
Print Assumptions C81_fill_group_refuted.

(** ** Examples *)
Definition ex_upd (f : Z -> Z) (m : heap Z) (rs : list (option (list place))) : option (heap Z) :=
  do ess <- mapM (fun r => r) rs; run_elems (upd_elem f) m (concat ess).
(** Rows 3..8 and columns 0..3 (partly outside) of the 10x7 array with ghost
    cells on the group [5; 2; 7; 0]: (7,2), at offset 23 of process 7, is
    scaled; (2,2) and the ghost cells are not. *)
Example C80_ex :
  walk_layout ex_ga 8 (reg_place ex_ga) (reg_shape ex_ga) /\ length [3; 0] = length (dims (ga_desc ex_ga)) /\
  (do m' <- ex_upd (fun v => 7 * v) ex_src (map (fun me => patch_cells 9 ex_guess (fun _ => true) 8 ex_ga me [3; 0] [8; 3]) [0; 1; 2; 3]);
   mapM (fun q => hget m' q) (flat_map (fun p => map (fun o => (p, o)) (counts 28)) [2])) =
  Some (map (fun o => 2000 + o) (counts 15) ++ [14105; 14112; 14119; 2018; 2019; 2020; 2021; 14154; 14161; 14168; 2025; 2026; 2027]).
Proof. split; [apply ex_reg_walk, ex_ga_wf|]. split; [reflexivity|]. vm_compute. reflexivity. Qed.
(** GA_Zero of the 10x7 array with ghost cells, and GA_Fill of it: in the
    memory of process 2 only the 5x2 block becomes 0, or all of it 7. *)
Example C81_ex :
  wf_array ex_ga /\ no_empty_block ex_ga /\
  (do m' <- ex_upd (fun _ => 0) ex_src (map (fun me => zero_cells 9 ex_guess (fun _ => true) 8 ex_ga (nth (Z.to_nat me) [5; 2; 7; 0] 0) me) [0; 1; 2; 3]);
   mapM (fun o => hget m' (2, o)) (counts 28)) =
  Some (map (fun o => 2000 + o) (counts 15) ++ [0; 0; 0; 0; 0; 2020; 2021; 0; 0; 0; 0; 0; 2027]) /\
  (do cs <- fill_cells 8 ex_ga 2 1; do m' <- run_elems (upd_elem (fun _ => 7)) ex_src cs;
   mapM (fun o => hget m' (2, o)) [0; 15; 27]) = Some [7; 7; 7].
Proof.
  split; [exact ex_ga_wf|]. split.
  { intros p lo hi Hp ED H0. cbn in Hp. assert (p = 0 \/ p = 1 \/ p = 2 \/ p = 3) as [-> |[-> |[-> | ->]]] by lia;
      vm_compute in ED; injection ED as <- <-; repeat constructor; lia. }
  split; vm_compute; reflexivity.
Qed.
(** A block-cyclic array of 9 elements in blocks of 2 on two processes. *)
Example C81_ex_blocked :
  block_layout (ex_bc1 9 2 None) 2 (block_place (ex_bc1 9 2 None)) (block_shape (ex_bc1 9 2 None)) /\
  (do m' <- ex_upd (fun v => 3 * v) ex_src (map (fun me => scale_cells 9 ex_guess (fun _ => true) 2 (ex_bc1 9 2 None) me me) [0; 1]);
   mapM (fun q => hget m' q) [(0, 0); (0, 4); (1, 0); (1, 3); (1, 5)]) = Some [0; 12; 3000; 3009; 1005].
Proof.
  split.
  - split; [reflexivity|]. left. split; [reflexivity|]. split; [apply ex_bc1_wf; lia|]. split; [reflexivity|].
    split; [vm_compute; split; discriminate|auto].
  - vm_compute. reflexivity.
Qed.
