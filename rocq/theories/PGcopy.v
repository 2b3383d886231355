(** Property theorems: GA_Copy and GA_Transpose (C77, C78). *)
From Verif Require Import LRadix LXfer2 LGcopy LGcopy2 LGcopy4 LGcopy5 PDist PIter PIterBlk PXfer PLoc.
Open Scope Z_scope.

(** * C77 *)
(** The group of A is not larger: the members of the group of A put. *)
Theorem C77_copy_put_partial : forall {V} guess near wn rnd smp a b pa pb sa sb (ma mb : heap V) meb,
  good_guess guess -> (forall me q k, 0 <= rnd me q k) -> walk_layout a wn pa sa -> any_layout b wn pb sb ->
  small_local a sa -> small_local b sb -> dims (ga_desc a) = dims (ga_desc b) -> ga_elemsize a = ga_elemsize b ->
  ga_nproc a <= ga_nproc b ->
  (forall me w, abs_rank a me = Some w -> near me w = true) ->
  allocated pa ma -> allocated pb mb ->
  exists ess n,
    Forall2 (fun me es => forall fuel, (n <= fuel)%nat ->
        ga_copy fuel guess (near me) wn (rnd me) (smp me) a b me (meb me) = Some es) (zseq 0 (Z.to_nat (ga_nproc a))) ess /\
    forall es, Permutation (concat ess) es ->
      exists mb', run_elems (copy_elem ma) mb es = Some mb' /\
                  copied (in_array (dims (ga_desc a))) (fun x => x) pa pb ma mb mb'.
Proof.
  intros V guess near wn rnd smp a b pa pb sa sb ma mb meb HG HR LA LB SA SB ED EE HN HNear AA AB.
  destruct (copy_put_spec guess near wn rnd smp a b pa pb sa sb HG HR LA LB SA SB ED EE HN HNear meb) as (ess & n & F & L).
  exists ess, n. split; [exact F|]. intros es HP.
  destruct (any_storage _ _ _ _ (proj1 LA)) as (al & _ & FA & _). destruct (any_storage _ _ _ _ LB) as (bl & _ & FB & IB & _).
  apply (labelled_copied (fun x => x) pa pb FA FB IB); auto. eapply labelled_perm; eauto.
Qed.
Print Assumptions C77_copy_put_partial.

(** The group of A is larger: the members of the group of B get. *)
Theorem C77_copy_get_partial : forall {V} guess near wn rnd smp a b pa pb sa sb (ma mb : heap V) mea,
  good_guess guess -> (forall me q k, 0 <= rnd me q k) -> any_layout a wn pa sa -> walk_layout b wn pb sb ->
  small_local a sa -> small_local b sb -> dims (ga_desc a) = dims (ga_desc b) -> ga_elemsize a = ga_elemsize b ->
  ga_nproc b < ga_nproc a ->
  (forall me w, abs_rank b me = Some w -> near me w = true) ->
  allocated pa ma -> allocated pb mb ->
  exists ess n,
    Forall2 (fun me es => forall fuel, (n <= fuel)%nat ->
        ga_copy fuel guess (near me) wn (rnd me) (smp me) a b (mea me) me = Some es) (zseq 0 (Z.to_nat (ga_nproc b))) ess /\
    forall es, Permutation (concat ess) es ->
      exists mb', run_elems (copy_elem ma) mb es = Some mb' /\
                  copied (in_array (dims (ga_desc a))) (fun x => x) pa pb ma mb mb'.
Proof.
  intros V guess near wn rnd smp a b pa pb sa sb ma mb mea HG HR LA LB SA SB ED EE HN HNear AA AB.
  destruct (copy_get_spec guess near wn rnd smp a b pa pb sa sb HG HR LA LB SA SB ED EE HN HNear mea) as (ess & n & F & L).
  exists ess, n. split; [exact F|]. intros es HP.
  destruct (any_storage _ _ _ _ LA) as (al & _ & FA & _). destruct (any_storage _ _ _ _ (proj1 LB)) as (bl & _ & FB & IB & _).
  apply (labelled_copied (fun x => x) pa pb FA FB IB); auto. eapply labelled_perm; eauto.
Qed.
Print Assumptions C77_copy_get_partial.

(** The checks refuse every other combination of shapes. *)
Theorem C77_copy_checks : forall fuel guess near wn rnd smp a b mea meb es,
  ga_copy fuel guess near wn rnd smp a b mea meb = Some es ->
  dims (ga_desc a) = dims (ga_desc b) /\ ga_elemsize a = ga_elemsize b.
Proof.
  intros fuel guess near wn rnd smp a b mea meb es H. unfold ga_copy in H.
  destruct (copy_checks a b) eqn:E; [|discriminate]. unfold copy_checks in E.
  apply andb_prop in E as [E1 E3]. apply andb_prop in E1 as [E1 E2]. apply Nat.eqb_eq in E1. apply Z.eqb_eq in E3.
  split; [|exact E3]. clear H E3. revert E1 E2. generalize (dims (ga_desc a)), (dims (ga_desc b)).
  induction l as [|x l IH]; intros [|y m] E1 E2; try discriminate; [reflexivity|]. cbn in E1, E2.
  apply andb_prop in E2 as [X E2]. apply Z.eqb_eq in X. subst. f_equal. apply IH; [congruence|exact E2].
Qed.
Print Assumptions C77_copy_checks.

(** * C78 *)
Theorem C78_transpose_partial : forall {V} guess near wn rnd smp a b pa pb sa sb d0 d1 (ma mb : heap V),
  good_guess guess -> (forall me q k, 0 <= rnd me q k) -> walk_layout a wn pa sa -> any_layout b wn pb sb ->
  small_local a sa -> small_local b sb -> dims (ga_desc a) = [d0; d1] -> dims (ga_desc b) = [d1; d0] ->
  ga_elemsize a = ga_elemsize b ->
  (forall me w, abs_rank a me = Some w -> near me w = true) ->
  allocated pa ma -> allocated pb mb ->
  exists ess n,
    Forall2 (fun me es => forall fuel, (n <= fuel)%nat ->
        ga_transpose fuel guess (near me) wn (rnd me) (smp me) a b me = Some es) (zseq 0 (Z.to_nat (ga_nproc a))) ess /\
    forall es, Permutation (concat ess) es ->
      exists mb', run_elems (copy_elem ma) mb es = Some mb' /\
                  copied (in_array [d0; d1]) (fun x => match x with [i; j] => [j; i] | _ => x end) pa pb ma mb mb'.
Proof.
  intros V guess near wn rnd smp a b pa pb sa sb d0 d1 ma mb HG HR LA LB SA SB EA EB EE HNear AA AB.
  destruct (transpose_spec guess near wn rnd smp a b pa pb sa sb d0 d1 HG HR LA LB SA SB EA EB EE HNear) as (ess & n & F & L).
  exists ess, n. split; [exact F|]. intros es HP.
  destruct (any_storage _ _ _ _ (proj1 LA)) as (al & _ & FA & _). destruct (any_storage _ _ _ _ LB) as (bl & _ & FB & IB & _).
  destruct (labelled_copied swap pa pb FA FB IB (in_array [d0; d1]) ma mb es) as (mb' & E & C1 & C2); auto.
  - intros x y _ _ H. unfold swap in H. rewrite <- (rev_involutive x), H. apply rev_involutive.
  - rewrite <- EA. eapply labelled_perm; eauto.
  - assert (X : forall x, in_array [d0; d1] x -> match x with [i; j] => [j; i] | _ => x end = swap x).
    { intros [|i [|j [|k x]]]; cbn; tauto. }
    exists mb'. split; [exact E|]. split.
    + intros x qa qb Hx Ha Hb. rewrite (X x Hx) in Hb. eapply C1; eauto.
    + intros q Hq. apply C2. intros x Hx. rewrite <- (X x Hx). apply Hq, Hx.
Qed.
Print Assumptions C78_transpose_partial.

(** ** Examples *)
(** A d0 x d1 array on world process 3 alone. *)
Definition ex_one (d0 d1 : Z) : garray :=
  {| ga_desc := {| distr_type := REGULAR; dims := [d0; d1]; nblock := [1; 1]; mapc := [1; 1];
                   block_dims := []; num_blocks := []; rstrctd_list := []; rank_rstrctd := [] |};
     ga_width := [0; 0]; ga_group := Some [3]; ga_nproc := 1; ga_elemsize := 8 |}.
Ltac solve_one :=
  split; [|split; [reflexivity|split; [repeat constructor; lia|split; [split; [repeat constructor; cbn; lia|reflexivity]|cbn; lia]]]];
  split; [reflexivity|]; split; [discriminate|]; split;
    [cbn [valid_maps ex_one ga_desc dims nblock mapc]; change (skipn (Z.to_nat 1) [1; 1]) with [1];
     split; [solve_map|]; split; [solve_map|exact I]
    |left; split; [reflexivity|cbn; lia]].
Lemma ex_one_wf : wf_array (ex_one 10 7). Proof. solve_one. Qed.
Lemma ex_one_wf' : wf_array (ex_one 7 10). Proof. solve_one. Qed.
Lemma ex_one_small d0 d1 : d0 = 10 /\ d1 = 7 \/ d0 = 7 /\ d1 = 10 -> small_local (ex_one d0 d1) (reg_shape (ex_one d0 d1)).
Proof.
  intros HD. split; [cbn; lia|]. intros sh (p & l & h & Hp & E & _ & ->). cbn [ex_one ga_nproc ga_desc ga_width] in *.
  assert (p = 0) as -> by lia. destruct HD as [[-> ->]|[-> ->]]; vm_compute in E; injection E as <- <-; vm_compute; discriminate.
Qed.
Lemma ex_ga_small : small_local ex_ga (reg_shape ex_ga).
Proof. split; [cbn; lia|]. intros sh Hs. apply ex_ga_shape in Hs as [-> | ->]; vm_compute; discriminate. Qed.
Lemma ex_reg_walk a wn : wf_array a -> walk_layout a wn (reg_place a) (reg_shape a).
Proof.
  intros W. split; [left; auto|]. destruct W as [(T & _) _]. rewrite T. discriminate.
Qed.

(** Memory that tells where a value came from. *)
Definition ex_src : heap Z := fun p o => if (0 <=? o) && (o <? 100) then Some (1000 * p + o) else None.
Definition ex_dst : heap Z := fun p o => if (0 <=? o) && (o <? 100) then Some (-1) else None.
Definition ex_run (rs : list (option (list (place * place)))) : option (heap Z) :=
  do ess <- mapM (fun r => r) rs; run_elems (copy_elem ex_src) ex_dst (concat ess).

(** Put from one process to four: element (7,2) of A, at offset 16 of process 3,
    arrives at process 2; ghost cell 0 of process 2 keeps its value. *)
Example C77_ex_put :
  good_guess ex_guess /\ walk_layout (ex_one 10 7) 8 (reg_place (ex_one 10 7)) (reg_shape (ex_one 10 7)) /\
  any_layout ex_ga 8 (reg_place ex_ga) (reg_shape ex_ga) /\
  small_local (ex_one 10 7) (reg_shape (ex_one 10 7)) /\ small_local ex_ga (reg_shape ex_ga) /\
  dims (ga_desc (ex_one 10 7)) = dims (ga_desc ex_ga) /\ ga_nproc (ex_one 10 7) <= ga_nproc ex_ga /\
  (do m' <- ex_run [ga_copy 9 ex_guess (fun w => w =? 3) 8 (fun _ i => 3 * i) (fun p => p =? 3) (ex_one 10 7) ex_ga 0 (-1)];
   Some (hget m' (2, 23), hget m' (2, 0))) = Some (Some 3016, Some (-1)).
Proof.
  split; [exact ex_guess_good|]. split; [apply ex_reg_walk, ex_one_wf|]. split; [left; split; [exact ex_ga_wf|auto]|].
  split; [apply ex_one_small; lia|]. split; [exact ex_ga_small|]. split; [reflexivity|]. split; [cbn; lia|].
  vm_compute. reflexivity.
Qed.
(** Get from four processes into one. *)
Example C77_ex_get :
  any_layout ex_ga 8 (reg_place ex_ga) (reg_shape ex_ga) /\
  walk_layout (ex_one 10 7) 8 (reg_place (ex_one 10 7)) (reg_shape (ex_one 10 7)) /\
  ga_nproc (ex_one 10 7) < ga_nproc ex_ga /\
  (do m' <- ex_run [ga_copy 9 ex_guess (fun w => w =? 3) 8 (fun _ i => 3 * i) (fun p => p =? 3) ex_ga (ex_one 10 7) (-1) 0];
   Some (hget m' (3, 16), hget m' (3, 70))) = Some (Some 2023, Some (-1)).
Proof.
  split; [left; split; [exact ex_ga_wf|auto]|]. split; [apply ex_reg_walk, ex_one_wf|]. split; [cbn; lia|].
  vm_compute. reflexivity.
Qed.
(** Blocked arrays: a ScaLAPACK layout into a tiled one. *)
Example C77_ex_grid :
  walk_layout (ex_grid SCALAPACK) 4 (scalapack_place (ex_grid SCALAPACK)) (scalapack_shape (ex_grid SCALAPACK)) /\
  (do m' <- ex_run (map (fun me => ga_copy 20 ex_guess (fun _ => true) 4 (fun _ _ => 0) (fun p => p =? me)
                                     (ex_grid SCALAPACK) (ex_grid TILED) me me) [0; 1; 2; 3]);
   Some (hget m' (1, 6), hget m' (3, 4))) = Some (Some 1006, Some 3002).
Proof.
  split.
  { split; [|discriminate]. right. split; [reflexivity|]. right. right. destruct (ex_grid_wf SCALAPACK) as [H1 H2]; [tauto|].
    split; [reflexivity|]. split; [exact H1|]. split; [exact H2|]. split; [cbn; repeat constructor; lia|auto]. }
  vm_compute. reflexivity.
Qed.
(** Element (7,2), at offset 23 of process 2, becomes element (2,7). *)
Example C78_ex :
  walk_layout ex_ga 8 (reg_place ex_ga) (reg_shape ex_ga) /\
  any_layout (ex_one 7 10) 8 (reg_place (ex_one 7 10)) (reg_shape (ex_one 7 10)) /\
  small_local (ex_one 7 10) (reg_shape (ex_one 7 10)) /\
  dims (ga_desc ex_ga) = [10; 7] /\ dims (ga_desc (ex_one 7 10)) = [7; 10] /\
  (do m' <- ex_run (map (fun me => ga_transpose 9 ex_guess (fun _ => true) 8 (fun _ i => i) (fun p => p =? me) ex_ga (ex_one 7 10) me)
                        [0; 1; 2; 3]);
   Some (hget m' (3, 43), hget m' (3, 70))) = Some (Some 2023, Some (-1)).
Proof.
  split; [apply ex_reg_walk, ex_ga_wf|]. split; [left; split; [exact ex_one_wf'|auto]|].
  split; [apply ex_one_small; lia|]. split; [reflexivity|]. split; [reflexivity|]. vm_compute. reflexivity.
Qed.

(** ** Where it fails *)
(** A process of a grid that has no block stops the copy and the transposition
    with an error (C69). *)
Theorem C77_copy_refuted_no_block : exists a b me,
  wf_blocked (ga_desc a) /\ wf_grid (ga_nproc a) (ga_desc a) /\ ga_group a = None /\ 0 <= me < ga_nproc a /\
  ga_nproc a = ga_nproc b /\ dims (ga_desc a) = dims (ga_desc b) /\ ga_elemsize a = ga_elemsize b /\
  forall fuel guess near wn rnd smp,
    ga_copy fuel guess near wn rnd smp a b me me = None /\ ga_transpose fuel guess near wn rnd smp a b me = None.
Proof.
  exists (loc_tall SCALAPACK), (loc_tall TILED), 1.
  assert (W : wf_blocked (ga_desc (loc_tall SCALAPACK))).
  { split; [cbn; tauto|]. split; [discriminate|]. split; [cbn; lia|]. split; [cbn; lia|reflexivity]. }
  split; [exact W|]. split.
  { split; [left; exact W|]. split; [discriminate|]. split; [reflexivity|]. split; [cbn; repeat constructor; lia|reflexivity]. }
  split; [reflexivity|]. split; [cbn; lia|]. do 3 (split; [reflexivity|]).
  intros [|f] guess near wn rnd smp; split; reflexivity.
Qed.
Print Assumptions C77_copy_refuted_no_block.
(** GA_Transpose does not compare the shapes: with a wrong one the put stops the
    program, or, if B is larger, the call succeeds. *)
Theorem C78_shapes_unchecked_refuted : exists a b fuel guess near wn rnd smp es,
  wf_array a /\ wf_array b /\ dims (ga_desc b) <> rev (dims (ga_desc a)) /\
  ga_transpose fuel guess near wn rnd smp a b 0 = Some es.
Proof.
  exists (ex_one 7 7), (ex_one 10 7), 9%nat, ex_guess, (fun _ => true), 8, (fun _ i => i), (fun _ => true). eexists.
  split; [solve_one|]. split; [exact ex_one_wf|]. split; [discriminate|]. vm_compute. reflexivity.
Qed.
Print Assumptions C78_shapes_unchecked_refuted.
