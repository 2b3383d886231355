(** Property theorems: GA_Copy_patch (C79). *)
From Verif Require Import LRadix LXfer2 LGcopy LGcopy2 LGcopy4 LGcopy5 LGat LCpatch4 PDist PIter PIterBlk PXfer PLoc PGat PGcopy.
Open Scope Z_scope.

(** Patches of equal shape, the group of A is not larger: the members of the
    group of A put. *)
Theorem C79_straight_put_partial : forall {V} guess near wn wr pre rnd smp base same a b pa pb sa sb alo ahi blo bhi (ma mb : heap V) meb,
  good_guess guess -> (forall me q k, 0 <= rnd me q k) -> walk_layout a wn pa sa -> any_layout b wn pb sb ->
  small_local a sa -> small_local b sb -> ga_elemsize a = ga_elemsize b -> ga_nproc a <= ga_nproc b ->
  (forall me w, abs_rank a me = Some w -> near me w = true) ->
  patch_of (dims (ga_desc a)) alo ahi -> patch_of (dims (ga_desc b)) blo bhi -> extents alo ahi = extents blo bhi ->
  passes same alo ahi blo bhi -> (base = true \/ distr_type (ga_desc a) = REGULAR) ->
  allocated pa ma -> allocated pb mb ->
  exists ess n,
    Forall2 (fun me es => forall fuel, (n <= fuel)%nat ->
        copy_patch fuel guess (near me) wn (wr me) (pre me) (rnd me) (smp me) base false same a b me (meb me) alo ahi blo bhi = Some es)
      (zseq 0 (Z.to_nat (ga_nproc a))) ess /\
    forall es, Permutation (concat ess) es ->
      exists mb', run_elems (copy_elem ma) mb es = Some mb' /\ copied_rel (corresponds false alo ahi blo bhi) pa pb ma mb mb'.
Proof.
  intros V guess near wn wr pre rnd smp base same a b pa pb sa sb alo ahi blo bhi ma mb meb HG HR LA LB SA SB EE HN HNear PA PB SE HS HB AA AB.
  destruct (straight_put_spec guess near wn wr pre rnd smp base same a b pa pb sa sb alo ahi blo bhi HG HR LA LB SA SB EE HN HNear PA PB SE HS HB meb)
    as (ess & n & F & L).
  exists ess, n. split; [exact F|]. intros es HP.
  destruct (any_storage _ _ _ _ (proj1 LA)) as (al & _ & FA & _). destruct (any_storage _ _ _ _ LB) as (bl & _ & FB & IB & _).
  apply labelled_patch; auto; [apply PB|now rewrite SE|eapply labelled_perm; eauto].
Qed.
Print Assumptions C79_straight_put_partial.

(** The group of A is larger: the members of the group of B get. *)
Theorem C79_straight_get_partial : forall {V} guess near wn wr pre rnd smp base same a b pa pb sa sb alo ahi blo bhi (ma mb : heap V) mea,
  good_guess guess -> (forall me q k, 0 <= rnd me q k) -> any_layout a wn pa sa -> walk_layout b wn pb sb ->
  small_local a sa -> small_local b sb -> ga_elemsize a = ga_elemsize b -> ga_nproc b < ga_nproc a ->
  (forall me w, abs_rank b me = Some w -> near me w = true) ->
  patch_of (dims (ga_desc a)) alo ahi -> patch_of (dims (ga_desc b)) blo bhi -> extents alo ahi = extents blo bhi ->
  passes same alo ahi blo bhi -> (base = true \/ distr_type (ga_desc b) = REGULAR) ->
  allocated pa ma -> allocated pb mb ->
  exists ess n,
    Forall2 (fun me es => forall fuel, (n <= fuel)%nat ->
        copy_patch fuel guess (near me) wn (wr me) (pre me) (rnd me) (smp me) base false same a b (mea me) me alo ahi blo bhi = Some es)
      (zseq 0 (Z.to_nat (ga_nproc b))) ess /\
    forall es, Permutation (concat ess) es ->
      exists mb', run_elems (copy_elem ma) mb es = Some mb' /\ copied_rel (corresponds false alo ahi blo bhi) pa pb ma mb mb'.
Proof.
  intros V guess near wn wr pre rnd smp base same a b pa pb sa sb alo ahi blo bhi ma mb mea HG HR LA LB SA SB EE HN HNear PA PB SE HS HB AA AB.
  destruct (straight_get_spec guess near wn wr pre rnd smp base same a b pa pb sa sb alo ahi blo bhi HG HR LA LB SA SB EE HN HNear PA PB SE HS HB mea)
    as (ess & n & F & L).
  exists ess, n. split; [exact F|]. intros es HP.
  destruct (any_storage _ _ _ _ LA) as (al & _ & FA & _). destruct (any_storage _ _ _ _ (proj1 LB)) as (bl & _ & FB & IB & _).
  apply labelled_patch; auto; [apply PB|now rewrite SE|eapply labelled_perm; eauto].
Qed.
Print Assumptions C79_straight_get_partial.

Lemma gat_caller_le wn me pre a n m : m <= n -> gat_caller wn me pre a n -> gat_caller wn me pre a m.
Proof. unfold gat_caller. destruct pre; [|auto]. intros H (H1 & H2 & H3). split; [exact H1|]. split; [lia|exact H3]. Qed.

Lemma scatter_ready guess wn w pre b ys n :
  good_guess guess -> wf_array b -> (ga_group b = None -> wn = ga_nproc b) ->
  (rstrctd_list (ga_desc b) = [] \/ ga_group b = None) -> gat_caller wn w pre b n ->
  Forall (in_array (dims (ga_desc b))) ys -> Z.of_nat (length ys) <= n ->
  exists ts, gatscat guess wn w pre b ys = Some ts /\ list_transfers (reg_place b) ys ts.
Proof.
  intros HG WB HN HR HC HY HL. apply gatscat_transfers; auto; [left; auto|split; auto|].
  apply gat_caller_ok. eapply gat_caller_le; eauto.
Qed.

(** Patches of different shape, or transposition, by scatter. *)
Theorem C79_reshape_partial : forall {V} guess near wn wr pre rnd smp trans same a b alo ahi blo bhi (ma mb : heap V) meb,
  good_guess guess -> wf_array a -> wf_array b -> ga_elemsize a = ga_elemsize b -> ga_nproc a <= ga_nproc b ->
  (forall me w, abs_rank a me = Some w -> near me w = true /\ wr me = w) ->
  patch_of (dims (ga_desc a)) alo ahi -> patch_of (dims (ga_desc b)) blo bhi -> zprod (extents alo ahi) = zprod (extents blo bhi) ->
  (trans = true \/ extents alo ahi <> extents blo bhi) -> passes same alo ahi blo bhi ->
  (ga_group b = None -> wn = ga_nproc b) -> (rstrctd_list (ga_desc b) = [] \/ ga_group b = None) ->
  (forall me w, abs_rank a me = Some w -> gat_caller wn w (pre me) b (zprod (extents alo ahi))) ->
  allocated (reg_place a) ma -> allocated (reg_place b) mb ->
  exists ess,
    Forall2 (fun me es => forall fuel,
        copy_patch fuel guess (near me) wn (wr me) (pre me) (rnd me) (smp me) true trans same a b me (meb me) alo ahi blo bhi = Some es)
      (zseq 0 (Z.to_nat (ga_nproc a))) ess /\
    forall es, Permutation (concat ess) es ->
      exists mb', run_elems (copy_elem ma) mb es = Some mb' /\
                  copied_rel (corresponds trans alo ahi blo bhi) (reg_place a) (reg_place b) ma mb mb'.
Proof.
  intros V guess near wn wr pre rnd smp trans same a b alo ahi blo bhi ma mb meb HG WA WB EE HN HNear PA PB EZ HT HS HW HRs HC AA AB.
  destruct (reshape_put_spec guess near wn wr pre rnd smp trans same a b (reg_place a) (reg_place b) (reg_shape a) alo ahi blo bhi HG
     (ex_reg_walk a wn WA) (proj1 (proj1 WA)) (proj1 (proj1 WB)) EE HN HNear PA PB EZ HT HS) with (meb := meb) as (ess & F & L).
  { intros me w ys Hm EW HY HL. eapply scatter_ready; eauto. }
  exists ess. split; [exact F|]. intros es HP.
  destruct (regular_storage a 0 WA) as (_ & FA & _). destruct (regular_storage b 0 WB) as (_ & FB & IB & _).
  apply labelled_patch; auto; [apply PB|eapply labelled_perm; eauto].
Qed.
Print Assumptions C79_reshape_partial.

(** Source and destination are disjoint patches of one array: the heap is both. *)
Theorem C79_same_array_partial : forall {V} guess near wn wr pre rnd smp base a pa sa alo ahi blo bhi (m : heap V),
  good_guess guess -> (forall me q k, 0 <= rnd me q k) -> walk_layout a wn pa sa -> small_local a sa ->
  (forall me w, abs_rank a me = Some w -> near me w = true) ->
  patch_of (dims (ga_desc a)) alo ahi -> patch_of (dims (ga_desc a)) blo bhi -> extents alo ahi = extents blo bhi ->
  (forall x, in_box alo ahi x -> in_box blo bhi x -> False) -> (base = true \/ distr_type (ga_desc a) = REGULAR) ->
  allocated pa m ->
  exists ess n,
    Forall2 (fun me es => forall fuel, (n <= fuel)%nat ->
        copy_patch fuel guess (near me) wn (wr me) (pre me) (rnd me) (smp me) base false true a a me me alo ahi blo bhi = Some es)
      (zseq 0 (Z.to_nat (ga_nproc a))) ess /\
    forall es, Permutation (concat ess) es ->
      exists m', run_elems self_elem m es = Some m' /\ copied_rel (corresponds false alo ahi blo bhi) pa pa m m m'.
Proof.
  intros V guess near wn wr pre rnd smp base a pa sa alo ahi blo bhi m HG HR LA SA HNear PA PB SE HD HB AA.
  assert (HS : passes true alo ahi blo bhi).
  { right. split; [|exact HD]. destruct (shape_equal_shift _ _ _ _ _ _ PA PB SE) as (S1 & _). exact S1 || exact (eq_sym S1). }
  destruct (straight_put_spec guess near wn wr pre rnd smp base true a a pa pa sa sa alo ahi blo bhi HG HR LA (proj1 LA) SA SA eq_refl
     (Z.le_refl _) HNear PA PB SE HS HB (fun me => me)) as (ess & n & F & L).
  exists ess, n. split; [exact F|]. intros es HP.
  destruct (any_storage _ _ _ _ (proj1 LA)) as (al & _ & FA & IA & _).
  assert (L' : labelled (target false alo ahi blo bhi) pa pa (in_box alo ahi) es) by (eapply labelled_perm; eauto).
  rewrite (labelled_self false alo ahi blo bhi pa m es); auto; [|apply PB|now rewrite SE].
  apply labelled_patch; auto; [apply PB|now rewrite SE].
Qed.
Print Assumptions C79_same_array_partial.

Theorem C79_same_array_reshape_partial : forall {V} guess near wn wr pre rnd smp trans a alo ahi blo bhi (m : heap V),
  good_guess guess -> wf_array a ->
  (forall me w, abs_rank a me = Some w -> near me w = true /\ wr me = w) ->
  patch_of (dims (ga_desc a)) alo ahi -> patch_of (dims (ga_desc a)) blo bhi -> zprod (extents alo ahi) = zprod (extents blo bhi) ->
  (trans = true \/ extents alo ahi <> extents blo bhi) -> (forall x, in_box alo ahi x -> in_box blo bhi x -> False) ->
  (ga_group a = None -> wn = ga_nproc a) -> (rstrctd_list (ga_desc a) = [] \/ ga_group a = None) ->
  (forall me w, abs_rank a me = Some w -> gat_caller wn w (pre me) a (zprod (extents alo ahi))) ->
  allocated (reg_place a) m ->
  exists ess,
    Forall2 (fun me es => forall fuel,
        copy_patch fuel guess (near me) wn (wr me) (pre me) (rnd me) (smp me) true trans true a a me me alo ahi blo bhi = Some es)
      (zseq 0 (Z.to_nat (ga_nproc a))) ess /\
    forall es, Permutation (concat ess) es ->
      exists m', run_elems self_elem m es = Some m' /\
                 copied_rel (corresponds trans alo ahi blo bhi) (reg_place a) (reg_place a) m m m'.
Proof.
  intros V guess near wn wr pre rnd smp trans a alo ahi blo bhi m HG WA HNear PA PB EZ HT HD HW HRs HC AA.
  assert (HS : passes true alo ahi blo bhi).
  { right. split; [|exact HD]. destruct (patch_lens _ _ _ PA) as [A1 A2]. destruct (patch_lens _ _ _ PB) as [B1 B2]. lia. }
  destruct (reshape_put_spec guess near wn wr pre rnd smp trans true a a (reg_place a) (reg_place a) (reg_shape a) alo ahi blo bhi HG
     (ex_reg_walk a wn WA) (proj1 (proj1 WA)) (proj1 (proj1 WA)) eq_refl (Z.le_refl _) HNear PA PB EZ HT HS) with (meb := fun me : Z => me)
    as (ess & F & L).
  { intros me w ys Hm EW HY HL. eapply scatter_ready; eauto. }
  exists ess. split; [exact F|]. intros es HP.
  destruct (regular_storage a 0 WA) as (_ & FA & IA & _).
  assert (L' : labelled (target trans alo ahi blo bhi) (reg_place a) (reg_place a) (in_box alo ahi) es) by (eapply labelled_perm; eauto).
  rewrite (labelled_self trans alo ahi blo bhi (reg_place a) m es); auto; [|apply PB].
  apply labelled_patch; auto; apply PB.
Qed.
Print Assumptions C79_same_array_reshape_partial.

(** What the checks let through. *)
Theorem C79_checks : forall fuel guess near wn w pre rnd smp base trans same a b mea meb alo ahi blo bhi es,
  copy_patch fuel guess near wn w pre rnd smp base trans same a b mea meb alo ahi blo bhi = Some es ->
  (same = true /\ alo = blo /\ ahi = bhi /\ es = []) \/
  (ga_elemsize a = ga_elemsize b /\ zprod (extents alo ahi) = zprod (extents blo bhi) /\
   (Forall (Z.lt 0) alo /\ Forall2 Z.le ahi (dims (ga_desc a))) /\ (Forall (Z.lt 0) blo /\ Forall2 Z.le bhi (dims (ga_desc b)))).
Proof.
  assert (SV : forall u v, same_vec u v = true -> u = v).
  { induction u as [|x u IH]; intros [|y v] H; try discriminate; [reflexivity|]. cbn in H. apply andb_prop in H as [H1 H2].
    apply Z.eqb_eq in H1. f_equal; auto. }
  assert (IN : forall ds lo hi, patch_inside ds lo hi = true -> Forall (Z.lt 0) lo /\ Forall2 Z.le hi ds).
  { intros ds lo hi H. unfold patch_inside in H. repeat (apply andb_prop in H as [H ?]). apply Nat.eqb_eq in H0.
    split; [apply Forall_forall; intros l Hl; rewrite forallb_forall in H; apply H in Hl; now apply Z.ltb_lt in Hl|].
    clear H H1. revert ds H0 H2. induction hi as [|h hi IH]; intros [|d ds] HL HE; try discriminate; constructor; cbn in HE, HL;
      apply andb_prop in HE as [X Y]; [now apply Z.leb_le|apply IH; [lia|exact Y]]. }
  intros fuel guess near wn w pre rnd smp base trans same a b mea meb alo ahi blo bhi es H. unfold copy_patch in H.
  destruct (same && (same_vec alo blo && same_vec ahi bhi)) eqn:E0.
  - left. apply andb_prop in E0 as [E1 E2]. apply andb_prop in E2 as [E2 E3]. injection H as <-. auto.
  - right. destruct (same && match patch_intersect alo ahi blo bhi with Some _ => true | None => false end); [discriminate|].
    destruct (negb (ga_elemsize a =? ga_elemsize b) || negb (patch_inside (dims (ga_desc a)) alo ahi)
          || negb (patch_inside (dims (ga_desc b)) blo bhi)
          || negb (zprod (extents alo ahi) =? zprod (extents blo bhi))) eqn:E1; [discriminate|].
    apply orb_false_elim in E1 as [E1 X4]. apply orb_false_elim in E1 as [E1 X3]. apply orb_false_elim in E1 as [X1 X2].
    apply negb_false_iff in X1, X2, X3, X4. apply Z.eqb_eq in X1, X4. auto.
Qed.
Print Assumptions C79_checks.

(** ** Examples *)
(** Where element [x] of an array is. *)
Definition ex_at (a : garray) (x : list Z) : option place :=
  do h <- gat_home ex_guess (ga_nproc a) a x; gat_ptr ex_guess 8 a h x.
(** The patch (2,2)-(5,4) of A goes to (6,3)-(9,5) of B, which has ghost cells:
    (3,3), at offset 22 of process 3, becomes (7,4). *)
Example C79_ex_put :
  walk_layout (ex_one 10 7) 8 (reg_place (ex_one 10 7)) (reg_shape (ex_one 10 7)) /\
  any_layout ex_ga 8 (reg_place ex_ga) (reg_shape ex_ga) /\
  patch_of [10; 7] [2; 2] [5; 4] /\ patch_of [10; 7] [6; 3] [9; 5] /\ extents [2; 2] [5; 4] = extents [6; 3] [9; 5] /\
  corresponds false [2; 2] [5; 4] [6; 3] [9; 5] [3; 3] [7; 4] /\
  (do m' <- ex_run [copy_patch 9 ex_guess (fun w => w =? 3) 8 3 None (fun _ i => 3 * i) (fun p => p =? 3) true false false
                      (ex_one 10 7) ex_ga 0 (-1) [2; 2] [5; 4] [6; 3] [9; 5]];
   do e <- ex_at ex_ga [7; 4]; do s <- ex_at (ex_one 10 7) [3; 3]; Some (hget m' e, s, hget m' (2, 0))) =
  Some (Some 3022, (3, 22), Some (-1)).
Proof.
  split; [apply ex_reg_walk, ex_one_wf|]. split; [left; split; [exact ex_ga_wf|auto]|].
  split; [repeat constructor; cbn; lia|]. split; [repeat constructor; cbn; lia|]. split; [reflexivity|].
  split; [split; [cbn; lia|split; [cbn; lia|reflexivity]]|].
  vm_compute; reflexivity.
Qed.
(** The same the other way round. *)
Example C79_ex_get :
  ga_nproc (ex_one 10 7) < ga_nproc ex_ga /\ corresponds false [6; 3] [9; 5] [2; 2] [5; 4] [7; 4] [3; 3] /\
  (do m' <- ex_run [copy_patch 9 ex_guess (fun w => w =? 3) 8 3 None (fun _ i => 3 * i) (fun p => p =? 3) true false false
                      ex_ga (ex_one 10 7) (-1) 0 [6; 3] [9; 5] [2; 2] [5; 4]];
   do e <- ex_at ex_ga [7; 4]; do v <- hget ex_src e; Some (hget m' (3, 22), v, hget m' (3, 70))) =
  Some (Some 16, 16, Some (-1)).
Proof. split; [cbn; lia|]. split; [split; [cbn; lia|split; [cbn; lia|reflexivity]]|]. vm_compute; reflexivity. Qed.
(** Transposition with a change of shape, 2 x 6 to 4 x 3: (2,3), position 8 of
    the transposed patch, becomes (5,4). *)
Example C79_ex_reshape :
  wf_array (ex_one 10 7) /\ wf_array ex_ga /\ ga_nproc (ex_one 10 7) <= ga_nproc ex_ga /\
  patch_of [10; 7] [1; 1] [2; 6] /\ patch_of [10; 7] [5; 2] [8; 4] /\
  zprod (extents [1; 1] [2; 6]) = zprod (extents [5; 2] [8; 4]) /\
  gat_caller 8 3 None ex_ga (zprod (extents [1; 1] [2; 6])) /\
  corresponds true [1; 1] [2; 6] [5; 2] [8; 4] [2; 3] [5; 4] /\
  (do m' <- ex_run [copy_patch 9 ex_guess (fun w => w =? 3) 8 3 None (fun _ i => 3 * i) (fun p => p =? 3) true true false
                      (ex_one 10 7) ex_ga 0 (-1) [1; 1] [2; 6] [5; 2] [8; 4]];
   do e <- ex_at ex_ga [5; 4]; do s <- ex_at (ex_one 10 7) [2; 3]; Some (hget m' e, s, hget m' (2, 0))) =
  Some (Some 3021, (3, 21), Some (-1)).
Proof.
  split; [apply ex_one_wf|]. split; [exact ex_ga_wf|]. split; [cbn; lia|].
  split; [repeat constructor; cbn; lia|]. split; [repeat constructor; cbn; lia|]. split; [reflexivity|]. split; [cbn; lia|].
  split; [split; [cbn; lia|split; [cbn; lia|reflexivity]]|].
  vm_compute; reflexivity.
Qed.
(** Blocked arrays, and disjoint patches of one array. *)
Example C79_ex_grid :
  walk_layout (ex_grid SCALAPACK) 4 (scalapack_place (ex_grid SCALAPACK)) (scalapack_shape (ex_grid SCALAPACK)) /\
  patch_of [7; 5] [2; 2] [4; 3] /\ patch_of [7; 5] [5; 3] [7; 4] /\
  (forall x, in_box [2; 2] [4; 3] x -> in_box [5; 3] [7; 4] x -> False) /\
  exists es, mapM (fun r => r) (map (fun me => copy_patch 20 ex_guess (fun _ => true) 4 me None (fun _ _ => 0) (fun p => p =? me)
     true false true (ex_grid SCALAPACK) (ex_grid SCALAPACK) me me [2; 2] [4; 3] [5; 3] [7; 4]) [0; 1; 2; 3]) = Some es /\
   (do m' <- run_elems self_elem ex_src (concat es);
    do e <- ex_at (ex_grid SCALAPACK) [6; 4]; do s <- ex_at (ex_grid SCALAPACK) [3; 3]; do v <- hget ex_src s; Some (hget m' e, v)) =
   Some (Some 3000, 3000).
Proof.
  split.
  { split; [|discriminate]. right. split; [reflexivity|]. right. right. destruct (ex_grid_wf SCALAPACK) as [H1 H2]; [tauto|].
    split; [reflexivity|]. split; [exact H1|]. split; [exact H2|]. split; [cbn; repeat constructor; lia|auto]. }
  split; [repeat constructor; cbn; lia|]. split; [repeat constructor; cbn; lia|].
  split; [intros [|x [|y [|z l]]]; cbn; intros; lia|].
  eexists. split; vm_compute; reflexivity.
Qed.

(** ** Where it fails *)
(** If the group of A is larger, a copy that changes the shape or transposes
    gathers the elements of A into a buffer and frees it: B is not written. *)
Theorem C79_reshape_get_refuted : exists a b alo ahi blo bhi x y,
  wf_array a /\ wf_array b /\ ga_elemsize a = ga_elemsize b /\ ga_nproc b < ga_nproc a /\
  patch_of (dims (ga_desc a)) alo ahi /\ patch_of (dims (ga_desc b)) blo bhi /\ corresponds true alo ahi blo bhi x y /\
  forall fuel guess near wn w pre rnd smp mea, (forall v, near v = true) -> good_guess guess ->
    copy_patch fuel guess near wn w pre rnd smp true true false a b mea 0 alo ahi blo bhi = Some [].
Proof.
  exists ex_ga, (ex_one 7 10), [2; 3], [5; 4], [1; 1], [2; 4], [2; 3], [1; 1].
  split; [exact ex_ga_wf|]. split; [exact ex_one_wf'|]. split; [reflexivity|]. split; [cbn; lia|].
  split; [repeat constructor; cbn; lia|]. split; [repeat constructor; cbn; lia|].
  split; [split; [cbn; lia|split; [cbn; lia|reflexivity]]|].
  intros fuel guess near wn w pre rnd smp mea HNr HG. unfold copy_patch.
  destruct (patch_reg guess near (ex_one 7 10) 0 [1; 1] [2; 4]) as [ps|] eqn:E.
  - cbn -[patch_reg]. rewrite E. reflexivity.
  - exfalso. revert E. unfold patch_reg.
    replace (distribution (ga_desc (ex_one 7 10)) 0) with (Some ([1; 1], [7; 10])) by (vm_compute; reflexivity).
    cbn [fst snd]. replace (patch_intersect [1; 1] [2; 4] [1; 1] [7; 10]) with (Some ([1; 1], [2; 4])) by reflexivity.
    cbn [fst snd].
    destruct (access_ptr_spec guess near (ex_one 7 10) [1; 1] [2; 4] 0 [1; 1] [7; 10] 3) as (off & ld & E' & _); auto.
    + exact ex_one_wf'.
    + cbn; lia.
    + cbn; lia.
    + cbn; lia.
    + repeat constructor; lia.
    + rewrite E'. discriminate.
Qed.
Print Assumptions C79_reshape_get_refuted.
(** In that case the copy never changes B. *)
Theorem C79_reshape_get_unwritten : forall fuel guess near wn w pre rnd smp base trans a b mea meb alo ahi blo bhi es,
  ga_nproc b < ga_nproc a -> (trans = true \/ extents alo ahi <> extents blo bhi) ->
  length ahi = length alo -> length bhi = length blo ->
  copy_patch fuel guess near wn w pre rnd smp base trans false a b mea meb alo ahi blo bhi = Some es -> es = [].
Proof.
  intros fuel guess near wn w pre rnd smp base trans a b mea meb alo ahi blo bhi es HN HT LA LB H. unfold copy_patch in H. cbn [andb] in H.
  assert (PL : negb trans && test_shape alo ahi blo bhi = false).
  { destruct HT as [->|HT]; [reflexivity|]. destruct trans; [reflexivity|]. cbn [negb andb].
    destruct (test_shape alo ahi blo bhi) eqn:E; [|reflexivity]. exfalso. apply HT.
    apply test_shape_shift in E as [E1 <-]; try lia. rewrite extents_shift by lia. reflexivity. }
  cbv zeta in H. rewrite PL in H. destruct (Z.leb_spec (ga_nproc a) (ga_nproc b)); [lia|].
  destruct (negb (ga_elemsize a =? ga_elemsize b) || _ || _ || _); [discriminate|].
  destruct ((_ || _) && _); [discriminate|]. destruct (patch_pieces _ _ _ _ _ _ _ _ _); [|discriminate]. congruence.
Qed.
Print Assumptions C79_reshape_get_unwritten.

(** Elements of a type registered by the user: the pointer into a blocked array
    is not moved from the corner of the block to the corner of the patch. *)
Theorem C79_user_type_refuted : exists a b wn pa pb sa sb alo ahi blo bhi x y qa qb es (ma mb mb' : heap Z),
  walk_layout a wn pa sa /\ any_layout b wn pb sb /\ ga_nproc a = ga_nproc b /\ ga_elemsize a = ga_elemsize b /\
  patch_of (dims (ga_desc a)) alo ahi /\ patch_of (dims (ga_desc b)) blo bhi /\ extents alo ahi = extents blo bhi /\
  mapM (fun me => copy_patch 20 ex_guess (fun _ => true) wn me None (fun _ _ => 0) (fun p => p =? me) false false false
                    a b me me alo ahi blo bhi) (zseq 0 (Z.to_nat (ga_nproc a))) = Some es /\
  run_elems (copy_elem ma) mb (concat es) = Some mb' /\
  corresponds false alo ahi blo bhi x y /\ pa x qa /\ pb y qb /\ hget mb' qb <> hget ma qa.
Proof.
  exists (ex_grid SCALAPACK), (ex_grid SCALAPACK), 4, (scalapack_place (ex_grid SCALAPACK)), (scalapack_place (ex_grid SCALAPACK)),
    (scalapack_shape (ex_grid SCALAPACK)), (scalapack_shape (ex_grid SCALAPACK)), [2; 2], [2; 2], [1; 1], [1; 1], [2; 2], [1; 1], (0, 5), (0, 0).
  assert (W : walk_layout (ex_grid SCALAPACK) 4 (scalapack_place (ex_grid SCALAPACK)) (scalapack_shape (ex_grid SCALAPACK))).
  { split; [|discriminate]. right. split; [reflexivity|]. right. right. destruct (ex_grid_wf SCALAPACK) as [H1 H2]; [tauto|].
    split; [reflexivity|]. split; [exact H1|]. split; [exact H2|]. split; [cbn; repeat constructor; lia|auto]. }
  exists [[((0, 0), (0, 0))]; []; []; []], ex_src, ex_dst, (hset ex_dst (0, 0) 0).
  split; [exact W|]. split; [apply W|]. split; [reflexivity|]. split; [reflexivity|].
  split; [repeat constructor; cbn; lia|]. split; [repeat constructor; cbn; lia|]. split; [reflexivity|].
  split; [vm_compute; reflexivity|]. split; [reflexivity|]. split; [split; [cbn; lia|split; [cbn; lia|reflexivity]]|].
  split; [split; [cbn; lia|split; [vm_compute; intuition congruence|split; reflexivity]]|].
  split; [split; [cbn; lia|split; [vm_compute; intuition congruence|split; reflexivity]]|].
  discriminate.
Qed.
Print Assumptions C79_user_type_refuted.
(** With a change of shape the buffer of the scatter is never filled. *)
Theorem C79_user_type_reshape_refuted : exists a b alo ahi blo bhi,
  wf_array a /\ wf_array b /\ ga_nproc a <= ga_nproc b /\ ga_elemsize a = ga_elemsize b /\
  patch_of (dims (ga_desc a)) alo ahi /\ patch_of (dims (ga_desc b)) blo bhi /\
  zprod (extents alo ahi) = zprod (extents blo bhi) /\ gat_caller 8 3 None b (zprod (extents alo ahi)) /\ abs_rank a 0 = Some 3 /\
  copy_patch 9 ex_guess (fun _ => true) 8 3 None (fun _ _ => 0) (fun _ => true) false false false a b 0 (-1) alo ahi blo bhi = None /\
  copy_patch 9 ex_guess (fun _ => true) 8 3 None (fun _ _ => 0) (fun _ => true) true false false a b 0 (-1) alo ahi blo bhi <> None.
Proof.
  exists (ex_one 10 7), ex_ga, [1; 1], [2; 6], [5; 2], [8; 4].
  split; [exact ex_one_wf|]. split; [exact ex_ga_wf|]. split; [cbn; lia|]. split; [reflexivity|].
  split; [repeat constructor; cbn; lia|]. split; [repeat constructor; cbn; lia|]. split; [reflexivity|]. split; [cbn; lia|].
  split; [reflexivity|]. split; [vm_compute; reflexivity|]. vm_compute. discriminate.
Qed.
Print Assumptions C79_user_type_reshape_refuted.
(** A patch is not transposed onto itself: the call returns at once. *)
Theorem C79_transpose_in_place_refuted : exists a alo ahi x y,
  wf_array a /\ patch_of (dims (ga_desc a)) alo ahi /\ corresponds true alo ahi alo ahi x y /\ x <> y /\
  forall fuel guess near wn w pre rnd smp base mea meb,
    copy_patch fuel guess near wn w pre rnd smp base true true a a mea meb alo ahi alo ahi = Some [].
Proof.
  exists (ex_one 10 7), [1; 1], [3; 3], [1; 2], [2; 1].
  split; [exact ex_one_wf|]. split; [repeat constructor; cbn; lia|].
  split; [split; [cbn; lia|split; [cbn; lia|reflexivity]]|]. split; [discriminate|]. reflexivity.
Qed.
Print Assumptions C79_transpose_in_place_refuted.
(** A member of the group of A and B whose world rank is not below the size of
    the group (C26). *)
Theorem C79_reshape_group_refuted : exists a me w alo ahi blo bhi,
  wf_array a /\ 0 <= me < ga_nproc a /\ abs_rank a me = Some w /\
  patch_of (dims (ga_desc a)) alo ahi /\ patch_of (dims (ga_desc a)) blo bhi /\ zprod (extents alo ahi) = zprod (extents blo bhi) /\
  copy_patch 9 ex_guess (fun _ => true) 8 w None (fun _ _ => 0) (fun _ => true) true false false a a me me alo ahi blo bhi = None.
Proof.
  exists ex_ga, 0, 5, [1; 1], [2; 1], [1; 1], [1; 2].
  split; [exact ex_ga_wf|]. split; [cbn; lia|]. split; [reflexivity|].
  split; [repeat constructor; cbn; lia|]. split; [repeat constructor; cbn; lia|]. split; [reflexivity|]. vm_compute. reflexivity.
Qed.
Print Assumptions C79_reshape_group_refuted.
