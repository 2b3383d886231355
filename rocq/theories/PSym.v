(** Property theorems: GA_Symmetrize (C91). *)
From Coq Require Import QArith SpecFloat.
From Verif Require Import LRadix LDist2 LXfer2 LGcopy LGcopy2 LGcopy4 LGcopy5 LGat LCpatch4 LAdd LAdd3 LAdd4 PDist PIter PIterBlk PXfer PLoc PGat PGcopy PCpatch PAdd LSym.
Open Scope Z_scope.

(** Map-distributed arrays without ghost cells, of any number of dimensions; the
    default group of the callers is the group of the array, so that [me] is
    their rank in it. *)
Theorem C91_map_partial : forall R (radd rmul : R -> R -> R) half guess near wn wr pre rnd rndr rnda rndb smp ta tb ha hb a h n (m : heap R),
  good_guess guess -> (forall me k, 0 <= rndr me k) -> wf_array a -> no_empty_block a -> has_ghosts a = false -> small_local a (reg_shape a) ->
  dims (ga_desc a) = h ++ [n; n] -> (forall me w, abs_rank a me = Some w -> near me w = true) -> allocated (reg_place a) m ->
  exists ess f0,
    Forall2 (fun me es => forall fuel, (f0 <= fuel)%nat ->
        ga_symmetrize fuel guess (near me) wn (wr me) (pre me) (rnd me) (rndr me) (rnda me) (rndb me) (smp me) ta tb ha hb E_dbl a me = Some (inl es))
      (zseq 0 (Z.to_nat (ga_nproc a))) ess /\
    forall es, Permutation (concat ess) es ->
      exists m', run_elems (use_elem (code_half_sum radd rmul half) m) m es = Some m' /\
        symmetrized (dims (ga_desc a)) (fun u v => rmul half (radd u v)) (reg_place a) m m'.
Proof.
  intros R radd rmul half guess near wn wr pre rnd rndr rnda rndb smp ta tb ha hb a h n m HG HR WA NE NG SA ED HN AA.
  destruct (sym_reg_spec guess near wn rndr smp a h n HG HR WA NE NG SA ED HN) as (ess & f0 & F & M).
  exists ess, f0. split.
  - eapply Forall2_weaken; [|exact F]. cbv beta. intros me es E fuel Hf. unfold ga_symmetrize, sym_type. cbn [elt_eqb negb].
    rewrite (proj1 (proj1 WA)), (E fuel Hf). reflexivity.
  - intros es PT. apply (marked_perm _ _ _ _ PT) in M.
    destruct (any_storage a wn (reg_place a) (reg_shape a) (or_introl (conj WA (conj eq_refl eq_refl)))) as (al & _ & FA & IA & _).
    apply marked_symmetrized; auto.
Qed.
Print Assumptions C91_map_partial.

(** Block-distributed square matrices on the world group. *)
Lemma phases_cons {A} (cp : list (list A)) progs k : length cp = length progs ->
  phases_of (S k) (map (fun p => fst p :: snd p) (combine cp progs)) = concat cp :: phases_of k progs.
Proof.
  intros L. unfold phases_of. cbn [seq map]. f_equal.
  - revert progs L. induction cp as [|c cp IH]; intros [|p progs] L; try discriminate; [reflexivity|]. cbn. f_equal. apply IH. now injection L.
  - rewrite <- seq_shift, map_map. apply map_ext. intros j. revert progs L.
    induction cp as [|c cp IH]; intros [|p progs] L; try discriminate; [reflexivity|]. cbn. f_equal. apply IH. now injection L.
Qed.
Lemma progs_unique {A} (F : nat -> Z -> option (list (list A))) l : forall ps ps' k k' n n',
  Forall2 (fun me pr => length pr = k /\ forall fuel, (n <= fuel)%nat -> F fuel me = Some pr) l ps ->
  Forall2 (fun me pr => length pr = k' /\ forall fuel, (n' <= fuel)%nat -> F fuel me = Some pr) l ps' ->
  ps = ps' /\ (l <> [] -> k = k').
Proof.
  induction l as [|me l IH]; intros ps ps' k k' n n' H H'; inversion H as [|? p ? qs [L E] H1]; subst; inversion H' as [|? p' ? qs' [L' E'] H1']; subst; [split; [reflexivity|congruence]|].
  specialize (E (Nat.max n n') ltac:(lia)). specialize (E' (Nat.max n n') ltac:(lia)). rewrite E in E'. injection E' as <-.
  destruct (IH _ _ _ _ _ _ H1 H1') as [-> _]. auto.
Qed.

Theorem C91_block_partial : forall R (radd rmul : R -> R -> R) half guess near wn pre rnd rndr rnda rndb smp ta tb ha hb a pa sha n (st : store R),
  good_guess guess -> (forall me, near me me = true) ->
  (forall me q k, 0 <= rnd me q k) -> (forall me q k, 0 <= rnda me q k) -> (forall me q k, 0 <= rndb me q k) ->
  walk_layout a wn pa sha -> distr_type (ga_desc a) <> REGULAR -> ga_group a = None -> ga_nproc a = wn -> 1 <= wn ->
  small_local a sha -> dims (ga_desc a) = [n; n] ->
  ha <> hb -> ta <> tb -> ta <> ha /\ ta <> hb -> tb <> ha /\ tb <> hb ->
  allocated pa (st ha) -> allocated pa (st hb) -> allocated pa (st ta) -> allocated pa (st tb) ->
  exists progs k f0,
    Forall2 (fun me pr => length pr = k /\ forall fuel, (f0 <= fuel)%nat ->
        ga_symmetrize fuel guess (near me) wn me (pre me) (rnd me) (rndr me) (rnda me) (rndb me) (smp me) ta tb ha hb E_dbl a me = Some (inr pr))
      (zseq 0 (Z.to_nat wn)) progs /\
    all_runs (gstep (code_half rmul half) (code_add_half radd rmul half)) st (phases_of k progs) (fun st' =>
      symmetrized [n; n] (fun u v => radd (rmul half u) (rmul half v)) pa (st ha) (st' ha) /\
      forall k, k <> ha -> k <> hb -> k <> ta -> k <> tb -> st' k = st k).
Proof.
  intros R radd rmul half guess near wn pre rnd rndr rnda rndb smp ta tb ha hb a pa sha n st HG HN HR HRa HRb LA NR GA NA Hw SA ED HAB T1 T2 T3 AA AB ATa ATb.
  set (sa := code_half rmul half). set (acc := code_add_half radd rmul half).
  assert (NR3 : ~ (distr_type (ga_desc a) = REGULAR /\ distr_type (ga_desc a) = REGULAR /\ distr_type (ga_desc a) = REGULAR)) by tauto.
  assert (HNear : forall me w, abs_rank a me = Some w -> near me w = true).
  { intros me w E. rewrite (world_rank a me GA) in E. injection E as <-. apply HN. }
  destruct (transpose_spec guess near wn rnd smp a a pa pa sha sha n n HG HR LA (proj1 LA) SA SA ED ED eq_refl HNear) as (ess & f1 & FT & LT).
  pose proof (fun st1 => C82_add_blocked_partial sa acc guess near wn pre rnda rndb smp ta tb ha hb ha a a a pa pa pa sha sha sha st1
    HG HN HRa HRb LA LA LA NR3 GA GA GA NA NA NA Hw eq_refl eq_refl SA SA SA eq_refl eq_refl T1
    (conj (proj1 T2) (conj (proj2 T2) (proj1 T2))) (conj (proj1 T3) (conj (proj2 T3) (proj1 T3)))) as ADD.
  destruct (ADD st AA AB AA ATa ATb) as (progs & k & f2 & FP & _).
  exists (map (fun p => fst p :: snd p) (combine (map (copy_ops hb ha) ess) progs)), (S k), (Nat.max f1 f2). split.
  - rewrite NA in FT. clear - FT FP NR. revert ess progs FT FP. induction (zseq 0 (Z.to_nat wn)) as [|me l IH]; intros ess progs FT FP;
      inversion FT as [|? es ? ess' E1 F1]; subst; inversion FP as [|? pr ? ps [L E2] F2]; subst; cbn [map combine]; constructor; [|apply IH; assumption].
    cbn [fst snd]. split; [cbn; congruence|]. intros fuel Hf. unfold ga_symmetrize, sym_type. cbn [elt_eqb negb].
    assert (X : sym_block fuel guess (near me) wn me (pre me) (rnd me) (rnda me) (rndb me) (smp me) ta tb ha hb a me = Some (copy_ops hb ha es :: pr)).
    { unfold sym_block. rewrite E1, E2 by lia. reflexivity. }
    rewrite X. destruct (distr_type (ga_desc a)); [congruence|reflexivity..].
  - assert (LL : length (map (copy_ops hb ha) ess) = length progs).
    { rewrite map_length, <- (Forall2_len _ _ _ FP), <- (Forall2_len _ _ _ FT), NA. reflexivity. }
    rewrite phases_cons by exact LL. cbn [all_runs]. intros es HP.
    assert (CM : concat (map (copy_ops hb ha) ess) = copy_ops hb ha (concat ess)) by (unfold copy_ops; rewrite concat_map; reflexivity).
    rewrite CM in HP. unfold copy_ops in HP. apply Permutation_sym, Permutation_map_inv in HP as (es' & -> & HP).
    destruct (any_storage _ _ _ _ (proj1 LA)) as (al & EX & FA & IA & _).
    destruct (labelled_copied LGcopy5.swap pa pa FA FA IA (in_array [n; n]) (st ha) (st hb) es') as (mb & EB & C1 & C2); auto.
    { intros x y _ _ H. unfold LGcopy5.swap in H. rewrite <- (rev_involutive x), H. apply rev_involutive. }
    { rewrite <- ED. eapply labelled_perm; eauto. }
    destruct (copies_run sa acc hb ha es' (not_eq_sym HAB) st mb EB) as (st1 & E1 & E2 & E3). exists st1. split; [exact E1|].
    pose proof (run_keeps sa acc _ _ _ E1) as KP.
    destruct (ADD st1) as (progs' & k' & f3 & FP' & RUN); try (intros x q Hq; apply KP; eauto; fail).
    destruct (progs_unique (fun fuel me => ga_add fuel guess (near me) wn me (pre me) (rnda me) (rndb me) (smp me) ta tb ha hb ha a a a me) _ _ _ _ _ _ _ FP FP') as [<- EK].
    assert (k = k') as <-.
    { apply EK. replace (Z.to_nat wn) with (S (Z.to_nat (wn - 1))) by lia. discriminate. }
    eapply all_runs_imp; [|exact RUN]. cbv beta. intros st' [[A1 A2] A3]. rewrite ED in A1, A2. cbn [length repeat] in A1, A2. split.
    + split.
      * intros x qa qv Hx Ha Hv.
        assert (CR : corresponds false [1; 1] [n; n] [1; 1] [n; n] x x).
        { assert (HB : in_box [1; 1] [n; n] x) by (apply (whole_box [n; n]), Hx). split; [exact HB|]. split; [exact HB|reflexivity]. }
        destruct (A1 x x x qa qa qa CR CR Ha Ha Ha) as (va & vb & V1 & V2 & V3). rewrite E3 in V1 by congruence. rewrite E2 in V2.
        assert (HM : in_array [n; n] (mirror x)) by (apply (array_mirror [] n x Hx)).
        assert (SW : LGcopy5.swap (mirror x) = x) by (destruct x as [|i [|j [|? ?]]]; cbn in Hx; try tauto; reflexivity).
        exists va, vb. split; [exact V1|]. split; [|exact V3]. rewrite <- V2. symmetry. apply (C1 (mirror x)); auto. rewrite SW. exact Ha.
      * intros q Hq. rewrite A2; [rewrite E3 by congruence; reflexivity|]. intros x Hx. apply Hq. apply (whole_box [n; n]), Hx.
    + intros j J1 J2 J3 J4. rewrite A3 by auto. apply E3, J2.
Qed.
Print Assumptions C91_block_partial.

(** ** The result *)
Theorem C91_symmetric : forall {V} (f : V -> V -> V) h n placed (m m' : heap V),
  (forall u v, f u v = f v u) -> symmetrized (h ++ [n; n]) f placed m m' -> symmetric (h ++ [n; n]) placed m'.
Proof.
  intros V f h n placed m m' HF [H _] x q q' Hx Hq Hq'.
  destruct (H x q q' Hx Hq Hq') as (u & v & E1 & E2 & ->).
  destruct (H (mirror x) q' q) as (u' & v' & E3 & E4 & ->); auto.
  { apply array_mirror, Hx. }
  { rewrite mirror_mirror. exact Hq. }
  rewrite E1 in E4. rewrite E2 in E3. injection E4 as <-. injection E3 as <-. now rewrite HF.
Qed.
Print Assumptions C91_symmetric.
Theorem C91_diagonal : forall {V} (f : V -> V -> V) ds placed (m m' : heap V) x q,
  symmetrized ds f placed m m' -> in_array ds x -> mirror x = x -> placed x q ->
  exists u, hget m q = Some u /\ hget m' q = Some (f u u).
Proof.
  intros V f ds placed m m' x q [H _] Hx EM Hq. destruct (H x q q Hx Hq) as (u & v & E1 & E2 & E3); [rewrite EM; exact Hq|].
  rewrite E1 in E2. injection E2 as <-. eauto.
Qed.
(** With exact numbers the diagonal is unchanged in both branches. *)
Theorem C91_exact : forall u v : Q,
  (code_half_sum Qplus Qmult (1 # 2) u v == (u + v) / 2 /\
   code_add_half Qplus Qmult (1 # 2) (code_half Qmult (1 # 2) u) v == (u + v) / 2 /\
   code_half_sum Qplus Qmult (1 # 2) u u == u /\ code_add_half Qplus Qmult (1 # 2) (code_half Qmult (1 # 2) u) u == u)%Q.
Proof. intros u v. unfold code_half_sum, code_add_half, code_half. repeat split; field. Qed.

(** ** Examples *)
(** 2x3x3, divided along the second dimension, on two processes. *)
Definition ex_sym := ex_arr [2; 3; 3] [1; 2; 1] [1; 1; 3; 1] [0; 0; 0] None 2.
Lemma ex_sym_wf : wf_array ex_sym.
Proof.
  solve_arr. cbn [valid_maps ex_sym ex_arr ga_desc dims nblock mapc]. change (skipn (Z.to_nat 1) [1; 1; 3; 1]) with [1; 3; 1].
  change (skipn (Z.to_nat 2) [1; 3; 1]) with [1]. split; [solve_map|]. split; [solve_map|]. split; [solve_map|exact I].
Qed.
Definition ex_sym_run {R} (radd rmul : R -> R -> R) half a wn procs (m : heap R) : option (heap R) :=
  do rs <- mapM (fun me => match ga_symmetrize 9 ex_guess (fun w => w =? me) wn me None (fun _ i => i) (fun i => i) (fun _ i => i) (fun _ i => i)
                                   (fun _ => true) 7 8 0 1 E_dbl a me with Some (inl es) => Some es | _ => None end) procs;
  run_elems (use_elem (code_half_sum radd rmul half) m) m (concat rs).
Example C91_ex_map :
  wf_array ex_sym /\ no_empty_block ex_sym /\ has_ghosts ex_sym = false /\ small_local ex_sym (reg_shape ex_sym) /\
  ex_at ex_sym [2; 1; 3] = Some (0, 9) /\ ex_at ex_sym [2; 3; 1] = Some (1, 1) /\
  (do m' <- ex_sym_run Z.add Z.mul 5 ex_sym 2 [0; 1] ex_src; Some (hget m' (0, 9), hget m' (1, 1))) = Some (Some (5 * (9 + 1001)), Some (5 * (1001 + 9))).
Proof.
  split; [exact ex_sym_wf|]. split.
  { intros p lo hi Hp ED H0. cbn in Hp. assert (p = 0 \/ p = 1) as [-> | ->] by lia; vm_compute in ED; injection ED as <- <-; repeat constructor; lia. }
  split; [reflexivity|]. split.
  { split; [cbn; lia|]. intros sh (p & l & h & Hp & E & _ & ->). cbn [ex_sym ex_arr ga_nproc ga_desc ga_width] in *.
    assert (p = 0 \/ p = 1) as [-> | ->] by lia; vm_compute in E; injection E as <- <-; vm_compute; discriminate. }
  split; [reflexivity|]. split; [reflexivity|]. vm_compute. reflexivity.
Qed.
(** 3x3 in 2x2 blocks, on two processes. *)
Definition ex_sym_bc : garray :=
  {| ga_desc := {| distr_type := BLOCK_CYCLIC; dims := [3; 3]; nblock := [1; 1]; mapc := []; block_dims := [2; 2]; num_blocks := [2; 2];
                   rstrctd_list := []; rank_rstrctd := [] |};
     ga_width := [0; 0]; ga_group := None; ga_nproc := 2; ga_elemsize := 8 |}.
Lemma ex_sym_bc_walk : walk_layout ex_sym_bc 2 (block_place ex_sym_bc) (block_shape ex_sym_bc).
Proof.
  split; [right|discriminate]. split; [reflexivity|]. left. split; [reflexivity|]. split; [|split; [reflexivity|split; [vm_compute; split; discriminate|auto]]].
  split; [left; reflexivity|]. split; [discriminate|]. split; [cbn; lia|]. split; [cbn; lia|reflexivity].
Qed.
Definition ex_bc_at (a : garray) wn x := do h <- gat_home ex_guess wn a x; gat_ptr ex_guess wn a h x.
Example C91_ex_block :
  walk_layout ex_sym_bc 2 (block_place ex_sym_bc) (block_shape ex_sym_bc) /\
  ex_bc_at ex_sym_bc 2 [3; 1] = Some (1, 0) /\ ex_bc_at ex_sym_bc 2 [1; 3] = Some (0, 4) /\
  (do st' <- ex_all (code_half Z.mul 5) (code_add_half Z.add Z.mul 5) ex_st 4
     (map (fun me => match ga_symmetrize 9 ex_guess (fun w => w =? me) 2 me None (fun _ i => i) (fun i => i) (fun _ i => i) (fun _ i => i)
                             (fun _ => true) 7 8 0 1 E_dbl ex_sym_bc me with Some (inr pr) => if (length pr =? 4)%nat then Some pr else None | _ => None end) [0; 1]);
   Some (hget (st' 0) (1, 0), hget (st' 0) (0, 4))) = Some (Some (5 * 10 + 5 * 4), Some (5 * 4 + 5 * 10)).
Proof. split; [exact ex_sym_bc_walk|]. split; [reflexivity|]. split; [reflexivity|]. vm_compute. reflexivity. Qed.

(** ** Where it fails *)
(** Ghost cells: the loop ignores the leading dimension, so it replaces other
    cells than those of the array. *)
Theorem C91_ghost_refuted : exists a (m : heap Q) es,
  wf_array a /\ no_empty_block a /\ ga_nproc a = 1 /\ dims (ga_desc a) = [2; 2] /\ allocated (reg_place a) m /\
  (forall pre rnd rnda rndb, ga_symmetrize 9 ex_guess (fun _ => true) 1 0 pre rnd (fun i => i) rnda rndb (fun _ => true) 7 8 0 1 E_dbl a 0 = Some (inl es)) /\
  exists m', run_elems (use_elem (code_half_sum Qplus Qmult (1 # 2)) m) m es = Some m' /\
    ~ symmetrized [2; 2] (fun u v => (1 # 2) * (u + v))%Q (reg_place a) m m'.
Proof.
  set (a := ex_arr [2; 2] [1; 1] [1; 1] [1; 1] None 1).
  assert (WA : wf_array a).
  { solve_arr. cbn [valid_maps a ex_arr ga_desc dims nblock mapc]. change (skipn (Z.to_nat 1) [1; 1]) with [1]. split; [solve_map|]. split; [solve_map|exact I]. }
  set (m := (fun p o => if (p =? 0) && (0 <=? o) && (o <? 16) then Some (inject_Z o) else None) : heap Q).
  exists a, m. eexists. split; [exact WA|]. split.
  { intros p lo hi Hp ED H0. cbn in Hp. assert (p = 0) as -> by lia. vm_compute in ED; injection ED as <- <-; repeat constructor; lia. }
  split; [reflexivity|]. split; [reflexivity|]. split.
  { intros x [w o] Hx. destruct (regular_storage a 1 WA) as (_ & _ & _ & S4).
    destruct (S4 x (w, o) Hx) as (r & k & R1 & R2 & R3 & R4). cbn [fst snd] in *. cbn [a ex_arr ga_nproc] in R1. assert (r = 0) as -> by lia.
    vm_compute in R2. injection R2 as <-. vm_compute in R3. injection R3 as <-.
    unfold hget, m. cbn [fst snd]. destruct (Z.leb_spec 0 o), (Z.ltb_spec o 16); try lia. discriminate. }
  split; [intros; vm_compute; reflexivity|]. eexists. split; [vm_compute; reflexivity|]. intros [H _].
  assert (P : forall x o, in_box [1; 1] [2; 2] x -> o = lin (padded [1; 1] [2; 2] (ga_width a)) (vadd (vsub x [1; 1]) (ga_width a)) -> reg_place a x (0, o)).
  { intros x o Hx ->. exists 0, [1; 1], [2; 2]. split; [cbn; lia|]. split; [reflexivity|]. split; [exact Hx|]. split; reflexivity. }
  destruct (H [1; 2] (0, 9) (0, 6)) as (u & v & E1 & E2 & E3); [cbn; lia|apply P; [cbn; lia|reflexivity]|apply P; [cbn; lia|reflexivity]|].
  vm_compute in E1, E2. injection E1 as <-. injection E2 as <-. vm_compute in E3. discriminate.
Qed.
Print Assumptions C91_ghost_refuted.

(** An array on processes 2 and 3 of a world of 4, the default group being the
    world: nodeid is the rank in the world.  Process 2 gets no block; process 0,
    if it takes part, tries to use memory of process 2. *)
Theorem C91_group_refuted : exists a, wf_array a /\ no_empty_block a /\ has_ghosts a = false /\ dims (ga_desc a) = [2; 2] /\
  ga_group a = Some [2; 3] /\
  forall fuel guess wn w pre rnd rndr rnda rndb smp ta tb ha hb, good_guess guess ->
    ga_symmetrize fuel guess (fun p => p =? 2) wn w pre rnd rndr rnda rndb smp ta tb ha hb E_dbl a 2 = Some (inl []) /\
    ga_symmetrize fuel guess (fun p => p =? 3) wn w pre rnd rndr rnda rndb smp ta tb ha hb E_dbl a 3 = Some (inl []) /\
    ga_symmetrize fuel ex_guess (fun p => p =? 0) wn w pre rnd rndr rnda rndb smp ta tb ha hb E_dbl a 0 = None.
Proof.
  exists (ex_arr [2; 2] [2; 1] [1; 2; 1] [0; 0] (Some [2; 3]) 2). split.
  { split; [|split; [reflexivity|split; [repeat constructor; lia|split; [split; [repeat constructor; cbn; lia|reflexivity]|cbn; lia]]]].
    split; [reflexivity|]. split; [discriminate|]. split; [|left; split; [reflexivity|cbn; lia]].
    cbn [valid_maps ex_arr ga_desc dims nblock mapc]. change (skipn (Z.to_nat 2) [1; 2; 1]) with [1]. split; [solve_map|]. split; [solve_map|exact I]. }
  split.
  { intros p lo hi Hp ED H0. cbn in Hp. assert (p = 0 \/ p = 1) as [-> | ->] by lia; vm_compute in ED; injection ED as <- <-; repeat constructor; lia. }
  split; [reflexivity|]. split; [reflexivity|]. split; [reflexivity|]. intros. repeat split; reflexivity.
Qed.
Print Assumptions C91_group_refuted.

(** A block-distributed array of three dimensions: the transposition refuses it. *)
Theorem C91_block_3d_refuted : exists a, wf_blocked (ga_desc a) /\ dims (ga_desc a) = [2; 2; 2] /\
  forall fuel guess near wn w pre rnd rndr rnda rndb smp ta tb ha hb me,
    ga_symmetrize fuel guess near wn w pre rnd rndr rnda rndb smp ta tb ha hb E_dbl a me = None.
Proof.
  exists {| ga_desc := {| distr_type := BLOCK_CYCLIC; dims := [2; 2; 2]; nblock := [1; 1; 1]; mapc := []; block_dims := [2; 2; 1]; num_blocks := [1; 1; 2];
                   rstrctd_list := []; rank_rstrctd := [] |};
     ga_width := [0; 0; 0]; ga_group := None; ga_nproc := 2; ga_elemsize := 8 |}.
  split; [|split; [reflexivity|reflexivity]].
  split; [left; reflexivity|]. split; [discriminate|]. split; [cbn; lia|]. split; [cbn; lia|reflexivity].
Qed.
Print Assumptions C91_block_3d_refuted.
(** Any type but C_DBL. *)
Theorem C91_type_refuted : forall fuel guess near wn w pre rnd rndr rnda rndb smp ta tb ha hb t a me, t <> E_dbl ->
  ga_symmetrize fuel guess near wn w pre rnd rndr rnda rndb smp ta tb ha hb t a me = None.
Proof. intros. unfold ga_symmetrize, sym_type. destruct t; cbn; congruence. Qed.
(** A process whose block is empty although its upper limits are positive. *)
Theorem C91_empty_block_refuted : exists a, wf_array a /\ has_ghosts a = false /\ dims (ga_desc a) = [4; 4] /\
  forall fuel guess near wn w pre rnd rndr rnda rndb smp ta tb ha hb,
    ga_symmetrize fuel guess near wn w pre rnd rndr rnda rndb smp ta tb ha hb E_dbl a 1 = None.
Proof.
  exists (ex_arr [4; 4] [1; 3] [1; 1; 3; 3] [0; 0] None 3). split.
  { solve_arr. cbn [valid_maps ex_arr ga_desc dims nblock mapc]. change (skipn (Z.to_nat 1) [1; 1; 3; 3]) with [1; 3; 3]. split; [solve_map|]. split; [solve_map|exact I]. }
  split; [reflexivity|]. split; [reflexivity|]. intros. unfold ga_symmetrize, sym_type, sym_reg. cbn [elt_eqb negb ex_arr ga_desc distr_type dims length Nat.ltb Nat.leb nth Nat.sub Z.eqb Pos.eqb].
  set (d := distribution _ 1). vm_compute in d. subst d. cbn [fst snd forallb Z.ltb Z.compare andb]. unfold access_ptr. cbn [fst snd].
  destruct (corner_owner _ _ _ _); [|reflexivity]. destruct (corner_owner _ _ _ _); reflexivity.
Qed.
Print Assumptions C91_empty_block_refuted.

(** IEEE double precision: "diag(A) remains unchanged" fails.  The sum of the
    map-distributed branch overflows; the products of the block branch
    underflow. *)
Definition dadd := SFadd 53 1024.
Definition dmul := SFmul 53 1024.
Definition dhalf : spec_float := S754_finite false 4503599627370496 (-53).
Theorem C91_diagonal_map_refuted : exists u : spec_float,
  (exists s mn e, u = S754_finite s mn e) /\ valid_binary 53 1024 u = true /\ code_half_sum dadd dmul dhalf u u = S754_infinity false.
Proof. exists (S754_finite false 4503599627370496 971). split; [eauto|]. split; [reflexivity|]. vm_compute. reflexivity. Qed.
Theorem C91_diagonal_block_refuted : exists u : spec_float,
  (exists s mn e, u = S754_finite s mn e) /\ valid_binary 53 1024 u = true /\ code_add_half dadd dmul dhalf (code_half dmul dhalf u) u <> u.
Proof. exists (S754_finite false 1 (-1074)). split; [eauto|]. split; [reflexivity|]. vm_compute. discriminate. Qed.
Print Assumptions C91_diagonal_map_refuted.
Print Assumptions C91_diagonal_block_refuted.
(** Up to these, an IEEE example: 0.75 and 0.5 give 0.625 in both branches. *)
Example C91_ex_double : let x := S754_finite false 6755399441055744 (-53) in let y := S754_finite false 4503599627370496 (-53) in
  let z := S754_finite false 5629499534213120 (-53) in
  code_half_sum dadd dmul dhalf x y = z /\ code_add_half dadd dmul dhalf (code_half dmul dhalf x) y = z.
Proof. split; vm_compute; reflexivity. Qed.
