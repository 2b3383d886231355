(** Property theorems: GA_Step_max and GA_Step_max_patch (C90). *)
From Coq Require Import Lqa Qfield.
From Verif Require Import MNb MHandle MGroup LRadix LDist LStrided LStrided2 LIterReg LIterReg3 LIterSca LStore LXfer LXfer2 LLoc LAccess LSelect LSelect2 LOdo LGcopy2 LGcopy4 LGcopy5 LCpatch LAdd4 LPw2 LStep
  PDist PIter PIterBlk PXfer PLoc PGcopy PAdd PPw PElem PNorm PSelect.
Open Scope Z_scope.

(** * C90 *)
(** The steps between the check for negative elements and the maximum: on
    map-distributed arrays of the world group, in every order of the element
    operations of a phase, the patch of C holds the bounds of the elements, and
    the rest of C what it held before. *)
Theorem C90_phases_partial : forall {V} (sd : V -> V -> V) (sm : V -> V) (A B : list Z -> V) guess near wn pre rnda rndb smp t ta tb ha hb hc a b lo hi (st : store V),
  good_guess guess -> (forall me, near me me = true) -> (forall me q k, 0 <= rnda me q k) -> (forall me q k, 0 <= rndb me q k) -> t <> E_longlong ->
  wf_array a -> wf_array b -> ga_group a = None -> ga_group b = None -> ga_nproc a = wn -> ga_nproc b = wn -> 1 <= wn ->
  ga_elemsize a = ga_elemsize b -> small_local a (reg_shape a) -> small_local b (reg_shape b) ->
  patch_of (dims (ga_desc a)) lo hi -> patch_of (dims (ga_desc b)) lo hi ->
  (aligned b a lo hi lo hi -> ga_width b = ga_width a) ->
  NoDup [ha; hb; hc; ta; tb] ->
  (forall x q, reg_place a x q -> hget (st ha) q = Some (A x)) -> (forall x q, reg_place b x q -> hget (st hb) q = Some (B x)) ->
  allocated (reg_place a) (st hc) -> allocated (reg_place a) (st ta) -> allocated (reg_place a) (st tb) ->
  exists progs k n ess n',
    Forall2 (fun me pr => length pr = k /\ forall fuel, (n <= fuel)%nat ->
        elem2_patch fuel guess (near me) wn me (pre me) (rnda me) (rndb me) (smp me) t ta tb ha hb hc a b a me me me lo hi lo hi lo hi = Some pr)
      (zseq 0 (Z.to_nat wn)) progs /\
    Forall2 (fun me es => forall fuel, (n' <= fuel)%nat -> patch_cells fuel guess (near me) wn a me lo hi = Some es)
      (zseq 0 (Z.to_nat wn)) ess /\
    every_run (zstep (plain (fun u v => Some (sd u v)))) st (phases_of k progs) (fun r => exists st', r = Some st' /\
      forall es, Permutation (concat ess) es -> exists m,
        run_elems (upd_elem sm) (st' hc) es = Some m /\
        (forall x q, in_box lo hi x -> reg_place a x q -> hget m q = Some (sm (sd (A x) (B x)))) /\
        (forall q, (forall x, in_box lo hi x -> ~ reg_place a x q) -> hget m q = hget (st hc) q)).
Proof.
  intros V sd sm A B guess near wn pre rnda rndb smp t ta tb ha hb hc a b lo hi st HG HN HRa HRb Ht WA WB GA GB NA NB Hw EAB SA SB PA PB WDB ND VA VB AC ATa ATb.
  assert (NDs : ha <> hb /\ ha <> hc /\ ha <> ta /\ ha <> tb /\ hb <> hc /\ hb <> ta /\ hb <> tb /\ hc <> ta /\ hc <> tb /\ ta <> tb).
  { repeat (apply NoDup_cons_iff in ND as [? ND]). cbn [In] in *. repeat split; intros E; intuition congruence. }
  destruct (C87_elem2_patch_partial (plain (fun u v => Some (sd u v))) (fun u v => Some (sd u v)) guess near wn pre rnda rndb smp t ta tb ha hb hc a b a lo hi lo hi lo hi st)
    as (progs & k & n & F & R); auto; try tauto; try (now left); try (intuition congruence).
  { left. destruct (patch_lens _ _ _ PA). destruct (patch_lens _ _ _ PB). congruence. }
  { intros x q Hq. rewrite (VA x q Hq). discriminate. }
  { intros x q Hq. rewrite (VB x q Hq). discriminate. }
  destruct (patch_lens _ _ _ PA) as [L1 L2].
  destruct (patch_cells_spec guess near wn a lo hi (reg_place a) (reg_shape a) HG (ex_reg_walk a wn WA)) as (ess & n' & E & M); auto; try lia.
  { intros me w EW. unfold abs_rank in EW. rewrite GA in EW. injection EW as <-. apply HN. }
  rewrite NA in E. exists progs, k, n, ess, n'. split; [exact F|]. split; [exact E|].
  destruct (any_storage a wn _ _ (or_introl (conj WA (conj eq_refl eq_refl)))) as (al & _ & S2 & S3 & _).
  destruct (any_storage b wn _ _ (or_introl (conj WB (conj eq_refl eq_refl)))) as (bl & T1 & _).
  eapply every_run_imp; [|exact R]. cbn beta. intros [st'|] HR.
  2:{ destruct HR as (x & y & z & qa & qb & va & vb & H). decompose [and] H. discriminate. }
  exists st'. split; [reflexivity|]. destruct HR as [[Z1 Z2] _].
  assert (IN : forall x q, in_box lo hi x -> reg_place a x q -> hget (st' hc) q = Some (sd (A x) (B x))).
  { intros x q Hx Hq. destruct (T1 x (patch_in _ _ _ _ PB Hx)) as (qb & Hb).
    assert (CS : corresponds false lo hi lo hi x x) by (split; [exact Hx|split; [exact Hx|reflexivity]]).
    destruct (Z1 x x x q qb q CS CS Hq Hb Hq) as (va & vb & v & E1 & E2 & E3 & E4).
    rewrite (VA x q Hq) in E1. rewrite (VB x qb Hb) in E2. congruence. }
  assert (AL : allocated (reg_place a) (st' hc)).
  { intros x q Hq X. assert (D : in_box lo hi x \/ ~ in_box lo hi x) by apply in_box_or. destruct D as [D|D].
    - rewrite (IN x q D Hq) in X. discriminate.
    - rewrite Z2 in X; [exact (AC x q Hq X)|]. intros x' Hx' Hq'. apply D. rewrite (S3 _ _ _ Hq Hq'). exact Hx'. }
  intros es PE. destruct (marked_updated (reg_place a) _ sm (st' hc) es S2 S3 AL (marked_perm _ _ _ _ PE M)) as (m & RE & U1 & U2).
  exists m. split; [exact RE|]. split.
  - intros x q Hx Hq. destruct (U1 x q (conj (patch_in _ _ _ _ PA Hx) Hx) Hq) as (v & E1 & E2). rewrite (IN x q Hx Hq) in E1. congruence.
  - intros q Hq. rewrite U2 by (intros x [_ Hx]; auto). apply Z2, Hq.
Qed.
Print Assumptions C90_phases_partial.

(** The check for negative elements, on map-distributed arrays of any group: a
    process finds one if and only if it has one in the patch. *)
Theorem C90_negative_partial : forall {V} (isneg : V -> bool) (A : list Z -> V) guess near wn a me w lo hi (m : heap V),
  good_guess guess -> wf_array a -> 0 <= me < ga_nproc a -> abs_rank a me = Some w -> near w = true ->
  length lo = length (dims (ga_desc a)) -> length hi = length (dims (ga_desc a)) ->
  (forall x q, reg_place a x q -> hget m q = Some (A x)) ->
  exists n b, (forall fuel, (n <= fuel)%nat -> has_negative isneg fuel guess near wn a me lo hi m = Some b) /\
    (b = true <-> exists x ad, in_array (dims (ga_desc a)) x /\ in_box lo hi x /\ reg_place a x (w, ad) /\ isneg (A x) = true).
Proof.
  intros V isneg A guess near wn a me w lo hi m HG WA Hme EW HN L1 L2 VA.
  destruct (patch_cells_proc guess near wn a me w lo hi (reg_place a) (reg_shape a) HG (ex_reg_walk a wn WA) Hme EW HN L1 ltac:(lia)) as (cs & n & E & M).
  destruct (C69_regular guess near wn a me w HG WA Hme EW HN) as (ps & EI & _).
  destruct M as (l & EL & NDl & I & J). subst cs.
  assert (HM : forall q, In q (map fst l) -> hget m q <> None).
  { intros q Hq. apply in_map_iff in Hq as ((q' & x) & <- & Hin). cbn [fst]. rewrite (VA x q' (J _ _ Hin)). discriminate. }
  assert (X : forall fuel, (Nat.max 2 n <= fuel)%nat -> exists b, has_negative isneg fuel guess near wn a me lo hi m = Some b /\
     (b = true <-> exists q v, In q (map fst l) /\ hget m q = Some v /\ isneg v = true)).
  { intros fuel Hf. apply (has_negative_one isneg fuel guess near wn a me lo hi m (map fst l) ps); auto; [apply EI; lia| |apply E; lia].
    apply (regular_one guess near wn a me w ps fuel); auto; [lia|apply EI; lia]. }
  assert (Y : (exists q v, In q (map fst l) /\ hget m q = Some v /\ isneg v = true) <->
     exists x ad, in_array (dims (ga_desc a)) x /\ in_box lo hi x /\ reg_place a x (w, ad) /\ isneg (A x) = true).
  { split.
    - intros (q & v & Hq & Ev & Hn). apply in_map_iff in Hq as ((q' & x) & <- & Hin). cbn [fst] in *.
      destruct (proj1 (I x) (in_map snd _ _ Hin)) as ((X1 & X2) & ad & X3). exists x, ad. rewrite (VA x q' (J _ _ Hin)) in Ev. injection Ev as ->. auto.
    - intros (x & ad & X1 & X2 & X3 & X4). pose proof (proj2 (I x) (conj (conj X1 X2) (ex_intro _ ad X3))) as Hin.
      apply in_map_iff in Hin as ((q & x') & EE & Hin). cbn [snd] in EE. subst x'. exists q, (A x). split; [apply (in_map fst _ _ Hin)|]. split; [apply VA, (J _ _ Hin)|exact X4]. }
  destruct (X (Nat.max 2 n) ltac:(lia)) as (b & _ & Hb). exists (Nat.max 2 n), b. split; [|rewrite Hb; exact Y].
  intros fuel Hf. destruct (X fuel Hf) as (b' & -> & Hb'). f_equal. rewrite <- Hb in Hb'. destruct b, b'; try reflexivity; [|symmetry]; apply Hb'; reflexivity.
Qed.
Print Assumptions C90_negative_partial.

(** The number: if A has no negative element, the absolute value of the largest
    bound is the largest step (exact arithmetic). *)
Theorem C90_value : forall inf (S : list Z -> Prop) A B v, (0 < inf)%Q -> (forall x, S x -> (0 <= A x)%Q) ->
  is_max Qle S (fun x => stepmax inf (step_divide inf (A x) (B x))) v -> largest_step inf S A B (step_result v).
Proof. exact max_step. Qed.
Print Assumptions C90_value.

(** GA_Step_max on whole arrays of integers, all steps: map-distributed arrays of
    the world group, every process has a block of A, A has no ghost cells, and no
    positive element of B is greater than a positive element of A at the same
    place. *)
Theorem C90_step_max_int_partial : forall inf (A B : list Z -> Z) guess near wn pre rnda rndb smp t ta tb ha hb hc a b (st : store Z),
  good_guess guess -> (forall me, near me me = true) -> (forall me q k, 0 <= rnda me q k) -> (forall me q k, 0 <= rndb me q k) -> t <> E_longlong ->
  wf_array a -> wf_array b -> ga_group a = None -> ga_group b = None -> ga_nproc a = wn -> ga_nproc b = wn -> 1 <= wn ->
  ga_elemsize a = ga_elemsize b -> small_local a (reg_shape a) -> small_local b (reg_shape b) ->
  let ds := dims (ga_desc a) in let ones := repeat 1 (length ds) in
  dims (ga_desc b) = ds -> (aligned b a ones ds ones ds -> ga_width b = ga_width a) ->
  Forall (fun w => w = 0) (ga_width a) ->
  (forall p, 0 <= p < wn -> exists lo hi, distribution (ga_desc a) p = Some (lo, hi) /\ Forall2 Z.le lo hi) ->
  NoDup [ha; hb; hc; ta; tb] ->
  (forall x q, reg_place a x q -> hget (st ha) q = Some (A x)) -> (forall x q, reg_place b x q -> hget (st hb) q = Some (B x)) ->
  allocated (reg_place a) (st hc) -> allocated (reg_place a) (st ta) -> allocated (reg_place a) (st tb) ->
  0 < inf -> (forall x, in_array ds x -> 0 <= A x) -> (forall x, in_array ds x -> A x = 0 \/ B x <= A x) ->
  exists progs k n ess n',
    Forall2 (fun me pr => length pr = k /\ forall fuel, (n <= fuel)%nat ->
        elem2_patch fuel guess (near me) wn me (pre me) (rnda me) (rndb me) (smp me) t ta tb ha hb hc a b a me me me ones ds ones ds ones ds = Some pr)
      (zseq 0 (Z.to_nat wn)) progs /\
    Forall2 (fun me es => forall fuel, (n' <= fuel)%nat -> patch_cells fuel guess (near me) wn a me ones ds = Some es)
      (zseq 0 (Z.to_nat wn)) ess /\
    every_run (zstep (plain (fun u v => Some (step_divide_int inf u v)))) st (phases_of k progs) (fun r => exists st', r = Some st' /\
      forall es, Permutation (concat ess) es -> exists m,
        run_elems (upd_elem (stepmax_int inf)) (st' hc) es = Some m /\
        forall fuel, (2 <= fuel)%nat -> exists i,
          select_elem (fun v => v) false false fuel guess near wn a (fun p ad => hget m (p, ad)) = Done i /\
          largest_step_int inf (in_array ds) A B (step_result_int (ei_key i))).
Proof.
  intros inf A B guess near wn pre rnda rndb smp t ta tb ha hb hc a b st HG HN HRa HRb Ht WA WB GA GB NA NB Hw EAB SA SB ds ones EDB WDB HZ HD ND VA VB AC ATa ATb Hi HA HB.
  pose proof (LAdd4.whole_patch a wn _ _ (or_introl (conj WA (conj eq_refl eq_refl)))) as PA.
  pose proof (LAdd4.whole_patch b wn _ _ (or_introl (conj WB (conj eq_refl eq_refl)))) as PB. rewrite EDB in PB. fold ds in PA. fold ones in PA, PB.
  destruct (C90_phases_partial (step_divide_int inf) (stepmax_int inf) A B guess near wn pre rnda rndb smp t ta tb ha hb hc a b ones ds st)
    as (progs & k & n & ess & n' & F & E & R); auto; try (rewrite EDB; exact PB).
  exists progs, k, n, ess, n'. split; [exact F|]. split; [exact E|]. eapply every_run_imp; [|exact R]. cbn beta. intros r (st' & -> & H).
  exists st'. split; [reflexivity|]. intros es PE. destruct (H es PE) as (m & RE & H1 & _). exists m. split; [exact RE|]. intros fuel Hf.
  destruct (any_storage a wn _ _ (or_introl (conj WA (conj eq_refl eq_refl)))) as (al & _ & _ & _ & S4).
  destruct (C70_regular_partial (fun v => v) false false (fun x => stepmax_int inf (step_divide_int inf (A x) (B x))) a (fun p ad => hget m (p, ad)) guess near fuel)
    as (i & ES & X1 & X2 & X3 & _); auto; try (rewrite NA; auto).
  { intros x p ad Hq. apply H1; [|exact Hq]. apply whole_box. destruct Hq as (me & lo & hi & Hme & ED & HB' & _).
    destruct (regular_blocks_inside _ _ _ (proj1 WA) Hme) as (lo' & hi' & ED' & HI). rewrite ED in ED'. injection ED' as <- <-. apply HI, HB'. }
  rewrite NA in ES. exists i. split; [exact ES|]. apply max_step_int; auto. split; [exact X1|]. exists (ei_sub i). split; [exact X2|symmetry; exact X3].
Qed.
Print Assumptions C90_step_max_int_partial.

(** ** Examples *)
(** The call on [n] processes, whole array or patch. *)
Definition step_run (inf : Z) (st : store Z) (n k : Z) (a b : garray) (lo hi : list Z) : out Z :=
  match (do st' <- zx_all (plain (fun u v => Some (step_divide_int inf u v))) st (Z.to_nat k)
           (map (fun me => elem2_patch 9 ex_guess (fun w => w =? me) n me None (fun _ i => i) (fun _ i => i) (fun _ => true) E_long 7 8 0 1 2 a b a me me me lo hi lo hi lo hi) (counts n));
         do ess <- mapM (fun me => patch_cells 9 ex_guess (fun w => w =? me) n a me lo hi) (counts n);
         run_elems (upd_elem (stepmax_int inf)) (st' 2) (concat ess)) with
  | Some m => try i <- select_elem (fun v => v) false false 9 ex_guess (fun me w => w =? me) n a (fun p ad => hget m (p, ad)); Done (step_result_int (ei_key i))
  | None => Undef
  end.
Definition step_arr : garray := ex_arr [4] [2] [1; 3] [0] None 2.
Lemma step_arr_wf : wf_array step_arr.
Proof. solve_arr; split; [solve_map|exact I]. Qed.
(** A holds 9, 8 and 7, 6, B -2, 3 and -3, 0: (9, 7) / (2, 3) leave the step 2.
    C holds 5. *)
Definition step_st : store Z := fun h p o =>
  if (0 <=? p) && (p <=? 1) && (0 <=? o) && (o <? 2) then
    Some (if h =? 0 then 9 - 2 * p - o else if h =? 1 then (if o =? 0 then -2 - p else 3 - 3 * p) else 5)
  else None.
Example C90_ex :
  wf_array step_arr /\ (forall p, 0 <= p < 2 -> exists lo hi, distribution (ga_desc step_arr) p = Some (lo, hi) /\ Forall2 Z.le lo hi) /\
  step_run 1000 step_st 2 1 step_arr step_arr [1] [4] = Done 2.
Proof.
  split; [exact step_arr_wf|]. split; [|vm_compute; reflexivity].
  intros p Hp. assert (p = 0 \/ p = 1) as [-> | ->] by lia; eexists; eexists; (split; [vm_compute; reflexivity|repeat constructor; lia]).
Qed.

(** ** Where it fails *)
(** The patch version takes the maximum of all of C, of which only the patch is
    set: on rows 1..2 of the same arrays (A 9, 8 and B -2, 3) the right step is
    4, the answer is what C happened to hold. *)
Theorem C90_patch_refuted : exists inf a b (st : store Z) lo hi (A B : list Z -> Z),
  wf_array a /\ wf_array b /\ patch_of (dims (ga_desc a)) lo hi /\
  (forall x q, reg_place a x q -> hget (st 0) q = Some (A x)) /\ (forall x q, reg_place b x q -> hget (st 1) q = Some (B x)) /\
  (forall x, in_box lo hi x -> 0 <= A x) /\ (forall x, in_box lo hi x -> A x = 0 \/ B x <= A x) /\
  step_run inf st 2 1 a b lo hi = Done 5 /\ ~ largest_step_int inf (in_box lo hi) A B 5 /\ largest_step_int inf (in_box lo hi) A B 4.
Proof.
  exists 1000, step_arr, step_arr, step_st, [1], [2],
    (fun x => 10 - hd 0 x), (fun x => nth (Z.to_nat (hd 0 x)) [0; -2; 3; -3; 0] 0).
  split; [exact step_arr_wf|]. split; [exact step_arr_wf|]. split; [repeat constructor; cbn; lia|].
  assert (PL : forall x q, reg_place step_arr x q -> exists i, (i = 1 /\ q = (0, 0) \/ i = 2 /\ q = (0, 1) \/ i = 3 /\ q = (1, 0) \/ i = 4 /\ q = (1, 1)) /\ x = [i]).
  { intros x [w ad] (me & lo & hi & Hme & ED & HB & EW & EQ). cbn in Hme. assert (me = 0 \/ me = 1) as [-> | ->] by lia; vm_compute in ED; injection ED as <- <-;
      vm_compute in EW; injection EW as <-; destruct x as [|i [|]]; cbn in HB; try tauto; destruct HB as [HB _]; exists i; (split; [|reflexivity]).
    - assert (i = 1 \/ i = 2) as [-> | ->] by lia; vm_compute in EQ; subst ad; auto 6.
    - assert (i = 3 \/ i = 4) as [-> | ->] by lia; vm_compute in EQ; subst ad; auto 6. }
  split; [intros x q Hq; destruct (PL x q Hq) as (i & H & ->); intuition subst; reflexivity|].
  split; [intros x q Hq; destruct (PL x q Hq) as (i & H & ->); intuition subst; reflexivity|].
  assert (BX : forall x, in_box [1] [2] x -> x = [1] \/ x = [2]).
  { intros [|i [|]] H; cbn in H; try tauto. destruct H as [H _]. assert (i = 1 \/ i = 2) as [-> | ->] by lia; auto. }
  split; [intros x Hx; destruct (BX x Hx) as [-> | ->]; vm_compute; discriminate|].
  split; [intros x Hx; right; destruct (BX x Hx) as [-> | ->]; vm_compute; discriminate|].
  split; [vm_compute; reflexivity|]. split.
  - intros (_ & H & _). specialize (H [1] ltac:(cbn; lia)). vm_compute in H. apply H. reflexivity.
  - split; [lia|]. split; [intros x Hx; destruct (BX x Hx) as [-> | ->]; vm_compute; discriminate|].
    right. intros r Hr. exists [1]. split; [cbn; lia|]. change (9 + r * -2 < 0). lia.
Qed.
Print Assumptions C90_patch_refuted.

(** Integers: the quotient 1/2 becomes 0 and the answer is 0, although any
    multiple of B = 2 can be added to A = 1. *)
Theorem C90_int_refuted : forall inf, 1 < inf -> exists (S : list Z -> Prop) A B v, (exists x, S x) /\ (forall x, S x -> 0 <= A x) /\
  is_max Z.le S (fun x => stepmax_int inf (step_divide_int inf (A x) (B x))) v /\ step_result_int v = 0 /\
  (forall r, 0 <= r -> forall x, S x -> 0 <= A x + r * B x) /\ ~ largest_step_int inf S A B (step_result_int v).
Proof.
  intros inf Hi. exists (fun x => x = [1]), (fun _ => 1), (fun _ => 2), 0.
  split; [eauto|]. split; [lia|]. split; [split; [intros x _; vm_compute; discriminate|exists [1]; split; reflexivity]|].
  split; [reflexivity|]. split; [intros; lia|]. intros (_ & _ & [H|H]); [cbn in H; lia|]. destruct (H 1 ltac:(cbn; lia)) as (x & _ & X). lia.
Qed.
Print Assumptions C90_int_refuted.

(** Block-cyclic arrays: a negative element in a block that is not the last one of
    its process is not found by any process. *)
Theorem C90_negative_refuted : exists a wn lo hi (m : heap Z) x q,
  walk_layout a wn (block_place a) (block_shape a) /\ ga_group a = None /\ ga_nproc a = wn /\ patch_of (dims (ga_desc a)) lo hi /\
  in_box lo hi x /\ block_place a x q /\ hget m q = Some (-1) /\
  forall fuel me, (9 <= fuel)%nat -> 0 <= me < wn -> has_negative (fun v => v <? 0) fuel ex_guess (fun w => w =? me) wn a me lo hi m = Some false.
Proof.
  exists (ex_bc1 9 2 None), 2, [1], [9], (fun p o => if (0 <=? o) && (o <? 30) then Some (if (p =? 0) && (o =? 1) then -1 else 1) else None), [2], (0, 1).
  split; [exact ex_nine_layout|]. do 2 (split; [reflexivity|]). split; [repeat constructor; cbn; lia|]. split; [cbn; lia|].
  split; [exists 0, [1], [2]; repeat split; cbn; try lia; reflexivity|]. split; [reflexivity|].
  intros fuel me Hf Hm. replace fuel with (9 + (fuel - 9))%nat by lia. assert (me = 0 \/ me = 1) as [-> | ->] by lia; vm_compute; reflexivity.
Qed.
Print Assumptions C90_negative_refuted.
