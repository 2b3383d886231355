(** Property theorems: GA_Abs_value, GA_Add_constant, GA_Recip (C89). *)
From Coq Require Import Lqa Qfield.
From Verif Require Import LRadix LXfer2 LGcopy2 LGcopy4 LStore LIterSca LLoc LAdd4 LUn LPw2 PDist PIter PIterBlk PXfer PLoc PGcopy PPw PElem.
Open Scope Z_scope.

(** * C89 *)
(** The patch versions: [f] is applied to the elements of the patch, unless it is
    undefined for one of them. *)
Theorem C89_patch_partial : forall {V} guess near wn t a placed shape plo phi (f : V -> option V) (m : heap V),
  good_guess guess -> walk_layout a wn placed shape -> (forall me w, abs_rank a me = Some w -> near me w = true) -> t <> E_longlong ->
  length plo = length (dims (ga_desc a)) -> length phi = length (dims (ga_desc a)) -> allocated placed m ->
  exists ess n,
    Forall2 (fun me es => forall fuel, (n <= fuel)%nat -> oper_cells fuel guess (near me) wn t a me plo phi = Some es)
            (zseq 0 (Z.to_nat (ga_nproc a))) ess /\
    forall es, Permutation (concat ess) es ->
      match run_elems (try_elem f) m es with
      | Some m' => updated_by (fun x => in_array (dims (ga_desc a)) x /\ in_box plo phi x) f placed m m'
      | None => undefined_in (fun x => in_array (dims (ga_desc a)) x /\ in_box plo phi x) f placed m
      end.
Proof.
  intros V guess near wn t a placed shape plo phi f m HG HL HN HT P1 P2 HA.
  assert (LT : listed_type t = true) by (destruct t; auto; congruence).
  destruct (patch_cells_spec guess near wn a plo phi placed shape HG HL HN P1 ltac:(lia)) as (ess & n & E & M).
  exists ess, n. split.
  { eapply Forall2_weaken; [|exact E]. intros me es H fuel Hf. rewrite (oper_cells_listed fuel guess (near me) wn t a me plo phi LT). now apply H. }
  intros es PE. destruct (any_storage _ _ _ _ (proj1 HL)) as (al & _ & S2 & S3 & _).
  apply marked_tried; auto. eapply marked_perm; eauto.
Qed.
Print Assumptions C89_patch_partial.
(** The whole array. *)
Theorem C89_whole_partial : forall {V} guess near wn t a placed shape (f : V -> option V) (m : heap V),
  good_guess guess -> walk_layout a wn placed shape -> (forall me w, abs_rank a me = Some w -> near me w = true) -> t <> E_longlong ->
  allocated placed m ->
  exists ess n,
    Forall2 (fun me es => forall fuel, (n <= fuel)%nat -> oper_whole fuel guess (near me) wn t a me = Some es)
            (zseq 0 (Z.to_nat (ga_nproc a))) ess /\
    forall es, Permutation (concat ess) es ->
      match run_elems (try_elem f) m es with
      | Some m' => updated_by (in_array (dims (ga_desc a))) f placed m m'
      | None => undefined_in (in_array (dims (ga_desc a))) f placed m
      end.
Proof.
  intros V guess near wn t a placed shape f m HG HL HN HT HA.
  destruct (C89_patch_partial guess near wn t a placed shape (repeat 1 (length (dims (ga_desc a)))) (dims (ga_desc a)) f m HG HL HN HT (repeat_length _ _) eq_refl HA) as (ess & n & E & H).
  exists ess, n. split; [exact E|]. intros es PE. specialize (H es PE).
  assert (IB : forall x, in_array (dims (ga_desc a)) x -> in_box (repeat 1 (length (dims (ga_desc a)))) (dims (ga_desc a)) x).
  { intros x Hx. apply whole_box. exact Hx. }
  destruct (run_elems (try_elem f) m es) as [m'|].
  - destruct H as [H1 H2]. split.
    + intros x q Hx Hq. apply (H1 x q); auto.
    + intros q Hq. apply H2. intros x [Hx _]. auto.
  - destruct H as (x & q & v & [Hx _] & H). exists x, q, v. auto.
Qed.
Print Assumptions C89_whole_partial.

(** All processes of the default group have to call. *)
Theorem C89_syncs : forall wn, 1 <= wn -> syncs_end (counts wn) (fun p => if existsb (Z.eqb p) (counts wn) then oper_syncs wn else []).
Proof. intros wn Hw. exact (C80_syncs wn Hw false). Qed.
(** On a smaller group the members wait for processes that do not call. *)
Theorem C89_group_refuted : exists a wn, wf_array a /\
  ~ syncs_end (group_list a) (fun p => if existsb (Z.eqb p) (group_list a) then oper_syncs wn else []).
Proof.
  exists ex_ga, 8. split; [exact ex_ga_wf|].
  apply (stuck_syncs _ _ 5 (counts 8) [counts 8]); [left; reflexivity|reflexivity|].
  exists 1. split; [vm_compute; tauto|reflexivity].
Qed.
Print Assumptions C89_group_refuted.
(** Arrays of long long: every process that has an element of the patch ends in an
    error. *)
Theorem C89_longlong_refuted : forall guess near wn a placed shape plo phi,
  good_guess guess -> walk_layout a wn placed shape -> (forall me w, abs_rank a me = Some w -> near me w = true) ->
  length plo = length (dims (ga_desc a)) -> length phi = length (dims (ga_desc a)) ->
  (exists x, in_array (dims (ga_desc a)) x /\ in_box plo phi x) ->
  exists me n, 0 <= me < ga_nproc a /\ forall fuel, (n <= fuel)%nat -> oper_cells fuel guess (near me) wn E_longlong a me plo phi = None.
Proof.
  intros guess near wn a placed shape plo phi HG HL HN P1 P2 (x & Hx).
  destruct (patch_cells_spec guess near wn a plo phi placed shape HG HL HN P1 ltac:(lia)) as (ess & n & E & (l & EL & _ & I & _)).
  apply I in Hx. apply in_map_iff in Hx as ((q & x') & _ & Hin). assert (Hq : In q (concat ess)) by (rewrite EL; apply (in_map fst _ _ Hin)).
  apply in_concat in Hq as (es & Hes & Hq). clear - E Hes Hq.
  assert (X : exists me, In me (zseq 0 (Z.to_nat (ga_nproc a))) /\ forall fuel, (n <= fuel)%nat -> patch_cells fuel guess (near me) wn a me plo phi = Some es).
  { induction E as [|me es' ms ess H E IH]; [destruct Hes|]. destruct Hes as [->|Hes]; [exists me; auto with datatypes|].
    destruct (IH Hes) as (me' & I' & H'). exists me'. auto with datatypes. }
  destruct X as (me & Hme & H). apply zseq_In in Hme. exists me, n. split; [lia|]. intros fuel Hf.
  rewrite (oper_cells_unlisted fuel guess (near me) wn E_longlong a me plo phi es eq_refl (H fuel Hf)). destruct es; [destruct Hq|reflexivity].
Qed.
Print Assumptions C89_longlong_refuted.

(** ** The functions *)
Theorem C89_abs_int_partial : forall bound v, - bound < v < bound -> code_abs_int bound v = Some (Z.abs v).
Proof.
  intros bound v H. unfold code_abs_int, fit. destruct (Z.leb_spec 0 v); [f_equal; lia|].
  destruct (Z.leb_spec (- bound) (- v)), (Z.ltb_spec (- v) bound); try lia. cbn [andb]. f_equal. lia.
Qed.
(** INT_MIN, LONG_MIN. *)
Theorem C89_abs_min_refuted : forall bound, 0 < bound -> code_abs_int bound (- bound) = None.
Proof.
  intros bound H. unfold code_abs_int, fit. destruct (Z.leb_spec 0 (- bound)); [lia|]. rewrite Z.opp_involutive.
  destruct (Z.ltb_spec bound bound); [lia|]. now rewrite Bool.andb_false_r.
Qed.
Theorem C89_abs_real : forall v, exists r, code_abs_real v = Some r /\ (0 <= r)%Q /\ (r == v \/ r == - v)%Q.
Proof. intros v. exists (qabs v). split; [reflexivity|]. split; [apply qabs_nonneg|apply qabs_cases]. Qed.
(** Complex elements: the square of the result is the sum of the squares of the
    parts, if [sq] is the square root of the one number it is applied to. *)
Theorem C89_abs_cpl : forall sq v,
  (forall x, x = snd v / fst v \/ x = fst v / snd v -> 0 <= sq (1 + x * x) /\ sq (1 + x * x) * sq (1 + x * x) == 1 + x * x)%Q ->
  exists r, code_abs_cpl sq v = Some (r, 0%Q) /\ (0 <= r)%Q /\ (r * r == qnorm2 v)%Q.
Proof.
  intros sq [re im] HS. unfold code_abs_cpl, qnorm2. cbn [fst snd] in *.
  assert (H2 : forall y, (qabs y * qabs y == y * y)%Q) by (intros y; destruct (qabs_cases y) as [E|E]; rewrite E; ring).
  eexists. split; [reflexivity|].
  destruct (Qle_bool (qabs im) (qabs re)) eqn:E1.
  - apply Qle_bool_iff in E1. destruct (Qeq_bool re 0) eqn:E2.
    + apply Qeq_bool_iff in E2. assert (EI : (im == 0)%Q).
      { apply qabs_zero. assert (qabs re == 0)%Q by (destruct (qabs_cases re) as [X|X]; rewrite X, E2; reflexivity). pose proof (qabs_nonneg im). lra. }
      rewrite E2, EI. split; [lra|reflexivity].
    + apply Qeq_bool_neq in E2. cbv zeta. destruct (HS (im / re)%Q (or_introl eq_refl)) as [S1 S2]. split.
      * apply Qmult_le_0_compat; [apply qabs_nonneg|exact S1].
      * transitivity ((qabs re * qabs re) * (sq (1 + im / re * (im / re)) * sq (1 + im / re * (im / re))))%Q; [ring|]. rewrite S2, H2. field. exact E2.
  - assert (E3 : ~ (im == 0)%Q).
    { intros X. assert (Y : (qabs im <= qabs re)%Q); [|apply Qle_bool_iff in Y; congruence].
      assert (qabs im == 0)%Q by (destruct (qabs_cases im) as [Z0|Z0]; rewrite Z0, X; reflexivity). pose proof (qabs_nonneg re). lra. }
    cbv zeta. destruct (HS (re / im)%Q (or_intror eq_refl)) as [S1 S2]. split.
    + apply Qmult_le_0_compat; [apply qabs_nonneg|exact S1].
    + transitivity ((qabs im * qabs im) * (sq (1 + re / im * (re / im)) * sq (1 + re / im * (re / im))))%Q; [ring|]. rewrite S2, H2. field. exact E3.
Qed.
Print Assumptions C89_abs_cpl.

Theorem C89_add_int : forall bound c v,
  code_add_int bound c v = if (- bound <=? v + c) && (v + c <? bound) then Some (v + c) else None.
Proof. reflexivity. Qed.
Theorem C89_add_cpl : forall c v, exists r, code_add_cpl c v = Some r /\ (fst r - fst v == fst c)%Q /\ (snd r - snd v == snd c)%Q.
Proof. intros c v. eexists. split; [reflexivity|]. cbn [fst snd]. split; ring. Qed.

(** The reciprocal is refused exactly for zero. *)
Theorem C89_recip_real : forall v,
  match code_recip_real v with Some r => (r * v == 1)%Q | None => (v == 0)%Q end.
Proof.
  intros v. unfold code_recip_real. destruct (Qeq_bool v 0) eqn:E; cbn [negb]; [apply Qeq_bool_iff, E|].
  apply Qeq_bool_neq in E. field. exact E.
Qed.
Theorem C89_recip_cpl : forall v,
  match code_recip_cpl v with Some r => qceq (qmul r v) (1, 0)%Q | None => qceq v (0, 0)%Q end.
Proof.
  intros [re im]. unfold code_recip_cpl, qceq, qmul. cbn [fst snd].
  destruct (Qle_bool (qabs im) (qabs re)) eqn:E1.
  - apply Qle_bool_iff in E1. destruct (Qeq_bool (qabs re) 0) eqn:E2; cbn [negb].
    + apply Qeq_bool_iff in E2. split; [apply qabs_zero, E2|]. apply qabs_zero. pose proof (qabs_nonneg im). lra.
    + apply Qeq_bool_neq in E2. assert (E3 : ~ (re == 0)%Q).
      { intros X. apply E2. destruct (qabs_cases re) as [Y|Y]; rewrite Y, X; reflexivity. }
      cbn [fst snd]. assert (N : ~ (1 + (im / re) * (im / re) == 0)%Q) by (pose proof (square_pos (im / re)); lra).
      assert (N2 : ~ (re * re + im * im == 0)%Q) by (intros X; apply E3; pose proof (square_pos re); pose proof (square_pos im); nra).
      split; field; repeat split; auto.
  - assert (E3 : ~ (im == 0)%Q).
    { intros X. assert (Y : (qabs im <= qabs re)%Q); [|apply Qle_bool_iff in Y; congruence].
      assert (qabs im == 0)%Q by (destruct (qabs_cases im) as [Z0|Z0]; rewrite Z0, X; reflexivity). pose proof (qabs_nonneg re). lra. }
    cbn [fst snd]. assert (N2 : ~ (re * re + im * im == 0)%Q) by (intros X; apply E3; pose proof (square_pos re); pose proof (square_pos im); nra).
    split; field; repeat split; auto; rewrite Qplus_comm; exact N2.
Qed.
Print Assumptions C89_recip_cpl.
(** Integers: 1, -1, or 0. *)
Theorem C89_recip_int : forall v,
  code_recip_int v = if v =? 0 then None else if v =? 1 then Some 1 else if v =? -1 then Some (-1) else Some 0.
Proof.
  intros v. unfold code_recip_int. destruct (Z.eqb_spec v 0) as [->|N]; [reflexivity|]. cbn [negb].
  destruct (Z.eqb_spec v 1) as [->|N1]; [reflexivity|]. destruct (Z.eqb_spec v (-1)) as [->|N2]; [reflexivity|].
  f_equal. destruct (Z.ltb_spec 0 v).
  - apply Z.quot_small. lia.
  - replace v with (- (- v)) by lia. rewrite Z.quot_opp_r by lia. rewrite Z.quot_small; lia.
Qed.
Print Assumptions C89_recip_int.

(** ** Examples *)
Definition ex_try (f : Z -> option Z) (m : heap Z) (rs : list (option (list place))) : option (heap Z) :=
  do ess <- mapM (fun r => r) rs; run_elems (try_elem f) m (concat ess).
(** Rows 3..8 and columns 0..3 (partly outside) of the 10x7 array with ghost cells
    on the group [5; 2; 7; 0]. *)
(** As for C80: in the memory of process 2 the elements of the patch change. *)
Example C89_ex_abs :
  walk_layout ex_ga 8 (reg_place ex_ga) (reg_shape ex_ga) /\
  (do m' <- ex_try (fun v => code_abs_int 100000 (2017 - v)) ex_src (map (fun me => oper_cells 9 ex_guess (fun _ => true) 8 E_int ex_ga me [3; 0] [8; 3]) [0; 1; 2; 3]);
   mapM (fun o => hget m' (2, o)) (counts 28)) =
  Some (map (fun o => 2000 + o) (counts 15) ++ [2; 1; 0; 2018; 2019; 2020; 2021; 5; 6; 7; 2025; 2026; 2027]).
Proof. split; [apply ex_reg_walk, ex_ga_wf|]. vm_compute. reflexivity. Qed.
(** A zero element in the patch; one outside. *)
Example C89_ex_recip : forall z, z = 2017 \/ z = 2018 ->
  (do m' <- ex_try (fun v => code_recip_int (v - z)) ex_src (map (fun me => oper_cells 9 ex_guess (fun _ => true) 8 E_int ex_ga me [3; 0] [8; 3]) [0; 1; 2; 3]);
   mapM (fun o => hget m' (2, o)) [15; 16; 17; 18]) = if z =? 2017 then None else Some [0; 0; -1; 2018].
Proof. intros z [-> | ->]; vm_compute; reflexivity. Qed.
(** |3 + 4i| = 5 with the square roots 5/3 of 25/9 and 5/4 of 25/16. *)
Example C89_ex_cpl : let sq := fun y => (if Qeq_bool y (25 # 9) then 5 # 3 else 5 # 4)%Q in
  (forall x, x = 4 / 3 \/ x = 3 / 4 -> 0 <= sq (1 + x * x) /\ sq (1 + x * x) * sq (1 + x * x) == 1 + x * x)%Q /\
  exists r, code_abs_cpl sq (3, 4)%Q = Some (r, 0%Q) /\ (r == 5)%Q.
Proof.
  cbv zeta. split; [intros x [-> | ->]; vm_compute; split; try reflexivity; discriminate|].
  eexists. split; [vm_compute; reflexivity|reflexivity].
Qed.
