(** Lemmas: the largest step. *)
From Coq Require Import Lqa Qfield.
From Verif Require Import LRadix LDist LStrided LStrided2 LIterReg LIterReg3 LIterSca LStore LXfer LXfer2 LLoc LAccess LSelect LSelect2 LOdo LGcopy5.
From Verif Require Export LUn LZip3 MStep.
Open Scope Z_scope.

(** ---- the number ---- *)
Lemma qle_false a b : Qle_bool a b = false -> (b < a)%Q.
Proof. intros H. apply Qnot_le_lt. intros X. apply Qle_bool_iff in X. congruence. Qed.
Lemma step_value inf a b : (0 < inf)%Q -> (0 <= a)%Q ->
  let c := stepmax inf (step_divide inf a b) in
  (0 <= b /\ c == - inf)%Q \/ (b < 0 /\ c <= 0 /\ a == c * b)%Q.
Proof.
  intros Hi Ha. cbv zeta. unfold stepmax, step_divide. destruct (Qeq_bool a 0) eqn:E1.
  - apply Qeq_bool_iff in E1. destruct (Qle_bool 0 b) eqn:E2.
    + apply Qle_bool_iff in E2. left. split; [exact E2|]. destruct (Qle_bool inf 0) eqn:E3; cbn [negb]; [apply Qle_bool_iff in E3; lra|reflexivity].
    + apply qle_false in E2. right. split; [exact E2|]. cbn [Qle_bool]. destruct (Qle_bool 0 0) eqn:E3; cbn [negb]; [|discriminate]. split; [lra|]. rewrite E1. ring.
  - apply Qeq_bool_neq in E1. destruct (Qeq_bool b 0) eqn:E2; cbn [negb].
    + apply Qeq_bool_iff in E2. left. split; [lra|]. destruct (Qle_bool inf 0) eqn:E3; cbn [negb]; [apply Qle_bool_iff in E3; lra|reflexivity].
    + apply Qeq_bool_neq in E2. assert (HM : (a == (a / b) * b)%Q) by (field; exact E2).
      destruct (Qle_bool (a / b) 0) eqn:E3; cbn [negb].
      * apply Qle_bool_iff in E3. right. split; [|split; [exact E3|exact HM]].
        destruct (Qlt_le_dec b 0); [assumption|]. exfalso. nra.
      * apply qle_false in E3. left. split; [|reflexivity]. destruct (Qlt_le_dec b 0); [|assumption]. exfalso. nra.
Qed.
Lemma step_value_int inf a b : 0 < inf -> 0 <= a ->
  let c := stepmax_int inf (step_divide_int inf a b) in
  (0 <= b /\ (c = - inf \/ (c = 0 /\ 0 < a < b))) \/ (b < 0 /\ c <= 0 /\ 0 <= a - c * b < - b).
Proof.
  intros Hi Ha. cbv zeta. unfold stepmax_int, step_divide_int. destruct (Z.eqb_spec a 0) as [->|E1].
  - destruct (Z.leb_spec 0 b); [left; destruct (Z.ltb_spec 0 inf); lia|right]. cbn [Z.ltb Z.compare]. lia.
  - destruct (Z.eqb_spec b 0) as [->|E2]; cbn [negb]; [left; destruct (Z.ltb_spec 0 inf); lia|].
    destruct (Z.ltb_spec b 0) as [Hb|Hb].
    + right. replace b with (- (- b)) by lia. rewrite Z.quot_opp_r by lia. rewrite Z.quot_div_nonneg by lia.
      pose proof (Z.div_pos a (- b) Ha ltac:(lia)). pose proof (Z.div_mod a (- b) ltac:(lia)). pose proof (Z.mod_pos_bound a (- b) ltac:(lia)).
      destruct (Z.ltb_spec 0 (- (a / - b))); [lia|]. split; [lia|]. split; [lia|]. set (d := a / - b) in *. nia.
    + left. split; [lia|]. rewrite Z.quot_div_nonneg by lia. destruct (Z.ltb_spec 0 (a / b)); [left; reflexivity|right].
      destruct (Z.lt_ge_cases a b); [rewrite Z.div_small by lia; lia|]. assert (0 < a / b) by (apply Z.div_str_pos; lia). lia.
Qed.

Lemma max_step inf (S : list Z -> Prop) A B v : (0 < inf)%Q -> (forall x, S x -> (0 <= A x)%Q) ->
  is_max Qle S (fun x => stepmax inf (step_divide inf (A x) (B x))) v -> largest_step inf S A B (step_result v).
Proof.
  intros Hi HA [HM (x0 & Hx0 & E0)].
  assert (Hv : (v <= 0)%Q).
  { destruct (step_value inf (A x0) (B x0) Hi (HA _ Hx0)) as [[_ H]|(_ & H & _)]; rewrite E0 in H; lra. }
  assert (ER : (step_result v == - v)%Q).
  { unfold step_result, qabs. destruct (Qle_bool 0 v) eqn:E; [apply Qle_bool_iff in E; lra|reflexivity]. }
  assert (HR : (0 <= step_result v)%Q) by lra. split; [exact HR|]. split.
  - intros x Hx. specialize (HM x Hx). cbn beta in HM. destruct (step_value inf (A x) (B x) Hi (HA _ Hx)) as [[Hb _]|(Hb & Hc & E)].
    + pose proof (HA x Hx). pose proof (Qmult_le_0_compat _ _ HR Hb). lra.
    + set (c := stepmax inf (step_divide inf (A x) (B x))) in *. rewrite ER. nra.
  - destruct (step_value inf (A x0) (B x0) Hi (HA _ Hx0)) as [[_ H]|(Hb & Hc & E)]; rewrite E0 in *.
    + left. lra.
    + right. intros r' Hr. exists x0. split; [exact Hx0|]. rewrite E. rewrite ER in Hr. nra.
Qed.
Lemma max_step_int inf (S : list Z -> Prop) A B v : 0 < inf -> (forall x, S x -> 0 <= A x) -> (forall x, S x -> A x = 0 \/ B x <= A x) ->
  is_max Z.le S (fun x => stepmax_int inf (step_divide_int inf (A x) (B x))) v -> largest_step_int inf S A B (step_result_int v).
Proof.
  intros Hi HA HB [HM (x0 & Hx0 & E0)]. pose proof (step_value_int inf (A x0) (B x0) Hi (HA _ Hx0)) as X0. cbv zeta in X0. rewrite E0 in X0.
  assert (Hv : v <= 0) by lia.
  assert (ER : step_result_int v = - v) by (unfold step_result_int; destruct (Z.leb_spec 0 v); lia).
  rewrite ER. split; [lia|]. split.
  - intros x Hx. specialize (HM x Hx). cbn beta in HM. pose proof (HA x Hx).
    destruct (step_value_int inf (A x) (B x) Hi (HA _ Hx)) as [[Hb _]|(Hb & Hc & E)]; [nia|].
    set (c := stepmax_int inf (step_divide_int inf (A x) (B x))) in *. nia.
  - destruct X0 as [[_ [-> |[_ E]]]|(Hb & Hc & E)]; [left; lia| |].
    + specialize (HB x0 Hx0). lia.
    + right. intros r' Hr. exists x0. split; [exact Hx0|]. nia.
Qed.

(** ---- negative elements ---- *)
Lemma negative_one {V} (isneg : V -> bool) m l : forall vs, mapM (hget m) l = Some vs -> negative_loop isneg m false [l] = Some (existsb isneg vs).
Proof. intros vs E. destruct l as [|q l]; cbn [negative_loop]; [inversion E; reflexivity|]. rewrite E. reflexivity. Qed.
Lemma mapM_hget {V} (m : heap V) l : (forall q, In q l -> hget m q <> None) -> exists vs, mapM (hget m) l = Some vs /\
  forall v, In v vs <-> exists q, In q l /\ hget m q = Some v.
Proof.
  induction l as [|q l IH]; intros H; [exists []; split; [reflexivity|]; intros v; split; [intros []|intros (? & [] & _)]|].
  destruct IH as (vs & E & I); [intros; apply H; now right|]. destruct (hget m q) as [u|] eqn:Eq; [|destruct (H q (or_introl eq_refl) Eq)].
  exists (u :: vs). cbn [mapM]. rewrite Eq, E. split; [reflexivity|]. intros v. split.
  - intros [->|Hv]; [exists q; auto with datatypes|]. apply I in Hv as (q' & A & B). exists q'. auto with datatypes.
  - intros (q' & [->|A] & B); [left; congruence|right; apply I; eauto].
Qed.
Lemma has_negative_one {V} (isneg : V -> bool) fuel guess near wn a me plo phi (m : heap V) cs ps :
  local_iterate fuel guess near wn a me = Some ps -> (length ps <= 1)%nat ->
  patch_cells fuel guess near wn a me plo phi = Some cs -> (forall q, In q cs -> hget m q <> None) ->
  exists b, has_negative isneg fuel guess near wn a me plo phi m = Some b /\
    (b = true <-> exists q v, In q cs /\ hget m q = Some v /\ isneg v = true).
Proof.
  intros EI HL EP HM. unfold patch_cells in EP. unfold has_negative. rewrite EI in *. destruct (mapM_hget m cs HM) as (vs & EV & IV).
  exists (existsb isneg vs). split.
  - destruct ps as [|p [|]]; cbn [length] in HL; try lia; cbn [mapM] in *.
    + inversion EP; subst. cbn in EV. inversion EV; subst. reflexivity.
    + destruct (piece_cells plo phi p) as [l|]; [|discriminate]. cbn [concat] in EP. inversion EP; subst. rewrite app_nil_r in *.
      now apply negative_one.
  - rewrite existsb_exists. split.
    + intros (v & Hv & E). apply IV in Hv as (q & A & B). eauto.
    + intros (q & v & A & B & E). exists v. split; [apply IV; eauto|exact E].
Qed.
Lemma in_box_or lo : forall hi x, in_box lo hi x \/ ~ in_box lo hi x.
Proof.
  induction lo as [|l lo IH]; intros [|h hi] [|y x]; cbn; try tauto.
  destruct (IH hi x) as [X|X]; [|right; tauto]. assert (D : l <= y <= h \/ ~ (l <= y <= h)) by lia. tauto.
Qed.
(** A map-distributed array has at most one block on a process. *)
Lemma regular_one guess near wn a me w ps fuel :
  good_guess guess -> wf_array a -> 0 <= me < ga_nproc a -> abs_rank a me = Some w -> near w = true -> (2 <= fuel)%nat ->
  local_iterate fuel guess near wn a me = Some ps -> (length ps <= 1)%nat.
Proof.
  intros HG WA Hme EW HN Hf. pose proof WA as (WR & HWl & _ & HGr & _). pose proof WR as (HT & _).
  destruct (regular_blocks_inside _ _ _ WR Hme) as (lo & hi & ED & HI).
  pose proof (dist_len _ _ _ _ HT ED) as HL.
  destruct fuel as [|[|f]]; try lia. unfold local_iterate, loc_init. rewrite HT. cbn [loc_drain].
  unfold loc_next at 1. rewrite HT, ED. cbn [fst snd Z.ltb Z.compare].
  destruct (le_all lo hi) eqn:LE; [|intros [= <-]; cbn; lia].
  pose proof (proj1 (le_all_true lo hi HL) LE) as Hle. pose proof (lo_in_box _ _ Hle) as Hlo.
  destruct (access_ptr_spec guess near a lo hi me lo hi w HG WA Hme ED Hlo) as (off & ld & EA & HP); auto.
  { clear - Hle. induction Hle; cbn; auto. split; [lia|auto]. }
  rewrite EA. unfold loc_next. rewrite HT. intros [= <-]. cbn; lia.
Qed.
