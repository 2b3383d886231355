(** Lemmas: GA_Dgemm, the pipelined algorithm. *)
From Verif Require Import LRadix LDist LStrided LStrided2 LIterReg LIterReg3 LIterSca LStore LXfer LXfer2 LLoc LAccess LSelect LSelect2 LOdo LGcopy2 LGcopy3 LGcopy4 LGcopy5 LCpatch LPw LPw2 SpecDiag.
From Verif Require Export LMat MDgemm.
Open Scope Z_scope.

Section Pipe.
Context {V : Type} (radd rmul : V -> V -> V) (zero : V) (conj : V -> V) (junk : V).
Variables (guess : Z -> Z -> Z -> Z) (wn : Z) (smp : Z -> bool) (rnda rndb rndc : Z -> Z -> Z).
Variables (oa ob : mop) (alpha : V) (a b c : garray) (pa pb pc : list Z -> place -> Prop) (sha shb shc : list Z -> Prop).
Variables (da1 da2 db1 db2 dc1 dc2 : Z) (ma mb : heap V) (A B : list Z -> V).
Variables (ailo aihi ajlo ajhi bilo bihi bjlo bjhi cilo cihi cjlo cjhi nproc me sa sb I J K : Z).
Hypothesis SR : semiring radd rmul zero.
Hypothesis HG : good_guess guess.
Hypothesis (RA : forall t k, 0 <= rnda t k) (RB : forall t k, 0 <= rndb t k) (RC : forall t k, 0 <= rndc t k).
Hypothesis (LA : any_layout a wn pa sha) (LB : any_layout b wn pb shb) (LC : any_layout c wn pc shc).
Hypothesis (SA : small_local a sha) (SB : small_local b shb) (SC : small_local c shc).
Hypothesis (DA : dims (ga_desc a) = [da1; da2]) (DB : dims (ga_desc b) = [db1; db2]) (DC : dims (ga_desc c) = [dc1; dc2]).
Hypothesis (AA : allocated pa ma) (AB : allocated pb mb) (HA : holds [da1; da2] pa ma A) (HB : holds [db1; db2] pb mb B).
Hypothesis (PA : op_patch oa [da1; da2] [ailo; ajlo] [aihi; ajhi]) (PB : op_patch ob [db1; db2] [bilo; bjlo] [bihi; bjhi])
  (PC : op_patch opN [dc1; dc2] [cilo; cjlo] [cihi; cjhi]).
Hypothesis (E1 : cihi - cilo = aihi - ailo) (E2 : ajhi - ajlo = bihi - bilo) (E3 : bjhi - bjlo = cjhi - cjlo).
Hypothesis (Ia : ga_elemsize a * (I * K) <= int_max) (Ib : ga_elemsize b * (K * J) <= int_max) (Ic : ga_elemsize c * (I * J) <= int_max).
Hypothesis (Sa : I * K <= sa) (Sb : K * J <= sb).
Let planeA := Plane [ailo; ajlo] [aihi; ajhi] [da1; da2] 0 1.
Let planeB := Plane [bilo; bjlo] [bihi; bjhi] [db1; db2] 0 1.
Let planeC := Plane [cilo; cjlo] [cihi; cjhi] [dc1; dc2] 0 1.
Let tok := task_ok radd rmul zero conj oa ob alpha pc A B ailo ajlo bilo bjlo cilo cjlo.
Let bok := @b_ok V conj ob B bilo bjlo.
Let ich := chunk_of (aihi - ailo + 1) I.
Let jch := chunk_of (bjhi - bjlo + 1) J.
Let kch := chunk_of (ajhi - ajlo + 1) K.

Definition a_ok (ic kc : Z * Z) (buf : buffer V) : Prop :=
  forall i l, 0 <= i < len ic -> 0 <= l < len kc ->
    exists v, buf (if is_n oa then i + l * len ic else l + i * len kc) = Some v /\ cj conj oa v = op_at conj oa A ailo ajlo (fst ic + i) (fst kc + l).
(** The chunk that waits. *)
Definition pend (s : pipe (V := V)) : list ((Z * Z) * (Z * Z) * (Z * Z)) :=
  match p_prev s with None => [] | Some t => [(t_j t, t_k t, t_i t)] end.
Definition pinv (s : pipe (V := V)) : Prop :=
  match p_prev s with
  | None => True
  | Some t => ich (t_i t) /\ jch (t_j t) /\ kch (t_k t) /\
      (exists ab, p_a s (negb (p_sa s)) = Some ab /\ a_ok (t_i t) (t_k t) ab) /\ t_adim t = (if is_n oa then len (t_i t) else len (t_k t)) /\
      (exists bb, p_b s (negb (p_sb s)) = Some bb /\ bok (t_k t) (t_j t) (Some (bb, t_bdim t))) /\ p_bdim s = t_bdim t /\
      (t_new t = false -> p_bp s = negb (p_sb s))
  end.
Let gpipe := pipe (V := V).
Let comp := fun fuel => compute radd rmul zero conj fuel guess wn smp rndc oa ob alpha c planeC.

Lemma product_ok ic jc kc ab bb bd no : ich ic -> jch jc -> kch kc -> a_ok ic kc ab -> bok kc jc (Some (bb, bd)) ->
  exists ot n, tok (jc, kc, ic) ot /\ forall fuel, (n <= fuel)%nat ->
    (do ts <- c_transfers fuel guess wn smp rndc c planeC no ic jc;
     Some (map (fun x => (gemm_buf radd rmul zero conj oa ob alpha (len ic) (len jc) (len kc) ab (if is_n oa then len ic else len kc) bb bd, x)) ts))
    = Some (op_events [ot]).
Proof.
  intros HI HJ HK Xa [-> Xb].
  destruct (c_region radd rmul conj guess wn smp rnda rndb rndc alpha c pc shc dc1 dc2 cilo cihi cjlo cjhi I J HG RA RB RC LC SC DC PC Ic no ic jc) as (ts & nc & Ec & Rc).
  { unfold ich, chunk_of in *. rewrite E1. tauto. } { unfold jch, chunk_of in *. rewrite <- E3. tauto. }
  set (cb := gemm_buf radd rmul zero conj oa ob alpha (len ic) (len jc) (len kc) ab (if is_n oa then len ic else len kc) bb (if is_n ob then len kc else len jc)).
  exists (RegionOp [cilo + fst ic; cjlo + fst jc] [cilo + snd ic; cjlo + snd jc]
      [cilo + snd ic - (cilo + fst ic) + 1; cjlo + snd jc - (cjlo + fst jc) + 1] cb, ts), nc. split.
  - unfold tok. cbn [task_ok fst snd o_lo o_hi o_ld o_buf]. split; [reflexivity|]. split; [reflexivity|]. split; [exact Rc|].
    intros i j Hi Hj. unfold buf_at.
    replace [cilo + i; cjlo + j] with [cilo + fst ic + (i - fst ic); cjlo + fst jc + (j - fst jc)] by (f_equal; [lia|f_equal; lia]).
    rewrite region_lin. replace (cilo + snd ic - (cilo + fst ic) + 1) with (len ic) by (unfold len; lia). unfold cb.
    rewrite (gemm_buf_ok radd rmul zero conj oa ob alpha ab bb (len ic) (len jc) (len kc)
      (fun i l => op_at conj oa A ailo ajlo (fst ic + i) (fst kc + l)) (fun l j => op_at conj ob B bilo bjlo (fst kc + l) (fst jc + j))); auto.
    + cbn [task_value]. replace (fst ic + (i - fst ic)) with i by lia. replace (fst jc + (j - fst jc)) with j by lia.
      destruct SR as (_ & _ & Z0 & _). now rewrite Z0.
    + unfold len. lia.
    + unfold len. lia.
  - intros fuel Hf. rewrite Ec by exact Hf. unfold op_events. cbn [flat_map fst snd o_buf]. rewrite app_nil_r. reflexivity.
Qed.

(** [s'] = the state in which the product is computed: the buffers in use by the
    waiting chunk are as before. *)
Lemma compute_ok (s s' : gpipe) : pinv s -> p_sa s' = p_sa s -> p_sb s' = p_sb s -> p_bp s' = p_bp s -> p_prev s' = p_prev s ->
  p_a s' (negb (p_sa s)) = p_a s (negb (p_sa s)) -> p_b s' (negb (p_sb s)) = p_b s (negb (p_sb s)) ->
  exists ots bp n, Forall2 tok (pend s) ots /\ (p_prev s <> None -> bp = negb (p_sb s)) /\
    forall fuel, (n <= fuel)%nat -> comp fuel s' = Some (bp, op_events ots).
Proof.
  unfold pinv, comp, compute, pend. intros HP Ea Eb Ep Et EA EB. rewrite Et. destruct (p_prev s) as [t|].
  - destruct HP as (H1 & H2 & H3 & (ab & Xa & Ha) & Had & (bb & Xb & Hb) & _ & HN).
    destruct (product_ok (t_i t) (t_j t) (t_k t) ab bb (t_bdim t) (t_no t) H1 H2 H3 Ha Hb) as (ot & n & T & E).
    exists [ot], (negb (p_sb s)), n. split; [constructor; [exact T|constructor]|]. split; [reflexivity|].
    intros fuel Hf. rewrite Ea, Eb, Ep.
    replace (if t_new t then negb (p_sb s) else p_bp s) with (negb (p_sb s)) by (destruct (t_new t); [reflexivity|symmetry; auto]).
    rewrite EA, EB, Xa, Xb, Had. specialize (E fuel Hf). destruct (c_transfers _ _ _ _ _ _ _ _ _ _); [|discriminate].
    injection E as E. rewrite E. reflexivity.
  - exists [], (p_bp s'), O. split; [constructor|]. split; [congruence|]. reflexivity.
Qed.

Lemma put_same {X} (f : bool -> X) s v : put_slot f s v s = v.
Proof. unfold put_slot. now rewrite Bool.eqb_reflx. Qed.
Lemma put_other {X} (f : bool -> X) s v : put_slot f s v (negb s) = f (negb s).
Proof. unfold put_slot. destruct s; reflexivity. Qed.

Lemma irreg_task_ok ic jc kc ijk newB s : ich ic -> jch jc -> kch kc -> pinv s ->
  (newB = false -> exists t, p_prev s = Some t /\ t_j t = jc /\ t_k t = kc) ->
  exists s' ots n, pinv s' /\ (exists t, p_prev s' = Some t /\ t_j t = jc /\ t_k t = kc) /\ pend s' = [(jc, kc, ic)] /\ Forall2 tok (pend s) ots /\
    forall fuel, (n <= fuel)%nat ->
      irreg_task radd rmul zero conj junk fuel guess wn smp rnda rndb rndc oa ob alpha a b c planeA planeB planeC ma mb sa sb ic jc kc ijk newB s = Some (s', op_events ots).
Proof.
  intros HI HJ HK HP HNB. pose proof HI as (H1 & H2 & H3). pose proof HJ as (H4 & H5 & H6). pose proof HK as (H7 & H8 & H9).
  destruct (fetch_ok conj junk guess wn smp a pa sha da1 da2 ma A HG LA SA DA AA HA (rnda ijk) oa ailo aihi ajlo ajhi sa ic kc) as (ab & na & Ea & Xa); auto; try lia.
  { eapply Z.le_trans; [|exact Sa]. apply mul_le2; unfold len in *; lia. }
  { eapply Z.le_trans; [|exact Ia]. apply Z.mul_le_mono_nonneg_l; [destruct SA; lia|]. apply mul_le2; unfold len in *; lia. }
  destruct newB.
  - destruct (fetch_ok conj junk guess wn smp b pb shb db1 db2 mb B HG LB SB DB AB HB (rndb ijk) ob bilo bihi bjlo bjhi sb kc jc) as (buf & nb & Eb & Xb); auto; try lia.
    { eapply Z.le_trans; [|exact Sb]. apply mul_le2; unfold len in *; lia. }
    { eapply Z.le_trans; [|exact Ib]. apply Z.mul_le_mono_nonneg_l; [destruct SB; lia|]. apply mul_le2; unfold len in *; lia. }
    set (bd := if is_n ob then len kc else len jc) in *.
    destruct (compute_ok s (Pipe (p_sa s) (p_sb s) (put_slot (p_a s) (p_sa s) (Some ab)) (put_slot (p_b s) (p_sb s) (Some buf)) bd (p_bp s) (p_prev s)) HP)
      as (ots & bp & n & F & _ & E); try reflexivity; [cbn; apply put_other|cbn; apply put_other|].
    eexists _, ots, (Nat.max na (Nat.max nb n)). split; [|split; [|split; [|split; [exact F|]]]].
    4:{ intros fuel Hf. unfold irreg_task. rewrite Ea by lia. cbn [fst snd]. rewrite Eb by lia. cbn [fst snd].
        unfold comp in E. rewrite E by lia. cbn [fst snd]. reflexivity. }
    + cbn [pinv p_prev t_i t_j t_k t_adim t_bdim t_new p_a p_b p_sa p_sb p_bdim p_bp]. split; [exact HI|]. split; [exact HJ|]. split; [exact HK|].
      rewrite !negb_involutive, !put_same. split; [exists ab; auto|]. split; [reflexivity|]. split; [exists buf; split; [reflexivity|split; [reflexivity|exact Xb]]|].
      split; [reflexivity|discriminate].
    + eexists. split; [reflexivity|auto].
    + reflexivity.
  - destruct (HNB eq_refl) as (t & Et & Ej & Ek).
    destruct (compute_ok s (Pipe (p_sa s) (p_sb s) (put_slot (p_a s) (p_sa s) (Some ab)) (p_b s) (p_bdim s) (p_bp s) (p_prev s)) HP)
      as (ots & bp & n & F & Hbp & E); try reflexivity; [cbn; apply put_other|].
    eexists _, ots, (Nat.max na n). split; [|split; [|split; [|split; [exact F|]]]].
    4:{ intros fuel Hf. unfold irreg_task. rewrite Ea by lia. cbn [fst snd]. unfold comp in E. rewrite E by lia. cbn [fst snd]. reflexivity. }
    + unfold pinv in HP. rewrite Et in HP. destruct HP as (_ & _ & _ & _ & _ & (bb & Xbb & Hbb) & Hbd & _). rewrite Ej, Ek in Hbb.
      cbn [pinv p_prev t_i t_j t_k t_adim t_bdim t_new p_a p_b p_sa p_sb p_bdim p_bp]. split; [exact HI|]. split; [exact HJ|]. split; [exact HK|].
      rewrite !negb_involutive, !put_same. split; [exists ab; auto|]. split; [reflexivity|]. split; [exists bb; split; [exact Xbb|]; rewrite Hbd; exact Hbb|].
      split; [reflexivity|]. intros _. apply Hbp. congruence.
    + eexists. split; [reflexivity|auto].
    + reflexivity.
Qed.

Lemma irreg_rows_ok jc kc : jch jc -> kch kc -> forall is ijk newB s, (forall ic, In ic is -> ich ic) -> pinv s ->
  (newB = false -> exists t, p_prev s = Some t /\ t_j t = jc /\ t_k t = kc) ->
  exists s' ots don n, pinv s' /\ don ++ pend s' = pend s ++ mine nproc me ijk (map (fun ic => (jc, kc, ic)) is) /\ Forall2 tok don ots /\
    forall fuel, (n <= fuel)%nat ->
      irreg_rows radd rmul zero conj junk fuel guess wn smp rnda rndb rndc oa ob alpha a b c planeA planeB planeC ma mb nproc me sa sb is jc kc ijk newB s = Some (s', op_events ots).
Proof.
  intros HJ HK. induction is as [|ic is IH]; intros ijk newB s HI HP HNB; cbn [irreg_rows map mine].
  { exists s, [], [], O. split; [exact HP|]. split; [now rewrite app_nil_r|]. split; [constructor|reflexivity]. }
  destruct (ijk mod nproc =? me).
  2:{ apply IH; auto. intros; apply HI; now right. }
  destruct (irreg_task_ok ic jc kc ijk newB s (HI _ (or_introl eq_refl)) HJ HK HP HNB) as (s1 & o1 & n1 & P1 & T1 & D1 & F1 & X1).
  destruct (IH (ijk + 1) false s1) as (s2 & o2 & d2 & n2 & P2 & D2 & F2 & X2); auto. { intros; apply HI; now right. }
  exists s2, (o1 ++ o2), (pend s ++ d2), (Nat.max n1 n2). split; [exact P2|]. split.
  { rewrite <- app_assoc, D2, D1. reflexivity. }
  split; [apply Forall2_app; auto|]. intros fuel Hf. rewrite X1 by lia. cbn [fst snd]. rewrite X2 by lia. cbn [fst snd]. rewrite op_events_app by auto. reflexivity.
Qed.
Lemma irreg_inner_ok is jc : (forall ic, In ic is -> ich ic) -> jch jc -> forall ks ijk s, (forall kc, In kc ks -> kch kc) -> pinv s ->
  exists s' ots don n, pinv s' /\ don ++ pend s' = pend s ++ mine nproc me ijk (flat_map (fun kc => map (fun ic => (jc, kc, ic)) is) ks) /\ Forall2 tok don ots /\
    forall fuel, (n <= fuel)%nat ->
      irreg_inner radd rmul zero conj junk fuel guess wn smp rnda rndb rndc oa ob alpha a b c planeA planeB planeC ma mb nproc me sa sb is ks jc ijk s = Some (s', op_events ots).
Proof.
  intros HI HJ. induction ks as [|kc ks IH]; intros ijk s HK HP; cbn [irreg_inner flat_map].
  { exists s, [], [], O. split; [exact HP|]. split; [cbn [mine]; now rewrite app_nil_r|]. split; [constructor|reflexivity]. }
  destruct (irreg_rows_ok jc kc HJ (HK _ (or_introl eq_refl)) is ijk true s HI HP ltac:(discriminate)) as (s1 & o1 & d1 & n1 & P1 & D1 & F1 & X1).
  destruct (IH (ijk + Z.of_nat (length is)) s1) as (s2 & o2 & d2 & n2 & P2 & D2 & F2 & X2); auto. { intros; apply HK; now right. }
  exists s2, (o1 ++ o2), (d1 ++ d2), (Nat.max n1 n2). split; [exact P2|]. split.
  { rewrite mine_app, map_length, <- app_assoc, D2, !app_assoc, D1. reflexivity. }
  split; [apply Forall2_app; auto|]. intros fuel Hf. rewrite X1 by lia. cbn [fst snd]. rewrite X2 by lia. cbn [fst snd]. rewrite op_events_app by auto. reflexivity.
Qed.
Lemma irreg_cols_ok is ks : (forall ic, In ic is -> ich ic) -> (forall kc, In kc ks -> kch kc) -> forall js ijk s, (forall jc, In jc js -> jch jc) -> pinv s ->
  exists s' ots don n, pinv s' /\ don ++ pend s' = pend s ++ mine nproc me ijk (tasks is ks js) /\ Forall2 tok don ots /\
    forall fuel, (n <= fuel)%nat ->
      irreg_cols radd rmul zero conj junk fuel guess wn smp rnda rndb rndc oa ob alpha a b c planeA planeB planeC ma mb nproc me sa sb is ks js ijk s = Some (s', op_events ots).
Proof.
  intros HI HK. induction js as [|jc js IH]; intros ijk s HJ HP; cbn [irreg_cols tasks flat_map].
  { exists s, [], [], O. split; [exact HP|]. split; [cbn [mine]; now rewrite app_nil_r|]. split; [constructor|reflexivity]. }
  destruct (irreg_inner_ok is jc HI (HJ _ (or_introl eq_refl)) ks ijk s HK HP) as (s1 & o1 & d1 & n1 & P1 & D1 & F1 & X1).
  destruct (IH (ijk + Z.of_nat (length is * length ks)) s1) as (s2 & o2 & d2 & n2 & P2 & D2 & F2 & X2); auto. { intros; apply HJ; now right. }
  exists s2, (o1 ++ o2), (d1 ++ d2), (Nat.max n1 n2). split; [exact P2|]. split.
  { rewrite mine_app. replace (length (flat_map (fun kc => map (fun ic => (jc, kc, ic)) is) ks)) with (length is * length ks)%nat.
    - fold (tasks is ks js). rewrite <- app_assoc, D2, !app_assoc, D1. reflexivity.
    - clear. induction ks as [|k ks IH]; [cbn; lia|]. cbn [flat_map length]. rewrite app_length, map_length, <- IH, Nat.mul_succ_r. lia. }
  split; [apply Forall2_app; auto|]. intros fuel Hf. rewrite X1 by lia. cbn [fst snd]. rewrite X2 by lia. cbn [fst snd]. rewrite op_events_app by auto. reflexivity.
Qed.
(** The pipeline computes the same tasks as the plain loops. *)
Lemma irreg_loop_ok is ks js : (forall ic, In ic is -> ich ic) -> (forall kc, In kc ks -> kch kc) -> (forall jc, In jc js -> jch jc) ->
  exists ots n, Forall2 tok (mine nproc me 0 (tasks is ks js)) ots /\ forall fuel, (n <= fuel)%nat ->
    irreg_loop radd rmul zero conj junk fuel guess wn smp rnda rndb rndc oa ob alpha a b c planeA planeB planeC ma mb nproc me sa sb is ks js = Some (op_events ots).
Proof.
  intros HI HK HJ. destruct (irreg_cols_ok is ks HI HK js 0 pipe0 HJ Logic.I) as (s1 & o1 & d1 & n1 & P1 & D1 & F1 & X1).
  destruct (compute_ok s1 s1 P1) as (o2 & bp & n2 & F2 & _ & X2); auto.
  exists (o1 ++ o2), (Nat.max n1 n2). split.
  - cbn [pend pipe0 p_prev app] in D1. rewrite <- D1. apply Forall2_app; auto.
  - intros fuel Hf. unfold irreg_loop. rewrite X1 by lia. cbn [fst snd]. unfold comp in X2. rewrite X2 by lia. cbn [fst snd]. rewrite op_events_app by auto. reflexivity.
Qed.
End Pipe.
