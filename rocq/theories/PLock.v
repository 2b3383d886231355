(** Mutexes: C40 and C41. *)
From Verif Require Import SpecLock LNb LLock.

Definition accepted (k : lcfg) : Prop := 1 <= l_n k /\ create_accepts (l_num k) = true.
Lemma accepted_pos k : accepted k -> 1 <= l_n k /\ 1 <= l_num k.
Proof. unfold accepted, create_accepts; intros [H E]; split; auto. destruct (Z.leb_spec (l_num k) 0); cbn in E; [discriminate|lia]. Qed.

Lemma runs_linv k es s : accepted k -> l_n k <> 1 -> lruns k lstart es s -> linv k s.
Proof. intros A N R; apply accepted_pos in A; apply (runs_inv k lstart es s); try tauto. apply linv_start. Qed.

Lemma held_owner k s p x : linv k s -> In x (held (procs s p)) -> owner s (lslot k x) = Some p.
Proof.
  intros I H. pose proof (iv_ph _ _ I p (lslot k x)) as P.
  assert (L : (1 <= holds_slot k s (lslot k x) p)%nat).
  { unfold holds_slot. assert (F : In x (filter (fun y => slot_eqb (lslot k y) (lslot k x)) (held (procs s p)))).
    { apply filter_In; split; auto; apply slot_eqb_refl. }
    destruct (filter _ _); [contradiction|cbn; lia]. }
  assert (O : is_owner s (lslot k x) p = true) by (inversion P; subst; auto; lia).
  unfold is_owner in O; destruct (owner s (lslot k x)) as [r|]; [|discriminate]. apply Z.eqb_eq in O; congruence.
Qed.

(** C40: in every execution, two processes never hold the same mutex. *)
Theorem C40_mutual_exclusion : forall k es s p p' x,
  accepted k -> lruns k lstart es s -> 0 <= p < l_n k -> 0 <= p' < l_n k ->
  In x (held (procs s p)) -> In x (held (procs s p')) -> p = p'.
Proof.
  intros k es s p p' x A R HP HP' H H'. destruct (Z.eq_dec (l_n k) 1) as [E|N]; [lia|].
  pose proof (runs_linv k es s A N R) as I.
  pose proof (held_owner k s p x I H) as O; pose proof (held_owner k s p' x I H') as O'. congruence.
Qed.

(** No mutex is granted to a process that holds it already. *)
Theorem C40_not_twice : forall k es s p x,
  accepted k -> l_n k <> 1 -> lruns k lstart es s -> (count_occ Z.eq_dec (held (procs s p)) x <= 1)%nat.
Proof.
  intros k es s p x A N R. pose proof (runs_linv k es s A N R) as I.
  pose proof (iv_ph _ _ I p (lslot k x)) as P.
  assert (L : (holds_slot k s (lslot k x) p <= 1)%nat) by (inversion P; subst; lia).
  assert (C : (count_occ Z.eq_dec (held (procs s p)) x <= holds_slot k s (lslot k x) p)%nat).
  { unfold holds_slot; generalize (held (procs s p)); induction l as [|y l IH]; [auto|]. cbn [count_occ filter].
    destruct (Z.eq_dec y x) as [->|]; [rewrite slot_eqb_refl; cbn [length]; lia|]. destruct (slot_eqb _ _); cbn [length]; lia. }
  lia.
Qed.

(** Correct use never fails: no error, no assertion fails in ComEx, no access
    outside the arrays of the servers. *)
Theorem C40_no_failure : forall k es s e,
  accepted k -> lruns k lstart es s -> proper k s e -> exists s1, lstep k s e = Done s1.
Proof.
  intros k es s e A R P. destruct (Z.eq_dec (l_n k) 1) as [E|N].
  - assert (I : (forall p q, chan s p q = []) /\ (forall p, acks s p = []) /\ (forall p, waits (procs s p) = None)).
    { clear P. assert (G : forall s0 s, (forall p q, chan s0 p q = []) /\ (forall p, acks s0 p = []) /\ (forall p, waits (procs s0 p) = None) ->
        lruns k s0 es s -> (forall p q, chan s p q = []) /\ (forall p, acks s p = []) /\ (forall p, waits (procs s p) = None)).
      { clear - E. intros s0 s H R; induction R as [|s0 e s1 es s2 P ST R IH]; auto. apply IH.
        destruct H as (C & B & W). eapply solo_inv; eauto. }
      apply (G lstart s); auto. }
    destruct I as (C & B & W). destruct e as [p x|p x|p|q p]; cbn [lstep].
    + unfold ga_lock; rewrite E; cbn [Z.eqb Pos.eqb]; eauto.
    + unfold ga_unlock; rewrite E; cbn [Z.eqb Pos.eqb]; eauto.
    + unfold lock_returns; rewrite B; eauto.
    + unfold lserve; rewrite C; eauto.
  - apply step_done; auto. apply (runs_linv k es s); auto.
Qed.

(** No request is forgotten: when a process is waiting and nothing is on the way,
    some process has the mutex it waits for, or one that ComEx takes for it. *)
Theorem C40_no_lost_request : forall k es s p x,
  accepted k -> lruns k lstart es s -> quiet k s -> waits (procs s p) = Some x ->
  exists r y, In y (held (procs s r)) /\ lslot k y = lslot k x.
Proof.
  intros k es s p x A R [QC QA] W. destruct (Z.eq_dec (l_n k) 1) as [E|N].
  - exfalso. assert (G : forall s0, (forall p q, chan s0 p q = []) /\ (forall p, acks s0 p = []) /\ (forall p, waits (procs s0 p) = None) ->
        lruns k s0 es s -> (forall p q, chan s p q = []) /\ (forall p, acks s p = []) /\ (forall p, waits (procs s p) = None)).
      { clear - E. intros s0 H R; induction R as [|s0 e s1 es s2 P ST R IH]; auto. apply IH.
        destruct H as (C & B & W). eapply solo_inv; eauto. }
    destruct (G lstart ltac:(cbn; auto) R) as (_ & _ & G'). rewrite G' in W; discriminate.
  - pose proof (runs_linv k es s A N R) as I.
    pose proof (iv_ph _ _ I p (lslot k x)) as P.
    assert (WT : wants k s (lslot k x) p = true) by (unfold wants; rewrite W; apply slot_eqb_refl).
    assert (MS : forall r, msgs k s (lslot k x) r = []) by (intros r; unfold msgs; now rewrite QC).
    assert (AN : forall r, answered k s (lslot k x) r = false) by (intros r; unfold answered; now rewrite QA).
    rewrite WT, MS, AN in P.
    assert (QU : queued s (lslot k x) p = true) by (inversion P; subst; auto).
    destruct (owner s (lslot k x)) as [r|] eqn:O.
    + pose proof (iv_ph _ _ I r (lslot k x)) as P'. rewrite MS, AN in P'.
      unfold is_owner in P'; rewrite O, Z.eqb_refl in P'.
      assert (L : holds_slot k s (lslot k x) r = 1%nat) by (inversion P'; subst; auto).
      unfold holds_slot in L. destruct (filter _ _) as [|y l] eqn:F; [discriminate|].
      assert (IN : In y (filter (fun x0 => slot_eqb (lslot k x0) (lslot k x)) (held (procs s r)))) by (rewrite F; left; auto).
      apply filter_In in IN; destruct IN as [IN E]. apply slot_eqb_spec in E. eauto.
    + unfold queued in QU; rewrite (iv_free _ _ I _ O) in QU; discriminate.
Qed.

(** Three processes, two mutexes, one server for all: process 1 gets mutex 0,
    process 2 waits for it and gets it when 1 unlocks. *)
Example C40_hypotheses : accepted (LCfg 3 2 (fun _ => 0)) /\ exists s,
  lruns (LCfg 3 2 (fun _ => 0)) lstart
    [ELock 1 0; ELock 2 0; EServe 0 1; EReturn 1; EServe 0 2; EUnlock 1 0; EServe 0 1; EReturn 2] s /\
  held (procs s 2) = [0] /\ held (procs s 1) = [].
Proof.
  split; [split; cbn; [lia|auto]|].
  eexists; split; [|split].
  - do 8 (eapply LR_cons; [cbn; repeat split; (lia || auto)|cbn; reflexivity|]). apply LR_nil.
  - cbn; auto.
  - cbn; auto.
Qed.

(** C41: with one process, lock returns at once.  Missing: more than one process. *)
Theorem C41_other_mutex_partial : forall k s p x y,
  accepted k -> l_n k = 1 -> In x (held (procs s p)) ->
  exists s1, lstep k s (ELock p y) = Done s1 /\ waits (procs s1 p) = None /\ held (procs s1 p) = y :: held (procs s p).
Proof.
  intros k s p x y A N H; cbn [lstep]; unfold ga_lock; rewrite N; eexists; split; [reflexivity|].
  cbn [procs]; rewrite fset_same; auto.
Qed.

Lemma stuck_step k s e s1 p x y : linv k s -> proper k s e -> l_n k <> 1 -> lstep k s e = Done s1 ->
  In x (held (procs s p)) -> waits (procs s p) = Some y -> In x (held (procs s1 p)) /\ waits (procs s1 p) = Some y.
Proof.
  intros I P N E H W. destruct e as [r a|r a|r|q r]; cbn [lstep proper] in *.
  - assert (NR : p <> r) by (intros <-; destruct P as (_ & _ & P); congruence).
    unfold ga_lock in E. destruct (l_n k =? 1) eqn:E1; [lia|]. destruct (l_num k <? a); [discriminate|]. injection E as <-; cbn [procs].
    rewrite fset_other by auto; auto.
  - assert (NR : p <> r) by (intros <-; destruct P as (_ & _ & P & _); congruence).
    unfold ga_unlock in E; cbv zeta in E. destruct (l_n k =? 1) eqn:E1; [lia|]. destruct (l_num k <? a); [discriminate|]. injection E as <-; cbn [procs].
    rewrite fset_other by auto; auto.
  - unfold lock_returns in E. destruct (acks s r) as [|b l] eqn:EA; [injection E as <-; auto|].
    destruct (waits (procs s r)) as [v|] eqn:EW; [|injection E as <-; auto].
    destruct (b =? snd (lslot k v)); [|discriminate]. injection E as <-; cbn [procs].
    destruct (Z.eq_dec p r) as [<-|NR]; [exfalso|rewrite fset_other by auto; auto].
    rewrite W in EW; injection EW as <-.
    pose proof (iv_ph _ _ I p (lslot k y)) as PH.
    assert (WT : wants k s (lslot k y) p = true) by (unfold wants; rewrite W; apply slot_eqb_refl).
    assert (AN : answered k s (lslot k y) p = true) by (unfold answered; now rewrite EA).
    rewrite AN in PH.
    assert (L : holds_slot k s (lslot k y) p = O) by (inversion PH; subst; auto).
    unfold holds_slot in L. assert (F : In x (filter (fun x0 => slot_eqb (lslot k x0) (lslot k y)) (held (procs s p)))).
    { apply filter_In; split; auto. change (lslot k x) with (lslot k y). apply slot_eqb_refl. }
    destruct (filter _ _); [contradiction|discriminate].
  - assert (G : procs s1 = procs s).
    { unfold lserve in E. destruct (chan s r q) as [|[b z] l]; [injection E as <-; auto|].
      destruct (snd z <? 0); [discriminate|]. destruct (share k (fst z) <=? snd z); [discriminate|].
      destruct b; [destruct (owner s z)|destruct (queue s z)]; injection E as <-; auto. }
    rewrite G; auto.
Qed.
Lemma stuck_runs k s es s1 p x y : accepted k -> l_n k <> 1 -> linv k s -> lruns k s es s1 ->
  In x (held (procs s p)) -> waits (procs s p) = Some y -> In x (held (procs s1 p)) /\ waits (procs s1 p) = Some y.
Proof.
  intros A N I R H W. induction R as [|s e s1 es s2 P ST R IH]; auto.
  destruct (stuck_step k s e s1 p x y I P N ST H W). apply IH; auto.
  apply accepted_pos in A. eapply step_inv; eauto; tauto.
Qed.

(** C41 is false with more than one process, whatever the numbers of processes
    and mutexes: once a process holds a mutex, a call to lock any other one never
    returns, although nobody holds it and whatever happens next. *)
Theorem C41_other_mutex_refuted : forall k x y p,
  accepted k -> 2 <= l_n k -> 0 <= x < l_num k -> 0 <= y < l_num k -> x <> y -> 0 <= p < l_n k ->
  exists es s, lruns k lstart es s /\ held (procs s p) = [x] /\ (forall p', p' <> p -> held (procs s p') = []) /\ quiet k s /\
    proper k s (ELock p y) /\
    forall s1 es' s2, lstep k s (ELock p y) = Done s1 -> lruns k s1 es' s2 ->
      waits (procs s2 p) = Some y /\ In x (held (procs s2 p)).
Proof.
  intros k x y p A N HX HY NE HP. destruct (accepted_pos k A) as [A1 A2].
  set (z := lslot k x). set (q := l_master k (fst z)).
  pose proof (lslot_ok k x A1 A2) as [_ SL].
  set (s1 := LState (fset (procs lstart) p (LProc [] (Some x))) (lsend k lstart p true z) (owner lstart) (queue lstart) (acks lstart)).
  set (s2 := LState (procs s1) (cset (chan s1) p q []) (pset (owner s1) z (Some p)) (queue s1) (fset (acks s1) p (acks s1 p ++ [snd z]))).
  set (s3 := LState (fset (procs s2) p (LProc [x] None)) (chan s2) (owner s2) (queue s2) (fset (acks s2) p [])).
  assert (R : lruns k lstart [ELock p x; EServe q p; EReturn p] s3).
  { apply LR_cons with s1; [cbn; auto| |apply LR_cons with s2; [exact Logic.I| |apply LR_cons with s3; [exact Logic.I| |apply LR_nil]]].
    - cbn [lstep]; unfold ga_lock. destruct (Z.eqb_spec (l_n k) 1); [lia|]. destruct (Z.ltb_spec (l_num k) x); [lia|reflexivity].
    - cbn [lstep]; unfold lserve.
      assert (C : chan s1 p q = [(true, z)]) by (unfold s1, lsend; cbn [chan]; unfold q; now rewrite cset_same).
      rewrite C. fold z in SL. destruct (Z.ltb_spec (snd z) 0); [lia|]. destruct (Z.leb_spec (share k (fst z)) (snd z)); [lia|].
      reflexivity.
    - cbn [lstep]; unfold lock_returns.
      assert (C : acks s2 p = [snd z]) by (unfold s2; cbn [acks]; rewrite fset_same; reflexivity).
      assert (W : procs s2 p = LProc [] (Some x)) by (unfold s2, s1; cbn [procs]; now rewrite fset_same).
      rewrite C, W; cbn [waits held]. fold z. rewrite Z.eqb_refl. reflexivity. }
  assert (I := runs_linv k _ s3 A ltac:(lia) R).
  exists [ELock p x; EServe q p; EReturn p], s3.
  split; [exact R|]. split; [unfold s3; cbn [procs]; rewrite fset_same; auto|].
  split; [|split; [|split]].
  - intros p' NP; unfold s3, s2, s1; cbn [procs]. rewrite !fset_other by auto; reflexivity.
  - split.
    + intros p' q'; unfold s3, s2, s1, lsend; cbn [chan]. unfold cset. fold q. destruct ((p' =? p) && (q' =? q)); auto.
    + intros p'; unfold s3; cbn [acks]. unfold fset at 1; destruct (Z.eqb_spec p' p); auto. unfold s2; cbn [acks]. rewrite fset_other by auto; reflexivity.
  - cbn [proper]; repeat split; try tauto. unfold s3; cbn [procs]; rewrite fset_same; auto.
  - intros s4 es' s5 E R'. assert (P : proper k s3 (ELock p y)) by (cbn [proper]; repeat split; try tauto; unfold s3; cbn [procs]; rewrite fset_same; auto).
    assert (I4 : linv k s4) by (eapply step_inv; eauto; lia).
    assert (G : In x (held (procs s4 p)) /\ waits (procs s4 p) = Some y).
    { cbn [lstep] in E. unfold ga_lock in E. destruct (Z.eqb_spec (l_n k) 1); [lia|]. destruct (Z.ltb_spec (l_num k) y); [lia|].
      injection E as <-; cbn [procs]. rewrite fset_same; cbn [held waits]. split; auto. unfold s3; cbn [procs]; rewrite fset_same; left; auto. }
    destruct G as [G1 G2]. destruct (stuck_runs k s4 es' s5 p x y A ltac:(lia) I4 R' G1 G2); auto.
Qed.
Example C41_hypotheses : accepted (LCfg 4 2 (fun p => p / 2)) /\ 2 <= l_n (LCfg 4 2 (fun p => p / 2)).
Proof. split; [split|]; cbn; (lia || auto). Qed.

Print Assumptions C40_mutual_exclusion.
Print Assumptions C40_not_twice.
Print Assumptions C40_no_failure.
Print Assumptions C40_no_lost_request.
Print Assumptions C41_other_mutex_partial.
Print Assumptions C41_other_mutex_refuted.
