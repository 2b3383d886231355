(** Lemmas on the lock servers. *)
From Verif Require Import SpecLock LNb.

Lemma slot_eqb_spec a b : slot_eqb a b = true <-> a = b.
Proof.
  unfold slot_eqb; destruct a as [a1 a2], b as [b1 b2]; cbn [fst snd]; rewrite andb_true_iff, !Z.eqb_eq.
  split; [intros []; congruence|intros E; injection E; auto].
Qed.
Lemma slot_eqb_refl a : slot_eqb a a = true.
Proof. now apply slot_eqb_spec. Qed.
Lemma slot_eqb_neq a b : a <> b -> slot_eqb a b = false.
Proof. intros N; destruct (slot_eqb a b) eqn:E; auto; apply slot_eqb_spec in E; contradiction. Qed.
Lemma slot_dec (a b : Z * Z) : {a = b} + {a <> b}.
Proof. destruct (slot_eqb a b) eqn:E; [left; now apply slot_eqb_spec|right; intros ->; rewrite slot_eqb_refl in E; discriminate]. Qed.
Lemma pset_same {A} (f : Z * Z -> A) z a : pset f z a z = a.
Proof. unfold pset; now rewrite slot_eqb_refl. Qed.
Lemma pset_other {A} (f : Z * Z -> A) z a z' : z' <> z -> pset f z a z' = f z'.
Proof. intros N; unfold pset; now rewrite slot_eqb_neq. Qed.
Lemma cset_same f p q l : cset f p q l p q = l.
Proof. unfold cset; now rewrite !Z.eqb_refl. Qed.
Lemma cset_other f p q l p' q' : p' <> p \/ q' <> q -> cset f p q l p' q' = f p' q'.
Proof.
  intros N; unfold cset; destruct (Z.eqb_spec p' p); destruct (Z.eqb_spec q' q); cbn [andb]; auto; lia.
Qed.

(** Where the one ARMCI mutex that is used lives. *)
Lemma lslot_ok k x : 1 <= l_n k -> 1 <= l_num k ->
  0 <= fst (lslot k x) < l_n k /\ 0 <= snd (lslot k x) < share k (fst (lslot k x)).
Proof.
  intros Hn Hm; unfold lslot, share; cbn [fst snd].
  assert (HC : chunk_mutex k = (l_num k + l_n k - 1) / l_n k) by (unfold chunk_mutex; apply Z.quot_div_nonneg; lia).
  set (c := chunk_mutex k) in *.
  assert (C1 : l_num k <= c * l_n k /\ (c - 1) * l_n k < l_num k).
  { rewrite HC; pose proof (Z.div_mod (l_num k + l_n k - 1) (l_n k)); pose proof (Z.mod_pos_bound (l_num k + l_n k - 1) (l_n k)).
    clear - H H0 Hn Hm; generalize dependent ((l_num k + l_n k - 1) / l_n k);
      generalize dependent ((l_num k + l_n k - 1) mod l_n k); intros; nia. }
  clearbody c; clear HC.
  assert (C2 : 1 <= c <= l_num k) by nia.
  rewrite Z.quot_div_nonneg, Z.rem_mod_nonneg by lia.
  pose proof (Z.div_mod (l_num k) c ltac:(lia)) as D; pose proof (Z.mod_pos_bound (l_num k) c ltac:(lia)) as B.
  generalize dependent (l_num k / c); generalize dependent (l_num k mod c); intros r B q D.
  assert (1 <= q) by nia. assert (q <= l_n k) by nia.
  destruct (Z.leb_spec (l_num k) ((q - 1) * c)); [nia|]; lia.
Qed.

(** What a process and a server know of each other about one ARMCI mutex: is the
    process its owner for the server; how often the process holds it; is an
    answer on the way; messages on the way; is the process waiting for it; is it
    in the queue. *)
Inductive phase : bool -> nat -> bool -> list bool -> bool -> bool -> Prop :=
| P_idle : phase false O false [] false false
| P_asked : phase false O false [true] true false
| P_queued : phase false O false [] true true
| P_granted : phase true O true [] true false
| P_holds : phase true 1%nat false [] false false
| P_again : phase true 1%nat false [true] true false
| P_stuck : phase true 1%nat false [] true true
| P_left : phase true O false [false] false false
| P_back : phase true O false [false; true] true false.

Definition is_owner (s : lstate) (z : Z * Z) (p : Z) : bool := match owner s z with Some p' => p' =? p | None => false end.
Definition holds_slot (k : lcfg) (s : lstate) (z : Z * Z) (p : Z) : nat :=
  length (filter (fun x => slot_eqb (lslot k x) z) (held (procs s p))).
Definition wants (k : lcfg) (s : lstate) (z : Z * Z) (p : Z) : bool :=
  match waits (procs s p) with Some x => slot_eqb (lslot k x) z | None => false end.
Definition answered (k : lcfg) (s : lstate) (z : Z * Z) (p : Z) : bool :=
  match acks s p with [] => false | _ => wants k s z p end.
Definition msgs (k : lcfg) (s : lstate) (z : Z * Z) (p : Z) : list bool :=
  map fst (filter (fun m => slot_eqb (snd m) z) (chan s p (l_master k (fst z)))).
Definition queued (s : lstate) (z : Z * Z) (p : Z) : bool := existsb (Z.eqb p) (queue s z).

Record linv (k : lcfg) (s : lstate) : Prop := {
  iv_ph : forall p z, phase (is_owner s z p) (holds_slot k s z p) (answered k s z p) (msgs k s z p) (wants k s z p) (queued s z p);
  iv_nd : forall z, NoDup (queue s z);
  iv_free : forall z, owner s z = None -> queue s z = [];
  iv_ack : forall p, acks s p = [] \/ exists x, waits (procs s p) = Some x /\ acks s p = [snd (lslot k x)];
  iv_chan : forall p q b z, In (b, z) (chan s p q) -> q = l_master k (fst z) /\ 0 <= snd z < share k (fst z)
}.

Lemma linv_start k : linv k lstart.
Proof.
  constructor; cbn; intros; try constructor; auto; contradiction.
Qed.

Lemma in_existsb (p : Z) l : existsb (Z.eqb p) l = true <-> In p l.
Proof.
  rewrite existsb_exists; split; [intros (x & I & E); apply Z.eqb_eq in E; now subst|intros I; exists p; split; auto; apply Z.eqb_refl].
Qed.
Lemma nin_existsb (p : Z) l : existsb (Z.eqb p) l = false <-> ~ In p l.
Proof. rewrite <- in_existsb; destruct (existsb (Z.eqb p) l); split; congruence. Qed.
Lemma msgs_app z c b z0 :
  map fst (filter (fun m : bool * (Z * Z) => slot_eqb (snd m) z) (c ++ [(b, z0)])) =
  map fst (filter (fun m : bool * (Z * Z) => slot_eqb (snd m) z) c) ++ (if slot_eqb z0 z then [b] else []).
Proof. rewrite filter_app, map_app; f_equal; cbn; destruct (slot_eqb z0 z); auto. Qed.

(** Sending a message. *)
Lemma msgs_send k s p b z0 pr z p' :
  msgs k (LState pr (lsend k s p b z0) (owner s) (queue s) (acks s)) z p' =
  msgs k s z p' ++ (if (p' =? p) && slot_eqb z0 z then [b] else []).
Proof.
  unfold msgs, lsend; cbn [chan].
  destruct (Z.eqb_spec p' p) as [->|N]; cbn [andb].
  - destruct (Z.eq_dec (l_master k (fst z)) (l_master k (fst z0))) as [E|N].
    + rewrite E, cset_same, msgs_app by auto; auto.
    + rewrite cset_other by auto.
      destruct (slot_eqb z0 z) eqn:E; [apply slot_eqb_spec in E; subst; contradiction|now rewrite app_nil_r].
  - rewrite cset_other by auto. now rewrite app_nil_r.
Qed.
Lemma chan_send k s p b z0 p' q b' z : In (b', z) (lsend k s p b z0 p' q) ->
  In (b', z) (chan s p' q) \/ (z = z0 /\ q = l_master k (fst z0)).
Proof.
  unfold lsend, cset. destruct (Z.eqb_spec p' p); destruct (Z.eqb_spec q (l_master k (fst z0))); cbn [andb]; auto.
  subst; rewrite in_app_iff; intros [I|[E|[]]]; auto. injection E; intros; subst; auto.
Qed.

Lemma lock_inv k s p x s1 : 1 <= l_n k -> 1 <= l_num k -> l_n k <> 1 -> linv k s ->
  waits (procs s p) = None -> ga_lock k s p x = Done s1 -> linv k s1.
Proof.
  intros Hn Hm N1 I W E. unfold ga_lock in E.
  destruct (Z.eqb_spec (l_n k) 1); [contradiction|]. destruct (l_num k <? x) eqn:X; [discriminate|].
  injection E as <-. destruct I as [PH ND FR AK CH].
  assert (A : acks s p = []) by (destruct (AK p) as [A|(y & Y & _)]; [auto|congruence]).
  constructor; cbn [procs chan owner queue acks]; auto.
  - intros p' z; pose proof (PH p' z) as H.
    rewrite msgs_send.
    unfold is_owner, holds_slot, answered, wants, queued in *; cbn [procs chan owner queue acks] in *.
    destruct (Z.eqb_spec p' p) as [->|NP].
    + rewrite fset_same; cbn [held waits]. rewrite A in *. rewrite W in H.
      destruct (slot_eqb (lslot k x) z) eqn:SE; cbn [andb].
      * inversion H; subst; cbn [app]; constructor.
      * now rewrite app_nil_r.
    + rewrite fset_other by auto. cbn [andb]. now rewrite app_nil_r.
  - intros p'; destruct (Z.eq_dec p' p) as [->|NP]; [left; auto|]. rewrite fset_other by auto; auto.
  - intros p' q b z H; apply chan_send in H; destruct H as [H|[-> ->]]; [eauto|].
    split; [auto|]. apply (lslot_ok k x); lia.
Qed.

Lemma remove_one_slot k z x l : In x l -> lslot k x = z ->
  length (filter (fun y => slot_eqb (lslot k y) z) l) = S (length (filter (fun y => slot_eqb (lslot k y) z) (remove_one x l))).
Proof.
  intros I E; induction l as [|y l IH]; [contradiction|]. cbn [remove_one filter].
  destruct (Z.eqb_spec y x) as [->|N].
  - rewrite E, slot_eqb_refl; auto.
  - destruct I as [->|I]; [contradiction|]. cbn [filter]. destruct (slot_eqb (lslot k y) z); cbn [length]; now rewrite IH.
Qed.
Lemma remove_one_other k z x l : lslot k x <> z ->
  filter (fun y => slot_eqb (lslot k y) z) (remove_one x l) = filter (fun y => slot_eqb (lslot k y) z) l.
Proof.
  intros N; induction l as [|y l IH]; [auto|]. cbn [remove_one filter].
  destruct (Z.eqb_spec y x) as [->|NY].
  - now rewrite (slot_eqb_neq _ _ N).
  - cbn [filter]; destruct (slot_eqb (lslot k y) z); now rewrite IH.
Qed.

Lemma unlock_inv k s p x s1 : 1 <= l_n k -> 1 <= l_num k -> l_n k <> 1 -> linv k s ->
  waits (procs s p) = None -> In x (held (procs s p)) -> ga_unlock k s p x = Done s1 -> linv k s1.
Proof.
  intros Hn Hm N1 I W HX E. unfold ga_unlock in E.
  destruct (Z.eqb_spec (l_n k) 1); [contradiction|]. destruct (l_num k <? x) eqn:X; [discriminate|].
  injection E as <-. destruct I as [PH ND FR AK CH].
  assert (A : acks s p = []) by (destruct (AK p) as [A|(y & Y & _)]; [auto|congruence]).
  constructor; cbn [procs chan owner queue acks]; auto.
  - intros p' z; pose proof (PH p' z) as H.
    rewrite msgs_send.
    unfold is_owner, holds_slot, answered, wants, queued in *; cbn [procs chan owner queue acks] in *.
    destruct (Z.eqb_spec p' p) as [->|NP].
    + rewrite fset_same; cbn [held waits]. rewrite A in *. rewrite W in *.
      destruct (slot_eqb (lslot k x) z) eqn:SE; cbn [andb].
      * apply slot_eqb_spec in SE. rewrite (remove_one_slot k z x _ HX SE) in H.
        inversion H; subst; cbn [app]; constructor.
      * rewrite remove_one_other by (intros E; rewrite E, slot_eqb_refl in SE; discriminate). now rewrite app_nil_r.
    + rewrite fset_other by auto. cbn [andb]. now rewrite app_nil_r.
  - intros p'; destruct (Z.eq_dec p' p) as [->|NP]; [left; auto|]. rewrite fset_other by auto; auto.
  - intros p' q b z H; apply chan_send in H; destruct H as [H|[-> ->]]; [eauto|].
    split; [auto|]. apply (lslot_ok k x); lia.
Qed.

Lemma return_inv k s p s1 : linv k s -> lock_returns k s p = Done s1 -> linv k s1.
Proof.
  intros I E; unfold lock_returns in E. destruct (acks s p) as [|a l] eqn:EA; [injection E as <-; auto|].
  destruct (waits (procs s p)) as [x|] eqn:EW; [|injection E as <-; auto].
  destruct (Z.eqb_spec a (snd (lslot k x))); [|discriminate]. injection E as <-.
  destruct I as [PH ND FR AK CH].
  assert (L : l = []) by (destruct (AK p) as [A|(y & Y & A)]; congruence). subst l.
  constructor; cbn [procs chan owner queue acks]; auto.
  - intros p' z; pose proof (PH p' z) as H.
    unfold is_owner, holds_slot, answered, wants, queued, msgs in *; cbn [procs chan owner queue acks] in *.
    destruct (Z.eqb_spec p' p) as [->|NP].
    + rewrite !fset_same; cbn [held waits filter]. rewrite EA, EW in H.
      destruct (slot_eqb (lslot k x) z) eqn:SE; [|inversion H; subst; constructor].
      cbn [length]; inversion H; subst; constructor.
    + rewrite !fset_other by auto. auto.
  - intros p'; destruct (Z.eq_dec p' p) as [->|NP]; [left; now rewrite fset_same|]. rewrite !fset_other by auto; auto.
Qed.
Lemma return_done k s p : linv k s -> exists s1, lock_returns k s p = Done s1.
Proof.
  intros I; unfold lock_returns; destruct (acks s p) as [|a l] eqn:EA; eauto.
  destruct (waits (procs s p)) as [x|] eqn:EW; eauto.
  destruct (iv_ack _ _ I p) as [A|(y & Y & A)]; [congruence|].
  rewrite EA in A; injection A as -> ->. rewrite EW in Y; injection Y as ->. rewrite Z.eqb_refl; eauto.
Qed.

(** Taking the first message. *)
Lemma msgs_serve k s p q l b z0 pr ow qu ak z p' : chan s p q = (b, z0) :: l -> q = l_master k (fst z0) ->
  (p' = p -> z = z0 -> msgs k s z p' = b :: msgs k (LState pr (cset (chan s) p q l) ow qu ak) z p') /\
  (p' <> p \/ z <> z0 -> msgs k (LState pr (cset (chan s) p q l) ow qu ak) z p' = msgs k s z p').
Proof.
  intros E Q; unfold msgs; cbn [chan]. split.
  - intros -> ->; rewrite <- Q, cset_same, E. cbn [filter snd]. now rewrite slot_eqb_refl.
  - intros N. destruct (Z.eq_dec p' p) as [->|NP]; [|now rewrite cset_other by auto].
    destruct (Z.eq_dec (l_master k (fst z)) q) as [EQ|NQ]; [|now rewrite cset_other by auto].
    rewrite EQ, cset_same, E. cbn [filter snd]. rewrite (slot_eqb_neq z0 z); auto. destruct N as [N|N]; [contradiction|congruence].
Qed.
Lemma chan_serve s p q m l p' q' b z : chan s p q = m :: l -> In (b, z) (cset (chan s) p q l p' q') -> In (b, z) (chan s p' q').
Proof.
  intros E; unfold cset; destruct (Z.eqb_spec p' p); destruct (Z.eqb_spec q' q); cbn [andb]; auto.
  subst; rewrite E; intros; right; auto.
Qed.

Lemma NoDup_snoc (l : list Z) p : NoDup l -> ~ In p l -> NoDup (l ++ [p]).
Proof.
  intros N I; apply NoDup_rev in N; rewrite <- (rev_involutive (l ++ [p])); apply NoDup_rev.
  rewrite rev_unit; constructor; auto. now rewrite <- in_rev.
Qed.

Lemma serve_lock_free k s p q z l : linv k s -> chan s p q = (true, z) :: l -> owner s z = None ->
  linv k (LState (procs s) (cset (chan s) p q l) (pset (owner s) z (Some p)) (queue s) (fset (acks s) p (acks s p ++ [snd z]))).
Proof.
  intros I E O. destruct I as [PH ND FR AK CH].
  assert (CI : In (true, z) (chan s p q)) by (rewrite E; left; auto).
  destruct (CH _ _ _ _ CI) as [Q _].
  assert (H0 := PH p z). destruct (msgs_serve k s p q l true z (procs s) (owner s) (queue s) (acks s) z p E Q) as [M _].
  rewrite (M eq_refl eq_refl) in H0. unfold is_owner in H0; rewrite O in H0.
  assert (WT : wants k s z p = true /\ answered k s z p = false) by (inversion H0; subst; auto).
  destruct WT as [WT AN].
  assert (AP : acks s p = []) by (unfold answered in AN; destruct (acks s p); auto; congruence).
  assert (WX : exists x, waits (procs s p) = Some x /\ lslot k x = z).
  { unfold wants in WT; destruct (waits (procs s p)) as [x|]; [|discriminate]. exists x; split; auto. now apply slot_eqb_spec. }
  destruct WX as (x & WX & SX).
  constructor; cbn [procs chan owner queue acks]; auto.
  - intros p' z'. pose proof (PH p' z') as H.
    set (ow := pset (owner s) z (Some p)); set (ak := fset (acks s) p (acks s p ++ [snd z])).
    destruct (msgs_serve k s p q l true z (procs s) ow (queue s) ak z' p' E Q) as [M1 M2].
    change (wants k (LState (procs s) ?a ?b ?c ?d) z' p') with (wants k s z' p').
    change (holds_slot k (LState (procs s) ?a ?b ?c ?d) z' p') with (holds_slot k s z' p').
    change (queued (LState ?p ?a ?b (queue s) ?d) z' p') with (queued s z' p').
    assert (AK' : answered k (LState (procs s) (cset (chan s) p q l) ow (queue s) ak) z' p' = (if (p' =? p) && slot_eqb z' z then true else answered k s z' p')).
    { unfold answered; cbn [acks]; unfold ak. change (wants k (LState (procs s) ?a ?b ?c ?d) z' p') with (wants k s z' p').
      destruct (Z.eqb_spec p' p) as [->|]; cbn [andb]; [|now rewrite fset_other by auto].
      rewrite fset_same, AP; cbn [app]. unfold wants; rewrite WX, SX.
      destruct (slot_dec z' z) as [->|NZ]; [now rewrite slot_eqb_refl|].
      rewrite (slot_eqb_neq z' z), (slot_eqb_neq z z') by auto; auto. }
    rewrite AK'.
    destruct (slot_dec z' z) as [->|NZ].
    + rewrite slot_eqb_refl, andb_true_r.
      assert (OW' : is_owner (LState (procs s) (cset (chan s) p q l) ow (queue s) ak) z p' = (p =? p')) by (unfold is_owner; cbn [owner]; unfold ow; now rewrite pset_same).
      rewrite OW'. unfold is_owner in H; rewrite O in H.
      destruct (Z.eqb_spec p p') as [<-|NP].
      * rewrite (M1 eq_refl eq_refl) in H. rewrite Z.eqb_refl. inversion H; subst; constructor.
      * rewrite M2 by auto. destruct (Z.eqb_spec p' p); [congruence|auto].
    + rewrite M2 by auto. rewrite (slot_eqb_neq z' z) by auto. rewrite andb_false_r.
      assert (OW' : is_owner (LState (procs s) (cset (chan s) p q l) ow (queue s) ak) z' p' = is_owner s z' p') by (unfold is_owner; cbn [owner]; unfold ow; now rewrite pset_other by auto).
      now rewrite OW'.
  - intros z' O'. unfold pset in O'; destruct (slot_eqb z' z); [discriminate|auto].
  - intros p'. destruct (Z.eq_dec p' p) as [->|NP]; [|rewrite fset_other by auto; auto].
    right; exists x; split; auto. rewrite fset_same, AP, SX; auto.
  - intros p' q' b z' H; eapply chan_serve in H; eauto.
Qed.

Lemma serve_lock_taken k s p q z l r : linv k s -> chan s p q = (true, z) :: l -> owner s z = Some r ->
  linv k (LState (procs s) (cset (chan s) p q l) (owner s) (pset (queue s) z (queue s z ++ [p])) (acks s)).
Proof.
  intros I E O. destruct I as [PH ND FR AK CH].
  assert (CI : In (true, z) (chan s p q)) by (rewrite E; left; auto).
  destruct (CH _ _ _ _ CI) as [Q _].
  assert (H0 := PH p z). destruct (msgs_serve k s p q l true z (procs s) (owner s) (queue s) (acks s) z p E Q) as [M _].
  rewrite (M eq_refl eq_refl) in H0.
  assert (QF : queued s z p = false) by (inversion H0; subst; auto).
  constructor; cbn [procs chan owner queue acks]; auto.
  - intros p' z'. pose proof (PH p' z') as H.
    destruct (msgs_serve k s p q l true z (procs s) (owner s) (pset (queue s) z (queue s z ++ [p])) (acks s) z' p' E Q) as [M1 M2].
    change (wants k (LState (procs s) ?a ?b ?c ?d) z' p') with (wants k s z' p').
    change (answered k (LState (procs s) ?a ?b ?c (acks s)) z' p') with (answered k s z' p').
    change (holds_slot k (LState (procs s) ?a ?b ?c ?d) z' p') with (holds_slot k s z' p').
    change (is_owner (LState ?p ?a (owner s) ?c ?d) z' p') with (is_owner s z' p').
    destruct (slot_dec z' z) as [->|NZ].
    + unfold queued; cbn [queue]. rewrite pset_same, existsb_app. fold (queued s z p'). cbn [existsb]. rewrite orb_false_r.
      destruct (Z.eqb_spec p' p) as [->|NP].
      * rewrite (M1 eq_refl eq_refl) in H. rewrite QF in *. cbn [orb]. inversion H; subst; constructor.
      * rewrite M2 by auto. rewrite orb_false_r; auto.
    + rewrite M2 by auto. unfold queued; cbn [queue]. rewrite pset_other by auto; auto.
  - intros z'. destruct (slot_dec z' z) as [->|NZ]; [|rewrite pset_other by auto; auto].
    rewrite pset_same. apply NoDup_snoc; auto. now apply nin_existsb.
  - intros z' O'. destruct (slot_dec z' z) as [->|NZ]; [congruence|rewrite pset_other by auto; auto].
  - intros p' q' b z' H; eapply chan_serve in H; eauto.
Qed.

Lemma serve_unlock_free k s p q z l : linv k s -> chan s p q = (false, z) :: l -> queue s z = [] ->
  linv k (LState (procs s) (cset (chan s) p q l) (pset (owner s) z None) (queue s) (acks s)).
Proof.
  intros I E QE. destruct I as [PH ND FR AK CH].
  assert (CI : In (false, z) (chan s p q)) by (rewrite E; left; auto).
  destruct (CH _ _ _ _ CI) as [Q _].
  assert (H0 := PH p z). destruct (msgs_serve k s p q l false z (procs s) (owner s) (queue s) (acks s) z p E Q) as [M _].
  rewrite (M eq_refl eq_refl) in H0.
  assert (OW : owner s z = Some p).
  { unfold is_owner in H0. destruct (owner s z) as [r|]; [|inversion H0]. destruct (Z.eqb_spec r p); [congruence|inversion H0]. }
  constructor; cbn [procs chan owner queue acks]; auto.
  - intros p' z'. pose proof (PH p' z') as H.
    destruct (msgs_serve k s p q l false z (procs s) (pset (owner s) z None) (queue s) (acks s) z' p' E Q) as [M1 M2].
    change (wants k (LState (procs s) ?a ?b ?c ?d) z' p') with (wants k s z' p').
    change (answered k (LState (procs s) ?a ?b ?c (acks s)) z' p') with (answered k s z' p').
    change (holds_slot k (LState (procs s) ?a ?b ?c ?d) z' p') with (holds_slot k s z' p').
    change (queued (LState ?p ?a ?b (queue s) ?d) z' p') with (queued s z' p').
    destruct (slot_dec z' z) as [->|NZ].
    + unfold is_owner in *; cbn [owner]. rewrite pset_same. rewrite OW in H.
      destruct (Z.eqb_spec p p') as [<-|NP].
      * rewrite (M1 eq_refl eq_refl) in H. inversion H; subst; constructor.
      * rewrite M2 by auto. auto.
    + rewrite M2 by auto. unfold is_owner in *; cbn [owner]. rewrite pset_other by auto; auto.
  - intros z' O'. destruct (slot_dec z' z) as [->|NZ]; [auto|rewrite pset_other in O' by auto; auto].
  - intros p' q' b z' H; eapply chan_serve in H; eauto.
Qed.

Lemma serve_unlock_next k s p q z l r l' : linv k s -> chan s p q = (false, z) :: l -> queue s z = r :: l' ->
  linv k (LState (procs s) (cset (chan s) p q l) (pset (owner s) z (Some r)) (pset (queue s) z l') (fset (acks s) r (acks s r ++ [snd z]))).
Proof.
  intros I E QE. destruct I as [PH ND FR AK CH].
  assert (CI : In (false, z) (chan s p q)) by (rewrite E; left; auto).
  destruct (CH _ _ _ _ CI) as [Q _].
  assert (H0 := PH p z). destruct (msgs_serve k s p q l false z (procs s) (owner s) (queue s) (acks s) z p E Q) as [M _].
  rewrite (M eq_refl eq_refl) in H0.
  assert (OW : owner s z = Some p).
  { unfold is_owner in H0. destruct (owner s z) as [o|]; [|inversion H0]. destruct (Z.eqb_spec o p); [congruence|inversion H0]. }
  assert (PQ : queued s z p = false) by (inversion H0; subst; auto).
  assert (RP : r <> p). { intros ->. apply nin_existsb in PQ. apply PQ; rewrite QE; left; auto. }
  assert (NDq := ND z). rewrite QE in NDq. inversion NDq as [|? ? NIr NDl]; subst.
  assert (Hr := PH r z). assert (QR : queued s z r = true) by (apply in_existsb; rewrite QE; left; auto).
  assert (OR : is_owner s z r = false) by (unfold is_owner; rewrite OW; apply Z.eqb_neq; auto).
  rewrite QR, OR in Hr.
  assert (WT : wants k s z r = true /\ answered k s z r = false) by (inversion Hr; subst; auto).
  destruct WT as [WT AN].
  assert (AP : acks s r = []) by (unfold answered in AN; destruct (acks s r); auto; congruence).
  assert (WX : exists x, waits (procs s r) = Some x /\ lslot k x = z).
  { unfold wants in WT; destruct (waits (procs s r)) as [x|]; [|discriminate]. exists x; split; auto. now apply slot_eqb_spec. }
  destruct WX as (x & WX & SX).
  set (q := l_master k (fst z)) in *.
  set (ow := pset (owner s) z (Some r)); set (qu := pset (queue s) z l'); set (ak := fset (acks s) r (acks s r ++ [snd z])).
  constructor; cbn [procs chan owner queue acks]; auto.
  - intros p' z'. pose proof (PH p' z') as H.
    destruct (msgs_serve k s p q l false z (procs s) ow qu ak z' p' E eq_refl) as [M1 M2].
    change (wants k (LState (procs s) ?a ?b ?c ?d) z' p') with (wants k s z' p').
    change (holds_slot k (LState (procs s) ?a ?b ?c ?d) z' p') with (holds_slot k s z' p').
    assert (AK' : answered k (LState (procs s) (cset (chan s) p q l) ow qu ak) z' p' = (if (p' =? r) && slot_eqb z' z then true else answered k s z' p')).
    { unfold answered; cbn [acks]; unfold ak. change (wants k (LState (procs s) ?a ?b ?c ?d) z' p') with (wants k s z' p').
      destruct (Z.eqb_spec p' r) as [->|]; cbn [andb]; [|now rewrite fset_other by auto].
      rewrite fset_same, AP; cbn [app]. unfold wants; rewrite WX, SX.
      destruct (slot_dec z' z) as [->|NZ]; [now rewrite slot_eqb_refl|].
      rewrite (slot_eqb_neq z' z), (slot_eqb_neq z z') by auto; auto. }
    rewrite AK'.
    destruct (slot_dec z' z) as [->|NZ].
    + rewrite slot_eqb_refl, andb_true_r.
      assert (OW' : is_owner (LState (procs s) (cset (chan s) p q l) ow qu ak) z p' = (r =? p')) by (unfold is_owner; cbn [owner]; unfold ow; now rewrite pset_same).
      assert (QU' : queued (LState (procs s) (cset (chan s) p q l) ow qu ak) z p' = existsb (Z.eqb p') l') by (unfold queued; cbn [queue]; unfold qu; now rewrite pset_same).
      rewrite OW', QU'.
      unfold is_owner in H; rewrite OW in H. unfold queued in H; rewrite QE in H; cbn [existsb] in H.
      destruct (Z.eqb_spec p p') as [<-|NP].
      * rewrite (M1 eq_refl eq_refl) in H. destruct (Z.eqb_spec r p); [contradiction|]. destruct (Z.eqb_spec p r); [congruence|]. cbn [orb] in H.
        inversion H; subst; constructor.
      * rewrite M2 by auto. destruct (Z.eqb_spec r p') as [<-|NR].
        -- rewrite Z.eqb_refl in *. cbn [orb] in H. apply nin_existsb in NIr. rewrite NIr. inversion H; subst; constructor.
        -- destruct (Z.eqb_spec p' r); [congruence|]. cbn [orb] in H. auto.
    + rewrite M2 by auto. rewrite (slot_eqb_neq z' z) by auto. rewrite andb_false_r.
      assert (OW' : is_owner (LState (procs s) (cset (chan s) p q l) ow qu ak) z' p' = is_owner s z' p') by (unfold is_owner; cbn [owner]; unfold ow; now rewrite pset_other by auto).
      assert (QU' : queued (LState (procs s) (cset (chan s) p q l) ow qu ak) z' p' = queued s z' p') by (unfold queued; cbn [queue]; unfold qu; now rewrite pset_other by auto).
      now rewrite OW', QU'.
  - intros z'. unfold qu. destruct (slot_dec z' z) as [->|NZ]; [rewrite pset_same; auto|rewrite pset_other by auto; auto].
  - intros z' O'. unfold ow, qu in *. destruct (slot_dec z' z) as [->|NZ]; [rewrite pset_same in O'; discriminate|].
    rewrite pset_other by auto; rewrite pset_other in O' by auto; auto.
  - intros p'. unfold ak. destruct (Z.eq_dec p' r) as [->|NP]; [|rewrite fset_other by auto; auto].
    right; exists x; split; auto. rewrite fset_same, AP, SX; auto.
  - intros p' q' b z' H; eapply chan_serve in H; eauto.
Qed.

Lemma serve_done k s q p : linv k s -> exists s1, lserve k s q p = Done s1.
Proof.
  intros I; unfold lserve; destruct (chan s p q) as [|[b z] l] eqn:E; eauto.
  destruct (iv_chan _ _ I p q b z) as [_ B]; [rewrite E; left; auto|].
  destruct (Z.ltb_spec (snd z) 0); [lia|]. destruct (Z.leb_spec (share k (fst z)) (snd z)); [lia|].
  destruct b; [destruct (owner s z)|destruct (queue s z)]; eauto.
Qed.
Lemma serve_inv k s q p s1 : linv k s -> lserve k s q p = Done s1 -> linv k s1.
Proof.
  intros I E; unfold lserve in E; destruct (chan s p q) as [|[b z] l] eqn:EC; [injection E as <-; auto|].
  destruct (snd z <? 0); [discriminate|]. destruct (share k (fst z) <=? snd z); [discriminate|].
  destruct b; [destruct (owner s z) as [r|] eqn:EO|destruct (queue s z) as [|r l'] eqn:EO]; injection E as <-.
  - eapply serve_lock_taken; eauto.
  - now apply serve_lock_free.
  - now apply serve_unlock_free.
  - now apply serve_unlock_next.
Qed.

Lemma step_inv k s e s1 : 1 <= l_n k -> 1 <= l_num k -> l_n k <> 1 -> linv k s -> proper k s e -> lstep k s e = Done s1 -> linv k s1.
Proof.
  intros Hn Hm N1 I P E; destruct e as [p x|p x|p|q p]; cbn [lstep proper] in *.
  - eapply lock_inv; eauto. tauto.
  - eapply (unlock_inv k s p x); eauto; tauto.
  - eapply return_inv; eauto.
  - eapply serve_inv; eauto.
Qed.
Lemma step_done k s e : linv k s -> proper k s e -> exists s1, lstep k s e = Done s1.
Proof.
  intros I P; destruct e as [p x|p x|p|q p]; cbn [lstep proper] in *.
  - unfold ga_lock. destruct (l_n k =? 1); eauto. destruct (Z.ltb_spec (l_num k) x); [lia|eauto].
  - unfold ga_unlock; cbv zeta. destruct (l_n k =? 1); eauto. destruct (Z.ltb_spec (l_num k) x); [lia|eauto].
  - now apply return_done.
  - now apply serve_done.
Qed.
Lemma runs_inv k s es s1 : 1 <= l_n k -> 1 <= l_num k -> l_n k <> 1 -> linv k s -> lruns k s es s1 -> linv k s1.
Proof. intros Hn Hm N1 I R; induction R; auto. apply IHR. eapply step_inv; eauto. Qed.

(** One process: nothing is ever sent, so nothing can fail. *)
Lemma solo_inv k s e s1 : l_n k = 1 -> (forall p q, chan s p q = []) -> (forall p, acks s p = []) -> (forall p, waits (procs s p) = None) ->
  lstep k s e = Done s1 ->
  (forall p q, chan s1 p q = []) /\ (forall p, acks s1 p = []) /\ (forall p, waits (procs s1 p) = None).
Proof.
  intros N C A W E; destruct e as [p x|p x|p|q p]; cbn [lstep] in E.
  - unfold ga_lock in E. rewrite N in E. cbn in E. injection E as <-; cbn. repeat split; auto.
    intros p'; unfold fset; destruct (p' =? p); cbn; auto.
  - unfold ga_unlock in E. rewrite N in E. cbn in E. injection E as <-; cbn. repeat split; auto.
    intros p'; unfold fset; destruct (p' =? p); cbn; auto.
  - unfold lock_returns in E; rewrite A in E. injection E as <-; auto.
  - unfold lserve in E; rewrite C in E. injection E as <-; auto.
Qed.
