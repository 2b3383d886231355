(** Processes that send and receive in a compatible order: they never get stuck,
    and the result does not depend on the order in which they run. *)
From Coq Require Import ZArith List Lia Bool Wf_nat.
From Verif Require Import MGhost MNet.

(** ---- every execution is finite ---- *)
Definition weight {V} (P : proc V) : nat := (5 * length (p_todo P) + length (p_ops P))%nat.
Definition total {V} (ps : list (Z * Z)) (st : Z -> proc V) : nat := list_sum (map (fun q => weight (st (fst q))) ps).

Lemma total_le {V} (ps : list (Z * Z)) (st st' : Z -> proc V) : (forall p n, In (p, n) ps -> (weight (st' p) <= weight (st p))%nat) -> (total ps st' <= total ps st)%nat.
Proof.
  unfold total. induction ps as [|[q n] ps IH]; intros H; [apply le_n|]. cbn [map fst list_sum fold_right]. pose proof (H q n (or_introl eq_refl)).
  specialize (IH (fun p k I => H p k (or_intror I))). unfold list_sum in *. lia.
Qed.
Lemma total_lt {V} (ps : list (Z * Z)) (st st' : Z -> proc V) p n : In (p, n) ps -> (weight (st' p) < weight (st p))%nat ->
  (forall p n, In (p, n) ps -> (weight (st' p) <= weight (st p))%nat) -> (total ps st' < total ps st)%nat.
Proof.
  unfold total. induction ps as [|[q k] ps IH]; intros I L H; [destruct I|]. cbn [map fst list_sum fold_right].
  destruct I as [E|I].
  - injection E as <- <-. pose proof (total_le ps st st' (fun p k I => H p k (or_intror I))) as T. unfold total, list_sum in *. lia.
  - pose proof (H q k (or_introl eq_refl)). specialize (IH I L (fun p k I => H p k (or_intror I))). unfold list_sum in *. lia.
Qed.

Lemma comm_length p e : (length (comm p e) <= 4)%nat.
Proof.
  unfold comm, msg_order. destruct (self_msg p e); [cbn; lia|]. destruct (_ =? 0); destruct (negb (_ =? 0)); repeat rewrite app_length; cbn [length]; try lia;
  repeat match goal with |- context [if ?b then _ else _] => destruct b end; cbn [length]; lia.
Qed.
Lemma leave_weight {V} es n p (P P' : proc V) : leave es n p P = Some P' -> (weight P' < weight P)%nat.
Proof.
  unfold leave. destruct (p_todo P) as [|e todo] eqn:T; [discriminate|]. destruct (p_ops P) eqn:O; [|discriminate].
  destruct (if self_msg p e then _ else _) as [vs|]; [|discriminate]. destruct (unpack_msg _ _ _ _) as [m|]; [|discriminate]. unfold enter.
  destruct todo as [|e' todo]; [intros E; injection E as <-; unfold weight; cbn [p_todo p_ops]; rewrite T, O; cbn; lia|].
  destruct (pack_msg _ _ _ _) as [b|]; [|discriminate]. intros E; injection E as <-. unfold weight. cbn [p_todo p_ops]. rewrite T, O. pose proof (comm_length p e'). cbn [length] in *. lia.
Qed.
Lemma sends_weight {V} es (P : proc V) q t vs P' : sends es P = Some (q, t, vs, P') -> (weight P' < weight P)%nat.
Proof.
  unfold sends. destruct (p_todo P) as [|e todo] eqn:T; [discriminate|]. destruct (p_ops P) as [|[|] ops] eqn:O; try discriminate.
  destruct (_ =? _); [|discriminate]. intros E. injection E as _ _ _ <-. unfold weight. cbn [p_todo p_ops]. rewrite T, O. cbn [length]. lia.
Qed.
Lemma receives_weight {V} n (P : proc V) q t vs P' : receives n P q t vs = Some P' -> (weight P' < weight P)%nat.
Proof.
  unfold receives. destruct (p_todo P) as [|e todo] eqn:T; [discriminate|]. destruct (p_ops P) as [|[|] ops] eqn:O; try discriminate.
  destruct (_ && _); [|discriminate]. intros E. injection E as <-. unfold weight. cbn [p_todo p_ops]. rewrite T, O. cbn [length]. lia.
Qed.
Lemma put_le {V} (st : Z -> proc V) p P' : (weight P' < weight (st p))%nat -> forall q, (weight (put st p P' q) <= weight (st q))%nat.
Proof. intros H q. unfold put. destruct (Z.eqb_spec q p) as [->|]; lia. Qed.
Lemma put_eq {V} (st : Z -> proc V) p P' : put st p P' p = P'.
Proof. unfold put. now rewrite Z.eqb_refl. Qed.
Lemma put_neq {V} (st : Z -> proc V) p P' q : q <> p -> put st p P' q = st q.
Proof. unfold put. destruct (Z.eqb_spec q p); congruence. Qed.

Lemma step_total {V} es ps b (s s' : net V) : net_step es ps b s s' -> (total ps (fst s') < total ps (fst s))%nat.
Proof.
  intros H. destruct H; cbn [fst].
  - apply leave_weight in H0. apply (total_lt ps _ _ p n); auto; [now rewrite put_eq|]. intros q k _. now apply put_le.
  - apply sends_weight in H2. apply receives_weight in H3. apply (total_lt ps _ _ q nq); auto; [now rewrite put_eq|].
    intros r k _. unfold put at 1. destruct (Z.eqb_spec r q) as [->|]; [lia|now apply put_le].
  - apply sends_weight in H0. apply (total_lt ps _ _ p np); auto; [now rewrite put_eq|]. intros r k _. now apply put_le.
  - apply receives_weight in H0. apply (total_lt ps _ _ q nq); auto; [now rewrite put_eq|]. intros r k _. now apply put_le.
Qed.
Lemma net_finite {V} es ps (s : net V) : Acc (fun s' s => exists b, net_step es ps b s s') s.
Proof.
  assert (W : well_founded (fun s' s : net V => exists b, net_step es ps b s s')).
  { apply (well_founded_lt_compat _ (fun s => total ps (fst s))). intros x y (b & H). eapply step_total; eauto. }
  apply W.
Qed.

(** ---- the invariant ---- *)
Section Net.
Context {V : Type}.
Variable es : Z.
Variable ps : list (Z * Z).
Variable nn : Z -> Z.
Variable K : nat.
Variable e : nat -> Z -> gstep.
Variable M : nat -> Z -> pmem V.
Variable SB A : nat -> Z -> list V.
Variable tS tR : nat -> Z -> nat.
Notation to k p := (g_to (gs_msg (e k p))).
Notation from k p := (g_from (gs_msg (e k p))).
Notation self k p := (self_msg p (e k p)).
Definition isp (p : Z) := In p (map fst ps).
Hypothesis Hnn : forall p n, In (p, n) ps -> n = nn p.
Hypothesis Hpack : forall k p, (k < K)%nat -> isp p -> pack_msg es (nn p) (M k p) (gs_msg (e k p)) = Some (SB k p).
Hypothesis Hunpack : forall k p, (k < K)%nat -> isp p -> unpack_msg es (M k p) (gs_msg (e k p)) (A k p) = Some (M (S k) p).
Hypothesis Hself : forall k p, (k < K)%nat -> isp p -> self k p = true -> A k p = SB k p.
Hypothesis Hto : forall k p, (k < K)%nat -> isp p -> self k p = false ->
  isp (to k p) /\ to k p <> p /\ self k (to k p) = false /\ from k (to k p) = p /\ tS k p = tR k (to k p) /\
  es * Z.of_nat (length (SB k p)) = g_len (gs_msg (e k p)) /\ A k (to k p) = SB k p /\ Z.of_nat (length (SB k p)) <= nn (to k p).
Hypothesis Hfrom : forall k p, (k < K)%nat -> isp p -> self k p = false -> isp (from k p) /\ self k (from k p) = false /\ to k (from k p) = p.
Hypothesis Hcomm : forall k p, (k < K)%nat -> isp p -> self k p = false -> (tS k p < 3)%nat /\ (tR k p < 3)%nat /\
  ((tS k p < tR k p)%nat /\ comm p (e k p) = [true; false] \/ (tR k p < tS k p)%nat /\ comm p (e k p) = [false; true]).

Definition todo k p : list gstep := map (fun j => e j p) (seq k (K - k)).
(** The state of process [p] in message [k] after [j] of its operations. *)
Definition ops k p : list bool := if (k <? K)%nat then comm p (e k p) else [].
Definition sdone k j p : bool := existsb (fun b => b) (firstn j (ops k p)).
Definition rdone k j p : bool := existsb negb (firstn j (ops k p)).
Definition cs k j p : proc V :=
  Proc (M k p) k (todo k p) (skipn j (ops k p)) (if (k <? K)%nat then SB k p else []) (if rdone k j p then Some (A k p) else None).

Definition sent (pos : Z -> nat * nat) k p : Prop := (k < fst (pos p))%nat \/ k = fst (pos p) /\ sdone k (snd (pos p)) p = true.
Definition rcvd (pos : Z -> nat * nat) k p : Prop := (k < fst (pos p))%nat \/ k = fst (pos p) /\ rdone k (snd (pos p)) p = true.
Record inv (pos : Z -> nat * nat) (s : net V) : Prop := {
  i_st : forall p, isp p -> fst s p = cs (fst (pos p)) (snd (pos p)) p;
  i_pos : forall p, isp p -> (fst (pos p) <= K)%nat /\ (snd (pos p) <= length (ops (fst (pos p)) p))%nat;
  i_fl : forall x, In x (snd s) <-> exists k p, (k < K)%nat /\ isp p /\ self k p = false /\ x = Packet p (to k p) k (SB k p) /\ sent pos k p /\ ~ rcvd pos k (to k p);
  i_nd : NoDup (snd s);
  i_cau : forall k p, (k < K)%nat -> isp p -> self k p = false -> rcvd pos k p -> sent pos k (from k p)
}.

Lemma todo_cons k p : (k < K)%nat -> todo k p = e k p :: todo (S k) p.
Proof. intros H. unfold todo. replace (K - k)%nat with (S (K - S k)) by lia. reflexivity. Qed.
Lemma todo_nil p : todo K p = [].
Proof. unfold todo. now rewrite Nat.sub_diag. Qed.

Lemma enter_ok k p : (k <= K)%nat -> isp p -> enter es (nn p) p k (todo k p) (M k p) = Some (cs k 0 p).
Proof.
  intros Hk Hp. unfold cs, ops, rdone. destruct (Nat.ltb_spec k K).
  - rewrite todo_cons by auto. unfold enter. rewrite Hpack by auto. reflexivity.
  - assert (k = K) as -> by lia. rewrite todo_nil. reflexivity.
Qed.

Lemma cs_done k j p : isp p -> (k <= K)%nat -> (p_todo (cs k j p) = [] <-> k = K).
Proof.
  intros Hp Hk. cbn [cs p_todo]. split; [|intros ->; apply todo_nil]. intros E. destruct (Nat.eq_dec k K); [assumption|]. rewrite todo_cons in E by lia. discriminate.
Qed.

(** The pending operation. *)
Lemma ops_cases k p : isp p -> (k <= K)%nat -> ops k p = [] /\ (k = K \/ (k < K)%nat /\ self k p = true) \/
  (k < K)%nat /\ self k p = false /\ (ops k p = [true; false] /\ (tS k p < tR k p)%nat \/ ops k p = [false; true] /\ (tR k p < tS k p)%nat).
Proof.
  intros Hp Hk. unfold ops. destruct (Nat.ltb_spec k K) as [L|L]; [|left; split; [reflexivity|left; lia]].
  destruct (self k p) eqn:S; [left; split; [unfold comm; now rewrite S|auto]|]. right. split; [exact L|]. split; [reflexivity|]. destruct (Hcomm k p L Hp S) as (_ & _ & [[? ?]|[? ?]]); [left|right]; auto.
Qed.

Lemma cs_leave k j p P' : isp p -> (k <= K)%nat -> (j <= length (ops k p))%nat -> leave es (nn p) p (cs k j p) = Some P' ->
  (k < K)%nat /\ j = length (ops k p) /\ P' = cs (S k) 0 p.
Proof.
  intros Hp Hk Hj. unfold leave. cbn [cs p_todo p_ops p_tag p_mem p_snd p_rcv]. destruct (Nat.eq_dec k K) as [->|N]; [rewrite todo_nil; discriminate|]. assert (L : (k < K)%nat) by lia.
  rewrite todo_cons by lia. destruct (skipn j (ops k p)) eqn:S0; [|discriminate]. assert (J : j = length (ops k p)).
  { apply (f_equal (@length _)) in S0. rewrite skipn_length in S0. cbn in S0. lia. }
  intros X. split; [exact L|]. split; [exact J|].
  assert (E0 : (if self k p then Some (if (k <? K)%nat then SB k p else []) else if rdone k j p then Some (A k p) else None) = Some (A k p)).
  { destruct (Nat.ltb_spec k K); [|lia]. destruct (self k p) eqn:Sf; [now rewrite Hself|].
    unfold rdone. rewrite J, firstn_all. destruct (ops_cases k p Hp Hk) as [[_ [?|[_ ?]]]|(_ & _ & [[-> _]|[-> _]])]; try lia; try congruence; reflexivity. }
  rewrite E0, Hunpack in X by auto. rewrite enter_ok in X by (auto; lia). now injection X as <-.
Qed.
Lemma cs_leave_ok k p : isp p -> (k < K)%nat -> leave es (nn p) p (cs k (length (ops k p)) p) = Some (cs (S k) 0 p).
Proof.
  intros Hp Hk. unfold leave. cbn [cs p_todo p_ops p_tag p_mem p_snd p_rcv]. rewrite todo_cons by lia. rewrite skipn_all.
  assert (E0 : (if self k p then Some (if (k <? K)%nat then SB k p else []) else if rdone k (length (ops k p)) p then Some (A k p) else None) = Some (A k p)).
  { destruct (Nat.ltb_spec k K); [|lia]. destruct (self k p) eqn:Sf; [now rewrite Hself|].
    unfold rdone. rewrite firstn_all. destruct (ops_cases k p Hp ltac:(lia)) as [[_ [?|[_ ?]]]|(_ & _ & [[-> _]|[-> _]])]; try lia; try congruence; reflexivity. }
  rewrite E0, Hunpack by auto. now rewrite enter_ok by (auto; lia).
Qed.

Lemma cs_sends k j p q t vs P' : isp p -> (k <= K)%nat -> sends es (cs k j p) = Some (q, t, vs, P') ->
  (k < K)%nat /\ self k p = false /\ q = to k p /\ t = k /\ vs = SB k p /\ P' = cs k (S j) p /\ sdone k j p = false /\ sdone k (S j) p = true /\ rdone k (S j) p = rdone k j p /\ (S j <= length (ops k p))%nat.
Proof.
  intros Hp Hk. unfold sends. cbn [cs p_todo p_ops p_tag p_mem p_snd p_rcv]. destruct (Nat.eq_dec k K) as [->|N]; [rewrite todo_nil; discriminate|]. assert (L : (k < K)%nat) by lia.
  rewrite todo_cons by lia. destruct (Nat.ltb_spec k K); [|lia].
  destruct (ops_cases k p Hp Hk) as [[O [?|[_ Sf]]]|(_ & Sf & [[O _]|[O _]])]; try lia; try (rewrite O; destruct j; discriminate).
  - destruct j as [|[|[|j]]]; cbn [skipn]; rewrite ?O; cbn [skipn]; try discriminate.
    destruct (_ =? _); [|discriminate]. intros E. injection E as <- <- <- <-. unfold sdone, rdone. rewrite O. cbn [firstn existsb orb negb length]. repeat (split; [solve [auto]|]). split; [|repeat split; lia].
    unfold cs. rewrite (todo_cons k p) by auto. destruct (Nat.ltb_spec k K); [|lia]. unfold rdone. rewrite O. reflexivity.
  - destruct j as [|[|[|j]]]; cbn [skipn]; rewrite ?O; cbn [skipn]; try discriminate.
    destruct (_ =? _); [|discriminate]. intros E. injection E as <- <- <- <-. unfold sdone, rdone. rewrite O. cbn [firstn existsb orb negb length]. repeat (split; [solve [auto]|]). split; [|repeat split; lia].
    unfold cs. rewrite (todo_cons k p) by auto. destruct (Nat.ltb_spec k K); [|lia]. unfold rdone. rewrite O. reflexivity.
Qed.
Lemma cs_receives k j p q t vs P' : isp p -> (k <= K)%nat -> receives (nn p) (cs k j p) q t vs = Some P' ->
  (k < K)%nat /\ self k p = false /\ q = from k p /\ t = k /\ rdone k j p = false /\ rdone k (S j) p = true /\ sdone k (S j) p = sdone k j p /\ (S j <= length (ops k p))%nat /\
  (vs = A k p -> P' = cs k (S j) p).
Proof.
  intros Hp Hk. unfold receives. cbn [cs p_todo p_ops p_tag p_mem p_snd p_rcv]. destruct (Nat.eq_dec k K) as [->|N]; [rewrite todo_nil; discriminate|]. assert (L : (k < K)%nat) by lia.
  rewrite todo_cons by lia. destruct (Nat.ltb_spec k K); [|lia].
  destruct (ops_cases k p Hp Hk) as [[O [?|[_ Sf]]]|(_ & Sf & [[O _]|[O _]])]; try lia; try (rewrite O; destruct j; discriminate).
  - destruct j as [|[|[|j]]]; cbn [skipn]; rewrite ?O; cbn [skipn]; try discriminate.
    destruct (_ && _) eqn:B; [|discriminate]. intros E. injection E as <-. apply andb_prop in B as [B _]. apply andb_prop in B as [B1 B2]. apply Nat.eqb_eq in B2. apply Z.eqb_eq in B1.
    unfold sdone, rdone. rewrite O. cbn [firstn existsb orb negb length]. repeat (split; [solve [auto]|]).
    intros ->. unfold cs. rewrite (todo_cons k p) by auto. destruct (Nat.ltb_spec k K); [|lia]. unfold rdone. rewrite O. reflexivity.
  - destruct j as [|[|[|j]]]; cbn [skipn]; rewrite ?O; cbn [skipn]; try discriminate.
    destruct (_ && _) eqn:B; [|discriminate]. intros E. injection E as <-. apply andb_prop in B as [B _]. apply andb_prop in B as [B1 B2]. apply Nat.eqb_eq in B2. apply Z.eqb_eq in B1.
    unfold sdone, rdone. rewrite O. cbn [firstn existsb orb negb length]. repeat (split; [solve [auto]|]).
    intros ->. unfold cs. rewrite (todo_cons k p) by auto. destruct (Nat.ltb_spec k K); [|lia]. unfold rdone. rewrite O. reflexivity.
Qed.

(** ---- steps keep the invariant ---- *)
Definition pp (pos : Z -> nat * nat) (p : Z) (v : nat * nat) : Z -> nat * nat := fun r => if r =? p then v else pos r.
Lemma pp_eq pos p v : pp pos p v p = v. Proof. unfold pp. now rewrite Z.eqb_refl. Qed.
Lemma pp_neq pos p v r : r <> p -> pp pos p v r = pos r. Proof. unfold pp. destruct (Z.eqb_spec r p); congruence. Qed.
Lemma sent_pp pos p bs k' r : sdone (fst (pos p)) (S (snd (pos p))) p = sdone (fst (pos p)) (snd (pos p)) p || bs ->
  (sent (pp pos p (fst (pos p), S (snd (pos p)))) k' r <-> sent pos k' r \/ bs = true /\ r = p /\ k' = fst (pos p)).
Proof.
  intros H. unfold sent. destruct (Z.eq_dec r p) as [->|N]; [|rewrite pp_neq by auto; tauto]. rewrite pp_eq. cbn [fst snd].
  split.
  - intros [A0|[-> B]]; [tauto|]. rewrite H in B. apply orb_prop in B as [B|B]; auto.
  - intros [[A0|[-> B]]|(B & _ & ->)]; [auto|right|right]; rewrite H, B; rewrite ?orb_true_r; auto.
Qed.
Lemma rcvd_pp pos p bs k' r : rdone (fst (pos p)) (S (snd (pos p))) p = rdone (fst (pos p)) (snd (pos p)) p || bs ->
  (rcvd (pp pos p (fst (pos p), S (snd (pos p)))) k' r <-> rcvd pos k' r \/ bs = true /\ r = p /\ k' = fst (pos p)).
Proof.
  intros H. unfold rcvd. destruct (Z.eq_dec r p) as [->|N]; [|rewrite pp_neq by auto; tauto]. rewrite pp_eq. cbn [fst snd].
  split.
  - intros [A0|[-> B]]; [tauto|]. rewrite H in B. apply orb_prop in B as [B|B]; auto.
  - intros [[A0|[-> B]]|(B & _ & ->)]; [auto|right|right]; rewrite H, B; rewrite ?orb_true_r; auto.
Qed.
Lemma leave_pp pos p k' r : isp p -> (fst (pos p) < K)%nat -> snd (pos p) = length (ops (fst (pos p)) p) -> (k' < K)%nat -> self k' r = false ->
  (sent (pp pos p (S (fst (pos p)), 0%nat)) k' r <-> sent pos k' r) /\ (rcvd (pp pos p (S (fst (pos p)), 0%nat)) k' r <-> rcvd pos k' r).
Proof.
  intros Hp Hk Hj Hk' Sf. unfold sent, rcvd. destruct (Z.eq_dec r p) as [->|N]; [|rewrite pp_neq by auto; tauto]. rewrite pp_eq. cbn [fst snd].
  unfold sdone, rdone. cbn [firstn existsb]. rewrite Hj.
  assert (X : k' = fst (pos p) -> existsb (fun b => b) (firstn (length (ops k' p)) (ops k' p)) = true /\ existsb negb (firstn (length (ops k' p)) (ops k' p)) = true).
  { intros _. rewrite firstn_all. destruct (ops_cases k' p Hp ltac:(lia)) as [[_ [?|[_ ?]]]|(_ & _ & [[-> _]|[-> _]])]; try lia; try congruence; auto. }
  split; split.
  - intros [B|[_ B]]; [|discriminate]. destruct (Nat.eq_dec k' (fst (pos p))) as [E|]; [right|left; lia]. split; [exact E|]. rewrite <- E. now apply X.
  - intros [B|[-> B]]; left; lia.
  - intros [B|[_ B]]; [|discriminate]. destruct (Nat.eq_dec k' (fst (pos p))) as [E|]; [right|left; lia]. split; [exact E|]. rewrite <- E. now apply X.
  - intros [B|[-> B]]; left; lia.
Qed.

Lemma isp_In p n : In (p, n) ps -> isp p /\ n = nn p.
Proof. intros I. split; [exact (in_map fst ps (p, n) I)|now apply Hnn]. Qed.
Lemma not_rcvd pos p : rdone (fst (pos p)) (snd (pos p)) p = false -> ~ rcvd pos (fst (pos p)) p.
Proof. intros R [B|[_ B]]; [lia|congruence]. Qed.
Lemma not_sent pos p : sdone (fst (pos p)) (snd (pos p)) p = false -> ~ sent pos (fst (pos p)) p.
Proof. intros R [B|[_ B]]; [lia|congruence]. Qed.

Lemma step_inv b pos s s' : inv pos s -> net_step es ps b s s' -> exists pos', inv pos' s'.
Proof.
  intros [IS IP IF IN IC] H. destruct H as [p n st fl P' Hp HL|p q np nq st fl tag vs P' Q' Hp Hq Npq HS HR|p np st fl q tag vs P' Hp HS|q nq st fl1 fl2 src tag vs Q' Hq HR]; cbn [fst snd] in *.
  - apply isp_In in Hp as [Hp ->]. destruct (IP p Hp) as [Kp Jp]. rewrite (IS p Hp) in HL. apply cs_leave in HL as (L & J & ->); auto.
    exists (pp pos p (S (fst (pos p)), 0%nat)). constructor; cbn [fst snd].
    + intros r Hr. unfold put, pp. destruct (Z.eqb_spec r p) as [->|]; [reflexivity|now apply IS].
    + intros r Hr. unfold pp. destruct (Z.eqb_spec r p) as [->|]; [cbn [fst snd]; lia|now apply IP].
    + intros x. rewrite IF. split; intros (k & r & A1 & A2 & A3 & A4 & A5 & A6); exists k, r; (do 4 (split; [assumption|])).
      * destruct (Hto k r A1 A2 A3) as (B1 & B2 & B3 & _). split; [now apply leave_pp|]. intros X. apply A6. now apply leave_pp in X.
      * destruct (Hto k r A1 A2 A3) as (B1 & B2 & B3 & _). split; [now apply leave_pp in A5|]. intros X. apply A6. now apply leave_pp.
    + exact IN.
    + intros k r A1 A2 A3 R. destruct (Hfrom k r A1 A2 A3) as (B1 & B2 & _). apply leave_pp; auto. apply IC; auto. now apply leave_pp in R.
  - apply isp_In in Hp as [Hp ->]. apply isp_In in Hq as [Hq ->]. destruct (IP p Hp) as [Kp Jp], (IP q Hq) as [Kq Jq].
    rewrite (IS p Hp) in HS. rewrite (IS q Hq) in HR. apply cs_sends in HS as (L & Sf & -> & -> & -> & -> & S1 & S2 & S3 & S4); auto.
    apply cs_receives in HR as (L' & Sf' & Ef & Ek & R1 & R2 & R3 & R4 & R5); auto.
    destruct (Hto _ p L Hp Sf) as (T1 & T2 & T3 & T4 & T5 & T6 & T7 & T8).
    set (q := to (fst (pos p)) p) in *. set (k := fst (pos p)) in *. rewrite (R5 ltac:(rewrite <- Ek; auto)).
    set (pos1 := pp pos p (k, S (snd (pos p)))). exists (pp pos1 q (fst (pos1 q), S (snd (pos1 q)))).
    assert (E1 : pos1 q = pos q) by (unfold pos1; now apply pp_neq).
    assert (ES : forall k' r, sent (pp pos1 q (fst (pos1 q), S (snd (pos1 q)))) k' r <-> sent pos k' r \/ r = p /\ k' = k).
    { intros k' r. rewrite (sent_pp pos1 q false) by (rewrite E1, R3, orb_false_r; reflexivity). unfold pos1, k. rewrite (sent_pp pos p true) by (rewrite orb_true_r; exact S2). intuition congruence. }
    assert (ER : forall k' r, rcvd (pp pos1 q (fst (pos1 q), S (snd (pos1 q)))) k' r <-> rcvd pos k' r \/ r = q /\ k' = k).
    { intros k' r. rewrite (rcvd_pp pos1 q true) by (rewrite E1, orb_true_r; exact R2). rewrite E1. unfold pos1, k. rewrite (rcvd_pp pos p false) by (rewrite orb_false_r; exact S3). rewrite <- Ek. intuition congruence. }
    constructor; cbn [fst snd].
    + intros r Hr. unfold put. destruct (Z.eqb_spec r q) as [->|Nq]; [rewrite pp_eq, E1; reflexivity|]. rewrite (pp_neq _ q) by auto. unfold pos1, pp. destruct (Z.eqb_spec r p) as [->|]; [reflexivity|now apply IS].
    + intros r Hr. destruct (Z.eq_dec r q) as [->|Nq]; [rewrite pp_eq, E1; cbn [fst snd]; auto|]. rewrite pp_neq by auto. unfold pos1. destruct (Z.eq_dec r p) as [->|N]; [rewrite pp_eq; cbn [fst snd]; auto|rewrite pp_neq by auto; now apply IP].
    + intros x. rewrite IF. split; intros (k' & r & A1 & A2 & A3 & A4 & A5 & A6); exists k', r; (do 4 (split; [assumption|])).
      * rewrite ES, ER. split; [now left|]. intros [X|[X1 X2]]; [contradiction|]. subst k'. assert (r = p).
        { destruct (Hto k r A1 A2 A3) as (_ & _ & _ & F & _). rewrite X1 in F. congruence. }
        subst r. now apply (not_sent pos p S1).
      * rewrite ES in A5. rewrite ER in A6. destruct A5 as [A5|[-> ->]]; [split; [exact A5|tauto]|]. exfalso. apply A6. right. auto.
    + exact IN.
    + intros k' r A1 A2 A3 R. rewrite ER in R. rewrite ES. destruct R as [R|[-> ->]]; [left; now apply IC|]. right. auto.
  - apply isp_In in Hp as [Hp ->]. destruct (IP p Hp) as [Kp Jp].
    rewrite (IS p Hp) in HS. apply cs_sends in HS as (L & Sf & -> & -> & -> & -> & S1 & S2 & S3 & S4); auto.
    destruct (Hto _ p L Hp Sf) as (T1 & T2 & T3 & T4 & T5 & T6 & T7 & T8).
    set (k := fst (pos p)) in *. set (q := to k p) in *.
    exists (pp pos p (k, S (snd (pos p)))).
    assert (ES : forall k' r, sent (pp pos p (k, S (snd (pos p)))) k' r <-> sent pos k' r \/ r = p /\ k' = k).
    { intros k' r. unfold k. rewrite (sent_pp pos p true) by (rewrite orb_true_r; exact S2). fold k. tauto. }
    assert (ER : forall k' r, rcvd (pp pos p (k, S (snd (pos p)))) k' r <-> rcvd pos k' r).
    { intros k' r. unfold k. rewrite (rcvd_pp pos p false) by (rewrite orb_false_r; exact S3). intuition congruence. }
    constructor; cbn [fst snd].
    + intros r Hr. unfold put, pp. destruct (Z.eqb_spec r p) as [->|]; [reflexivity|now apply IS].
    + intros r Hr. unfold pp. destruct (Z.eqb_spec r p) as [->|]; [cbn [fst snd]; auto|now apply IP].
    + intros x. cbn [In]. rewrite IF. split.
      * intros [<-|(k' & r & A1 & A2 & A3 & A4 & A5 & A6)].
        -- exists k, p. do 4 (split; [auto|]). rewrite ES, ER. split; [auto|]. intros X. apply IC in X; auto. fold q in X. rewrite T4 in X. now apply (not_sent pos p S1).
        -- exists k', r. do 4 (split; [auto|]). rewrite ES, ER. auto.
      * intros (k' & r & A1 & A2 & A3 & A4 & A5 & A6). rewrite ES in A5. rewrite ER in A6. destruct A5 as [A5|[-> ->]]; [right; exists k', r; auto 10|left; auto].
    + constructor; [|exact IN]. intros X. apply IF in X as (k' & r & A1 & A2 & A3 & A4 & A5 & A6). injection A4 as Er _ Ek _. subst r k'. now apply (not_sent pos p S1).
    + intros k' r A1 A2 A3 R. rewrite ER in R. rewrite ES. left. now apply IC.
  - apply isp_In in Hq as [Hq ->]. destruct (IP q Hq) as [Kq Jq]. rewrite (IS q Hq) in HR. apply cs_receives in HR as (L & Sf & -> & -> & R1 & R2 & R3 & R4 & R5); auto.
    set (k := fst (pos q)) in *.
    assert (X : In (Packet (from k q) q k vs) (fl1 ++ Packet (from k q) q k vs :: fl2)) by (apply in_or_app; right; now left).
    apply IF in X as (k' & r & A1 & A2 & A3 & A4 & A5 & A6). injection A4 as <- E2 <- E4. destruct (Hto k (from k q) A1 A2 A3) as (T1 & T2 & T3 & T4 & T5 & T6 & T7 & T8).
    rewrite (R5 ltac:(rewrite E2; congruence)). exists (pp pos q (k, S (snd (pos q)))).
    assert (ES : forall k' r, sent (pp pos q (k, S (snd (pos q)))) k' r <-> sent pos k' r).
    { intros k' r. unfold k. rewrite (sent_pp pos q false) by (rewrite orb_false_r; exact R3). intuition congruence. }
    assert (ER : forall k' r, rcvd (pp pos q (k, S (snd (pos q)))) k' r <-> rcvd pos k' r \/ r = q /\ k' = k).
    { intros k' r. unfold k. rewrite (rcvd_pp pos q true) by (rewrite orb_true_r; exact R2). fold k. tauto. }
    constructor; cbn [fst snd].
    + intros r Hr. unfold put, pp. destruct (Z.eqb_spec r q) as [->|]; [reflexivity|now apply IS].
    + intros r Hr. unfold pp. destruct (Z.eqb_spec r q) as [->|]; [cbn [fst snd]; auto|now apply IP].
    + intros x. assert (NX : x <> Packet (from k q) q k vs -> (In x (fl1 ++ fl2) <-> In x (fl1 ++ Packet (from k q) q k vs :: fl2))).
      { intros N. rewrite !in_app_iff. cbn [In]. intuition congruence. }
      split.
      * intros I. assert (x <> Packet (from k q) q k vs) as N by (intros ->; now apply (NoDup_remove_2 _ _ _ IN)). apply NX in I; auto. apply IF in I as (k' & r & B1 & B2 & B3 & B4 & B5 & B6).
        exists k', r. do 4 (split; [assumption|]). rewrite ES, ER. split; [assumption|]. intros [X|[X1 X2]]; [contradiction|]. subst k'. apply N. rewrite B4. destruct (Hto k r B1 B2 B3) as (_ & _ & _ & F & _). rewrite X1 in F. subst r. congruence.
      * intros (k' & r & B1 & B2 & B3 & B4 & B5 & B6). rewrite ES in B5. rewrite ER in B6. apply NX; [|apply IF; exists k', r; tauto].
        intros ->. injection B4 as E5 E6 E7 E8. subst k'. apply B6. right. split; [congruence|reflexivity].
    + eapply NoDup_remove_1; eauto.
    + intros k' r B1 B2 B3 R. rewrite ER in R. rewrite ES. destruct R as [R|[-> ->]]; [now apply IC|exact A5].
Qed.
Lemma runs_inv pos s s' : inv pos s -> net_runs es ps s s' -> exists pos', inv pos' s'.
Proof. intros I R. induction R; [eauto|]. destruct (IHR I) as (p & I'). eapply step_inv; eauto. Qed.

Lemma start_inv st : (forall p, isp p -> st p = cs 0 0 p) -> inv (fun _ => (0%nat, 0%nat)) (st, []).
Proof.
  intros H. constructor; cbn [fst snd].
  - exact H.
  - intros p _. split; lia.
  - intros x. split; [intros []|]. intros (k & p & _ & _ & _ & _ & [A0|[_ A0]] & _); [cbn in A0; lia|]. cbn in A0. discriminate.
  - constructor.
  - intros k p _ _ _ [A0|[_ A0]]; [cbn in A0; lia|cbn in A0; discriminate].
Qed.

(** ---- progress ---- *)
Definition slot k j p : nat := match skipn j (ops k p) with true :: _ => tS k p | false :: _ => tR k p | [] => 0 end.
Lemma head_cases k j p : isp p -> (k < K)%nat -> (j <= length (ops k p))%nat ->
  j = length (ops k p) \/
  self k p = false /\ (exists r, skipn j (ops k p) = true :: r) /\ sdone k j p = false /\ (rdone k j p = false -> (tS k p < tR k p)%nat) \/
  self k p = false /\ (exists r, skipn j (ops k p) = false :: r) /\ rdone k j p = false /\ (sdone k j p = false -> (tR k p < tS k p)%nat).
Proof.
  intros Hp Hk Hj. unfold sdone, rdone. destruct (ops_cases k p Hp ltac:(lia)) as [[O _]|(_ & Sf & [[O T]|[O T]])]; rewrite O in *; cbn [length] in *; [left; lia| |].
  - destruct j as [|[|[|j]]]; [right; left|right; right|left; reflexivity|lia]; cbn; (split; [exact Sf|]); (split; [eexists; reflexivity|]); (split; [reflexivity|]); intros; try discriminate; exact T.
  - destruct j as [|[|[|j]]]; [right; right|right; left|left; reflexivity|lia]; cbn; (split; [exact Sf|]); (split; [eexists; reflexivity|]); (split; [reflexivity|]); intros; try discriminate; exact T.
Qed.
Lemma cs_sends_ok k j p r : isp p -> (k < K)%nat -> self k p = false -> skipn j (ops k p) = true :: r -> exists P', sends es (cs k j p) = Some (to k p, k, SB k p, P').
Proof.
  intros Hp Hk Sf O. destruct (Hto k p Hk Hp Sf) as (_ & _ & _ & _ & _ & L & _). unfold sends. cbn [cs p_todo p_ops p_tag p_mem p_snd p_rcv]. rewrite todo_cons by auto. rewrite O.
  destruct (Nat.ltb_spec k K); [|lia]. destruct (Z.eqb_spec (es * Z.of_nat (length (SB k p))) (g_len (gs_msg (e k p)))); [|contradiction]. eauto.
Qed.
Lemma cs_receives_ok k j p r : isp p -> (k < K)%nat -> self k p = false -> skipn j (ops k p) = false :: r -> exists P', receives (nn p) (cs k j p) (from k p) k (SB k (from k p)) = Some P'.
Proof.
  intros Hp Hk Sf O. destruct (Hfrom k p Hk Hp Sf) as (F1 & F2 & F3). destruct (Hto k (from k p) Hk F1 F2) as (_ & _ & _ & _ & _ & _ & _ & L). rewrite F3 in L.
  unfold receives. cbn [cs p_todo p_ops p_tag p_mem p_snd p_rcv]. rewrite todo_cons by auto. rewrite O. rewrite Z.eqb_refl, Nat.eqb_refl.
  destruct (Z.leb_spec (Z.of_nat (length (SB k (from k p)))) (nn p)); [|lia]. cbn [andb]. eauto.
Qed.
Lemma isp_pair p : isp p -> In (p, nn p) ps.
Proof. intros I. apply in_map_iff in I as ((q & n) & <- & I). cbn [fst]. rewrite <- (Hnn q n I). exact I. Qed.

Lemma progress_from pos s : inv pos s -> forall N p, isp p -> (fst (pos p) < K)%nat -> (3 * fst (pos p) + slot (fst (pos p)) (snd (pos p)) p < N)%nat ->
  exists s', net_step es ps false s s'.
Proof.
  intros I. destruct s as [st fl]. pose proof (i_st _ _ I) as IS. pose proof (i_pos _ _ I) as IP. cbn [fst snd] in *.
  induction N as [|N IH]; intros p Hp Hk HN; [lia|]. destruct (IP p Hp) as [Kp Jp]. set (k := fst (pos p)) in *. set (j := snd (pos p)) in *.
  destruct (head_cases k j p Hp Hk Jp) as [J|[(Sf & (r & O) & SD & _)|(Sf & (r & O) & RD & _)]].
  - eexists. eapply Step_leave; [apply isp_pair, Hp|]. rewrite (IS p Hp). fold k j. rewrite J. apply cs_leave_ok; auto.
  - destruct (Hto k p Hk Hp Sf) as (T1 & T2 & T3 & T4 & T5 & T6 & T7 & T8). set (q := to k p) in *.
    assert (NR : ~ rcvd pos k q). { intros R. apply (i_cau _ _ I) in R; auto. rewrite T4 in R. now apply (not_sent pos p SD). }
    destruct (IP q T1) as [Kq Jq]. destruct (Nat.lt_trichotomy (fst (pos q)) k) as [Lt|[Eq|Gt]].
    + apply (IH q T1); [lia|]. assert (SL : (slot (fst (pos q)) (snd (pos q)) q < 3)%nat); [|lia]. unfold slot.
      destruct (head_cases (fst (pos q)) (snd (pos q)) q T1 ltac:(lia) Jq) as [J'|[(Sf' & _)|(Sf' & _)]]; [rewrite J', skipn_all; lia|destruct (Hcomm (fst (pos q)) q ltac:(lia) T1 Sf') as (B1 & B2 & _); destruct (skipn (snd (pos q)) (ops (fst (pos q)) q)) as [|[|] ?]; [apply Nat.lt_0_succ|exact B1|exact B2]..].
    + assert (RQ : rdone k (snd (pos q)) q = false). { destruct (rdone k (snd (pos q)) q) eqn:R; [exfalso; apply NR; right; auto|reflexivity]. } rewrite Eq in Jq.
      destruct (head_cases k (snd (pos q)) q T1 Hk Jq) as [J'|[(_ & (r' & O') & SD' & T')|(_ & (r' & O') & _)]].
      * exfalso. rewrite J' in RQ. unfold rdone in RQ. rewrite firstn_all in RQ. destruct (ops_cases k q T1 ltac:(lia)) as [[_ [?|[_ ?]]]|(_ & _ & [[E0 _]|[E0 _]])]; try lia; try congruence; rewrite E0 in RQ; discriminate.
      * apply (IH q T1); [lia|]. rewrite Eq. unfold slot in *. rewrite O'. rewrite O in HN. specialize (T' RQ). lia.
      * destruct (cs_sends_ok k j p r Hp Hk Sf O) as (P' & E1). destruct (cs_receives_ok k (snd (pos q)) q r' T1 Hk T3 O') as (Q' & E2). rewrite T4 in E2.
        eexists. apply (Step_meet es ps p q (nn p) (nn q) st fl k (SB k p) P' Q'); auto using isp_pair; [rewrite (IS p Hp); exact E1|rewrite (IS q T1), Eq; exact E2].
    + exfalso. apply NR. now left.
  - destruct (Hfrom k p Hk Hp Sf) as (F1 & F2 & F3). set (q := from k p) in *. destruct (Hto k q Hk F1 F2) as (T1 & T2 & T3 & T4 & T5 & T6 & T7 & T8). rewrite F3 in *.
    destruct (cs_receives_ok k j p r Hp Hk Sf O) as (P' & E1). fold q in E1.
    assert (FE : sent pos k q -> exists s', net_step es ps false (st, fl) s').
    { intros SQ. assert (X : In (Packet q p k (SB k q)) fl).
      { apply (i_fl _ _ I). exists k, q. rewrite F3. do 5 (split; [auto|]). apply (not_rcvd pos p RD). }
      apply in_split in X as (l1 & l2 & ->). eexists. apply (Step_fetch es ps p (nn p) st l1 l2 q k (SB k q) P'); auto using isp_pair. rewrite (IS p Hp). exact E1. }
    destruct (IP q F1) as [Kq Jq]. destruct (Nat.lt_trichotomy (fst (pos q)) k) as [Lt|[Eq|Gt]].
    + apply (IH q F1); [lia|]. assert (SL : (slot (fst (pos q)) (snd (pos q)) q < 3)%nat); [|lia]. unfold slot.
      destruct (head_cases (fst (pos q)) (snd (pos q)) q F1 ltac:(lia) Jq) as [J'|[(Sf' & _)|(Sf' & _)]]; [rewrite J', skipn_all; lia|destruct (Hcomm (fst (pos q)) q ltac:(lia) F1 Sf') as (B1 & B2 & _); destruct (skipn (snd (pos q)) (ops (fst (pos q)) q)) as [|[|] ?]; [apply Nat.lt_0_succ|exact B1|exact B2]..].
    + destruct (sdone k (snd (pos q)) q) eqn:SQ; [apply FE; right; auto|]. rewrite Eq in Jq.
      destruct (head_cases k (snd (pos q)) q F1 Hk Jq) as [J'|[(_ & (r' & O') & _)|(_ & (r' & O') & RD' & T')]].
      * exfalso. rewrite J' in SQ. unfold sdone in SQ. rewrite firstn_all in SQ. destruct (ops_cases k q F1 ltac:(lia)) as [[_ [?|[_ ?]]]|(_ & _ & [[E0 _]|[E0 _]])]; try lia; try congruence; rewrite E0 in SQ; discriminate.
      * destruct (cs_sends_ok k (snd (pos q)) q r' F1 Hk F2 O') as (Q' & E2). rewrite F3 in E2.
        eexists. apply (Step_meet es ps q p (nn q) (nn p) st fl k (SB k q) Q' P'); auto using isp_pair; [rewrite (IS q F1), Eq; exact E2|rewrite (IS p Hp); exact E1].
      * apply (IH q F1); [lia|]. rewrite Eq. unfold slot in *. rewrite O'. rewrite O in HN. specialize (T' SQ). lia.
    + apply FE. now left.
Qed.

Lemma done_or_step pos s : inv pos s -> (forall p, isp p -> fst (pos p) = K) \/ exists s', net_step es ps false s s'.
Proof.
  intros I. assert (D : (forall p, isp p -> fst (pos p) = K) \/ exists p, isp p /\ fst (pos p) <> K).
  { unfold isp. induction (map fst ps) as [|p l IH]; [left; intros p []|]. destruct (Nat.eq_dec (fst (pos p)) K) as [E0|N]; [|right; exists p; split; [now left|exact N]].
    destruct IH as [IH|(q & Hq & N)]; [left; intros q [<-|Hq]; auto|right; exists q; split; [now right|exact N]]. }
  destruct D as [D|(p & Hp & N)]; [now left|]. right. destruct (i_pos _ _ I p Hp). eapply (progress_from pos s I _ p Hp); [lia|apply Nat.lt_succ_diag_r].
Qed.

Lemma done_final pos s : inv pos s -> (forall p, isp p -> fst (pos p) = K) -> net_done ps s /\ forall p, isp p -> p_mem (fst s p) = M K p.
Proof.
  intros I D. split; [split|].
  - destruct (snd s) as [|x l] eqn:F; [reflexivity|]. exfalso. assert (X : In x (snd s)) by (rewrite F; now left). apply (i_fl _ _ I) in X as (k & p & A1 & A2 & A3 & A4 & A5 & A6).
    apply A6. left. destruct (Hto k p A1 A2 A3) as (T1 & _). rewrite D; auto.
  - intros p n Ip. apply isp_In in Ip as [Hp _]. rewrite (i_st _ _ I p Hp). apply cs_done; auto; rewrite D; auto.
  - intros p Hp. rewrite (i_st _ _ I p Hp). rewrite D by auto. reflexivity.
Qed.

Theorem net_ok st : (forall p, isp p -> st p = cs 0 0 p) -> forall s, net_runs es ps (st, []) s ->
  (net_done ps s /\ forall p, isp p -> p_mem (fst s p) = M K p) \/ exists s', net_step es ps false s s'.
Proof.
  intros H s R. destruct (runs_inv _ _ _ (start_inv st H) R) as (pos & I). destruct (done_or_step pos s I) as [D|D]; [left|now right]. eapply done_final; eauto.
Qed.
End Net.
