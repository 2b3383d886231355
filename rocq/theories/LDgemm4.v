(** Lemmas: GA_Dgemm, the algorithm for regular distributions. *)
From Verif Require Import LRadix LDist LStrided LStrided2 LIterReg LIterReg3 LIterSca LStore LXfer LXfer2 LLoc LAccess LSelect LSelect2 LOdo LGcopy2 LGcopy3 LGcopy4 LGcopy5 LCpatch LCpatch2 LPw LPw2 SpecDiag SpecDgemm LMat2.
From Verif Require Export LDgemm3.
Open Scope Z_scope.

(** ---- the task list ---- *)
Definition tag_of (t : rtask) : bool * ((Z * Z) * (Z * Z) * (Z * Z)) := (g_put t, (g_j t, g_k t, g_i t)).
Definition expand (is : list (Z * Z)) (gs : list (bool * ((Z * Z) * (Z * Z)))) : list (bool * ((Z * Z) * (Z * Z) * (Z * Z))) :=
  flat_map (fun g => map (fun ic => (fst g, (fst (snd g), snd (snd g), ic))) is) gs.
Lemma expand_groups p is ks js : expand is (groups p ks js) = cols_tags p is ks js.
Proof.
  unfold expand, groups, cols_tags. induction js as [|jc js IH]; [reflexivity|]. cbn [flat_map]. rewrite flat_map_app. f_equal; [|exact IH].
  clear IH. revert p. induction ks as [|kc ks IH]; intros p; [reflexivity|]. cbn [inner_groups inner_tags flat_map]. rewrite IH. reflexivity.
Qed.
Lemma task_list_spec is : forall gs ii jj, exists gs1, gs = gs1 ++ snd (task_list is gs ii jj) /\ map tag_of (fst (task_list is gs ii jj)) = expand is gs1 /\
  (forall t, In t (fst (task_list is gs ii jj)) -> exists n, nth_error gs n = Some (g_put t, (g_j t, g_k t)) /\ g_b t = jj + Z.of_nat n /\ In (g_i t) is) /\
  (ii = 0 -> Z.of_nat (length is) < 1024 -> gs <> [] -> gs1 <> []).
Proof.
  induction gs as [|g gs IH]; intros ii jj; cbn [task_list].
  { exists []. repeat split; try congruence. intros t []. }
  destruct (Z.leb_spec 1024 (ii + Z.of_nat (length is))).
  { exists []. cbn [fst snd]. repeat split; try lia. intros t []. }
  destruct (IH (ii + Z.of_nat (length is)) (jj + 1)) as (gs1 & E1 & E2 & E3 & _). exists (g :: gs1). cbn [fst snd]. split; [cbn; now rewrite <- E1|]. split.
  { rewrite map_app, map_map, E2. reflexivity. }
  split; [|congruence]. intros t Ht. apply in_app_iff in Ht as [Ht|Ht].
  - apply in_map_iff in Ht as (ic & <- & Hi). exists O. cbn. destruct g as [p [j k]]. repeat split; [lia|exact Hi].
  - destruct (E3 t Ht) as (n & N1 & N2 & N3). exists (S n). split; [exact N1|]. split; [lia|exact N3].
Qed.

Section Reg.
Context {V : Type} (radd rmul : V -> V -> V) (zero : V) (conj : V -> V) (junk : V).
Variables (guess : Z -> Z -> Z -> Z) (wn : Z) (smp : Z -> bool) (rnda rndb rndc : Z -> Z -> Z).
Variables (oa ob : mop) (alpha : V) (a b c : garray) (pa pb pc : list Z -> place -> Prop) (sha shb shc : list Z -> Prop).
Variables (da1 da2 db1 db2 dc1 dc2 : Z) (ma mb : heap V) (A B : list Z -> V).
Variables (ailo aihi ajlo ajhi bilo bihi bjlo bjhi cilo cihi cjlo cjhi sa sb I J K : Z).
Hypothesis SR : semiring radd rmul zero.
Hypothesis HG : good_guess guess.
Hypothesis (RA : forall t k, 0 <= rnda t k) (RB : forall t k, 0 <= rndb t k) (RC : forall t k, 0 <= rndc t k).
Hypothesis (LA : any_layout a wn pa sha) (LB : any_layout b wn pb shb) (LC : any_layout c wn pc shc).
Hypothesis (SA : small_local a sha) (SB : small_local b shb) (SC : small_local c shc).
Hypothesis (DA : dims (ga_desc a) = [da1; da2]) (DB : dims (ga_desc b) = [db1; db2]) (DC : dims (ga_desc c) = [dc1; dc2]).
Hypothesis (AA : allocated pa ma) (AB : allocated pb mb) (HA : holds [da1; da2] pa ma A) (HB : holds [db1; db2] pb mb B).
Hypothesis (PA : op_patch oa [da1; da2] [ailo; ajlo] [aihi; ajhi]) (PB : op_patch ob [db1; db2] [bilo; bjlo] [bihi; bjhi])
  (PC : op_patch opN [dc1; dc2] [cilo; cjlo] [cihi; cjhi]).
Hypothesis (E1 : cihi - cilo = aihi - ailo) (E2 : ajhi - ajlo = bihi - bilo) (E3 : bjhi - bjlo = cjhi - cjlo).
Hypothesis (Ia : ga_elemsize a * (I * K) <= int_max) (Ib : ga_elemsize b * (K * J) <= int_max) (Ic : ga_elemsize c * (I * J) <= int_max).
Hypothesis (Sa : I * K <= sa) (Sb : K * J <= sb).
Let planeA := Plane [ailo; ajlo] [aihi; ajhi] [da1; da2] 0 1.
Let planeB := Plane [bilo; bjlo] [bihi; bjhi] [db1; db2] 0 1.
Let planeC := Plane [cilo; cjlo] [cihi; cjhi] [dc1; dc2] 0 1.
Let bok := @b_ok V conj ob B bilo bjlo.
Let aok (ic kc : Z * Z) (ab : buffer V) : Prop := forall i l, 0 <= i < len ic -> 0 <= l < len kc ->
  exists v, ab (if is_n oa then i + l * len ic else l + i * len kc) = Some v /\ cj conj oa v = op_at conj oa A ailo ajlo (fst ic + i) (fst kc + l).
Let ich := chunk_of (aihi - ailo + 1) I.
Let jch := chunk_of (bjhi - bjlo + 1) J.
Let kch := chunk_of (ajhi - ajlo + 1) K.
Let tt := ttok radd rmul zero conj oa ob alpha pc A B ailo ajlo bilo bjlo cilo cjlo.
Definition good_task (t : rtask) : Prop := ich (g_i t) /\ jch (g_j t) /\ kch (g_k t).
Definition same_b (ts : list rtask) : Prop := forall t t', In t ts -> In t' ts -> g_b t = g_b t' -> g_j t = g_j t' /\ g_k t = g_k t'.
Let loop fuel := reg_loop radd rmul zero conj junk fuel guess wn smp rnda rndb rndc oa ob alpha a b c planeA planeB planeC ma mb sa sb.
Let round fuel := reg_round radd rmul zero conj junk fuel guess wn smp rnda rndb rndc oa ob alpha a b c planeA planeB planeC ma mb sa sb.
Let rounds fuel := reg_rounds radd rmul zero conj junk fuel guess wn smp rnda rndb rndc oa ob alpha a b c planeA planeB planeC ma mb sa sb.

Lemma get_a no t : good_task t -> exists ab n, aok (g_i t) (g_k t) ab /\ forall fuel, (n <= fuel)%nat ->
  fetch junk fuel guess (rnda no) wn smp oa a planeA ma sa (g_i t) (g_k t) = Some (ab, if is_n oa then len (g_i t) else len (g_k t)).
Proof.
  intros (H1 & H2 & H3). unfold ich, jch, kch, chunk_of in *.
  destruct (fetch_ok conj junk guess wn smp a pa sha da1 da2 ma A HG LA SA DA AA HA (rnda no) oa ailo aihi ajlo ajhi sa (g_i t) (g_k t)) as (ab & na & Ea & Xa); auto; try lia.
  { eapply Z.le_trans; [|exact Sa]. apply mul_le2; unfold len in *; lia. }
  { eapply Z.le_trans; [|exact Ia]. apply Z.mul_le_mono_nonneg_l; [destruct SA; lia|]. apply mul_le2; unfold len in *; lia. }
  exists ab, na. split; [exact Xa|exact Ea].
Qed.
Lemma get_b no t : good_task t -> exists bb n, bok (g_k t) (g_j t) (Some bb) /\ forall fuel, (n <= fuel)%nat ->
  fetch junk fuel guess (rndb no) wn smp ob b planeB mb sb (g_k t) (g_j t) = Some bb.
Proof.
  intros (H1 & H2 & H3). unfold ich, jch, kch, chunk_of in *.
  destruct (fetch_ok conj junk guess wn smp b pb shb db1 db2 mb B HG LB SB DB AB HB (rndb no) ob bilo bihi bjlo bjhi sb (g_k t) (g_j t)) as (buf & nb & Eb & Xb); auto; try lia.
  { eapply Z.le_trans; [|exact Sb]. apply mul_le2; unfold len in *; lia. }
  { eapply Z.le_trans; [|exact Ib]. apply Z.mul_le_mono_nonneg_l; [destruct SB; lia|]. apply mul_le2; unfold len in *; lia. }
  eexists (buf, _), nb. split; [|exact Eb]. split; [reflexivity|exact Xb].
Qed.

(** The parts that the next product reads. *)
Definition ready (t : rtask) (s : rpipe (V := V)) : Prop :=
  r_adim s = (if is_n oa then len (g_i t) else len (g_k t)) /\ (r_new s = false -> r_bp s = r_sb s) /\
  (exists ab, r_a s (r_sa s) = Some ab /\ aok (g_i t) (g_k t) ab) /\
  (exists bb, r_b s (r_sb s) = Some bb /\ bok (g_k t) (g_j t) (Some (bb, r_bdim s))).
Lemma slot_same {X} (f : bool -> X) s v : put_slot f s v s = v.
Proof. unfold put_slot. now rewrite Bool.eqb_reflx. Qed.
Lemma slot_other {X} (f : bool -> X) s v : put_slot f (negb s) v s = f s.
Proof. unfold put_slot. now destruct s. Qed.

Lemma reg_loop_ok : forall ts no s, (forall t, In t ts -> good_task t) -> same_b ts -> (forall t r, ts = t :: r -> ready t s) ->
  exists xs n, Forall2 tt (map tag_of ts) xs /\ forall fuel, (n <= fuel)%nat -> loop fuel ts no s = Some (tag_ops xs).
Proof.
  induction ts as [|t rest IH]; intros no s GT SM RD.
  { exists [], O. split; [constructor|reflexivity]. }
  destruct (RD t rest eq_refl) as (RA1 & RN & (ab & A1 & A2) & (bb & B1 & B2)). pose proof (GT t (or_introl eq_refl)) as GT0. pose proof GT0 as (H1 & H2 & H3).
  destruct (product_ok radd rmul zero conj guess wn smp rnda rndb rndc oa ob alpha c pc shc dc1 dc2 A B ailo aihi ajlo ajhi bilo bjlo bjhi cilo cihi cjlo cjhi I J K
    SR HG RA RB RC LC SC DC PC E1 E3 Ic (g_i t) (g_j t) (g_k t) ab bb (r_bdim s) no H1 H2 H3 A2 B2) as (ot & nc & TO & Ec).
  assert (BP : (if r_new s then r_sb s else r_bp s) = r_sb s) by (destruct (r_new s); auto).
  assert (NX : exists s' n, (forall fuel, (n <= fuel)%nat ->
      match rest with
      | [] => Some (RPipe (r_sa s) (r_sb s) (r_a s) (r_b s) (r_adim s) (r_bdim s) (r_sb s) false)
      | t' :: _ =>
          do fa <- fetch junk fuel guess (rnda (no + 1)) wn smp oa a planeA ma sa (g_i t') (g_k t');
          let ara := put_slot (r_a s) (negb (r_sa s)) (Some (fst fa)) in
          if g_b t =? g_b t' then Some (RPipe (r_sa s) (r_sb s) ara (r_b s) (snd fa) (r_bdim s) (r_sb s) false)
          else
            do fb <- fetch junk fuel guess (rndb (no + 1)) wn smp ob b planeB mb sb (g_k t') (g_j t');
            Some (RPipe (r_sa s) (negb (r_sb s)) ara (put_slot (r_b s) (negb (r_sb s)) (Some (fst fb))) (snd fa) (snd fb) (r_sb s) true)
      end = Some s') /\ r_a s' (r_sa s') = Some ab /\ r_b s' (r_sb s) = Some bb /\
      forall t' r, rest = t' :: r -> ready t' (RPipe (negb (r_sa s')) (r_sb s') (r_a s') (r_b s') (r_adim s') (r_bdim s') (r_sb s) (r_new s'))).
  { destruct rest as [|t' rest].
    - eexists _, O. split; [reflexivity|]. cbn. split; [exact A1|]. split; [exact B1|]. discriminate.
    - destruct (get_a (no + 1) t') as (ab' & na & Xa & Ea). { apply GT. right. now left. }
      destruct (g_b t =? g_b t') eqn:EB.
      + apply Z.eqb_eq in EB. destruct (SM t t') as [J1 K1]; [now left|right; now left|exact EB|].
        eexists _, na. split; [intros fuel Hf; rewrite Ea by exact Hf; cbn [fst snd]; reflexivity|]. cbn [r_a r_b r_sa r_sb r_adim r_bdim r_new].
        split; [rewrite slot_other; exact A1|]. split; [exact B1|]. intros t0 r [= <- <-]. split; [reflexivity|]. split; [reflexivity|]. cbn [r_a r_b r_sa r_sb r_bdim].
        split; [exists ab'; split; [apply slot_same|exact Xa]|]. exists bb. split; [exact B1|]. rewrite <- J1, <- K1. exact B2.
      + destruct (get_b (no + 1) t') as (fb & nb & Xb & Eb). { apply GT. right. now left. }
        eexists _, (Nat.max na nb). split; [intros fuel Hf; rewrite Ea by lia; rewrite Eb by lia; cbn [fst snd]; reflexivity|]. cbn [r_a r_b r_sa r_sb r_adim r_bdim r_new].
        split; [rewrite slot_other; exact A1|]. split; [rewrite slot_other; exact B1|]. intros t0 r [= <- <-]. split; [reflexivity|]. split; [discriminate|]. cbn [r_a r_b r_sa r_sb r_bdim].
        split; [exists ab'; split; [apply slot_same|exact Xa]|]. exists (fst fb). split; [apply slot_same|]. destruct fb. exact Xb. }
  destruct NX as (s' & nx & EX & A3 & B3 & RD').
  destruct (IH (no + 1) (RPipe (negb (r_sa s')) (r_sb s') (r_a s') (r_b s') (r_adim s') (r_bdim s') (r_sb s) (r_new s'))) as (xs & nr & F & Er).
  { intros; apply GT; now right. } { intros u u' Hu Hu'. apply SM; now right. } { exact RD'. }
  exists ((g_put t, ot) :: xs), (Nat.max nx (Nat.max nc nr)). split; [constructor; [split; [reflexivity|exact TO]|exact F]|].
  intros fuel Hf. unfold loop in *. cbn [reg_loop]. rewrite BP. rewrite EX by lia. rewrite A3, B3. rewrite RA1.
  specialize (Ec fuel ltac:(lia)). fold planeC in Ec. destruct (c_transfers _ _ _ _ _ _ _ _ _ _) as [ts|]; [|discriminate].
  rewrite Er by lia. change (tag_ops ((g_put t, ot) :: xs)) with (tag_all (g_put t) (op_events [ot]) ++ tag_ops xs). remember (op_events [ot]) as es eqn:EES. clear EES.
  injection Ec as Ec. rewrite <- Ec. unfold tag_all. rewrite map_map. reflexivity.
Qed.
Lemma reg_round_ok ts no : (forall t, In t ts -> good_task t) -> same_b ts ->
  exists xs n, Forall2 tt (map tag_of ts) xs /\ forall fuel, (n <= fuel)%nat -> round fuel ts no = Some (tag_ops xs).
Proof.
  destruct ts as [|t rest]; intros GT SM.
  { exists [], O. split; [constructor|reflexivity]. }
  destruct (get_a no t (GT t (or_introl eq_refl))) as (ab & na & Xa & Ea). destruct (get_b no t (GT t (or_introl eq_refl))) as (fb & nb & Xb & Eb).
  destruct (reg_loop_ok (t :: rest) no (RPipe false false (put_slot (fun _ => None) false (Some ab)) (put_slot (fun _ => None) false (Some (fst fb)))
    (if is_n oa then len (g_i t) else len (g_k t)) (snd fb) false true)) as (xs & n & F & E); auto.
  { intros t0 r [= <- <-]. split; [reflexivity|]. split; [discriminate|]. split; [exists ab; split; [reflexivity|exact Xa]|]. exists (fst fb). split; [reflexivity|]. destruct fb. exact Xb. }
  exists xs, (Nat.max n (Nat.max na nb)). split; [exact F|]. intros fuel Hf. unfold round, reg_round. rewrite Ea, Eb by lia. cbn [fst snd]. apply E. lia.
Qed.
Lemma reg_rounds_ok is : (forall ic, In ic is -> ich ic) -> Z.of_nat (length is) < 1024 -> forall N gs no, (length gs < N)%nat ->
  (forall g, In g gs -> jch (fst (snd g)) /\ kch (snd (snd g))) ->
  exists xs n, Forall2 tt (expand is gs) xs /\ forall fuel N', (n <= fuel)%nat -> (N <= N')%nat -> rounds fuel N' is gs no = Some (tag_ops xs).
Proof.
  intros HI HL. induction N as [|N IH]; intros gs no Hg HGS; [lia|].
  destruct (task_list_spec is gs 0 0) as (gs1 & G1 & G2 & G3 & G4).
  destruct (reg_round_ok (fst (task_list is gs 0 0)) no) as (x1 & n1 & F1 & R1).
  { intros t Ht. destruct (G3 t Ht) as (k & N1 & _ & N2). apply nth_error_In in N1. destruct (HGS _ N1). split; [auto|]. auto. }
  { intros t t' Ht Ht' EQ. destruct (G3 t Ht) as (k & N1 & N2 & _). destruct (G3 t' Ht') as (k' & N1' & N2' & _). assert (k = k') as <- by lia. rewrite N1 in N1'. injection N1' as _ -> ->. auto. }
  destruct (snd (task_list is gs 0 0)) as [|g gs'] eqn:ER.
  - exists x1, n1. split; [rewrite G1, app_nil_r, <- G2; exact F1|]. intros fuel [|N'] H1 H2; [lia|]. unfold rounds. cbn [reg_rounds].
    unfold round in R1. rewrite R1 by exact H1. rewrite ER. reflexivity.
  - assert (L : (length (g :: gs') < N)%nat).
    { assert (gs <> []) by (intros ->; destruct gs1; discriminate). specialize (G4 eq_refl HL H). rewrite G1, app_length in Hg. destruct gs1; [congruence|]. cbn [length] in *. lia. }
    destruct (IH (g :: gs') (no + Z.of_nat (length (fst (task_list is gs 0 0)))) L) as (x2 & n2 & F2 & R2).
    { intros g' Hg'. apply HGS. rewrite G1. apply in_app_iff. now right. }
    exists (x1 ++ x2), (Nat.max n1 n2). split; [rewrite G1; unfold expand; rewrite flat_map_app; apply Forall2_app; [fold (expand is gs1); rewrite <- G2; exact F1|exact F2]|].
    intros fuel [|N'] H1 H2; [lia|]. unfold rounds in *. cbn [reg_rounds]. unfold round in R1. rewrite R1 by lia. rewrite ER. rewrite R2 by lia. rewrite tag_ops_app. reflexivity.
Qed.
Lemma in_groups p ks js g : In g (groups p ks js) -> In (fst (snd g)) js /\ In (snd (snd g)) ks.
Proof.
  unfold groups. intros H. apply in_flat_map in H as (jc & H1 & H). revert p H. induction ks as [|kc ks IH]; intros p H; [contradiction|].
  cbn [inner_groups] in H. destruct H as [<-|H]; [cbn; auto|]. destruct (IH false H). split; [auto|now right].
Qed.
Lemma reg_block_ok p is ks js : (forall ic, In ic is -> ich ic) -> (forall kc, In kc ks -> kch kc) -> (forall jc, In jc js -> jch jc) -> Z.of_nat (length is) < 1024 ->
  exists xs n, Forall2 tt (cols_tags p is ks js) xs /\ forall fuel, (n <= fuel)%nat ->
    reg_block radd rmul zero conj junk fuel guess wn smp rnda rndb rndc oa ob alpha a b c planeA planeB planeC ma mb sa sb p is ks js = Some (tag_ops xs).
Proof.
  intros HI HK HJ HL. destruct (reg_rounds_ok is HI HL (S (length (groups p ks js))) (groups p ks js) 0 ltac:(lia)) as (xs & n & F & E).
  { intros g Hg. apply in_groups in Hg as [? ?]. auto. }
  exists xs, (Nat.max n (S (length (groups p ks js)))). split; [rewrite <- expand_groups; exact F|]. intros fuel Hf. unfold reg_block.
  replace (1024 <? Z.of_nat (length is)) with false by lia. unfold rounds in E. apply E; lia.
Qed.
End Reg.

(** As many chunks of rows as the list has entries: no round makes progress. *)
Lemma task_list_full is gs jj : 1024 <= Z.of_nat (length is) -> task_list is gs 0 jj = ([], gs).
Proof. destruct gs as [|g gs]; [reflexivity|]. intros H. cbn [task_list]. replace (1024 <=? 0 + Z.of_nat (length is)) with true by lia. reflexivity. Qed.
