(** Lemmas: GA_Dgemm, the shared memory algorithm. *)
From Verif Require Import LRadix LDist LStrided LStrided2 LIterReg LIterReg3 LIterSca LStore LXfer LXfer2 LLoc LAccess LSelect LSelect2 LOdo LGcopy2 LGcopy3 LGcopy4 LGcopy5 LCpatch LPw LPw2 SpecDiag SpecDgemm.
From Verif Require Export LDgemm.
Open Scope Z_scope.

Lemma at_place_spec q p : at_place q p = true <-> p = q.
Proof. unfold at_place. destruct q as [q1 q2], p as [p1 p2]. cbn [fst snd]. rewrite andb_true_iff, !Z.eqb_eq. split; [intros [-> ->]; reflexivity|intros [= -> ->]; auto]. Qed.

Lemma interleaved_one {E} (cell : E -> place) progs es i q : interleaved cell progs es ->
  (forall j, j <> i -> filter (fun e => at_place q (cell e)) (nth j progs []) = []) ->
  filter (fun e => at_place q (cell e)) es = filter (fun e => at_place q (cell e)) (nth i progs []).
Proof.
  intros (ls & L & H) HN. rewrite <- H.
  assert (X : forall p, In p (combine ls es) -> at_place q (cell (snd p)) = true -> fst p = i).
  { intros p Hp Hc. destruct (Nat.eq_dec (fst p) i) as [|N]; [assumption|]. specialize (HN _ N). rewrite <- H in HN.
    apply map_eq_nil in HN. assert (Y : In p (filter (fun p0 => Nat.eqb (fst p0) (fst p) && at_place q (cell (snd p0))) (combine ls es))).
    { apply filter_In. rewrite Nat.eqb_refl, Hc. auto. } rewrite HN in Y. contradiction. }
  clear H HN. revert es L X. induction ls as [|l ls IH]; intros [|e es] L X; try discriminate; [reflexivity|].
  cbn [combine filter fst snd]. injection L as L. specialize (IH es L (fun p Hp => X p (or_intror Hp))).
  destruct (at_place q (cell e)) eqn:EC.
  - assert (l = i) as -> by exact (X (l, e) (or_introl eq_refl) EC). rewrite Nat.eqb_refl. cbn [andb map snd]. f_equal. exact IH.
  - rewrite andb_false_r. exact IH.
Qed.
Lemma interleaved_In {E} (cell : E -> place) progs es e : interleaved cell progs es -> In e es -> exists i, In e (nth i progs []).
Proof.
  intros (ls & L & H) He. assert (X : exists l, In (l, e) (combine ls es)).
  { clear H. revert ls L He. induction es as [|e' es IH]; intros [|l ls] L He; try discriminate; [contradiction|]. destruct He as [-> |He]; [exists l; now left|].
    injection L as L. destruct (IH ls L He) as (l' & Hl). exists l'. now right. }
  destruct X as (l & Hl). exists l. specialize (H l (cell e)).
  assert (Y : In e (map snd (filter (fun p => Nat.eqb (fst p) l && at_place (cell e) (cell (snd p))) (combine ls es)))).
  { apply in_map_iff. exists (l, e). split; [reflexivity|]. apply filter_In. cbn [fst snd]. rewrite Nat.eqb_refl. split; [exact Hl|]. apply at_place_spec. reflexivity. }
  rewrite H in Y. apply filter_In in Y. tauto.
Qed.

Section Tag.
Context {V : Type} (radd : V -> V -> V).
(** What the events do to a value at [q]. *)
Definition apply_tag (v : V) (e : tagged (V := V)) : V :=
  match evalue (snd e) with Some w => if fst e then w else radd v w | None => v end.
Lemma tag_run (es : list (tagged (V := V))) : forall m, (forall e, In e es -> hget m (tcell e) <> None /\ evalue (snd e) <> None) ->
  exists m', run_elems (tag_event radd) m es = Some m' /\
    forall q, hget m' q = match hget m q with Some v => Some (fold_left apply_tag (filter (fun e => at_place q (tcell e)) es) v) | None => None end.
Proof.
  induction es as [|[p [buf [c i]]] es IH]; intros m HE.
  { exists m. split; [reflexivity|]. intros q. cbn. destruct (hget m q); reflexivity. }
  destruct (HE _ (or_introl eq_refl)) as [H1 H2]. unfold tcell, evalue in H1, H2. cbn [fst snd] in H1, H2.
  destruct (hget m c) as [v|] eqn:EV; [|congruence]. destruct (buf i) as [w|] eqn:EW; [|congruence].
  set (v' := if p then w else radd v w).
  destruct (IH (hset m c v')) as (m' & R & X).
  { intros e He. destruct (HE e (or_intror He)) as [H3 H4]. split; [|exact H4].
    destruct (place_dec c (tcell e)) as [<-|N]; [rewrite hget_hset_same; discriminate|rewrite hget_hset_other by exact N; exact H3]. }
  exists m'. split.
  - cbn [run_elems]. unfold tag_event at 1. cbn [fst snd]. unfold put_event, acc_event, put_elem, acc_elem. cbn [fst snd]. rewrite EW, EV. unfold v' in R. destruct p; exact R.
  - intros q. rewrite X. cbn [filter]. unfold tcell at 2. cbn [fst snd]. destruct (place_dec c q) as [<-|N].
    + rewrite hget_hset_same, EV. replace (at_place c c) with true by (symmetry; apply at_place_spec; reflexivity).
      cbn [fold_left]. unfold apply_tag at 3. unfold evalue. cbn [fst snd]. rewrite EW. reflexivity.
    + rewrite hget_hset_other by exact N. replace (at_place q c) with false; [reflexivity|].
      destruct (at_place q c) eqn:E; [|reflexivity]. apply at_place_spec in E. congruence.
Qed.
Definition tag_all (p : bool) (es : list (buffer V * (place * Z))) : list (tagged (V := V)) := map (pair p) es.
Lemma tag_values p q es v : fold_left apply_tag (filter (fun e => at_place q (tcell e)) (tag_all p es)) v =
  fold_left (fun v w => if p then w else radd v w) (event_values q es) v.
Proof.
  revert v. induction es as [|e es IH]; intros v; [reflexivity|]. cbn [tag_all map filter event_values flat_map]. fold (tag_all p es). fold (event_values q es).
  change (tcell (p, e)) with (ecell e). destruct (place_dec (ecell e) q) as [<-|N].
  - replace (at_place (ecell e) (ecell e)) with true by (symmetry; apply at_place_spec; reflexivity). cbn [fold_left]. unfold apply_tag at 2. cbn [fst snd].
    destruct (evalue e); cbn [app fold_left]; apply IH.
  - replace (at_place q (ecell e)) with false; [apply IH|]. destruct (at_place q (ecell e)) eqn:E; [|reflexivity]. apply at_place_spec in E. congruence.
Qed.
End Tag.

Section Shm.
Context {V : Type} (radd rmul : V -> V -> V) (zero : V) (conj : V -> V) (junk : V).
Variables (guess : Z -> Z -> Z -> Z) (wn : Z) (smp : Z -> bool) (rnda rndb rndc : Z -> Z -> Z).
Variables (oa ob : mop) (alpha : V) (a b c : garray) (pa pb pc : list Z -> place -> Prop) (sha shb shc : list Z -> Prop).
Variables (da1 da2 db1 db2 dc1 dc2 : Z) (ma mb : heap V) (A B : list Z -> V).
Variables (ailo aihi ajlo ajhi bilo bihi bjlo bjhi cilo cihi cjlo cjhi sa sb I J K : Z).
Hypothesis SR : semiring radd rmul zero.
Hypothesis HG : good_guess guess.
Hypothesis (RA : forall t k, 0 <= rnda t k) (RB : forall t k, 0 <= rndb t k) (RC : forall t k, 0 <= rndc t k).
Hypothesis (LA : any_layout a wn pa sha) (LB : any_layout b wn pb shb) (LC : any_layout c wn pc shc).
Hypothesis (SA : small_local a sha) (SB : small_local b shb) (SC : small_local c shc).
Hypothesis (DA : dims (ga_desc a) = [da1; da2]) (DB : dims (ga_desc b) = [db1; db2]) (DC : dims (ga_desc c) = [dc1; dc2]).
Hypothesis (AA : allocated pa ma) (AB : allocated pb mb) (HA : holds [da1; da2] pa ma A) (HB : holds [db1; db2] pb mb B).
Hypothesis (PA : op_patch oa [da1; da2] [ailo; ajlo] [aihi; ajhi]) (PB : op_patch ob [db1; db2] [bilo; bjlo] [bihi; bjhi])
  (PC : op_patch opN [dc1; dc2] [cilo; cjlo] [cihi; cjhi]).
Hypothesis (E1 : cihi - cilo = aihi - ailo) (E2 : ajhi - ajlo = bihi - bilo) (E3 : bjhi - bjlo = cjhi - cjlo).
Hypothesis (Ia : ga_elemsize a * (I * K) <= int_max) (Ib : ga_elemsize b * (K * J) <= int_max) (Ic : ga_elemsize c * (I * J) <= int_max).
Hypothesis (Sa : I * K <= sa) (Sb : K * J <= sb).
Let planeA := Plane [ailo; ajlo] [aihi; ajhi] [da1; da2] 0 1.
Let planeB := Plane [bilo; bjlo] [bihi; bjhi] [db1; db2] 0 1.
Let planeC := Plane [cilo; cjlo] [cihi; cjhi] [dc1; dc2] 0 1.
Let tok := task_ok radd rmul zero conj oa ob alpha pc A B ailo ajlo bilo bjlo cilo cjlo.
Let bok := @b_ok V conj ob B bilo bjlo.
Let ich := chunk_of (aihi - ailo + 1) I.
Let jch := chunk_of (bjhi - bjlo + 1) J.
Let kch := chunk_of (ajhi - ajlo + 1) K.
Definition tag_ops (l : list (bool * (region_op V * list (place * Z)))) : list (tagged (V := V)) := flat_map (fun x => tag_all (fst x) (op_events [snd x])) l.
Lemma tag_ops_app l l' : tag_ops (l ++ l') = tag_ops l ++ tag_ops l'.
Proof. apply flat_map_app. Qed.
(** The tasks of a process, in order, each with its do_put. *)
Definition rows_tags (p : bool) (is : list (Z * Z)) (jc kc : Z * Z) := map (fun ic => (p, (jc, kc, ic))) is.
Fixpoint inner_tags (p : bool) (is ks : list (Z * Z)) (jc : Z * Z) :=
  match ks with [] => [] | kc :: ks' => rows_tags p is jc kc ++ inner_tags false is ks' jc end.
Definition cols_tags (p : bool) (is ks js : list (Z * Z)) := flat_map (inner_tags p is ks) js.
Let ttok (t : bool * ((Z * Z) * (Z * Z) * (Z * Z))) (x : bool * (region_op V * list (place * Z))) : Prop := fst x = fst t /\ tok (snd t) (snd x).

Lemma shm_rows_ok p jc kc : jch jc -> kch kc -> forall is t bb, (forall ic, In ic is -> ich ic) -> bok kc jc bb ->
  exists xs n, Forall2 ttok (rows_tags p is jc kc) xs /\ forall fuel, (n <= fuel)%nat ->
    shm_rows radd rmul zero conj junk fuel guess wn smp rnda rndb rndc oa ob alpha a b c planeA planeB planeC ma mb sa sb p is jc kc t bb = Some (tag_ops xs).
Proof.
  intros HJ HK. induction is as [|ic is IH]; intros t bb HI HBB; cbn [shm_rows rows_tags map].
  { exists [], O. split; [constructor|reflexivity]. }
  pose proof (HI _ (or_introl eq_refl)) as HI0. pose proof HI0 as (H1 & H2 & H3). pose proof HJ as (H4 & H5 & H6). pose proof HK as (H7 & H8 & H9).
  destruct (fetch_ok conj junk guess wn smp a pa sha da1 da2 ma A HG LA SA DA AA HA (rnda t) oa ailo aihi ajlo ajhi sa ic kc) as (ab & na & Ea & Xa); auto; try lia.
  { eapply Z.le_trans; [|exact Sa]. apply mul_le2; unfold len in *; lia. }
  { eapply Z.le_trans; [|exact Ia]. apply Z.mul_le_mono_nonneg_l; [destruct SA; lia|]. apply mul_le2; unfold len in *; lia. }
  assert (XB : exists b' nb, bok kc jc (Some b') /\ forall fuel, (nb <= fuel)%nat ->
    match bb with Some x => Some x | None => fetch junk fuel guess (rndb t) wn smp ob b planeB mb sb kc jc end = Some b').
  { destruct bb as [b'|]; [exists b', O; split; [exact HBB|reflexivity]|].
    destruct (fetch_ok conj junk guess wn smp b pb shb db1 db2 mb B HG LB SB DB AB HB (rndb t) ob bilo bihi bjlo bjhi sb kc jc) as (buf & nb & Eb & Xb); auto; try lia.
    { eapply Z.le_trans; [|exact Sb]. apply mul_le2; unfold len in *; lia. }
    { eapply Z.le_trans; [|exact Ib]. apply Z.mul_le_mono_nonneg_l; [destruct SB; lia|]. apply mul_le2; unfold len in *; lia. }
    eexists (buf, _), nb. split; [|exact Eb]. split; [reflexivity|exact Xb]. }
  destruct XB as ([bb' bd] & nb & Xb & Eb).
  destruct (product_ok radd rmul zero conj guess wn smp rnda rndb rndc oa ob alpha c pc shc dc1 dc2 A B ailo aihi ajlo ajhi bilo bjlo bjhi cilo cihi cjlo cjhi I J K
    SR HG RA RB RC LC SC DC PC E1 E3 Ic ic jc kc ab bb' bd t HI0 HJ HK Xa Xb) as (ot & nc & TO & Ec).
  destruct (IH (t + 1) (Some (bb', bd))) as (xs & nr & F & Er); auto. { intros; apply HI; now right. }
  exists ((p, ot) :: xs), (Nat.max (Nat.max na nb) (Nat.max nc nr)). split; [constructor; [split; [reflexivity|exact TO]|exact F]|].
  intros fuel Hf. rewrite Ea by lia. rewrite Eb by lia. specialize (Ec fuel ltac:(lia)). fold planeC in Ec. destruct (c_transfers _ _ _ _ _ _ _ _ _ _) as [ts|]; [|discriminate].
  rewrite Er by lia. cbn [fst snd]. change (tag_ops ((p, ot) :: xs)) with (tag_all p (op_events [ot]) ++ tag_ops xs). remember (op_events [ot]) as es eqn:EES. clear EES.
  injection Ec as Ec. rewrite <- Ec. destruct Xb as [-> _]. unfold tag_all. rewrite map_map. reflexivity.
Qed.
Lemma shm_inner_ok is jc : (forall ic, In ic is -> ich ic) -> jch jc -> forall ks p t, (forall kc, In kc ks -> kch kc) ->
  exists xs n, Forall2 ttok (inner_tags p is ks jc) xs /\ forall fuel, (n <= fuel)%nat ->
    shm_inner radd rmul zero conj junk fuel guess wn smp rnda rndb rndc oa ob alpha a b c planeA planeB planeC ma mb sa sb p is ks jc t = Some (tag_ops xs).
Proof.
  intros HI HJ. induction ks as [|kc ks IH]; intros p t HK; cbn [shm_inner inner_tags].
  { exists [], O. split; [constructor|reflexivity]. }
  destruct (shm_rows_ok p jc kc HJ (HK _ (or_introl eq_refl)) is t None HI Logic.I) as (x1 & n1 & F1 & X1).
  destruct (IH false (t + Z.of_nat (length is))) as (x2 & n2 & F2 & X2). { intros; apply HK; now right. }
  exists (x1 ++ x2), (Nat.max n1 n2). split; [apply Forall2_app; auto|]. intros fuel Hf. rewrite X1, X2 by lia. rewrite tag_ops_app. reflexivity.
Qed.
Lemma shm_cols_ok is ks : (forall ic, In ic is -> ich ic) -> (forall kc, In kc ks -> kch kc) -> forall js p t, (forall jc, In jc js -> jch jc) ->
  exists xs n, Forall2 ttok (cols_tags p is ks js) xs /\ forall fuel, (n <= fuel)%nat ->
    shm_cols radd rmul zero conj junk fuel guess wn smp rnda rndb rndc oa ob alpha a b c planeA planeB planeC ma mb sa sb p is ks js t = Some (tag_ops xs).
Proof.
  intros HI HK. induction js as [|jc js IH]; intros p t HJ; cbn [shm_cols cols_tags flat_map].
  { exists [], O. split; [constructor|reflexivity]. }
  destruct (shm_inner_ok is jc HI (HJ _ (or_introl eq_refl)) ks p t HK) as (x1 & n1 & F1 & X1).
  destruct (IH p (t + Z.of_nat (length is * length ks))) as (x2 & n2 & F2 & X2). { intros; apply HJ; now right. }
  exists (x1 ++ x2), (Nat.max n1 n2). split; [apply Forall2_app; auto|]. intros fuel Hf. rewrite X1, X2 by lia. rewrite tag_ops_app. reflexivity.
Qed.
End Shm.
