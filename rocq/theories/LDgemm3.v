(** Lemmas: the effect of the shared memory algorithm of GA_Dgemm. *)
From Verif Require Import LRadix LDist LStrided LStrided2 LIterReg LIterReg3 LIterSca LStore LXfer LXfer2 LLoc LAccess LSelect LSelect2 LOdo LGcopy2 LGcopy3 LGcopy4 LGcopy5 LCpatch LCpatch2 LPw LPw2 SpecDiag SpecDgemm LMat2.
From Verif Require Export LDgemm2.
Open Scope Z_scope.

Lemma chunks_from_In s l c r : 1 <= c -> In r (chunks_from s l c) -> s <= fst r <= snd r /\ snd r <= l /\ len r <= c.
Proof.
  intros Hc H. unfold chunks_from in H. apply in_map_iff in H as (r' & <- & H). apply chunks_In in H; [|exact Hc]. unfold len in *. cbn [fst snd]. lia.
Qed.
Lemma chunks_fold {A} (g : A -> A) s l c i v : 1 <= c -> s <= i <= l ->
  fold_left (fun v (r : Z * Z) => if (fst r <=? i) && (i <=? snd r) then g v else v) (chunks_from s l c) v = g v.
Proof.
  intros Hc Hi. assert (X : forall L v, fold_left (fun v (r : Z * Z) => if (fst r <=? i) && (i <=? snd r) then g v else v) L v =
    fold_left (fun v (_ : unit) => g v) (flat_map (fun r : Z * Z => if (fst r <=? i) && (i <=? snd r) then [tt] else []) L) v).
  { induction L as [|r L IH]; intros w; [reflexivity|]. cbn [fold_left flat_map]. destruct ((fst r <=? i) && (i <=? snd r)); cbn [app fold_left]; apply IH. }
  rewrite X. unfold chunks_from. rewrite flat_map_map.
  rewrite (flat_map_ext _ (fun r => if (fst r <=? i - s) && (i - s <=? snd r) then [tt] else [])).
  2:{ intros r. cbn [fst snd]. replace (fst r <=? i - s) with (s + fst r <=? i) by lia. replace (i - s <=? snd r) with (i <=? s + snd r) by lia. reflexivity. }
  rewrite chunks_one by lia. reflexivity.
Qed.
Lemma chunks_none {A} (g : A -> A) s l c i v : ~ s <= i <= l -> 1 <= c ->
  fold_left (fun v (r : Z * Z) => if (fst r <=? i) && (i <=? snd r) then g v else v) (chunks_from s l c) v = v.
Proof.
  intros Hi Hc. assert (X : forall r, In r (chunks_from s l c) -> (fst r <=? i) && (i <=? snd r) = false).
  { intros r Hr. apply chunks_from_In in Hr; [|exact Hc]. apply andb_false_iff. lia. }
  induction (chunks_from s l c) as [|r L IH]; [reflexivity|]. cbn [fold_left]. rewrite (X r (or_introl eq_refl)). apply IH. intros; apply X; now right.
Qed.

Lemma fold_map_left {X Y Z0} (f : X -> Y -> X) (g : Z0 -> Y) l : forall v, fold_left f (map g l) v = fold_left (fun v x => f v (g x)) l v.
Proof. induction l as [|x l IH]; intros v; [reflexivity|]. apply IH. Qed.
Section Cell.
Context {V : Type} (radd rmul : V -> V -> V) (zero : V) (conj : V -> V).
Variables (oa ob : mop) (alpha : V) (pc : list Z -> place -> Prop) (A B : list Z -> V) (ailo ajlo bilo bjlo cilo cjlo : Z).
Hypothesis SR : semiring radd rmul zero.
Hypothesis S2 : forall x q q', pc x q -> pc x q' -> q = q'.
Hypothesis S3 : forall x y q, pc x q -> pc y q -> x = y.
Let tok := task_ok radd rmul zero conj oa ob alpha pc A B ailo ajlo bilo bjlo cilo cjlo.
Let tval := task_value radd rmul zero conj oa ob alpha A B ailo ajlo bilo bjlo.
Definition ttok (t : bool * ((Z * Z) * (Z * Z) * (Z * Z))) (x : bool * (region_op V * list (place * Z))) : Prop := fst x = fst t /\ tok (snd t) (snd x).

Lemma tok_op t ot : tok t ot -> forall o ts, In (o, ts) [ot] ->
  length (o_lo o) = length (o_hi o) /\ region_transfers pc (o_lo o) (o_hi o) (o_ld o) ts /\ buffer_ok (o_buf o) (o_lo o) (o_hi o) (o_ld o).
Proof.
  destruct t as [[jc kc] ic]. intros (F1 & F2 & F3 & F4) o ts [-> |[]]. cbn [fst snd] in *. split; [rewrite F1, F2; reflexivity|]. split; [exact F3|].
  intros x Hx. rewrite F1, F2 in Hx. destruct x as [|x [|y [|]]]; cbn in Hx; try tauto.
  replace [x; y] with [cilo + (x - cilo); cjlo + (y - cjlo)] by (f_equal; [lia|f_equal; lia]). rewrite F4 by lia. discriminate.
Qed.
Lemma tags_defined ts xs (m : heap V) : Forall2 ttok ts xs -> allocated pc m -> forall e, In e (tag_ops xs) -> hget m (tcell e) <> None /\ evalue (snd e) <> None.
Proof.
  intros F AL e He. unfold tag_ops in He. apply in_flat_map in He as (x & Hx & He). unfold tag_all in He. apply in_map_iff in He as (e' & <- & He).
  apply In_nth_error in Hx as (k & Hk). destruct (Forall2_nth' _ _ _ F _ _ Hk) as (t & _ & _ & T). unfold tcell. cbn [snd].
  exact (op_events_ok pc V [snd x] (tok_op _ _ T) m AL e' He).
Qed.
Lemma tags_none ts xs q : Forall2 ttok ts xs ->
  (forall p jc kc ic x, In (p, (jc, kc, ic)) ts -> in_box [cilo + fst ic; cjlo + fst jc] [cilo + snd ic; cjlo + snd jc] x -> ~ pc x q) ->
  filter (fun e => at_place q (tcell e)) (tag_ops xs) = [].
Proof.
  intros F0. induction F0 as [|[p t] [p' ot] ts xs ET F IH]; intros HN; [reflexivity|]. destruct ET as [E T]. unfold tag_ops. cbn [flat_map]. fold (@tag_ops V xs).
  rewrite filter_app, IH by (intros p0 jc kc ic x Hin; exact (HN p0 jc kc ic x (or_intror Hin))). rewrite app_nil_r. cbn [fst snd] in *. subst p'. cbn in T.
  assert (X : forall e, In e (op_events [ot]) -> at_place q (ecell e) = false).
  { intros e He. destruct (at_place q (ecell e)) eqn:EQ; [|reflexivity]. apply at_place_spec in EQ. exfalso.
    unfold op_events in He. cbn [flat_map] in He. rewrite app_nil_r in He. apply in_map_iff in He as (tr & <- & Htr). unfold ecell in EQ. cbn [snd] in EQ.
    destruct ot as [o trs]. destruct (tok_op _ _ T o trs (or_introl eq_refl)) as (L & R & _). cbn [fst snd] in *.
    destruct (region_In pc _ _ _ L trs tr R Htr) as (x & Hx & Hp & _). rewrite EQ in Hp. destruct t as [[jc kc] ic]. destruct T as (F1 & F2 & _). cbn [fst snd] in F1, F2. rewrite F1, F2 in Hx.
    eapply HN; [left; reflexivity|exact Hx|exact Hp]. }
  unfold tag_all. clear - X. induction (op_events [ot]) as [|e l IH]; [reflexivity|]. cbn [map filter]. change (tcell (p, e)) with (ecell e).
  rewrite (X e (or_introl eq_refl)). apply IH. intros; apply X; now right.
Qed.
(** What a task does to element (i,j), counted from 0. *)
Definition act (i j : Z) (v : V) (t : bool * ((Z * Z) * (Z * Z) * (Z * Z))) : V :=
  let '(p, (jc, kc, ic)) := t in
  if ((fst ic <=? i) && (i <=? snd ic)) && ((fst jc <=? j) && (j <=? snd jc)) then (if p then tval ((0, 0), kc, (0, 0)) i j else radd v (tval ((0, 0), kc, (0, 0)) i j)) else v.
Lemma tags_act i j q : pc [cilo + i; cjlo + j] q -> forall ts xs v, Forall2 ttok ts xs ->
  fold_left (apply_tag radd) (filter (fun e => at_place q (tcell e)) (tag_ops xs)) v = fold_left (act i j) ts v.
Proof.
  intros Hq ts xs v F. revert v. induction F as [|[p t] [p' ot] ts xs ET F IH]; intros v; [reflexivity|]. destruct ET as [E T]. unfold tag_ops. cbn [flat_map]. fold (@tag_ops V xs).
  rewrite filter_app, fold_left_app, IH. cbn [fold_left]. f_equal. cbn [fst snd] in *. subst p'. rewrite tag_values. cbn in T.
  rewrite (op_values pc S2 S3 V [ot] (tok_op _ _ T) _ _ Hq). unfold contributions. cbn [map flat_map]. rewrite app_nil_r.
  destruct t as [[jc kc] ic]. destruct T as (F1 & F2 & F3 & F4). cbn [act].
  destruct (((fst ic <=? i) && (i <=? snd ic)) && ((fst jc <=? j) && (j <=? snd jc))) eqn:EB.
  - rewrite !andb_true_iff, !Z.leb_le in EB. replace (in_boxb _ _ _) with true.
    2:{ symmetry. apply in_boxb_spec. rewrite F1, F2. cbn. lia. }
    rewrite F4 by lia. cbn [fold_left]. reflexivity.
  - replace (in_boxb _ _ _) with false; [reflexivity|]. symmetry. destruct (in_boxb _ _ _) eqn:EI; [|reflexivity]. apply in_boxb_spec in EI. rewrite F1, F2 in EI. cbn in EI.
    assert (((fst ic <=? i) && (i <=? snd ic)) && ((fst jc <=? j) && (j <=? snd jc)) = true) by (rewrite !andb_true_iff, !Z.leb_le; lia). congruence.
Qed.
Let kval i j kc := tval ((0, 0), kc, (0, 0)) i j.
Fixpoint inner_val i j (p : bool) (ks : list (Z * Z)) (v : V) : V :=
  match ks with [] => v | kc :: ks' => inner_val i j false ks' (if p then kval i j kc else radd v (kval i j kc)) end.
Lemma rows_act i j p l0 h0 I jc kc v : 1 <= I -> l0 <= i <= h0 ->
  fold_left (act i j) (rows_tags p (chunks_from l0 h0 I) jc kc) v = if (fst jc <=? j) && (j <=? snd jc) then (if p then kval i j kc else radd v (kval i j kc)) else v.
Proof.
  intros HI Hi. unfold rows_tags. rewrite (@fold_map_left). unfold act.
  destruct ((fst jc <=? j) && (j <=? snd jc)).
  - rewrite <- (chunks_fold (fun v => if p then kval i j kc else radd v (kval i j kc)) l0 h0 I i v HI Hi).
    revert v. induction (chunks_from l0 h0 I) as [|r L IH]; intros v; [reflexivity|]. cbn [fold_left]. rewrite andb_true_r. apply IH.
  - revert v. induction (chunks_from l0 h0 I) as [|r L IH]; intros v; [reflexivity|]. cbn [fold_left]. rewrite andb_false_r. apply IH.
Qed.
Lemma inner_act i j l0 h0 I jc : 1 <= I -> l0 <= i <= h0 -> forall ks p v,
  fold_left (act i j) (inner_tags p (chunks_from l0 h0 I) ks jc) v = if (fst jc <=? j) && (j <=? snd jc) then inner_val i j p ks v else v.
Proof.
  intros HI Hi. induction ks as [|kc ks IH]; intros p v; cbn [inner_tags inner_val].
  { cbn. destruct (_ && _); reflexivity. }
  rewrite fold_left_app, rows_act by auto. rewrite IH. destruct (_ && _); reflexivity.
Qed.
Lemma cols_act i j p l0 h0 l1 h1 I J ks v : 1 <= I -> 1 <= J -> l0 <= i <= h0 -> l1 <= j <= h1 ->
  fold_left (act i j) (cols_tags p (chunks_from l0 h0 I) ks (chunks_from l1 h1 J)) v = inner_val i j p ks v.
Proof.
  intros HI HJ Hi Hj. rewrite <- (chunks_fold (inner_val i j p ks) l1 h1 J j v HJ Hj). unfold cols_tags.
  revert v. induction (chunks_from l1 h1 J) as [|r L IH]; intros v; [reflexivity|]. cbn [flat_map fold_left]. rewrite fold_left_app, inner_act by auto. apply IH.
Qed.
Lemma inner_val_sum i j ks v : inner_val i j false ks v = radd v (fold_left radd (map (kval i j) ks) zero).
Proof.
  destruct SR as (AS & CM & Z0 & _). revert v. induction ks as [|kc ks IH]; intros v; cbn [inner_val map fold_left].
  - rewrite CM. symmetry. apply Z0.
  - rewrite IH. rewrite (fold_radd radd rmul zero SR _ (radd zero _)), Z0. symmetry. apply AS.
Qed.
Lemma inner_val_first i j ks v : ks <> [] -> inner_val i j true ks v = fold_left radd (map (kval i j) ks) zero.
Proof.
  destruct SR as (AS & CM & Z0 & _). destruct ks as [|kc ks]; [congruence|]. intros _. cbn [inner_val map fold_left]. rewrite inner_val_sum.
  rewrite (fold_radd radd rmul zero SR _ (radd zero _)), Z0. reflexivity.
Qed.
Lemma kval_sum i j k K : 1 <= K ->
  fold_left radd (map (kval i j) (chunks k K)) zero = rmul alpha (product radd rmul zero conj oa ob A B ailo ajlo bilo bjlo k i j).
Proof.
  intros HK. unfold product. rewrite <- (sum_chunks radd rmul zero SR k K) by exact HK. rewrite <- (fold_rmul radd rmul zero SR).
  f_equal. rewrite map_map. apply map_ext. intros kc. unfold kval, tval. cbn [task_value]. destruct SR as (_ & _ & Z0 & _). apply Z0.
Qed.
End Cell.

Lemma zseq_nth_error l n k : nth_error (zseq l n) k = if (k <? n)%nat then Some (l + Z.of_nat k) else None.
Proof.
  revert l k. induction n as [|n IH]; intros l [|k]; try reflexivity; cbn [zseq nth_error].
  - cbn. f_equal. lia.
  - rewrite IH. change (S k <? S n)%nat with (k <? n)%nat. destruct (k <? n)%nat; [f_equal; lia|reflexivity].
Qed.
Section ShmPhase.
Context {V : Type} (radd rmul : V -> V -> V) (zero : V) (conj : V -> V).
Variables (oa ob : mop) (alpha : V) (c : garray) (A B : list Z -> V) (ailo ajlo bilo bjlo m n k : Z) (I J K : Z -> Z) (zb : bool).
Hypothesis SR : semiring radd rmul zero.
Variable wn : Z.
Hypothesis LC : any_layout c wn (reg_place c) (reg_shape c).
Hypothesis (WC : wf_array c) (DC : dims (ga_desc c) = [m; n]) (HI : forall me, 1 <= I me) (HJ : forall me, 1 <= J me) (HK : forall me, 1 <= K me) (Hk : 1 <= k).
(** The tasks of process [me] on its block of C. *)
Definition shm_proc (me : Z) (xs : list (bool * (region_op V * list (place * Z)))) : Prop :=
  exists l0 l1 h0 h1, distribution (ga_desc c) me = Some ([l0; l1], [h0; h1]) /\
    Forall2 (ttok radd rmul zero conj oa ob alpha (reg_place c) A B ailo ajlo bilo bjlo 1 1)
      (cols_tags zb (chunks_from (l0 - 1) (h0 - 1) (I me)) (chunks k (K me)) (chunks_from (l1 - 1) (h1 - 1) (J me))) xs.

Lemma in_cols p is ks js q jc kc ic : In (q, (jc, kc, ic)) (cols_tags p is ks js) -> In ic is /\ In jc js.
Proof.
  unfold cols_tags. intros H. apply in_flat_map in H as (jc' & H1 & H). revert p H. induction ks as [|kc' ks IH]; intros p H; [contradiction|].
  cbn [inner_tags] in H. apply in_app_iff in H as [H|H]; [|exact (IH false H)].
  unfold rows_tags in H. apply in_map_iff in H as (ic' & E & H). injection E as _ -> _ ->. auto.
Qed.
Lemma shm_phase xss es (h : heap V) : Forall2 shm_proc (zseq 0 (Z.to_nat (ga_nproc c))) xss -> interleaved tcell (map tag_ops xss) es ->
  allocated (reg_place c) h ->
  exists h', run_elems (tag_event radd) h es = Some h' /\
    (forall i j q v, in_box [1; 1] [m; n] [i; j] -> reg_place c [i; j] q -> hget h q = Some v ->
       hget h' q = Some (radd (if zb then zero else v) (rmul alpha (product radd rmul zero conj oa ob A B ailo ajlo bilo bjlo k (i - 1) (j - 1))))) /\
    (forall q, (forall x, in_box [1; 1] [m; n] x -> ~ reg_place c x q) -> hget h' q = hget h q).
Proof.
  intros F HIN AL.
  destruct (any_storage _ _ _ _ LC) as (al & _ & S2 & S3 & _).
  (* the programs by number *)
  assert (PR : forall i, nth i (map tag_ops xss) [] = [] \/
    exists xs, shm_proc (Z.of_nat i) xs /\ 0 <= Z.of_nat i < ga_nproc c /\ nth i (map tag_ops xss) [] = tag_ops xs).
  { intros i. destruct (nth_error xss i) as [xs|] eqn:E.
    - right. exists xs. destruct (Forall2_nth' _ _ _ F _ _ E) as (me & E2 & P).
      assert (me = Z.of_nat i /\ 0 <= Z.of_nat i < ga_nproc c) as [-> ?].
      { rewrite zseq_nth_error in E2. destruct (Nat.ltb_spec i (Z.to_nat (ga_nproc c))); [injection E2 as <-; lia|discriminate]. }
      split; [exact P|]. split; [assumption|]. apply nth_error_nth. now apply map_nth_error.
    - left. apply nth_overflow. rewrite map_length. apply nth_error_None. exact E. }
  destruct (tag_run radd es h) as (h' & R & X).
  { intros e He. destruct (interleaved_In _ _ _ _ HIN He) as (i & Hi). destruct (PR i) as [E|(xs & (l0 & l1 & h0 & h1 & _ & FT) & _ & E)]; rewrite E in Hi; [contradiction|].
    exact (tags_defined radd rmul zero conj oa ob alpha (reg_place c) A B ailo ajlo bilo bjlo 1 1 S2 _ _ h FT AL e Hi). }
  assert (OUT : forall i q, (forall lo hi x, distribution (ga_desc c) (Z.of_nat i) = Some (lo, hi) -> in_box lo hi x -> ~ reg_place c x q) ->
     filter (fun e => at_place q (tcell e)) (nth i (map tag_ops xss) []) = []).
  { intros i q HN. destruct (PR i) as [->|(xs & (l0 & l1 & h0 & h1 & ED & FT) & _ & ->)]; [reflexivity|].
    apply (tags_none radd rmul zero conj oa ob alpha (reg_place c) A B ailo ajlo bilo bjlo 1 1 S2 _ _ q FT).
    intros p jc kc ic x Hin Hx. apply in_cols in Hin as [H1 H2]. apply chunks_from_In in H1, H2; auto.
    apply (HN [l0; l1] [h0; h1] x ED). destruct x as [|x [|y [|]]]; cbn [in_box] in Hx |- *; try tauto. lia. }
  exists h'. split; [exact R|]. split.
  - intros i j q v Hb Hq Hv. rewrite X, Hv. f_equal.
    destruct WC as (WR & _). destruct (regular_unique_owner _ _ [i; j] WR) as (p & Hp & (lo & hi & ED & Hx) & UN). { rewrite DC. cbn in *. lia. }
    rewrite (interleaved_one _ _ _ (Z.to_nat p) q HIN).
    2:{ intros i' Hne. destruct (PR i') as [->|(xs & _ & Hr & _)]; [reflexivity|]. apply OUT. intros lo' hi' x ED' Hx' Hp'.
        rewrite <- (S3 _ _ _ Hq Hp') in Hx'. apply Hne. rewrite <- (UN _ _ _ Hr ED' Hx'). rewrite Nat2Z.id. reflexivity. }
    assert (NE : exists xs, nth_error xss (Z.to_nat p) = Some xs).
    { destruct (nth_error xss (Z.to_nat p)) as [xs|] eqn:E; [eauto|]. apply nth_error_None in E. rewrite <- (Forall2_len _ _ _ F), zseq_length in E. lia. }
    destruct NE as (xs & E). destruct (Forall2_nth' _ _ _ F _ _ E) as (me & E2 & (l0 & l1 & h0 & h1 & ED2 & FT)).
    rewrite zseq_nth_error in E2. destruct (Nat.ltb_spec (Z.to_nat p) (Z.to_nat (ga_nproc c))); [|discriminate]. injection E2 as <-.
    rewrite ?Z.add_0_l, Z2Nat.id in ED2, FT by lia. rewrite ED in ED2. injection ED2 as -> ->.
    rewrite (nth_error_nth _ _ _ (map_nth_error tag_ops _ _ E)).
    replace [i; j] with [1 + (i - 1); 1 + (j - 1)] in Hq by (f_equal; [lia|f_equal; lia]).
    rewrite (tags_act radd rmul zero conj oa ob alpha (reg_place c) A B ailo ajlo bilo bjlo 1 1 S2 S3 _ _ _ Hq _ _ v FT).
    cbn in Hx. rewrite cols_act by (auto; lia). rewrite <- (kval_sum radd rmul zero conj oa ob alpha A B ailo ajlo bilo bjlo SR _ _ k (K p) (HK p)).
    destruct zb.
    + rewrite (inner_val_first radd rmul zero conj oa ob alpha A B ailo ajlo bilo bjlo SR).
      * destruct SR as (_ & _ & Z0 & _). now rewrite Z0.
      * unfold chunks. destruct (Z.to_nat k) eqn:EK; [lia|]. cbn [chunk_loop]. destruct (0 <? k) eqn:E0; [discriminate|lia].
    + apply (inner_val_sum radd rmul zero conj oa ob alpha A B ailo ajlo bilo bjlo SR).
  - intros q HN. rewrite X. rewrite (interleaved_one _ _ _ O q HIN).
    + rewrite OUT; [destruct (hget h q); reflexivity|]. intros lo hi x ED Hx Hp. apply (HN x); [|exact Hp].
      destruct Hp as (p & lo' & hi' & Hr & ED' & Hx' & _). destruct WC as (WR & _).
      destruct (regular_blocks_inside _ _ _ WR Hr) as (lo2 & hi2 & ED2 & IN). rewrite ED' in ED2. injection ED2 as -> ->. apply IN in Hx'. rewrite DC in Hx'. destruct x as [|x [|y [|]]]; cbn in *; try tauto; lia.
    + intros i _. apply OUT. intros lo hi x ED Hx Hp. apply (HN x); [|exact Hp].
      destruct Hp as (p & lo' & hi' & Hr & ED' & Hx' & _). destruct WC as (WR & _).
      destruct (regular_blocks_inside _ _ _ WR Hr) as (lo2 & hi2 & ED2 & IN). rewrite ED' in ED2. injection ED2 as -> ->. apply IN in Hx'. rewrite DC in Hx'. destruct x as [|x [|y [|]]]; cbn in *; try tauto; lia.
Qed.
End ShmPhase.
