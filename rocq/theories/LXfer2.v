(** Effects of lists of element transfers. *)
From Verif Require Import LStore MXfer LXfer.
Open Scope Z_scope.

Lemma hget_hset_same {V} (m : heap V) q v : hget (hset m q v) q = Some v.
Proof. unfold hget, hset. rewrite !Z.eqb_refl. reflexivity. Qed.
Lemma hget_hset_other {V} (m : heap V) q q' v : q <> q' -> hget (hset m q v) q' = hget m q'.
Proof.
  intros H. unfold hget, hset. destruct q as [a b], q' as [a' b']. cbn [fst snd].
  destruct (Z.eqb_spec a' a), (Z.eqb_spec b' b); subst; cbn; congruence.
Qed.
Lemma place_dec (q q' : place) : {q = q'} + {q <> q'}.
Proof. decide equality; apply Z.eq_dec. Qed.

(** ---- stores to distinct cells ---- *)
Definition ecell {V} (e : buffer V * (place * Z)) : place := fst (snd e).
Definition evalue {V} (e : buffer V * (place * Z)) : option V := fst e (snd (snd e)).

Lemma put_events_run {V} (es : list (buffer V * (place * Z))) : forall m,
  NoDup (map ecell es) ->
  (forall e, In e es -> hget m (ecell e) <> None /\ evalue e <> None) ->
  exists m', run_elems put_event m es = Some m' /\
    (forall e, In e es -> hget m' (ecell e) = evalue e) /\
    (forall q, ~ In q (map ecell es) -> hget m' q = hget m q).
Proof.
  induction es as [|e es IH]; intros m ND HD.
  - exists m. split; [reflexivity|]. split; [intros e []|auto].
  - cbn [map] in ND. apply NoDup_cons_iff in ND as [Hn ND].
    destruct (HD e (or_introl eq_refl)) as [D1 D2].
    cbn [run_elems]. unfold put_event at 1, put_elem. unfold ecell, evalue in D1, D2.
    destruct (fst e (snd (snd e))) as [v|] eqn:Ev; [|congruence].
    destruct (hget m (fst (snd e))) as [w|] eqn:Ew; [|congruence].
    destruct (IH (hset m (fst (snd e)) v) ND) as (m' & R & P1 & P2).
    { intros e' He'. destruct (HD e' (or_intror He')) as [D3 D4]. split; [|exact D4].
      destruct (place_dec (fst (snd e)) (ecell e')) as [<-|X]; [rewrite hget_hset_same; discriminate|].
      rewrite hget_hset_other by exact X. exact D3. }
    exists m'. split; [exact R|]. split.
    + intros e' [<-|He']; [|auto]. rewrite P2 by exact Hn. unfold ecell, evalue. rewrite hget_hset_same. auto.
    + intros q Hq. rewrite P2 by (intros X; apply Hq; now right).
      apply hget_hset_other. intros <-. apply Hq. now left.
Qed.

Lemma run_elems_map {S T U} (f : S -> T -> option S) (g : U -> T) s l :
  run_elems f s (map g l) = run_elems (fun s u => f s (g u)) s l.
Proof. revert s. induction l as [|u l IH]; intros s; [reflexivity|]. cbn [map run_elems]. destruct (f s (g u)); auto. Qed.

(** ---- accumulates ---- *)
Definition event_values {V} (q : place) (es : list (buffer V * (place * Z))) : list V :=
  flat_map (fun e => if place_dec (ecell e) q then match evalue e with Some w => [w] | None => [] end else []) es.

Lemma acc_events_run {V} (f : V -> V -> V) (es : list (buffer V * (place * Z))) : forall m,
  (forall e, In e es -> hget m (ecell e) <> None /\ evalue e <> None) ->
  exists m', run_elems (acc_event f) m es = Some m' /\
    forall q, hget m' q = match hget m q with Some v => Some (fold_left f (event_values q es) v) | None => None end.
Proof.
  induction es as [|e es IH]; intros m HD.
  - exists m. split; [reflexivity|]. intros q. cbn. destruct (hget m q); reflexivity.
  - destruct (HD e (or_introl eq_refl)) as [D1 D2].
    cbn [run_elems]. unfold acc_event at 1, acc_elem. unfold ecell, evalue in D1, D2.
    destruct (fst e (snd (snd e))) as [v|] eqn:Ev; [|congruence].
    destruct (hget m (fst (snd e))) as [w|] eqn:Ew; [|congruence].
    destruct (IH (hset m (fst (snd e)) (f w v))) as (m' & R & P).
    { intros e' He'. destruct (HD e' (or_intror He')) as [D3 D4]. split; [|exact D4].
      destruct (place_dec (fst (snd e)) (ecell e')) as [<-|X]; [rewrite hget_hset_same; discriminate|].
      rewrite hget_hset_other by exact X. exact D3. }
    exists m'. split; [exact R|]. intros q. rewrite P. cbn [event_values flat_map]. fold (event_values q es).
    unfold ecell at 1, evalue at 1. destruct (place_dec (fst (snd e)) q) as [<-|X].
    + rewrite hget_hset_same, Ew, Ev. reflexivity.
    + rewrite hget_hset_other by exact X. reflexivity.
Qed.

Lemma fold_perm {V} (f : V -> V -> V) l l' v : (forall a b c, f (f a b) c = f (f a c) b) -> Permutation l l' ->
  fold_left f l v = fold_left f l' v.
Proof.
  intros C P. revert v. induction P; intros v; cbn [fold_left]; auto.
  - now rewrite C.
  - now rewrite IHP1.
Qed.

(** ---- loads into distinct buffer positions ---- *)
Lemma get_run {V} (m : heap V) ts : forall buf,
  NoDup (map snd ts) ->
  (forall t, In t ts -> hget m (fst t) <> None /\ buf (snd t) <> None) ->
  exists buf', run_elems (get_elem m) buf ts = Some buf' /\
    (forall t, In t ts -> buf' (snd t) = hget m (fst t)) /\
    (forall i, ~ In i (map snd ts) -> buf' i = buf i).
Proof.
  induction ts as [|t ts IH]; intros buf ND HD.
  - exists buf. split; [reflexivity|]. split; [intros e []|auto].
  - cbn [map] in ND. apply NoDup_cons_iff in ND as [Hn ND].
    destruct (HD t (or_introl eq_refl)) as [D1 D2].
    cbn [run_elems]. unfold get_elem at 1.
    destruct (hget m (fst t)) as [v|] eqn:Ev; [|congruence].
    destruct (buf (snd t)) as [w|] eqn:Ew; [|congruence].
    assert (BS : forall i, i <> snd t -> bset buf (snd t) v i = buf i).
    { intros i Hi. unfold bset. destruct (Z.eqb_spec i (snd t)); [congruence|reflexivity]. }
    assert (BE : bset buf (snd t) v (snd t) = Some v) by (unfold bset; rewrite Z.eqb_refl; reflexivity).
    destruct (IH (bset buf (snd t) v) ND) as (buf' & R & P1 & P2).
    { intros e' He'. destruct (HD e' (or_intror He')) as [D3 D4]. split; [exact D3|].
      destruct (Z.eq_dec (snd e') (snd t)) as [->|X]; [rewrite BE; discriminate|]. rewrite BS by exact X. exact D4. }
    exists buf'. split; [exact R|]. split.
    + intros t' [<-|Ht']; [|auto]. rewrite P2 by exact Hn. rewrite BE. auto.
    + intros i Hi. rewrite P2 by (intros X; apply Hi; now right). apply BS. intros ->. apply Hi. now left.
Qed.

(** ---- regions ---- *)
Lemma lin_ld_inj lo hi ld x y : valid_ld lo hi ld -> in_box lo hi x -> in_box lo hi y ->
  lin ld (vsub x lo) = lin ld (vsub y lo) -> x = y.
Proof.
  revert hi ld x y. induction lo as [|l lo IH]; intros [|h hi] ld [|a x] [|b y]; cbn [in_box]; try tauto.
  intros HV [Hx HX] [Hy HY] E. destruct lo as [|l' lo].
  - destruct hi, x, y; cbn [in_box] in *; try tauto. cbn in E. f_equal. lia.
  - cbn [valid_ld] in HV. destruct ld as [|d ld]; [tauto|]. destruct HV as [H1 H2].
    destruct hi as [|h' hi], x as [|a' x], y as [|b' y]; cbn [in_box] in HX, HY; try tauto.
    cbn [vsub] in E. rewrite !lin_cons in E.
    change (a' - l' :: vsub x lo) with (vsub (a' :: x) (l' :: lo)) in E.
    change (b' - l' :: vsub y lo) with (vsub (b' :: y) (l' :: lo)) in E.
    assert (EQ : lin ld (vsub (a' :: x) (l' :: lo)) = lin ld (vsub (b' :: y) (l' :: lo)) /\ a = b).
    { revert E Hx Hy H1. clear. generalize (lin ld (vsub (a' :: x) (l' :: lo))) (lin ld (vsub (b' :: y) (l' :: lo))).
      intros P Q E Hx Hy H1. assert (P = Q) by nia. subst Q. lia. }
    destruct EQ as [E1 ->]. f_equal. apply (IH (h' :: hi) ld); auto.
Qed.

Section Region.
Variable placed : list Z -> place -> Prop.
Variable lo hi ld : list Z.
Hypothesis HL : length lo = length hi.
Hypothesis fun_placed : forall x q q', placed x q -> placed x q' -> q = q'.
Hypothesis inj_placed : forall x y q, placed x q -> placed y q -> x = y.

Lemma region_perm ts ts' : region_transfers placed lo hi ld ts -> Permutation ts ts' ->
  region_transfers placed lo hi ld ts'.
Proof.
  intros (l & -> & P & H) PT. apply Permutation_sym, Permutation_map_inv in PT as (l' & -> & PL).
  exists l'. split; [reflexivity|]. split.
  - eapply perm_trans; [apply Permutation_map, Permutation_sym; exact PL|exact P].
  - intros t x Hin. apply H. eapply Permutation_in; [apply Permutation_sym; exact PL|exact Hin].
Qed.

Lemma region_In ts t : region_transfers placed lo hi ld ts -> In t ts ->
  exists x, in_box lo hi x /\ placed x (fst t) /\ snd t = lin ld (vsub x lo).
Proof.
  intros (l & -> & P & H) Hin. apply in_map_iff in Hin as ((t' & x) & <- & Hin). cbn [fst].
  exists x. split; [|exact (H _ _ Hin)]. apply box_list_In; [exact HL|].
  eapply Permutation_in; [exact P|]. apply in_map_iff. exists (t', x). auto.
Qed.

Lemma region_all ts x q : region_transfers placed lo hi ld ts -> in_box lo hi x -> placed x q ->
  In (q, lin ld (vsub x lo)) ts.
Proof.
  intros (l & -> & P & H) Hx Hq. apply box_list_In in Hx; [|exact HL].
  eapply Permutation_in in Hx; [|apply Permutation_sym; exact P].
  apply in_map_iff in Hx as (((q', i) & x') & <- & Hin). cbn [snd] in *.
  destruct (H _ _ Hin) as [H1 H2]. cbn [fst snd] in *. rewrite (fun_placed _ _ _ Hq H1), <- H2.
  apply in_map_iff. exists ((q', i), x'). auto.
Qed.

Lemma region_NoDup_cells ts : region_transfers placed lo hi ld ts -> NoDup (map fst ts).
Proof.
  intros (l & -> & P & H). rewrite map_map.
  assert (ND : NoDup (map snd l)) by (eapply Permutation_NoDup; [apply Permutation_sym; exact P|apply box_list_NoDup]).
  clear P. induction l as [|[t x] l IH]; [constructor|]. cbn [map snd] in ND. apply NoDup_cons_iff in ND as [Hn ND].
  cbn [map fst]. constructor; [|apply IH; [intros; apply H; now right|exact ND]].
  intros Hin. apply in_map_iff in Hin as ((t' & x') & E & Hin). cbn [fst] in E. apply Hn.
  destruct (H t x (or_introl eq_refl)) as [H1 _]. destruct (H t' x' (or_intror Hin)) as [H2 _].
  rewrite E in H2. rewrite (inj_placed _ _ _ H1 H2). apply in_map_iff. exists (t', x'). auto.
Qed.

Lemma region_NoDup_buf ts : valid_ld lo hi ld -> region_transfers placed lo hi ld ts -> NoDup (map snd ts).
Proof.
  intros HV (l & -> & P & H). rewrite map_map.
  assert (ND : NoDup (map snd l)) by (eapply Permutation_NoDup; [apply Permutation_sym; exact P|apply box_list_NoDup]).
  assert (HB : forall t x, In (t, x) l -> in_box lo hi x).
  { intros t x Hin. apply box_list_In; [exact HL|]. eapply Permutation_in; [exact P|].
    apply in_map_iff. exists (t, x). auto. }
  clear P. induction l as [|[t x] l IH]; [constructor|]. cbn [map snd] in ND. apply NoDup_cons_iff in ND as [Hn ND].
  cbn [map fst]. constructor; [|apply IH; [intros; apply H; now right|exact ND|intros; eapply HB; right; eauto]].
  intros Hin. apply in_map_iff in Hin as ((t' & x') & E & Hin). cbn [fst] in E. apply Hn.
  destruct (H t x (or_introl eq_refl)) as [_ H1]. destruct (H t' x' (or_intror Hin)) as [_ H2].
  rewrite E, H1 in H2.
  rewrite (lin_ld_inj lo hi ld x x' HV (HB _ _ (or_introl eq_refl)) (HB _ _ (or_intror Hin)) H2).
  apply in_map_iff. exists (t', x'). auto.
Qed.

Theorem region_put {V} ts (buf : buffer V) m :
  region_transfers placed lo hi ld ts -> allocated placed m -> buffer_ok buf lo hi ld ->
  exists m', run_elems (put_elem buf) m ts = Some m' /\ put_effect placed lo hi ld buf m m'.
Proof.
  intros R HA HB. destruct (put_events_run (map (fun t => (buf, t)) ts) m) as (m' & E & P1 & P2).
  { rewrite map_map. apply region_NoDup_cells. exact R. }
  { intros e He. apply in_map_iff in He as (t & <- & Ht). unfold ecell, evalue. cbn [fst snd].
    destruct (region_In ts t R Ht) as (x & Hx & Hp & Hi). split; [apply (HA x); exact Hp|].
    rewrite Hi. apply (HB x Hx). }
  rewrite run_elems_map in E. exists m'. split; [exact E|]. split.
  - intros x q Hx Hq. pose proof (region_all ts x q R Hx Hq) as Hin.
    exact (P1 (buf, (q, lin ld (vsub x lo))) (in_map _ _ _ Hin)).
  - intros q Hq. apply P2. rewrite map_map. intros Hin. apply in_map_iff in Hin as (t & <- & Ht).
    destruct (region_In ts t R Ht) as (x & Hx & Hp & _). exact (Hq x Hx Hp).
Qed.

Theorem region_get {V} ts (buf : buffer V) m : valid_ld lo hi ld ->
  region_transfers placed lo hi ld ts -> allocated placed m -> buffer_ok buf lo hi ld ->
  exists buf', run_elems (get_elem m) buf ts = Some buf' /\ get_effect placed lo hi ld m buf buf'.
Proof.
  intros HV R HA HB. destruct (get_run m ts buf) as (buf' & E & P1 & P2).
  { apply region_NoDup_buf; auto. }
  { intros t Ht. destruct (region_In ts t R Ht) as (x & Hx & Hp & Hi). split; [apply (HA x); exact Hp|].
    rewrite Hi. apply (HB x Hx). }
  exists buf'. split; [exact E|]. split.
  - intros x q Hx Hq. pose proof (region_all ts x q R Hx Hq) as Hin. exact (P1 _ Hin).
  - intros i Hi. apply P2. intros Hin. apply in_map_iff in Hin as (t & E2 & Ht).
    destruct (region_In ts t R Ht) as (x & Hx & _ & X). apply (Hi x Hx). congruence.
Qed.

Lemma event_values_other {V} (buf : buffer V) q ts : ~ In q (map fst ts) ->
  event_values q (map (fun t => (buf, t)) ts) = [].
Proof.
  induction ts as [|t ts IH]; intros H; [reflexivity|]. cbn [map event_values flat_map].
  fold (event_values q (map (fun t => (buf, t)) ts)). rewrite IH by (intros X; apply H; now right).
  unfold ecell. cbn [fst snd]. destruct (place_dec (fst t) q) as [<-|X]; [|reflexivity]. exfalso. apply H. now left.
Qed.

Lemma event_values_one {V} (buf : buffer V) q i ts w : NoDup (map fst ts) -> In (q, i) ts -> buf i = Some w ->
  event_values q (map (fun t => (buf, t)) ts) = [w].
Proof.
  induction ts as [|t ts IH]; intros ND Hin E; [contradiction|]. cbn [map] in ND. apply NoDup_cons_iff in ND as [Hn ND].
  cbn [map event_values flat_map]. fold (event_values q (map (fun t => (buf, t)) ts)).
  unfold ecell, evalue. cbn [fst snd]. destruct Hin as [->|Hin].
  - cbn [fst snd] in *. destruct (place_dec q q); [|congruence]. rewrite E, event_values_other by exact Hn. reflexivity.
  - destruct (place_dec (fst t) q) as [<-|X]; [|apply IH; auto].
    exfalso. apply Hn. apply in_map_iff. eexists. split; [|exact Hin]. reflexivity.
Qed.

Theorem region_acc {V} f ts (buf : buffer V) m :
  region_transfers placed lo hi ld ts -> allocated placed m -> buffer_ok buf lo hi ld ->
  exists m', run_elems (acc_elem f buf) m ts = Some m' /\ acc_effect f placed lo hi ld buf m m'.
Proof.
  intros R HA HB. destruct (acc_events_run f (map (fun t => (buf, t)) ts) m) as (m' & E & P).
  { intros e He. apply in_map_iff in He as (t & <- & Ht). unfold ecell, evalue. cbn [fst snd].
    destruct (region_In ts t R Ht) as (x & Hx & Hp & Hi). split; [apply (HA x); exact Hp|].
    rewrite Hi. apply (HB x Hx). }
  rewrite run_elems_map in E. exists m'. split; [exact E|]. split.
  - intros x q v w Hx Hq Hv Hw. rewrite P, Hv.
    rewrite (event_values_one buf q (lin ld (vsub x lo)) ts w); [reflexivity| | |exact Hw].
    + apply region_NoDup_cells. exact R.
    + apply region_all; auto.
  - intros q Hq. rewrite P, event_values_other; [destruct (hget m q); reflexivity|].
    intros Hin. apply in_map_iff in Hin as (t & <- & Ht).
    destruct (region_In ts t R Ht) as (x & Hx & Hp & _). exact (Hq x Hx Hp).
Qed.
End Region.

(** ---- concurrent operations ---- *)
Lemma in_boxb_spec lo hi x : in_boxb lo hi x = true <-> in_box lo hi x.
Proof.
  revert hi x. induction lo as [|l lo IH]; intros [|h hi] [|a x]; cbn; try (split; [discriminate|tauto]); [tauto|].
  rewrite !andb_true_iff, IH. split; [intros [[? ?] ?]|intros [[? ?] ?]]; repeat split; auto; lia.
Qed.


Section Concurrent.
Variable placed : list Z -> place -> Prop.
Hypothesis fun_placed : forall x q q', placed x q -> placed x q' -> q = q'.
Hypothesis inj_placed : forall x y q, placed x q -> placed y q -> x = y.
Variable V : Type.
Variable ots : list (region_op V * list (place * Z)).
Hypothesis HO : forall o ts, In (o, ts) ots ->
  length (o_lo o) = length (o_hi o) /\
  region_transfers placed (o_lo o) (o_hi o) (o_ld o) ts /\ buffer_ok (o_buf o) (o_lo o) (o_hi o) (o_ld o).
Variable m : heap V.
Hypothesis HA : allocated placed m.

Lemma op_events_ok e : In e (op_events ots) -> hget m (ecell e) <> None /\ evalue e <> None.
Proof.
  intros He. apply in_flat_map in He as ((o & ts) & Hot & He). apply in_map_iff in He as (t & <- & Ht).
  destruct (HO _ _ Hot) as (L & R & B). cbn [fst snd] in *. unfold ecell, evalue. cbn [fst snd].
  destruct (region_In placed _ _ _ L ts t R Ht) as (x & Hx & Hp & Hi). split; [apply (HA x); exact Hp|].
  rewrite Hi. apply (B x Hx).
Qed.

Lemma event_values_app (q : place) (l l' : list (buffer V * (place * Z))) :
  event_values q (l ++ l') = event_values q l ++ event_values q l'.
Proof. unfold event_values. apply flat_map_app. Qed.

Lemma op_values x q : placed x q -> event_values q (op_events ots) = contributions (map fst ots) x.
Proof.
  intros Hq. revert HO. induction ots as [|[o ts] l IH]; intros HO; [reflexivity|].
  cbn [op_events flat_map map contributions fst snd]. fold (op_events l). fold (contributions (map fst l) x).
  rewrite event_values_app, IH by (intros; apply HO; now right). f_equal.
  destruct (HO o ts (or_introl eq_refl)) as (L & R & B).
  destruct (in_boxb (o_lo o) (o_hi o) x) eqn:E.
  - apply in_boxb_spec in E. destruct (buf_at _ _ _ x) as [w|] eqn:Ew; [|exfalso; exact (B x E Ew)].
    apply event_values_one with (i := lin (o_ld o) (vsub x (o_lo o))).
    + eapply region_NoDup_cells; eauto.
    + eapply region_all; eauto.
    + exact Ew.
  - apply event_values_other. intros Hin. apply in_map_iff in Hin as (t & <- & Ht).
    destruct (region_In placed _ _ _ L ts t R Ht) as (y & Hy & Hp & _).
    rewrite (inj_placed _ _ _ Hq Hp) in E. apply in_boxb_spec in Hy. congruence.
Qed.

Lemma op_values_none q : (forall x o ts, In (o, ts) ots -> in_box (o_lo o) (o_hi o) x -> ~ placed x q) ->
  event_values q (op_events ots) = [].
Proof.
  revert HO. induction ots as [|[o ts] l IH]; intros HO Hq; [reflexivity|].
  cbn [op_events flat_map fst snd]. fold (op_events l).
  rewrite event_values_app, IH by (intros; first [apply HO|eapply Hq]; try right; eauto).
  destruct (HO o ts (or_introl eq_refl)) as (L & R & B).
  rewrite event_values_other; [reflexivity|]. intros Hin. apply in_map_iff in Hin as (t & <- & Ht).
  destruct (region_In placed _ _ _ L ts t R Ht) as (y & Hy & Hp & _). exact (Hq y o ts (or_introl eq_refl) Hy Hp).
Qed.

Lemma event_values_perm (q : place) (l l' : list (buffer V * (place * Z))) : Permutation l l' ->
  Permutation (event_values q l) (event_values q l').
Proof. apply flat_map_Permutation. Qed.

Theorem concurrent_acc f es : (forall a b c, f (f a b) c = f (f a c) b) -> Permutation es (op_events ots) ->
  exists m', run_elems (acc_event f) m es = Some m' /\
    (forall x q v, placed x q -> hget m q = Some v ->
       hget m' q = Some (fold_left f (contributions (map fst ots) x) v)) /\
    (forall q, (forall x o ts, In (o, ts) ots -> in_box (o_lo o) (o_hi o) x -> ~ placed x q) -> hget m' q = hget m q).
Proof.
  intros C P. destruct (acc_events_run f es m) as (m' & R & E).
  { intros e He. apply op_events_ok. eapply Permutation_in; eauto. }
  exists m'. split; [exact R|]. split.
  - intros x q v Hq Hv. rewrite E, Hv. f_equal. rewrite <- (op_values x q Hq).
    apply fold_perm; [exact C|]. apply event_values_perm. exact P.
  - intros q Hq. rewrite E.
    assert (X : event_values q es = []).
    { apply Permutation_nil. rewrite <- (op_values_none q Hq). apply Permutation_sym, event_values_perm. exact P. }
    rewrite X. destruct (hget m q); reflexivity.
Qed.

Lemma op_events_NoDup : disjoint_regions (map fst ots) -> NoDup (map ecell (op_events ots)).
Proof.
  revert HO. induction ots as [|[o ts] l IH]; intros HO HD; [constructor|].
  cbn [op_events flat_map fst snd]. fold (op_events l). rewrite map_app. apply NoDup_app_intro.
  - rewrite map_map. destruct (HO o ts (or_introl eq_refl)) as (L & R & B). eapply region_NoDup_cells; eauto.
  - apply IH; [intros; apply HO; now right|]. intros i j o1 o2 H1 H2 Hne. apply (HD (S i) (S j)); cbn; auto.
  - intros q H1 H2. rewrite map_map in H1. apply in_map_iff in H1 as (t & <- & Ht). unfold ecell in H2. cbn [snd] in H2.
    apply in_map_iff in H2 as (e & E & He). apply in_flat_map in He as ((o' & ts') & Hot & He).
    apply in_map_iff in He as (t' & <- & Ht'). cbn [fst snd] in *.
    destruct (HO o ts (or_introl eq_refl)) as (L & R & B). destruct (HO o' ts' (or_intror Hot)) as (L' & R' & B').
    destruct (region_In placed _ _ _ L ts t R Ht) as (x & Hx & Hp & _).
    destruct (region_In placed _ _ _ L' ts' t' R' Ht') as (y & Hy & Hp' & _). rewrite E in Hp'.
    pose proof (inj_placed _ _ _ Hp Hp') as XY. subst y.
    apply In_nth_error in Hot as (j & Hj).
    refine (HD O (S j) o o' eq_refl _ ltac:(lia) x Hx Hy). cbn. apply map_nth_error with (f := fst) in Hj. exact Hj.
Qed.

Theorem concurrent_put es : disjoint_regions (map fst ots) -> Permutation es (op_events ots) ->
  exists m', run_elems put_event m es = Some m' /\
    (forall o ts x q, In (o, ts) ots -> in_box (o_lo o) (o_hi o) x -> placed x q ->
       hget m' q = buf_at (o_buf o) (o_lo o) (o_ld o) x) /\
    (forall q, (forall x o ts, In (o, ts) ots -> in_box (o_lo o) (o_hi o) x -> ~ placed x q) -> hget m' q = hget m q).
Proof.
  intros HD P. destruct (put_events_run es m) as (m' & R & E1 & E2).
  { eapply Permutation_NoDup; [apply Permutation_map, Permutation_sym; exact P|]. apply op_events_NoDup. exact HD. }
  { intros e He. apply op_events_ok. eapply Permutation_in; eauto. }
  exists m'. split; [exact R|]. split.
  - intros o ts x q Hot Hx Hq. destruct (HO _ _ Hot) as (L & RT & B).
    apply (E1 (o_buf o, (q, lin (o_ld o) (vsub x (o_lo o))))).
    eapply Permutation_in; [apply Permutation_sym; exact P|]. apply in_flat_map. exists (o, ts). split; [exact Hot|].
    cbn [fst snd]. apply in_map. eapply region_all; eauto.
  - intros q Hq. apply E2. intros Hin. apply in_map_iff in Hin as (e & <- & He).
    eapply Permutation_in in He; [|exact P]. apply in_flat_map in He as ((o & ts) & Hot & He).
    apply in_map_iff in He as (t & <- & Ht). cbn [fst snd] in *. destruct (HO _ _ Hot) as (L & RT & B).
    destruct (region_In placed _ _ _ L ts t RT Ht) as (x & Hx & Hp & _). exact (Hq x o ts Hot Hx Hp).
Qed.
End Concurrent.

(** ---- transfers of the array kinds ---- *)
Definition gives_transfers guess rnd nn smp a lo hi ld placed ts :=
  (exists fuel0, forall fuel, (fuel0 <= fuel)%nat -> transfers fuel guess rnd nn smp a lo hi ld = Some ts) /\
  region_transfers placed lo hi ld ts.

Lemma layout_transfers guess rnd nn smp a lo hi ld placed shape :
  (exists ps fuel0,
    (forall fuel, (fuel0 <= fuel)%nat -> iterate fuel guess rnd nn a lo hi = Some ps) /\ covers placed shape ps lo hi) ->
  lo <> [] -> good_request a shape lo hi ld ->
  (forall sh, shape sh -> length sh = length lo /\ Forall (fun d => 1 <= d) sh) ->
  exists ts, gives_transfers guess rnd nn smp a lo hi ld placed ts.
Proof.
  intros (ps & f0 & EI & HC) Hne (H1 & H2 & H3 & H4 & H5 & H6 & H7 & H8) HSh.
  assert (SO : shape_ok (length lo) (ga_elemsize a) shape).
  { intros sh Hs. destruct (HSh sh Hs). split; [auto|]. split; [auto|]. apply H8. exact Hs. }
  destruct (cover_transfers f0 guess rnd nn smp a lo hi ld ps placed shape H5 Hne H3 (EI f0 (Nat.le_refl _)) HC H6 H4 H7 SO)
    as (ts & E & R).
  exists ts. split; [|exact R]. exists f0. intros fuel Hf.
  unfold transfers in *. rewrite EI by exact Hf. rewrite EI in E by lia. exact E.
Qed.

Lemma padded_pos lo hi w : Forall2 Z.le lo hi -> length w = length lo -> Forall (fun v => 0 <= v) w ->
  length (padded lo hi w) = length lo /\ Forall (fun d => 1 <= d) (padded lo hi w).
Proof.
  intros H. revert w. induction H as [|l h lo hi Hlh H IH]; intros [|a w] HL HW; try discriminate; [split; [reflexivity|constructor]|].
  cbn [length] in *. inversion HW; subst. destruct (IH w ltac:(lia) ltac:(assumption)). cbn [padded length].
  split; [lia|]. constructor; [lia|assumption].
Qed.
Lemma extents_pos lo hi : Forall2 Z.le lo hi ->
  length (extents lo hi) = length lo /\ Forall (fun d => 1 <= d) (extents lo hi).
Proof.
  intros H. induction H as [|l h lo hi Hlh H [IH1 IH2]]; cbn [extents length]; [split; [reflexivity|constructor]|].
  split; [lia|]. constructor; [lia|assumption].
Qed.
Lemma in_range0_pos ns is : in_range0 ns is -> Forall (fun d => 1 <= d) ns.
Proof. revert is. induction ns as [|n ns IH]; intros [|i is]; cbn; try tauto; intros; constructor; [lia|]. eapply IH. apply H. Qed.

Lemma wf_array_dims a : wf_array a -> dims (ga_desc a) <> [].
Proof. intros ((_ & H & _) & _). exact H. Qed.

(** The iterator covers the region, and what the local arrays look like. *)
Definition gives_cover guess rnd nn a lo hi (placed : list Z -> place -> Prop) (shape : list Z -> Prop) : Prop :=
  lo <> [] /\
  (exists ps fuel0,
    (forall fuel, (fuel0 <= fuel)%nat -> iterate fuel guess rnd nn a lo hi = Some ps) /\ covers placed shape ps lo hi) /\
  (forall sh, shape sh -> length sh = length lo /\ Forall (fun d => 1 <= d) sh).

Lemma regular_cover guess rnd nn a lo hi :
  good_guess guess -> (forall k, 0 <= rnd k) -> wf_array a -> splittable (ga_elemsize a) lo hi ->
  in_array (dims (ga_desc a)) lo -> in_array (dims (ga_desc a)) hi -> Forall2 Z.le lo hi ->
  gives_cover guess rnd nn a lo hi (reg_place a) (reg_shape a).
Proof.
  intros Hg Hr W Hs H1 H2 H3. pose proof (in_array_length _ _ H1) as HL. split; [|split].
  - intros ->. pose proof (wf_array_dims a W). destruct (dims (ga_desc a)); [auto|discriminate].
  - destruct (iterate_regular guess rnd nn a lo hi Hg Hr W H1 H2 H3 Hs) as (ps & f & E & C & _). eauto.
  - intros sh (p & l & h & Hp & E & F & ->). destruct W as (W & W1 & W2 & _).
    destruct (regular_blocks_inside _ _ _ W Hp) as (l1 & h1 & E1 & HI).
    rewrite E in E1. assert (l1 = l) by congruence. assert (h1 = h) by congruence. subst l1 h1.
    pose proof (in_array_length _ _ (HI _ (lo_in_box _ _ F))).
    destruct (padded_pos l h (ga_width a) F ltac:(lia) W2). split; [lia|assumption].
Qed.

Theorem regular_transfers guess rnd nn smp a lo hi ld :
  good_guess guess -> (forall k, 0 <= rnd k) -> wf_array a -> splittable (ga_elemsize a) lo hi ->
  good_request a (reg_shape a) lo hi ld ->
  exists ts, gives_transfers guess rnd nn smp a lo hi ld (reg_place a) ts.
Proof.
  intros Hg Hr W Hs HQ. pose proof HQ as (H1 & H2 & H3 & _).
  destruct (regular_cover guess rnd nn a lo hi Hg Hr W Hs H1 H2 H3) as (C1 & C2 & C3).
  apply (layout_transfers guess rnd nn smp a lo hi ld (reg_place a) (reg_shape a)); auto.
Qed.

Lemma block_cover guess rnd nn a lo hi placed shape :
  block_layout a nn placed shape ->
  in_array (dims (ga_desc a)) lo -> in_array (dims (ga_desc a)) hi -> Forall2 Z.le lo hi ->
  gives_cover guess rnd nn a lo hi placed shape.
Proof.
  intros (HG & HB) H1 H2 H3. pose proof (in_array_length _ _ H1) as HL.
  assert (BS : wf_blocks (ga_desc a) -> forall sh, block_shape a sh -> length sh = length lo /\ Forall (fun d => 1 <= d) sh).
  { intros W sh (k & l & h & Hk & E & F & ->).
    rewrite bx_distribution in E by auto. destruct (extents_pos l h F) as [L P]. split; [|exact P].
    pose proof (bx_inside (ga_desc a) k l W Hk) as X. replace (bx (ga_desc a) k) with (l, h) in X by congruence.
    pose proof (in_array_length _ _ (X (lo_in_box _ _ F))). lia. }
  assert (NE : dims (ga_desc a) <> [] -> lo <> []).
  { intros X ->. destruct (dims (ga_desc a)); [auto|discriminate]. }
  destruct HB as [(T & W & -> & HN & -> & ->)|[(T & W & WG & HF & -> & ->)|(T & W & WG & HF & -> & ->)]].
  - split; [apply NE; apply W|]. split; [exact (iterate_bc a T W HG (proj1 HN) (proj2 HN) lo hi H3 H1 H2 guess rnd)|].
    apply BS. now left.
  - split; [apply NE; destruct W as [W|[W _]]; apply W|].
    split; [exact (iterate_tiled a lo hi guess rnd nn ltac:(destruct T; congruence) W WG HG HF H3 H1 H2)|].
    apply BS. exact W.
  - split; [apply NE; apply W|]. split; [exact (iterate_scalapack a lo hi guess rnd nn T W WG HG HF H3 H1 H2)|].
    intros sh (x & Hx & ->). destruct WG as (_ & _ & LN & HP & _). destruct W as (_ & _ & WB & _).
    pose proof (local_range _ _ _ _ WB LN HP Hx) as R. split; [|eapply in_range0_pos; exact R].
    apply in_range0_length in R. rewrite <- R, HL. clear - WB LN Hx.
    revert WB LN Hx. generalize (block_dims (ga_desc a)) (nblock (ga_desc a)). revert x.
    induction (dims (ga_desc a)) as [|d ds IH]; intros [|x xs] [|b bs] [|g gs]; cbn [valid_bdims length in_array local_coords];
      try discriminate; try tauto. intros. f_equal. apply IH; try tauto; lia.
Qed.

Theorem block_transfers guess rnd nn smp a lo hi ld placed shape :
  block_layout a nn placed shape -> good_request a shape lo hi ld ->
  exists ts, gives_transfers guess rnd nn smp a lo hi ld placed ts.
Proof.
  intros HB HQ. pose proof HQ as (H1 & H2 & H3 & _).
  destruct (block_cover guess rnd nn a lo hi placed shape HB H1 H2 H3) as (C1 & C2 & C3).
  apply (layout_transfers guess rnd nn smp a lo hi ld placed shape); auto.
Qed.

Lemma regular_placed a : wf_array a ->
  (forall x q q', reg_place a x q -> reg_place a x q' -> q = q') /\
  (forall x y q, reg_place a x q -> reg_place a y q -> x = y).
Proof. intros W. destruct (regular_storage a 0 W) as (_ & H1 & H2 & _). auto. Qed.

Lemma block_placed a nn placed shape : block_layout a nn placed shape ->
  (forall x q q', placed x q -> placed x q' -> q = q') /\ (forall x y q, placed x q -> placed y q -> x = y).
Proof.
  intros (HG & [(T & W & -> & HN & -> & ->)|[(T & W & WG & HF & -> & ->)|(T & W & WG & HF & -> & ->)]]).
  - destruct (bc_storage a T W HG (proj1 HN)) as (_ & H1 & H2 & _). auto.
  - destruct (tiled_storage a 0 T W WG HG) as (_ & H1 & H2 & _). auto.
  - destruct (scalapack_storage a 0 T W WG HG) as (_ & H1 & H2 & _). auto.
Qed.

(** Transfer lists of several calls, each with its own visiting order. *)
Definition call (V : Type) := (region_op V * ((Z -> Z) * (Z -> bool)))%type.

Lemma calls_transfers {V} guess nn a placed (calls : list (call V)) :
  (forall c, In c calls -> exists ts, gives_transfers guess (fst (snd c)) nn (snd (snd c)) a
      (o_lo (fst c)) (o_hi (fst c)) (o_ld (fst c)) placed ts) ->
  exists tss,
    Forall2 (fun c ts => gives_transfers guess (fst (snd c)) nn (snd (snd c)) a
      (o_lo (fst c)) (o_hi (fst c)) (o_ld (fst c)) placed ts) calls tss.
Proof.
  induction calls as [|c calls IH]; intros H; [exists []; constructor|].
  destruct (H c (or_introl eq_refl)) as (ts & R). destruct IH as (tss & F); [intros; apply H; now right|].
  exists (ts :: tss). constructor; auto.
Qed.

Lemma combine_In {A B C} (f : A -> C) (P : A -> B -> Prop) l l' o ts : Forall2 P l l' -> In (o, ts) (combine (map f l) l') ->
  exists c, In c l /\ o = f c /\ P c ts.
Proof.
  induction 1 as [|a b l l' H F IH]; cbn [map combine]; [intros []|]. intros [E|Hin].
  - exists a. split; [now left|]. split; congruence.
  - destruct (IH Hin) as (c & ? & ?). exists c. split; [now right|assumption].
Qed.
Lemma map_fst_combine {A B C} (f : A -> C) (P : A -> B -> Prop) l l' : Forall2 P l l' ->
  map fst (combine (map f l) l') = map f l.
Proof. induction 1; cbn; congruence. Qed.
Lemma combine_In_r {A B C} (f : A -> C) (P : A -> B -> Prop) l l' c : Forall2 P l l' -> In c l ->
  exists ts, In (f c, ts) (combine (map f l) l').
Proof.
  induction 1 as [|a b l l' H F IH]; intros []; [subst; exists b; now left|]. destruct (IH H0) as (ts & ?). exists ts. now right.
Qed.

Lemma Forall2_weaken {A B} (P Q : A -> B -> Prop) l l' : (forall a b, P a b -> Q a b) -> Forall2 P l l' -> Forall2 Q l l'.
Proof. intros H. induction 1; constructor; auto. Qed.
