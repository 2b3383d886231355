(** Lemmas about sparse matrices: the product of a dense array with a sparse matrix. *)
From Verif Require Import SpecSprs MBase MNb MHandle MGroup MSparse MDist MIrreg MSprs MSprs2 MSprs3 MSprs4 MSprs5 MSprs6 LNb LRadix LStore LIterBlk LTile LSprs LSprs2 LSprs3 LSprs4 LSprs5 LSprs6 LSprs7.
From Coq Require Import Permutation.
Open Scope Z_scope.

Lemma filter_perm {A} (f : A -> bool) l l' : Permutation l l' -> Permutation (filter f l) (filter f l').
Proof.
  intros H. induction H as [|x l l' H IH|x y l|l1 l2 l3 H1 IH1 H2 IH2]; cbn [filter]; [constructor| | |eapply perm_trans; eassumption].
  - destruct (f x); [constructor|]; exact IH.
  - destruct (f x), (f y); try apply Permutation_refl. apply perm_swap.
Qed.

Section Updates.
Context {V : Type}.
Variables (add mul : V -> V -> V) (zero : V) (d ilo ihi size : Z) (P : Z -> Z -> Z).
Hypothesis AD : addition add zero.
Hypothesis PINJ : forall i i' j j', ilo <= i <= ihi -> ilo <= i' <= ihi -> 0 <= j < d -> 0 <= j' < d -> P i j = P i' j' -> i = i' /\ j = j'.
Hypothesis PS : forall i j, ilo <= i <= ihi -> 0 <= j < d -> 0 <= P i j < size.

(** [m'] is [m] with the values of [U] added. *)
Definition added (m m' : Z -> V) (U : list (elt V)) : Prop := forall i j, ilo <= i <= ihi -> 0 <= j < d ->
  m' (P i j) = add (m (P i j)) (lsum add zero (map evalue (filter (fun e => (erow e =? i) && (ecol e =? j)) U))).
Lemma added_nil m : added m m [].
Proof. intros i j _ _. cbn. symmetry. apply (add_zero_r add zero AD). Qed.
Lemma added_app m m1 m2 U U' : added m m1 U -> added m1 m2 U' -> added m m2 (U ++ U').
Proof. intros H H' i j I J. rewrite (H' i j I J), (H i j I J), filter_app, map_app, (lsum_app add zero AD), (ad_assoc _ _ AD). reflexivity. Qed.
Lemma added_perm m m' U U' : Permutation U U' -> added m m' U -> added m m' U'.
Proof. intros Q H i j I J. rewrite (H i j I J). f_equal. apply (lsum_perm add zero AD), Permutation_map, filter_perm. exact Q. Qed.
Lemma added_one m i j x : ilo <= i <= ihi -> 0 <= j < d -> added m (fset m (P i j) (add (m (P i j)) x)) [(i, j, x)].
Proof.
  intros I J i' j' I' J'. unfold erow, ecol. cbn [filter fst snd]. destruct (Z.eqb_spec i i') as [<-|Ni]; [destruct (Z.eqb_spec j j') as [<-|Nj]|]; cbn [andb map lsum fold_right evalue snd].
  - rewrite fset_same, (add_zero_r add zero AD). reflexivity.
  - rewrite fset_other, (add_zero_r add zero AD); [reflexivity|]. intros Q. apply PINJ in Q; [|lia|lia|lia|lia]. lia.
  - rewrite fset_other, (add_zero_r add zero AD); [reflexivity|]. intros Q. apply PINJ in Q; [|lia|lia|lia|lia]. lia.
Qed.
Definition prod_elt (i : Z) (x : V) (jv : Z * V) : elt V := (i, fst jv, mul x (snd jv)).
Section Target.
Variables (lo hi : Z) (pos : Z -> Z -> Z).
Hypothesis LH : 0 <= lo /\ hi < d.
Hypothesis PC : forall i j, ilo <= i <= ihi -> lo <= j <= hi -> pos i j = P i j.
Lemma acc_row_ok i x : ilo <= i <= ihi -> forall l m, (forall j v, In (j, v) l -> lo <= j <= hi) ->
  exists m', acc_row add mul (pos i) size (Done x) l m = Done m' /\ added m m' (map (prod_elt i x) l).
Proof.
  intros I. induction l as [|[j v] l IH]; intros m H; [exists m; split; [reflexivity|apply added_nil]|]. cbn [acc_row]. pose proof (H j v (or_introl eq_refl)) as J. rewrite (PC i j I J). pose proof (PS i j I ltac:(lia)).
  replace ((0 <=? P i j) && (P i j <? size)) with true by lia. destruct (IH (fset m (P i j) (add (m (P i j)) (mul x v))) ltac:(intros j' v' X; apply (H j' v'); right; exact X)) as (m' & E & M). exists m'. split; [exact E|].
  cbn [map]. apply (added_app _ _ _ [_] _ (added_one m i j (mul x v) I ltac:(lia)) M).
Qed.
Variables (s : sprs V) (w : view V) (q : Z -> list (Z * V)) (rd : Z -> Z -> out V) (am : Z -> Z -> V).
Lemma acc_ks_ok i : ilo <= i <= ihi -> forall ks m, (forall k, In k ks -> rd i k = Done (am i k) /\ exists l, read_row s w k = Done l /\ Permutation l (q k) /\ forall j v, In (j, v) l -> lo <= j <= hi) ->
  exists m', acc_ks add mul (pos i) size (rd i) s w ks m = Done m' /\ added m m' (flat_map (fun k => map (prod_elt i (am i k)) (q k)) ks).
Proof.
  intros I. induction ks as [|k ks IH]; intros m H; [exists m; split; [reflexivity|apply added_nil]|]. cbn [acc_ks flat_map]. destruct (H k (or_introl eq_refl)) as (R & l & El & Pl & Jl). rewrite El, R.
  destruct (acc_row_ok i (am i k) I l m Jl) as (m1 & E1 & M1). rewrite E1. destruct (IH m1 ltac:(intros k' X; apply H; right; exact X)) as (m' & E & M). exists m'. split; [exact E|].
  apply (added_app m m1 m'); [|exact M]. apply (added_perm _ _ _ _ (Permutation_map (prod_elt i (am i k)) Pl) M1).
Qed.
Lemma acc_is_ok ks : forall is m, (forall i, In i is -> ilo <= i <= ihi) -> 
  (forall i k, In i is -> In k ks -> rd i k = Done (am i k) /\ exists l, read_row s w k = Done l /\ Permutation l (q k) /\ forall j v, In (j, v) l -> lo <= j <= hi) ->
  exists m', acc_is add mul pos size rd s w ks is m = Done m' /\ added m m' (flat_map (fun i => flat_map (fun k => map (prod_elt i (am i k)) (q k)) ks) is).
Proof.
  induction is as [|i is IH]; intros m I H; [exists m; split; [reflexivity|apply added_nil]|]. cbn [acc_is flat_map].
  destruct (acc_ks_ok i (I i (or_introl eq_refl)) ks m ltac:(intros k K; apply H; [left; reflexivity|exact K])) as (m1 & E1 & M1). rewrite E1.
  destruct (IH m1 ltac:(intros i' X; apply I; right; exact X) ltac:(intros i' k X K; apply H; [right; exact X|exact K])) as (m' & E & M). exists m'. split; [exact E|]. apply (added_app m m1 m'); assumption.
Qed.
End Target.
End Updates.

Section Blocks.
Context {V : Type}.
Variables (trans : bool) (mix : V -> V -> V) (fuel : nat) (n d idim : Z) (add mul : V -> V -> V) (zero : V) (a : Z -> Z -> V) (all : list (elt V)) (ssb : list (sprs V)) (ilo ihi : Z).
Hypotheses (AD : addition add zero) (FU : (2 <= fuel)%nat) (ND : 1 <= n <= d) (IL : 0 <= ilo <= ihi) (IH : ihi < idim).
Definition place (i j : Z) : Z := if trans then j + (i - ilo) * d else i - ilo + j * (ihi - ilo + 1).
Notation size := (d * (ihi - ilo + 1)).
Definition elem (i k : Z) : V := if trans then a (k + 1) (i + 1) else a (i + 1) (k + 1).
Notation procs := (zseq 0 (Z.to_nat n)).
Hypothesis LEN : length ssb = Z.to_nat n.
Hypothesis INA : Forall (inside d d) all.
Hypothesis BLK : forall p s, 0 <= p < n -> nth_error ssb (Z.to_nat p) = Some s -> 0 <= s_ilo s <= s_ihi s /\ s_ihi s < d /\ (forall i, 0 <= i < d -> (s_ilo s <= i <= s_ihi s <-> in_part n d p i)) /\
  forall c i, 0 <= c < n -> s_ilo s <= i <= s_ihi s -> exists r, block_row s c i = Done r /\ Permutation r (row_part n d c i all).
Lemma place_inj i i' j j' : ilo <= i <= ihi -> ilo <= i' <= ihi -> 0 <= j < d -> 0 <= j' < d -> place i j = place i' j' -> i = i' /\ j = j'.
Proof.
  clear - IL. unfold place. intros I I' J J' E. destruct trans.
  - assert (i - ilo = i' - ilo) by nia. split; [lia|nia].
  - assert (j = j') by nia. split; [subst; lia|assumption].
Qed.
Lemma place_in i j : ilo <= i <= ihi -> 0 <= j < d -> 0 <= place i j < size.
Proof. clear - IL. unfold place. intros I J. destruct trans; nia. Qed.
Definition sp (p : Z) : sprs V := nth (Z.to_nat p) ssb (Sprs 0 0 [] [] [] [] []).
Lemma sp_nth p : 0 <= p < n -> nth_error ssb (Z.to_nat p) = Some (sp p).
Proof. clear - LEN. intros H. apply nth_error_nth'. lia. Qed.
Definition contrib (l p : Z) : list (elt V) :=
  flat_map (fun i => flat_map (fun k => map (prod_elt mul i (elem i k)) (row_part n d l k all)) (rows_of (sp p))) (zseq ilo (Z.to_nat (ihi - ilo + 1))).
Notation added := (added add zero d ilo ihi place).
Notation aa0 := (if trans then 1 else ilo + 1). Notation aa1 := (if trans then ilo + 1 else 1).
Notation bb0 := (if trans then d else ihi + 1). Notation bb1 := (if trans then ihi + 1 else d).
Notation d0 := (if trans then d else idim). Notation d1 := (if trans then idim else d).

Lemma acc_blocks_ok l lo hi : 0 <= l < n -> column_distribution fuel n d l = Done (lo, hi) -> 0 <= lo <= hi -> hi < d -> (forall x, 0 <= x < d -> (lo <= x <= hi <-> in_part n d l x)) ->
  forall ns m, (forall p, In p ns -> 0 <= p < n) ->
  exists m', acc_blocks trans false mix fuel n add mul d d0 d1 a aa0 aa1 bb0 bb1 ilo ihi lo hi l ssb ns m = Done m' /\ added m m' (flat_map (contrib l) ns).
Proof.
  intros L CD LH HD RNG. induction ns as [|p ns IHn]; intros m N; [exists m; split; [reflexivity|apply (added_nil add zero d ilo ihi place AD)]|]. cbn [acc_blocks flat_map].
  replace ((aa0 <=? (if trans then lo + 1 else ilo + 1)) && ((if trans then lo + 1 else ilo + 1) <=? (if trans then hi + 1 else ihi + 1)) && ((if trans then hi + 1 else ihi + 1) <=? bb0) &&
    (aa1 <=? (if trans then ilo + 1 else lo + 1)) && ((if trans then ilo + 1 else lo + 1) <=? (if trans then ihi + 1 else hi + 1)) && ((if trans then ihi + 1 else hi + 1) <=? bb1)) with true by (clear - LH HD IL; destruct trans; lia).
  assert (Pp : 0 <= p < n) by (apply N; left; reflexivity). pose proof (sp_nth p Pp) as Es. rewrite Es. destruct (BLK p (sp p) Pp Es) as (B1 & B2 & B3 & B4). set (s := sp p) in *.
  assert (IHn' : forall m1, exists m', acc_blocks trans false mix fuel n add mul d d0 d1 a aa0 aa1 bb0 bb1 ilo ihi lo hi l ssb ns m1 = Done m' /\ added m1 m' (flat_map (contrib l) ns)) by (intros m1; apply IHn; intros x X; apply N; right; exact X).
  destruct (B4 l (s_ilo s) L ltac:(lia)) as (r0 & E0 & _). destruct (access_cases s l (s_ilo s) r0 E0) as [[W NB]|(w & W)]; rewrite W.
  - destruct (IHn' m) as (m' & E & M). exists m'. split; [exact E|]. replace (contrib l p) with (@nil (elt V)); [exact M|]. symmetry. unfold contrib. apply flat_map_nil. intros i _. apply flat_map_nil. intros k K. fold s in K. apply rows_of_In in K; [|lia].
    destruct (B4 l k L K) as (r & Er & Pr). unfold block_row in Er. rewrite W in Er. injection Er as <-. apply Permutation_nil in Pr. rewrite Pr. reflexivity.
  - rewrite CD. 
    replace ((1 <=? (if trans then s_ilo s + 1 else ilo + 1)) && ((if trans then s_ilo s + 1 else ilo + 1) <=? (if trans then s_ihi s + 1 else ihi + 1)) && ((if trans then s_ihi s + 1 else ihi + 1) <=? d0) &&
      (1 <=? (if trans then ilo + 1 else s_ilo s + 1)) && ((if trans then ilo + 1 else s_ilo s + 1) <=? (if trans then ihi + 1 else s_ihi s + 1)) && ((if trans then ihi + 1 else s_ihi s + 1) <=? d1)) with true by (clear - B1 B2 IL IH; destruct trans; lia).
    match goal with |- context [acc_is add mul ?ppos ?sz ?rrd s w ?kks ?iis m] => set (po := ppos); set (rr := rrd); replace sz with size by (clear; destruct trans; ring);
      destruct (acc_is_ok add mul zero d ilo ihi size place AD place_inj place_in lo hi po ltac:(lia)) with (s := s) (w := w) (q := fun k => row_part n d l k all) (rd := rr) (am := elem) (ks := kks) (is := iis) (m := m) as (m1 & E1 & M1) end.
    + intros i j I J. unfold po, place. clear. destruct trans; ring.
    + intros i I. apply zseq_In in I. clear - I IL. lia.
    + intros i k I K. apply zseq_In in I. apply zseq_In in K. split.
      * unfold rr, rd_a, rd_buf, elem. clear - I K IL B1. destruct trans.
        -- set (ld := s_ihi s + 1 - (s_ilo s + 1) + 1). assert (LD : ld = s_ihi s - s_ilo s + 1) by (unfold ld; lia). assert (0 <= (i - ilo) * ld + (k - s_ilo s) < ld * (ihi + 1 - (ilo + 1) + 1)) by nia.
           replace ((0 <=? (i - ilo) * ld + (k - s_ilo s)) && ((i - ilo) * ld + (k - s_ilo s) <? ld * (ihi + 1 - (ilo + 1) + 1))) with true by lia.
           rewrite Z.div_add_l by lia. rewrite (Z.add_comm ((i - ilo) * ld)), Z.mod_add by lia. rewrite Z.mod_small, Z.div_small by lia. f_equal. f_equal; lia.
        -- set (ld := ihi + 1 - (ilo + 1) + 1). assert (LD : ld = ihi - ilo + 1) by (unfold ld; lia). assert (0 <= i - ilo + (k - s_ilo s) * ld < ld * (s_ihi s + 1 - (s_ilo s + 1) + 1)) by nia.
           replace ((0 <=? i - ilo + (k - s_ilo s) * ld) && (i - ilo + (k - s_ilo s) * ld <? ld * (s_ihi s + 1 - (s_ilo s + 1) + 1))) with true by lia.
           rewrite Z.div_add by lia. rewrite Z.mod_add by lia. rewrite Z.mod_small, Z.div_small by lia. f_equal. f_equal; lia.
      * destruct (B4 l k L ltac:(lia)) as (r & Er & Pr). exists r. unfold block_row in Er. rewrite W in Er. split; [exact Er|]. split; [exact Pr|]. intros j v J. apply (Permutation_in _ Pr) in J. unfold row_part in J. apply in_map_iff in J. destruct J as (e & Ee & Ie). injection Ee as <- _. apply filter_In in Ie.
        destruct Ie as [Ie Pe]. apply andb_prop in Pe. destruct Pe as [_ Pe]. apply in_partb_spec in Pe. rewrite Forall_forall in INA. destruct (INA e Ie) as [_ Hc]. apply RNG; assumption.
    + rewrite E1. destruct (IHn' m1) as (m' & E & M). exists m'. split; [exact E|]. apply (added_app add zero d ilo ihi place AD m m1 m'); [exact M1|exact M].
Qed.
Lemma acc_targets_ok me : 0 <= me < n -> forall ls m, (forall l, In l ls -> 0 <= l < n) ->
  exists m', acc_targets trans false mix fuel n add mul me d d d0 d1 a aa0 aa1 bb0 bb1 ilo ihi ssb ls m = Done m' /\ added m m' (flat_map (fun l => flat_map (contrib l) procs) ls).
Proof.
  intros ME. induction ls as [|l ls IHl]; intros m N; [exists m; split; [reflexivity|apply (added_nil add zero d ilo ihi place AD)]|]. cbn [acc_targets flat_map]. assert (L : 0 <= l < n) by (apply N; left; reflexivity).
  destruct (column_limits fuel n d l FU ltac:(lia) L) as (lo & hi & CD & OL & HL & LH & HD & RNG).
  assert (RD : row_distribution fuel n d me l = Done (lo, hi)) by (unfold row_distribution; destruct (l =? me); [rewrite OL, HL; reflexivity|exact CD]). rewrite RD.
  destruct (acc_blocks_ok l lo hi L CD LH HD RNG procs m) as (m1 & E1 & M1); [intros p X; apply zseq_In in X; lia|]. rewrite E1.
  destruct (IHl m1 ltac:(intros x X; apply N; right; exact X)) as (m' & E & M). exists m'. split; [exact E|]. apply (added_app add zero d ilo ihi place AD m m1 m'); assumption.
Qed.
Definition whole (i : Z) (e : elt V) : elt V := (i, ecol e, mul (elem i (erow e)) (evalue e)).
Lemma contrib_all : Permutation (flat_map (fun l => flat_map (contrib l) procs) procs) (flat_map (fun i => map (whole i) all) (zseq ilo (Z.to_nat (ihi - ilo + 1)))).
Proof.
  set (rows := zseq ilo (Z.to_nat (ihi - ilo + 1))). set (G := fun i p l => flat_map (fun k => map (prod_elt mul i (elem i k)) (row_part n d l k all)) (rows_of (sp p))).
  eapply perm_trans; [apply (flat_map_swap contrib procs procs)|].
  eapply perm_trans; [apply flat_map_perm_in with (g := fun p => flat_map (fun i => flat_map (G i p) procs) rows); intros p _; apply (flat_map_swap (fun l i => G i p l) rows procs)|].
  eapply perm_trans; [apply (flat_map_swap (fun p i => flat_map (G i p) procs) rows procs)|]. apply flat_map_perm_in. intros i _.
  eapply perm_trans; [apply flat_map_perm_in with (g := fun p => map (whole i) (filter (fun e => owner n d (erow e) =? p) all))|].
  - intros p X. apply zseq_In in X. assert (Pp : 0 <= p < n) by lia. destruct (BLK p (sp p) Pp (sp_nth p Pp)) as (B1 & B2 & B3 & _). unfold G.
    eapply perm_trans; [apply (flat_map_swap (fun l k => map (prod_elt mul i (elem i k)) (row_part n d l k all)) (rows_of (sp p)) procs)|].
    eapply perm_trans; [apply flat_map_perm_in with (g := fun k => map (whole i) (filter (fun e => erow e =? k) all))|].
    + intros k _. rewrite <- map_flat. eapply perm_trans; [apply Permutation_map; apply (row_parts_all n d ND d d all k ltac:(lia) INA)|]. rewrite map_map. unfold prod_elt, whole. cbn [fst snd].
      erewrite map_ext_in; [apply Permutation_refl|]. intros e I. apply filter_In in I. destruct I as [_ I]. apply Z.eqb_eq in I. cbn beta. rewrite I. reflexivity.
    + rewrite <- map_flat. apply Permutation_map. apply (own_rows n d d all INA (sp p) ltac:(lia) p). intros x X'. rewrite (B3 x X'). symmetry. apply owner_part; lia.
  - rewrite <- map_flat. apply Permutation_map. apply parts_perm. apply Forall_forall. intros e I. rewrite Forall_forall in INA. destruct (INA e I) as [Hr _]. pose proof (owner_range n d (erow e) ltac:(lia) ltac:(lia) Hr). lia.
Qed.
End Blocks.
