(** Lemmas on operations with a mask: sums. *)
From Verif Require Import SpecWf MDist MBase MNb MHandle MGroup LRadix LAxis LDist LDist2 LNb MSparse LLine LSparse.
From Coq Require Import Permutation.

Section sum.
Context {V : Type} (add : V -> V -> V) (zero : V).
Hypothesis AD : addition add zero.
Lemma ad_zero_r a : add a zero = a.
Proof. rewrite (ad_comm _ _ AD). apply (ad_zero _ _ AD). Qed.
Lemma sum_empty f l h : h < l -> sum_of add zero f l h = zero.
Proof. intros H. unfold sum_of. replace (Z.to_nat (h - l + 1)) with O by lia. reflexivity. Qed.
Lemma sum_last f l h : l <= h -> sum_of add zero f l h = add (sum_of add zero f l (h - 1)) (f h).
Proof.
  intros H. unfold sum_of. replace (Z.to_nat (h - l + 1)) with (S (Z.to_nat (h - 1 - l + 1))) by lia. cbn [sum_from]. do 2 f_equal. lia.
Qed.
Lemma sum_one f l : sum_of add zero f l l = f l.
Proof. rewrite sum_last by lia. rewrite sum_empty by lia. apply (ad_zero _ _ AD). Qed.
Lemma sum_cat f l m h : l <= m + 1 -> m <= h -> add (sum_of add zero f l m) (sum_of add zero f (m + 1) h) = sum_of add zero f l h.
Proof.
  intros LM MH. remember (Z.to_nat (h - m)) as k eqn:E. revert h MH E. induction k as [|k IH]; intros h MH E.
  - replace h with m by lia. rewrite (sum_empty f (m + 1) m) by lia. apply ad_zero_r.
  - rewrite (sum_last f (m + 1) h), (sum_last f l h) by lia. rewrite (ad_assoc _ _ AD). f_equal. apply IH; lia.
Qed.
End sum.

Lemma zseq_snoc m : forall l, zseq l (S m) = zseq l m ++ [l + Z.of_nat m].
Proof.
  induction m as [|m IH]; intros l; [cbn [zseq app]; rewrite Z.add_0_r; reflexivity|].
  change (zseq l (S (S m))) with (l :: zseq (l + 1) (S m)). rewrite IH. change (zseq l (S m)) with (l :: zseq (l + 1) m). cbn [app].
  replace (l + 1 + Z.of_nat m) with (l + Z.of_nat (S m)) by lia. reflexivity.
Qed.
Lemma skip_zero_spec msk lop hip stop : forall fuel start, 0 <= start <= stop -> stop <= hip - lop + 1 -> fuel = S (Z.to_nat (stop - start)) ->
  stop < hip - lop + 1 \/ (exists j, lop + start <= j < lop + stop /\ msk j = true) ->
  exists s, skip_zero msk lop hip stop fuel start = Done s /\ start <= s <= stop /\ none_set msk (lop + start) (lop + s - 1) /\
    (s = stop \/ msk (lop + s) = true) /\ lop + s <= hip.
Proof.
  induction fuel as [|f IH]; intros start S1 S2 F H; [lia|]. cbn [skip_zero]. unfold rd.
  assert (start <= hip - lop) as RD by (destruct H as [|(j & J & _)]; lia).
  destruct (Z.leb_spec 0 start); [|lia]. destruct (Z.leb_spec start (hip - lop)); [|lia]. cbn [andb].
  destruct (msk (lop + start)) eqn:M; cbn [negb andb].
  - exists start. split; [reflexivity|]. split; [lia|]. split; [intros k K; lia|]. split; [right; exact M|lia].
  - destruct (Z.ltb_spec start stop) as [LT|GE].
    + destruct (IH (start + 1) ltac:(lia) S2 ltac:(lia)) as (s & E & A & B & C & D).
      { destruct H as [H|(j & J & MJ)]; [left; exact H|]. right. exists j. split; [|exact MJ]. destruct (Z.eq_dec j (lop + start)) as [->|]; [congruence|lia]. }
      exists s. split; [exact E|]. split; [lia|]. split; [|split; [exact C|exact D]].
      intros k K. destruct (Z.eq_dec k (lop + start)) as [->|]; [exact M|apply B; lia].
    + exists start. split; [reflexivity|]. split; [lia|]. split; [intros k K; lia|]. split; [left; lia|lia].
Qed.

Section line.
Variables (guess : Z -> Z -> Z -> Z) (nproc : Z) (g : gadesc) (d n : Z) (b own : Z -> Z).
Hypothesis L : line guess nproc g d n b own.
Variables (msk : Z -> bool) (lo hi : Z).
Hypotheses (LO : 1 <= lo) (LH : lo <= hi) (HD : hi <= d).
(** The first part has a set element, or is not read to its end. *)
Hypothesis FS : forall k, 0 <= k < n -> b k <= lo < b (k + 1) -> hi < b (k + 1) - 1 \/ exists j, lo <= j < b (k + 1) /\ j <= hi /\ msk j = true.
Variable ls : list Z.
Hypothesis F : Forall2 (limr n b own msk lo hi) (zseq 0 (Z.to_nat nproc)) ls.

Let seg := segment g msk lo hi ls.
Lemma segment_spec k : 0 <= k < n -> b k <= hi -> lo <= b (k + 1) - 1 -> exists start stop r,
  seg (own k) = Done (Some (b k, b (k + 1) - 1, start, stop, r)) /\
  b k + stop = Z.min hi (b (k + 1) - 1) + 1 /\ Z.max lo (b k) <= b k + start <= b k + stop /\ none_set msk (Z.max lo (b k)) (b k + start - 1) /\
  b k + start <= b (k + 1) - 1 /\ lastr msk lo (b k - 1) r /\
  (lo < b k -> start = 0) /\ (b k <= lo -> start = stop \/ msk (b k + start) = true).
Proof.
  intros K BH BL. pose proof (line_b _ _ _ _ _ _ _ L k K) as BK. unfold seg, segment. rewrite (ln_dist _ _ _ _ _ _ _ L k K).
  destruct (Z.ltb_spec hi (b k)); [lia|]. destruct (Z.ltb_spec (b (k + 1) - 1) lo); [lia|]. cbn [orb].
  rewrite (access_ok _ _ _ _ _ _ _ L) by exact K. pose proof (rmt_spec _ _ _ _ _ _ _ L msk lo hi LO ls k F K BH) as RM.
  assert (b k + stop_of (b k) (b (k + 1) - 1) hi = Z.min hi (b (k + 1) - 1) + 1) as ES.
  { unfold stop_of. destruct (Z.ltb_spec hi (b (k + 1) - 1)); lia. }
  assert (b k + start_of (b k) lo = Z.max lo (b k)) as EA by (unfold start_of; destruct (Z.ltb_spec (b k) lo); lia).
  destruct (Z.leb_spec (b k) lo) as [FB|FB].
  - destruct (skip_zero_spec msk (b k) (b (k + 1) - 1) (stop_of (b k) (b (k + 1) - 1) hi) (S (Z.to_nat (stop_of (b k) (b (k + 1) - 1) hi - start_of (b k) lo))) (start_of (b k) lo)) as (s & E & A & B & C & D); try lia.
    { destruct (FS k K ltac:(lia)) as [Q|(j & J1 & J2 & J3)]; [left; lia|right; exists j; split; [lia|exact J3]]. }
    rewrite E. exists s, (stop_of (b k) (b (k + 1) - 1) hi), (rmt_loop (b k) ls (-1)). rewrite EA in B.
    split; [reflexivity|]. split; [exact ES|]. split; [lia|]. split; [exact B|]. split; [lia|]. split; [exact RM|]. split; [lia|]. intros _. exact C.
  - exists 0, (stop_of (b k) (b (k + 1) - 1) hi), (rmt_loop (b k) ls (-1)).
    assert (start_of (b k) lo = 0) as -> by (unfold start_of; destruct (Z.ltb_spec (b k) lo); lia).
    split; [reflexivity|]. split; [exact ES|]. split; [lia|]. split; [intros j J; lia|]. split; [lia|]. split; [exact RM|]. split; [auto|lia].
Qed.
Lemma segment_none k : 0 <= k < n -> ~ (b k <= hi /\ lo <= b (k + 1) - 1) -> seg (own k) = Done None.
Proof.
  intros K H. unfold seg, segment. rewrite (ln_dist _ _ _ _ _ _ _ L k K).
  destruct (Z.ltb_spec hi (b k)); [reflexivity|]. destruct (Z.ltb_spec (b (k + 1) - 1) lo); [reflexivity|lia].
Qed.
Lemma segment_out p : dist1 g p = Done (0, -1) -> seg p = Done None.
Proof. intros E. unfold seg, segment. rewrite E. destruct (Z.ltb_spec (-1) lo); [|lia]. rewrite orb_true_r. reflexivity. Qed.

Context {V : Type} (add : V -> V -> V) (zero : V).
Hypothesis AD : addition add zero.
Variables (excl : bool) (src : Z -> V).
Let off := if excl then 1 else 0.
Let T j x := sum_of add zero src j (x - off).
Lemma off_01 : (excl = true /\ off = 1) \/ (excl = false /\ off = 0).
Proof. unfold off. destruct excl; auto. Qed.

Lemma off_x x : (if excl then x - 1 else x) = x - off.
Proof. unfold off. destruct excl; lia. Qed.
Lemma off_b : 0 <= off <= 1.
Proof. unfold off. destruct excl; lia. Qed.

Lemma T_self j : T j j = if excl then zero else src j.
Proof.
  unfold T. destruct off_01 as [[E ->]|[E ->]]; rewrite E.
  - apply sum_empty. lia.
  - replace (j - 0) with j by lia. apply (sum_one _ _ AD).
Qed.
Lemma T_next j x : j <= x - off -> T j x = add (T j (x - 1)) (if excl then src (x - 1) else src x).
Proof.
  intros H. unfold T. rewrite sum_last by exact H. f_equal; [f_equal; lia|]. destruct off_01 as [[E O]|[E O]]; rewrite E, O in *; f_equal; lia.
Qed.

Lemma add_loop_spec m : forall i lop (found : bool) dst x,
  let l := lop + i in let res := add_loop add zero excl msk src m i lop found dst x in
  (~ l <= x < l + Z.of_nat m -> res = dst x) /\
  (l <= x < l + Z.of_nat m -> (forall j, last_set msk l x j -> res = T j x) /\
    (none_set msk l x -> if found then forall j, j <= l - off -> dst (l - 1) = T j (l - 1) -> res = T j x else res = dst x)).
Proof.
  induction m as [|m IH]; intros i lop found dst x l res; unfold res; clear res; cbn [add_loop]; [split; [reflexivity|intros; lia]|].
  cbv zeta. replace (lop + i) with l by reflexivity.
  destruct (msk l) eqn:M; [|destruct found].
  - destruct (IH (i + 1) lop true (fset dst l (if excl then zero else src l)) x) as (A & B). replace (lop + (i + 1)) with (l + 1) in A, B by (unfold l; lia).
    split; [intros X; rewrite A by lia; apply fset_other; lia|]. intros X. split.
    + intros j (J1 & J2 & J3). destruct (Z.eq_dec x l) as [->|NE].
      * rewrite A by lia. rewrite fset_same. replace j with l by lia. symmetry. apply T_self.
      * destruct (B ltac:(lia)) as [B1 B2]. destruct (Z.eq_dec j l) as [->|NJ].
        -- apply B2; [intros y Y; apply J3; lia|unfold off; destruct excl; lia|]. replace (l + 1 - 1) with l by lia. rewrite fset_same. symmetry. apply T_self.
        -- apply B1. split; [lia|]. split; [exact J2|exact J3].
    + intros N. rewrite N in M by lia. discriminate.
  - set (v := add (dst (l - 1)) (if excl then src (l - 1) else src l)).
    destruct (IH (i + 1) lop true (fset dst l v) x) as (A & B). replace (lop + (i + 1)) with (l + 1) in A, B by (unfold l; lia).
    split; [intros X; rewrite A by lia; apply fset_other; lia|]. intros X. split.
    + intros j (J1 & J2 & J3). destruct (Z.eq_dec j l) as [->|NJ]; [congruence|]. destruct (B ltac:(lia)) as [B1 _]. apply B1.
      split; [lia|]. split; [exact J2|exact J3].
    + intros N j J E. assert (v = T j l) as EV by (unfold v; rewrite E; symmetry; apply T_next; exact J).
      destruct (Z.eq_dec x l) as [->|NE].
      * rewrite A by lia. rewrite fset_same. exact EV.
      * destruct (B ltac:(lia)) as [_ B2]. apply B2; [intros y Y; apply N; lia|lia|]. replace (l + 1 - 1) with l by lia. rewrite fset_same. exact EV.
  - destruct (IH (i + 1) lop false dst x) as (A & B). replace (lop + (i + 1)) with (l + 1) in A, B by (unfold l; lia).
    split; [intros X; apply A; lia|]. intros X. split.
    + intros j (J1 & J2 & J3). destruct (Z.eq_dec j l) as [->|NJ]; [congruence|]. destruct (B ltac:(lia)) as [B1 _]. apply B1.
      split; [lia|]. split; [exact J2|exact J3].
    + intros N. destruct (Z.eq_dec x l) as [->|NE]; [apply A; lia|]. destruct (B ltac:(lia)) as [_ B2]. apply B2. intros y Y. apply N. lia.
Qed.

(** After the scan of the local parts. *)
Definition after_local (x : Z) (v v' : V) : Prop :=
  (~ lo <= x <= hi -> v' = v) /\
  (lo <= x <= hi -> forall k, 0 <= k < n -> b k <= x < b (k + 1) ->
    (forall j, last_set msk (Z.max lo (b k)) x j -> v' = T j x) /\
    (none_set msk (Z.max lo (b k)) x -> lo < b k -> (exists r, last_set msk lo (b k - 1) r) -> v' = T (b k - off) x) /\
    (none_set msk lo x -> v' = v)).

Lemma local_add_spec k s : 0 <= k < n -> exists s', local_add add zero excl g msk src lo hi ls (own k) s = Done s' /\
  forall x, (b k <= x < b (k + 1) -> after_local x (s x) (s' x)) /\ (~ b k <= x < b (k + 1) -> s' x = s x).
Proof.
  intros K. pose proof (line_b _ _ _ _ _ _ _ L k K) as BK. unfold local_add.
  destruct (Z_le_dec (b k) hi) as [B1|B1]; [destruct (Z_le_dec lo (b (k + 1) - 1)) as [B2|B2]|].
  2, 3: fold (seg (own k)); rewrite (segment_none k K) by lia; exists s; split; [reflexivity|]; intros x; split; [|auto];
        intros X; split; [auto|lia].
  destruct (segment_spec k K B1 B2) as (start & stop & r & E & S1 & S2 & S3 & S4 & S5 & S6 & S7). fold (seg (own k)). rewrite E.
  assert (forall x k', b k <= x < b (k + 1) -> 0 <= k' < n -> b k' <= x < b (k' + 1) -> k' = k) as UK.
  { intros x k' X K' X'. apply (strict_block b n x k' k (ln_inc _ _ _ _ _ _ _ L)); auto. }
  set (x0 := b k + start) in *.
  destruct (Z.ltb_spec start stop) as [ST|ST].
  2: { (* nothing set in the first part *)
    assert (b k <= lo) as FB by (destruct (Z_le_gt_dec (b k) lo); [assumption|]; specialize (S6 ltac:(lia)); lia).
    assert (Z.to_nat (stop - (start + 1)) = O) as -> by lia. cbn [add_loop]. exists s. split; [reflexivity|]. intros x. split; [|auto]. intros X. split; [auto|].
    intros Y k' K' X'. rewrite (UK x k' X K' X') in *. split; [|split; [lia|auto]].
    intros j (J1 & J2 & J3). rewrite S3 in J2 by lia. discriminate. }
  assert (lo <= x0) by lia.
  destruct (msk x0) eqn:M0.
  - set (s1 := fset s x0 (if excl then zero else src x0)).
    eexists. split; [reflexivity|]. intros x.
    destruct (add_loop_spec (Z.to_nat (stop - (start + 1))) (start + 1) (b k) true s1 x) as (A & B).
    replace (b k + (start + 1)) with (x0 + 1) in A, B by (unfold x0; lia). replace (x0 + 1 + Z.of_nat (Z.to_nat (stop - (start + 1)))) with (b k + stop) in A, B by lia.
    assert (s1 x0 = T x0 x0) as E0 by (unfold s1; rewrite fset_same; symmetry; apply T_self).
    split.
    + intros X. split.
      * intros Y. rewrite A by lia. unfold s1. apply fset_other. lia.
      * intros Y k' K' X'. rewrite (UK x k' X K' X') in *.
        assert (forall j, last_set msk (Z.max lo (b k)) x j -> add_loop add zero excl msk src (Z.to_nat (stop - (start + 1))) (start + 1) (b k) true s1 x = T j x) as C1.
        { intros j (J1 & J2 & J3). assert (x0 <= j) as XJ. { destruct (Z_le_gt_dec x0 j); [assumption|]. rewrite S3 in J2 by lia. discriminate. }
          destruct (Z.eq_dec x x0) as [->|NE]; [rewrite A by lia; replace j with x0 by lia; exact E0|].
          destruct (B ltac:(lia)) as [D1 D2]. destruct (Z.eq_dec j x0) as [->|NJ].
          - apply D2; [intros y Y'; apply J3; lia|unfold off; destruct excl; lia|]. replace (x0 + 1 - 1) with x0 by lia. exact E0.
          - apply D1. split; [lia|]. split; [exact J2|exact J3]. }
        split; [exact C1|]. split.
        -- intros N G _. assert (start = 0) as Z0 by (apply S6; lia). exfalso. assert (msk x0 = false) by (apply N; lia). congruence.
        -- intros N. destruct (Z_le_gt_dec x0 x) as [G|G].
           ++ assert (msk x0 = false) by (apply N; lia). congruence.
           ++ rewrite A by lia. unfold s1. apply fset_other. lia.
    + intros X. rewrite A by lia. unfold s1. apply fset_other. lia.
  - assert (lo < b k) as FB by (destruct (Z_le_gt_dec (b k) lo) as [Q|]; [destruct (S7 Q); [lia|congruence]|lia]).
    assert (start = 0) as Z0 by (apply S6; lia). assert (x0 = b k) as EX by (unfold x0; lia). rewrite EX in *. clear EX x0.
    destruct (Z.eqb_spec (-1) r) as [ER|NR].
    + eexists. split; [reflexivity|]. intros x.
      destruct (add_loop_spec (Z.to_nat (stop - (start + 1))) (start + 1) (b k) false s x) as (A & B).
      replace (b k + (start + 1)) with (b k + 1) in A, B by lia. replace (b k + 1 + Z.of_nat (Z.to_nat (stop - (start + 1)))) with (b k + stop) in A, B by lia.
      assert (none_set msk lo (b k - 1)) as N0 by (destruct S5 as [(Q & _)|(_ & Q)]; [lia|exact Q]).
      split; [|intros X; apply A; lia]. intros X. split; [intros Y; apply A; lia|]. intros Y k' K' X'. rewrite (UK x k' X K' X') in *. split; [|split].
      * intros j (J1 & J2 & J3). destruct (Z.eq_dec j (b k)) as [->|NJ]; [congruence|]. destruct (B ltac:(lia)) as [D1 _]. apply D1.
        split; [lia|]. split; [exact J2|exact J3].
      * intros _ _ (r' & R1 & R2 & _). rewrite N0 in R2 by lia. discriminate.
      * intros N. destruct (Z.eq_dec x (b k)) as [->|NE]; [apply A; lia|]. destruct (B ltac:(lia)) as [_ D2]. apply D2. intros y Y'. apply N. lia.
    + assert (last_set msk lo (b k - 1) r) as LR by (destruct S5 as [Q|(Q & _)]; [exact Q|congruence]).
      set (s1 := if excl then if 0 <? b k - 1 then fset s (b k) (src (b k - 1)) else s else fset s (b k) (src (b k))).
      assert (s1 (b k) = T (b k - off) (b k)) as E0.
      { unfold s1, T. destruct off_01 as [[E1 ->]|[E1 ->]]; rewrite E1.
        - destruct (Z.ltb_spec 0 (b k - 1)); [|lia]. rewrite fset_same. symmetry. apply (sum_one _ _ AD).
        - rewrite fset_same. replace (b k - 0) with (b k) by lia. symmetry. apply (sum_one _ _ AD). }
      assert (forall x, x <> b k -> s1 x = s x) as E1.
      { intros x NE. unfold s1. destruct excl; [destruct (0 <? b k - 1); [|reflexivity]|]; apply fset_other; exact NE. }
      eexists. split; [reflexivity|]. intros x. fold s1.
      destruct (add_loop_spec (Z.to_nat (stop - (start + 1))) (start + 1) (b k) true s1 x) as (A & B).
      replace (b k + (start + 1)) with (b k + 1) in A, B by lia. replace (b k + 1 + Z.of_nat (Z.to_nat (stop - (start + 1)))) with (b k + stop) in A, B by lia.
      split; [|intros X; rewrite A by lia; apply E1; lia]. intros X. split; [intros Y; rewrite A by lia; apply E1; lia|].
      intros Y k' K' X'. rewrite (UK x k' X K' X') in *. split; [|split].
      * intros j (J1 & J2 & J3). destruct (Z.eq_dec j (b k)) as [->|NJ]; [congruence|]. destruct (B ltac:(lia)) as [D1 _]. apply D1.
        split; [lia|]. split; [exact J2|exact J3].
      * intros N _ _. destruct (Z.eq_dec x (b k)) as [->|NE]; [rewrite A by lia; exact E0|]. destruct (B ltac:(lia)) as [_ D2].
        apply D2; [intros y Y'; apply N; lia|unfold off; destruct excl; lia|]. replace (b k + 1 - 1) with (b k) by lia. exact E0.
      * intros N. destruct LR as (R1 & R2 & _). rewrite N in R2 by lia. discriminate.
Qed.

(** What the parts before add. *)
Lemma fold_blocks (dst : Z -> V) r kr : 0 <= kr -> lo <= r -> b kr <= r < b (kr + 1) -> forall m s, kr + Z.of_nat m < n ->
  (dst (b (kr + 1) - 1) = T r (b (kr + 1) - 1)) ->
  (forall j, kr < j <= kr + Z.of_nat m -> dst (b (j + 1) - 1) = T (b j - off) (b (j + 1) - 1)) ->
  fold_left (fun s h => add s (dst h)) (map (fun j => b (j + 1) - 1) (zseq kr (S m))) s = add s (T r (b (kr + Z.of_nat m + 1) - 1)).
Proof.
  intros K0 LR BR m. induction m as [|m IH] using nat_ind; intros s KN H1 H2.
  - cbn [zseq map fold_left]. rewrite H1. rewrite Z.add_0_r. reflexivity.
  - assert (zseq kr (S (S m)) = zseq kr (S m) ++ [kr + Z.of_nat (S m)]) as ->.
    { apply zseq_snoc. }
    rewrite map_app, fold_left_app. rewrite IH; [|lia|exact H1|intros j J; apply H2; lia]. cbn [map fold_left].
    rewrite H2 by lia. rewrite <- (ad_assoc _ _ AD). f_equal. unfold T.
    replace (kr + Z.of_nat (S m)) with (kr + Z.of_nat m + 1) by lia.
    replace (b (kr + Z.of_nat m + 1) - off) with (b (kr + Z.of_nat m + 1) - 1 - off + 1) by lia.
    pose proof (line_b _ _ _ _ _ _ _ L (kr + Z.of_nat m + 1) ltac:(lia)). 
    assert (r < b (kr + Z.of_nat m + 1)).
    { destruct (Z.eq_dec (Z.of_nat m) 0) as [->|]; [rewrite Z.add_0_r; lia|]. pose proof (line_lt _ _ _ _ _ _ _ L kr (kr + Z.of_nat m + 1) K0 ltac:(lia) ltac:(lia)). lia. }
    apply (sum_cat _ _ AD); pose proof off_b; lia.
Qed.

Definition carried (k : Z) (o : option V) : Prop :=
  (forall r, b k <= hi -> lo < b k -> msk (b k) = false -> last_set msk lo (b k - 1) r -> o = Some (T r (b k - 1))) /\
  (b k <= lo \/ hi < b k \/ msk (b k) = true \/ none_set msk lo (b k - 1) -> o = None).

Lemma all_some_map {A B} (f : A -> option B) (h : A -> B) l : (forall a, In a l -> f a = Some (h a)) -> all_some (map f l) = Some (map h l).
Proof.
  induction l as [|a l IH]; intros H; [reflexivity|]. cbn [map all_some]. rewrite H by (left; reflexivity).
  rewrite IH by (intros x X; apply H; right; exact X). reflexivity.
Qed.
Lemma gather_spec s0 dst k : (forall x, 1 <= x <= d -> after_local x (s0 x) (dst x)) -> 0 <= k < n ->
  exists o, gather_sum add zero guess g msk lo hi ls dst (own k) = Done (own k, o) /\ carried k o.
Proof.
  intros AL K. pose proof (line_b _ _ _ _ _ _ _ L k K) as BK. unfold gather_sum. fold (seg (own k)).
  destruct (Z_le_dec (b k) hi) as [B1|B1]; [destruct (Z_le_dec lo (b (k + 1) - 1)) as [B2|B2]|].
  2, 3: rewrite (segment_none k K) by lia; exists None; split; [reflexivity|]; split; [intros; lia|reflexivity].
  destruct (segment_spec k K B1 B2) as (start & stop & r & E & S1 & S2 & S3 & S4 & S5 & S6 & S7). rewrite E. unfold rd.
  destruct (Z.leb_spec 0 start); [|lia]. destruct (Z.leb_spec start (b (k + 1) - 1 - b k)); [|lia]. cbn [andb].
  destruct (Z_le_gt_dec (b k) lo) as [FB|FB].
  - assert (r = -1) as -> by (destruct S5 as [(Q & _)|(Q & _)]; [lia|exact Q]). rewrite Z.eqb_refl. cbn [negb]. rewrite andb_false_r.
    exists None. split; [reflexivity|]. split; [intros; lia|reflexivity].
  - assert (start = 0) as -> by (apply S6; lia). rewrite Z.add_0_r. destruct (msk (b k)) eqn:M; cbn [negb andb].
    + exists None. split; [reflexivity|]. split; [intros; congruence|reflexivity].
    + destruct (Z.eqb_spec (-1) r) as [<-|NR]; cbn [negb].
      * assert (none_set msk lo (b k - 1)) as N0 by (destruct S5 as [(Q & _)|(_ & Q)]; [lia|exact Q]).
        exists None. split; [reflexivity|]. split; [|reflexivity]. intros r _ _ _ (R1 & R2 & _). rewrite N0 in R2 by lia. discriminate.
      * assert (last_set msk lo (b k - 1) r) as LR by (destruct S5 as [Q|(Q & _)]; [exact Q|congruence]). pose proof LR as (R1 & R2 & R3).
        destruct (line_blk _ _ _ _ _ _ _ L r ltac:(lia)) as (kr & KR & BR).
        assert (kr < k) as KK. { destruct (Z_lt_ge_dec kr k) as [|G]; [assumption|]. destruct (Z.eq_dec kr k) as [->|]; [lia|].
          pose proof (line_lt _ _ _ _ _ _ _ L k kr ltac:(lia) ltac:(lia) ltac:(lia)). lia. }
        pose proof (ln_inc _ _ _ _ _ _ _ L (k - 1) ltac:(lia)) as IK. replace (k - 1 + 1) with k in IK by lia.
        rewrite (ln_region _ _ _ _ _ _ _ L r (b k - 1) kr (k - 1)) by (try lia; replace (k - 1 + 1) with k by lia; lia).
        rewrite map_map.
        rewrite (all_some_map _ (fun j => b (j + 1) - 1)).
        2: { intros j J. apply zseq_In in J. cbn [snd]. f_equal. destruct (Z.eq_dec j (k - 1)) as [->|NJ]; [replace (k - 1 + 1) with k by lia; lia|].
             pose proof (line_lt _ _ _ _ _ _ _ L j k ltac:(lia) ltac:(lia) ltac:(lia)). lia. }
        cbn [need]. replace (Z.to_nat (k - 1 - kr + 1)) with (S (Z.to_nat (k - 1 - kr))) by lia.
        eexists. split; [reflexivity|]. split.
        -- intros r' _ _ _ LR'. assert (r' = r) as -> by (apply (last_one msk lo (b k - 1)); auto). f_equal.
           rewrite (fold_blocks dst r kr); try lia.
           ++ rewrite (ad_zero _ _ AD). f_equal. f_equal. f_equal. lia.
           ++ pose proof (line_b _ _ _ _ _ _ _ L kr KR). pose proof (line_lt _ _ _ _ _ _ _ L kr k ltac:(lia) KK ltac:(lia)).
              destruct (AL (b (kr + 1) - 1) ltac:(lia)) as [_ A]. destruct (A ltac:(lia) kr KR ltac:(lia)) as [A1 _]. apply A1.
              split; [lia|]. split; [exact R2|]. intros y Y. apply R3. lia.
           ++ intros j J. assert (0 <= j < n) as JN by lia. pose proof (line_b _ _ _ _ _ _ _ L j JN). pose proof (line_lt _ _ _ _ _ _ _ L j k ltac:(lia) ltac:(lia) ltac:(lia)).
              pose proof (line_lt _ _ _ _ _ _ _ L kr j ltac:(lia) ltac:(lia) ltac:(lia)).
              destruct (AL (b (j + 1) - 1) ltac:(lia)) as [_ A]. destruct (A ltac:(lia) j JN ltac:(lia)) as (_ & A2 & _). apply A2.
              ** intros y Y. apply R3. lia.
              ** lia.
              ** exists r. split; [lia|]. split; [exact R2|]. intros y Y. apply R3. lia.
        -- intros [Q|[Q|[Q|Q]]]; [lia|lia|congruence|]. rewrite Q in R2 by lia. discriminate.
Qed.
Lemma gather_out dst p : dist1 g p = Done (0, -1) -> gather_sum add zero guess g msk lo hi ls dst p = Done (p, None).
Proof. intros E. unfold gather_sum. fold (seg p). rewrite segment_out by exact E. reflexivity. Qed.

Lemma carry_loop_spec sum m : forall i lop (dst : Z -> V) x,
  let l := lop + i in let res := carry_loop add msk sum m i lop dst x in
  (l <= x < l + Z.of_nat m -> none_set msk l x -> res = add (dst x) sum) /\
  (~ l <= x < l + Z.of_nat m \/ (exists j, last_set msk l x j) -> res = dst x).
Proof.
  induction m as [|m IH]; intros i lop dst x l res; unfold res; clear res; cbn [carry_loop]; [split; [intros; lia|reflexivity]|].
  replace (lop + i) with l by reflexivity. destruct (msk l) eqn:M.
  - split; [|reflexivity]. intros X N. rewrite N in M by lia. discriminate.
  - destruct (IH (i + 1) lop (fset dst l (add (dst l) sum)) x) as (A & B). replace (lop + (i + 1)) with (l + 1) in A, B by (unfold l; lia). split.
    + intros X N. destruct (Z.eq_dec x l) as [->|NE].
      * rewrite B by (left; lia). apply fset_same.
      * rewrite A; [|lia|intros y Y; apply N; lia]. rewrite fset_other by exact NE. reflexivity.
    + intros H. assert (x <> l) as NE.
      { intros ->. destruct H as [H|(j & J1 & J2 & _)]; [lia|]. replace j with l in J2 by lia. congruence. }
      rewrite <- (fset_other dst l x (add (dst l) sum) NE). apply B. destruct H as [H|(j & J1 & J2 & J3)]; [left; lia|right].
      exists j. split; [|split; [exact J2|exact J3]]. destruct (Z.eq_dec j l) as [->|]; [congruence|lia].
Qed.
Definition after_carry (x : Z) (v v' : V) : Prop :=
  (~ lo <= x <= hi -> v' = v) /\
  (lo <= x <= hi -> forall k, 0 <= k < n -> b k <= x < b (k + 1) ->
    (none_set msk (Z.max lo (b k)) x -> lo < b k -> forall r, last_set msk lo (b k - 1) r -> v' = add v (T r (b k - 1))) /\
    ((exists j, last_set msk (Z.max lo (b k)) x j) \/ b k <= lo \/ none_set msk lo (b k - 1) -> v' = v)).
Lemma carry_add_spec k o s : 0 <= k < n -> carried k o -> exists s', carry_add add g msk lo hi ls (own k, o) s = Done s' /\
  forall x, (b k <= x < b (k + 1) -> after_carry x (s x) (s' x)) /\ (~ b k <= x < b (k + 1) -> s' x = s x).
Proof.
  intros K [C1 C2]. pose proof (line_b _ _ _ _ _ _ _ L k K) as BK. unfold carry_add. cbn [fst snd].
  assert (forall x k', b k <= x < b (k + 1) -> 0 <= k' < n -> b k' <= x < b (k' + 1) -> k' = k) as UK.
  { intros x k' X K' X'. apply (strict_block b n x k' k (ln_inc _ _ _ _ _ _ _ L)); auto. }
  assert ((b k <= lo \/ hi < b k \/ msk (b k) = true \/ none_set msk lo (b k - 1)) \/
          (b k <= hi /\ lo < b k /\ msk (b k) = false /\ exists r, last_set msk lo (b k - 1) r)) as [Q|(Q1 & Q2 & Q3 & r & LR)].
  { destruct (Z_le_gt_dec (b k) lo); [left; lia|]. destruct (Z_le_gt_dec (b k) hi); [|left; lia].
    destruct (msk (b k)) eqn:M; [left; auto|]. destruct (last_dec msk lo (b k - 1)) as [(r & LR)|N]; [right|left; auto].
    split; [lia|]. split; [lia|]. split; [reflexivity|]. exists r. exact LR. }
  - rewrite (C2 Q). exists s. split; [reflexivity|]. intros x. split; [|auto]. intros X. split; [auto|]. intros Y k' K' X'. rewrite (UK x k' X K' X') in *.
    split; [|auto]. intros N G r (R1 & R2 & R3). exfalso. destruct Q as [Q|[Q|[Q|Q]]]; try lia.
    + rewrite N in Q by lia. discriminate.
    + rewrite Q in R2 by lia. discriminate.
  - rewrite (C1 r Q1 Q2 Q3 LR). fold (seg (own k)).
    destruct (segment_spec k K Q1 ltac:(lia)) as (start & stop & r' & E & S1 & S2 & S3 & S4 & S5 & S6 & S7). rewrite E.
    assert (start = 0) as -> by (apply S6; lia). eexists. split; [reflexivity|]. intros x.
    destruct (carry_loop_spec (T r (b k - 1)) (Z.to_nat (stop - 0)) 0 (b k) s x) as (A & B). rewrite Z.add_0_r in A, B.
    replace (b k + Z.of_nat (Z.to_nat (stop - 0))) with (b k + stop) in A, B by lia. split.
    + intros X. split; [intros Y; apply B; left; lia|]. intros Y k' K' X'. rewrite (UK x k' X K' X') in *. replace (Z.max lo (b k)) with (b k) in * by lia. split.
      * intros N _ r0 LR0. assert (r0 = r) as -> by (apply (last_one msk lo (b k - 1)); auto). apply A; [lia|exact N].
      * intros [J|[J|J]]; [apply B; right; exact J|lia|]. destruct LR as (R1 & R2 & _). rewrite J in R2 by lia. discriminate.
    + intros X. apply B. left. lia.
Qed.
Lemma carry_each (h : Z -> Z * option V) ps : forall dst,
  carry_all add g msk lo hi ls (map h ps) dst = each (fun p => carry_add add g msk lo hi ls (h p)) ps dst.
Proof.
  induction ps as [|p ps IH]; intros dst; [reflexivity|]. cbn [map carry_all each].
  destruct (carry_add add g msk lo hi ls (h p) dst) as [d1| |]; [apply IH|reflexivity|reflexivity].
Qed.

Theorem scan_add_parts ps dst : all_procs nproc ps ->
  exists dst', (try d1 <- each (local_add add zero excl g msk src lo hi ls) ps dst;
                try sums <- collect (gather_sum add zero guess g msk lo hi ls d1) ps;
                carry_all add g msk lo hi ls sums d1) = Done dst' /\ forall x,
    (lo <= x <= hi -> forall j, last_set msk lo x j -> dst' x = sum_of add zero src j (if excl then x - 1 else x)) /\
    (lo <= x <= hi -> none_set msk lo x -> dst' x = dst x) /\
    (~ lo <= x <= hi -> dst' x = dst x).
Proof.
  intros AP. destruct (each_line _ _ _ _ _ _ _ L after_local (local_add add zero excl g msk src lo hi ls) ps dst AP) as (d1 & E1 & A1 & A1').
  - intros k K s. apply local_add_spec. exact K.
  - intros p s E. unfold local_add. fold (seg p). rewrite segment_out by exact E. reflexivity.
  - rewrite E1.
    set (h := fun p => match gather_sum add zero guess g msk lo hi ls d1 p with Done a => a | _ => (p, None) end).
    rewrite (collect_ok _ h).
    2: { intros p I. unfold h. apply (all_procs_In nproc) in I; [|exact AP]. destruct (ln_none _ _ _ _ _ _ _ L p I) as [(k & K & ->)|N].
         - destruct (gather_spec dst d1 k A1 K) as (o & -> & _). reflexivity.
         - rewrite gather_out by exact N. reflexivity. }
    rewrite carry_each.
    destruct (each_line _ _ _ _ _ _ _ L after_carry (fun p => carry_add add g msk lo hi ls (h p)) ps d1 AP) as (d2 & E2 & A2 & A2').
    + intros k K s. unfold h. destruct (gather_spec dst d1 k A1 K) as (o & -> & C). apply carry_add_spec; assumption.
    + intros p s E. unfold h. rewrite gather_out by exact E. reflexivity.
    + exists d2. split; [exact E2|]. intros x. destruct (Z_le_dec lo x) as [X1|]; [destruct (Z_le_dec x hi) as [X2|]|].
      2, 3: split; [lia|]; split; [lia|]; intros _;
        destruct (Z_le_dec 1 x), (Z_le_dec x d); try (rewrite A2' by lia; apply A1'; lia);
        destruct (A2 x ltac:(lia)) as [B2 _]; rewrite B2 by lia; destruct (A1 x ltac:(lia)) as [B1 _]; apply B1; lia.
      destruct (line_blk _ _ _ _ _ _ _ L x ltac:(lia)) as (k & K & BX).
      destruct (A1 x ltac:(lia)) as [_ B1]. destruct (B1 ltac:(lia) k K BX) as (P1 & P2 & P3).
      destruct (A2 x ltac:(lia)) as [_ B2]. destruct (B2 ltac:(lia) k K BX) as (Q1 & Q2).
      split; [|split; [|lia]].
      * intros _ j LJ. pose proof LJ as (J1 & J2 & J3). rewrite off_x. fold (T j x).
        destruct (Z_le_gt_dec (Z.max lo (b k)) j) as [G|G].
        -- assert (last_set msk (Z.max lo (b k)) x j) as LJ' by (split; [lia|]; split; [exact J2|exact J3]).
           rewrite Q2 by (left; exists j; exact LJ'). apply P1. exact LJ'.
        -- assert (none_set msk (Z.max lo (b k)) x) as N by (intros y Y; apply J3; lia).
           assert (last_set msk lo (b k - 1) j) as LJ' by (split; [lia|]; split; [exact J2|]; intros y Y; apply J3; lia).
           rewrite (Q1 N ltac:(lia) j LJ'). rewrite (P2 N ltac:(lia) (ex_intro _ j LJ')). rewrite (ad_comm _ _ AD). unfold T.
           replace (b k - off) with (b k - 1 - off + 1) by lia. apply (sum_cat _ _ AD); pose proof off_b; lia.
      * intros _ N. rewrite Q2; [apply P3; exact N|]. right. destruct (Z_le_gt_dec (b k) lo); [left; assumption|right]. intros y Y. apply N. lia.
Qed.
End line.

Theorem scan_add_ok guess nproc g d n b own (L : line guess nproc g d n b own) (msk : Z -> bool) lo hi
  {V} (add : V -> V -> V) (zero : V) (excl : bool) (src : Z -> V) ps dst :
  1 <= lo -> lo <= hi -> hi <= d -> addition add zero -> all_procs nproc ps ->
  (forall k, 0 <= k < n -> b k <= lo < b (k + 1) -> hi < b (k + 1) - 1 \/ exists j, lo <= j < b (k + 1) /\ j <= hi /\ msk j = true) ->
  exists dst', scan_add add zero excl guess g nproc ps msk src lo hi dst = Done dst' /\ forall x,
    (lo <= x <= hi -> forall j, last_set msk lo x j -> dst' x = sum_of add zero src j (if excl then x - 1 else x)) /\
    (lo <= x <= hi -> none_set msk lo x -> dst' x = dst x) /\
    (~ lo <= x <= hi -> dst' x = dst x).
Proof.
  intros LO LH HD AD AP FS. unfold scan_add. destruct (lims_spec _ _ _ _ _ _ _ L msk lo hi) as (ls & -> & F).
  apply (scan_add_parts _ _ _ _ _ _ _ L msk lo hi LO LH HD FS ls F add zero AD); exact AP.
Qed.
