(** Lemmas on operations with a mask: pack and unpack. *)
From Verif Require Import SpecWf MDist MBase MNb MHandle MGroup LRadix LAxis LDist LDist2 LNb MSparse LLine LSparse LSparse2.
From Coq Require Import Permutation.

Section set.
Variable msk : Z -> bool.
Lemma set_nil l h : h < l -> set_list msk l h = [].
Proof. intros H. unfold set_list. replace (Z.to_nat (h - l + 1)) with O by lia. reflexivity. Qed.
Lemma set_cons l h : l <= h -> set_list msk l h = if msk l then l :: set_list msk (l + 1) h else set_list msk (l + 1) h.
Proof.
  intros H. unfold set_list. replace (Z.to_nat (h - l + 1)) with (S (Z.to_nat (h - (l + 1) + 1))) by lia. cbn [zseq filter]. reflexivity.
Qed.
Lemma set_split l m h : l <= m + 1 -> m <= h -> set_list msk l h = set_list msk l m ++ set_list msk (m + 1) h.
Proof.
  intros A B. remember (Z.to_nat (m + 1 - l)) as k eqn:E. revert l A E. induction k as [|k IH]; intros l A E.
  - replace l with (m + 1) by lia. rewrite (set_nil (m + 1) m) by lia. reflexivity.
  - rewrite (set_cons l h), (set_cons l m) by lia. rewrite (IH (l + 1)) by lia. destruct (msk l); reflexivity.
Qed.
Lemma set_none l h : none_set msk l h -> set_list msk l h = [].
Proof.
  intros H. destruct (Z_le_dec l h) as [LH|]; [|apply set_nil; lia]. remember (Z.to_nat (h - l + 1)) as k eqn:E. revert l H E LH.
  induction k as [|k IH]; intros l H E LH; [lia|]. rewrite set_cons by lia. rewrite H by lia.
  destruct (Z_le_dec (l + 1) h); [apply IH; [intros j J; apply H; lia|lia|lia]|apply set_nil; lia].
Qed.
Lemma set_In l h x : In x (set_list msk l h) <-> l <= x <= h /\ msk x = true.
Proof. unfold set_list. rewrite filter_In, zseq_In. split; intros [A B]; (split; [lia|exact B]). Qed.
Lemma set_nth l h x : l <= x <= h -> msk x = true -> nth_error (set_list msk l h) (length (set_list msk l (x - 1))) = Some x.
Proof.
  intros X M. rewrite (set_split l (x - 1) h) by lia. rewrite nth_error_app2 by lia. replace (_ - _)%nat with O by lia.
  replace (x - 1 + 1) with x by lia. rewrite set_cons by lia. rewrite M. reflexivity.
Qed.
Lemma set_index l h k x : nth_error (set_list msk l h) k = Some x -> l <= x <= h /\ msk x = true /\ k = length (set_list msk l (x - 1)).
Proof.
  intros E. pose proof (nth_error_In _ _ E) as I. apply set_In in I. destruct I as [X M]. split; [exact X|]. split; [exact M|].
  pose proof (set_nth l h x X M) as E'. assert (NoDup (set_list msk l h)) as ND by (apply NoDup_filter; apply zseq_NoDup).
  apply (proj1 (NoDup_nth_error _) ND); [apply nth_error_Some; congruence|congruence].
Qed.

Lemma count_loop_spec m : forall i lop first cnt, 0 <= i ->
  let l := lop + i in let h := l + Z.of_nat m - 1 in
  snd (count_loop msk m i lop first cnt) = cnt + Z.of_nat (length (set_list msk l h)) /\
  (0 <= first -> fst (count_loop msk m i lop first cnt) = first) /\
  (first < 0 -> (none_set msk l h /\ fst (count_loop msk m i lop first cnt) = first) \/
     let f := fst (count_loop msk m i lop first cnt) in i <= f /\ lop + f <= h /\ none_set msk l (lop + f - 1) /\ msk (lop + f) = true).
Proof.
  induction m as [|m IH]; intros i lop first cnt I l h; cbn [count_loop].
  - cbn [fst snd]. rewrite set_nil by (unfold h; lia). cbn [length]. split; [lia|]. split; [auto|]. intros _. left. split; [|reflexivity].
    intros k K. unfold h in K. lia.
  - rewrite (set_cons l h) by (unfold h; lia). replace (lop + i) with l by reflexivity. destruct (msk l) eqn:M.
    + destruct (IH (i + 1) lop (if first <? 0 then i else first) (cnt + 1) ltac:(lia)) as (A & B & _).
      replace (lop + (i + 1)) with (l + 1) in A by (unfold l; lia). replace (l + 1 + Z.of_nat m - 1) with h in A by (unfold h; lia).
      split; [rewrite A; cbn [length]; lia|]. destruct (Z.ltb_spec first 0) as [F|F].
      * split; [lia|]. intros _. right. rewrite B by lia. cbv zeta. split; [lia|]. split; [unfold h, l; lia|]. split; [intros k K; unfold l in K; lia|].
        exact M.
      * split; [intros _; apply B; exact F|lia].
    + destruct (IH (i + 1) lop first cnt ltac:(lia)) as (A & B & C).
      replace (lop + (i + 1)) with (l + 1) in A, C by (unfold l; lia). replace (l + 1 + Z.of_nat m - 1) with h in A, C by (unfold h; lia).
      split; [exact A|]. split; [exact B|]. intros F. destruct (C F) as [(N & E)|(P1 & P2 & P3 & P4)]; [left|right].
      * split; [|exact E]. intros k K. destruct (Z.eq_dec k l) as [->|]; [exact M|apply N; lia].
      * cbv zeta. split; [lia|]. split; [exact P2|]. split; [|exact P4]. intros k K. destruct (Z.eq_dec k l) as [->|]; [exact M|apply P3; lia].
Qed.
Lemma pack_loop_spec {V} (src : Z -> V) m : forall i lop idx lim, let l := lop + i in let h := l + Z.of_nat m - 1 in
  idx + Z.of_nat (length (set_list msk l h)) <= lim -> pack_loop msk src m i lop idx lim = map src (set_list msk l h).
Proof.
  induction m as [|m IH]; intros i lop idx lim l h H; cbn [pack_loop]; [rewrite set_nil by (unfold h; lia); reflexivity|].
  rewrite (set_cons l h) in * by (unfold h; lia). replace (lop + i) with l by reflexivity.
  specialize (IH (i + 1) lop). cbv zeta in IH. replace (lop + (i + 1)) with (l + 1) in IH by (unfold l; lia). replace (l + 1 + Z.of_nat m - 1) with h in IH by (unfold h; lia).
  destruct (Z.ltb_spec idx lim) as [LT|GE].
  - destruct (msk l); [cbn [length map] in *; f_equal; apply IH; lia|apply IH; exact H].
  - destruct (msk l); cbn [length] in H; [lia|]. destruct (set_list msk (l + 1) h); [reflexivity|cbn [length] in H; lia].
Qed.
Lemma unpack_loop_spec {V} (buf : Z -> V) m : forall i lop idx lim dst x, let l := lop + i in let h := l + Z.of_nat m - 1 in
  idx + Z.of_nat (length (set_list msk l h)) <= lim ->
  (l <= x <= h -> msk x = true -> unpack_loop msk buf m i lop idx lim dst x = buf (idx + Z.of_nat (length (set_list msk l (x - 1))))) /\
  (~ (l <= x <= h /\ msk x = true) -> unpack_loop msk buf m i lop idx lim dst x = dst x).
Proof.
  induction m as [|m IH]; intros i lop idx lim dst x l h H; cbn [unpack_loop]; [split; [unfold h; lia|reflexivity]|].
  rewrite (set_cons l h) in H by (unfold h; lia). replace (lop + i) with l by reflexivity.
  assert (forall idx dst, idx + Z.of_nat (length (set_list msk (l + 1) h)) <= lim ->
     (l + 1 <= x <= h -> msk x = true -> unpack_loop msk buf m (i + 1) lop idx lim dst x = buf (idx + Z.of_nat (length (set_list msk (l + 1) (x - 1))))) /\
     (~ (l + 1 <= x <= h /\ msk x = true) -> unpack_loop msk buf m (i + 1) lop idx lim dst x = dst x)) as IH'.
  { intros idx' dst' H'. specialize (IH (i + 1) lop idx' lim dst' x). cbv zeta in IH. replace (lop + (i + 1)) with (l + 1) in IH by (unfold l; lia).
    replace (l + 1 + Z.of_nat m - 1) with h in IH by (unfold h; lia). apply IH. exact H'. }
  clear IH. destruct (Z.ltb_spec idx lim) as [LT|GE].
  - destruct (msk l) eqn:M; cbn [length] in H.
    + destruct (IH' (idx + 1) (fset dst l (buf idx)) ltac:(lia)) as [A B]. split.
      * intros X MX. destruct (Z.eq_dec x l) as [->|NE].
        -- rewrite B by lia. rewrite fset_same. rewrite (set_nil l (l - 1)) by lia. cbn [length]. f_equal. lia.
        -- rewrite A by (try lia; exact MX). rewrite (set_cons l (x - 1)) by lia. rewrite M. cbn [length]. f_equal. lia.
      * intros N. rewrite B; [|intros [N1 N2]; apply N; split; [lia|exact N2]]. apply fset_other. intros ->. apply N. split; [unfold h; lia|exact M].
    + destruct (IH' idx dst H) as [A B]. split.
      * intros X MX. destruct (Z.eq_dec x l) as [->|NE]; [congruence|]. rewrite A by (try lia; exact MX). rewrite (set_cons l (x - 1)) by lia. rewrite M. reflexivity.
      * intros N. apply B. intros [N1 N2]; apply N; split; [lia|exact N2].
  - split; [|reflexivity]. intros X MX. exfalso. destruct (msk l) eqn:M; cbn [length] in H; [lia|].
    assert (In x (set_list msk (l + 1) h)) as I. { apply set_In. split; [|exact MX]. destruct (Z.eq_dec x l) as [->|]; [congruence|lia]. }
    destruct (set_list msk (l + 1) h); [destruct I|cbn [length] in H; lia].
Qed.
End set.
Lemma put_list_spec {V} (l : list V) : forall dst x y,
  (x <= y < x + Z.of_nat (length l) -> nth_error l (Z.to_nat (y - x)) = Some (put_list dst x l y)) /\
  (~ x <= y < x + Z.of_nat (length l) -> put_list dst x l y = dst y).
Proof.
  induction l as [|v l IH]; intros dst x y; cbn [put_list length]; [split; [lia|reflexivity]|].
  destruct (IH (fset dst x v) (x + 1) y) as [A B]. split.
  - intros Y. destruct (Z.eq_dec y x) as [->|NE].
    + replace (Z.to_nat (x - x)) with O by lia. rewrite B by lia. rewrite fset_same. reflexivity.
    + replace (Z.to_nat (y - x)) with (S (Z.to_nat (y - (x + 1)))) by lia. apply A. lia.
  - intros Y. rewrite B by lia. apply fset_other. lia.
Qed.
Lemma each_info_each {V} (f : pinfo -> (Z -> V) -> out (Z -> V)) (h : Z -> pinfo) ps : forall dst,
  each_info f (map h ps) dst = each (fun p => f (h p)) ps dst.
Proof.
  induction ps as [|p ps IH]; intros dst; [reflexivity|]. cbn [map each_info each]. destruct (f (h p) dst); [apply IH|reflexivity|reflexivity].
Qed.
Lemma zsum_app l1 l2 : zsum (l1 ++ l2) = zsum l1 + zsum l2.
Proof. induction l1 as [|x l1 IH]; [reflexivity|]. cbn [app zsum fold_right] in *. unfold zsum in *. cbn [fold_right]. lia. Qed.
Lemma zsum_zero {A} (f : A -> Z) l : (forall a, In a l -> f a = 0) -> zsum (map f l) = 0.
Proof.
  induction l as [|a l IH]; intros H; [reflexivity|]. cbn [map]. unfold zsum in *. cbn [fold_right]. rewrite IH by (intros x X; apply H; right; exact X).
  rewrite H by (left; reflexivity). reflexivity.
Qed.
Lemma zsum_one (f : Z -> Z) p l : NoDup l -> In p l -> (forall q, In q l -> q <> p -> f q = 0) -> zsum (map f l) = f p.
Proof.
  induction l as [|a l IH]; intros ND I H; [destruct I|]. inversion ND as [|? ? NI ND']; subst. cbn [map].
  replace (zsum (f a :: map f l)) with (f a + zsum (map f l)) by reflexivity. destruct I as [->|I].
  - rewrite zsum_zero; [lia|]. intros q Q. apply H; [right; exact Q|intros ->; contradiction].
  - rewrite IH; [|assumption|assumption|intros q Q; apply H; right; exact Q]. rewrite H; [lia|left; reflexivity|intros ->; contradiction].
Qed.

Section line.
Variables (guess : Z -> Z -> Z -> Z) (nproc : Z) (g : gadesc) (d n : Z) (b own : Z -> Z).
Hypothesis L : line guess nproc g d n b own.
Variables (msk : Z -> bool) (lo hi : Z).
Hypotheses (LO : 1 <= lo) (LH : lo <= hi) (HD : hi <= d).

(** The set subscripts of a part, and of the parts before. *)
Let part k := set_list msk (Z.max lo (b k)) (Z.min hi (b (k + 1) - 1)).
Let upto k := set_list msk lo (Z.min hi (b k - 1)).
Let cnt k := Z.of_nat (length (part k)).
Let pos k := Z.of_nat (length (upto k)).

Lemma upto_next k : 0 <= k < n -> upto (k + 1) = upto k ++ part k.
Proof.
  intros K. pose proof (line_b _ _ _ _ _ _ _ L k K) as BK. unfold upto, part.
  destruct (Z_le_gt_dec (b k) lo) as [A|A].
  - rewrite (set_nil msk lo (Z.min hi (b k - 1))) by lia. cbn [app]. replace (Z.max lo (b k)) with lo by lia. reflexivity.
  - destruct (Z_le_gt_dec (b k) hi) as [B|B].
    + rewrite (set_split msk lo (b k - 1)) by lia. replace (Z.min hi (b k - 1)) with (b k - 1) by lia. f_equal. f_equal. lia.
    + rewrite (set_nil msk (Z.max lo (b k))) by lia. rewrite app_nil_r. f_equal. lia.
Qed.
Lemma pos_next k : 0 <= k < n -> pos (k + 1) = pos k + cnt k.
Proof. intros K. unfold pos, cnt. rewrite upto_next by exact K. rewrite app_length. lia. Qed.
Lemma pos_0 : pos 0 = 0.
Proof. unfold pos, upto. rewrite (ln_fst _ _ _ _ _ _ _ L). rewrite set_nil by lia. reflexivity. Qed.
Lemma pos_n : pos n = Z.of_nat (length (set_list msk lo hi)).
Proof. unfold pos, upto. rewrite (ln_last _ _ _ _ _ _ _ L). do 3 f_equal. lia. Qed.
Lemma pos_mono j k : 0 <= j -> j <= k -> k <= n -> pos j <= pos k.
Proof.
  intros J JK K. remember (Z.to_nat (k - j)) as m eqn:E. revert k JK K E. induction m as [|m IH]; intros k JK K E; [replace k with j by lia; lia|].
  specialize (IH (k - 1) ltac:(lia) ltac:(lia) ltac:(lia)). pose proof (pos_next (k - 1) ltac:(lia)) as P. replace (k - 1 + 1) with k in P by lia.
  assert (0 <= cnt (k - 1)) by (unfold cnt; lia). lia.
Qed.
Lemma cnt_out k : 0 <= k < n -> ~ (b k <= hi /\ lo <= b (k + 1) - 1) -> cnt k = 0.
Proof. intros K H. unfold cnt, part. rewrite set_nil by lia. reflexivity. Qed.

Lemma nnodes_spec k : 0 <= k < n -> nnodes1 guess g 1 (b k - 1) 0 = Done k.
Proof.
  intros K. pose proof (line_b _ _ _ _ _ _ _ L k K) as BK. unfold nnodes1. rewrite (ln_dims _ _ _ _ _ _ _ L).
  destruct (Z.eq_dec k 0) as [->|NE].
  - rewrite (ln_fst _ _ _ _ _ _ _ L). cbn [region_ok]. cbn. rewrite ?orb_true_r. reflexivity.
  - pose proof (line_lt _ _ _ _ _ _ _ L 0 k ltac:(lia) ltac:(lia) ltac:(lia)) as B1. pose proof (line_b _ _ _ _ _ _ _ L 0 ltac:(lia)) as B0.
    cbn [region_ok]. destruct (Z.ltb_spec 1 1); [lia|]. destruct (Z.ltb_spec d (b k - 1)); [lia|]. destruct (Z.ltb_spec (b k - 1) 1); [lia|]. cbn [orb negb andb].
    rewrite <- (ln_dims _ _ _ _ _ _ _ L).
    destruct (ln_find _ _ _ _ _ _ _ L 1 ltac:(lia)) as (k1 & K1 & E1 & ->). destruct (ln_find _ _ _ _ _ _ _ L (b k - 1) ltac:(lia)) as (k2 & K2 & E2 & ->).
    assert (k1 = 0) as ->. { apply (strict_block b n 1 _ _ (ln_inc _ _ _ _ _ _ _ L)); try lia. rewrite (ln_fst _ _ _ _ _ _ _ L). pose proof (ln_inc _ _ _ _ _ _ _ L 0 ltac:(lia)). rewrite (ln_fst _ _ _ _ _ _ _ L) in *. lia. }
    assert (k2 = k - 1) as ->. { apply (strict_block b n (b k - 1) _ _ (ln_inc _ _ _ _ _ _ _ L)); try lia. pose proof (ln_inc _ _ _ _ _ _ _ L (k - 1) ltac:(lia)) as Q. replace (k - 1 + 1) with k in * by lia. lia. }
    cbn [need count_elems]. f_equal. lia.
Qed.
Definition info_ok (k : Z) (x : pinfo) : Prop :=
  (b k <= hi /\ lo <= b (k + 1) - 1 /\ pi_lop x = Z.max lo (b k) /\ pi_hip x = Z.min hi (b (k + 1) - 1) /\ pi_np x = k /\ pi_cnt x = cnt k /\
   (cnt k = 0 \/ (0 <= pi_first x /\ pi_lop x + pi_first x <= pi_hip x /\ none_set msk (pi_lop x) (pi_lop x + pi_first x - 1)))) \/
  (~ (b k <= hi /\ lo <= b (k + 1) - 1) /\ (hi < pi_lop x \/ pi_hip x < lo) /\ pi_cnt x = 0).
Lemma info_spec k : 0 <= k < n -> exists x, pack_info guess g nproc msk lo hi (own k) = Done x /\ info_ok k x.
Proof.
  intros K. pose proof (line_b _ _ _ _ _ _ _ L k K) as BK. unfold pack_info. rewrite (ln_dist _ _ _ _ _ _ _ L k K).
  destruct (Z.ltb_spec 0 (b k)); [|lia].
  assert ((if b k <? lo then lo else b k) = Z.max lo (b k)) as -> by (destruct (Z.ltb_spec (b k) lo); lia).
  assert ((if hi <? b (k + 1) - 1 then hi else b (k + 1) - 1) = Z.min hi (b (k + 1) - 1)) as -> by (destruct (Z.ltb_spec hi (b (k + 1) - 1)); lia).
  destruct (Z.ltb_spec hi (Z.max lo (b k))); [eexists; split; [reflexivity|right; cbn [pi_lop pi_hip pi_cnt]; lia]|].
  destruct (Z.ltb_spec (Z.min hi (b (k + 1) - 1)) lo); [eexists; split; [reflexivity|right; cbn [pi_lop pi_hip pi_cnt]; lia]|].
  cbn [orb]. rewrite nnodes_spec by exact K. unfold access1. destruct (Z.leb_spec (Z.max lo (b k)) (Z.min hi (b (k + 1) - 1))); [|lia].
  destruct (count_loop_spec msk (Z.to_nat (Z.min hi (b (k + 1) - 1) - Z.max lo (b k) + 1)) 0 (Z.max lo (b k)) (-1) 0 ltac:(lia)) as (A & _ & C).
  destruct (count_loop msk (Z.to_nat (Z.min hi (b (k + 1) - 1) - Z.max lo (b k) + 1)) 0 (Z.max lo (b k)) (-1) 0) as [first c]. cbn [fst snd] in A, C.
  rewrite Z.add_0_r in A, C. replace (Z.max lo (b k) + Z.of_nat (Z.to_nat (Z.min hi (b (k + 1) - 1) - Z.max lo (b k) + 1)) - 1) with (Z.min hi (b (k + 1) - 1)) in A, C by lia.
  pose proof (ln_n _ _ _ _ _ _ _ L). destruct (Z.leb_spec nproc k); [lia|]. eexists. split; [reflexivity|]. left. cbn [pi_lop pi_hip pi_np pi_cnt pi_first].
  split; [lia|]. split; [lia|]. split; [reflexivity|]. split; [reflexivity|]. split; [reflexivity|].
  split; [exact A|]. destruct (C ltac:(lia)) as [(N & _)|(C1 & C2 & C3 & _)].
  - left. unfold cnt, part. rewrite set_none by exact N. reflexivity.
  - right. split; [lia|]. split; [exact C2|exact C3].
Qed.
Lemma info_out p : dist1 g p = Done (0, -1) -> pack_info guess g nproc msk lo hi p = Done (PInfo 0 (-1) 0 (-1) 0).
Proof. intros E. unfold pack_info. rewrite E. reflexivity. Qed.

Section infos.
Variable ps : list Z.
Hypothesis AP : all_procs nproc ps.
Let h p := match pack_info guess g nproc msk lo hi p with Done x => x | _ => PInfo 0 0 0 0 0 end.
Let infos := map h ps.
Lemma infos_ok : collect (pack_info guess g nproc msk lo hi) ps = Done infos.
Proof.
  apply collect_ok. intros p I. unfold h. apply (all_procs_In nproc) in I; [|exact AP]. destruct (ln_none _ _ _ _ _ _ _ L p I) as [(k & K & ->)|N].
  - destruct (info_spec k K) as (x & -> & _). reflexivity.
  - rewrite info_out by exact N. reflexivity.
Qed.
Lemma h_own k : 0 <= k < n -> info_ok k (h (own k)).
Proof. intros K. unfold h. destruct (info_spec k K) as (x & -> & H). exact H. Qed.
Lemma h_out p : dist1 g p = Done (0, -1) -> h p = PInfo 0 (-1) 0 (-1) 0.
Proof. intros E. unfold h. rewrite info_out by exact E. reflexivity. Qed.
Lemma lim_at_spec k : lim_at infos k = if (0 <=? k) && (k <? n) then cnt k else 0.
Proof.
  unfold lim_at, infos. rewrite map_map.
  assert (forall p, In p ps -> (forall j, p = own j -> 0 <= j < n -> j <> k) -> (if pi_np (h p) =? k then pi_cnt (h p) else 0) = 0) as Z0.
  { intros p I NK. apply (all_procs_In nproc) in I; [|exact AP]. destruct (ln_none _ _ _ _ _ _ _ L p I) as [(j & J & ->)|N].
    - destruct (h_own j J) as [(_ & _ & _ & _ & -> & _)|(_ & _ & ->)].
      + destruct (Z.eqb_spec j k) as [E|]; [|reflexivity]. exfalso. apply (NK j eq_refl J E).
      + destruct (_ =? k); reflexivity.
    - rewrite h_out by exact N. cbn [pi_np pi_cnt]. destruct (0 =? k); reflexivity. }
  destruct (Z.leb_spec 0 k); [destruct (Z.ltb_spec k n)|]; cbn [andb].
  - assert (0 <= k < n) as K by lia. rewrite (zsum_one _ (own k)).
    + destruct (h_own k K) as [(_ & _ & _ & _ & -> & -> & _)|(N & _ & ->)]; [rewrite Z.eqb_refl; reflexivity|]. rewrite cnt_out by assumption. destruct (_ =? k); reflexivity.
    + apply (all_procs_NoDup nproc); exact AP.
    + apply (all_procs_all nproc); [exact AP|]. apply (ln_own _ _ _ _ _ _ _ L k K).
    + intros q Q NE. apply Z0; [exact Q|]. intros j -> J ->. apply NE. reflexivity.
  - apply zsum_zero. intros p I. apply Z0; [exact I|]. intros j _ J. lia.
  - apply zsum_zero. intros p I. apply Z0; [exact I|]. intros j _ J. lia.
Qed.
Lemma place_sum m : Z.of_nat m <= n -> zsum (map (lim_at infos) (zseq 0 m)) = pos (Z.of_nat m).
Proof.
  induction m as [|m IH]; intros H; [symmetry; apply pos_0|]. rewrite zseq_snoc, map_app, zsum_app, IH by lia. cbn [map]. rewrite lim_at_spec.
  rewrite Z.add_0_l. destruct (Z.leb_spec 0 (Z.of_nat m)); [|lia]. destruct (Z.ltb_spec (Z.of_nat m) n); [|lia]. cbn [andb].
  replace (Z.of_nat (S m)) with (Z.of_nat m + 1) by lia. rewrite pos_next by lia. unfold zsum. cbn [fold_right]. lia.
Qed.
Lemma place_spec k : 0 <= k <= n -> place_of infos k = pos k.
Proof. intros K. unfold place_of. rewrite place_sum by lia. f_equal. lia. Qed.
Lemma icount_spec : icount infos nproc = Z.of_nat (length (set_list msk lo hi)).
Proof.
  pose proof (ln_n _ _ _ _ _ _ _ L) as NN. pose proof (ln_pos _ _ _ _ _ _ _ L) as NP. unfold icount. rewrite <- pos_n.
  assert (forall m, n <= Z.of_nat m -> zsum (map (lim_at infos) (zseq 0 m)) = pos n) as H; [|apply H; lia].
  induction m as [|m IH]; intros H; [lia|]. destruct (Z.eq_dec n (Z.of_nat (S m))) as [E|NE]; [rewrite place_sum by lia; f_equal; lia|].
  rewrite zseq_snoc, map_app, zsum_app, IH by lia. cbn [map]. rewrite lim_at_spec. destruct (Z.ltb_spec (0 + Z.of_nat m) n); [lia|]. rewrite andb_false_r.
  unfold zsum. cbn [fold_right]. lia.
Qed.

(** Steps of which some report an error. *)
Lemma each_abort {S} (f : Z -> S -> out S) : forall l s, (forall p s, In p l -> f p s <> Undef) -> (exists p, In p l /\ forall s, f p s = Abort) ->
  each f l s = Abort.
Proof.
  induction l as [|q l IH]; intros s H (p & I & E); [destruct I|]. cbn [each]. destruct I as [->|I]; [rewrite E; reflexivity|].
  destruct (f q s) as [s1| |] eqn:EQ; [|reflexivity|exfalso; apply (H q s (or_introl eq_refl) EQ)]. apply IH; [intros p' s' I'; apply H; right; exact I'|exists p; auto].
Qed.

Context {V : Type} (src : Z -> V) (ext : Z).

Lemma skip_out k x : info_ok k x -> ~ (b k <= hi /\ lo <= b (k + 1) - 1) -> (hi <? pi_lop x) || (pi_hip x <? lo) = true.
Proof.
  intros [(A & B & _)|(_ & H & _)] N; [tauto|]. destruct (Z.ltb_spec hi (pi_lop x)); [reflexivity|]. destruct (Z.ltb_spec (pi_hip x) lo); [reflexivity|lia].
Qed.
Lemma part_nth k i x : 0 <= k < n -> nth_error (part k) i = Some x -> nth_error (set_list msk lo hi) (Z.to_nat (pos k) + i) = Some x.
Proof.
  intros K E. pose proof (line_b _ _ _ _ _ _ _ L k K) as BK.
  assert (exists t, set_list msk lo hi = upto (k + 1) ++ t) as (t & ->).
  { unfold upto. destruct (Z_le_gt_dec lo (Z.min hi (b (k + 1) - 1))) as [G|G]; [rewrite (set_split msk lo (Z.min hi (b (k + 1) - 1)) hi) by lia; eexists; reflexivity|].
    rewrite (set_nil msk lo (Z.min hi (b (k + 1) - 1))) by lia. eexists. reflexivity. }
  rewrite upto_next by exact K. rewrite <- app_assoc. rewrite nth_error_app2 by (unfold pos; lia).
  replace (Z.to_nat (pos k) + i - length (upto k))%nat with i by (unfold pos; lia).
  rewrite nth_error_app1; [exact E|]. apply nth_error_Some. congruence.
Qed.

Lemma pack1_spec k (s : Z -> V) : 0 <= k < n ->
  (pos (k + 1) <= ext -> exists s', pack1 infos ext msk src lo hi (h (own k)) s = Done s' /\ forall y,
    (pos k < y <= pos (k + 1) -> exists x, nth_error (set_list msk lo hi) (Z.to_nat (y - 1)) = Some x /\ s' y = src x) /\
    (~ pos k < y <= pos (k + 1) -> s' y = s y)) /\
  pack1 infos ext msk src lo hi (h (own k)) s <> Undef /\
  (ext < pos (k + 1) -> 0 < cnt k -> pack1 infos ext msk src lo hi (h (own k)) s = Abort).
Proof.
  intros K. pose proof (pos_next k K) as PN. pose proof (h_own k K) as H. unfold pack1.
  destruct (Z_le_dec (b k) hi) as [B1|B1]; [destruct (Z_le_dec lo (b (k + 1) - 1)) as [B2|B2]|].
  2, 3: rewrite (skip_out k _ H) by lia; cbn [orb]; rewrite cnt_out in PN by (try exact K; lia); split;
    [intros _; exists s; split; [reflexivity|]; intros y; split; [lia|reflexivity]|split; [discriminate|]; rewrite cnt_out by (try exact K; lia); lia].
  destruct H as [(_ & _ & E1 & E2 & E3 & E4 & E5)|(N & _)]; [|tauto]. rewrite E1, E2, E3 in *. clear E1 E2 E3.
  rewrite lim_at_spec. destruct (Z.leb_spec 0 k); [|lia]. destruct (Z.ltb_spec k n); [|lia]. cbn [andb].
  destruct (Z.ltb_spec hi (Z.max lo (b k))); [lia|]. destruct (Z.ltb_spec (Z.min hi (b (k + 1) - 1)) lo); [lia|]. cbn [orb].
  destruct (Z.eqb_spec (cnt k) 0) as [C0|C0].
  { split; [|split; [discriminate|lia]]. intros _. exists s. split; [reflexivity|]. intros y. split; [lia|reflexivity]. }
  pose proof (line_b _ _ _ _ _ _ _ L k K) as BK.
  unfold access1. destruct (Z.leb_spec (Z.max lo (b k)) (Z.min hi (b (k + 1) - 1))); [|lia]. rewrite place_spec by lia.
  destruct E5 as [Q|(F0 & F1 & F2)]; [contradiction|]. destruct (Z.ltb_spec (pi_first (h (own k))) 0); [lia|]. rewrite <- PN.
  set (f := pi_first (h (own k))) in *.
  assert (set_list msk (Z.max lo (b k) + f) (Z.min hi (b (k + 1) - 1)) = part k) as EP.
  { unfold part. rewrite (set_split msk (Z.max lo (b k)) (Z.max lo (b k) + f - 1) (Z.min hi (b (k + 1) - 1))) by lia.
    rewrite (set_none msk (Z.max lo (b k)) (Z.max lo (b k) + f - 1)) by exact F2. cbn [app]. f_equal. lia. }
  rewrite pack_loop_spec.
  2: { replace (Z.max lo (b k) + f + Z.of_nat (Z.to_nat (Z.min hi (b (k + 1) - 1) - Z.max lo (b k) + 1 - f)) - 1) with (Z.min hi (b (k + 1) - 1)) by lia. rewrite EP. unfold cnt. lia. }
  replace (Z.max lo (b k) + f + Z.of_nat (Z.to_nat (Z.min hi (b (k + 1) - 1) - Z.max lo (b k) + 1 - f)) - 1) with (Z.min hi (b (k + 1) - 1)) by lia. rewrite EP.
  rewrite map_length. fold (cnt k). rewrite Z.eqb_refl. destruct (Z.ltb_spec ext (pos (k + 1))).
  { split; [lia|]. split; [discriminate|reflexivity]. }
  split; [|split; [discriminate|lia]]. intros _. eexists. split; [reflexivity|]. intros y.
  destruct (put_list_spec (map src (part k)) s (pos k + 1) y) as [A B]. rewrite map_length in A, B. fold (cnt k) in A, B. split.
  - intros Y. specialize (A ltac:(lia)). rewrite nth_error_map in A. destruct (nth_error (part k) (Z.to_nat (y - (pos k + 1)))) as [x|] eqn:EX; [|discriminate].
    exists x. split; [|injection A as A; symmetry; exact A]. apply part_nth in EX; [|exact K]. rewrite <- EX. f_equal. unfold pos in *. lia.
  - intros Y. apply B. lia.
Qed.
Lemma unpack1_spec k (s : Z -> V) : 0 <= k < n ->
  (pos (k + 1) <= ext -> exists s', unpack1 infos ext msk src lo hi (h (own k)) s = Done s' /\ forall x,
    (b k <= x < b (k + 1) -> (lo <= x <= hi -> msk x = true -> s' x = src (Z.of_nat (length (set_list msk lo (x - 1))) + 1)) /\
                             (~ (lo <= x <= hi /\ msk x = true) -> s' x = s x)) /\
    (~ b k <= x < b (k + 1) -> s' x = s x)) /\
  unpack1 infos ext msk src lo hi (h (own k)) s <> Undef /\
  (ext < pos (k + 1) -> 0 < cnt k -> unpack1 infos ext msk src lo hi (h (own k)) s = Abort).
Proof.
  intros K. pose proof (pos_next k K) as PN. pose proof (h_own k K) as H. unfold unpack1.
  destruct (Z_le_dec (b k) hi) as [B1|B1]; [destruct (Z_le_dec lo (b (k + 1) - 1)) as [B2|B2]|].
  2, 3: rewrite (skip_out k _ H) by lia; cbn [orb]; rewrite cnt_out in PN by (try exact K; lia); split;
    [intros _; exists s; split; [reflexivity|]; intros y; split; [intros Y; split; [lia|reflexivity]|reflexivity]|split; [discriminate|]; rewrite cnt_out by (try exact K; lia); lia].
  destruct H as [(_ & _ & E1 & E2 & E3 & E4 & E5)|(N & _)]; [|tauto]. rewrite E1, E2, E3 in *. clear E1 E2 E3.
  rewrite lim_at_spec. destruct (Z.leb_spec 0 k); [|lia]. destruct (Z.ltb_spec k n); [|lia]. cbn [andb].
  destruct (Z.ltb_spec hi (Z.max lo (b k))); [lia|]. destruct (Z.ltb_spec (Z.min hi (b (k + 1) - 1)) lo); [lia|]. cbn [orb].
  destruct (Z.eqb_spec (cnt k) 0) as [C0|C0].
  { split; [|split; [discriminate|lia]]. intros _. exists s. split; [reflexivity|]. intros y. split; [|reflexivity]. intros Y. split; [|reflexivity].
    intros Y' M. exfalso. assert (In y (part k)) as I by (apply set_In; split; [lia|exact M]). unfold cnt in C0. destruct (part k); [destruct I|cbn [length] in C0; lia]. }
  pose proof (line_b _ _ _ _ _ _ _ L k K) as BK.
  unfold access1. destruct (Z.leb_spec (Z.max lo (b k)) (Z.min hi (b (k + 1) - 1))); [|lia]. rewrite place_spec by lia.
  destruct E5 as [Q|(F0 & F1 & F2)]; [contradiction|]. destruct (Z.ltb_spec (pi_first (h (own k))) 0); [lia|]. rewrite <- PN.
  set (f := pi_first (h (own k))) in *.
  assert (forall y, Z.max lo (b k) <= y <= Z.min hi (b (k + 1) - 1) -> Z.max lo (b k) + f - 1 <= y -> set_list msk (Z.max lo (b k) + f) y = set_list msk (Z.max lo (b k)) y) as EP.
  { intros y Y Y'. rewrite (set_split msk (Z.max lo (b k)) (Z.max lo (b k) + f - 1) y) by lia.
    rewrite (set_none msk (Z.max lo (b k)) (Z.max lo (b k) + f - 1)) by exact F2. cbn [app]. f_equal. lia. }
  destruct (Z.ltb_spec ext (pos (k + 1))).
  { split; [lia|]. split; [discriminate|reflexivity]. }
  split; [|split; [discriminate|lia]]. intros _. eexists. split; [reflexivity|]. intros x.
  destruct (unpack_loop_spec msk (fun k0 => src (pos k + 1 + k0)) (Z.to_nat (Z.min hi (b (k + 1) - 1) - Z.max lo (b k) + 1 - f)) f (Z.max lo (b k)) 0 (cnt k) s x) as [A B].
  { replace (Z.max lo (b k) + f + Z.of_nat (Z.to_nat (Z.min hi (b (k + 1) - 1) - Z.max lo (b k) + 1 - f)) - 1) with (Z.min hi (b (k + 1) - 1)) by lia.
    rewrite EP by lia. unfold cnt, part. lia. }
  replace (Z.max lo (b k) + f + Z.of_nat (Z.to_nat (Z.min hi (b (k + 1) - 1) - Z.max lo (b k) + 1 - f)) - 1) with (Z.min hi (b (k + 1) - 1)) in A, B by lia.
  split.
  - intros X. split.
    + intros Y M. assert (Z.max lo (b k) + f <= x) as XF. { destruct (Z_le_gt_dec (Z.max lo (b k) + f) x); [assumption|]. rewrite F2 in M by lia. discriminate. }
      rewrite A by (try lia; exact M). f_equal.
      assert (set_list msk (Z.max lo (b k) + f) (x - 1) = set_list msk (Z.max lo (b k)) (x - 1)) as ->.
      { destruct (Z_le_gt_dec (Z.max lo (b k)) (x - 1)); [apply EP; lia|]. rewrite !set_nil by lia. reflexivity. }
      assert (length (set_list msk lo (x - 1)) = (length (upto k) + length (set_list msk (Z.max lo (b k)) (x - 1)))%nat) as ->; [|unfold pos; lia].
      unfold upto. destruct (Z_le_gt_dec (b k) lo).
      * rewrite (set_nil msk lo (Z.min hi (b k - 1))) by lia. replace (Z.max lo (b k)) with lo by lia. reflexivity.
      * rewrite (set_split msk lo (b k - 1) (x - 1)) by lia. rewrite app_length. replace (Z.min hi (b k - 1)) with (b k - 1) by lia. do 3 f_equal. lia.
    + intros N. apply B. intros [N1 N2]. apply N. split; [lia|exact N2].
  - intros X. apply B. lia.
Qed.
Lemma over_some : ext < Z.of_nat (length (set_list msk lo hi)) -> 0 <= ext -> exists k, 0 <= k < n /\ ext < pos (k + 1) /\ 0 < cnt k.
Proof.
  rewrite <- pos_n. intros H E. pose proof (ln_pos _ _ _ _ _ _ _ L) as NP.
  assert (forall m, Z.of_nat m <= n -> ext < pos (Z.of_nat m) -> exists k, 0 <= k < n /\ ext < pos (k + 1) /\ 0 < cnt k) as G.
  { induction m as [|m IH]; intros M P; [change (Z.of_nat 0) with 0 in P; rewrite pos_0 in P; lia|]. replace (Z.of_nat (S m)) with (Z.of_nat m + 1) in P by lia.
    pose proof (pos_next (Z.of_nat m) ltac:(lia)) as PN. destruct (Z_lt_ge_dec ext (pos (Z.of_nat m))); [apply IH; lia|].
    exists (Z.of_nat m). split; [lia|]. split; [exact P|lia]. }
  apply (G (Z.to_nat n)); rewrite Z2Nat.id by lia; [lia|exact H].
Qed.
Lemma pack1_out p (s : Z -> V) : dist1 g p = Done (0, -1) -> pack1 infos ext msk src lo hi (h p) s = Done s /\ unpack1 infos ext msk src lo hi (h p) s = Done s.
Proof.
  intros E. rewrite h_out by exact E. unfold pack1, unpack1. cbn [pi_np pi_lop pi_hip]. destruct (Z.ltb_spec (-1) lo); [|lia]. rewrite orb_true_r. split; reflexivity.
Qed.
Theorem pack_parts dst : 0 <= ext ->
  (Z.of_nat (length (set_list msk lo hi)) <= ext -> exists dst', pack guess g nproc ps ext msk src lo hi dst = Done (dst', Z.of_nat (length (set_list msk lo hi))) /\
    (forall i x, nth_error (set_list msk lo hi) i = Some x -> dst' (Z.of_nat i + 1) = src x) /\
    (forall y, ~ 1 <= y <= Z.of_nat (length (set_list msk lo hi)) -> dst' y = dst y)) /\
  (ext < Z.of_nat (length (set_list msk lo hi)) -> pack guess g nproc ps ext msk src lo hi dst = Abort).
Proof.
  intros EX. unfold pack. rewrite infos_ok. unfold infos at 2 5. rewrite each_info_each, icount_spec.
  set (tot := Z.of_nat (length (set_list msk lo hi))). pose proof (ln_pos _ _ _ _ _ _ _ L) as NP. split.
  - intros TE.
    set (R := fun p y (v v' : V) => (forall k, 0 <= k < n -> p = own k ->
        (pos k < y <= pos (k + 1) -> exists x, nth_error (set_list msk lo hi) (Z.to_nat (y - 1)) = Some x /\ v' = src x) /\ (~ pos k < y <= pos (k + 1) -> v' = v)) /\
        (dist1 g p = Done (0, -1) -> v' = v)).
    destruct (each_rel R (fun p => pack1 infos ext msk src lo hi (h p)) ps) with (s := dst) as (s' & E & H).
    + intros p s I. apply (all_procs_In nproc) in I; [|exact AP]. destruct (ln_none _ _ _ _ _ _ _ L p I) as [(k & K & ->)|N].
      * destruct (pack1_spec k s K) as [P _]. destruct P as (s1 & E1 & P).
        { pose proof (pos_mono (k + 1) n ltac:(lia) ltac:(lia) ltac:(lia)) as PM. rewrite pos_n in PM. fold tot in PM. lia. }
        exists s1. split; [exact E1|]. intros y. split.
        -- intros k' K' EK. apply (ln_inj _ _ _ _ _ _ _ L) in EK; auto. subst k'. apply P.
        -- intros N. rewrite (ln_dist _ _ _ _ _ _ _ L k K) in N. injection N as N1 N2. pose proof (line_b _ _ _ _ _ _ _ L k K). lia.
      * exists s. split; [apply pack1_out; exact N|]. intros y. split; [|reflexivity]. intros k K ->. exfalso.
        rewrite (ln_dist _ _ _ _ _ _ _ L k K) in N. injection N as N1 N2. pose proof (line_b _ _ _ _ _ _ _ L k K). lia.
    + apply (all_procs_NoDup nproc); exact AP.
    + exists s'. rewrite E. split; [reflexivity|].
      assert (forall y k, 0 <= k < n -> pos k < y <= pos (k + 1) -> forall q v v', In q ps -> q <> own k -> R q y v v' -> v' = v) as OTHER.
      { intros y k K Y q v v' Q NE [R1 R2]. apply (all_procs_In nproc) in Q; [|exact AP]. destruct (ln_none _ _ _ _ _ _ _ L q Q) as [(j & J & ->)|N]; [|apply R2; exact N].
        destruct (R1 j J eq_refl) as [_ R3]. apply R3. intros Y'. apply NE. f_equal.
        destruct (Z.lt_trichotomy j k) as [G|[G|G]]; [|exact G|].
        - pose proof (pos_mono (j + 1) k ltac:(lia) ltac:(lia) ltac:(lia)). lia.
        - pose proof (pos_mono (k + 1) j ltac:(lia) ltac:(lia) ltac:(lia)). lia. }
      split.
      * intros i x NX. assert ((i < length (set_list msk lo hi))%nat) as IL by (apply nth_error_Some; congruence).
        assert (exists k, 0 <= k < n /\ pos k < Z.of_nat i + 1 <= pos (k + 1)) as (k & K & Y).
        { assert (forall m, Z.of_nat m <= n -> Z.of_nat i + 1 <= pos (Z.of_nat m) -> exists k, 0 <= k < n /\ pos k < Z.of_nat i + 1 <= pos (k + 1)) as G.
          { induction m as [|m IH]; intros M P; [change (Z.of_nat 0) with 0 in P; rewrite pos_0 in P; lia|]. replace (Z.of_nat (S m)) with (Z.of_nat m + 1) in P by lia.
            destruct (Z_le_gt_dec (Z.of_nat i + 1) (pos (Z.of_nat m))); [apply IH; lia|]. exists (Z.of_nat m). lia. }
          apply (G (Z.to_nat n)); rewrite Z2Nat.id by lia; [lia|]. rewrite pos_n. lia. }
        destruct (H (Z.of_nat i + 1)) as [A _]. destruct (A (own k)) as [R1 _].
        -- apply (all_procs_all nproc); [exact AP|]. apply (ln_own _ _ _ _ _ _ _ L k K).
        -- intros q v v'. apply (OTHER _ k K Y).
        -- destruct (R1 k K eq_refl) as [R2 _]. destruct (R2 Y) as (x' & EX' & ->). f_equal.
           replace (Z.to_nat (Z.of_nat i + 1 - 1)) with i in EX' by lia. congruence.
      * intros y Y. destruct (H y) as [_ B]. apply B. intros q v v' Q [R1 R2]. apply (all_procs_In nproc) in Q; [|exact AP].
        destruct (ln_none _ _ _ _ _ _ _ L q Q) as [(j & J & ->)|N]; [|apply R2; exact N]. destruct (R1 j J eq_refl) as [_ R3]. apply R3.
        intros Y'. apply Y. pose proof (pos_mono 0 j ltac:(lia) ltac:(lia) ltac:(lia)). pose proof (pos_mono (j + 1) n ltac:(lia) ltac:(lia) ltac:(lia)) as PM.
        rewrite pos_n in PM. fold tot in PM. rewrite pos_0 in *. lia.
  - intros TE. destruct (over_some TE EX) as (k & K & P & C). rewrite each_abort; [reflexivity| |].
    + intros p s I. apply (all_procs_In nproc) in I; [|exact AP]. destruct (ln_none _ _ _ _ _ _ _ L p I) as [(j & J & ->)|N].
      * apply pack1_spec. exact J.
      * destruct (pack1_out p s N) as [-> _]. discriminate.
    + exists (own k). split; [apply (all_procs_all nproc); [exact AP|]; apply (ln_own _ _ _ _ _ _ _ L k K)|]. intros s. apply (pack1_spec k s K); assumption.
Qed.
Theorem unpack_parts dst : 0 <= ext ->
  (Z.of_nat (length (set_list msk lo hi)) <= ext -> exists dst', unpack guess g nproc ps ext msk src lo hi dst = Done (dst', Z.of_nat (length (set_list msk lo hi))) /\
    (forall i x, nth_error (set_list msk lo hi) i = Some x -> dst' x = src (Z.of_nat i + 1)) /\
    (forall x, ~ In x (set_list msk lo hi) -> dst' x = dst x)) /\
  (ext < Z.of_nat (length (set_list msk lo hi)) -> unpack guess g nproc ps ext msk src lo hi dst = Abort).
Proof.
  intros EX. unfold unpack. rewrite infos_ok. unfold infos at 2 5. rewrite each_info_each, icount_spec.
  set (tot := Z.of_nat (length (set_list msk lo hi))). pose proof (ln_pos _ _ _ _ _ _ _ L) as NP. split.
  - intros TE.
    destruct (each_line _ _ _ _ _ _ _ L (fun x v v' => (lo <= x <= hi -> msk x = true -> v' = src (Z.of_nat (length (set_list msk lo (x - 1))) + 1)) /\
        (~ (lo <= x <= hi /\ msk x = true) -> v' = v)) (fun p => unpack1 infos ext msk src lo hi (h p)) ps dst AP) as (s' & E & A & B).
    + intros k K s. destruct (unpack1_spec k s K) as [P _]. apply P.
      pose proof (pos_mono (k + 1) n ltac:(lia) ltac:(lia) ltac:(lia)) as PM. rewrite pos_n in PM. fold tot in PM. lia.
    + intros p s N. apply pack1_out. exact N.
    + exists s'. rewrite E. split; [reflexivity|]. split.
      * intros i x NX. apply set_index in NX. destruct NX as (X & M & ->). apply A; auto; lia.
      * intros x N. rewrite set_In in N. destruct (Z_le_dec 1 x), (Z_le_dec x d); try (apply B; lia). apply A; [lia|exact N].
  - intros TE. destruct (over_some TE EX) as (k & K & P & C). rewrite each_abort; [reflexivity| |].
    + intros p s I. apply (all_procs_In nproc) in I; [|exact AP]. destruct (ln_none _ _ _ _ _ _ _ L p I) as [(j & J & ->)|N].
      * apply unpack1_spec. exact J.
      * destruct (pack1_out p s N) as [_ ->]. discriminate.
    + exists (own k). split; [apply (all_procs_all nproc); [exact AP|]; apply (ln_own _ _ _ _ _ _ _ L k K)|]. intros s. apply (unpack1_spec k s K); assumption.
Qed.
End infos.
End line.
