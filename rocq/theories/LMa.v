(** The layout of one block of the MA allocator. *)
From Coq Require Import ZArith List Lia Bool Permutation.
From Verif Require Import SpecMa MBase MMa.

Lemma u64_small x : 0 <= x < 2 ^ 64 -> u64 x = x.
Proof. intros H. unfold u64. apply Z.mod_small. exact H. Qed.
Lemma u64_mod x j : 0 <= j <= 64 -> u64 x mod 2 ^ j = x mod 2 ^ j.
Proof.
  intros H. unfold u64. replace (2 ^ 64) with (2 ^ j * 2 ^ (64 - j)) by (rewrite <- Z.pow_add_r by lia; f_equal; lia).
  rewrite Z.rem_mul_r by (try apply Z.pow_pos_nonneg; try apply Z.pow_nonzero; lia). rewrite (Z.mul_comm (2 ^ j) (_ mod _)), Z.mod_add by (apply Z.pow_nonzero; lia). apply Z.mod_mod. apply Z.pow_nonzero; lia.
Qed.
Lemma mul64_ok a b : 0 <= a * b < 2 ^ 62 -> mul64 a b = Some (a * b).
Proof. intros H. unfold mul64. destruct (Z.leb_spec (- 2 ^ 63) (a * b)), (Z.ltb_spec (a * b) (2 ^ 63)); cbn [andb]; try reflexivity; lia. Qed.
Lemma MINBLOCK_eq : MINBLOCK = 96. Proof. reflexivity. Qed.

(** The least [c >= a] with [c = b] modulo [n]. *)
Definition ceilm (n b a : Z) : Z := a + (b - a) mod n.
Lemma ceilm_ge n b a : 0 < n -> a <= ceilm n b a < a + n.
Proof. intros H. unfold ceilm. pose proof (Z.mod_pos_bound (b - a) n H). lia. Qed.
Lemma ceilm_div n b a : 0 < n -> (n | ceilm n b a - b).
Proof. intros H. unfold ceilm. exists (- ((b - a) / n)). pose proof (Z.div_mod (b - a) n ltac:(lia)). nia. Qed.
Lemma ceilm_least n b a c : 0 < n -> a <= c -> (n | c - b) -> ceilm n b a <= c.
Proof.
  intros H Hc (q & Hq). destruct (Z.le_gt_cases (ceilm n b a) c) as [L|L]; [exact L|exfalso]. destruct (ceilm_div n b a H) as (q' & Hq'). pose proof (ceilm_ge n b a H).
  assert (c - ceilm n b a = n * (q - q')) by nia. assert (q - q' < 0) by nia. nia.
Qed.
(** The largest [c <= a] with [c = b] modulo [n]. *)
Definition floorm (n b a : Z) : Z := a - (a - b) mod n.
Lemma floorm_le n b a : 0 < n -> a - n < floorm n b a <= a.
Proof. intros H. unfold floorm. pose proof (Z.mod_pos_bound (a - b) n H). lia. Qed.
Lemma floorm_div n b a : 0 < n -> (n | floorm n b a - b).
Proof. intros H. unfold floorm. exists ((a - b) / n). pose proof (Z.div_mod (a - b) n ltac:(lia)). nia. Qed.
Lemma floorm_most n b a c : 0 < n -> c <= a -> (n | c - b) -> c <= floorm n b a.
Proof.
  intros H Hc (q & Hq). destruct (Z.le_gt_cases c (floorm n b a)) as [L|L]; [exact L|exfalso]. destruct (floorm_div n b a H) as (q' & Hq'). pose proof (floorm_le n b a H).
  assert (c - floorm n b a = n * (q - q')) by nia. assert (0 < q - q') by nia. nia.
Qed.

Section B.
Variable E : ma_env.
Hypothesis HE : ma_env_ok E.
Notation sz := (e_size E).
Notation bs := (e_base E).

Lemma sz_pow d : 0 <= d < 17 -> exists j, 0 <= j <= 30 /\ sz d = 2 ^ j.
Proof. intros H. now apply HE. Qed.
Lemma sz_pos d : 0 <= d < 17 -> 1 <= sz d <= 2 ^ 30.
Proof. intros H. destruct (sz_pow d H) as (j & Hj & ->). split; [pose proof (Z.pow_pos_nonneg 2 j); lia|apply Z.pow_le_mono_r; lia]. Qed.
Lemma u64_sz x d : 0 <= d < 17 -> u64 x mod sz d = x mod sz d.
Proof. intros H. destruct (sz_pow d H) as (j & Hj & ->). apply u64_mod. lia. Qed.

(** Whether blocks of a datatype are moved to the requested alignment. *)
Definition realigns (k d : Z) : bool := (0 <? k) && (sz d <=? 2 ^ k) && (bs d mod sz d =? 0).
(** The least and the largest start of a block of a datatype from or to [a]. *)
Definition cs_after (k d a : Z) : Z := if realigns k d then ceilm (2 ^ k) 0 a else ceilm (sz d) (bs d) a.
Definition cs_before (k d a : Z) : Z := if realigns k d then floorm (2 ^ k) 0 a else floorm (sz d) (bs d) a.

Lemma pow_div i j : 0 <= i <= j -> (2 ^ i | 2 ^ j).
Proof. intros H. exists (2 ^ (j - i)). rewrite <- Z.pow_add_r by lia. f_equal. lia. Qed.
Lemma realigns_div k d : 0 <= d < 17 -> 0 <= k <= 30 -> realigns k d = true -> (sz d | 2 ^ k) /\ (sz d | bs d).
Proof.
  intros Hd Hk R. unfold realigns in R. apply andb_prop in R as [R R3]. apply andb_prop in R as [R1 R2]. destruct (sz_pow d Hd) as (j & Hj & Ej). split.
  - rewrite Ej in *. apply Z.leb_le in R2. apply pow_div. apply Z.pow_le_mono_r_iff in R2; lia.
  - apply Z.eqb_eq in R3. apply Z.mod_divide; [pose proof (sz_pos d Hd); lia|exact R3].
Qed.
Lemma land_mod b k : 0 <= k -> Z.land b (2 ^ k - 1) = b mod 2 ^ k.
Proof. intros H. rewrite <- (Z.land_ones b k H). now rewrite Z.ones_equiv, Z.sub_1_r. Qed.

(** ma.c 675-699: the shift to the requested alignment, up. *)
Lemma shift_up k d a : 0 <= d < 17 -> 0 <= k <= 30 ->
  let b := ceilm (sz d) (bs d) a in
  (if 0 <? k then if b mod 2 ^ k =? 0 then b else if Z.rem (2 ^ k - b mod 2 ^ k) (sz d) =? 0 then b + (2 ^ k - b mod 2 ^ k) else b else b) = cs_after k d a.
Proof.
  intros Hd Hk b. pose proof (sz_pos d Hd) as Hs. unfold cs_after.
  assert (P2 : 0 < 2 ^ k) by (apply Z.pow_pos_nonneg; lia). pose proof (Z.mod_pos_bound b (2 ^ k) P2) as Hm.
  destruct (realigns k d) eqn:R.
  - destruct (realigns_div k d Hd Hk R) as [D1 D2]. unfold realigns in R. apply andb_prop in R as [R _]. apply andb_prop in R as [-> _].
    destruct D1 as (q1 & D1), D2 as (q2 & D2). destruct (ceilm_div (sz d) (bs d) a ltac:(lia)) as (q3 & D3). fold b in D3.
    assert (EB : (sz d | b)) by (exists (q3 + q2); lia).
    assert (UP : forall c, (2 ^ k | c) -> b <= c -> c < b + 2 ^ k -> c = ceilm (2 ^ k) 0 a).
    { intros c (qc & Dc) H1 H2. pose proof (ceilm_ge (sz d) (bs d) a ltac:(lia)) as G. fold b in G.
      assert (L1 : ceilm (2 ^ k) 0 a <= c) by (apply ceilm_least; [lia|lia|exists qc; lia]).
      destruct (ceilm_div (2 ^ k) 0 a P2) as (q4 & D4).
      assert (L2 : b <= ceilm (2 ^ k) 0 a). { apply ceilm_least; [lia|pose proof (ceilm_ge (2 ^ k) 0 a P2); lia|]. exists (q4 * q1 - q2). nia. }
      assert (c - ceilm (2 ^ k) 0 a = 2 ^ k * (qc - q4)) by nia. assert (qc - q4 = 0) by nia. nia. }
    destruct (Z.eqb_spec (b mod 2 ^ k) 0) as [Z0|Z0].
    + apply UP; [apply Z.mod_divide; lia|lia|lia].
    + assert (DR : (sz d | 2 ^ k - b mod 2 ^ k)). { apply Z.divide_sub_r; [now exists q1|]. rewrite Z.mod_eq by lia. apply Z.divide_sub_r; [exact EB|]. apply Z.divide_mul_l. now exists q1. }
      assert (RR : Z.rem (2 ^ k - b mod 2 ^ k) (sz d) = 0) by (rewrite Z.rem_mod_nonneg by lia; now apply Z.mod_divide; [lia|]).
      rewrite RR. cbn [Z.eqb]. apply UP; [|lia|lia]. exists (b / 2 ^ k + 1). pose proof (Z.div_mod b (2 ^ k) ltac:(lia)). nia.
  - destruct (Z.ltb_spec 0 k) as [K|K]; [|reflexivity]. destruct (Z.eqb_spec (b mod 2 ^ k) 0) as [Z0|Z0]; [reflexivity|].
    destruct (Z.eqb_spec (Z.rem (2 ^ k - b mod 2 ^ k) (sz d)) 0) as [R0|R0]; [exfalso|reflexivity].
    rewrite Z.rem_mod_nonneg in R0 by lia. apply Z.mod_divide in R0; [|lia]. unfold realigns in R. destruct (Z.ltb_spec 0 k); [|lia]. cbn [andb] in R.
    assert (SK : sz d <= 2 ^ k). { apply Z.divide_pos_le in R0; lia. }
    destruct (Z.leb_spec (sz d) (2 ^ k)); [|lia]. cbn [andb] in R. apply Z.eqb_neq in R. apply R. apply Z.mod_divide; [lia|].
    destruct (sz_pow d Hd) as (j & Hj & Ej). assert (D1 : (sz d | 2 ^ k)). { rewrite Ej in *. apply pow_div. apply Z.pow_le_mono_r_iff in SK; lia. }
    destruct (ceilm_div (sz d) (bs d) a ltac:(lia)) as (q3 & D3). fold b in D3. replace (bs d) with (b - q3 * sz d) by lia.
    apply Z.divide_sub_r; [|now exists q3]. replace b with (2 ^ k * (b / 2 ^ k) + 2 ^ k - (2 ^ k - b mod 2 ^ k)) by (pose proof (Z.div_mod b (2 ^ k) ltac:(lia)); lia).
    apply Z.divide_sub_r; [|exact R0]. apply Z.divide_add_r; [now apply Z.divide_mul_l|exact D1].
Qed.
(** ma.c 794-814: the shift down. *)
Lemma shift_down k d a : 0 <= d < 17 -> 0 <= k <= 30 ->
  let b := floorm (sz d) (bs d) a in
  (if 0 <? k then if b mod 2 ^ k =? 0 then b else if Z.rem (b mod 2 ^ k) (sz d) =? 0 then b - b mod 2 ^ k else b else b) = cs_before k d a.
Proof.
  intros Hd Hk b. pose proof (sz_pos d Hd) as Hs. unfold cs_before.
  assert (P2 : 0 < 2 ^ k) by (apply Z.pow_pos_nonneg; lia). pose proof (Z.mod_pos_bound b (2 ^ k) P2) as Hm.
  destruct (realigns k d) eqn:R.
  - destruct (realigns_div k d Hd Hk R) as [D1 D2]. unfold realigns in R. apply andb_prop in R as [R _]. apply andb_prop in R as [-> _].
    destruct D1 as (q1 & D1), D2 as (q2 & D2). destruct (floorm_div (sz d) (bs d) a ltac:(lia)) as (q3 & D3). fold b in D3.
    assert (EB : (sz d | b)) by (exists (q3 + q2); lia).
    assert (UP : forall c, (2 ^ k | c) -> c <= b -> b - 2 ^ k < c -> c = floorm (2 ^ k) 0 a).
    { intros c (qc & Dc) H1 H2. pose proof (floorm_le (sz d) (bs d) a ltac:(lia)) as G. fold b in G.
      assert (L1 : c <= floorm (2 ^ k) 0 a) by (apply floorm_most; [lia|lia|exists qc; lia]).
      destruct (floorm_div (2 ^ k) 0 a P2) as (q4 & D4).
      assert (L2 : floorm (2 ^ k) 0 a <= b). { apply floorm_most; [lia|pose proof (floorm_le (2 ^ k) 0 a P2); lia|]. exists (q4 * q1 - q2). nia. }
      assert (c - floorm (2 ^ k) 0 a = 2 ^ k * (qc - q4)) by nia. assert (qc - q4 = 0) by nia. nia. }
    destruct (Z.eqb_spec (b mod 2 ^ k) 0) as [Z0|Z0].
    + apply UP; [apply Z.mod_divide; lia|lia|lia].
    + assert (DR : (sz d | b mod 2 ^ k)). { rewrite Z.mod_eq by lia. apply Z.divide_sub_r; [exact EB|]. apply Z.divide_mul_l. now exists q1. }
      assert (RR : Z.rem (b mod 2 ^ k) (sz d) = 0) by (rewrite Z.rem_mod_nonneg by lia; now apply Z.mod_divide; [lia|]).
      rewrite RR. cbn [Z.eqb]. apply UP; [|lia|lia]. exists (b / 2 ^ k). pose proof (Z.div_mod b (2 ^ k) ltac:(lia)). nia.
  - destruct (Z.ltb_spec 0 k) as [K|K]; [|reflexivity]. destruct (Z.eqb_spec (b mod 2 ^ k) 0) as [Z0|Z0]; [reflexivity|].
    destruct (Z.eqb_spec (Z.rem (b mod 2 ^ k) (sz d)) 0) as [R0|R0]; [exfalso|reflexivity].
    rewrite Z.rem_mod_nonneg in R0 by lia. apply Z.mod_divide in R0; [|lia]. unfold realigns in R. destruct (Z.ltb_spec 0 k); [|lia]. cbn [andb] in R.
    assert (SK : sz d <= 2 ^ k). { apply Z.divide_pos_le in R0; lia. }
    destruct (Z.leb_spec (sz d) (2 ^ k)); [|lia]. cbn [andb] in R. apply Z.eqb_neq in R. apply R. apply Z.mod_divide; [lia|].
    destruct (sz_pow d Hd) as (j & Hj & Ej). assert (D1 : (sz d | 2 ^ k)). { rewrite Ej in *. apply pow_div. apply Z.pow_le_mono_r_iff in SK; lia. }
    destruct (floorm_div (sz d) (bs d) a ltac:(lia)) as (q3 & D3). fold b in D3. replace (bs d) with (b - q3 * sz d) by lia.
    apply Z.divide_sub_r; [|now exists q3]. replace b with (2 ^ k * (b / 2 ^ k) + b mod 2 ^ k) by (pose proof (Z.div_mod b (2 ^ k) ltac:(lia)); lia).
    apply Z.divide_add_r; [now apply Z.divide_mul_l|exact R0].
Qed.

Lemma cs_after_ge k d a : 0 <= d < 17 -> 0 <= k <= 30 -> a <= cs_after k d a < a + 2 ^ 30.
Proof.
  intros Hd Hk. unfold cs_after. pose proof (sz_pos d Hd). assert (P2 : 0 < 2 ^ k <= 2 ^ 30) by (split; [apply Z.pow_pos_nonneg; lia|apply Z.pow_le_mono_r; lia]).
  destruct (realigns k d); [pose proof (ceilm_ge (2 ^ k) 0 a)|pose proof (ceilm_ge (sz d) (bs d) a)]; lia.
Qed.
Lemma cs_before_le k d a : 0 <= d < 17 -> 0 <= k <= 30 -> a - 2 ^ 30 < cs_before k d a <= a.
Proof.
  intros Hd Hk. unfold cs_before. pose proof (sz_pos d Hd). assert (P2 : 0 < 2 ^ k <= 2 ^ 30) by (split; [apply Z.pow_pos_nonneg; lia|apply Z.pow_le_mono_r; lia]).
  destruct (realigns k d); [pose proof (floorm_le (2 ^ k) 0 a)|pose proof (floorm_le (sz d) (bs d) a)]; lia.
Qed.
(** [c] is a place for a block: a number of elements from the base, and aligned
    as requested if that is possible for the datatype. *)
Definition place_ok (k d c : Z) : Prop := if realigns k d then (2 ^ k | c) else (sz d | c - bs d).
Lemma place_base k d c : 0 <= d < 17 -> 0 <= k <= 30 -> place_ok k d c -> (sz d | c - bs d).
Proof.
  intros Hd Hk. unfold place_ok. destruct (realigns k d) eqn:R; [|auto]. destruct (realigns_div k d Hd Hk R) as [D1 D2]. intros D. apply Z.divide_sub_r; [exact (Z.divide_trans _ _ _ D1 D)|exact D2].
Qed.
Lemma cs_after_ok k d a : 0 <= d < 17 -> 0 <= k <= 30 -> place_ok k d (cs_after k d a).
Proof.
  intros Hd Hk. unfold place_ok, cs_after. pose proof (sz_pos d Hd). assert (P2 : 0 < 2 ^ k) by (apply Z.pow_pos_nonneg; lia).
  destruct (realigns k d); [|apply ceilm_div; lia]. pose proof (ceilm_div (2 ^ k) 0 a P2) as D. now rewrite Z.sub_0_r in D.
Qed.
Lemma cs_after_least k d a c : 0 <= d < 17 -> 0 <= k <= 30 -> a <= c -> place_ok k d c -> cs_after k d a <= c.
Proof.
  intros Hd Hk. unfold place_ok, cs_after. pose proof (sz_pos d Hd). assert (P2 : 0 < 2 ^ k) by (apply Z.pow_pos_nonneg; lia).
  destruct (realigns k d); intros Ha D; apply ceilm_least; auto; try lia. now rewrite Z.sub_0_r.
Qed.
Lemma cs_before_ok k d a : 0 <= d < 17 -> 0 <= k <= 30 -> place_ok k d (cs_before k d a).
Proof.
  intros Hd Hk. unfold place_ok, cs_before. pose proof (sz_pos d Hd). assert (P2 : 0 < 2 ^ k) by (apply Z.pow_pos_nonneg; lia).
  destruct (realigns k d); [|apply floorm_div; lia]. pose proof (floorm_div (2 ^ k) 0 a P2) as D. now rewrite Z.sub_0_r in D.
Qed.
Lemma cs_before_most k d a c : 0 <= d < 17 -> 0 <= k <= 30 -> c <= a -> place_ok k d c -> c <= cs_before k d a.
Proof.
  intros Hd Hk. unfold place_ok, cs_before. pose proof (sz_pos d Hd). assert (P2 : 0 < 2 ^ k) by (apply Z.pow_pos_nonneg; lia).
  destruct (realigns k d); intros Ha D; apply floorm_most; auto; try lia. now rewrite Z.sub_0_r.
Qed.

(** Multiples of 8. *)
Definition up8 (x : Z) : Z := ceilm 8 0 x.
Definition down8 (x : Z) : Z := floorm 8 0 x.

Definition nb_after (k d ne a : Z) : Z := up8 (cs_after k d (a + 84) + ne * sz d + 4) - a.
Lemma balloc_after_ok k d ne a : 0 <= d < 17 -> 0 <= k <= 30 -> 0 <= ne -> ne * sz d < 2 ^ 62 -> 0 <= a < 2 ^ 48 -> (8 | a) ->
  balloc_after E k d ne a = Some (cs_after k d (a + 84), nb_after k d ne a).
Proof.
  intros Hd Hk Hn HL Ha (qa & D8). pose proof (sz_pos d Hd) as Hs. assert (Hb : 0 <= bs d < 2 ^ 47) by (now apply HE).
  assert (L0 : 0 <= ne * sz d) by nia. unfold balloc_after. rewrite mul64_ok by lia. rewrite (u64_small (ne * sz d)) by lia.
  destruct (Z.eqb_spec (sz d) 0); [lia|]. rewrite u64_sz by exact Hd.
  assert (EB : a + AD_SIZE + (bs d - a - AD_SIZE - GUARD) mod sz d + GUARD = ceilm (sz d) (bs d) (a + 84)).
  { unfold ceilm, AD_SIZE, GUARD. replace (bs d - a - 80 - 4) with (bs d - (a + 84)) by lia. lia. }
  rewrite EB. pose proof (ceilm_ge (sz d) (bs d) (a + 84) ltac:(lia)) as G. rewrite (u64_small (ceilm _ _ _)) by lia. cbn zeta.
  rewrite land_mod by lia. set (b := ceilm (sz d) (bs d) (a + 84)) in *.
  assert (P2 : 0 < 2 ^ k <= 2 ^ 30) by (split; [apply Z.pow_pos_nonneg; lia|apply Z.pow_le_mono_r; lia]). pose proof (Z.mod_pos_bound b (2 ^ k) ltac:(lia)) as Hm.
  rewrite (u64_small (b + _)) by lia. pose proof (shift_up k d (a + 84) Hd Hk) as SU. cbn zeta in SU. fold b in SU. rewrite SU. clear SU. pose proof (cs_after_ge k d (a + 84) Hd Hk) as G2. set (c := cs_after k d (a + 84)) in *.
  unfold nb_after. fold c. unfold up8, ALIGN, GUARD. replace 8 with (2 ^ 3) by reflexivity. rewrite u64_mod by lia. change (2 ^ 3) with 8. unfold ceilm.
  replace (a - c - ne * sz d - 4) with ((0 - (c + ne * sz d + 4)) + qa * 8) by lia. rewrite Z.mod_add by lia. f_equal. f_equal. pose proof (Z.mod_pos_bound (0 - (c + ne * sz d + 4)) 8 ltac:(lia)). rewrite u64_small by lia. lia.
Qed.
Lemma nb_after_ok k d ne a : 0 <= d < 17 -> 0 <= k <= 30 -> 0 <= ne -> (8 | a) ->
  let c := cs_after k d (a + 84) in
  (8 | nb_after k d ne a) /\ 88 <= nb_after k d ne a /\ c + ne * sz d + 4 <= a + nb_after k d ne a /\ nb_after k d ne a < 96 + 2 ^ 30 + ne * sz d.
Proof.
  intros Hd Hk Hn D8 c. pose proof (sz_pos d Hd) as Hs. assert (L0 : 0 <= ne * sz d) by nia. pose proof (cs_after_ge k d (a + 84) Hd Hk) as G. fold c in G.
  unfold nb_after. fold c. pose proof (ceilm_ge 8 0 (c + ne * sz d + 4) ltac:(lia)) as G8. fold (up8 (c + ne * sz d + 4)) in G8. split.
  - apply Z.divide_sub_r; [|exact D8]. pose proof (ceilm_div 8 0 (c + ne * sz d + 4) ltac:(lia)) as D. rewrite Z.sub_0_r in D. exact D.
  - lia.
Qed.

Definition nb_before (k d ne a : Z) : Z := a - down8 (cs_before k d (a - 4 - ne * sz d) - 84).
Lemma balloc_before_ok k d ne a : 0 <= d < 17 -> 0 <= k <= 30 -> 0 <= ne -> ne * sz d < 2 ^ 62 -> 0 <= a < 2 ^ 48 -> (8 | a) ->
  balloc_before E k d ne a = Some (u64 (cs_before k d (a - 4 - ne * sz d)), nb_before k d ne a).
Proof.
  intros Hd Hk Hn HL Ha D8. pose proof (sz_pos d Hd) as Hs. assert (Hb : 0 <= bs d < 2 ^ 47) by (now apply HE).
  assert (L0 : 0 <= ne * sz d) by nia. unfold balloc_before. rewrite mul64_ok by lia. rewrite (u64_small (ne * sz d)) by lia.
  destruct (Z.eqb_spec (sz d) 0); [lia|]. rewrite u64_sz by exact Hd. unfold GUARD, AD_SIZE.
  assert (EB : a - (a - 4 - ne * sz d - bs d) mod sz d - 4 - ne * sz d = floorm (sz d) (bs d) (a - 4 - ne * sz d)) by (unfold floorm; lia).
  rewrite EB. cbn zeta. rewrite land_mod by lia. rewrite u64_mod by lia. set (b := floorm (sz d) (bs d) (a - 4 - ne * sz d)) in *.
  pose proof (floorm_le (sz d) (bs d) (a - 4 - ne * sz d) ltac:(lia)) as G. fold b in G.
  assert (EC : (if 0 <? k then if b mod 2 ^ k =? 0 then u64 b else if Z.rem (b mod 2 ^ k) (sz d) =? 0 then u64 (u64 b - b mod 2 ^ k) else u64 b else u64 b) = u64 (cs_before k d (a - 4 - ne * sz d))).
  { rewrite <- (shift_down k d (a - 4 - ne * sz d) Hd Hk). fold b. destruct (0 <? k); [|reflexivity]. destruct (_ =? 0); [reflexivity|]. destruct (_ =? 0); [|reflexivity]. unfold u64. now rewrite Zminus_mod_idemp_l. }
  rewrite EC. pose proof (cs_before_le k d (a - 4 - ne * sz d) Hd Hk) as G2. set (c := cs_before k d (a - 4 - ne * sz d)) in *. f_equal. f_equal.
  unfold nb_before. fold c. unfold down8, floorm, ALIGN. rewrite Z.sub_0_r.
  assert (EG : u64 (u64 c - 4 - 80) mod 8 = (c - 84) mod 8). { replace 8 with (2 ^ 3) by reflexivity. rewrite u64_mod by lia. replace (u64 c - 4 - 80) with (u64 c - 84) by lia. rewrite <- Zminus_mod_idemp_l, u64_mod by lia. now rewrite Zminus_mod_idemp_l. }
  rewrite EG. pose proof (Z.mod_pos_bound (c - 84) 8 ltac:(lia)). unfold u64 at 1. replace (a - u64 c + 4 + (c - 84) mod 8 + 80) with ((a + 84 + (c - 84) mod 8) - u64 c) by lia.
  unfold u64. rewrite Zminus_mod_idemp_r. rewrite Z.mod_small by lia. lia.
Qed.
Lemma nb_before_ok k d ne a : 0 <= d < 17 -> 0 <= k <= 30 -> 0 <= ne -> (8 | a) ->
  let c := cs_before k d (a - 4 - ne * sz d) in
  (8 | nb_before k d ne a) /\ 88 <= nb_before k d ne a /\ a - nb_before k d ne a + 84 <= c /\ c + ne * sz d + 4 <= a /\ nb_before k d ne a < 96 + 2 ^ 30 + ne * sz d.
Proof.
  intros Hd Hk Hn D8 c. pose proof (sz_pos d Hd) as Hs. assert (L0 : 0 <= ne * sz d) by nia. pose proof (cs_before_le k d (a - 4 - ne * sz d) Hd Hk) as G. fold c in G.
  unfold nb_before. fold c. pose proof (floorm_le 8 0 (c - 84) ltac:(lia)) as G8. fold (down8 (c - 84)) in G8. split.
  - apply Z.divide_sub_r; [exact D8|]. pose proof (floorm_div 8 0 (c - 84) ltac:(lia)) as D. rewrite Z.sub_0_r in D. exact D.
  - lia.
Qed.
End B.
