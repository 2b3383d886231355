(** One-dimensional arrays with block maps: the blocks as an increasing sequence. *)
From Verif Require Import SpecWf SpecDist MDist MBase MNb MHandle MSparse LRadix LAxis LDist LDist2.

(** Block [k] of [n] is [b k .. b (k+1) - 1]; [own k] has it. *)
Record line (guess : Z -> Z -> Z -> Z) (nproc : Z) (g : gadesc) (d n : Z) (b own : Z -> Z) : Prop := {
  ln_pos : 1 <= n;
  ln_fst : b 0 = 1;
  ln_last : b n = d + 1;
  ln_inc : forall i, 0 <= i < n -> b i < b (i + 1);
  ln_own : forall k, 0 <= k < n -> 0 <= own k < nproc;
  ln_inj : forall j k, 0 <= j < n -> 0 <= k < n -> own j = own k -> j = k;
  ln_dist : forall k, 0 <= k < n -> dist1 g (own k) = Done (b k, b (k + 1) - 1);
  ln_none : forall p, 0 <= p < nproc -> (exists k, 0 <= k < n /\ p = own k) \/ dist1 g p = Done (0, -1);
  ln_n : n <= nproc;
  ln_dims : dims g = [d];
  ln_find : forall x, 1 <= x <= d -> exists k, 0 <= k < n /\ b k <= x < b (k + 1) /\ findblocks guess (dims g) (nblock g) (mapc g) [x] = Some [k];
  ln_region : forall x y kx ky, 1 <= x <= y -> y <= d -> 0 <= kx < n -> 0 <= ky < n -> b kx <= x < b (kx + 1) -> b ky <= y < b (ky + 1) ->
    locate_region guess g [x] [y] =
      Some (Some (map (fun k => (own k, ([Z.max x (b k)], [Z.min y (b (k + 1) - 1)]))) (zseq kx (Z.to_nat (ky - kx + 1))))) }.

Lemma strict_mono (b : Z -> Z) n : (forall i, 0 <= i < n -> b i < b (i + 1)) -> forall i j, 0 <= i -> i <= j -> j <= n -> b i + (j - i) <= b j.
Proof.
  intros H i j Hi Hij Hj. remember (Z.to_nat (j - i)) as m eqn:E. revert j Hij Hj E. induction m as [|m IH]; intros j Hij Hj E.
  - replace j with i by lia. lia.
  - assert (b i + (j - 1 - i) <= b (j - 1)) by (apply IH; lia). assert (b (j - 1) < b (j - 1 + 1)) by (apply H; lia).
    replace (j - 1 + 1) with j in * by lia. lia.
Qed.
Lemma strict_block (b : Z -> Z) n x j k : (forall i, 0 <= i < n -> b i < b (i + 1)) -> 0 <= j < n -> 0 <= k < n ->
  b j <= x < b (j + 1) -> b k <= x < b (k + 1) -> j = k.
Proof.
  intros H J K XJ XK. destruct (Z.lt_trichotomy j k) as [L|[E|L]]; [|exact E|]; exfalso.
  - pose proof (strict_mono b n H (j + 1) k ltac:(lia) ltac:(lia) ltac:(lia)). lia.
  - pose proof (strict_mono b n H (k + 1) j ltac:(lia) ltac:(lia) ltac:(lia)). lia.
Qed.

Definition bnd (d n : Z) (m : list Z) (k : Z) : Z := if k =? n then d + 1 else nth (Z.to_nat k) m 0.

Lemma owns1 d n m k : valid_map d n m -> 0 <= k < n -> owns_no_handle [d] [n] m k = Some ([bnd d n m k], [bnd d n m (k + 1) - 1]).
Proof.
  intros (D & N & L & H0 & _) K. unfold owns_no_handle. cbn [zprod].
  destruct (Z.ltb_spec (n * 1 - 1) k); [lia|]. destruct (Z.ltb_spec k 0); [lia|]. cbn [orb owns_dims].
  unfold cmod, cdiv. destruct (Z.eqb_spec n 0); [lia|]. cbn [option_map]. rewrite Z.rem_small by lia.
  rewrite (nth_zget m k 0) by lia. unfold bnd at 1. destruct (Z.eqb_spec k n); [lia|].
  destruct (Z.eqb_spec k (n - 1)) as [->|NE].
  - unfold bnd. replace (n - 1 + 1) with n by lia. rewrite Z.eqb_refl. replace (d + 1 - 1) with d by lia. reflexivity.
  - rewrite (nth_zget m (k + 1) 0) by lia. unfold bnd. destruct (Z.eqb_spec (k + 1) n); [lia|]. reflexivity.
Qed.

Section line.
Variables (guess : Z -> Z -> Z -> Z) (nproc : Z) (g : gadesc) (d n : Z).
Hypotheses (GG : good_guess guess) (W : wf_strict_regular nproc g) (D1 : dims g = [d]) (N1 : nblock g = [n]).
Let m := mapc g.
Let b := bnd d n m.
Let own := owner_of g.

Lemma line_map : strict_map d n m /\ valid_map d n m.
Proof.
  destruct W as [(R & NE & V & C) S]. rewrite D1, N1 in *. cbn [valid_maps strict_maps] in *. tauto.
Qed.
Lemma line_dist_own k : 0 <= k < n -> distribution g (own k) = Some ([b k], [b (k + 1) - 1]).
Proof.
  intros K. destruct line_map as [SM VM]. destruct W as [(R & NE & V & C) S]. unfold distribution, owns, own, owner_of. rewrite R, D1, N1.
  destruct C as [(E & Hn)|(Hne & ND & Hs & Hn)].
  - unfold num_rstrctd. rewrite E. cbn. apply owns1; auto.
  - rewrite N1 in Hn. cbn [zprod] in Hn. unfold num_rstrctd in *.
    destruct (rstrctd_list g) as [|z l] eqn:El; [congruence|]. rewrite <- El in *.
    destruct (Z.ltb_spec 0 (Z.of_nat (length (rstrctd_list g)))); [|lia].
    unfold set_restricted in Hs. apply set_ranks_spec in Hs; auto. destruct Hs as (Hlen & Hin & _ & _).
    rewrite (Hin k (nth (Z.to_nat k) (rstrctd_list g) 0)) by (apply nth_zget; lia).
    destruct (Z.eqb_spec (Z.of_nat (length (rstrctd_list g))) 0); [lia|].
    destruct (Z.ltb_spec (0 + k) (Z.of_nat (length (rstrctd_list g)))); [|lia]. apply owns1; auto.
Qed.
Lemma line_dist_none p : 0 <= p < nproc -> (exists k, 0 <= k < n /\ p = own k) \/ distribution g p = Some ([0], [-1]).
Proof.
  intros P. destruct line_map as [SM VM]. destruct W as [(R & NE & V & C) S]. unfold own, owner_of.
  assert (forall k, ~ 0 <= k < n -> owns_no_handle [d] [n] m k = Some ([0], [-1])) as OUT.
  { intros k K. unfold owns_no_handle. cbn [zprod]. destruct (Z.ltb_spec (n * 1 - 1) k); [reflexivity|]. destruct (Z.ltb_spec k 0); [reflexivity|lia]. }
  destruct C as [(E & Hn)|(Hne & ND & Hs & Hn)].
  - rewrite E. destruct (Z_lt_ge_dec p n) as [L|L]; [left; exists p; lia|right].
    unfold distribution, owns. rewrite R, D1, N1. unfold num_rstrctd. rewrite E. cbn [length Z.of_nat Z.ltb Z.compare Z.eqb]. apply OUT. lia.
  - rewrite N1 in Hn. cbn [zprod] in Hn. unfold distribution, owns, num_rstrctd in *. rewrite R, D1, N1.
    destruct (rstrctd_list g) as [|z l] eqn:El; [congruence|]. rewrite <- El in *.
    destruct (Z.ltb_spec 0 (Z.of_nat (length (rstrctd_list g)))) as [Y|Y]; [|rewrite El in Y; cbn [length] in Y; lia].
    unfold set_restricted in Hs. apply set_ranks_spec in Hs; auto. destruct Hs as (Hlen & Hin & Hout & HF).
    destruct (in_dec Z.eq_dec p (rstrctd_list g)) as [I|I].
    + apply In_zget in I. destruct I as (k & K & Ek).
      destruct (Z_lt_ge_dec k n) as [L|L].
      * left. exists k. split; [lia|]. rewrite (nth_zget _ _ 0) in Ek by lia. injection Ek as <-. reflexivity.
      * right. rewrite (Hin _ _ Ek). destruct (Z.eqb_spec (Z.of_nat (length (rstrctd_list g))) 0); [lia|].
        destruct (Z.ltb_spec (0 + k) (Z.of_nat (length (rstrctd_list g)))); [apply OUT; lia|reflexivity].
    + right. rewrite Hout by exact I. rewrite zget_repeat by lia. destruct (Z.eqb_spec (Z.of_nat (length (rstrctd_list g))) 0); [lia|].
      destruct (Z.ltb_spec (-1) (Z.of_nat (length (rstrctd_list g)))); [apply OUT; lia|reflexivity].
Qed.
Lemma bnd_inc i : 0 <= i < n -> b i < b (i + 1).
Proof.
  intros I. destruct line_map as [(_ & L & H0 & M & E) _]. unfold b, bnd. destruct (Z.eqb_spec i n); [lia|].
  destruct (Z.eqb_spec (i + 1) n) as [E1|NE].
  - replace (Z.to_nat i) with (Z.to_nat n - 1)%nat by lia. lia.
  - specialize (M (Z.to_nat i) ltac:(lia)). replace (Z.to_nat (i + 1)) with (Z.to_nat i + 1)%nat by lia. exact M.
Qed.
Lemma line_find x : 1 <= x <= d -> exists k, 0 <= k < n /\ b k <= x < b (k + 1) /\ findblocks guess (dims g) (nblock g) (mapc g) [x] = Some [k].
Proof.
  intros X. destruct line_map as [_ VM]. rewrite D1, N1. cbn [findblocks].
  pose proof VM as (_ & N & _). destruct (findblock_spec d n m (guess d n x) x VM (GG d n x N X) X) as (k & E & K & B).
  exists k. split; [exact K|]. unfold m in E. rewrite E. split; [|reflexivity]. cbn [alo ahi map_axis] in B. unfold b, bnd.
  destruct (Z.eqb_spec k n); [lia|]. destruct (Z.eqb_spec k (n - 1)) as [E1|NE]; destruct (Z.eqb_spec (k + 1) n); try lia.
Qed.
Lemma line_owns k : 0 <= k < n -> owns g k = Some ([b k], [b (k + 1) - 1]) /\
  (if num_rstrctd g =? 0 then Some k else zget (rstrctd_list g) k) = Some (own k).
Proof.
  intros K. destruct line_map as [SM VM]. destruct W as [(R & NE & V & C) S]. unfold owns, own, owner_of. rewrite R, D1, N1.
  destruct C as [(E & Hn)|(Hne & ND & Hs & Hn)].
  - unfold num_rstrctd. rewrite E. cbn. split; [apply owns1; auto|reflexivity].
  - rewrite N1 in Hn. cbn [zprod] in Hn. unfold num_rstrctd in *.
    destruct (rstrctd_list g) as [|z l] eqn:El; [congruence|]. rewrite <- El in *.
    destruct (Z.eqb_spec (Z.of_nat (length (rstrctd_list g))) 0); [lia|].
    destruct (Z.ltb_spec k (Z.of_nat (length (rstrctd_list g)))); [|lia].
    split; [apply owns1; auto|]. apply nth_zget. lia.
Qed.
Lemma line_loop x y kB : forall e k kT, 0 <= k -> k + Z.of_nat e = kB + 1 -> kB < n ->
  region_loop e (owns g) (fun p => if num_rstrctd g =? 0 then Some p else zget (rstrctd_list g) p) [n] [kT] [kB] [x] [y] [k] =
  Some (map (fun k => (own k, ([Z.max x (b k)], [Z.min y (b (k + 1) - 1)]))) (zseq k e)).
Proof.
  induction e as [|e IH]; intros k kT K E L; [reflexivity|]. cbn [region_loop zseq map]. unfold compute_index. cbn [compute_index_aux].
  replace (k * 1 + 0) with k by lia. destruct (line_owns k ltac:(lia)) as [O1 O2]. rewrite O1, O2. cbn [update_sub].
  destruct (Z.ltb_spec k kB) as [Y|Y].
  - rewrite IH by lia. cbn [fst snd]. unfold clip_lo, clip_hi. cbn [combine map fst snd].
    do 2 f_equal. f_equal. f_equal; f_equal.
    + destruct (Z.ltb_spec x (b k)); lia.
    + destruct (Z.ltb_spec (b (k + 1) - 1) y); lia.
  - assert (e = O) as -> by lia. cbn [region_loop zseq map fst snd]. unfold clip_lo, clip_hi. cbn [combine map fst snd].
    do 2 f_equal. f_equal. f_equal; f_equal.
    + destruct (Z.ltb_spec x (b k)); lia.
    + destruct (Z.ltb_spec (b (k + 1) - 1) y); lia.
Qed.
Lemma line_ok : line guess nproc g d n b own.
Proof.
  destruct line_map as [SM VM]. pose proof VM as (HD & HN & HL & H0 & HM & HE).
  assert (forall k, 0 <= k < n -> 0 <= own k < nproc) as OR.
  { intros k K. apply (owner_of_range nproc g k); [apply W|]. rewrite N1. cbn [zprod]. lia. }
  assert (forall j k, 0 <= j < n -> 0 <= k < n -> own j = own k -> j = k) as INJ.
  { intros j k J K E. apply (owner_of_inj nproc g j k); auto; [apply W| |]; rewrite N1; cbn [zprod]; lia. }
  split; auto.
  - unfold b, bnd. destruct (Z.eqb_spec 0 n); [lia|exact H0].
  - unfold b, bnd. rewrite Z.eqb_refl. reflexivity.
  - apply bnd_inc.
  - intros k K. unfold dist1. rewrite line_dist_own by exact K. reflexivity.
  - intros p P. destruct (line_dist_none p P) as [H|H]; [left; exact H|right; unfold dist1; rewrite H; reflexivity].
  - destruct W as [(R & NE & V & C) S]. destruct C as [(E & Hn)|(Hne & ND & Hs & Hn)]; rewrite N1 in Hn; cbn [zprod] in Hn; [lia|].
    unfold num_rstrctd in Hn. unfold set_restricted in Hs. apply set_ranks_spec in Hs; auto. destruct Hs as (_ & _ & _ & HF). rewrite repeat_length in HF.
    assert (Z.of_nat (length (rstrctd_list g)) <= nproc); [|lia].
    assert (0 <= nproc) as NP by (specialize (OR 0 ltac:(lia)); lia).
    rewrite <- (Z2Nat.id nproc) by lia. rewrite <- (zseq_length 0 (Z.to_nat nproc)). apply inj_le. apply NoDup_incl_length; [exact ND|].
    intros x X. rewrite Forall_forall in HF. apply HF in X. apply zseq_In. lia.
  - apply line_find.
  - intros x y kx ky X Y KX KY BX BY. unfold locate_region. rewrite D1. cbn [region_ok].
    destruct (Z.ltb_spec x 1); [lia|]. destruct (Z.ltb_spec d y); [lia|]. destruct (Z.ltb_spec y x); [lia|]. cbn [orb negb andb].
    destruct W as [(R & _) _]. rewrite R. unfold locate_region_map.
    destruct (line_find x ltac:(lia)) as (k1 & K1 & B1 & ->). destruct (line_find y ltac:(lia)) as (k2 & K2 & B2 & ->).
    assert (k1 = kx) as -> by (apply (strict_block b n x); auto using bnd_inc).
    assert (k2 = ky) as -> by (apply (strict_block b n y); auto using bnd_inc).
    assert (kx <= ky).
    { destruct (Z_le_gt_dec kx ky); [assumption|]. pose proof (strict_mono b n bnd_inc (ky + 1) kx ltac:(lia) ltac:(lia) ltac:(lia)). lia. }
    cbn [count_elems]. rewrite N1. rewrite Z.mul_1_r. rewrite line_loop by lia. reflexivity.
Qed.
End line.

(** Such an array is a line. *)
Lemma wf_line guess nproc g d : good_guess guess -> wf_strict_regular nproc g -> dims g = [d] -> exists n b own, line guess nproc g d n b own.
Proof.
  intros GG W D. assert (exists n, nblock g = [n]) as [n N].
  { destruct W as [(_ & _ & V & _) _]. rewrite D in V. destruct (nblock g) as [|n [|n' l]]; cbn [valid_maps] in V; try tauto. exists n. reflexivity. }
  exists n. do 2 eexists. apply (line_ok guess nproc g d n GG W D N).
Qed.
