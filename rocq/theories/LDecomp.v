(** Proofs about the decomposition heuristic and the default maps. *)
From Coq Require Import Sorted Znumtheory.
From Verif Require Export LDist3 MDecomp.

Lemma zrange_In lo n x : In x (zrange lo n) <-> lo <= x < lo + Z.of_nat n.
Proof.
  revert lo; induction n as [|n IH]; intros lo; cbn [zrange In]; [lia|]. rewrite IH. lia.
Qed.

Lemma zrange_sorted lo n : StronglySorted Z.lt (zrange lo n).
Proof.
  revert lo; induction n as [|n IH]; intros lo; cbn; constructor; auto.
  apply Forall_forall. intros x Hx. apply zrange_In in Hx. lia.
Qed.

Lemma sorted_filter {A} (R : A -> A -> Prop) f l :
  StronglySorted R l -> StronglySorted R (filter f l).
Proof.
  induction 1 as [|a l HS IH HF]; cbn; [constructor|]. destruct (f a); auto.
  constructor; auto. rewrite Forall_forall in *. intros x Hx. apply filter_In in Hx. apply HF; tauto.
Qed.

Lemma filter_length_le {A} (f : A -> bool) l : (length (filter f l) <= length l)%nat.
Proof. induction l as [|a l IH]; cbn; auto. destruct (f a); cbn; lia. Qed.

Lemma sorted_map_div p l :
  1 <= p -> Forall (fun d => d mod p = 0) l -> StronglySorted Z.lt l ->
  StronglySorted Z.lt (map (fun d => d / p) l).
Proof.
  intros Hp HF HS; induction HS as [|a l HS IH HL]; cbn; constructor.
  - inversion_clear HF. auto.
  - inversion_clear HF as [|? ? Ha HF']. rewrite Forall_forall in *. intros x Hx. apply in_map_iff in Hx.
    destruct Hx as (y & <- & Hy). specialize (HL y Hy). specialize (HF' y Hy). cbn in *. nia.
Qed.

(** The divisors of [m] greater than 1, ascending. *)
Definition divs_gt1 (m : Z) (l : list Z) : Prop :=
  StronglySorted Z.lt l /\ forall d, In d l <-> 1 < d /\ (d | m).

Lemma sieve_prod fuel l m :
  1 <= m -> (length l <= fuel)%nat -> divs_gt1 m l ->
  zprod (sieve fuel l) = m /\ Forall (fun p => 1 < p) (sieve fuel l).
Proof.
  revert l m; induction fuel as [|f IH]; intros l m Hm Hf [HS HD].
  - destruct l; cbn in Hf; [|lia]. cbn. split; [|constructor].
    destruct (Z.eq_dec m 1); auto. exfalso.
    apply (proj2 (HD m)). split; [lia|apply Z.divide_refl].
  - destruct l as [|p rest].
    + cbn. split; [|constructor]. destruct (Z.eq_dec m 1); auto. exfalso.
      apply (proj2 (HD m)). split; [lia|apply Z.divide_refl].
    + cbn [sieve]. assert (1 < p /\ (p | m)) as [Hp [q Hq]] by (apply HD; cbn; auto).
      assert (1 <= q) as Hq1 by nia.
      inversion_clear HS as [|? ? HS' HF].
      destruct (IH (map (fun d => d / p) (filter (fun d => d mod p =? 0) rest)) q) as [IH1 IH2]; auto.
      * rewrite map_length. pose proof (filter_length_le (fun d => d mod p =? 0) rest). cbn in Hf. lia.
      * split.
        -- apply sorted_map_div; [lia| |apply sorted_filter; auto].
           apply Forall_forall. intros d Hd. apply filter_In in Hd. lia.
        -- intros e. split.
           ++ intros He. apply in_map_iff in He. destruct He as (d & <- & Hd). apply filter_In in Hd.
              destruct Hd as [Hd Hdp]. rewrite Forall_forall in HF. specialize (HF d Hd).
              destruct (proj1 (HD d) (or_intror Hd)) as [_ [r Hr]].
              assert (d = p * (d / p)) as Ed by lia.
              split; [nia|]. exists r. nia.
           ++ intros [He [r Hr]]. apply in_map_iff. exists (e * p). split; [apply Z.div_mul; lia|].
              apply filter_In. split; [|rewrite Z.mod_mul by lia; reflexivity].
              assert (In (e * p) (p :: rest)) as HI.
              { apply HD. split; [nia|]. exists r. nia. }
              destruct HI as [E|HI]; auto. exfalso. nia.
      * cbn [zprod]. rewrite IH1. split; [lia|]. constructor; auto.
Qed.

Lemma divisors_spec n : 1 <= n -> divs_gt1 n (tl (divisors n)).
Proof.
  intros Hn. unfold divisors. replace (Z.to_nat n) with (S (Z.to_nat (n - 1))) by lia.
  cbn [zrange filter]. rewrite Z.mod_1_r. cbn [Z.eqb tl]. split.
  - apply sorted_filter, zrange_sorted.
  - intros d. rewrite filter_In, zrange_In. split.
    + intros [Hd E]. split; [lia|]. apply Z.mod_divide; [lia|apply Z.eqb_eq; auto].
    + intros [Hd E]. pose proof (Z.divide_pos_le d n ltac:(lia) E).
      split; [lia|]. apply Z.eqb_eq, Z.mod_divide; [lia|auto].
Qed.

Lemma prime_list_prod n : 1 <= n ->
  zprod (prime_list n) = n /\ Forall (fun p => 1 < p) (prime_list n).
Proof. intros Hn. apply sieve_prod; auto using divisors_spec. Qed.

Lemma zprod_app a b : zprod (a ++ b) = zprod a * zprod b.
Proof. induction a as [|x a IH]; cbn [app zprod]; [ring|rewrite IH; ring]. Qed.

Lemma zprod_rev l : zprod (rev l) = zprod l.
Proof. induction l as [|x l IH]; cbn; auto. rewrite zprod_app, IH. cbn. ring. Qed.

Lemma zprod_upd h p l : (h < length l)%nat -> zprod (upd h (nth h l 0 * p) l) = zprod l * p.
Proof.
  revert h; induction l as [|x l IH]; intros h Hh; cbn in Hh; [lia|].
  destruct h as [|h]; cbn [upd nth zprod]; [ring|]. rewrite IH by lia. ring.
Qed.

Lemma Forall_upd {A} (P : A -> Prop) h v l : P v -> Forall P l -> Forall P (upd h v l).
Proof.
  intros Hv HF; revert h; induction HF as [|a l Ha HF IH]; intros h; [destruct h; constructor|].
  destruct h; cbn; constructor; auto.
Qed.

Lemma pick_axis_range wlt tard pe nd istart p0 n j q h :
  0 < nd -> 0 <= h < nd -> 0 <= pick_axis wlt tard pe nd istart p0 n j q h < nd.
Proof.
  intros Hn. revert j q h; induction n as [|n IH]; intros j q h Hh; cbn [pick_axis]; auto.
  pose proof (Z.mod_pos_bound (istart + j) nd Hn).
  match goal with |- context [if ?c then _ else _] => destruct c end; apply IH; auto.
Qed.

Lemma deal_spec wlt tard nd primes istart pe :
  nd = Z.of_nat (length pe) -> 0 <= istart < nd ->
  Forall (fun p => 1 <= p) primes -> Forall (fun p => 1 <= p) pe ->
  length (deal wlt tard nd primes istart pe) = length pe /\
  zprod (deal wlt tard nd primes istart pe) = zprod pe * zprod primes /\
  Forall (fun p => 1 <= p) (deal wlt tard nd primes istart pe).
Proof.
  revert istart pe; induction primes as [|p ps IH]; intros istart pe Hnd Hi HF HP; cbn [deal].
  - cbn. repeat split; auto. lia.
  - inversion_clear HF as [|? ? Hp HF'].
    match goal with |- context [upd (Z.to_nat ?h) _ _] => remember h as hh eqn:Eh end.
    assert (0 <= hh < nd) as Hh by (subst hh; apply pick_axis_range; lia).
    assert (1 <= nth (Z.to_nat hh) pe 0) as Hn1.
    { rewrite Forall_forall in HP. apply HP. apply nth_In. lia. }
    destruct (IH ((istart + 1) mod nd) (upd (Z.to_nat hh) (nth (Z.to_nat hh) pe 0 * p) pe)) as (H1 & H2 & H3).
    + rewrite upd_length. auto.
    + apply Z.mod_pos_bound. lia.
    + auto.
    + apply Forall_upd; auto. nia.
    + rewrite upd_length in H1. rewrite zprod_upd in H2 by lia.
      repeat split; auto. rewrite H2. cbn [zprod]. ring.
Qed.

Lemma zprod_ones {A} (l : list A) : zprod (map (fun _ => 1) l) = 1.
Proof. induction l as [|a l IH]; cbn [map zprod]; [auto|rewrite IH; auto]. Qed.

Lemma tard_of_pos a b : 1 <= tard_of a b.
Proof. unfold tard_of. destruct (Z.ltb_spec ((a + clamp_blk b - 1) / clamp_blk b) 1); lia. Qed.

(** C04 *)
Lemma ddb_h2_spec wlt ardims npes blk :
  1 <= npes -> ardims <> [] -> length blk = length ardims ->
  let r := ddb_h2 wlt ardims npes blk in
  length (fst r) = length ardims /\ length (snd r) = length ardims /\
  zprod (fst r) = npes /\ Forall (fun p => 1 <= p) (fst r) /\
  forall i, (i < length ardims)%nat ->
    let t := tard_of (nth i ardims 0) (nth i blk 0) in
    nth i (snd r) 0 = (t + nth i (fst r) 0 - 1) / nth i (fst r) 0.
Proof.
  intros Hn Hne HL. cbn zeta. unfold ddb_h2. cbn [fst snd].
  set (tard := map (fun p => tard_of (fst p) (snd p)) (combine ardims blk)).
  destruct (prime_list_prod npes Hn) as [HP1 HP2].
  destruct (deal_spec wlt tard (Z.of_nat (length ardims)) (rev (prime_list npes)) 0 (map (fun _ => 1) ardims))
    as (H1 & H2 & H3).
  - rewrite map_length. auto.
  - destruct ardims; [congruence|cbn; lia].
  - apply Forall_rev. eapply Forall_impl; [|exact HP2]. cbn. lia.
  - apply Forall_map, Forall_forall. lia.
  - rewrite map_length in H1. rewrite zprod_ones, zprod_rev, HP1 in H2.
    assert (length tard = length ardims) as Ht by (unfold tard; rewrite map_length, combine_length; lia).
    repeat split; auto.
    + rewrite map_length, combine_length. lia.
    + lia.
    + intros i Hi.
      set (f := fun p : Z * Z => (fst p + snd p - 1) / snd p).
      rewrite (nth_indep _ 0 (f (0, 0))) by (rewrite map_length, combine_length; lia).
      rewrite (map_nth f). rewrite combine_nth by lia. unfold f. cbn [fst snd].
      assert (nth i tard 0 = tard_of (nth i ardims 0) (nth i blk 0)) as ->; auto.
      unfold tard. set (h := fun p : Z * Z => tard_of (fst p) (snd p)).
      rewrite (nth_indep _ 0 (h (0, 0))) by (rewrite map_length, combine_length; lia).
      rewrite (map_nth h), combine_nth by lia. reflexivity.
Qed.

(** ---- the map loop ---- *)
Section MapLoop.
Variables dim pe blk chunk pcut room : Z.
Let c := if 1 <? chunk then Z.min chunk dim else 1.
Hypothesis Hdim : 1 <= dim.
Hypothesis Hblk : 1 <= blk.
(** with blocks of one unit, the full blocks alone reach the end *)
Hypothesis Hcut : blk = 1 -> dim <= pcut * c.
Hypothesis Hroom : pe <= room.

Lemma map_loop_spec fuel p i :
  0 <= p -> Z.of_nat fuel >= pe - p -> 0 <= i ->
  (blk = 1 -> i = Z.min p pcut * c) ->
  exists m, map_loop fuel dim pe blk chunk pcut room p i = Some m /\
    Z.of_nat (length m) <= Z.max 0 (pe - p) /\
    (p < pe -> i < dim -> exists m', m = i + 1 :: m') /\
    (forall k, (k + 1 < length m)%nat -> nth k m 0 < nth (k + 1) m 0) /\
    (forall k, (k < length m)%nat -> nth k m 0 <= dim).
Proof.
  revert p i; induction fuel as [|f IH]; intros p i Hp Hf Hi Hb1; cbn [map_loop].
  - destruct (Z.ltb_spec p pe); [lia|]. cbn. exists []. cbn. repeat split; try lia.
  - destruct (Z.ltb_spec p pe); cbn [andb]; [|exists []; cbn; repeat split; lia].
    destruct (Z.ltb_spec i dim) as [Hid|]; [|exists []; cbn; repeat split; lia].
    destruct (Z.leb_spec room p); [lia|].
    set (b := if 1 <? chunk then (if pcut <=? p then blk - 1 else blk) * Z.min chunk dim
              else (if pcut <=? p then blk - 1 else blk)).
    assert (b = (if pcut <=? p then blk - 1 else blk) * c) as Eb
      by (unfold b, c; destruct (1 <? chunk); lia).
    assert (1 <= c) as Hc by (unfold c; destruct (Z.ltb_spec 1 chunk); lia).
    assert (blk = 1 -> p < pcut) as Hpc.
    { intros E. specialize (Hb1 E). specialize (Hcut E). subst i. nia. }
    assert (1 <= b) as Hb.
    { rewrite Eb. destruct (Z.leb_spec pcut p); nia. }
    destruct (IH (p + 1) (i + b)) as (m & E & HL & Hhd & Hmono & Hle); try lia.
    { intros E1. specialize (Hb1 E1). specialize (Hpc E1). rewrite Eb.
      destruct (Z.leb_spec pcut p); nia. }
    rewrite E. exists (i + 1 :: m). split; [auto|]. split; [cbn; lia|].
    split; [eauto|]. split.
    + intros k Hk. destruct k as [|k].
      * cbn [nth Nat.add]. destruct m as [|a m]; [cbn in Hk; lia|].
        destruct (Z.lt_ge_cases (p + 1) pe).
        2:{ cbn in HL. lia. }
        destruct (Z.lt_ge_cases (i + b) dim).
        -- destruct Hhd as (m' & [= -> _]); auto. cbn. lia.
        -- exfalso. destruct f; cbn [map_loop] in E.
           ++ destruct (Z.ltb_spec (p + 1) pe); [|lia]. destruct (Z.ltb_spec (i + b) dim); [lia|].
              cbn in E. discriminate.
           ++ destruct (Z.ltb_spec (p + 1) pe); [|lia]. destruct (Z.ltb_spec (i + b) dim); [lia|].
              cbn in E. discriminate.
      * change (nth (S k) (i + 1 :: m) 0) with (nth k m 0).
        change (nth (S k + 1) (i + 1 :: m) 0) with (nth (k + 1) m 0). apply Hmono. cbn in Hk. lia.
    + intros [|k] Hk; cbn [nth]; [lia|]. apply Hle. cbn in Hk. lia.
Qed.
End MapLoop.

Definition chunk_unit (d c : Z) : Z := if 1 <? c then Z.min c d else 1.
Definition pcut_of (d c b p : Z) : Z :=
  if 1 <? c then (d - 1) / Z.min c d + 1 - (b - 1) * p else d - (b - 1) * p.

Lemma pcut_unit d c p : 1 <= d -> d <= pcut_of d c 1 p * chunk_unit d c.
Proof.
  intros Hd. unfold pcut_of, chunk_unit. destruct (Z.ltb_spec 1 c); [|lia].
  pose proof (Z.div_mod (d - 1) (Z.min c d) ltac:(lia)).
  pose proof (Z.mod_pos_bound (d - 1) (Z.min c d) ltac:(lia)). nia.
Qed.

Lemma one_map d c b p room : 1 <= d -> 1 <= b -> 1 <= p -> p <= room ->
  exists m, map_loop (Z.to_nat p) d p b c (pcut_of d c b p) room 0 0 = Some m /\
    Z.of_nat (length m) <= p /\ strict_map d (Z.of_nat (length m)) m.
Proof.
  intros Hd Hb Hp Hr.
  destruct (map_loop_spec d p b c (pcut_of d c b p) room) with (fuel := Z.to_nat p) (p := 0) (i := 0)
    as (m & E & HL & Hhd & Hmono & Hle); auto; try lia.
  - intros ->. apply pcut_unit; auto.
  - intros ->. pose proof (pcut_unit d c p Hd). fold (chunk_unit d c).
    assert (1 <= chunk_unit d c) by (unfold chunk_unit; destruct (Z.ltb_spec 1 c); lia).
    assert (0 <= pcut_of d c 1 p) by nia. lia.
  - exists m. split; auto. split; [lia|].
    destruct Hhd as (m' & Em); try lia.
    repeat split.
    + subst m. cbn. lia.
    + lia.
    + subst m. reflexivity.
    + intros i Hi. apply Hmono. lia.
    + apply Hle. subst m. cbn. lia.
Qed.

Lemma strict_map_app d n m m2 : strict_map d n m -> n = Z.of_nat (length m) -> strict_map d n (m ++ m2).
Proof.
  intros (H1 & H2 & H3 & H4 & H5) E. repeat split; auto.
  - rewrite app_length. lia.
  - rewrite app_nth1 by lia. auto.
  - intros i Hi. rewrite !app_nth1 by lia. auto.
  - rewrite app_nth1 by lia. auto.
Qed.

Lemma default_maps_spec ds cs bs ps room :
  length cs = length ds -> length bs = length ds -> length ps = length ds ->
  Forall (fun d => 1 <= d) ds -> Forall (fun b => 1 <= b) bs -> Forall (fun p => 1 <= p) ps ->
  zsum ps <= room ->
  exists nb m, default_maps ds cs bs ps room = Some (nb, m) /\
    strict_maps ds nb m /\ Forall2 Z.le nb ps /\ Z.of_nat (length m) = zsum nb.
Proof.
  intros H1 H2 H3 HD; revert cs bs ps room H1 H2 H3.
  induction HD as [|d ds Hd HD IH]; intros [|c cs] [|b bs] [|p ps] room H1 H2 H3 HB HP HR; try discriminate.
  - exists [], []. cbn. auto.
  - inversion_clear HB as [|? ? Hb HB']. inversion_clear HP as [|? ? Hp HP'].
    cbn [zsum] in HR. pose proof (zsum_nonneg _ HP') as Hnn.
    cbn [default_maps]. fold (pcut_of d c b p).
    destruct (one_map d c b p room) as (m & -> & HL & HS); try lia.
    rewrite Z.min_r by lia.
    destruct (IH cs bs ps (room - Z.of_nat (length m))) as (nb & m2 & -> & HS2 & HF & HL2); auto; try lia.
    exists (Z.of_nat (length m) :: nb), (m ++ m2). split; [reflexivity|].
    split; [|split].
    + cbn [strict_maps]. split; [apply strict_map_app; auto|].
      rewrite Nat2Z.id, skipn_app, skipn_all, Nat.sub_diag. auto.
    + constructor; auto.
    + rewrite app_length. cbn [zsum]. lia.
Qed.

Lemma zprod_ge1 l : Forall (fun p => 1 <= p) l -> 1 <= zprod l.
Proof. induction 1; cbn; nia. Qed.

Lemma zsum_le_zprod l : Forall (fun p => 1 <= p) l -> l <> [] ->
  zsum l <= zprod l + Z.of_nat (length l) - 1.
Proof.
  induction 1 as [|p l Hp HF IH]; [congruence|]. intros _. destruct l as [|q l].
  - cbn. lia.
  - pose proof (zprod_ge1 _ HF) as Hpr. specialize (IH ltac:(discriminate)).
    cbn [zsum zprod length] in *. set (P := q * zprod l) in *. nia.
Qed.

Lemma zprod_le a b : Forall (fun p => 1 <= p) a -> Forall2 Z.le a b -> zprod a <= zprod b.
Proof.
  intros HA HF; induction HF as [|x y a b Hxy HF IH]; cbn; [lia|].
  inversion_clear HA as [|? ? Hx HA']. specialize (IH HA'). pose proof (zprod_ge1 _ HA'). nia.
Qed.

(** C03 *)
Lemma initial_blk_length ds cs : length cs = length ds -> length (initial_blk ds cs) = length ds.
Proof. intros H. unfold initial_blk. rewrite map_length, combine_length. lia. Qed.

Lemma default_distribution_spec wlt ganproc maxdim npes ds cs :
  ds <> [] -> Z.of_nat (length ds) <= maxdim -> length cs = length ds ->
  Forall (fun d => 1 <= d) ds -> 1 <= npes <= ganproc ->
  exists nb m, default_distribution wlt ganproc maxdim npes ds cs = Some (nb, m) /\
    strict_maps ds nb m /\ zprod nb <= npes /\ Z.of_nat (length m) = zsum nb /\
    Forall2 Z.le nb (fst (ddb_h2 wlt ds npes (initial_blk ds cs))).
Proof.
  intros Hne Hmax HL HD Hn. unfold default_distribution.
  destruct (ddb_h2_spec wlt ds npes (initial_blk ds cs)) as (L1 & L2 & HP & HF & HB); auto; try lia.
  { apply initial_blk_length; auto. }
  destruct (ddb_h2 wlt ds npes (initial_blk ds cs)) as [pe bk]. cbn [fst snd] in *.
  destruct (default_maps_spec ds cs bk pe (ganproc + maxdim - 1)) as (nb & m & E & HS & HF2 & HLm); auto; try lia.
  - apply Forall_forall. intros b Hb. apply In_nth with (d := 0) in Hb. destruct Hb as (i & Hi & <-).
    rewrite HB by lia. pose proof (tard_of_pos (nth i ds 0) (nth i (initial_blk ds cs) 0)) as Ht.
    assert (1 <= nth i pe 0) as Hp. { rewrite Forall_forall in HF. apply HF, nth_In. lia. }
    set (t := tard_of _ _) in *. set (q := nth i pe 0) in *. clearbody t q.
    apply Z.div_le_lower_bound; lia.
  - pose proof (zsum_le_zprod pe HF) as Hs. destruct pe; [destruct ds; cbn in *; congruence|].
    specialize (Hs ltac:(discriminate)). rewrite HP in Hs. lia.
  - exists nb, m. split; auto. split; auto. split; [|auto].
    rewrite <- HP. apply zprod_le; auto. eapply strict_maps_len; eauto.
Qed.

(** ---- closed form, balance, chunk multiples ---- *)
Definition start_at (c blk pcut k : Z) : Z :=
  c * (Z.min k pcut * blk + Z.max 0 (k - pcut) * (blk - 1)).

Lemma map_loop_closed dim pe blk chunk pcut room fuel p m :
  0 <= p -> 0 <= pcut ->
  map_loop fuel dim pe blk chunk pcut room p (start_at (chunk_unit dim chunk) blk pcut p) = Some m ->
  (forall k, (k < length m)%nat ->
     nth k m 0 = start_at (chunk_unit dim chunk) blk pcut (p + Z.of_nat k) + 1) /\
  (pe <= p + Z.of_nat (length m) \/
   dim <= start_at (chunk_unit dim chunk) blk pcut (p + Z.of_nat (length m))).
Proof.
  intros Hp Hc. revert p m Hp; induction fuel as [|f IH]; intros p m Hp; cbn [map_loop].
  - destruct (Z.ltb_spec p pe); destruct (Z.ltb_spec (start_at (chunk_unit dim chunk) blk pcut p) dim);
      cbn [andb]; intros [= <-]; cbn [length]; (split; [intros k Hk; lia|]);
      rewrite Z.add_0_r; auto.
  - destruct (Z.ltb_spec p pe); [destruct (Z.ltb_spec (start_at (chunk_unit dim chunk) blk pcut p) dim)|];
      cbn [andb]; try (intros [= <-]; cbn [length]; (split; [intros k Hk; lia|]); rewrite Z.add_0_r; auto; fail).
    destruct (Z.leb_spec room p); [discriminate|].
    match goal with |- context [map_loop f dim pe blk chunk pcut room (p + 1) ?i] =>
      assert (i = start_at (chunk_unit dim chunk) blk pcut (p + 1)) as -> end.
    { replace (if 1 <? chunk then (if pcut <=? p then blk - 1 else blk) * Z.min chunk dim
               else (if pcut <=? p then blk - 1 else blk))
        with ((if pcut <=? p then blk - 1 else blk) * chunk_unit dim chunk)
        by (unfold chunk_unit; destruct (1 <? chunk); ring).
      generalize (chunk_unit dim chunk). intros u. unfold start_at. destruct (Z.leb_spec pcut p).
      - rewrite !Z.min_r, !Z.max_r by lia. ring.
      - rewrite !Z.min_l, !Z.max_l by lia. ring. }
    destruct (map_loop f dim pe blk chunk pcut room (p + 1) _) as [m'|] eqn:E; [|discriminate].
    intros [= <-]. apply IH in E; [|lia]. destruct E as [E1 E2]. split.
    + intros [|k] Hk; cbn [nth].
      * rewrite Z.add_0_r. auto.
      * rewrite E1 by (cbn in Hk; lia). do 2 f_equal. lia.
    + cbn [length]. replace (p + Z.of_nat (S (length m'))) with (p + 1 + Z.of_nat (length m')) by lia. auto.
Qed.

Definition ceil_div (a b : Z) : Z := (a + b - 1) / b.

Lemma ceil_div_spec a b : 1 <= a -> 1 <= b ->
  1 <= ceil_div a b /\ (ceil_div a b - 1) * b < a <= ceil_div a b * b.
Proof.
  intros Ha Hb. unfold ceil_div. pose proof (Z.div_mod (a + b - 1) b ltac:(lia)).
  pose proof (Z.mod_pos_bound (a + b - 1) b ltac:(lia)).
  split; [apply Z.div_le_lower_bound; lia|]. nia.
Qed.

Lemma one_map_shape d c p room m :
  1 <= d -> 1 <= p -> p <= room ->
  let u := chunk_unit d c in let D := ceil_div d u in let b := ceil_div D p in
  map_loop (Z.to_nat p) d p b c (pcut_of d c b p) room 0 0 = Some m ->
  let n := Z.of_nat (length m) in
  n = Z.min p D /\
  forall i, 0 <= i < n - 1 -> bsize d n m i = u * b \/ (bsize d n m i = u * (b - 1)).
Proof.
  intros Hd Hp Hr u D b E n.
  assert (1 <= u <= d) as Hu by (unfold u, chunk_unit; destruct (Z.ltb_spec 1 c); lia).
  destruct (ceil_div_spec d u) as [HD1 HD2]; try lia. fold D in HD1, HD2.
  destruct (ceil_div_spec D p) as [Hb1 Hb2]; try lia. fold b in Hb1, Hb2.
  assert (pcut_of d c b p = D - (b - 1) * p) as Epc.
  { unfold pcut_of. unfold D, u, ceil_div, chunk_unit. destruct (Z.ltb_spec 1 c).
    - f_equal. replace (d + Z.min c d - 1) with (d - 1 + 1 * Z.min c d) by lia. rewrite Z.div_add by lia. lia.
    - rewrite Z.div_1_r. lia. }
  assert (0 < pcut_of d c b p <= p) as Hpc by nia.
  set (pc := pcut_of d c b p) in *.
  assert (0 = start_at (chunk_unit d c) b pc 0) as E0 by (unfold start_at; rewrite Z.min_l, Z.max_l by lia; ring).
  rewrite E0 in E at 2.
  destruct (one_map d c b p room) as (m0 & Em0 & HL & HS); try lia.
  fold pc in Em0. rewrite E0 in Em0 at 2. rewrite E in Em0. injection Em0 as <-.
  apply map_loop_closed in E; try lia. destruct E as [E1 E2]. fold u in E1, E2.
  destruct HS as (Hn1 & _ & _ & Hmono & Hlast). fold n in Hn1, HL, Hlast.
  assert (n = Z.min p D) as En.
  { assert (forall k, 0 <= k < Z.min p D -> start_at u b pc k < d) as Hlt.
    { intros k Hk. unfold start_at. destruct (Z.le_gt_cases k pc).
      - rewrite Z.min_l, Z.max_l by lia. assert (k * b <= D - 1); [|nia].
        destruct (Z.eq_dec b 1) as [->|]; [lia|]. nia.
      - rewrite Z.min_r, Z.max_r by lia. assert (pc * b + (k - pc) * (b - 1) <= D - 1); [|nia].
        destruct (Z.eq_dec b 1) as [Eb|]; [|nia]. assert (pc = D) by nia. lia. }
    destruct (Z.le_gt_cases (Z.min p D) n) as [L|L].
    - destruct (Z.le_gt_cases n D) as [L2|L2]; [lia|]. exfalso.
      (* more than D blocks: the (D+1)-th start is at least D*u >= d *)
      specialize (E1 (Z.to_nat D) ltac:(lia)). rewrite Z2Nat.id in E1 by lia.
      assert (b = 1) by nia. assert (pc = D) by nia.
      unfold start_at in E1. rewrite Z.min_r, Z.max_r in E1 by lia.
      assert (nth (Z.to_nat D) m 0 <= d).
      { assert (forall j, (j < length m)%nat -> nth j m 0 <= nth (length m - 1) m 0) as Hmm.
        { intros j Hj. remember (length m - 1 - j)%nat as t eqn:Et. revert j Hj Et.
          induction t as [|t IHt]; intros j Hj Et.
          - replace (length m - 1)%nat with j by lia. lia.
          - specialize (IHt (S j) ltac:(lia) ltac:(lia)). specialize (Hmono j ltac:(lia)).
            replace (j + 1)%nat with (S j) in Hmono by lia. lia. }
        specialize (Hmm (Z.to_nat D) ltac:(lia)). unfold n in Hlast. rewrite Nat2Z.id in Hlast. lia. }
      nia.
    - exfalso. destruct E2 as [E2|E2]; [lia|]. specialize (Hlt n ltac:(lia)).
      rewrite Z.add_0_l in E2. fold n in E2. lia. }
  split; [exact En|].
  intros i Hi. unfold bsize. destruct (Z.eqb_spec i (n - 1)); [lia|].
  rewrite !E1 by lia. rewrite !Z.add_0_l, !Z2Nat.id by lia. unfold start_at.
  destruct (Z.lt_ge_cases i pc).
  - left. rewrite !Z.min_l, !Z.max_l by lia. ring.
  - right. rewrite !Z.min_r, !Z.max_r by lia. ring.
Qed.

(** Without chunk hints the last block too has one of the two sizes. *)
Lemma one_map_balanced d c p room m :
  1 <= d -> 1 <= p -> p <= room -> c <= 1 ->
  let b := ceil_div d p in
  map_loop (Z.to_nat p) d p b c (pcut_of d c b p) room 0 0 = Some m ->
  let n := Z.of_nat (length m) in
  n = Z.min p d /\
  forall i, 0 <= i < n -> bsize d n m i = b \/ bsize d n m i = b - 1.
Proof.
  intros Hd Hp Hr Hc b E n.
  assert (chunk_unit d c = 1) as Hu by (unfold chunk_unit; destruct (Z.ltb_spec 1 c); lia).
  assert (ceil_div d (chunk_unit d c) = d) as HD by (rewrite Hu; unfold ceil_div; rewrite Z.div_1_r; lia).
  pose proof (one_map_shape d c p room m Hd Hp Hr) as S. cbv zeta in S. rewrite HD, Hu in S.
  destruct (S E) as [En Hs]. fold n in En, Hs. split; [exact En|].
  intros i Hi. destruct (Z.eq_dec i (n - 1)) as [->|].
  2:{ destruct (Hs i ltac:(lia)); lia. }
  unfold bsize. destruct (Z.eqb_spec (n - 1) (n - 1)); [|lia].
  destruct (ceil_div_spec d p) as [Hb1 Hb2]; try lia. fold b in Hb1, Hb2.
  set (pc := pcut_of d c b p) in *.
  assert (pc = d - (b - 1) * p) as Epc by (unfold pc, pcut_of; destruct (Z.ltb_spec 1 c); lia).
  assert (0 = start_at (chunk_unit d c) b pc 0) as E0
    by (unfold start_at; rewrite Z.min_l, Z.max_l by nia; ring).
  rewrite E0 in E at 2. apply map_loop_closed in E; try nia. destruct E as [E1 _].
  rewrite (E1 (Z.to_nat (n - 1))) by (unfold n in *; lia).
  rewrite Hu, Z.add_0_l, Z2Nat.id by lia. unfold start_at.
  destruct (Z.le_gt_cases p d) as [L|L].
  - replace n with p by lia. destruct (Z.eq_dec pc p) as [E|].
    + rewrite Z.min_l, Z.max_l by lia. left. nia.
    + rewrite Z.min_r, Z.max_r by nia. right. nia.
  - assert (b = 1) by nia. replace n with d by lia. left. rewrite Z.min_l, Z.max_l by nia. nia.
Qed.

Lemma bsize_app d m m2 i : 0 <= i < Z.of_nat (length m) ->
  bsize d (Z.of_nat (length m)) (m ++ m2) i = bsize d (Z.of_nat (length m)) m i.
Proof.
  intros Hi. unfold bsize.
  destruct (Z.eqb_spec i (Z.of_nat (length m) - 1)); rewrite ?app_nth1 by lia; auto.
Qed.

Lemma bsize_pos d n m i : strict_map d n m -> 0 <= i < n -> 1 <= bsize d n m i.
Proof.
  intros (H1 & H2 & H3 & H4 & H5) Hi. unfold bsize. destruct (Z.eqb_spec i (n - 1)).
  - subst i. replace (Z.to_nat (n - 1)) with (Z.to_nat n - 1)%nat by lia. lia.
  - specialize (H4 (Z.to_nat i) ltac:(lia)).
    replace (Z.to_nat (i + 1)) with (Z.to_nat i + 1)%nat by lia. lia.
Qed.

Definition axis_shape (first : Z) (d c n : Z) (m : list Z) : Prop :=
  (c <= 1 -> balanced d n m) /\ (1 < c -> first <> 0 -> multiples (Z.min c d) d n m).

Lemma tard_initial d c first : 1 <= d ->
  (c <= 1 \/ first <> 0) ->
  tard_of d (if d =? 1 then 1 else if first =? 0 then -1 else Z.min c d) = ceil_div d (chunk_unit d c).
Proof.
  intros Hd Hc. unfold tard_of.
  assert (clamp_blk (if d =? 1 then 1 else if first =? 0 then -1 else Z.min c d) = chunk_unit d c) as ->.
  { unfold clamp_blk, chunk_unit. destruct (Z.eqb_spec d 1), (Z.eqb_spec first 0), (Z.ltb_spec 1 c);
      repeat match goal with |- context [?a <? ?b] => destruct (Z.ltb_spec a b) end; lia. }
  assert (1 <= chunk_unit d c <= d) by (unfold chunk_unit; destruct (Z.ltb_spec 1 c); lia).
  destruct (ceil_div_spec d (chunk_unit d c)) as [H1 _]; try lia. unfold ceil_div in *.
  destruct (Z.ltb_spec ((d + chunk_unit d c - 1) / chunk_unit d c) 1); lia.
Qed.

Lemma default_maps_shape first ds cs ps room nb m :
  Forall (fun d => 1 <= d) ds -> Forall (fun p => 1 <= p) ps -> zsum ps <= room ->
  default_maps ds cs
    (map (fun p => (fst p + snd p - 1) / snd p)
       (combine (map (fun p => tard_of (fst p) (snd p))
          (combine ds (map (fun p => if fst p =? 1 then 1 else if first =? 0 then -1 else Z.min (snd p) (fst p))
                          (combine ds cs)))) ps)) ps room = Some (nb, m) ->
  each_axis (axis_shape first) ds cs nb m.
Proof.
  intros HD; revert cs ps room nb m; induction HD as [|d ds Hd HD IH]; intros [|c cs] [|p ps] room nb m HP HR;
    cbn [combine map default_maps fst snd]; try discriminate.
  { intros [= <- <-]. exact I. }
  inversion_clear HP as [|? ? Hp HP']. cbn [zsum] in HR. pose proof (zsum_nonneg _ HP') as Hnn.
  match goal with |- context [(tard_of d ?b + p - 1) / p] => set (t := tard_of d b) end.
  set (b := (t + p - 1) / p). fold (pcut_of d c b p).
  assert (1 <= b) as Hb.
  { unfold b. assert (1 <= t) by apply tard_of_pos. apply Z.div_le_lower_bound; lia. }
  destruct (one_map d c b p room) as (m0 & E0 & HL & HS); try lia. rewrite E0. rewrite Z.min_r by lia.
  match goal with |- context [default_maps ds cs ?x ps ?r] => destruct (default_maps ds cs x ps r) as [[nb' m']|] eqn:E end;
    [|discriminate].
  cbn [fst snd]. intros [= <- <-]. cbn [each_axis]. split.
  - split.
    + intros Hc. assert (t = ceil_div d (chunk_unit d c)) as Et by (apply tard_initial; auto).
      assert (chunk_unit d c = 1) as Hu by (unfold chunk_unit; destruct (Z.ltb_spec 1 c); lia).
      assert (b = ceil_div d p) as Eb.
      { unfold b. rewrite Et, Hu. unfold ceil_div. rewrite Z.div_1_r. do 2 f_equal. lia. }
      rewrite Eb in E0.
      destruct (one_map_balanced d c p room m0 Hd Hp ltac:(lia) Hc E0) as [_ Hs].
      intros i j Hi Hj. rewrite !bsize_app by lia.
      destruct (Hs i Hi), (Hs j Hj); lia.
    + intros Hc Hf. assert (t = ceil_div d (chunk_unit d c)) as Et by (apply tard_initial; auto).
      assert (chunk_unit d c = Z.min c d) as Hu by (unfold chunk_unit; destruct (Z.ltb_spec 1 c); lia).
      assert (b = ceil_div (ceil_div d (chunk_unit d c)) p) as Eb by (unfold b; rewrite Et; reflexivity).
      rewrite Eb in E0.
      destruct (one_map_shape d c p room m0 Hd Hp ltac:(lia) E0) as [_ Hs].
      intros i Hi. rewrite !bsize_app by lia.
      pose proof (bsize_pos _ _ _ i HS ltac:(lia)) as Hpos.
      rewrite <- Eb, Hu in Hs.
      assert (1 <= Z.min c d) as Hu1 by lia. revert Hs Hu1. generalize (Z.min c d). intros u Hs Hu1.
      clearbody b. clear - Hs Hu1 Hi Hpos Hb.
      destruct (Hs i Hi) as [Es|Es]; rewrite Es in *.
      * split; [exists b; ring|]. nia.
      * split; [exists (b - 1); ring|]. assert (2 <= b) by (destruct (Z.eq_dec b 1); [subst b; nia|lia]). nia.
  - rewrite Nat2Z.id, skipn_app, skipn_all, Nat.sub_diag. cbn.
    eapply IH; [exact HP'| |exact E]. lia.
Qed.

Lemma default_distribution_shape wlt ganproc maxdim npes ds cs nb m :
  ds <> [] -> Z.of_nat (length ds) <= maxdim -> length cs = length ds ->
  Forall (fun d => 1 <= d) ds -> 1 <= npes <= ganproc ->
  default_distribution wlt ganproc maxdim npes ds cs = Some (nb, m) ->
  each_axis (axis_shape (nth 0 cs 0)) ds cs nb m.
Proof.
  intros Hne Hmax HL HD Hn E. unfold default_distribution in E.
  destruct (ddb_h2_spec wlt ds npes (initial_blk ds cs)) as (L1 & L2 & HP & HF & HB); auto; try lia.
  { apply initial_blk_length; auto. }
  unfold ddb_h2 in *. cbn [fst snd] in *. unfold initial_blk in E at 1.
  eapply default_maps_shape; [exact HD| | |exact E]; auto.
  pose proof (zsum_le_zprod _ HF) as Hs.
  match type of Hs with ?l <> [] -> _ => assert (l <> []) as Hne2 by (intros E'; rewrite E' in L1; destruct ds; cbn in *; congruence) end.
  specialize (Hs Hne2). rewrite HP, L1 in Hs. lia.
Qed.
