(** Lemmas on pnga_bin_index: counts, puts and the final array. *)
From Verif Require Import SpecBin MNb MHandle MSort MBin LRadix LNb LIterBC LIterBlk LStore LSparse LBin.
From Coq Require Import Permutation.

Lemma laid_ext off off' x x' l : forall o, (forall q, In q l -> off q = off' q /\ x q = x' q) -> laid off x o l -> laid off' x' o l.
Proof.
  induction l as [|q l IH]; intros o H A; [exact A|]. destruct A as [A1 A2]. destruct (H q (or_introl eq_refl)) as [E1 E2]. cbn [laid]. split; [congruence|].
  rewrite <- E2. apply IH; [|exact A2]. intros p P. apply H. right. exact P.
Qed.
Lemma zsum_ge l : Forall (fun a => 0 <= a) l -> 0 <= zsum l.
Proof. induction 1; cbn [zsum]; lia. Qed.
Lemma laid_range off x l : forall o, (forall q, In q l -> 0 <= x q) -> laid off x o l -> forall q, In q l -> o <= off q /\ off q + x q <= o + zsum (map x l).
Proof.
  induction l as [|a l IH]; intros o X A q Q; [destruct Q|]. destruct A as [A1 A2]. cbn [map zsum].
  assert (0 <= zsum (map x l)) as ZN. { apply zsum_ge. apply Forall_forall. intros y Y. apply in_map_iff in Y. destruct Y as (z & <- & ZI). apply X. right. exact ZI. }
  pose proof (X a (or_introl eq_refl)). destruct Q as [<-|Q]; [lia|].
  destruct (IH (o + x a) (fun q H => X q (or_intror H)) A2 q Q). lia.
Qed.
Lemma laid_cover off x l : forall o t, laid off x o l -> o <= t < o + zsum (map x l) -> exists q, In q l /\ off q <= t < off q + x q.
Proof.
  induction l as [|a l IH]; intros o t A T; cbn [map zsum] in T; [lia|]. destruct A as [A1 A2]. destruct (Z_lt_dec t (o + x a)).
  - exists a. split; [left; reflexivity|lia].
  - destruct (IH (o + x a) t A2 ltac:(lia)) as (q & Q & C). exists q. split; [right; exact Q|exact C].
Qed.
Lemma laid_apart off x l : forall o, NoDup l -> (forall q, In q l -> 0 <= x q) -> laid off x o l -> 
  forall p q t, In p l -> In q l -> off p <= t < off p + x p -> off q <= t < off q + x q -> p = q.
Proof.
  induction l as [|a l IH]; intros o ND X A p q t P Q TP TQ; [destruct P|]. inversion ND as [|? ? NI ND']; subst. pose proof (laid_range off x l) as LR. destruct A as [A1 A2].
  specialize (LR (o + x a) (fun q H => X q (or_intror H)) A2). destruct P as [<-|P], Q as [<-|Q]; [reflexivity| | |].
  - destruct (LR q Q). lia.
  - destruct (LR p P). lia.
  - apply (IH (o + x a) ND' (fun q H => X q (or_intror H)) A2 p q t); assumption.
Qed.
Lemma sum_from_zsum f l n : sum_from Z.add 0 f l n = zsum (map f (zseq l n)).
Proof.
  induction n as [|n IH]; [reflexivity|]. cbn [sum_from]. rewrite IH. replace (S n) with (n + 1)%nat by lia. rewrite zseq_app, map_app, zsum_app. cbn [zseq map zsum]. lia.
Qed.
Lemma sum_perm f nproc ps : 0 <= nproc -> all_procs nproc ps -> zsum (map f ps) = sum_of Z.add 0 f 0 (nproc - 1).
Proof. intros N H. unfold sum_of. rewrite sum_from_zsum. replace (nproc - 1 - 0 + 1) with nproc by lia. apply zsum_perm. apply Permutation_map. exact H. Qed.

(** * Counts *)
Lemma count_bins_spec nbin subs : nbin < 2 ^ 31 -> forall c, Forall (fun s => 1 <= s <= nbin) subs ->
  exists d, count_bins nbin subs c = Done d /\ forall b, d b = c b + Z.of_nat (length (filter (fun s => s =? b) subs)).
Proof.
  intros NB. induction subs as [|s l IH]; intros c F; cbn [count_bins].
  - exists c. split; [reflexivity|]. intros b. cbn. lia.
  - inversion F as [|? ? F1 F2]; subst. assert (wrap32 s = s) as ->. { unfold wrap32. rewrite Z.mod_small; lia. }
    destruct (Z.ltb_spec s 1); [lia|]. destruct (Z.ltb_spec nbin s); [lia|]. cbn [orb].
    destruct (IH (fset c s (c s + 1)) F2) as (d & -> & D). exists d. split; [reflexivity|]. intros b. rewrite D. cbn [filter].
    destruct (Z.eqb_spec s b) as [->|NE]; [rewrite fset_same; cbn [length]; lia|rewrite fset_other by lia; reflexivity].
Qed.
Lemma filter_map_len b (l : list (Z * Z)) : length (filter (fun s => s =? b) (map fst l)) = length (vals_of b l).
Proof. unfold vals_of. rewrite map_length. induction l as [|a l IH]; [reflexivity|]. cbn [map filter]. destruct (fst a =? b); cbn [length]; rewrite IH; reflexivity. Qed.

(** * Runs of a sorted list *)
Lemma by_bin_cons a l : by_bin (a :: l) -> Forall (fun e => fst a <= fst e) l /\ by_bin l.
Proof.
  intros H. split.
  - apply Forall_forall. intros e E. destruct (In_nth l e (0, 0) E) as (k & K & <-). apply (H O (S k)); cbn [length]; lia.
  - intros i j IJ J. apply (H (S i) (S j)); cbn [length]; lia.
Qed.
Lemma by_bin_skip k : forall l, by_bin l -> by_bin (skipn k l).
Proof. induction k as [|k IH]; intros l H; [exact H|]. destruct l as [|a l]; [exact H|]. cbn [skipn]. apply IH. apply (by_bin_cons a l H). Qed.
Lemma sorted_run b : forall suf, by_bin suf -> Forall (fun e => b <= fst e) suf ->
  let k := length (filter (fun e => fst e =? b) suf) in
  firstn k suf = filter (fun e => fst e =? b) suf /\ Forall (fun e => b < fst e) (skipn k suf).
Proof.
  induction suf as [|a l IH]; intros S F; [split; [reflexivity|constructor]|].
  destruct (by_bin_cons a l S) as [S1 S2]. inversion F as [|? ? F1 F2]; subst. cbn [filter]. destruct (Z.eqb_spec (fst a) b) as [E|NE].
  - cbn [length firstn skipn]. destruct (IH S2 F2) as [A B]. split; [f_equal; exact A|exact B].
  - assert (filter (fun e => fst e =? b) l = []) as ->.
    { assert (forall m : list (Z * Z), Forall (fun e => b < fst e) m -> filter (fun e => fst e =? b) m = []) as G.
      { induction 1 as [|e m E1 E2 IM]; [reflexivity|]. cbn [filter]. destruct (Z.eqb_spec (fst e) b); [lia|exact IM]. }
      apply G. eapply Forall_impl; [|exact S1]. intros e E. cbn beta in *. lia. }
    cbn [length firstn skipn]. split; [reflexivity|]. constructor; [lia|]. eapply Forall_impl; [|exact S1]. intros e E. cbn beta in *. lia.
Qed.

(** * The puts of one process *)
Section place.
Context (ty : bin_type) (TY : ty <> B_int) (nbin noff : Z) (goff cnt off : Z -> Z) (l : list (Z * Z)).
Hypothesis CN : forall b, cnt b = share b l.
Hypothesis OK : forall b, In b (map fst l) -> 1 <= b <= nbin /\ b <= noff /\ 0 <= goff b + off b /\ goff b + off b + share b l <= nbin.
Definition the_put (b : Z) : Z * list Z := (goff b + off b + 1, vals_of b l).
Lemma place_spec : forall fuel pre suf, l = pre ++ suf -> by_bin suf -> (forall e f, In e pre -> In f suf -> fst e < fst f) -> (length suf <= fuel)%nat ->
  exists bs, place_bins ty nbin noff goff cnt off (map fst l) (map snd l) fuel (Z.of_nat (length pre)) = Done (map the_put bs) /\
    NoDup bs /\ (forall b, In b bs <-> In b (map fst suf)).
Proof.
  induction fuel as [|f IH]; intros pre suf E S A F.
  - destruct suf; [|cbn in F; lia]. exists []. split; [reflexivity|]. split; [constructor|]. intros b. tauto.
  - cbn [place_bins]. rewrite map_length. destruct suf as [|[b v] suf'].
    { rewrite app_nil_r in E. subst pre. destruct (Z.ltb_spec (Z.of_nat (length l)) (Z.of_nat (length l))); [lia|]. exists []. split; [reflexivity|]. split; [constructor|]. intros b. tauto. }
    set (suf := (b, v) :: suf') in *.
    assert (length l = (length pre + length suf)%nat) as LL by (rewrite E; apply app_length).
    assert (1 <= length suf)%nat as LS by (cbn; lia).
    destruct (Z.ltb_spec (Z.of_nat (length pre)) (Z.of_nat (length l))); [|lia]. cbv zeta. rewrite Nat2Z.id.
    assert (nth (length pre) (map fst l) 0 = b) as ->.
    { rewrite E, map_app, app_nth2 by (rewrite map_length; lia). rewrite map_length, Nat.sub_diag. reflexivity. }
    assert (In b (map fst l)) as IB. { rewrite E, map_app. apply in_or_app. right. left. reflexivity. }
    destruct (OK b IB) as (O1 & O2 & O3 & O4). rewrite CN.
    assert (Forall (fun e => b <= fst e) suf) as GE. { constructor; [cbn; lia|]. destruct (by_bin_cons _ _ S) as [X _]. exact X. }
    destruct (sorted_run b suf S GE) as [R1 R2].
    assert (filter (fun e => fst e =? b) l = filter (fun e => fst e =? b) suf) as FE.
    { rewrite E, filter_app. replace (filter (fun e => fst e =? b) pre) with (@nil (Z * Z)); [reflexivity|]. symmetry.
      assert (forall m : list (Z * Z), (forall e, In e m -> fst e < b) -> filter (fun e => fst e =? b) m = []) as G.
      { induction m as [|e m IM]; intros H1; [reflexivity|]. cbn [filter]. destruct (Z.eqb_spec (fst e) b) as [EB|]; [specialize (H1 e (or_introl eq_refl)); lia|].
        apply IM. intros e' E'. apply H1. right. exact E'. }
      apply G. intros e EI. apply (A e (b, v) EI). left. reflexivity. }
    set (k := length (filter (fun e => fst e =? b) suf)) in *.
    assert (share b l = Z.of_nat k) as SK. { unfold share, vals_of. rewrite map_length, FE. reflexivity. }
    assert (1 <= k)%nat as K1. { unfold k, suf. cbn [filter fst]. rewrite Z.eqb_refl. cbn [length]. lia. }
    assert (k <= length suf)%nat as K2. { rewrite <- (firstn_skipn k suf), app_length, R1. fold k. lia. }
    clearbody k. rewrite SK in *.
    destruct (Z.ltb_spec b 1); [lia|]. destruct (Z.ltb_spec nbin b); [lia|]. cbn [orb]. destruct (Z.ltb_spec noff b); [lia|].
    destruct (Z.ltb_spec nbin (goff b + off b + 1)); [lia|]. destruct (Z.ltb_spec (goff b + off b + 1) 1); [lia|].
    destruct (Z.ltb_spec (goff b + off b + 1 + Z.of_nat k - 1) (goff b + off b + 1)); [lia|].
    destruct (Z.ltb_spec nbin (goff b + off b + 1 + Z.of_nat k - 1)); [lia|]. cbn [orb].
    assert (skipn (length pre) (map snd l) = map snd suf) as SV.
    { rewrite E, map_app. rewrite <- (map_length snd pre). rewrite skipn_app, skipn_all, Nat.sub_diag. reflexivity. }
    assert (as_elems ty (skipn (length pre) (map snd l)) = map snd suf) as ->. { rewrite SV. destruct ty; [congruence|reflexivity|reflexivity]. }
    rewrite map_length. destruct (Z.ltb_spec (Z.of_nat (length suf)) (Z.of_nat k)); [lia|].
    destruct (IH (pre ++ firstn k suf) (skipn k suf)) as (bs & P & ND & BI).
    + rewrite <- app_assoc, firstn_skipn. exact E.
    + apply by_bin_skip, S.
    + intros e g EI GI. rewrite Forall_forall in R2. specialize (R2 g GI). apply in_app_or in EI. destruct EI as [EI|EI].
      * specialize (A e (b, v) EI (or_introl eq_refl)). cbn in A. lia.
      * rewrite R1 in EI. apply filter_In in EI. destruct EI as [_ EB]. apply Z.eqb_eq in EB. lia.
    + rewrite skipn_length. lia.
    + rewrite app_length, firstn_length, Nat.min_l in P by lia. rewrite Nat2Z.inj_add in P. rewrite P. exists (b :: bs). split; [|split].
      * cbn [map]. do 3 f_equal. unfold the_put. f_equal. rewrite Nat2Z.id. unfold vals_of. rewrite FE, <- R1. apply firstn_map.
      * constructor; [|exact ND]. rewrite BI. intros IN. apply in_map_iff in IN. destruct IN as (e & EB & EI). rewrite Forall_forall in R2. specialize (R2 e EI). lia.
      * intros c. cbn [In]. rewrite BI. split.
        -- intros [<-|IN]; [left; reflexivity|]. apply in_map_iff in IN. destruct IN as (e & <- & EI). apply in_map. rewrite <- (firstn_skipn k suf). apply in_or_app. right. exact EI.
        -- intros IN. destruct (Z.eq_dec b c) as [->|NE]; [left; reflexivity|right]. apply in_map_iff in IN. destruct IN as (e & <- & EI). apply in_map.
           rewrite <- (firstn_skipn k suf) in EI. apply in_app_or in EI. destruct EI as [EI|EI]; [|exact EI].
           rewrite R1 in EI. apply filter_In in EI. destruct EI as [_ EB]. apply Z.eqb_eq in EB. congruence.
Qed.
End place.

(** * Many processes *)
Lemma omap_ex {A B} (f : A -> out B) (Q : A -> B -> Prop) l : (forall a, In a l -> exists b, f a = Done b /\ Q a b) -> exists bs, omap f l = Done bs /\ Forall2 Q l bs.
Proof.
  induction l as [|a l IH]; intros H; [exists []; split; [reflexivity|constructor]|]. cbn [omap]. destruct (H a (or_introl eq_refl)) as (b & -> & QB).
  destruct IH as (bs & -> & F). { intros a' A'. apply H. right. exact A'. } exists (b :: bs). split; [reflexivity|constructor; assumption].
Qed.
Lemma Forall2_zseq {B} (Q : Z -> B -> Prop) d bs n : forall l, Forall2 Q (zseq l n) bs -> forall k, l <= k < l + Z.of_nat n -> Q k (nth (Z.to_nat (k - l)) bs d).
Proof.
  revert bs. induction n as [|n IH]; intros bs l F k K; [lia|]. cbn [zseq] in F. inversion F as [|? ? ? ? F1 F2]; subst.
  destruct (Z.eq_dec k l) as [->|NE]; [rewrite Z.sub_diag; exact F1|]. specialize (IH _ _ F2 k ltac:(lia)).
  replace (Z.to_nat (k - l)) with (S (Z.to_nat (k - (l + 1)))) by lia. exact IH.
Qed.

(** * The array after the puts *)
Definition covers (i : Z) (e : Z * list Z) : Prop := fst e <= i < fst e + Z.of_nat (length (snd e)).
Lemma put1_in g e i : covers i e -> put1 g e i = nth (Z.to_nat (i - fst e)) (snd e) 0.
Proof. intros H. unfold covers in H. unfold put1. destruct (Z.leb_spec (fst e) i); [|lia]. destruct (Z.ltb_spec i (fst e + Z.of_nat (length (snd e)))); [reflexivity|lia]. Qed.
Lemma put1_out g e i : ~ covers i e -> put1 g e i = g i.
Proof. intros H. unfold covers in H. unfold put1. destruct (Z.leb_spec (fst e) i); [|reflexivity]. destruct (Z.ltb_spec i (fst e + Z.of_nat (length (snd e)))); [lia|reflexivity]. Qed.
Lemma covers_dec i e : {covers i e} + {~ covers i e}.
Proof. unfold covers. destruct (Z_le_dec (fst e) i); [|right; lia]. destruct (Z_lt_dec i (fst e + Z.of_nat (length (snd e)))); [left; lia|right; lia]. Qed.
Lemma puts_none order : forall g i, (forall e, In e order -> ~ covers i e) -> fold_left put1 order g i = g i.
Proof.
  induction order as [|e l IH]; intros g i H; [reflexivity|]. cbn [fold_left]. rewrite IH by (intros e' E'; apply H; right; exact E'). apply put1_out, H. left. reflexivity.
Qed.
Lemma puts_same order i v : (forall e, In e order -> covers i e -> nth (Z.to_nat (i - fst e)) (snd e) 0 = v) -> forall g,
  (g i = v \/ exists e, In e order /\ covers i e) -> fold_left put1 order g i = v.
Proof.
  induction order as [|e l IH]; intros H g G; cbn [fold_left]; [destruct G as [G|(e & [] & _)]; exact G|].
  apply IH; [intros e' E'; apply H; right; exact E'|]. destruct (covers_dec i e) as [C|C].
  - left. rewrite put1_in by exact C. apply H; [left; reflexivity|exact C].
  - destruct G as [G|(e' & [<-|E'] & C')]; [left; rewrite put1_out by exact C; exact G|contradiction|right; exists e'; split; assumption].
Qed.
Lemma bin_content (g : Z -> Z) start (off x : Z -> Z) (vs : Z -> list Z) ps : forall o, 
  (forall p, In p ps -> x p = Z.of_nat (length (vs p)) /\ forall t, 0 <= t < x p -> g (start + off p + t) = nth (Z.to_nat t) (vs p) 0) ->
  laid off x o ps -> map g (zseq (start + o) (Z.to_nat (zsum (map x ps)))) = concat (map vs ps).
Proof.
  induction ps as [|p ps IH]; intros o H L; [reflexivity|]. destruct L as [L1 L2]. cbn [map zsum concat].
  destruct (H p (or_introl eq_refl)) as [X G].
  assert (0 <= zsum (map x ps)) as ZN. { apply zsum_ge. apply Forall_forall. intros y Y. apply in_map_iff in Y. destruct Y as (q & <- & Q). destruct (H q (or_intror Q)) as [E _]. lia. }
  replace (Z.to_nat (x p + zsum (map x ps))) with (length (vs p) + Z.to_nat (zsum (map x ps)))%nat by lia.
  rewrite zseq_app, map_app. f_equal.
  - apply (nth_ext _ _ 0 0); [rewrite map_length, zseq_length; reflexivity|]. rewrite map_length, zseq_length. intros k K.
    rewrite (nth_indep _ 0 (g 0)) by (rewrite map_length, zseq_length; lia). rewrite map_nth, zseq_nth by lia.
    replace (start + o + Z.of_nat k) with (start + off p + Z.of_nat k) by lia. rewrite G by lia. rewrite Nat2Z.id. reflexivity.
  - rewrite <- (IH (o + x p)); [|intros q Q; apply H; right; exact Q|exact L2]. do 2 f_equal. lia.
Qed.
