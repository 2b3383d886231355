(** Lemmas about sparse matrices: the product with a dense array. *)
From Verif Require Import SpecSprs MBase MNb MHandle MGroup MSparse MDist MIrreg MSprs MSprs2 MSprs4 MSprs5 LNb LRadix LStore LIterBlk LSprs LSprs2 LSprs3 LSprs4 LSprs5 LSprs6.
From Coq Require Import Permutation.
Open Scope Z_scope.

Section Cells.
Context {V : Type}.
Variables (add mul : V -> V -> V) (zero : V) (d ilo ihi size : Z) (P : Z -> Z -> Z).
Hypothesis AD : addition add zero.
(** The place of (i, j) in the local part. *)
Hypothesis PINJ : forall i i' j j', ilo <= i <= ihi -> ilo <= i' <= ihi -> 0 <= j < d -> 0 <= j' < d -> P i j = P i' j' -> i = i' /\ j = j'.
Hypothesis PS : forall i j, ilo <= i <= ihi -> 0 <= j < d -> 0 <= P i j < size.

Section Target.
Variables (lo hi : Z) (bm : Z -> Z -> V) (posc : Z -> Z -> Z) (rd : Z -> Z -> out V) (klo khi : Z).
Hypothesis LH : 0 <= lo /\ hi < d.
Hypothesis PC : forall i j, posc i (j + 1) = P i j.
Hypothesis RD : forall k j, klo <= k <= khi -> lo <= j <= hi -> rd k (j + 1) = Done (bm k j).
Definition hit (js : list Z) (j : Z) : bool := if in_dec Z.eq_dec (j + 1) js then true else false.

Lemma mul_cols_ok i k x : ilo <= i <= ihi -> klo <= k <= khi -> forall js m, NoDup js -> (forall j, In j js -> lo <= j - 1 <= hi) ->
  exists m', mul_cols add mul (posc i) size (rd k) x js m = Done m' /\
    forall i' j, ilo <= i' <= ihi -> 0 <= j < d -> m' (P i' j) = if (i' =? i) && hit js j then add (m (P i' j)) (mul x (bm k j)) else m (P i' j).
Proof.
  intros I K. induction js as [|j0 js IH]; intros m N H.
  - exists m. split; [reflexivity|]. intros i' j _ _. unfold hit. destruct (in_dec Z.eq_dec (j + 1) []) as [[]|]. rewrite andb_false_r. reflexivity.
  - inversion N as [|? ? N1 N2]; subst. pose proof (H j0 (or_introl eq_refl)) as J0. cbn [mul_cols]. assert (E0 : j0 = (j0 - 1) + 1) by lia. rewrite E0, (RD k (j0 - 1) K J0), PC. pose proof (PS i (j0 - 1) I ltac:(lia)).
    replace ((0 <=? P i (j0 - 1)) && (P i (j0 - 1) <? size)) with true by lia.
    destruct (IH (fset m (P i (j0 - 1)) (add (m (P i (j0 - 1))) (mul x (bm k (j0 - 1))))) N2 ltac:(intros j Ij; apply H; right; exact Ij)) as (m' & E & M). exists m'. split; [exact E|].
    intros i' j I' J. rewrite (M i' j I' J). rewrite <- E0. unfold hit. destruct (Z.eqb_spec i' i) as [->|Ne]; cbn [andb].
    + destruct (in_dec Z.eq_dec (j + 1) (j0 :: js)) as [X|X]; destruct (in_dec Z.eq_dec (j + 1) js) as [Y|Y].
      * rewrite fset_other; [reflexivity|]. intros Q. apply PINJ in Q; [|lia|lia|lia|lia]. apply N1. replace j0 with (j + 1) by lia. exact Y.
      * destruct X as [X|X]; [|contradiction]. replace (j0 - 1) with j by lia. rewrite fset_same. reflexivity.
      * exfalso. apply X. right. exact Y.
      * rewrite fset_other; [reflexivity|]. intros Q. apply PINJ in Q; [|lia|lia|lia|lia]. apply X. left. lia.
    + rewrite fset_other; [reflexivity|]. intros Q. apply PINJ in Q; [|lia|lia|lia|lia]. lia.
Qed.
Definition part_sum (l : list (Z * V)) (j : Z) : V := lsum add zero (map (fun kx => mul (snd kx) (bm (fst kx) j)) l).
Lemma mul_row_ok i js : ilo <= i <= ihi -> NoDup js -> (forall j, In j js -> lo <= j - 1 <= hi) ->
  forall l m, (forall k x, In (k, x) l -> klo <= k <= khi) ->
  exists m', mul_row add mul (posc i) size rd js l m = Done m' /\
    forall i' j, ilo <= i' <= ihi -> 0 <= j < d -> m' (P i' j) = if (i' =? i) && hit js j then add (m (P i' j)) (part_sum l j) else m (P i' j).
Proof.
  intros I N H. induction l as [|[k x] l IH]; intros m K.
  - exists m. split; [reflexivity|]. intros i' j _ _. destruct ((i' =? i) && hit js j); [|reflexivity]. unfold part_sum. cbn. symmetry. apply (add_zero_r add zero AD).
  - cbn [mul_row]. destruct (mul_cols_ok i k x I (K k x (or_introl eq_refl)) js m N H) as (m1 & E1 & M1). rewrite E1.
    destruct (IH m1 ltac:(intros k' x' Ik; apply (K k' x'); right; exact Ik)) as (m' & E & M). exists m'. split; [exact E|]. intros i' j I' J. rewrite (M i' j I' J), (M1 i' j I' J).
    destruct ((i' =? i) && hit js j); [|reflexivity]. unfold part_sum. cbn [map lsum fold_right fst snd]. rewrite (ad_assoc _ _ AD). reflexivity.
Qed.
Lemma mul_rows_ok (s : sprs V) w c (r : Z -> list (Z * V)) js : access_col_block s c = Done (Some w) -> NoDup js -> (forall j, In j js -> lo <= j - 1 <= hi) ->
  forall rows m, NoDup rows -> (forall i, In i rows -> ilo <= i <= ihi /\ block_row s c i = Done (r i) /\ forall k x, In (k, x) (r i) -> klo <= k <= khi) ->
  exists m', mul_rows add mul posc size rd js s w rows m = Done m' /\
    forall i j, ilo <= i <= ihi -> 0 <= j < d -> m' (P i j) = if (if in_dec Z.eq_dec i rows then true else false) && hit js j then add (m (P i j)) (part_sum (r i) j) else m (P i j).
Proof.
  intros A NJ HJ. induction rows as [|i0 rows IH]; intros m N H.
  - exists m. split; [reflexivity|]. intros i j _ _. destruct (in_dec Z.eq_dec i []) as [[]|]. reflexivity.
  - inversion N as [|? ? N1 N2]; subst. cbn [mul_rows]. destruct (H i0 (or_introl eq_refl)) as (I0 & B & K0). unfold block_row in B. rewrite A in B. rewrite B.
    destruct (mul_row_ok i0 js I0 NJ HJ (r i0) m K0) as (m1 & E1 & M1). rewrite E1. destruct (IH m1 N2 ltac:(intros i I; apply H; right; exact I)) as (m' & E & M). exists m'. split; [exact E|].
    intros i j I J. rewrite (M i j I J), (M1 i j I J). destruct (Z.eqb_spec i i0) as [->|Ne]; cbn [andb].
    + destruct (in_dec Z.eq_dec i0 rows) as [X|X]; [contradiction|]. destruct (in_dec Z.eq_dec i0 (i0 :: rows)) as [Y|Y]; [reflexivity|exfalso; apply Y; left; reflexivity].
    + destruct (in_dec Z.eq_dec i rows) as [X|X]; destruct (in_dec Z.eq_dec i (i0 :: rows)) as [Y|Y]; try reflexivity; exfalso; [apply Y; right; exact X|destruct Y as [Y|Y]; [congruence|contradiction]].
Qed.
End Target.
End Cells.

Section Blocks.
Context {V : Type}.
Variables (fuel : nat) (n d : Z) (add mul : V -> V -> V) (zero : V) (b : Z -> Z -> V) (s : sprs V) (r : Z -> Z -> list (Z * V)).
Hypotheses (AD : addition add zero) (FU : (2 <= fuel)%nat) (ND : 1 <= n <= d) (IL : s_ilo s <= s_ihi s).
Notation P := (fun i j : Z => j + (i - s_ilo s) * d).
Notation size := (d * (s_ihi s - s_ilo s + 1)).
Notation bm := (fun k j : Z => b (j + 1) (k + 1)).
Hypothesis BLK : forall c, In c (s_blk s) -> 0 <= c < n /\ (exists w, access_col_block s c = Done (Some w)) /\
  forall i, s_ilo s <= i <= s_ihi s -> block_row s c i = Done (r c i) /\ forall k x, In (k, x) (r c i) -> 0 <= k < d /\ in_part n d c k.
Lemma place_inj i i' j j' : s_ilo s <= i <= s_ihi s -> s_ilo s <= i' <= s_ihi s -> 0 <= j < d -> 0 <= j' < d -> P i j = P i' j' -> i = i' /\ j = j'.
Proof. cbn beta. intros I I' J J' E. assert (i - s_ilo s = i' - s_ilo s) by nia. split; [lia|nia]. Qed.
Lemma place_in i j : s_ilo s <= i <= s_ihi s -> 0 <= j < d -> 0 <= P i j < size.
Proof. cbn beta. intros I J. nia. Qed.
Lemma mul_blocks_ok lo hi : 0 <= lo <= hi -> hi < d -> forall blk m, incl blk (s_blk s) ->
  exists m', mul_blocks true fuel n add mul d d d b 1 (s_ilo s + 1) d (s_ihi s + 1) lo hi s blk m = Done m' /\
    forall i j, s_ilo s <= i <= s_ihi s -> 0 <= j < d -> m' (P i j) = if (lo <=? j) && (j <=? hi) then add (m (P i j)) (part_sum add mul zero bm (flat_map (fun c => r c i) blk) j) else m (P i j).
Proof.
  intros LH HD. induction blk as [|c blk IH]; intros m I.
  - exists m. split; [reflexivity|]. intros i j _ _. destruct ((lo <=? j) && (j <=? hi)); [|reflexivity]. unfold part_sum. cbn. symmetry. apply (add_zero_r add zero AD).
  - destruct (BLK c (I c (or_introl eq_refl))) as (C & (w & W) & RW). cbn [mul_blocks].
    replace ((1 <=? lo + 1) && (lo + 1 <=? hi + 1) && (hi + 1 <=? d) && (s_ilo s + 1 <=? s_ilo s + 1) && (s_ilo s + 1 <=? s_ihi s + 1) && (s_ihi s + 1 <=? s_ihi s + 1)) with true by lia.
    destruct (column_limits fuel n d c FU ltac:(lia) C) as (jlo & jhi & CD & _ & _ & JLH & JHD & RNG). rewrite CD, W.
    replace ((1 <=? lo + 1) && (lo + 1 <=? hi + 1) && (hi + 1 <=? d) && (1 <=? jlo + 1) && (jlo + 1 <=? jhi + 1) && (jhi + 1 <=? d)) with true by lia.
    set (posc := fun i j : Z => lo + 1 - 1 + (s_ilo s + 1 - (s_ilo s + 1)) * (d - 1 + 1) + (j - (lo + 1) + (i - s_ilo s) * (d - 1 + 1))).
    set (ldb := hi + 1 - (lo + 1) + 1). set (rd := fun k j : Z => rd_buf b (lo + 1) (jlo + 1) ldb (ldb * (jhi + 1 - (jlo + 1) + 1)) ((k - jlo) * ldb + (j - (lo + 1)))).
    replace ((d - 1 + 1) * (s_ihi s + 1 - (s_ilo s + 1) + 1)) with size by (f_equal; lia).
    destruct (mul_rows_ok add mul zero d (s_ilo s) (s_ihi s) size P AD place_inj place_in lo hi bm posc rd jlo jhi) with (s := s) (w := w) (c := c) (r := r c)
      (js := zseq (lo + 1) (Z.to_nat ldb)) (rows := zseq (s_ilo s) (Z.to_nat (s_ihi s - s_ilo s + 1))) (m := m) as (m1 & E1 & M1).
    + lia.
    + intros i j. unfold posc. ring.
    + intros k j K J. unfold rd, rd_buf. assert (L : ldb = hi - lo + 1) by (unfold ldb; lia). replace (j + 1 - (lo + 1)) with (j - lo) by lia.
      assert (0 <= (k - jlo) * ldb + (j - lo) < ldb * (jhi + 1 - (jlo + 1) + 1)) by nia. replace ((0 <=? (k - jlo) * ldb + (j - lo)) && ((k - jlo) * ldb + (j - lo) <? ldb * (jhi + 1 - (jlo + 1) + 1))) with true by lia.
      rewrite Z.div_add_l by lia. rewrite (Z.add_comm ((k - jlo) * ldb) (j - lo)), Z.mod_add by lia. rewrite Z.mod_small, Z.div_small by lia. f_equal. f_equal; lia.
    + exact W.
    + apply zseq_NoDup.
    + intros j J. apply zseq_In in J. unfold ldb in J. lia.
    + apply zseq_NoDup.
    + intros i J. apply zseq_In in J. split; [lia|]. destruct (RW i ltac:(lia)) as [B K]. split; [exact B|]. intros k x Ik. destruct (K k x Ik) as [K1 K2]. apply RNG; assumption.
    + rewrite E1. destruct (IH m1 ltac:(intros c' X; apply I; right; exact X)) as (m' & E & M). exists m'. split; [exact E|]. intros i j Ii J. rewrite (M i j Ii J), (M1 i j Ii J).
      destruct (in_dec Z.eq_dec i (zseq (s_ilo s) (Z.to_nat (s_ihi s - s_ilo s + 1)))) as [X|X]; [|exfalso; apply X; apply zseq_In; lia]. cbn [andb].
      unfold hit. destruct (in_dec Z.eq_dec (j + 1) (zseq (lo + 1) (Z.to_nat ldb))) as [Y|Y]; rewrite zseq_In in Y; unfold ldb in Y.
      * replace ((lo <=? j) && (j <=? hi)) with true by lia. unfold part_sum. cbn [flat_map]. rewrite map_app, (lsum_app add zero AD), (ad_assoc _ _ AD). reflexivity.
      * replace ((lo <=? j) && (j <=? hi)) with false by lia. reflexivity.
Qed.
Lemma mul_targets_ok : forall ls m, NoDup ls -> (forall l, In l ls -> 0 <= l < n) ->
  exists m', mul_targets true fuel n add mul d d d b 1 (s_ilo s + 1) d (s_ihi s + 1) s ls m = Done m' /\
    forall i j, s_ilo s <= i <= s_ihi s -> 0 <= j < d -> m' (P i j) = if in_dec Z.eq_dec (owner n d j) ls then add (m (P i j)) (part_sum add mul zero bm (flat_map (fun c => r c i) (s_blk s)) j) else m (P i j).
Proof.
  induction ls as [|l ls IH]; intros m N H; [exists m; split; [reflexivity|]; intros i j _ _; destruct (in_dec Z.eq_dec (owner n d j) []) as [[]|]; reflexivity|].
  inversion N as [|? ? N1 N2]; subst. assert (L : 0 <= l < n) by (apply H; left; reflexivity). cbn [mul_targets].
  destruct (column_limits fuel n d l FU ltac:(lia) L) as (lo & hi & CD & _ & _ & LH & HD & RNG). rewrite CD.
  destruct (mul_blocks_ok lo hi LH HD (s_blk s) m (incl_refl _)) as (m1 & E1 & M1). rewrite E1. destruct (IH m1 N2 ltac:(intros l' I; apply H; right; exact I)) as (m' & E & M). exists m'. split; [exact E|].
  intros i j I J. rewrite (M i j I J), (M1 i j I J). assert (O : (lo <=? j) && (j <=? hi) = true <-> owner n d j = l) by (rewrite (owner_part n d j l) by lia; rewrite <- (RNG j J); lia).
  destruct ((lo <=? j) && (j <=? hi)).
  - assert (Ej : owner n d j = l) by (apply O; reflexivity). destruct (in_dec Z.eq_dec (owner n d j) ls) as [X|X]; [exfalso; apply N1; rewrite <- Ej; exact X|].
    destruct (in_dec Z.eq_dec (owner n d j) (l :: ls)) as [Y|Y]; [reflexivity|exfalso; apply Y; left; symmetry; exact Ej].
  - destruct (in_dec Z.eq_dec (owner n d j) ls) as [X|X]; destruct (in_dec Z.eq_dec (owner n d j) (l :: ls)) as [Y|Y]; try reflexivity; exfalso; [apply Y; right; exact X|].
    destruct Y as [Y|Y]; [symmetry in Y; apply O in Y; discriminate|contradiction].
Qed.
End Blocks.
(** Blocks are listed once. *)
Lemma col_blocks_once {V} (loc : list (elt V)) bn : forall cs blks, col_blocks loc bn cs = Done blks -> NoDup cs -> NoDup (map fst blks) /\ incl (map fst blks) cs.
Proof.
  induction cs as [|c cs IH]; intros blks E N; cbn [col_blocks] in E; [injection E as <-; split; [constructor|intros x []]|]. inversion N as [|? ? N1 N2]; subst. destruct (0 <=? b_top bn c).
  - destruct (walk _ _ _ _) as [l| |]; try discriminate. destruct (col_blocks loc bn cs) as [t| |] eqn:Et; try discriminate. injection E as <-. destruct (IH t eq_refl N2) as [A B]. cbn [map fst]. split; [constructor; [intros X; apply N1, B; exact X|exact A]|].
    intros x [<-|X]; [left; reflexivity|right; apply B; exact X].
  - destruct (IH blks E N2) as [A B]. split; [exact A|]. intros x X. right. apply B. exact X.
Qed.
Lemma assemble_once {V} fuel n idim jdim (els : Z -> list (elt V)) o o' ss : assemble fuel n idim jdim els o o' = Done ss -> Forall (fun s => NoDup (s_blk s)) ss.
Proof.
  unfold assemble. intros E. destruct (collect (sort_out n idim els) _) as [bs| |]; try discriminate. destruct (read_offsets _ _ _ _) as [size off]. destruct (total_of n size <? n); try discriminate.
  destruct (send_all _ _ _ _ _ _ _) as [m| |]; try discriminate. destruct (collect (fun p => try loc <- local_part size m p; arrange fuel n idim jdim p loc) _) as [ss0| |] eqn:C; try discriminate.
  destruct (_ <? n) in E; try discriminate. injection E as <-. apply collect_inv in C. induction C as [|p s ps ss' H F IH]; [constructor|]. constructor; [|exact IH]. clear - H.
  destruct (local_part size m p) as [loc| |]; try discriminate. unfold arrange in H. destruct (bin_all _ _ _ _) as [bn| |]; try discriminate. destruct (col_blocks loc bn _) as [blks| |] eqn:CB; try discriminate.
  destruct (_ && _) in H; try discriminate. destruct (own_low _ _ _ _) as [ilo| |]; try discriminate. destruct (high_limit _ _ _ _) as [ihi| |]; try discriminate. destruct (all_blocks _ _ _) as [[ii es]| |]; try discriminate.
  injection H as <-. cbn [s_blk]. apply (col_blocks_once loc bn _ blks CB). apply zseq_NoDup.
Qed.
