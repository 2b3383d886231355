(** Property theorems: sparse matrices from dense arrays (C100) and dense arrays from
    sparse matrices (C101). *)
From Verif Require Import SpecSprs MBase MNb MHandle MGroup MSparse MDist MIrreg MSprs MSprs2 MSprs4 LNb LRadix LStore LIterBlk LSprs LSprs2 LSprs3 LSprs4 LSprs5 LSprs6 LReg2 LSprs10 PSprs PSprs2.
From Coq Require Import Permutation.
Open Scope Z_scope.

(** * C100: a sparse matrix from a dense array *)
(** The dense array as a matrix, with rows and columns from 0. *)
Definition matrix_of {V} (trans : bool) (a : Z -> Z -> V) (i j : Z) : V := if trans then a (j + 1) (i + 1) else a (i + 1) (j + 1).
Lemma els_all {V} n (L : list (list (elt V))) : length L = Z.to_nat n -> all_elts n (fun q => nth (Z.to_nat q) L []) = concat L.
Proof.
  intros E. unfold all_elts. rewrite flat_map_concat_map. f_equal. apply nth_ext with [] []; [rewrite map_length, zseq_length; auto|].
  intros k K. rewrite map_length, zseq_length in K. rewrite nth_indep with (d' := nth (Z.to_nat 0) L []) by (rewrite map_length, zseq_length; exact K).
  rewrite (map_nth (fun q => nth (Z.to_nat q) L []) (zseq 0 (Z.to_nat n)) 0 k). rewrite zseq_nth by exact K. f_equal. lia.
Qed.
Theorem C100_partial : forall V (nz : V -> bool) (trans : bool) fuel n (d0 d1 : Z) (bs : list (dpart V)) a o o' idim jdim,
  (idim, jdim) = (if trans then (d1, d0) else (d0, d1)) ->
  (2 <= fuel)%nat -> 1 <= n <= idim -> 1 <= jdim -> all_pairs n o -> all_pairs n o' ->
  length bs = Z.to_nat n -> dense d0 d1 bs a ->
  (forall q b, nth_error bs q = Some b -> p_lo0 b <= p_hi0 b /\ p_lo1 b <= p_hi1 b /\ p_ld b = p_hi0 b - p_lo0 b + 1) ->
  (forall p, 0 <= p < n -> exists i j, in_part n idim p i /\ (0 <= i < idim /\ 0 <= j < jdim) /\ (nz (matrix_of trans a i j) = true \/ i = j)) ->
  exists l ss, from_dense trans fuel n nz d0 d1 bs o o' = Done ss /\ represents n idim jdim l ss /\
    elements_of idim jdim (matrix_of trans a) (fun i j v => nz v = true \/ i = j) l.
Proof.
  intros V nz trans fuel n d0 d1 bs a o o' idim jdim ED F NI NJ O O' LB (DV & DC & DU) BS U.
  assert (FP : from_pieces trans nz bs = Done (map (filter_piece trans nz) bs)) by (apply from_pieces_ok; intros q b E; destruct (BS q b E) as (? & ? & _); split; assumption).
  set (L := map (filter_piece trans nz) bs) in *. set (els := fun q : Z => nth (Z.to_nat q) L []).
  assert (AE : all_elts n els = concat L) by (apply els_all; unfold L; rewrite map_length; exact LB).
  assert (MEM : forall q b i j v, nth_error bs q = Some b -> (In (i, j, v) (filter_piece trans nz b) <->
     (0 <= i < idim /\ 0 <= j < jdim) /\ (if trans then contains b (j + 1) (i + 1) else contains b (i + 1) (j + 1)) /\ v = matrix_of trans a i j /\ (nz v = true \/ i = j))).
  { intros q b i j v Eb. rewrite filter_piece_In. destruct (BS q b Eb) as (_ & _ & LD). split.
    - intros (x & y & C & ES & EV & K). destruct (DV q b x y Eb C) as (X & Y & VA). unfold value_at in VA. rewrite LD in VA. rewrite VA in EV. unfold swap, matrix_of in *.
      destruct trans; injection ED as -> ->; injection ES as -> ->; rewrite !Z.sub_add; (split; [lia|]; split; [exact C|]; split; [exact EV|]; destruct K as [K|K]; [left; exact K|right; lia]).
    - intros (IJ & C & EV & K). unfold swap, matrix_of in *. destruct trans; injection ED as -> ->.
      + exists (j + 1), (i + 1). split; [exact C|]. rewrite !Z.add_simpl_r. split; [reflexivity|]. destruct (DV q b _ _ Eb C) as (X & Y & VA). unfold value_at in VA. rewrite LD in VA. rewrite VA. split; [exact EV|]. destruct K as [K|K]; [left; exact K|right; lia].
      + exists (i + 1), (j + 1). split; [exact C|]. rewrite !Z.add_simpl_r. split; [reflexivity|]. destruct (DV q b _ _ Eb C) as (X & Y & VA). unfold value_at in VA. rewrite LD in VA. rewrite VA. split; [exact EV|]. destruct K as [K|K]; [left; exact K|right; lia]. }
  assert (EL : elements_of idim jdim (matrix_of trans a) (fun i j v => nz v = true \/ i = j) (concat L)).
  { unfold L. split.
    - rewrite <- flat_map_concat_map. assert (G : forall cs k0, (forall q b, nth_error cs q = Some b -> nth_error bs (k0 + q) = Some b) -> NoDup (map fst (flat_map (filter_piece trans nz) cs))).
      { induction cs as [|b cs IH]; intros k0 H; [constructor|]. cbn [flat_map]. rewrite map_app. apply NoDup_app2.
        - apply filter_piece_once.
        - apply (IH (S k0)). intros q b' E. specialize (H (S q) b' E). rewrite <- H. f_equal. lia.
        - intros [i j] I J. apply in_map_iff in I, J. destruct I as ([[i1 j1] v1] & E1 & I), J as ([[i2 j2] v2] & E2 & J). cbn in E1, E2. injection E1 as -> ->. injection E2 as -> ->.
          apply in_flat_map in J. destruct J as (b' & Ib & J). apply In_nth_error in Ib. destruct Ib as (q & Eq). pose proof (H 0%nat b eq_refl) as H0. pose proof (H (S q) b' Eq) as H1.
          apply (MEM _ b i j v1 H0) in I. apply (MEM _ b' i j v2 H1) in J. destruct I as (_ & C & _), J as (_ & C' & _).
          assert ((k0 + 0)%nat = (k0 + S q)%nat) by (destruct trans; eapply DU; eauto). lia. }
      apply (G bs 0%nat). intros q b E. exact E.
    - intros i j v. rewrite <- flat_map_concat_map, in_flat_map. split.
      + intros (b & Ib & I). apply In_nth_error in Ib. destruct Ib as (q & Eq). apply (MEM q b i j v Eq) in I. tauto.
      + intros (IJ & EV & K). destruct (DC (if trans then j + 1 else i + 1) (if trans then i + 1 else j + 1)) as (q & b & Eq & C); [destruct trans; injection ED as -> ->; lia|destruct trans; injection ED as -> ->; lia|].
        exists b. split; [eapply nth_error_In; exact Eq|]. apply (MEM q b i j v Eq). split; [exact IJ|]. split; [destruct trans; exact C|]. split; assumption. }
  destruct EL as [EL1 EL2].
  destruct (C95_partial V fuel n idim jdim els o o' F NI NJ O O') as (ss & E & R).
  { intros q Q. apply Forall_forall. intros [[i j] v] I. unfold els in I. assert (I' : In (i, j, v) (concat L)).
    { apply in_concat. exists (nth (Z.to_nat q) L []). split; [|exact I]. apply nth_In. unfold L. rewrite map_length. lia. }
    apply EL2 in I'. unfold inside, erow, ecol. cbn [fst snd]. apply I'. }
  { intros p P. destruct (U p P) as (i & j & PI & IJ & K). exists (i, j, matrix_of trans a i j). rewrite AE. split; [|exact PI]. apply EL2. split; [exact IJ|]. split; [reflexivity|exact K]. }
  exists (concat L), ss. split; [|split; [rewrite <- AE; exact R|split; assumption]].
  unfold from_dense. rewrite FP. destruct trans; injection ED as -> ->; exact E.
Qed.

(** * C101: a dense array from a sparse matrix *)
Lemma entries_ok d : forall m c, (forall k x, nth_error m k = Some x -> 1 <= x <= d + 1) -> (forall x, nth_error m 0 = Some x -> c <= x) ->
  (forall k x y, nth_error m k = Some x -> nth_error m (S k) = Some y -> x <= y) -> irreg_entries (length m) d c m = Done [].
Proof.
  induction m as [|x m IH]; intros c R C S; [reflexivity|]. cbn [length irreg_entries]. pose proof (R O x eq_refl). pose proof (C x eq_refl).
  replace (x <? c) with false by lia. replace ((x <? 1) || (d + 1 <? x)) with false by lia. apply IH.
  - intros k y E. apply (R (Datatypes.S k) y E).
  - intros y E. apply (S O x y eq_refl E).
  - intros k y z E E'. apply (S (Datatypes.S k) y z E E').
Qed.
Section Rows.
Context {V : Type}.
Variables (n d jdim : Z) (l : list (elt V)) (ss : list (sprs V)).
Hypotheses (NI : 1 <= n <= d) (R : represents n d jdim l ss).
Lemma rows_next p s t : 0 <= p -> p + 1 < n -> nth_error ss (Z.to_nat p) = Some s -> nth_error ss (Z.to_nat (p + 1)) = Some t -> s_ilo t = s_ihi s + 1.
Proof.
  intros P P' Es Et. destruct R as [_ RR]. destruct (RR p s ltac:(lia) Es) as (A1 & A2 & A3 & _). destruct (RR (p + 1) t ltac:(lia) Et) as (B1 & B2 & B3 & _).
  pose proof (proj1 (A3 (s_ihi s) ltac:(lia)) ltac:(lia)) as H1. pose proof (proj1 (B3 (s_ilo t) ltac:(lia)) ltac:(lia)) as H2. unfold in_part in H1, H2.
  assert (s_ihi s < s_ilo t) by (apply (Zmult_lt_reg_r _ _ n); lia).
  destruct (Z.eq_dec (s_ilo t) (s_ihi s + 1)) as [E|Ne]; [exact E|exfalso]. set (x := s_ihi s + 1). assert (X : 0 <= x < d) by (unfold x; lia).
  pose proof (A3 x X) as A. pose proof (B3 x X) as B. unfold in_part in A, B.
  assert (M1 : s_ihi s * n <= x * n) by (apply Z.mul_le_mono_nonneg_r; unfold x; lia). assert (M2 : x * n <= s_ilo t * n) by (apply Z.mul_le_mono_nonneg_r; unfold x; lia).
  assert (~ (s_ilo s <= x <= s_ihi s)) by (unfold x; lia). assert (~ (s_ilo t <= x <= s_ihi t)) by (unfold x; lia). lia.
Qed.
Lemma rows_last s : nth_error ss (Z.to_nat (n - 1)) = Some s -> s_ihi s = d - 1.
Proof.
  intros Es. destruct R as [_ RR]. destruct (RR (n - 1) s ltac:(lia) Es) as (A1 & A2 & A3 & _). assert (X : in_part n d (n - 1) (d - 1)) by (unfold in_part; nia).
  apply (A3 (d - 1) ltac:(lia)) in X. lia.
Qed.
End Rows.
Lemma zget_nth {A} (m : list A) k : 0 <= k -> zget m k = nth_error m (Z.to_nat k).
Proof. intros K. unfold zget. replace (k <? 0) with false by lia. reflexivity. Qed.
Lemma collect_ex {A} (f : Z -> out A) (Q : Z -> A -> Prop) : forall ps, (forall p, In p ps -> exists b, f p = Done b /\ Q p b) -> exists bs, collect f ps = Done bs /\ Forall2 Q ps bs.
Proof.
  induction ps as [|p ps IH]; intros H; [exists []; split; [reflexivity|constructor]|]. destruct (H p (or_introl eq_refl)) as (b & E & HQ). destruct (IH ltac:(intros q I; apply H; right; exact I)) as (bs & Es & F).
  exists (b :: bs). cbn [collect]. rewrite E, Es. split; [reflexivity|constructor; assumption].
Qed.
Lemma Forall2_zseq {A} (Q : Z -> A -> Prop) : forall m k bs, Forall2 Q (zseq k m) bs -> length bs = m /\ forall q b, nth_error bs q = Some b -> Q (k + Z.of_nat q) b.
Proof.
  induction m as [|m IH]; intros k bs F; cbn [zseq] in F; inversion F as [|? b0 ? bs' F1 F2]; subst; [split; [reflexivity|]; intros [|q] b E; discriminate|].
  destruct (IH (k + 1) bs' F2) as [L H]. split; [cbn; congruence|]. intros [|q] b E; [injection E as <-; rewrite Z.add_0_r; exact F1|]. specialize (H q b E). replace (k + Z.of_nat (S q)) with (k + 1 + Z.of_nat q) by lia. exact H.
Qed.
Theorem C101_partial : forall V (zero : V) n d l ss,
  1 <= n <= d -> Forall (inside d d) l -> at_most_once l -> represents n d d l ss ->
  exists bs a, to_dense true n zero d d ss = Done bs /\ dense d d bs a /\ forall i j, 0 <= i < d -> 0 <= j < d -> is_entry zero l i j (matrix_of true a i j).
Proof.
  intros V zero n d l ss NI IN ONE R. pose proof R as [LS RR].
  assert (ROW : forall p, 0 <= p < n -> exists s, nth_error ss (Z.to_nat p) = Some s).
  { intros p P. destruct (nth_error ss (Z.to_nat p)) eqn:E; [eexists; reflexivity|]. apply nth_error_None in E. lia. }
  set (mp := map (fun s : sprs V => s_ilo s + 1) ss).
  assert (MP : forall k x, nth_error mp k = Some x -> exists s, nth_error ss k = Some s /\ x = s_ilo s + 1 /\ 0 <= s_ilo s <= s_ihi s /\ s_ihi s < d).
  { intros k x E. unfold mp in E. rewrite nth_error_map in E. destruct (nth_error ss k) as [s|] eqn:Es; [|discriminate]. cbn in E. injection E as <-. exists s. split; [reflexivity|]. split; [reflexivity|].
    assert (k < length ss)%nat by (apply nth_error_Some; congruence). destruct (RR (Z.of_nat k) s) as (A & B & _); [lia|rewrite Nat2Z.id; exact Es|]. split; assumption. }
  set (g := {| distr_type := REGULAR; dims := [d; d]; nblock := [1; n]; mapc := (1 :: mp) ++ [-1]; block_dims := []; num_blocks := []; rstrctd_list := []; rank_rstrctd := [] |}).
  assert (LM : length mp = Z.to_nat n) by (unfold mp; rewrite map_length; exact LS).
  assert (SG : set_irreg_distr false (dense_desc d d) (dense_map true ss) [1; n] = Done g).
  { unfold set_irreg_distr, dense_desc. cbn [dims too_many]. replace (d <? 1) with false by lia. replace (d <? n) with false by lia. cbn [orb].
    unfold dense_map. fold mp. cbn [irreg_check]. replace ((1 <? 1) || (d + 1 <? 1)) with false by lia. change (Z.to_nat (1 - 1)) with O. cbn [irreg_entries].
    destruct mp as [|x mp'] eqn:EM; [cbn in LM; lia|]. destruct (MP O x eq_refl) as (s0 & _ & Ex & B0 & B1). replace ((x <? 1) || (d + 1 <? x)) with false by lia.
    replace (Z.to_nat (n - 1)) with (length mp') by (cbn in LM; lia). rewrite entries_ok.
    - cbn [irreg_check]. unfold irreg_copy. cbn [zsum length]. rewrite <- EM. replace (1 + (n + 0)) with (n + 1) by lia.
      replace ((n + 1 <? 0) || (Z.of_nat (S (S (length mp'))) <? n + 1)) with false by (cbn in LM; lia). rewrite firstn_all2 by (rewrite EM; cbn in LM |- *; lia). subst g. rewrite EM. reflexivity.
    - intros k y E. destruct (MP (S k) y E) as (s & _ & Ey & C0 & C1). lia.
    - intros y E. destruct (MP 0%nat x eq_refl) as (s & Es & Ex' & C0 & C1). destruct (MP 1%nat y E) as (t & Et & Ey & _). assert (1 < length ss)%nat by (apply nth_error_Some; congruence).
      assert (s_ilo t = s_ihi s + 1) by (apply (rows_next n d d l ss NI R 0 s t); [lia|lia|exact Es|exact Et]). lia.
    - intros k y z E E'. destruct (MP (S k) y E) as (s & Es & Ey & C0 & C1). destruct (MP (S (S k)) z E') as (t & Et & Ez & _). assert (S (S k) < length ss)%nat by (apply nth_error_Some; congruence).
      assert (s_ilo t = s_ihi s + 1) by (apply (rows_next n d d l ss NI R (Z.of_nat (S k)) s t); [lia|lia|rewrite Nat2Z.id; exact Es|replace (Z.to_nat (Z.of_nat (S k) + 1)) with (S (S k)) by lia; exact Et]). lia. }
  assert (OW : forall p s, 0 <= p < n -> nth_error ss (Z.to_nat p) = Some s -> owns g p = Some ([1; s_ilo s + 1], [d; s_ihi s + 1])).
  { intros p s P Es. unfold owns. change (num_rstrctd g =? 0) with true. change (distr_type g) with REGULAR. cbn iota. change (dims g) with [d; d]. change (nblock g) with [1; n]. change (mapc g) with ((1 :: mp) ++ [-1]). unfold owns_no_handle. change (zprod [1; n]) with (1 * (n * 1)).
    replace ((1 * (n * 1) - 1 <? p) || (p <? 0)) with false by lia. cbn [owns_dims]. unfold cmod, cdiv. change (1 =? 0) with false. cbn iota. rewrite Z.rem_1_r, Z.quot_1_r.
    change (0 =? 1 - 1) with true. rewrite (zget_nth _ 0) by lia. change (nth_error ((1 :: mp) ++ [-1]) (Z.to_nat 0)) with (Some 1). cbn iota.
    replace (n =? 0) with false by lia. rewrite Z.rem_small by lia. change (zdrop 1 ((1 :: mp) ++ [-1])) with (mp ++ [-1]).
    rewrite zget_nth by lia. rewrite nth_error_app1 by (rewrite LM; lia). unfold mp at 1. rewrite nth_error_map, Es. cbn [option_map].
    destruct (Z.eqb_spec p (n - 1)) as [->|Ne].
    - rewrite (rows_last n d d l ss NI R s Es). cbn [fst snd]. replace (d - 1 + 1) with d by lia. reflexivity.
    - destruct (ROW (p + 1) ltac:(lia)) as (t & Et). rewrite zget_nth by lia. rewrite nth_error_app1 by (rewrite LM; lia). unfold mp. rewrite nth_error_map, Et. cbn [option_map fst snd].
      rewrite (rows_next n d d l ss NI R p s t ltac:(lia) ltac:(lia) Es Et). do 4 f_equal. lia. }
  assert (PC : forall p s, 0 <= p < n -> nth_error ss (Z.to_nat p) = Some s -> exists m, to_piece true zero d d g p s = Done (DPart 1 (s_ilo s + 1) d (s_ihi s + 1) d m) /\
     forall i j, s_ilo s <= i <= s_ihi s -> 0 <= j < d -> is_entry zero l i j (m (j + (i - s_ilo s) * d))).
  { intros p s P Es. destruct (RR p s P Es) as (A1 & A2 & A3 & A4 & _ & A6). unfold to_piece. rewrite (OW p s P Es).
    replace ((1 <=? 1) && (1 <=? d) && (d <=? d) && (s_ilo s + 1 <=? s_ilo s + 1) && (s_ilo s + 1 <=? s_ihi s + 1) && (s_ihi s + 1 <=? s_ihi s + 1)) with true by lia.
    set (pos := fun i j : Z => 1 - 1 + (s_ilo s + 1 - (s_ilo s + 1)) * (d - 1 + 1) + ((i - (s_ilo s + 1) + 1) * (d - 1 + 1) + j - 1 + 1)).
    assert (PE : forall i j, pos i j = j + (i - s_ilo s) * d) by (intros i j; unfold pos; ring). set (size := (d - 1 + 1) * (s_ihi s + 1 - (s_ilo s + 1) + 1)). assert (SE : size = d * (s_ihi s - s_ilo s + 1)) by (unfold size; f_equal; lia).
    destruct (@put_blocks_ok V d (s_ilo s) (s_ihi s) size pos) with (s := s) (r := row_of (V := V) s) (blk := s_blk s) (m := fun _ : Z => zero) as (m & E & M).
    - intros i i' j j' I I' J J' Ep. rewrite !PE in Ep. assert (i - s_ilo s = i' - s_ilo s) by nia. split; [lia|]. nia.
    - intros i j j' Ep. rewrite !PE in Ep. lia.
    - intros i j I J. rewrite PE, SE. nia.
    - reflexivity.
    - reflexivity.
    - intros c C. apply A4 in C. destruct C as [C CE]. assert (C' : In c (s_blk s)) by (apply A4; split; assumption). split.
      + destruct (A6 c (s_ilo s) C ltac:(lia)) as (r & Er & _). destruct (find_block_In (s_blk s) c 0 C') as (k & Fk & Kb). unfold block_row, access_col_block in *. rewrite Fk in *. destruct (rdl (s_off s) k); [eexists; reflexivity|discriminate|discriminate].
      + intros i I. destruct (row_of_ok n d d l ss R p s c i P Es C I) as [Er Pr]. split; [exact Er|]. intros j v Ij. apply (Permutation_in _ Pr) in Ij. apply row_part_In in Ij. destruct Ij as [Ij _].
        rewrite Forall_forall in IN. apply (IN _ Ij).
    - exists m. rewrite E. replace (d - 1 + 1) with d by lia. split; [reflexivity|]. intros i j I J. rewrite <- PE, (M i j I J).
      assert (ENT : forall x, In (j, x) (flat_map (fun c => row_of s c i) (s_blk s)) <-> In (i, j, x) l).
      { intros x. rewrite in_flat_map. split.
        - intros (c & C & Ij). apply A4 in C. destruct C as [C _]. destruct (row_of_ok n d d l ss R p s c i P Es C I) as [_ Pr]. apply (Permutation_in _ Pr) in Ij. apply row_part_In in Ij. apply Ij.
        - intros Ij. pose proof (owner_range n d j ltac:(lia) ltac:(lia) J) as C. assert (PT : in_part n d (owner n d j) j) by (apply owner_part; [lia|lia|lia|reflexivity]).
          exists (owner n d j). split.
          + apply A4. split; [exact C|]. exists (i, j, x). split; [exact Ij|]. unfold erow, ecol. cbn [fst snd]. split; [|exact PT]. apply A3; lia.
          + destruct (row_of_ok n d d l ss R p s (owner n d j) i P Es C I) as [_ Pr]. apply (Permutation_in _ (Permutation_sym Pr)). apply row_part_In. split; [exact Ij|]. unfold in_partb. unfold in_part in PT. lia. }
      split.
      + intros x X. apply pick_val.
        * intros y Y. apply ENT in Y. unfold at_most_once in ONE. clear - ONE X Y. induction l as [|e k IH]; [destruct X|]. cbn [map] in ONE. inversion ONE as [|? ? O1 O2]; subst.
          destruct X as [->|X], Y as [Y|Y]; [congruence| | |apply IH; assumption]; exfalso; apply O1; apply in_map_iff; eexists; (split; [|eassumption]); [reflexivity|subst e; reflexivity].
        * right. apply in_map_iff. exists (j, x). split; [reflexivity|]. apply ENT. exact X.
      + intros X. apply pick_none. intros Ij. apply in_map_iff in Ij. destruct Ij as ([j' x] & Ej & Ij). cbn in Ej. subst j'. apply (X x). apply ENT. exact Ij. }
  set (Q := fun (p : Z) (b : dpart V) => exists s, nth_error ss (Z.to_nat p) = Some s /\ p_lo0 b = 1 /\ p_lo1 b = s_ilo s + 1 /\ p_hi0 b = d /\ p_hi1 b = s_ihi s + 1 /\ p_ld b = d /\
     forall i j, s_ilo s <= i <= s_ihi s -> 0 <= j < d -> is_entry zero l i j (p_mem b (j + (i - s_ilo s) * d))).
  destruct (collect_ex (fun p => match nth_error ss (Z.to_nat p) with Some s => to_piece true zero d d g p s | None => Undef end) Q (zseq 0 (Z.to_nat n))) as (bs & EB & FB).
  { intros p P. apply zseq_In in P. destruct (ROW p ltac:(lia)) as (s & Es). rewrite Es. destruct (PC p s ltac:(lia) Es) as (m & Em & Hm). eexists. split; [exact Em|]. exists s. cbn. repeat (split; [first [exact Es|reflexivity]|]). exact Hm. }
  apply Forall2_zseq in FB. destruct FB as [LB FB].
  assert (OWN : forall x y q b, nth_error bs q = Some b -> contains b x y -> 1 <= x <= d /\ 1 <= y <= d /\ owner n d (y - 1) = Z.of_nat q).
  { intros x y q b Eb [C0 C1]. assert (q < length bs)%nat by (apply nth_error_Some; congruence). destruct (FB q b Eb) as (s & Es & E1 & E2 & E3 & E4 & E5 & _). destruct (RR (0 + Z.of_nat q) s ltac:(lia) Es) as (A1 & A2 & A3 & _).
    rewrite E1, E2, E3, E4 in *. split; [lia|]. split; [lia|]. apply owner_part; [lia|lia|lia|]. apply A3; lia. }
  assert (CELL : forall x y, 1 <= x <= d -> 1 <= y <= d -> exists b, nth_error bs (Z.to_nat (owner n d (y - 1))) = Some b /\ contains b x y /\ is_entry zero l (y - 1) (x - 1) (value_at b x y)).
  { intros x y X Y. pose proof (owner_range n d (y - 1) ltac:(lia) ltac:(lia) ltac:(lia)) as OR. destruct (nth_error bs (Z.to_nat (owner n d (y - 1)))) as [b|] eqn:Eb; [|apply nth_error_None in Eb; lia]. exists b. split; [reflexivity|].
    destruct (FB _ b Eb) as (s & Es & E1 & E2 & E3 & E4 & E5 & H). rewrite Z.add_0_l, Z2Nat.id in Es by lia. destruct (RR _ s OR Es) as (A1 & A2 & A3 & _).
    assert (I : s_ilo s <= y - 1 <= s_ihi s) by (apply A3; [lia|]; apply owner_part; [lia|lia|lia|reflexivity]). unfold contains, value_at. rewrite E1, E2, E3, E4, E5. split; [lia|].
    replace (x - 1 + (y - (s_ilo s + 1)) * d) with (x - 1 + (y - 1 - s_ilo s) * d) by ring. apply H; lia. }
  set (a := fun x y : Z => match nth_error bs (Z.to_nat (owner n d (y - 1))) with Some b => value_at b x y | None => zero end).
  exists bs, a. split; [unfold to_dense; rewrite SG; exact EB|]. split.
  - split; [|split].
    + intros q b x y Eb C. destruct (OWN x y q b Eb C) as (X & Y & W). split; [exact X|]. split; [exact Y|]. unfold a. rewrite W, Nat2Z.id, Eb. reflexivity.
    + intros x y X Y. destruct (CELL x y X Y) as (b & Eb & C & _). eexists. eexists. split; [exact Eb|exact C].
    + intros q q' b b' x y Eb Eb' C C'. destruct (OWN x y q b Eb C) as (_ & _ & W). destruct (OWN x y q' b' Eb' C') as (_ & _ & W'). lia.
  - intros i j I J. unfold matrix_of. destruct (CELL (j + 1) (i + 1) ltac:(lia) ltac:(lia)) as (b & Eb & C & H). rewrite !Z.add_simpl_r in H. unfold a. rewrite Eb. exact H.
Qed.

(** A 3 x 2 matrix (indices reversed) on two processes, cut between the columns. *)
Definition nzb (v : Z) : bool := negb (v =? 0).
Definition ex_a (x y : Z) : Z := if x + y =? 4 then 0 else 10 * x + y.
Definition ex_bs : list (dpart Z) := [DPart 1 1 1 3 1 (fun k => ex_a 1 (k + 1)); DPart 2 1 2 3 1 (fun k => ex_a 2 (k + 1))].
Lemma ex_bs_cases q b : nth_error ex_bs q = Some b -> (q = 0%nat /\ b = DPart 1 1 1 3 1 (fun k => ex_a 1 (k + 1))) \/ (q = 1%nat /\ b = DPart 2 1 2 3 1 (fun k => ex_a 2 (k + 1))).
Proof. destruct q as [|[|q]]; intros E; [injection E as <-; left; split; reflexivity|injection E as <-; right; split; reflexivity|destruct q; discriminate]. Qed.
Lemma ex_bs_dense : dense 2 3 ex_bs ex_a.
Proof.
  split; [|split].
  - intros q b x y E. destruct (ex_bs_cases q b E) as [[-> ->]|[-> ->]]; unfold contains, value_at; cbn [p_lo0 p_lo1 p_hi0 p_hi1 p_ld p_mem]; intros [X Y]; (split; [lia|]); (split; [lia|]).
    + assert (x = 1) by lia. subst x. f_equal. lia.
    + assert (x = 2) by lia. subst x. f_equal. lia.
  - intros x y X Y. assert (D : x = 1 \/ x = 2) by lia. destruct D as [->| ->]; [exists 0%nat|exists 1%nat]; (eexists; split; [reflexivity|]); unfold contains; cbn; lia.
  - intros q q' b b' x y E E'. destruct (ex_bs_cases q b E) as [[-> ->]|[-> ->]], (ex_bs_cases q' b' E') as [[-> ->]|[-> ->]]; unfold contains; cbn [p_lo0 p_lo1 p_hi0 p_hi1]; intros; lia || reflexivity.
Qed.
Example C100_ex : dense 2 3 ex_bs ex_a /\ (forall q b, nth_error ex_bs q = Some b -> p_lo0 b <= p_hi0 b /\ p_lo1 b <= p_hi1 b /\ p_ld b = p_hi0 b - p_lo0 b + 1) /\
  (forall p, 0 <= p < 2 -> exists i j, in_part 2 3 p i /\ (0 <= i < 3 /\ 0 <= j < 2) /\ (nzb (matrix_of true ex_a i j) = true \/ i = j)) /\
  exists s t, from_dense true 2 2 nzb 2 3 ex_bs ex_o ex_o = Done [s; t] /\ block_row s 0 0 = Done [(0, 11)] /\ block_row s 1 0 = Done [(1, 21)] /\
    block_row s 0 1 = Done [(0, 12)] /\ block_row s 1 1 = Done [(1, 0)] /\ block_row t 0 2 = Done [] /\ block_row t 1 2 = Done [(1, 23)].
Proof.
  split; [exact ex_bs_dense|]. split; [intros q b E; destruct (ex_bs_cases q b E) as [[-> ->]|[-> ->]]; cbn; lia|]. split.
  - intros p P. assert (D : p = 0 \/ p = 1) by lia. destruct D as [->| ->]; [exists 0, 0|exists 2, 1]; unfold in_part; (split; [lia|]); (split; [lia|]); left; reflexivity.
  - eexists. eexists. split; [vm_compute; reflexivity|]. repeat split; vm_compute; reflexivity.
Qed.
(** With ghost cells columns are farther apart than the code takes them to be. *)
Theorem C100_ghost_refuted : exists (bs : list (dpart Z)) a s r, dense 2 2 bs a /\ from_dense true 2 1 nzb 2 2 bs [(0, 0)] [(0, 0)] = Done [s] /\
  nzb (matrix_of true a 1 0) = true /\ block_row s 0 1 = Done r /\ ~ In (0, matrix_of true a 1 0) r.
Proof.
  set (b := DPart 1 1 2 2 4 (fun k => k + 1)). exists [b], (fun x y => x + (y - 1) * 4). eexists. eexists. split; [|split; [vm_compute; reflexivity|]].
  - split; [|split].
    + intros [|[|q]] c x y E; [injection E as <-|discriminate|discriminate]. unfold contains, value_at. cbn. intros [X Y]. split; [lia|]. split; [lia|]. lia.
    + intros x y X Y. exists 0%nat, b. split; [reflexivity|]. unfold contains. cbn. lia.
    + intros [|[|q]] [|[|q']] c c' x y E E'; try discriminate. reflexivity.
  - split; [reflexivity|]. split; [vm_compute; reflexivity|]. cbn. intros [X|[X|[]]]; discriminate.
Qed.
(** A process that has no part of the array ends the program. *)
Theorem C100_empty_refuted : exists (bs : list (dpart Z)) a, length bs = 2%nat /\ dense 2 2 bs a /\ (forall i j, 0 <= i < 2 -> 0 <= j < 2 -> nzb (a (i + 1) (j + 1)) = true) /\
  forall trans fuel o o', from_dense trans fuel 2 nzb 2 2 bs o o' = Abort.
Proof.
  set (b := DPart 1 1 2 2 2 (fun k => k + 1)). set (e := DPart 0 0 (-1) (-1) 0 (fun k : Z => k)). exists [b; e], (fun x y => x + (y - 1) * 2). split; [reflexivity|]. split; [split; [|split]|split].
  - intros [|[|[|q]]] c x y E; [injection E as <-|injection E as <-|discriminate|discriminate]; unfold contains, value_at; cbn; intros [X Y]; [|lia]. split; [lia|]. split; [lia|]. lia.
  - intros x y X Y. exists 0%nat, b. split; [reflexivity|]. unfold contains. cbn. lia.
  - intros [|[|[|q]]] [|[|[|q']]] c c' x y E E'; try discriminate; try reflexivity; injection E as <-; injection E' as <-; unfold contains; cbn; lia.
  - intros i j I J. unfold nzb. apply negb_true_iff. lia.
  - intros trans fuel o o'. reflexivity.
Qed.

Example C101_ex : exists ss, Forall (inside 3 3) (all_elts 2 sq_els) /\ at_most_once (all_elts 2 sq_els) /\ represents 2 3 3 (all_elts 2 sq_els) ss /\
  exists b c, to_dense true 2 0 3 3 ss = Done [b; c] /\ p_hi1 b = 2 /\ p_lo1 c = 3 /\ value_at b 1 2 = 4 /\ value_at b 2 2 = 0 /\ value_at c 2 3 = 7.
Proof.
  destruct sq_ok as (I & O & _). destruct sq_rep as (ss & E & R). exists ss. split; [exact I|]. split; [exact O|]. split; [exact R|]. vm_compute in E. injection E as <-. eexists. eexists. split; [vm_compute; reflexivity|]. repeat split; vm_compute; reflexivity.
Qed.
(** The Fortran interface always ends the program. *)
Theorem C101_fortran : forall V (zero : V) n idim jdim ss, to_dense false n zero idim jdim ss = Abort.
Proof.
  intros V zero n idim jdim ss. unfold to_dense, set_irreg_distr, dense_desc. cbn [dims]. destruct (too_many [idim; jdim] [n; 1]); [reflexivity|]. unfold dense_map. cbn [irreg_check]. change (0 <? 1) with true. reflexivity.
Qed.
Theorem C101_fortran_refuted : exists (l : list (elt Z)) ss, Forall (inside 3 3) l /\ at_most_once l /\ represents 2 3 3 l ss /\ to_dense false 2 0 3 3 ss = Abort.
Proof.
  destruct sq_ok as (I & O & _). destruct sq_rep as (ss & _ & R). exists (all_elts 2 sq_els), ss. split; [exact I|]. split; [exact O|]. split; [exact R|]. apply C101_fortran.
Qed.
(** The array has the dimensions of the transposed matrix: one with fewer rows than
    columns gets an array without the place of an element, one with fewer columns than
    rows ends the program. *)
Theorem C101_shape_refuted : 
  (exists (l : list (elt Z)) ss bs, Forall (inside 1 2) l /\ at_most_once l /\ represents 1 1 2 l ss /\ In (0, 1, 7) l /\
     to_dense true 1 0 1 2 ss = Done bs /\ forall b, In b bs -> ~ contains b (1 + 1) (0 + 1)) /\
  (exists (l : list (elt Z)) ss, Forall (inside 2 1) l /\ at_most_once l /\ represents 1 2 1 l ss /\ to_dense true 1 0 2 1 ss = Abort).
Proof.
  assert (AP : all_pairs 1 [(0, 0)]) by (unfold all_pairs; apply Permutation_refl).
  assert (O : at_most_once [(0, 1, 7)]) by (unfold at_most_once; repeat constructor; intros []).
  assert (O2 : at_most_once [(1, 0, 7)]) by (unfold at_most_once; repeat constructor; intros []).
  assert (I : forall q, 0 <= q < 1 -> Forall (inside 1 2) [(0, 1, 7)]) by (intros q _; repeat constructor; cbn; lia).
  assert (I2 : forall q, 0 <= q < 1 -> Forall (inside 2 1) [(1, 0, 7)]) by (intros q _; repeat constructor; cbn; lia).
  split.
  - destruct (C95_partial Z 2 1 1 2 (fun _ => [(0, 1, 7)]) [(0, 0)] [(0, 0)]) as (ss & E & R); [lia|lia|lia|exact AP|exact AP|exact I| |].
    { intros p P. exists (0, 1, 7). split; [left; reflexivity|]. unfold in_part. cbn. lia. }
    exists [(0, 1, 7)], ss. eexists. split; [apply (I 0); lia|]. split; [exact O|]. split; [exact R|]. split; [left; reflexivity|]. vm_compute in E. injection E as <-. split; [vm_compute; reflexivity|].
    intros b [<-|[]]. unfold contains. cbn. lia.
  - destruct (C95_partial Z 2 1 2 1 (fun _ => [(1, 0, 7)]) [(0, 0)] [(0, 0)]) as (ss & E & R); [lia|lia|lia|exact AP|exact AP|exact I2| |].
    { intros p P. exists (1, 0, 7). split; [left; reflexivity|]. unfold in_part. cbn. lia. }
    exists [(1, 0, 7)], ss. split; [apply (I2 0); lia|]. split; [exact O2|]. split; [exact R|]. vm_compute in E. injection E as <-. vm_compute. reflexivity.
Qed.
Print Assumptions C100_partial.
Print Assumptions C100_ghost_refuted.
Print Assumptions C100_empty_refuted.
Print Assumptions C101_partial.
Print Assumptions C101_fortran.
Print Assumptions C101_fortran_refuted.
Print Assumptions C101_shape_refuted.
