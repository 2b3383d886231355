(** Property theorem: the product of a sparse matrix and a dense array (C102). *)
From Verif Require Import SpecSprs MBase MNb MHandle MGroup MSparse MDist MIrreg MSprs MSprs2 MSprs4 MSprs5 LNb LRadix LStore LIterBlk LTile LSprs LSprs2 LSprs3 LSprs4 LSprs5 LSprs6 LReg2 LSprs10 LSprs11 PSprs PSprs2 PSprs4.
From Coq Require Import Permutation.
Open Scope Z_scope.

(** An array whose second dimension has the distribution of the rows of a sparse matrix. *)
Lemma row_parts {V} n d0 d jdim (l : list (elt V)) ss : 1 <= n <= d -> 1 <= d0 -> represents n d jdim l ss ->
  exists g, set_irreg_distr false (dense_desc d0 d) (1 :: map (fun s => s_ilo s + 1) ss) [1; n] = Done g /\
    forall p s, 0 <= p < n -> nth_error ss (Z.to_nat p) = Some s -> owns g p = Some ([1; s_ilo s + 1], [d0; s_ihi s + 1]).
Proof.
  intros NI D0 R. pose proof R as [LS RR].
  assert (ROW : forall p, 0 <= p < n -> exists s, nth_error ss (Z.to_nat p) = Some s).
  { intros p P. destruct (nth_error ss (Z.to_nat p)) eqn:E; [eexists; reflexivity|]. apply nth_error_None in E. lia. }
  set (mp := map (fun s : sprs V => s_ilo s + 1) ss).
  assert (MP : forall k x, nth_error mp k = Some x -> exists s, nth_error ss k = Some s /\ x = s_ilo s + 1 /\ 0 <= s_ilo s <= s_ihi s /\ s_ihi s < d).
  { intros k x E. unfold mp in E. rewrite nth_error_map in E. destruct (nth_error ss k) as [s|] eqn:Es; [|discriminate]. cbn in E. injection E as <-. exists s. split; [reflexivity|]. split; [reflexivity|].
    assert (k < length ss)%nat by (apply nth_error_Some; congruence). destruct (RR (Z.of_nat k) s) as (A & B & _); [lia|rewrite Nat2Z.id; exact Es|]. split; assumption. }
  set (g := {| distr_type := REGULAR; dims := [d0; d]; nblock := [1; n]; mapc := (1 :: mp) ++ [-1]; block_dims := []; num_blocks := []; rstrctd_list := []; rank_rstrctd := [] |}).
  assert (LM : length mp = Z.to_nat n) by (unfold mp; rewrite map_length; exact LS).
  assert (SG : set_irreg_distr false (dense_desc d0 d) (1 :: mp) [1; n] = Done g).
  { unfold set_irreg_distr, dense_desc. cbn [dims too_many]. replace (d0 <? 1) with false by lia. replace (d <? n) with false by lia. cbn [orb].
    cbn [irreg_check]. replace ((1 <? 1) || (d0 + 1 <? 1)) with false by lia. change (Z.to_nat (1 - 1)) with O. cbn [irreg_entries].
    destruct mp as [|x mp'] eqn:EM; [cbn in LM; lia|]. destruct (MP O x eq_refl) as (s0 & _ & Ex & B0 & B1). replace ((x <? 1) || (d + 1 <? x)) with false by lia.
    replace (Z.to_nat (n - 1)) with (length mp') by (cbn in LM; lia). rewrite entries_ok.
    - cbn [irreg_check]. unfold irreg_copy. cbn [zsum length]. rewrite <- EM. replace (1 + (n + 0)) with (n + 1) by lia.
      replace ((n + 1 <? 0) || (Z.of_nat (S (S (length mp'))) <? n + 1)) with false by (cbn in LM; lia). rewrite firstn_all2 by (rewrite EM; cbn in LM |- *; lia). subst g. rewrite EM. reflexivity.
    - intros k y E. destruct (MP (S k) y E) as (s & _ & Ey & C0 & C1). lia.
    - intros y E. destruct (MP 0%nat x eq_refl) as (s & Es & Ex' & C0 & C1). destruct (MP 1%nat y E) as (t & Et & Ey & _). assert (1 < length ss)%nat by (apply nth_error_Some; congruence).
      assert (s_ilo t = s_ihi s + 1) by (apply (rows_next n d jdim l ss NI R 0 s t); [lia|lia|exact Es|exact Et]). lia.
    - intros k y z E E'. destruct (MP (S k) y E) as (s & Es & Ey & C0 & C1). destruct (MP (S (S k)) z E') as (t & Et & Ez & _). assert (S (S k) < length ss)%nat by (apply nth_error_Some; congruence).
      assert (s_ilo t = s_ihi s + 1) by (apply (rows_next n d jdim l ss NI R (Z.of_nat (S k)) s t); [lia|lia|rewrite Nat2Z.id; exact Es|replace (Z.to_nat (Z.of_nat (S k) + 1)) with (S (S k)) by lia; exact Et]). lia. }
  assert (OW : forall p s, 0 <= p < n -> nth_error ss (Z.to_nat p) = Some s -> owns g p = Some ([1; s_ilo s + 1], [d0; s_ihi s + 1])).
  { intros p s P Es. unfold owns. change (num_rstrctd g =? 0) with true. change (distr_type g) with REGULAR. cbn iota. change (dims g) with [d0; d]. change (nblock g) with [1; n]. change (mapc g) with ((1 :: mp) ++ [-1]). unfold owns_no_handle. change (zprod [1; n]) with (1 * (n * 1)).
    replace ((1 * (n * 1) - 1 <? p) || (p <? 0)) with false by lia. cbn [owns_dims]. unfold cmod, cdiv. change (1 =? 0) with false. cbn iota. rewrite Z.rem_1_r, Z.quot_1_r.
    change (0 =? 1 - 1) with true. rewrite (zget_nth _ 0) by lia. change (nth_error ((1 :: mp) ++ [-1]) (Z.to_nat 0)) with (Some 1). cbn iota.
    replace (n =? 0) with false by lia. rewrite Z.rem_small by lia. change (zdrop 1 ((1 :: mp) ++ [-1])) with (mp ++ [-1]).
    rewrite zget_nth by lia. rewrite nth_error_app1 by (rewrite LM; lia). unfold mp at 1. rewrite nth_error_map, Es. cbn [option_map].
    destruct (Z.eqb_spec p (n - 1)) as [->|Ne].
    - rewrite (rows_last n d jdim l ss NI R s Es). cbn [fst snd]. replace (d - 1 + 1) with d by lia. reflexivity.
    - destruct (ROW (p + 1) ltac:(lia)) as (t & Et). rewrite zget_nth by lia. rewrite nth_error_app1 by (rewrite LM; lia). unfold mp. rewrite nth_error_map, Et. cbn [option_map fst snd].
      rewrite (rows_next n d jdim l ss NI R p s t ltac:(lia) ltac:(lia) Es Et). do 4 f_equal. lia. }
  exists g. split; [exact SG|exact OW].
Qed.
Lemma starts_rows {V} n d jdim (l : list (elt V)) ss : 1 <= n <= d -> represents n d jdim l ss ->
  offsets_from 1 (map (fun s => s_ihi s - s_ilo s + 1) ss) = map (fun s => s_ilo s + 1) ss.
Proof.
  intros NI R. pose proof R as [LS RR].
  assert (G : forall ts k x, (forall q s, nth_error ts q = Some s -> nth_error ss (k + q) = Some s) -> (forall s, nth_error ts 0 = Some s -> x = s_ilo s + 1) ->
    offsets_from x (map (fun s => s_ihi s - s_ilo s + 1) ts) = map (fun s => s_ilo s + 1) ts).
  { induction ts as [|s ts IH]; intros k x H X; [reflexivity|]. cbn [map offsets_from]. rewrite (X s eq_refl). f_equal. apply (IH (S k)).
    - intros q t E. specialize (H (S q) t E). rewrite <- H. f_equal. lia.
    - intros t E. pose proof (H 0%nat s eq_refl) as H0. pose proof (H 1%nat t E) as H1. assert (k + 1 < length ss)%nat by (apply nth_error_Some; congruence).
      assert (s_ilo t = s_ihi s + 1); [|lia]. apply (rows_next n d jdim l ss NI R (Z.of_nat k) s t); [lia|lia| |].
      + rewrite Nat2Z.id. rewrite <- H0. f_equal. lia.
      + rewrite <- H1. f_equal. lia. }
  apply (G ss 0%nat 1); [intros q s E; exact E|]. intros s E. destruct (RR 0 s ltac:(lia) E) as (A1 & A2 & A3 & _). assert (X : in_part n d 0 0) by (unfold in_part; lia). apply A3 in X; lia.
Qed.
Lemma part_sum_all {V} n idim d (add mul : V -> V -> V) zero (l : list (elt V)) ss p s bm i j : addition add zero -> 1 <= n <= idim -> n <= d -> Forall (inside idim d) l -> represents n idim d l ss ->
  0 <= p < n -> nth_error ss (Z.to_nat p) = Some s -> NoDup (s_blk s) -> s_ilo s <= i <= s_ihi s ->
  part_sum add mul zero bm (flat_map (fun c => row_of s c i) (s_blk s)) j = row_product add mul zero l (fun k => bm k j) i.
Proof.
  intros AD NI NJ IN R P Es ND I. pose proof R as [LS RR]. destruct (RR p s P Es) as (A1 & A2 & A3 & A4 & _ & A6).
  assert (ACC : forall c, (access_col_block s c = Done None /\ ~ In c (s_blk s)) \/ exists w, access_col_block s c = Done (Some w)).
  { intros c. destruct (in_dec Z.eq_dec c (s_blk s)) as [C|C]; [|left; split; [unfold access_col_block; rewrite find_block_none by exact C; reflexivity|exact C]].
    apply A4 in C. destruct C as [C _]. destruct (A6 c (s_ilo s) C ltac:(lia)) as (r & Er & _). apply (access_cases s c (s_ilo s) r Er). }
  rewrite <- (rowsum_all 2 n idim d add mul zero l (fun k => bm k j) ltac:(lia) NI NJ AD IN s A6 ACC). unfold part_sum.
  set (f := fun kx : Z * V => mul (snd kx) (bm (fst kx) j)).
  assert (S1 : forall (g : Z -> list (Z * V)) cs, lsum add zero (map f (flat_map g cs)) = lsum add zero (map (fun c => lsum add zero (map f (g c))) cs)).
  { intros g. induction cs as [|c cs IH]; [reflexivity|]. cbn [flat_map map]. rewrite map_app, (lsum_app add zero AD), IH. reflexivity. }
  rewrite S1. assert (EQ : forall c, In c (s_blk s) -> lsum add zero (map f (row_of s c i)) = lsum add zero (map f (row_part n d c i l))).
  { intros c C. apply A4 in C. destruct C as [C _]. apply (lsum_perm add zero AD), Permutation_map. apply (row_of_ok n idim d l ss R p s c i P Es C I). }
  rewrite (map_ext_in _ _ _ EQ). set (h := fun c => lsum add zero (map f (row_part n d c i l))).
  set (fl := filter (fun c => if in_dec Z.eq_dec c (s_blk s) then true else false) (zseq 0 (Z.to_nat n))).
  transitivity (lsum add zero (map h fl)).
  - apply (lsum_perm add zero AD), Permutation_map. apply NoDup_Permutation; [exact ND|apply NoDup_filter, zseq_NoDup|]. intros c. unfold fl. rewrite filter_In, zseq_In. destruct (in_dec Z.eq_dec c (s_blk s)) as [X|X].
    + split; [|intros _; exact X]. intros _. apply A4 in X. split; [lia|reflexivity].
    + split; [contradiction|intros [_ Q]; discriminate].
  - unfold fl. induction (zseq 0 (Z.to_nat n)) as [|c cs IH]; [reflexivity|]. cbn [filter map lsum fold_right]. destruct (in_dec Z.eq_dec c (s_blk s)) as [X|X]; [cbn [map lsum fold_right]; f_equal; exact IH|].
    transitivity (lsum add zero (map (fun c0 => lsum add zero (map f (row_part n d c0 i l))) cs)); [exact IH|].
    assert (E : row_part n d c i l = []).
    { destruct (row_part n d c i l) as [|[k x] t] eqn:RP; [reflexivity|exfalso]. assert (In (k, x) (row_part n d c i l)) as IK by (rewrite RP; left; reflexivity). apply row_part_In in IK. destruct IK as [IK PB]. apply in_partb_spec in PB. apply X. apply A4.
      rewrite Forall_forall in IN. destruct (IN _ IK) as [Hr Hc]. unfold erow, ecol in *. cbn [fst snd] in *. split.
      - assert (owner n d k = c) by (apply owner_part; [lia|lia|lia|exact PB]). pose proof (owner_range n d k ltac:(lia) ltac:(lia) Hc). lia.
      - exists (i, k, x). split; [exact IK|]. unfold erow, ecol. cbn [fst snd]. split; [apply A3; [lia|exact I]|exact PB]. }
    change (lsum add zero (map h cs) = add (h c) (lsum add zero (map h cs))). unfold h at 2. rewrite E. symmetry. apply (ad_zero _ _ AD).
Qed.

(** * C102: the product of a sparse matrix and a dense array *)
Theorem C102_partial : forall V (add mul : V -> V -> V) (zero : V) fuel n idim d l ss b,
  addition add zero -> (2 <= fuel)%nat -> 1 <= n <= idim -> n <= d -> Forall (inside idim d) l -> represents n idim d l ss -> Forall (fun s => NoDup (s_blk s)) ss ->
  exists bs a, sprsdns true fuel n add mul zero idim d d d b ss = Done bs /\ dense d idim bs a /\
    forall i j, 0 <= i < idim -> 0 <= j < d -> matrix_of true a i j = row_product add mul zero l (fun k => matrix_of true b k j) i.
Proof.
  intros V add mul zero fuel n idim d l ss b AD FU NI NJ IN R ONCE. pose proof R as [LS RR].
  destruct (row_parts n d idim d l ss NI ltac:(lia) R) as (g & SG & OW).
  assert (ROW : forall p, 0 <= p < n -> exists s, nth_error ss (Z.to_nat p) = Some s).
  { intros p P. destruct (nth_error ss (Z.to_nat p)) eqn:E; [eexists; reflexivity|]. apply nth_error_None in E. lia. }
  set (Q := fun (p : Z) (c : dpart V) => exists s, nth_error ss (Z.to_nat p) = Some s /\ p_lo0 c = 1 /\ p_lo1 c = s_ilo s + 1 /\ p_hi0 c = d /\ p_hi1 c = s_ihi s + 1 /\ p_ld c = d /\
     forall i j, s_ilo s <= i <= s_ihi s -> 0 <= j < d -> p_mem c (j + (i - s_ilo s) * d) = row_product add mul zero l (fun k => matrix_of true b k j) i).
  destruct (collect_ex (fun p => match nth_error ss (Z.to_nat p), owns g p with
    | Some s, Some ([a0; a1], [b0; b1]) => try m <- mul_targets true fuel n add mul d d d b a0 a1 b0 b1 s (zseq 0 (Z.to_nat n)) (fun _ => zero); Done (DPart a0 a1 b0 b1 (b0 - a0 + 1) m)
    | _, _ => Undef end) Q (zseq 0 (Z.to_nat n))) as (bs & EB & FB).
  { intros p P. apply zseq_In in P. destruct (ROW p ltac:(lia)) as (s & Es). rewrite Es, (OW p s ltac:(lia) Es). destruct (RR p s ltac:(lia) Es) as (A1 & A2 & A3 & A4 & _ & A6).
    assert (ND : NoDup (s_blk s)) by (rewrite Forall_forall in ONCE; apply ONCE; eapply nth_error_In; exact Es).
    destruct (mul_targets_ok fuel n d add mul zero b s (row_of s) AD FU ltac:(lia) ltac:(lia)) with (ls := zseq 0 (Z.to_nat n)) (m := fun _ : Z => zero) as (m & E & M).
    - intros c C. assert (C' := C). apply A4 in C. destruct C as [C _]. split; [exact C|]. split.
      + destruct (A6 c (s_ilo s) C ltac:(lia)) as (r & Er & _). destruct (find_block_In (s_blk s) c 0 C') as (k & Fk & Kb). unfold block_row, access_col_block in *. rewrite Fk in *. destruct (rdl (s_off s) k); [eexists; reflexivity|discriminate|discriminate].
      + intros i I. destruct (row_of_ok n idim d l ss R p s c i ltac:(lia) Es C I) as [Er Pr]. split; [exact Er|]. intros k x Ik. apply (Permutation_in _ Pr) in Ik. apply row_part_In in Ik. destruct Ik as [Ik PB].
        rewrite Forall_forall in IN. destruct (IN _ Ik) as [_ Hc]. split; [exact Hc|]. apply in_partb_spec. exact PB.
    - apply zseq_NoDup.
    - intros x X. apply zseq_In in X. lia.
    - rewrite E. eexists. split; [reflexivity|]. exists s. cbn [p_lo0 p_lo1 p_hi0 p_hi1 p_ld p_mem]. repeat (split; [first [exact Es|reflexivity|lia]|]). intros i j I J. rewrite (M i j I J).
      pose proof (owner_range n d j ltac:(lia) ltac:(lia) J). destruct (in_dec Z.eq_dec (owner n d j) (zseq 0 (Z.to_nat n))) as [X|X]; [|exfalso; apply X; apply zseq_In; lia].
      rewrite (ad_zero _ _ AD). apply (part_sum_all n idim d add mul zero l ss p s (fun k j : Z => b (j + 1) (k + 1)) i j AD NI NJ IN R ltac:(lia) Es ND I). }
  apply Forall2_zseq in FB. destruct FB as [LB FB].
  assert (OWN : forall x y q c, nth_error bs q = Some c -> contains c x y -> 1 <= x <= d /\ 1 <= y <= idim /\ owner n idim (y - 1) = Z.of_nat q).
  { intros x y q c Eb [C0 C1]. assert (q < length bs)%nat by (apply nth_error_Some; congruence). destruct (FB q c Eb) as (s & Es & E1 & E2 & E3 & E4 & E5 & _). destruct (RR (0 + Z.of_nat q) s ltac:(lia) Es) as (A1 & A2 & A3 & _).
    rewrite E1, E2, E3, E4 in *. split; [lia|]. split; [lia|]. apply owner_part; [lia|lia|lia|]. apply A3; lia. }
  assert (CELL : forall x y, 1 <= x <= d -> 1 <= y <= idim -> exists c, nth_error bs (Z.to_nat (owner n idim (y - 1))) = Some c /\ contains c x y /\ value_at c x y = row_product add mul zero l (fun k => matrix_of true b k (x - 1)) (y - 1)).
  { intros x y X Y. pose proof (owner_range n idim (y - 1) ltac:(lia) ltac:(lia) ltac:(lia)) as OR. destruct (nth_error bs (Z.to_nat (owner n idim (y - 1)))) as [c|] eqn:Eb; [|apply nth_error_None in Eb; lia]. exists c. split; [reflexivity|].
    destruct (FB _ c Eb) as (s & Es & E1 & E2 & E3 & E4 & E5 & H). rewrite Z.add_0_l, Z2Nat.id in Es by lia. destruct (RR _ s OR Es) as (A1 & A2 & A3 & _).
    assert (I : s_ilo s <= y - 1 <= s_ihi s) by (apply A3; [lia|]; apply owner_part; [lia|lia|lia|reflexivity]). unfold contains, value_at. rewrite E1, E2, E3, E4, E5. split; [lia|].
    replace (x - 1 + (y - (s_ilo s + 1)) * d) with (x - 1 + (y - 1 - s_ilo s) * d) by ring. apply H; lia. }
  set (a := fun x y : Z => match nth_error bs (Z.to_nat (owner n idim (y - 1))) with Some c => value_at c x y | None => zero end).
  exists bs, a. split.
  - unfold sprsdns. rewrite Z.eqb_refl. cbn [negb]. unfold product_map. rewrite (starts_rows n idim d l ss NI R), SG. exact EB.
  - split; [split; [|split]|].
    + intros q c x y Eb C. destruct (OWN x y q c Eb C) as (X & Y & W). split; [exact X|]. split; [exact Y|]. unfold a. rewrite W, Nat2Z.id, Eb. reflexivity.
    + intros x y X Y. destruct (CELL x y X Y) as (c & Eb & C & _). eexists. eexists. split; [exact Eb|exact C].
    + intros q q' c c' x y Eb Eb' C C'. destruct (OWN x y q c Eb C) as (_ & _ & W). destruct (OWN x y q' c' Eb' C') as (_ & _ & W'). lia.
    + intros i j I J. unfold matrix_of at 1. destruct (CELL (j + 1) (i + 1) ltac:(lia) ltac:(lia)) as (c & Eb & C & H). rewrite !Z.add_simpl_r in H. unfold a. rewrite Z.add_simpl_r in Eb |- *. rewrite Eb. exact H.
Qed.
(** Every matrix that is assembled has each block at most once. *)
Theorem C102_assembled : forall V (add mul : V -> V -> V) (zero : V) fuel n idim d (els : Z -> list (elt V)) o o' b,
  addition add zero -> (2 <= fuel)%nat -> 1 <= n <= idim -> n <= d -> all_pairs n o -> all_pairs n o' -> (forall q, 0 <= q < n -> Forall (inside idim d) (els q)) ->
  rows_used n idim (all_elts n els) ->
  exists ss bs a, assemble fuel n idim d els o o' = Done ss /\ sprsdns true fuel n add mul zero idim d d d b ss = Done bs /\ dense d idim bs a /\
    forall i j, 0 <= i < idim -> 0 <= j < d -> matrix_of true a i j = row_product add mul zero (all_elts n els) (fun k => matrix_of true b k j) i.
Proof.
  intros V add mul zero fuel n idim d els o o' b AD FU NI NJ O1 O2 IN U. destruct (C95_partial V fuel n idim d els o o' FU NI ltac:(lia) O1 O2 IN U) as (ss & E & R).
  destruct (C102_partial V add mul zero fuel n idim d (all_elts n els) ss b AD FU NI NJ) as (bs & a & E' & D & H); [exact (all_inside fuel n idim d els FU NI IN)|exact R|exact (assemble_once _ _ _ _ _ _ _ _ E)|].
  exists ss, bs, a. split; [exact E|]. split; [exact E'|]. split; [exact D|exact H].
Qed.

Example C102_ex : exists ss, Forall (inside 3 3) (all_elts 2 sq_els) /\ represents 2 3 3 (all_elts 2 sq_els) ss /\ Forall (fun s => NoDup (s_blk s)) ss /\
  exists b c, sprsdns true 2 2 Z.add Z.mul 0 3 3 3 3 (fun x y => x + 10 * y) ss = Done [b; c] /\ p_hi1 b = 2 /\ p_lo1 c = 3 /\
    value_at b 2 1 = 5 * 12 + 2 * 22 /\ value_at b 3 2 = 4 * 13 + 1 * 33 /\ value_at c 1 3 = 7 * 21 + 10 * 31.
Proof.
  destruct sq_ok as (I & _). destruct sq_rep as (ss & E & R). exists ss. split; [exact I|]. split; [exact R|]. split; [exact (assemble_once _ _ _ _ _ _ _ _ E)|]. vm_compute in E. injection E as <-. eexists. eexists. split; [vm_compute; reflexivity|]. repeat split; vm_compute; reflexivity.
Qed.
(** The columns of the product are distributed like those of the sparse matrix.  If the
    array has more columns than rows, the others stay zero; if it has fewer, the program
    ends with an error. *)
Theorem C102_shape_refuted :
  (exists (l : list (elt Z)) ss b c, Forall (inside 1 1) l /\ represents 1 1 1 l ss /\ sprsdns true 2 1 Z.add Z.mul 0 1 1 2 1 b ss = Done [c] /\
     contains c 2 1 /\ value_at c 2 1 = 0 /\ row_product Z.add Z.mul 0 l (fun k => matrix_of true b k 1) 0 = 7) /\
  (exists (l : list (elt Z)) ss, Forall (inside 1 2) l /\ represents 1 1 2 l ss /\ forall b, sprsdns true 2 1 Z.add Z.mul 0 1 2 1 2 b ss = Abort).
Proof.
  assert (AP : all_pairs 1 [(0, 0)]) by (unfold all_pairs; apply Permutation_refl).
  assert (I : forall q, 0 <= q < 1 -> Forall (inside 1 1) [(0, 0, 7)]) by (intros q _; repeat constructor; cbn; lia).
  assert (I2 : forall q, 0 <= q < 1 -> Forall (inside 1 2) [(0, 1, 7)]) by (intros q _; repeat constructor; cbn; lia).
  split.
  - destruct (C95_partial Z 2 1 1 1 (fun _ => [(0, 0, 7)]) [(0, 0)] [(0, 0)]) as (ss & E & R); [lia|lia|lia|exact AP|exact AP|exact I| |].
    { intros p P. exists (0, 0, 7). split; [left; reflexivity|]. unfold in_part. cbn. lia. }
    exists [(0, 0, 7)], ss, (fun _ _ => 1). eexists. split; [apply (I 0); lia|]. split; [exact R|]. vm_compute in E. injection E as <-. split; [vm_compute; reflexivity|].
    split; [unfold contains; cbn; lia|]. split; vm_compute; reflexivity.
  - destruct (C95_partial Z 2 1 1 2 (fun _ => [(0, 1, 7)]) [(0, 0)] [(0, 0)]) as (ss & E & R); [lia|lia|lia|exact AP|exact AP|exact I2| |].
    { intros p P. exists (0, 1, 7). split; [left; reflexivity|]. unfold in_part. cbn. lia. }
    exists [(0, 1, 7)], ss. split; [apply (I2 0); lia|]. split; [exact R|]. vm_compute in E. injection E as <-. intros b. vm_compute. reflexivity.
Qed.
(** The Fortran interface counts the rows of a block of the array instead of its columns
    and reads outside of the buffer. *)
Theorem C102_fortran_refuted : exists (l : list (elt Z)) ss, Forall (inside 3 3) l /\ represents 2 3 3 l ss /\ Forall (fun s => NoDup (s_blk s)) ss /\
  sprsdns false 2 2 Z.add Z.mul 0 3 3 3 3 (fun x y => x + 10 * y) ss = Undef.
Proof.
  destruct sq_ok as (I & _). destruct sq_rep as (ss & E & R). exists (all_elts 2 sq_els), ss. split; [exact I|]. split; [exact R|]. split; [exact (assemble_once _ _ _ _ _ _ _ _ E)|]. vm_compute in E. injection E as <-. vm_compute. reflexivity.
Qed.

Print Assumptions C102_partial.
Print Assumptions C102_assembled.
Print Assumptions C102_shape_refuted.
Print Assumptions C102_fortran_refuted.
