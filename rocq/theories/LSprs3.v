(** Lemmas about sparse matrices: arranging the local elements, and assembly. *)
From Verif Require Import SpecSprs MBase MNb MHandle MGroup MSparse MSprs LNb LRadix LStore LIterBlk LSprs LSprs2 LNotify LTile LSparse2.
From Coq Require Import Permutation.
Open Scope Z_scope.

Definition picked {A} (f : A -> Z) (l : list A) (k : Z) : list A := rev (filter (fun a => f a =? k) l).
Lemma picked_perm {A} (f : A -> Z) l k : Permutation (picked f l k) (filter (fun a => f a =? k) l).
Proof. unfold picked. symmetry. apply Permutation_rev. Qed.
Lemma filter_or_len {A} (P Q : A -> bool) l : (forall a, P a = true -> Q a = false) ->
  length (filter (fun a => P a || Q a) l) = (length (filter P l) + length (filter Q l))%nat.
Proof.
  intros D. induction l as [|a l IH]; [reflexivity|]. cbn [filter]. specialize (D a). destruct (P a), (Q a); cbn [orb length]; try rewrite IH; try lia; try (specialize (D eq_refl); discriminate).
Qed.
Lemma picked_len {A} (f : A -> Z) l : forall ks, NoDup ks -> length (flat_map (picked f l) ks) = length (filter (fun a => existsb (Z.eqb (f a)) ks) l).
Proof.
  induction ks as [|k ks IH]; intros N; cbn [flat_map existsb].
  - induction l as [|a l IH]; [reflexivity|exact IH].
  - inversion N as [|? ? N1 N2]; subst. rewrite app_length, IH by exact N2. unfold picked at 1. rewrite rev_length.
    rewrite (filter_or_len (fun a => f a =? k) (fun a => existsb (Z.eqb (f a)) ks)); [reflexivity|].
    intros a E. apply Z.eqb_eq in E. subst k. destruct (existsb (Z.eqb (f a)) ks) eqn:X; [|reflexivity]. exfalso. apply existsb_exists in X. destruct X as (y & I & E). apply Z.eqb_eq in E. subst y. contradiction.
Qed.
Lemma picked_all {A} (f : A -> Z) l lo n : Forall (fun a => lo <= f a < lo + Z.of_nat n) l -> length (flat_map (picked f l) (zseq lo n)) = length l.
Proof.
  intros F. rewrite picked_len by apply zseq_NoDup. induction l as [|a l IH]; [reflexivity|]. inversion F; subst. cbn [filter].
  replace (existsb (Z.eqb (f a)) (zseq lo n)) with true; [cbn [length]; rewrite IH by assumption; reflexivity|].
  symmetry. apply existsb_exists. exists (f a). split; [apply zseq_In; lia|apply Z.eqb_refl].
Qed.
Lemma filter_len_le {A} (P : A -> bool) l : (length (filter P l) <= length l)%nat.
Proof. induction l as [|a l IH]; [apply le_n|]. cbn [filter]. destruct (P a); cbn [length]; lia. Qed.

Lemma rdl_app {A} (l1 l2 l3 : list A) x k a : x = zlen l1 + k -> 0 <= k -> nth_error l2 (Z.to_nat k) = Some a -> rdl (l1 ++ l2 ++ l3) x = Done a.
Proof.
  intros -> K E. unfold rdl. pose proof (zlen_nonneg l1). replace (0 <=? zlen l1 + k) with true by lia. unfold zlen in *.
  rewrite nth_error_app2 by lia. replace (Z.to_nat (Z.of_nat (length l1) + k) - length l1)%nat with (Z.to_nat k) by lia.
  rewrite nth_error_app1 by (apply nth_error_Some; congruence). rewrite E. reflexivity.
Qed.

(** No two rows of blocks share a place. *)
Definition apart {V} (s : sprs V) : Prop := forall c i c' i' x y x' y' p,
  s_ilo s <= i <= s_ihi s -> s_ilo s <= i' <= s_ihi s -> row_place s c i = Done (Some (x, y)) -> row_place s c' i' = Done (Some (x', y')) ->
  x <= p < y -> x' <= p < y' -> c = c' /\ i = i'.

Section Arrange.
Context {V : Type}.
Notation elt := (elt V).

Lemma col_blocks_ok n (f : elt -> Z) loc b : binned n f loc b -> forall cs, (forall c, In c cs -> 0 <= c < n) ->
  col_blocks loc b cs = Done (map (fun c => (c, picked f loc c)) (filter (fun c => 0 <? b_count b c) cs)).
Proof.
  intros B. induction cs as [|c cs IH]; intros R; [reflexivity|]. cbn [col_blocks filter]. destruct (binned_walk n f loc b c B (R c (or_introl eq_refl))) as [W T].
  rewrite T. rewrite IH by (intros c' I; apply R; right; exact I). destruct (0 <? b_count b c); [|reflexivity]. rewrite W. reflexivity.
Qed.
Lemma row_loop_ok nrows (f : elt -> Z) blk b : binned nrows f blk b -> forall rows icnt, (forall r, In r rows -> 0 <= r < nrows) ->
  0 < icnt + zlen (flat_map (picked f blk) rows) ->
  exists ii, row_loop blk b rows icnt = Done (ii, flat_map (picked f blk) rows) /\ length ii = S (length rows) /\
    nth_error ii 0 = Some icnt /\
    forall r1 r r2, rows = r1 ++ r :: r2 ->
      nth_error ii (length r1) = Some (icnt + zlen (flat_map (picked f blk) r1)) /\
      nth_error ii (S (length r1)) = Some (icnt + zlen (flat_map (picked f blk) r1) + zlen (picked f blk r)).
Proof.
  intros B. induction rows as [|r rows IH]; intros icnt R P.
  - cbn [row_loop flat_map]. unfold zlen in P. cbn in P. replace (0 <? icnt) with true by lia. exists [icnt]. split; [reflexivity|]. split; [reflexivity|]. split; [reflexivity|]. intros r1 r r2 E. destruct r1; discriminate.
  - cbn [row_loop flat_map] in *. destruct (binned_walk nrows f blk b r B (R r (or_introl eq_refl))) as [W _]. rewrite W. fold (picked f blk r).
    destruct (IH (icnt + zlen (picked f blk r))) as (ii & E & L & H0 & H); [intros r' I; apply R; right; exact I|rewrite zlen_app in P; lia|].
    unfold zlen at 1 in E. rewrite E. exists (icnt :: ii). split; [reflexivity|]. split; [cbn; lia|]. split; [reflexivity|].
    intros [|r0 r1] r' r2 E'; cbn [app] in E'; injection E' as -> E'.
    + cbn [length flat_map]. change (zlen (@nil elt)) with 0. rewrite Z.add_0_r. split; [reflexivity|]. exact H0.
    + subst rows. destruct (H r1 r' r2 eq_refl) as [H1 H2]. cbn [length nth_error flat_map]. rewrite H1, zlen_app. cbn [nth_error] in H2. rewrite H2. split; f_equal; lia.
Qed.

Definition rowkey (ilo : Z) (e : elt) : Z := erow e - ilo.
Definition good_block (ilo nrows : Z) (l : list elt) : Prop := l <> [] /\ Forall (fun e => 0 <= erow e - ilo < nrows) l.
Lemma block_rows_ok ilo nrows l : good_block ilo nrows l ->
  exists ii, block_rows ilo nrows l = Done (ii, flat_map (picked (rowkey ilo) l) (zseq 0 (Z.to_nat nrows))) /\ length ii = S (Z.to_nat nrows) /\
    length (flat_map (picked (rowkey ilo) l) (zseq 0 (Z.to_nat nrows))) = length l /\
    forall r, 0 <= r < nrows -> exists e1 e2, flat_map (picked (rowkey ilo) l) (zseq 0 (Z.to_nat nrows)) = e1 ++ picked (rowkey ilo) l r ++ e2 /\
      nth_error ii (Z.to_nat r) = Some (zlen e1) /\ nth_error ii (Z.to_nat (r + 1)) = Some (zlen e1 + zlen (picked (rowkey ilo) l r)).
Proof.
  intros [NE F]. unfold block_rows. destruct (bin_all_ok nrows (rowkey ilo) l) as (b & E & B); [exact F|]. unfold rowkey at 1 in E. rewrite E.
  assert (LEN : length (flat_map (picked (rowkey ilo) l) (zseq 0 (Z.to_nat nrows))) = length l).
  { apply picked_all. eapply Forall_impl; [|exact F]. intros e He. cbn in He. unfold rowkey. lia. }
  destruct (row_loop_ok nrows (rowkey ilo) l b B (zseq 0 (Z.to_nat nrows)) 0) as (ii & E' & L & _ & H).
  { intros r I. apply zseq_In in I. lia. }
  { unfold zlen. rewrite LEN. destruct l; [congruence|cbn [length]; lia]. }
  exists ii. split; [exact E'|]. split; [rewrite L, zseq_length; reflexivity|]. split; [exact LEN|].
  intros r R. assert (SQ : zseq 0 (Z.to_nat nrows) = zseq 0 (Z.to_nat r) ++ r :: zseq (r + 1) (Z.to_nat (nrows - r - 1))).
  { replace (Z.to_nat nrows) with (Z.to_nat r + S (Z.to_nat (nrows - r - 1)))%nat by lia. rewrite zseq_app. cbn [zseq]. replace (0 + Z.of_nat (Z.to_nat r)) with r by lia. reflexivity. }
  exists (flat_map (picked (rowkey ilo) l) (zseq 0 (Z.to_nat r))), (flat_map (picked (rowkey ilo) l) (zseq (r + 1) (Z.to_nat (nrows - r - 1)))).
  destruct (H _ _ _ SQ) as [H1 H2]. rewrite zseq_length in H1, H2. replace (Z.to_nat (r + 1)) with (S (Z.to_nat r)) by lia. rewrite H1, H2.
  split; [rewrite SQ, flat_map_app; reflexivity|]. split; f_equal; lia.
Qed.
Lemma all_blocks_ok ilo nrows : 0 <= nrows -> forall blks, Forall (fun cb : Z * list elt => good_block ilo nrows (snd cb)) blks ->
  exists ii es, all_blocks ilo nrows blks = Done (ii, es) /\
    forall pre c l post, blks = pre ++ (c, l) :: post ->
      exists i1 ib i2 e1 e2, ii = i1 ++ ib ++ i2 /\ zlen i1 = (nrows + 1) * zlen pre /\
        es = e1 ++ flat_map (picked (rowkey ilo) l) (zseq 0 (Z.to_nat nrows)) ++ e2 /\ zlen e1 = zsum (map (fun cb => zlen (snd cb)) pre) /\
        block_rows ilo nrows l = Done (ib, flat_map (picked (rowkey ilo) l) (zseq 0 (Z.to_nat nrows))).
Proof.
  intros NR. induction blks as [|[c0 l0] blks IH]; intros F.
  - exists [], []. split; [reflexivity|]. intros pre c l post E. destruct pre; discriminate.
  - inversion F as [|? ? F1 F2]; subst. destruct (IH F2) as (ii & es & E & H). cbn [snd] in F1.
    destruct (block_rows_ok ilo nrows l0 F1) as (ib & E1 & L1 & LEN & _). cbn [all_blocks snd]. rewrite E1, LEN, Nat.eqb_refl, E.
    eexists. eexists. split; [reflexivity|]. intros [|[c1 l1] pre] c l post E'; cbn [app] in E'; injection E' as -> -> E'.
    + exists [], ib, ii, [], es. split; [reflexivity|]. split; [unfold zlen; cbn; lia|]. split; [reflexivity|]. split; [reflexivity|]. exact E1.
    + subst blks. destruct (H pre c l post eq_refl) as (i1 & ib' & i2 & e1 & e2 & X1 & X2 & X3 & X4 & X5).
      exists (ib ++ i1), ib', i2, (flat_map (picked (rowkey ilo) l1) (zseq 0 (Z.to_nat nrows)) ++ e1), e2.
      split; [rewrite X1, <- app_assoc; reflexivity|]. split; [rewrite zlen_app, X2; unfold zlen; cbn [length]; rewrite L1; nia|].
      split; [rewrite X3, <- app_assoc; reflexivity|]. split; [rewrite zlen_app, X4; unfold zlen at 1; rewrite LEN; reflexivity|]. exact X5.
Qed.
Lemma offsets_nth : forall pre s post x, nth_error (offsets_from x (pre ++ s :: post)) (length pre) = Some (x + zsum pre).
Proof.
  induction pre as [|a pre IH]; intros s post x; cbn [app offsets_from length nth_error zsum]; [f_equal; lia|]. rewrite IH. f_equal. lia.
Qed.
Lemma find_block_at : forall l c pre post k, l = pre ++ c :: post -> ~ In c pre -> find_block l c k = Some (k + zlen pre).
Proof.
  intros l c pre. revert l. induction pre as [|a pre IH]; intros l post k -> N; cbn [app find_block].
  - rewrite Z.eqb_refl. unfold zlen. cbn. f_equal. lia.
  - destruct (Z.eqb_spec a c) as [->|Ne]; [exfalso; apply N; left; reflexivity|]. rewrite (IH _ post (k + 1) eq_refl) by (intros I; apply N; right; exact I). unfold zlen. cbn [length]. f_equal. lia.
Qed.
Lemma find_block_none : forall l c k, ~ In c l -> find_block l c k = None.
Proof.
  induction l as [|a l IH]; intros c k N; [reflexivity|]. cbn [find_block]. destruct (Z.eqb_spec a c) as [->|Ne]; [exfalso; apply N; left; reflexivity|]. apply IH. intros I. apply N. right. exact I.
Qed.
Lemma collect_seg (es e1 seg e2 : list elt) off : es = e1 ++ seg ++ e2 -> off = zlen e1 -> forall m, m = length seg ->
  collect (fun k => try j <- rdl (map ecol es) (off + k); try x <- rdl (map evalue es) (off + k); Done (j, x)) (zseq 0 m)
  = Done (map (fun e => (ecol e, evalue e)) seg).
Proof.
  intros -> -> m ->. rewrite !map_app.
  assert (G : forall done seg', seg = done ++ seg' -> collect (fun k => try j <- rdl (map ecol e1 ++ map ecol seg ++ map ecol e2) (zlen e1 + k);
    try x <- rdl (map evalue e1 ++ map evalue seg ++ map evalue e2) (zlen e1 + k); Done (j, x)) (zseq (zlen done) (length seg')) = Done (map (fun e => (ecol e, evalue e)) seg')).
  { intros done seg'. revert done. induction seg' as [|a seg' IH]; intros done E; [reflexivity|]. cbn [length zseq collect map].
    assert (NA : nth_error seg (Z.to_nat (zlen done)) = Some a). { rewrite E. unfold zlen. rewrite Nat2Z.id, nth_error_app2, Nat.sub_diag by lia. reflexivity. }
    pose proof (zlen_nonneg done).
    rewrite (rdl_app (map ecol e1) (map ecol seg) (map ecol e2) _ (zlen done) (ecol a)); [|unfold zlen; rewrite map_length; reflexivity|assumption|apply map_nth_error; exact NA].
    rewrite (rdl_app (map evalue e1) (map evalue seg) (map evalue e2) _ (zlen done) (evalue a)); [|unfold zlen; rewrite map_length; reflexivity|assumption|apply map_nth_error; exact NA].
    specialize (IH (done ++ [a])). rewrite <- app_assoc in IH. specialize (IH E). rewrite zlen_app in IH. change (zlen [a]) with 1 in IH. rewrite IH. reflexivity. }
  apply (G [] seg eq_refl).
Qed.

Variables (fuel : nat) (n idim jdim : Z).
Hypotheses (FU : (2 <= fuel)%nat) (NI : 1 <= n <= idim) (NJ : 1 <= jdim).
Lemma arrange_ok p (loc : list elt) : 0 <= p < n -> Forall (inside idim jdim) loc -> Forall (fun e => owner n idim (erow e) = p) loc ->
  exists s, arrange fuel n idim jdim p loc = Done s /\ own_low fuel n idim p = Done (s_ilo s) /\ high_limit fuel n idim p = Done (s_ihi s) /\
    (forall c, In c (s_blk s) <-> 0 <= c < n /\ exists e, In e loc /\ owner n jdim (ecol e) = c) /\ apart s /\
    forall c i, s_ilo s <= i <= s_ihi s ->
      block_row s c i = Done (if 0 <=? c then if c <? n then map (fun e => (ecol e, evalue e)) (picked (rowkey (s_ilo s)) (picked (fun e => owner n jdim (ecol e)) loc c) (i - s_ilo s)) else [] else []).
Proof.
  intros P IN OW. unfold arrange. set (f := fun e : elt => owner n jdim (ecol e)).
  destruct (bin_all_ok n f loc) as (b & E & B).
  { eapply Forall_impl; [|exact IN]. intros e [_ Hc]. apply owner_range; lia. }
  rewrite E. rewrite (col_blocks_ok n f loc b B) by (intros c I; apply zseq_In in I; lia).
  set (cs := filter (fun c => 0 <? b_count b c) (zseq 0 (Z.to_nat n))).
  assert (CS : forall c, In c cs <-> 0 <= c < n /\ picked f loc c <> []).
  { intros c. unfold cs. rewrite filter_In, zseq_In. split.
    - intros [I1 I2]. assert (C : 0 <= c < n) by lia. split; [exact C|]. destruct (B c C) as [_ Q]. rewrite Q in I2. intros X. unfold picked in X. apply (f_equal (@length elt)) in X. rewrite rev_length in X. cbn in X. lia.
    - intros [C X]. split; [lia|]. destruct (B c C) as [_ Q]. rewrite Q. unfold picked in X. destruct (filter (fun a => f a =? c) loc); [exfalso; apply X; reflexivity|cbn [length]; lia]. }
  assert (ND : NoDup cs) by (apply NoDup_filter, zseq_NoDup).
  rewrite map_length, Nat.eqb_refl. cbn [andb].
  replace (length (flat_map snd (map (fun c => (c, picked f loc c)) cs)) <=? length loc)%nat with true.
  2:{ symmetry. apply Nat.leb_le. rewrite flat_map_concat_map, map_map. cbn [snd]. rewrite <- flat_map_concat_map. rewrite picked_len by exact ND. apply filter_len_le. }
  destruct (column_limits fuel n idim p FU NI P) as (ilo & ihi & _ & EL & EH & LH & HD & RNG). rewrite EL, EH.
  set (blks := map (fun c => (c, picked f loc c)) cs).
  assert (GB : Forall (fun cb : Z * list elt => good_block ilo (ihi - ilo + 1) (snd cb)) blks).
  { apply Forall_forall. intros cb I. unfold blks in I. apply in_map_iff in I. destruct I as (c & <- & I). cbn [snd]. apply CS in I. destruct I as [_ NE]. split; [exact NE|].
    apply Forall_forall. intros e Ie. unfold picked in Ie. apply in_rev in Ie. apply filter_In in Ie. destruct Ie as [Ie _].
    rewrite Forall_forall in IN, OW. destruct (IN e Ie) as [Hr _]. specialize (OW e Ie). apply owner_part in OW; [|lia|lia|lia]. apply RNG in OW; lia. }
  destruct (all_blocks_ok ilo (ihi - ilo + 1) ltac:(lia) blks GB) as (ii & es & EB & SP). rewrite EB.
  eexists. split; [reflexivity|]. cbn [s_ilo s_ihi s_blk]. split; [reflexivity|]. split; [reflexivity|].
  assert (MF : map fst blks = cs) by (unfold blks; rewrite map_map; cbn [fst]; apply map_id).
  split.
  { intros c. rewrite MF, CS. split.
    - intros [C X]. split; [exact C|]. unfold picked in X. destruct (filter (fun a => f a =? c) loc) as [|e l] eqn:FE; [exfalso; apply X; reflexivity|].
      exists e. assert (I : In e (filter (fun a => f a =? c) loc)) by (rewrite FE; left; reflexivity). apply filter_In in I. destruct I as [I1 I2]. apply Z.eqb_eq in I2. split; assumption.
    - intros [C (e & Ie & Oe)]. split; [exact C|]. intros X. assert (I : In e (picked f loc c)) by (unfold picked; apply -> in_rev; apply filter_In; split; [exact Ie|apply Z.eqb_eq; exact Oe]). rewrite X in I. destruct I. }
  split.
  { match goal with |- apart ?S => set (s := S) end.
    assert (LAB : forall c i x y p, ilo <= i <= ihi -> row_place s c i = Done (Some (x, y)) -> x <= p < y -> exists e, nth_error es (Z.to_nat p) = Some e /\ f e = c /\ erow e = i).
    { intros c i x y q RI. unfold row_place, s. cbn [s_blk s_off s_i s_j s_v s_ilo s_ihi].
      destruct (in_dec Z.eq_dec c cs) as [IC|IC]; [|rewrite find_block_none by (rewrite MF; exact IC); discriminate].
      destruct (in_split c cs IC) as (p1 & p2 & SC). assert (NI1 : ~ In c p1) by (rewrite SC in ND; apply NoDup_remove_2 in ND; intros I; apply ND; apply in_or_app; left; exact I).
      rewrite (find_block_at _ c p1 p2 0); [|rewrite MF; exact SC|exact NI1]. rewrite Z.add_0_l.
      assert (BS : blks = map (fun c => (c, picked f loc c)) p1 ++ (c, picked f loc c) :: map (fun c => (c, picked f loc c)) p2) by (unfold blks; rewrite SC, map_app; reflexivity).
      destruct (SP _ _ _ _ BS) as (i1 & ib & i2 & e1 & e2 & X1 & X2 & X3 & X4 & X5).
      assert (OFF : rdl (offsets_from 0 (map (fun cb : Z * list elt => Z.of_nat (length (snd cb))) blks)) (zlen p1) = Done (zlen e1)).
      { unfold rdl. pose proof (zlen_nonneg p1). replace (0 <=? zlen p1) with true by lia. rewrite BS, map_app. cbn [map]. unfold zlen at 1. rewrite Nat2Z.id.
        set (pre := map (fun cb : Z * list elt => Z.of_nat (length (snd cb))) (map (fun c => (c, picked f loc c)) p1)).
        replace (length p1) with (length pre) by (unfold pre; rewrite !map_length; reflexivity). rewrite offsets_nth. rewrite X4. reflexivity. }
      rewrite OFF.
      assert (G1 : good_block ilo (ihi - ilo + 1) (picked f loc c)). { rewrite Forall_forall in GB. apply (GB (c, picked f loc c)). rewrite BS. apply in_or_app. right. left. reflexivity. }
      destruct (block_rows_ok ilo (ihi - ilo + 1) (picked f loc c) G1) as (ib' & Y1 & Y2 & Y3 & Y4). rewrite X5 in Y1. injection Y1 as <-.
      destruct (Y4 (i - ilo) ltac:(lia)) as (g1 & g2 & Z1 & Z2 & Z3).
      assert (LP : zlen (map (fun c => (c, picked f loc c)) p1) = zlen p1) by (unfold zlen; rewrite map_length; reflexivity). rewrite LP in X2.
      rewrite X1. replace (ihi - ilo + 2) with (ihi - ilo + 1 + 1) by lia.
      rewrite (rdl_app i1 ib i2 _ (i - ilo) (zlen g1)); [|lia|lia|exact Z2].
      rewrite (rdl_app i1 ib i2 _ (i - ilo + 1) (zlen g1 + zlen (picked (rowkey ilo) (picked f loc c) (i - ilo)))); [|lia|lia|exact Z3].
      intros [= <- <-] Q. set (seg := picked (rowkey ilo) (picked f loc c) (i - ilo)) in *.
      assert (ESG : es = (e1 ++ g1) ++ seg ++ (g2 ++ e2)) by (rewrite X3, Z1, <- !app_assoc; reflexivity).
      destruct (nth_error seg (Z.to_nat (q - zlen e1 - zlen g1))) as [e|] eqn:NE; [|apply nth_error_None in NE; unfold zlen in *; lia].
      exists e. split; [rewrite ESG; pose proof (zlen_nonneg e1); pose proof (zlen_nonneg g1); rewrite nth_error_app2 by (rewrite app_length; unfold zlen in *; lia); rewrite nth_error_app1 by (rewrite app_length; unfold zlen in *; lia); rewrite <- NE; f_equal; rewrite app_length; unfold zlen; lia|].
      apply nth_error_In in NE. unfold seg, picked in NE. apply in_rev in NE. apply filter_In in NE. destruct NE as [NE K2]. apply in_rev in NE. apply filter_In in NE. destruct NE as [NE K1].
      apply Z.eqb_eq in K1. apply Z.eqb_eq in K2. unfold rowkey in K2. split; [exact K1|lia]. }
    intros c i c' i' x y x' y' q R1 R2 P1 P2 Q1 Q2. destruct (LAB _ _ _ _ q R1 P1 Q1) as (e & N1 & A1 & B1). destruct (LAB _ _ _ _ q R2 P2 Q2) as (e' & N2 & A2 & B2).
    rewrite N1 in N2. injection N2 as <-. split; congruence. }
  intros c i RI. unfold block_row, access_col_block. cbn [s_blk s_off s_i s_j s_v s_ilo s_ihi].
  destruct (in_dec Z.eq_dec c cs) as [IC|IC].
  - pose proof (proj1 (CS c) IC) as [C NE]. replace (0 <=? c) with true by lia. replace (c <? n) with true by lia.
    destruct (in_split c cs IC) as (p1 & p2 & SC). assert (NI1 : ~ In c p1) by (rewrite SC in ND; apply NoDup_remove_2 in ND; intros I; apply ND; apply in_or_app; left; exact I).
    rewrite (find_block_at _ c p1 p2 0); [|rewrite MF; exact SC|exact NI1]. rewrite Z.add_0_l.
    assert (BS : blks = map (fun c => (c, picked f loc c)) p1 ++ (c, picked f loc c) :: map (fun c => (c, picked f loc c)) p2) by (unfold blks; rewrite SC, map_app; reflexivity).
    destruct (SP _ _ _ _ BS) as (i1 & ib & i2 & e1 & e2 & X1 & X2 & X3 & X4 & X5).
    assert (OFF : rdl (offsets_from 0 (map (fun cb : Z * list elt => Z.of_nat (length (snd cb))) blks)) (zlen p1) = Done (zlen e1)).
    { unfold rdl. pose proof (zlen_nonneg p1). replace (0 <=? zlen p1) with true by lia. rewrite BS, map_app. cbn [map]. unfold zlen at 1. rewrite Nat2Z.id.
      set (pre := map (fun cb : Z * list elt => Z.of_nat (length (snd cb))) (map (fun c => (c, picked f loc c)) p1)).
      replace (length p1) with (length pre) by (unfold pre; rewrite !map_length; reflexivity). rewrite offsets_nth. rewrite X4. reflexivity. }
    rewrite OFF. unfold read_row. cbn [v_i v_j v_v s_ilo].
    assert (G1 : good_block ilo (ihi - ilo + 1) (picked f loc c)). { rewrite Forall_forall in GB. apply (GB (c, picked f loc c)). rewrite BS. apply in_or_app. right. left. reflexivity. }
    destruct (block_rows_ok ilo (ihi - ilo + 1) (picked f loc c) G1) as (ib' & Y1 & Y2 & Y3 & Y4). rewrite X5 in Y1. injection Y1 as <-.
    destruct (Y4 (i - ilo) ltac:(lia)) as (g1 & g2 & Z1 & Z2 & Z3).
    assert (LP : zlen (map (fun c => (c, picked f loc c)) p1) = zlen p1) by (unfold zlen; rewrite map_length; reflexivity). rewrite LP in X2.
    subst ii. replace (ihi - ilo + 2) with (ihi - ilo + 1 + 1) by lia.
    rewrite (rdl_app i1 ib i2 _ (i - ilo) (zlen g1)); [|lia|lia|exact Z2].
    rewrite (rdl_app i1 ib i2 _ (i - ilo + 1) (zlen g1 + zlen (picked (rowkey ilo) (picked f loc c) (i - ilo)))); [|lia|lia|exact Z3].
    pose proof (collect_seg es (e1 ++ g1) (picked (rowkey ilo) (picked f loc c) (i - ilo)) (g2 ++ e2) (zlen e1 + zlen g1)) as CSG.
    match goal with |- collect ?F ?zs = _ => assert (EX : forall k, F k = (try j <- rdl (map ecol es) (zlen e1 + zlen g1 + k); try x <- rdl (map evalue es) (zlen e1 + zlen g1 + k); Done (j, x))) end.
    { intros k. rewrite !Z.add_assoc. reflexivity. }
    etransitivity; [|apply CSG; [rewrite X3, Z1, <- !app_assoc; reflexivity|rewrite zlen_app; reflexivity|reflexivity]].
    replace (Z.to_nat (zlen g1 + zlen (picked (rowkey ilo) (picked f loc c) (i - ilo)) - zlen g1)) with (length (picked (rowkey ilo) (picked f loc c) (i - ilo))) by (unfold zlen; lia).
    clear - EX. induction (zseq 0 (length (picked (rowkey ilo) (picked f loc c) (i - ilo)))) as [|k ks IH]; [reflexivity|]. cbn [collect]. rewrite EX, IH. reflexivity.
  - rewrite find_block_none by (rewrite MF; exact IC).
    destruct (Z.leb_spec 0 c) as [C1|C1]; [|reflexivity]. destruct (Z.ltb_spec c n) as [C2|C2]; [|reflexivity].
    replace (picked f loc c) with (@nil elt); [reflexivity|]. destruct (picked f loc c) eqn:X; [reflexivity|]. exfalso. apply IC. apply CS. split; [lia|congruence].
Qed.
End Arrange.
