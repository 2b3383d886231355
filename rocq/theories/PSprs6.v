(** Property theorem: the product of a dense array and a sparse matrix (C103). *)
From Verif Require Import SpecSprs SpecSprs5 MBase MNb MHandle MGroup MSparse MDist MIrreg MSprs MSprs2 MSprs4 MSprs5 MSprs6 LNb LRadix LStore LIterBlk LTile LSprs LSprs2 LSprs3 LSprs4 LSprs5 LSprs6 LSprs7 LReg2 LSprs10 LSprs11 LSprs12 PSprs PSprs2 PSprs4 PSprs5.
From Coq Require Import Permutation.
Open Scope Z_scope.

Lemma filter_false {A} (l : list A) : filter (fun _ => false) l = [].
Proof. induction l as [|x l IH]; [reflexivity|exact IH]. Qed.
Lemma entries_tail d t : forall m c, (forall k x, nth_error m k = Some x -> 1 <= x <= d + 1) -> (forall x, nth_error m 0 = Some x -> c <= x) ->
  (forall k x y, nth_error m k = Some x -> nth_error m (S k) = Some y -> x <= y) -> irreg_entries (length m) d c (m ++ t) = Done t.
Proof.
  induction m as [|x m IH]; intros c R C S; [reflexivity|]. cbn [length app irreg_entries]. pose proof (R O x eq_refl). pose proof (C x eq_refl).
  replace (x <? c) with false by lia. replace ((x <? 1) || (d + 1 <? x)) with false by lia. apply IH.
  - intros k y E. apply (R (Datatypes.S k) y E).
  - intros y E. apply (S O x y eq_refl E).
  - intros k y z E E'. apply (S (Datatypes.S k) y z E E').
Qed.
(** An array whose first dimension has the distribution of the rows of a sparse matrix. *)
Lemma row_parts_first {V} n d0 d jdim (l : list (elt V)) ss : 1 <= n <= d -> 1 <= d0 -> represents n d jdim l ss ->
  exists g, set_irreg_distr false (dense_desc d d0) (map (fun s => s_ilo s + 1) ss ++ [1]) [n; 1] = Done g /\
    forall p s, 0 <= p < n -> nth_error ss (Z.to_nat p) = Some s -> owns g p = Some ([s_ilo s + 1; 1], [s_ihi s + 1; d0]).
Proof.
  intros NI D0 R. pose proof R as [LS RR].
  assert (ROW : forall p, 0 <= p < n -> exists s, nth_error ss (Z.to_nat p) = Some s).
  { intros p P. destruct (nth_error ss (Z.to_nat p)) eqn:E; [eexists; reflexivity|]. apply nth_error_None in E. lia. }
  set (mp := map (fun s : sprs V => s_ilo s + 1) ss).
  assert (MP : forall k x, nth_error mp k = Some x -> exists s, nth_error ss k = Some s /\ x = s_ilo s + 1 /\ 0 <= s_ilo s <= s_ihi s /\ s_ihi s < d).
  { intros k x E. unfold mp in E. rewrite nth_error_map in E. destruct (nth_error ss k) as [s|] eqn:Es; [|discriminate]. cbn in E. injection E as <-. exists s. split; [reflexivity|]. split; [reflexivity|].
    assert (k < length ss)%nat by (apply nth_error_Some; congruence). destruct (RR (Z.of_nat k) s) as (A & B & _); [lia|rewrite Nat2Z.id; exact Es|]. split; assumption. }
  set (g := {| distr_type := REGULAR; dims := [d; d0]; nblock := [n; 1]; mapc := (mp ++ [1]) ++ [-1]; block_dims := []; num_blocks := []; rstrctd_list := []; rank_rstrctd := [] |}).
  assert (LM : length mp = Z.to_nat n) by (unfold mp; rewrite map_length; exact LS).
  exists g. split.
  - unfold set_irreg_distr, dense_desc. cbn [dims too_many]. replace (d0 <? 1) with false by lia. replace (d <? n) with false by lia. cbn [orb].
    destruct mp as [|x mp'] eqn:EM; [cbn in LM; lia|]. cbn [irreg_check app]. destruct (MP O x eq_refl) as (s0 & _ & Ex & B0 & B1). replace ((x <? 1) || (d + 1 <? x)) with false by lia.
    replace (Z.to_nat (n - 1)) with (length mp') by (cbn in LM; lia). rewrite entries_tail.
    + replace ((1 <? 1) || (d0 + 1 <? 1)) with false by lia. change (Z.to_nat (1 - 1)) with O. cbn [irreg_entries irreg_check]. unfold irreg_copy. cbn [zsum]. replace (n + (1 + 0)) with (n + 1) by lia.
      change (x :: mp' ++ [1]) with ((x :: mp') ++ [1]). rewrite <- EM. replace ((n + 1 <? 0) || (Z.of_nat (length (mp ++ [1])) <? n + 1)) with false by (rewrite app_length, EM; cbn in LM |- *; lia).
      rewrite firstn_all2 by (rewrite app_length, EM; cbn in LM |- *; lia). subst g. rewrite EM. reflexivity.
    + intros k y E. destruct (MP (S k) y E) as (s & _ & Ey & C0 & C1). lia.
    + intros y E. destruct (MP 0%nat x eq_refl) as (s & Es & Ex' & C0 & C1). destruct (MP 1%nat y E) as (t & Et & Ey & _). assert (1 < length ss)%nat by (apply nth_error_Some; congruence).
      assert (s_ilo t = s_ihi s + 1) by (apply (rows_next n d jdim l ss NI R 0 s t); [lia|lia|exact Es|exact Et]). lia.
    + intros k y z E E'. destruct (MP (S k) y E) as (s & Es & Ey & C0 & C1). destruct (MP (S (S k)) z E') as (t & Et & Ez & _). assert (S (S k) < length ss)%nat by (apply nth_error_Some; congruence).
      assert (s_ilo t = s_ihi s + 1) by (apply (rows_next n d jdim l ss NI R (Z.of_nat (S k)) s t); [lia|lia|rewrite Nat2Z.id; exact Es|replace (Z.to_nat (Z.of_nat (S k) + 1)) with (S (S k)) by lia; exact Et]). lia.
  - intros p s P Es. unfold owns. change (num_rstrctd g =? 0) with true. change (distr_type g) with REGULAR. cbn iota. change (dims g) with [d; d0]. change (nblock g) with [n; 1]. change (mapc g) with ((mp ++ [1]) ++ [-1]). unfold owns_no_handle. change (zprod [n; 1]) with (n * (1 * 1)).
    replace ((n * (1 * 1) - 1 <? p) || (p <? 0)) with false by lia. cbn [owns_dims]. unfold cmod, cdiv. replace (n =? 0) with false by lia. change (1 =? 0) with false. cbn iota. rewrite (Z.rem_small p n), (Z.quot_small p n) by lia.
    rewrite <- app_assoc. cbn [app]. rewrite zget_nth by lia. rewrite nth_error_app1 by (rewrite LM; lia). unfold mp at 1. rewrite nth_error_map, Es. cbn [option_map].
    assert (ZD : zdrop n (mp ++ [1; -1]) = [1; -1]) by (unfold zdrop; rewrite <- LM, skipn_app, skipn_all, Nat.sub_diag; reflexivity). rewrite ZD. change (Z.rem 0 1) with 0. change (Z.quot 0 1) with 0. change (zget [1; -1] 0) with (Some 1). change (0 =? 1 - 1) with true. cbn [owns_dims fst snd].
    destruct (Z.eqb_spec p (n - 1)) as [->|Ne].
    + rewrite (rows_last n d jdim l ss NI R s Es). replace (d - 1 + 1) with d by lia. reflexivity.
    + destruct (ROW (p + 1) ltac:(lia)) as (t & Et). rewrite zget_nth by lia. rewrite nth_error_app1 by (rewrite LM; lia). unfold mp. rewrite nth_error_map, Et. cbn [option_map].
      rewrite (rows_next n d jdim l ss NI R p s t ltac:(lia) ltac:(lia) Es Et). do 3 f_equal. lia.
Qed.
(** The rows of a matrix without elements. *)
Definition no_elts {V} (lh : Z * Z) : sprs V := Sprs (fst lh) (snd lh) [] [] [] [] [].
Lemma limits_all V fuel n d : (2 <= fuel)%nat -> 1 <= n <= d ->
  exists lims, collect (fun p => try lo <- own_low fuel n d p; try hi <- high_limit fuel n d p; Done (lo, hi)) (zseq 0 (Z.to_nat n)) = Done lims /\ @represents V n d d [] (map no_elts lims).
Proof.
  intros FU ND. destruct (collect_ex (fun p => try lo <- own_low fuel n d p; try hi <- high_limit fuel n d p; Done (lo, hi))
    (fun p lh => 0 <= fst lh <= snd lh /\ snd lh < d /\ forall x, 0 <= x < d -> (fst lh <= x <= snd lh <-> in_part n d p x)) (zseq 0 (Z.to_nat n))) as (lims & E & F).
  { intros p P. apply zseq_In in P. destruct (column_limits fuel n d p FU ND ltac:(lia)) as (lo & hi & _ & OL & HL & LH & HD & RNG). rewrite OL, HL. eexists. split; [reflexivity|]. cbn [fst snd]. split; [exact LH|]. split; [exact HD|exact RNG]. }
  exists lims. split; [exact E|]. apply Forall2_zseq in F. destruct F as [LL F]. split; [rewrite map_length; lia|]. intros p s P Es. rewrite nth_error_map in Es. destruct (nth_error lims (Z.to_nat p)) as [lh|] eqn:El; [|discriminate]. injection Es as <-.
  destruct (F _ _ El) as (A & B & C). replace (0 + Z.of_nat (Z.to_nat p)) with p in C by lia. cbn [no_elts s_ilo s_ihi s_blk]. split; [exact A|]. split; [exact B|]. split; [exact C|]. split; [|split].
  - intros c. split; [intros []|]. intros (_ & e & [] & _).
  - intros c i c' i' x y x' y' q _ _ H. discriminate.
  - intros c i _ _. exists []. split; [reflexivity|constructor].
Qed.

(** * C103: the product of a dense array and a sparse matrix *)
Theorem C103_partial : forall V (add mul mix : V -> V -> V) (zero : V) trans cplx fuel n idim d l ssb a,
  (trans = true \/ cplx = false) -> addition add zero -> (2 <= fuel)%nat -> 1 <= n <= idim -> n <= d -> Forall (inside d d) l -> represents n d d l ssb ->
  let (d0, d1) := if trans then (d, idim) else (idim, d) in
  exists bs c, dnssprs trans cplx mix fuel n add mul zero d d d0 d1 a ssb = Done bs /\ dense d0 d1 bs c /\
    forall i j, 0 <= i < idim -> 0 <= j < d -> matrix_of trans c i j = column_product add mul zero l (fun k => matrix_of trans a i k) j.
Proof.
  intros V add mul mix zero trans cplx fuel n idim d l ssb a TC AD FU NI NJ IN R. pose proof R as [LS RR].
  assert (EC : forall d0 d1, dnssprs trans cplx mix fuel n add mul zero d d d0 d1 a ssb = dnssprs trans false mix fuel n add mul zero d d d0 d1 a ssb) by (intros d0 d1; destruct TC as [-> | ->]; reflexivity).
  destruct (limits_all V fuel n idim FU NI) as (lims & EL & RL). pose proof RL as [LL RRL]. rewrite map_length in LL.
  assert (LIM : forall p, 0 <= p < n -> exists lh, nth_error lims (Z.to_nat p) = Some lh /\ 0 <= fst lh <= snd lh /\ snd lh < idim /\ forall i, 0 <= i < idim -> (fst lh <= i <= snd lh <-> in_part n idim p i)).
  { intros p P. destruct (nth_error lims (Z.to_nat p)) as [lh|] eqn:E; [|apply nth_error_None in E; lia]. exists lh. split; [reflexivity|]. destruct (RRL p (no_elts lh) P) as (A & B & C & _); [rewrite nth_error_map, E; reflexivity|]. split; [exact A|]. split; [exact B|exact C]. }
  pose proof (starts_rows n idim idim [] (map no_elts lims) NI RL) as ST. rewrite !map_map in ST. cbn [no_elts s_ilo s_ihi] in ST.
  assert (G : exists g, set_irreg_distr false (if trans then dense_desc d idim else dense_desc idim d) (if trans then 1 :: offsets_from 1 (map (fun lh => snd lh - fst lh + 1) lims) else offsets_from 1 (map (fun lh => snd lh - fst lh + 1) lims) ++ [1]) (if trans then [1; n] else [n; 1]) = Done g /\
    forall p lh, 0 <= p < n -> nth_error lims (Z.to_nat p) = Some lh -> owns g p = Some ([if trans then 1 else fst lh + 1; if trans then fst lh + 1 else 1], [if trans then d else snd lh + 1; if trans then snd lh + 1 else d])).
  { rewrite ST. destruct trans.
    - destruct (row_parts n d idim idim [] (map no_elts lims) NI ltac:(lia) RL) as (g & SG & OW). rewrite map_map in SG. exists g. split; [exact SG|]. intros p lh P E. apply (OW p (no_elts lh) P). rewrite nth_error_map, E. reflexivity.
    - destruct (row_parts_first n d idim idim [] (map no_elts lims) NI ltac:(lia) RL) as (g & SG & OW). rewrite map_map in SG. exists g. split; [exact SG|]. intros p lh P E. apply (OW p (no_elts lh) P). rewrite nth_error_map, E. reflexivity. }
  destruct G as (g & SG & OW). set (d0 := if trans then d else idim). set (d1 := if trans then idim else d).
  assert (MAIN : exists bs c, dnssprs trans false mix fuel n add mul zero d d d0 d1 a ssb = Done bs /\ dense d0 d1 bs c /\
    forall i j, 0 <= i < idim -> 0 <= j < d -> matrix_of trans c i j = column_product add mul zero l (fun k => matrix_of trans a i k) j).
  { set (Q := fun (p : Z) (c : dpart V) => exists lh, nth_error lims (Z.to_nat p) = Some lh /\ p_lo0 c = (if trans then 1 else fst lh + 1) /\ p_lo1 c = (if trans then fst lh + 1 else 1) /\ p_hi0 c = (if trans then d else snd lh + 1) /\ p_hi1 c = (if trans then snd lh + 1 else d) /\
      p_ld c = p_hi0 c - p_lo0 c + 1 /\ forall i j, fst lh <= i <= snd lh -> 0 <= j < d -> p_mem c (place trans d (fst lh) (snd lh) i j) = column_product add mul zero l (fun k => matrix_of trans a i k) j).
    destruct (collect_ex (fun p => match nth_error lims (Z.to_nat p), owns g p with
      | Some (ilo, ihi), Some ([a0; a1], [b0; b1]) => try m <- acc_targets trans false mix fuel n add mul p d d d0 d1 a a0 a1 b0 b1 ilo ihi ssb (zseq 0 (Z.to_nat n)) (fun _ => zero); Done (DPart a0 a1 b0 b1 (b0 - a0 + 1) m)
      | _, _ => Undef end) Q (zseq 0 (Z.to_nat n))) as (bs & EB & FB).
    { intros p P. apply zseq_In in P. destruct (LIM p ltac:(lia)) as (lh & El & A & B & C). pose proof (OW p lh ltac:(lia) El) as OWp. rewrite OWp, El. unfold Q. rewrite El. destruct lh as [ilo ihi]. cbn [fst snd] in *.
      destruct (acc_targets_ok trans mix fuel n d idim add mul zero a l ssb ilo ihi AD FU ltac:(lia) A B LS IN) with (me := p) (ls := zseq 0 (Z.to_nat n)) (m := fun _ : Z => zero) as (m & E & M).
      - intros q s Pq Es. destruct (RR q s Pq Es) as (B1 & B2 & B3 & _ & _ & B6). split; [exact B1|]. split; [exact B2|]. split; [exact B3|exact B6].
      - lia.
      - intros x X. apply zseq_In in X. lia.
      - fold d0 d1 in E. rewrite E. eexists. split; [reflexivity|]. exists (ilo, ihi). cbn [p_lo0 p_lo1 p_hi0 p_hi1 p_ld p_mem fst snd]. repeat (split; [reflexivity|]). intros i j I J.
        apply (added_perm add zero d ilo ihi (place trans d ilo ihi) AD _ _ _ (flat_map (fun i => map (whole trans mul a i) l) (zseq ilo (Z.to_nat (ihi - ilo + 1))))) in M.
        + rewrite (M i j I J), (ad_zero _ _ AD). unfold column_product. f_equal. rewrite filter_flat_map.
          assert (X : forall rows, NoDup rows -> In i rows -> flat_map (fun i0 => filter (fun e => (erow e =? i) && (ecol e =? j)) (map (whole trans mul a i0) l)) rows = map (whole trans mul a i) (filter (fun e => ecol e =? j) l)).
          { assert (Y : forall i0, i0 <> i -> filter (fun e => (erow e =? i) && (ecol e =? j)) (map (whole trans mul a i0) l) = []).
            { intros i0 Ne. rewrite filter_map_comm. rewrite (filter_ext_Forall _ (fun _ => false)); [rewrite filter_false; reflexivity|]. apply Forall_forall. intros e _. unfold whole, erow at 1. cbn [fst snd]. replace (i0 =? i) with false by lia. reflexivity. }
            induction rows as [|i0 rows IHr]; intros N Ir; [destruct Ir|]. inversion N as [|? ? N1 N2]; subst. cbn [flat_map]. destruct (Z.eq_dec i0 i) as [->|Ne].
            - rewrite (LSprs7.flat_map_nil _ rows), app_nil_r; [|intros i1 X; apply Y; intros ->; contradiction]. rewrite filter_map_comm. f_equal. apply filter_ext_Forall. apply Forall_forall. intros e _. unfold whole, erow at 1, ecol at 1. cbn [fst snd]. rewrite Z.eqb_refl. reflexivity.
            - rewrite (Y i0 Ne). cbn [app]. apply IHr; [exact N2|]. destruct Ir as [Q'|Q']; [congruence|exact Q']. }
          rewrite X; [|apply zseq_NoDup|apply zseq_In; lia]. rewrite map_map. apply map_ext. intros e. reflexivity.
        + apply (contrib_all trans mix fuel n d mul a l ssb ilo ihi FU ltac:(lia) LS IN). intros q s Pq Es. destruct (RR q s Pq Es) as (B1 & B2 & B3 & _ & _ & B6). split; [exact B1|]. split; [exact B2|]. split; [exact B3|exact B6]. }
    apply Forall2_zseq in FB. destruct FB as [LB FB].
    assert (OWN : forall x y q c, nth_error bs q = Some c -> contains c x y -> 1 <= x <= d0 /\ 1 <= y <= d1 /\ owner n idim ((if trans then y else x) - 1) = Z.of_nat q).
    { intros x y q c Eb [C0 C1]. assert (q < length bs)%nat by (apply nth_error_Some; congruence). destruct (FB q c Eb) as (lh & El & E1 & E2 & E3 & E4 & E5 & _). destruct (LIM (0 + Z.of_nat q) ltac:(lia)) as (lh' & El' & A1 & A2 & A3). rewrite El in El'. injection El' as <-.
      rewrite E1, E2, E3, E4 in *. unfold d0, d1. destruct trans; (split; [lia|]; split; [lia|]; apply owner_part; [lia|lia|lia|]; apply A3; lia). }
    assert (CELL : forall x y, 1 <= x <= d0 -> 1 <= y <= d1 -> exists c, nth_error bs (Z.to_nat (owner n idim ((if trans then y else x) - 1))) = Some c /\ contains c x y /\
      value_at c x y = column_product add mul zero l (fun k => matrix_of trans a ((if trans then y else x) - 1) k) ((if trans then x else y) - 1)).
    { intros x y X Y. set (i := (if trans then y else x) - 1). set (j := (if trans then x else y) - 1). assert (I : 0 <= i < idim) by (unfold i, d0, d1 in *; destruct trans; lia). assert (J : 0 <= j < d) by (unfold j, d0, d1 in *; destruct trans; lia).
      pose proof (owner_range n idim i ltac:(lia) ltac:(lia) I) as OR. destruct (nth_error bs (Z.to_nat (owner n idim i))) as [c|] eqn:Eb; [|apply nth_error_None in Eb; lia]. exists c. split; [reflexivity|].
      destruct (FB _ c Eb) as (lh & El & E1 & E2 & E3 & E4 & E5 & H). rewrite Z.add_0_l, Z2Nat.id in El by lia. destruct (LIM _ OR) as (lh' & El' & A1 & A2 & A3). rewrite El in El'. injection El' as <-.
      assert (I' : fst lh <= i <= snd lh) by (apply A3; [exact I|]; apply owner_part; [lia|lia|lia|reflexivity]). rewrite <- (H i j I' J). unfold contains, value_at. rewrite E5, E1, E2, E3, E4. unfold place, i, j, d0, d1 in *. destruct trans; (split; [lia|]; f_equal; ring). }
    set (c := fun x y : Z => match nth_error bs (Z.to_nat (owner n idim ((if trans then y else x) - 1))) with Some b => value_at b x y | None => zero end).
    exists bs, c. split; [|split; [split; [|split]|]].
    - unfold dnssprs. replace ((if trans then d0 else d1) =? d) with true by (unfold d0, d1; destruct trans; lia). cbn [negb]. replace (if trans then d1 else d0) with idim by (unfold d0, d1; destruct trans; reflexivity). rewrite EL, SG. exact EB.
    - intros q b x y Eb C. destruct (OWN x y q b Eb C) as (X & Y & W). split; [exact X|]. split; [exact Y|]. unfold c. rewrite W, Nat2Z.id, Eb. reflexivity.
    - intros x y X Y. destruct (CELL x y X Y) as (b & Eb & C & _). eexists. eexists. split; [exact Eb|exact C].
    - intros q q' b b' x y Eb Eb' C C'. destruct (OWN x y q b Eb C) as (_ & _ & W). destruct (OWN x y q' b' Eb' C') as (_ & _ & W'). lia.
    - intros i j I J. unfold matrix_of at 1. destruct (CELL (if trans then j + 1 else i + 1) (if trans then i + 1 else j + 1)) as (b & Eb & C & H); [unfold d0; destruct trans; lia|unfold d1; destruct trans; lia|].
      unfold c. destruct trans; rewrite Z.add_simpl_r in Eb |- *; rewrite !Z.add_simpl_r in H; rewrite Eb; exact H. }
  destruct trans; rewrite EC; exact MAIN.
Qed.

Example C103_ex : exists ss, Forall (inside 3 3) (all_elts 2 sq_els) /\ represents 2 3 3 (all_elts 2 sq_els) ss /\
  (exists b c, dnssprs true false (fun x _ => x) 2 2 Z.add Z.mul 0 3 3 3 3 (fun x y => x + 10 * y) ss = Done [b; c] /\ p_hi1 b = 2 /\ p_lo1 c = 3 /\
    value_at b 1 1 = 11 * 5 + 12 * 4 /\ value_at b 3 2 = 22 * 1 + 23 * 10 /\ value_at c 2 3 = 31 * 2 + 33 * 7) /\
  exists b c, dnssprs false false (fun x _ => x) 2 2 Z.add Z.mul 0 3 3 3 3 (fun x y => x + 10 * y) ss = Done [b; c] /\ p_hi0 b = 2 /\ p_lo0 c = 3 /\ value_at b 1 1 = 11 * 5 + 21 * 4 /\ value_at c 3 2 = 13 * 2 + 33 * 7.
Proof.
  destruct sq_ok as (I & _). destruct sq_rep as (ss & E & R). exists ss. split; [exact I|]. split; [exact R|]. vm_compute in E. injection E as <-.
  split; eexists; eexists; (split; [vm_compute; reflexivity|]); repeat split; vm_compute; reflexivity.
Qed.
(** The number of columns of the array is compared with the columns of the matrix, not with
    its rows: a product of the right shape ends the program if the matrix is not square. *)
Theorem C103_shape : forall V (add mul mix : V -> V -> V) (zero : V) (trans cplx : bool) fuel n idim k j a ssb, k <> j ->
  let (d0, d1) := if trans then (k, idim) else (idim, k) in dnssprs trans cplx mix fuel n add mul zero k j d0 d1 a ssb = Abort.
Proof.
  intros V add mul mix zero trans cplx fuel n idim k j a ssb H. destruct trans; unfold dnssprs; cbn iota; replace (k =? j) with false by lia; reflexivity.
Qed.
Theorem C103_shape_refuted : exists (l : list (elt Z)) ss, Forall (inside 1 2) l /\ represents 1 1 2 l ss /\
  forall a, dnssprs true false (fun x _ => x) 2 1 Z.add Z.mul 0 1 2 1 1 a ss = Abort.
Proof.
  assert (AP : all_pairs 1 [(0, 0)]) by (unfold all_pairs; apply Permutation_refl).
  assert (I2 : forall q, 0 <= q < 1 -> Forall (inside 1 2) [(0, 1, 7)]) by (intros q _; repeat constructor; cbn; lia).
  destruct (C95_partial Z 2 1 1 2 (fun _ => [(0, 1, 7)]) [(0, 0)] [(0, 0)]) as (ss & E & R); [lia|lia|lia|exact AP|exact AP|exact I2| |].
  { intros p P. exists (0, 1, 7). split; [left; reflexivity|]. unfold in_part. cbn. lia. }
  exists [(0, 1, 7)], ss. split; [apply (I2 0); lia|]. split; [exact R|]. intros a. reflexivity.
Qed.
(** In the Fortran interface the imaginary parts of a complex array are read from the wrong
    places: the product with a unit matrix is not the array. *)
Definition cadd (x y : Z * Z) : Z * Z := (fst x + fst y, snd x + snd y).
Definition cmul (x y : Z * Z) : Z * Z := (fst x * fst y - snd x * snd y, snd x * fst y + fst x * snd y).
Definition cmix (x y : Z * Z) : Z * Z := (fst x, snd y).
Theorem C103_complex_refuted : addition cadd (0, 0) /\ exists (l : list (elt (Z * Z))) ss a c, Forall (inside 2 2) l /\ represents 1 2 2 l ss /\
  dnssprs false true cmix 2 1 cadd cmul (0, 0) 2 2 2 2 a ss = Done [c] /\ contains c 2 2 /\
  value_at c 2 2 <> column_product cadd cmul (0, 0) l (fun k => matrix_of false a 1 k) 1.
Proof.
  split.
  { constructor; unfold cadd; intros; cbn [fst snd]; try (f_equal; ring). match goal with |- _ = ?x => destruct x; reflexivity end. }
  assert (AP : all_pairs 1 [(0, 0)]) by (unfold all_pairs; apply Permutation_refl). set (u := [(0, 0, (1, 0)); (1, 1, (1, 0))]).
  assert (I2 : forall q, 0 <= q < 1 -> Forall (inside 2 2) u) by (intros q _; repeat constructor; cbn; lia).
  destruct (C95_partial (Z * Z) 2 1 2 2 (fun _ => u) [(0, 0)] [(0, 0)]) as (ss & E & R); [lia|lia|lia|exact AP|exact AP|exact I2| |].
  { intros p P. exists (0, 0, (1, 0)). split; [left; reflexivity|]. unfold in_part. cbn. lia. }
  exists u, ss, (fun x y => (0, x + 10 * y)). eexists. split; [apply (I2 0); lia|]. split; [exact R|]. vm_compute in E. injection E as <-. split; [vm_compute; reflexivity|]. split; [unfold contains; cbn; lia|]. vm_compute. discriminate.
Qed.

Print Assumptions C103_partial.
Print Assumptions C103_shape.
Print Assumptions C103_shape_refuted.
Print Assumptions C103_complex_refuted.
