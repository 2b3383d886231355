(** In-place updates of sparse matrices, diagonals and columns (C97, C98). *)
From Verif Require Import SpecSprs MBase MNb MHandle MGroup MSparse MSprs MSprs2 LNb LDist LRadix LStore LIterBlk LSprs LSprs2 LSprs3 LSprs4 LSprs5.
From Coq Require Import Permutation.
Open Scope Z_scope.

Lemma rdl_Done {A} (l : list A) p a : rdl l p = Done a -> 0 <= p < zlen l /\ nth_error l (Z.to_nat p) = Some a.
Proof.
  unfold rdl. destruct (Z.leb_spec 0 p); [|discriminate]. destruct (nth_error l (Z.to_nat p)) eqn:E; [|discriminate]. intros [= <-].
  assert (Z.to_nat p < length l)%nat by (apply nth_error_Some; congruence). split; [unfold zlen; lia|reflexivity].
Qed.
Lemma rdl_zset {A} (l l' : list A) p y q : zset l p y = Some l' -> rdl l' q = if q =? p then Done y else rdl l q.
Proof.
  intros H. destruct (zset_Some _ _ _ _ H) as (B & L & G & O). unfold zget in *. unfold rdl. destruct (Z.eqb_spec q p) as [->|Ne].
  - replace (0 <=? p) with true by lia. replace (p <? 0) with false in G by lia. rewrite G. reflexivity.
  - specialize (O q Ne). destruct (Z.leb_spec 0 q); [|reflexivity]. replace (q <? 0) with false in O by lia. rewrite O. reflexivity.
Qed.
Lemma collect_inv {A} (f : Z -> out A) : forall ps l, collect f ps = Done l -> Forall2 (fun p a => f p = Done a) ps l.
Proof.
  induction ps as [|p ps IH]; intros l E; cbn [collect] in E; [injection E as <-; constructor|].
  destruct (f p) eqn:F; try discriminate. destruct (collect f ps) eqn:G; try discriminate. injection E as <-. constructor; [exact F|apply IH; reflexivity].
Qed.

Section Upd.
Context {V : Type}.
Lemma upd_cells_ok (g : Z -> V -> out V) h sj : forall ps sv, NoDup ps ->
  (forall p, In p ps -> exists j x, rdl sj p = Done j /\ rdl sv p = Done x /\ g j x = Done (h j x)) ->
  exists sv', upd_cells g sj ps sv = Done sv' /\ forall p, rdl sv' p = if in_dec Z.eq_dec p ps then try j <- rdl sj p; try x <- rdl sv p; Done (h j x) else rdl sv p.
Proof.
  induction ps as [|p ps IH]; intros sv N H; [exists sv; split; [reflexivity|]; intros q; destruct (in_dec Z.eq_dec q []) as [[]|]; reflexivity|].
  inversion N as [|? ? N1 N2]; subst. destruct (H p (or_introl eq_refl)) as (j & x & Ej & Ex & Eg). cbn [upd_cells]. rewrite Ej, Ex, Eg.
  destruct (rdl_Done _ _ _ Ex) as [B _]. destruct (zset_ok sv p (h j x) B) as (sv1 & E1). rewrite E1.
  destruct (IH sv1 N2) as (sv' & E & R).
  { intros q I. destruct (H q (or_intror I)) as (j' & x' & A1 & A2 & A3). exists j', x'. split; [exact A1|]. split; [|exact A3]. rewrite (rdl_zset _ _ _ _ q E1). destruct (Z.eqb_spec q p) as [->|]; [contradiction|exact A2]. }
  exists sv'. split; [exact E|]. intros q. rewrite R. rewrite (rdl_zset _ _ _ _ q E1). destruct (in_dec Z.eq_dec q (p :: ps)) as [I|I]; destruct (in_dec Z.eq_dec q ps) as [J|J].
  - destruct (Z.eqb_spec q p) as [->|]; [contradiction|reflexivity].
  - destruct I as [->|I]; [|contradiction]. rewrite Z.eqb_refl, Ej, Ex. reflexivity.
  - exfalso. apply I. right. exact J.
  - destruct (Z.eqb_spec q p) as [->|]; [exfalso; apply I; left; reflexivity|reflexivity].
Qed.

(** The row of a block by its place. *)
Lemma block_row_place (s : sprs V) c i : block_row s c i =
  (try pl <- row_place s c i; match pl with None => Done [] | Some (x, y) =>
    collect (fun p => try j <- rdl (s_j s) p; try v <- rdl (s_v s) p; Done (j, v)) (zseq x (Z.to_nat (y - x))) end).
Proof.
  unfold block_row, row_place, access_col_block. destruct (find_block (s_blk s) c 0) as [k|]; [|reflexivity]. destruct (rdl (s_off s) k) as [off| |]; try reflexivity.
  unfold read_row. cbn [v_i v_j v_v]. destruct (rdl (s_i s) _) as [a| |]; try reflexivity. destruct (rdl (s_i s) _) as [b| |]; try reflexivity.
  replace (off + b - (off + a)) with (b - a) by lia. generalize (Z.to_nat (b - a)). intros m.
  assert (G : forall m k, collect (fun k => try j <- rdl (s_j s) (off + (a + k)); try x <- rdl (s_v s) (off + (a + k)); Done (j, x)) (zseq k m) =
    collect (fun p => try j <- rdl (s_j s) p; try v <- rdl (s_v s) p; Done (j, v)) (zseq (off + a + k) m)).
  { clear m. induction m as [|m IH]; intros q; [reflexivity|]. cbn [zseq collect]. rewrite IH. replace (off + (a + q)) with (off + a + q) by lia. replace (off + a + (q + 1)) with (off + a + q + 1) by lia. reflexivity. }
  rewrite G, Z.add_0_r. reflexivity.
Qed.

Variables (s : sprs V) (h : Z -> Z -> V -> V).
Hypothesis AP : apart s.
Definition upd_list (i : Z) (r : list (Z * V)) : list (Z * V) := map (fun a => (fst a, h i (fst a) (snd a))) r.
(** [sv] has the rows in [D] updated and the others not. *)
Definition partly (D : Z -> Z -> bool) (sv : list V) : Prop :=
  forall c i r, s_ilo s <= i <= s_ihi s -> block_row s c i = Done r ->
    block_row (with_values s sv) c i = Done (if D c i then upd_list i r else r).
Lemma row_place_values sv c i : row_place (with_values s sv) c i = row_place s c i.
Proof. reflexivity. Qed.
Lemma partly_row (g : Z -> Z -> V -> out V) D sv c i r : s_ilo s <= i <= s_ihi s -> block_row s c i = Done r -> D c i = false -> partly D sv ->
  Forall (fun a => forall x, g i (fst a) x = Done (h i (fst a) x)) r ->
  exists sv', (try pl <- row_place s c i; match pl with None => Done sv | Some (x, y) => upd_cells (g i) (s_j s) (zseq x (Z.to_nat (y - x))) sv end) = Done sv' /\
    partly (fun c' i' => D c' i' || ((c' =? c) && (i' =? i))) sv'.
Proof.
  intros RI BR DF P G. pose proof (P c i r RI BR) as PC. rewrite DF in PC. pose proof BR as BR0. rewrite block_row_place in BR0, PC. rewrite row_place_values in PC.
  destruct (row_place s c i) as [[[x y]|]| |] eqn:RP; try discriminate.
  2:{ exists sv. split; [reflexivity|]. intros c' i' r' RI' BR'. rewrite (P c' i' r' RI' BR'). destruct (D c' i') eqn:DD; [reflexivity|]. cbn [orb]. destruct (Z.eqb_spec c' c) as [->|]; [|reflexivity]. destruct (Z.eqb_spec i' i) as [->|]; [|reflexivity].
      rewrite BR in BR'. injection BR' as <-. injection BR0 as <-. reflexivity. }
  cbn [with_values s_j s_v] in PC. apply collect_inv in PC.
  assert (CELL : forall p, In p (zseq x (Z.to_nat (y - x))) -> exists j v, rdl (s_j s) p = Done j /\ rdl sv p = Done v /\ g i j v = Done (h i j v)).
  { clear - PC G. induction PC as [|p a ps l H1 H2 IH]; intros q I; [destruct I|]. inversion G as [|? ? G1 G2]; subst. destruct I as [->|I]; [|apply IH; assumption].
    destruct (rdl (s_j s) q) as [j| |]; try discriminate. destruct (rdl sv q) as [v| |]; try discriminate. injection H1 as <-. exists j, v. split; [reflexivity|]. split; [reflexivity|]. apply G1. }
  destruct (upd_cells_ok (g i) (h i) (s_j s) (zseq x (Z.to_nat (y - x))) sv (zseq_NoDup _ _) CELL) as (sv' & E & R). exists sv'. split; [exact E|].
  intros c' i' r' RI' BR'. pose proof (P c' i' r' RI' BR') as P'. rewrite block_row_place in P' |- *. rewrite row_place_values in P' |- *.
  destruct (row_place s c' i') as [[[x' y']|]| |] eqn:RP'; try discriminate.
  2:{ assert (NE : (c' =? c) && (i' =? i) = false). { destruct (Z.eqb_spec c' c) as [->|]; [|reflexivity]. destruct (Z.eqb_spec i' i) as [->|]; [|reflexivity]. congruence. } rewrite NE, orb_false_r. exact P'. }
  cbn [with_values s_j s_v] in P' |- *.
  destruct ((c' =? c) && (i' =? i)) eqn:CI.
  - apply andb_true_iff in CI. destruct CI as [C1 C2]. apply Z.eqb_eq in C1. apply Z.eqb_eq in C2. subst c' i'. rewrite orb_true_r. rewrite RP in RP'. injection RP' as <- <-. rewrite BR in BR'. injection BR' as <-.
    rewrite DF in P'. apply collect_inv in P'. clear - P' R. assert (SUB : forall p, In p (zseq x (Z.to_nat (y - x))) -> rdl sv' p = (try j <- rdl (s_j s) p; try v <- rdl sv p; Done (h i j v))).
    { intros p I. rewrite R. destruct (in_dec Z.eq_dec p _); [reflexivity|contradiction]. } clear R.
    induction P' as [|p a ps l H1 H2 IH]; [reflexivity|]. cbn [collect upd_list map]. rewrite SUB by (left; reflexivity). destruct (rdl (s_j s) p) as [j| |]; try discriminate. destruct (rdl sv p) as [v| |]; try discriminate. injection H1 as <-.
    rewrite IH by (intros q I; apply SUB; right; exact I). reflexivity.
  - rewrite orb_false_r. rewrite <- P'. assert (SUB : forall p, In p (zseq x' (Z.to_nat (y' - x'))) -> rdl sv' p = rdl sv p).
    { intros p I. rewrite R. destruct (in_dec Z.eq_dec p _) as [J|]; [|reflexivity]. exfalso. apply zseq_In in I. apply zseq_In in J. destruct (AP c i c' i' x y x' y' p RI RI' RP RP' ltac:(lia) ltac:(lia)) as [-> ->]. rewrite !Z.eqb_refl in CI. discriminate. }
    clear - SUB. induction (zseq x' (Z.to_nat (y' - x'))) as [|p ps IH]; [reflexivity|]. cbn [collect]. rewrite SUB by (left; reflexivity). rewrite IH by (intros q I; apply SUB; right; exact I). reflexivity.
Qed.
Lemma partly_ext D D' sv : (forall c i, s_ilo s <= i <= s_ihi s -> D c i = D' c i) -> partly D sv -> partly D' sv.
Proof. intros E P c i r R B. rewrite <- E by exact R. apply P; assumption. Qed.

Lemma upd_rows_ok g c D : (forall i, D c i = false) ->
  (forall i, s_ilo s <= i <= s_ihi s -> exists r, block_row s c i = Done r /\ Forall (fun a => forall x, g i (fst a) x = Done (h i (fst a) x)) r) ->
  forall m i0 sv, s_ilo s <= i0 -> i0 + Z.of_nat m = s_ihi s + 1 -> partly (fun c' i' => D c' i' || ((c' =? c) && (i' <? i0))) sv ->
  exists sv', upd_rows g s c (zseq i0 m) sv = Done sv' /\ partly (fun c' i' => D c' i' || (c' =? c)) sv'.
Proof.
  intros DF H. induction m as [|m IH]; intros i0 sv LO HI P.
  - exists sv. split; [reflexivity|]. eapply partly_ext; [|exact P]. intros c' i' R. cbn beta. replace (i' <? i0) with true by lia. rewrite andb_true_r. reflexivity.
  - cbn [zseq upd_rows]. destruct (H i0 ltac:(lia)) as (r & BR & G).
    assert (DD : (fun c' i' => D c' i' || ((c' =? c) && (i' <? i0))) c i0 = false) by (cbn beta; rewrite DF, Z.ltb_irrefl, andb_false_r; reflexivity).
    destruct (partly_row g _ sv c i0 r ltac:(lia) BR DD P G) as (sv1 & E1 & P1).
    assert (P2 : partly (fun c' i' => D c' i' || ((c' =? c) && (i' <? i0 + 1))) sv1).
    { eapply partly_ext; [|exact P1]. intros c' i' R. cbn beta. destruct (D c' i'); [reflexivity|]. cbn [orb]. destruct (c' =? c); [|reflexivity]. cbn [andb]. lia. }
    destruct (IH (i0 + 1) sv1 ltac:(lia) ltac:(lia) P2) as (sv' & E & P'). exists sv'. split; [|exact P'].
    destruct (row_place s c i0) as [[[x y]|]| |]; try discriminate; [rewrite E1; exact E|injection E1 as <-; exact E].
Qed.
Lemma upd_blocks_ok pre n : s_ilo s <= s_ihi s + 1 ->
  (forall c, 0 <= c < n -> exists g, pre c = Done g /\ forall i, s_ilo s <= i <= s_ihi s -> exists r, block_row s c i = Done r /\ Forall (fun a => forall x, g i (fst a) x = Done (h i (fst a) x)) r) ->
  forall m c0 sv, 0 <= c0 -> c0 + Z.of_nat m = n -> partly (fun c' i' => (0 <=? c') && (c' <? c0)) sv ->
  exists sv', upd_blocks pre s (zseq c0 m) sv = Done sv' /\ partly (fun c' i' => (0 <=? c') && (c' <? n)) sv'.
Proof.
  intros LH H. induction m as [|m IH]; intros c0 sv C0 C1 P.
  - exists sv. split; [reflexivity|]. replace n with c0 by lia. exact P.
  - cbn [zseq upd_blocks]. destruct (H c0 ltac:(lia)) as (g & Eg & G). rewrite Eg.
    destruct (upd_rows_ok g c0 (fun c' i' => (0 <=? c') && (c' <? c0))) with (m := Z.to_nat (s_ihi s - s_ilo s + 1)) (i0 := s_ilo s) (sv := sv) as (sv1 & E1 & P1).
    + intros i. cbn beta. lia.
    + exact G.
    + lia.
    + lia.
    + eapply partly_ext; [|exact P]. intros c' i' R. cbn beta. lia.
    + rewrite E1. destruct (IH (c0 + 1) sv1 ltac:(lia) ltac:(lia)) as (sv' & E & P'); [|exists sv'; split; [exact E|exact P']].
      eapply partly_ext; [|exact P1]. intros c' i' R. cbn beta. lia.
Qed.
Lemma upd_all_ok pre n : 0 <= n -> s_ilo s <= s_ihi s + 1 ->
  (forall c, 0 <= c < n -> exists g, pre c = Done g /\ forall i, s_ilo s <= i <= s_ihi s -> exists r, block_row s c i = Done r /\ Forall (fun a => forall x, g i (fst a) x = Done (h i (fst a) x)) r) ->
  exists sv, upd_all n pre s = Done (with_values s sv) /\
    forall c i r, 0 <= c < n -> s_ilo s <= i <= s_ihi s -> block_row s c i = Done r -> block_row (with_values s sv) c i = Done (upd_list i r).
Proof.
  intros N LH H. destruct (upd_blocks_ok pre n LH H (Z.to_nat n) 0 (s_v s) ltac:(lia) ltac:(lia)) as (sv & E & P).
  - intros c i r RI BR. replace ((0 <=? c) && (c <? 0)) with false by lia. destruct s; exact BR.
  - exists sv. unfold upd_all. rewrite E. split; [reflexivity|]. intros c i r C RI BR. rewrite (P c i r RI BR). replace ((0 <=? c) && (c <? n)) with true by lia. reflexivity.
Qed.
End Upd.

(** * Reading a column *)
Section Pick.
Context {V : Type}.
Lemma pick_none j : forall (l : list (Z * V)) d, ~ In j (map fst l) -> pick_loop j l d = d.
Proof.
  induction l as [|[j' x] l IH]; intros d N; [reflexivity|]. cbn [pick_loop]. destruct (Z.eqb_spec j j') as [->|]; [exfalso; apply N; left; reflexivity|]. apply IH. intros I. apply N. right. exact I.
Qed.
Lemma pick_in j x : forall (l : list (Z * V)) d, NoDup (map fst l) -> In (j, x) l -> pick_loop j l d = x.
Proof.
  induction l as [|[j' y] l IH]; intros d N I; [destruct I|]. cbn [map fst] in N. inversion N as [|? ? N1 N2]; subst. cbn [pick_loop]. destruct I as [[= -> ->]|I].
  - rewrite Z.eqb_refl. apply pick_none. exact N1.
  - apply IH; assumption.
Qed.
Lemma pick_twice j : forall (l : list (Z * V)) d, pick_loop j l (pick_loop j l d) = pick_loop j l d.
Proof.
  intros l d. assert (G : forall (l : list (Z * V)), (forall a b, pick_loop j l a = pick_loop j l b) \/ forall a, pick_loop j l a = a).
  { clear. induction l as [|[j' x] l [IH|IH]]; [right; reflexivity|left; intros a b; cbn [pick_loop]; apply IH|].
    cbn [pick_loop]. destruct (j =? j'); [left; intros a b; reflexivity|right; intros a; apply IH]. }
  destruct (G l) as [E|E]; [apply E|rewrite E; reflexivity].
Qed.
Lemma pick_rows_ok (s : sprs V) w c key (r : Z -> list (Z * V)) : access_col_block s c = Done (Some w) ->
  forall rows v, NoDup rows -> (forall i, In i rows -> block_row s c i = Done (r i)) ->
  exists v', pick_rows s w key rows v = Done v' /\ forall i, v' i = if in_dec Z.eq_dec i rows then pick_loop (key i) (r i) (v i) else v i.
Proof.
  intros A. induction rows as [|i0 rows IH]; intros v N H; [exists v; split; [reflexivity|]; intros i; destruct (in_dec Z.eq_dec i []) as [[]|]; reflexivity|].
  inversion N as [|? ? N1 N2]; subst. cbn [pick_rows]. pose proof (H i0 (or_introl eq_refl)) as B. unfold block_row in B. rewrite A in B. rewrite B.
  destruct (IH (fset v i0 (pick_loop (key i0) (r i0) (v i0))) N2 ltac:(intros i I; apply H; right; exact I)) as (v' & E & R). exists v'. split; [exact E|].
  intros i. rewrite R. destruct (in_dec Z.eq_dec i (i0 :: rows)) as [I|I]; destruct (in_dec Z.eq_dec i rows) as [J|J].
  - rewrite fset_other; [reflexivity|]. intros ->. contradiction.
  - destruct I as [->|I]; [|contradiction]. rewrite fset_same. reflexivity.
  - exfalso. apply I. right. exact J.
  - rewrite fset_other; [reflexivity|]. intros ->. apply I. left. reflexivity.
Qed.
Lemma col_loop_ok (s : sprs V) c icol (r : Z -> list (Z * V)) : s_ilo s <= s_ihi s + 1 ->
  (forall i, s_ilo s <= i <= s_ihi s -> block_row s c i = Done (r i)) -> (In c (s_blk s) -> exists w, access_col_block s c = Done (Some w)) ->
  forall blk v, incl blk (s_blk s) ->
  exists v', col_loop s c icol blk v = Done v' /\
    forall i, v' i = if in_dec Z.eq_dec c blk then if (s_ilo s <=? i) && (i <=? s_ihi s) then pick_loop icol (r i) (v i) else v i else v i.
Proof.
  intros LH H A. induction blk as [|b blk IH]; intros v I; [exists v; split; [reflexivity|]; intros i; destruct (in_dec Z.eq_dec c []) as [[]|]; reflexivity|].
  cbn [col_loop]. assert (I' : incl blk (s_blk s)) by (intros x X; apply I; right; exact X). destruct (Z.eqb_spec b c) as [->|Ne].
  - destruct (A (I c (or_introl eq_refl))) as (w & Ew). rewrite Ew.
    destruct (pick_rows_ok s w c (fun _ => icol) r Ew (zseq (s_ilo s) (Z.to_nat (s_ihi s - s_ilo s + 1))) v (zseq_NoDup _ _)) as (v1 & E1 & R1); [intros i Ii; apply zseq_In in Ii; apply H; lia|].
    rewrite E1. destruct (IH v1 I') as (v' & E & R). exists v'. split; [exact E|]. intros i. rewrite R. clear R. destruct (in_dec Z.eq_dec c (c :: blk)) as [_|X]; [|exfalso; apply X; left; reflexivity].
    rewrite R1. destruct (in_dec Z.eq_dec i (zseq (s_ilo s) (Z.to_nat (s_ihi s - s_ilo s + 1)))) as [J|J]; rewrite zseq_In in J.
    + replace ((s_ilo s <=? i) && (i <=? s_ihi s)) with true by lia. destruct (in_dec Z.eq_dec c blk); [apply pick_twice|reflexivity].
    + replace ((s_ilo s <=? i) && (i <=? s_ihi s)) with false by lia. destruct (in_dec Z.eq_dec c blk); reflexivity.
  - destruct (IH v I') as (v' & E & R). exists v'. split; [exact E|]. intros i. rewrite R. destruct (in_dec Z.eq_dec c (b :: blk)) as [X|X]; destruct (in_dec Z.eq_dec c blk) as [Y|Y]; try reflexivity.
    + destruct X as [X|X]; [congruence|contradiction].
    + exfalso. apply X. right. exact Y.
Qed.
End Pick.
