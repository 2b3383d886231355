(** Lemmas about sparse matrices: dense arrays. *)
From Verif Require Import SpecSprs MBase MNb MHandle MGroup MSparse MSprs MSprs2 MSprs4 LNb LRadix LStore LIterBlk LSprs LSprs2 LSprs3 LSprs4 LSprs5 LSprs6.
From Coq Require Import Permutation.
Open Scope Z_scope.

Section From.
Context {V : Type}.
Variables (trans : bool) (nz : V -> bool).
Definition swap (i j : Z) : Z * Z := if trans then (j, i) else (i, j).
Lemma filter_piece_In (b : dpart V) i j v : In (i, j, v) (filter_piece trans nz b) <->
  exists x y, contains b x y /\ (i, j) = swap (x - 1) (y - 1) /\ v = p_mem b (x - p_lo0 b + (y - p_lo1 b) * (p_hi0 b - p_lo0 b + 1)) /\ (nz v = true \/ x = y).
Proof.
  unfold filter_piece, contains, swap. rewrite in_flat_map. split.
  - intros (y & Y & H). apply in_flat_map in H. destruct H as (x & X & H). apply zseq_In in X, Y. destruct (nz _ || (x =? y)) eqn:B in H; [|destruct H]. destruct H as [H|[]].
    exists x, y. split; [lia|]. destruct trans; injection H as <- <- <-; (split; [reflexivity|]); (split; [reflexivity|]); apply orb_true_iff in B; (destruct B as [B|B]; [left; exact B|right; apply Z.eqb_eq in B; exact B]).
  - intros (x & y & [X Y] & E & -> & K). exists y. split; [apply zseq_In; lia|]. apply in_flat_map. exists x. split; [apply zseq_In; lia|].
    replace (nz _ || (x =? y)) with true by (symmetry; apply orb_true_iff; destruct K as [K|K]; [left; exact K|right; apply Z.eqb_eq; exact K]).
    left. destruct trans; injection E as -> ->; reflexivity.
Qed.
Lemma map_flat_map {A B C} (g : B -> C) (f : A -> list B) l : map g (flat_map f l) = flat_map (fun a => map g (f a)) l.
Proof. induction l as [|a l IH]; [reflexivity|]. cbn [flat_map]. rewrite map_app, IH. reflexivity. Qed.
Lemma NoDup_map_flat {A B C} (g : B -> C) (f : A -> list B) l : NoDup l -> (forall a, In a l -> NoDup (map g (f a))) ->
  (forall a a' b b', In a l -> In a' l -> In b (f a) -> In b' (f a') -> g b = g b' -> a = a') -> NoDup (map g (flat_map f l)).
Proof.
  intros N H D. rewrite map_flat_map. apply LRadix.NoDup_flat_map; [exact N|exact H|]. intros a a' y I I' J J'. apply in_map_iff in J, J'. destruct J as (b & <- & J), J' as (b' & E & J'). apply (D a a' b b'); auto.
Qed.
Lemma filter_piece_once (b : dpart V) : NoDup (map fst (filter_piece trans nz b)).
Proof.
  unfold filter_piece. apply NoDup_map_flat; [apply zseq_NoDup| |].
  - intros y _. apply NoDup_map_flat; [apply zseq_NoDup| |].
    + intros x _. destruct (nz _ || (x =? y)); repeat constructor; intros [].
    + intros x x' e e' _ _ I I' E. destruct (nz _ || (x =? y)) in I; [|destruct I]. destruct (nz _ || (x' =? y)) in I'; [|destruct I']. destruct I as [<-|[]], I' as [<-|[]]. destruct trans; cbn in E; injection E; intros; lia.
  - intros y y' e e' _ _ I I' E. apply in_flat_map in I, I'. destruct I as (x & _ & I), I' as (x' & _ & I'). destruct (nz _ || (x =? y)) in I; [|destruct I]. destruct (nz _ || (x' =? y')) in I'; [|destruct I']. destruct I as [<-|[]], I' as [<-|[]]. destruct trans; cbn in E; injection E; intros; lia.
Qed.
Lemma from_pieces_ok : forall bs : list (dpart V), (forall q b, nth_error bs q = Some b -> p_lo0 b <= p_hi0 b /\ p_lo1 b <= p_hi1 b) -> from_pieces trans nz bs = Done (map (filter_piece trans nz) bs).
Proof.
  induction bs as [|b bs IH]; intros H; [reflexivity|]. cbn [from_pieces map]. unfold from_piece. destruct (H O b eq_refl) as [H0 H1]. replace (p_lo0 b <=? p_hi0 b) with true by lia. replace (p_lo1 b <=? p_hi1 b) with true by lia. cbn [andb].
  rewrite IH; [reflexivity|]. intros q b' E. apply (H (S q) b'). exact E.
Qed.
End From.

Section To.
Context {V : Type}.
Lemma pick_app j : forall (a b : list (Z * V)) d, pick_loop j (a ++ b) d = pick_loop j b (pick_loop j a d).
Proof. induction a as [|[j' x] a IH]; intros b d; [reflexivity|]. cbn [app pick_loop]. apply IH. Qed.
Lemma pick_val j x : forall (l : list (Z * V)) d, (forall y, In (j, y) l -> y = x) -> (d = x \/ In j (map fst l)) -> pick_loop j l d = x.
Proof.
  induction l as [|[j' y] l IH]; intros d H [D|D]; [exact D|destruct D| |]; cbn [pick_loop]; apply IH.
  - intros z Z. apply H. right. exact Z.
  - left. destruct (Z.eqb_spec j j') as [->|]; [apply H; left; reflexivity|exact D].
  - intros z Z. apply H. right. exact Z.
  - destruct D as [<-|D]; [left; cbn [fst]; rewrite Z.eqb_refl; apply H; left; reflexivity|right; exact D].
Qed.
Lemma put_row_ok (pos : Z -> Z) size : (forall j j' : Z, pos j = pos j' -> j = j') -> forall (l : list (Z * V)) m, (forall j v, In (j, v) l -> 0 <= pos j < size) ->
  exists m', put_row pos size l m = Done m' /\ (forall j, m' (pos j) = pick_loop j l (m (pos j))) /\ (forall x, (forall j v, In (j, v) l -> x <> pos j) -> m' x = m x).
Proof.
  intros INJ. induction l as [|[j0 v0] l IH]; intros m H; [exists m; split; [reflexivity|]; split; [reflexivity|]; reflexivity|].
  cbn [put_row]. pose proof (H j0 v0 (or_introl eq_refl)). replace ((0 <=? pos j0) && (pos j0 <? size)) with true by lia.
  destruct (IH (fset m (pos j0) v0) ltac:(intros j v I; apply (H j v); right; exact I)) as (m' & E & A & B). exists m'. split; [exact E|]. split.
  - intros j. rewrite A. cbn [pick_loop]. f_equal. destruct (Z.eqb_spec j j0) as [->|Ne]; [apply fset_same|apply fset_other]. intros X. apply Ne, INJ. exact X.
  - intros x X. rewrite B by (intros j v I; apply (X j v); right; exact I). apply fset_other. apply (X j0 v0). left. reflexivity.
Qed.

Variables (d ilo ihi ld size : Z) (pos : Z -> Z -> Z).
(** The place of (i, j) determines both. *)
Hypothesis PINJ : forall i i' j j', ilo <= i <= ihi -> ilo <= i' <= ihi -> 0 <= j < d -> 0 <= j' < d -> pos i j = pos i' j' -> i = i' /\ j = j'.
Hypothesis PIN : forall i j j', pos i j = pos i j' -> j = j'.
Hypothesis PS : forall i j, ilo <= i <= ihi -> 0 <= j < d -> 0 <= pos i j < size.
Lemma put_rows_ok (s : sprs V) w c (r : Z -> list (Z * V)) : access_col_block s c = Done (Some w) ->
  forall rows m, NoDup rows -> (forall i, In i rows -> ilo <= i <= ihi /\ block_row s c i = Done (r i) /\ forall j v, In (j, v) (r i) -> 0 <= j < d) ->
  exists m', put_rows pos size s w rows m = Done m' /\
    forall i j, ilo <= i <= ihi -> 0 <= j < d -> m' (pos i j) = if in_dec Z.eq_dec i rows then pick_loop j (r i) (m (pos i j)) else m (pos i j).
Proof.
  intros A. induction rows as [|i0 rows IH]; intros m N H; [exists m; split; [reflexivity|]; intros i j _ _; destruct (in_dec Z.eq_dec i []) as [[]|]; reflexivity|].
  inversion N as [|? ? N1 N2]; subst. cbn [put_rows]. destruct (H i0 (or_introl eq_refl)) as (I0 & B & J0). unfold block_row in B. rewrite A in B. rewrite B.
  destruct (put_row_ok (pos i0) size (PIN i0) (r i0) m) as (m1 & E1 & P1 & Q1); [intros j v I; apply PS; [exact I0|apply (J0 j v I)]|]. rewrite E1.
  destruct (IH m1 N2 ltac:(intros i I; apply H; right; exact I)) as (m' & E & R). exists m'. split; [exact E|].
  intros i j I J. rewrite (R i j I J). destruct (in_dec Z.eq_dec i (i0 :: rows)) as [X|X]; destruct (in_dec Z.eq_dec i rows) as [Y|Y].
  - rewrite Q1; [reflexivity|]. intros j' v Ij Ep. destruct (PINJ i i0 j j' I I0 J (J0 j' v Ij) Ep) as [-> _]. contradiction.
  - destruct X as [->|X]; [|contradiction]. apply P1.
  - exfalso. apply X. right. exact Y.
  - rewrite Q1; [reflexivity|]. intros j' v Ij Ep. destruct (PINJ i i0 j j' I I0 J (J0 j' v Ij) Ep) as [-> _]. apply X. left. reflexivity.
Qed.
Lemma put_blocks_ok (s : sprs V) (r : Z -> Z -> list (Z * V)) : s_ilo s = ilo -> s_ihi s = ihi ->
  forall blk m, (forall c, In c blk -> (exists w, access_col_block s c = Done (Some w)) /\ forall i, ilo <= i <= ihi -> block_row s c i = Done (r c i) /\ forall j v, In (j, v) (r c i) -> 0 <= j < d) ->
  exists m', put_blocks pos size s blk m = Done m' /\ forall i j, ilo <= i <= ihi -> 0 <= j < d -> m' (pos i j) = pick_loop j (flat_map (fun c => r c i) blk) (m (pos i j)).
Proof.
  intros EL EH. induction blk as [|c blk IH]; intros m H; [exists m; split; [reflexivity|]; reflexivity|].
  cbn [put_blocks]. destruct (H c (or_introl eq_refl)) as ((w & Ew) & Hr). rewrite Ew, EL, EH.
  destruct (put_rows_ok s w c (r c) Ew (zseq ilo (Z.to_nat (ihi - ilo + 1))) m (zseq_NoDup _ _)) as (m1 & E1 & R1).
  { intros i I. apply zseq_In in I. split; [lia|]. apply Hr. lia. }
  rewrite E1. destruct (IH m1 ltac:(intros c' I; apply H; right; exact I)) as (m' & E & R). exists m'. split; [exact E|]. intros i j I J. rewrite (R i j I J), (R1 i j I J). cbn [flat_map]. rewrite pick_app.
  destruct (in_dec Z.eq_dec i (zseq ilo (Z.to_nat (ihi - ilo + 1)))) as [X|X]; [reflexivity|]. exfalso. apply X. apply zseq_In. lia.
Qed.
End To.
