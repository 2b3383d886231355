(** Lemmas about sparse matrices: the exchange of elements. *)
From Verif Require Import SpecSprs MBase MNb MHandle MGroup MSparse MSprs LNb LRadix LStore LIterBlk LSprs LNotify LTile LSparse2.
From Coq Require Import Permutation.
Open Scope Z_scope.

Definition zlen {A} (l : list A) : Z := Z.of_nat (length l).
Lemma zlen_app {A} (l l' : list A) : zlen (l ++ l') = zlen l + zlen l'.
Proof. unfold zlen. rewrite app_length. lia. Qed.
Lemma zlen_nonneg {A} (l : list A) : 0 <= zlen l.
Proof. unfold zlen. lia. Qed.

(** Who sends to [p], in the order of [o]. *)
Definition froms (p : Z) (o : list (Z * Z)) : list Z := map fst (filter (fun c => snd c =? p) o).
Lemma froms_In p o q : In q (froms p o) <-> In (q, p) o.
Proof.
  unfold froms. rewrite in_map_iff. split.
  - intros ([q' p'] & E & H). apply filter_In in H. cbn in *. subst. destruct H as [H1 H2]. apply Z.eqb_eq in H2. subst. exact H1.
  - intros H. exists (q, p). split; [reflexivity|]. apply filter_In. split; [exact H|apply Z.eqb_refl].
Qed.
Lemma froms_NoDup p o : NoDup o -> NoDup (froms p o).
Proof.
  unfold froms. induction o as [|[q' p'] o IH]; intros H; [constructor|]. inversion H as [|? ? H1 H2]; subst. cbn [filter snd].
  destruct (Z.eqb_spec p' p) as [->|Ne]; [|apply IH; exact H2]. cbn [map fst]. constructor; [|apply IH; exact H2].
  fold (froms p o). rewrite froms_In. exact H1.
Qed.
Lemma froms_prod p l' : In p l' -> NoDup l' -> forall l, froms p (list_prod l l') = l.
Proof.
  intros I N. induction l as [|a l IH]; [reflexivity|]. cbn [list_prod]. unfold froms. rewrite filter_app, map_app. fold (froms p (list_prod l l')). rewrite IH.
  replace (map fst (filter (fun c : Z * Z => snd c =? p) (map (fun y => (a, y)) l'))) with [a]; [reflexivity|].
  clear IH. induction l' as [|b l' IH']; [destruct I|]. inversion N as [|? ? N1 N2]; subst. cbn [map filter snd]. destruct (Z.eqb_spec b p) as [->|Ne].
  - cbn [map fst]. f_equal. replace (filter (fun c : Z * Z => snd c =? p) (map (fun y => (a, y)) l')) with (@nil (Z * Z)); [reflexivity|].
    clear - N1. induction l' as [|b l' IH]; [reflexivity|]. cbn [map filter snd]. destruct (Z.eqb_spec b p) as [->|Ne]; [exfalso; apply N1; left; reflexivity|]. apply IH. intros H. apply N1. right. exact H.
  - apply IH'; [|exact N2]. destruct I as [I|I]; [congruence|exact I].
Qed.

(** * Memory *)
Lemma put_from_at {A} : forall l (m : Z -> option A) x k, put_from m x l k = if (x <=? k) && (k <? x + zlen l) then nth_error l (Z.to_nat (k - x)) else m k.
Proof.
  induction l as [|a l IH]; intros m x k; cbn [put_from].
  - unfold zlen. cbn [length]. replace ((x <=? k) && (k <? x + Z.of_nat 0)) with false by lia. reflexivity.
  - rewrite IH. unfold zlen. cbn [length]. unfold fset. destruct (Z.eqb_spec k x) as [->|Ne].
    + replace ((x + 1 <=? x) && (x <? x + 1 + Z.of_nat (length l))) with false by lia. replace ((x <=? x) && (x <? x + Z.of_nat (S (length l)))) with true by lia. rewrite Z.sub_diag. reflexivity.
    + destruct (Z.leb_spec x k) as [L|L]; cbn [andb].
      * replace (x + 1 <=? k) with true by lia. cbn [andb]. replace (k <? x + 1 + Z.of_nat (length l)) with (k <? x + Z.of_nat (S (length l))) by lia.
        destruct (k <? x + Z.of_nat (S (length l))); [|reflexivity]. replace (Z.to_nat (k - x)) with (S (Z.to_nat (k - (x + 1)))) by lia. reflexivity.
      * replace (x + 1 <=? k) with false by lia. reflexivity.
Qed.
Definition holds {A} (m : Z -> option A) (x : Z) (l : list A) : Prop := forall k, 0 <= k < zlen l -> m (x + k) = nth_error l (Z.to_nat k).
Lemma holds_read {A} (m : Z -> option A) : forall l x y, holds m (y + x) l -> map (fun k => m (y + k)) (zseq x (length l)) = map Some l.
Proof.
  induction l as [|a l IH]; intros x y H; [reflexivity|]. cbn [length zseq map]. f_equal.
  - specialize (H 0). rewrite Z.add_0_r in H. apply H. unfold zlen. cbn [length]. lia.
  - apply IH. intros k K. specialize (H (k + 1)). replace (y + x + (k + 1)) with (y + (x + 1) + k) in H by lia. rewrite H by (unfold zlen in *; cbn [length]; lia).
    replace (Z.to_nat (k + 1)) with (S (Z.to_nat k)) by lia. reflexivity.
Qed.
(** * Places *)
Section Exchange.
Context {A : Type}.
Variables (n : Z) (buf : Z -> Z -> list A).

Definition gathered (p : Z) (qs : list Z) : list A := flat_map (fun q => buf q p) qs.
Fixpoint placed_at (off : Z -> Z -> Z) (p x : Z) (qs : list Z) : Prop :=
  match qs with [] => True | q :: r => (buf q p = [] \/ off q p = x) /\ placed_at off p (x + zlen (buf q p)) r end.
Lemma placed_ext off off' p : forall qs x, (forall q, In q qs -> off q p = off' q p) -> placed_at off p x qs -> placed_at off' p x qs.
Proof.
  induction qs as [|q qs IH]; intros x H P; [exact P|]. destruct P as [P1 P2]. split.
  - rewrite <- (H q) by (left; reflexivity). exact P1.
  - apply IH; [|exact P2]. intros q' Q. apply H. right. exact Q.
Qed.
Lemma read_offsets_ok bs : (forall q p, cnt bs q p = zlen (buf q p) \/ ~ (0 <= q < n /\ 0 <= p < n)) -> forall o ctr off,
  NoDup o -> (forall q p, In (q, p) o -> 0 <= q < n /\ 0 <= p < n) ->
  (forall p, fst (read_offsets bs o ctr off) p = ctr p + zlen (gathered p (froms p o))) /\
  (forall q p, ~ In (q, p) o -> snd (read_offsets bs o ctr off) q p = off q p) /\
  (forall p, placed_at (snd (read_offsets bs o ctr off)) p (ctr p) (froms p o)).
Proof.
  intros C. induction o as [|[q p] o IH]; intros ctr off N R.
  - cbn [read_offsets fst snd froms]. split; [intros p; unfold gathered, froms; cbn; unfold zlen; cbn; lia|]. split; [reflexivity|]. intros p. exact I.
  - inversion N as [|? ? N1 N2]; subst. assert (Cq : cnt bs q p = zlen (buf q p)) by (destruct (C q p) as [E|E]; [exact E|exfalso; apply E; apply R; left; reflexivity]).
    assert (R' : forall q p, In (q, p) o -> 0 <= q < n /\ 0 <= p < n) by (intros a b H; apply R; right; exact H).
    assert (FS : forall p', froms p' ((q, p) :: o) = if p =? p' then q :: froms p' o else froms p' o) by (intros p'; unfold froms; cbn [filter snd]; destruct (p =? p'); reflexivity).
    cbn [read_offsets]. rewrite Cq. destruct (Z.ltb_spec 0 (zlen (buf q p))) as [L|L].
    + set (ctr1 := fset ctr p (ctr p + zlen (buf q p))). set (off1 := fun q' p' => if (q' =? q) && (p' =? p) then ctr p else off q' p').
      destruct (IH ctr1 off1 N2 R') as (H1 & H2 & H3). split; [|split].
      * intros p'. rewrite H1, FS. unfold ctr1, fset. rewrite (Z.eqb_sym p' p). destruct (Z.eqb_spec p p') as [->|Ne]; [|reflexivity]. unfold gathered. cbn [flat_map]. rewrite zlen_app. lia.
      * intros q' p' H. rewrite H2 by (intros K; apply H; right; exact K). unfold off1. destruct (Z.eqb_spec q' q) as [->|]; [|reflexivity]. destruct (Z.eqb_spec p' p) as [->|]; [|reflexivity]. exfalso. apply H. left. reflexivity.
      * intros p'. rewrite FS. specialize (H3 p'). destruct (Z.eqb_spec p p') as [<-|Ne].
        -- cbn [placed_at]. unfold ctr1 in H3. rewrite fset_same in H3. split; [|exact H3]. right. rewrite H2 by exact N1. unfold off1. rewrite !Z.eqb_refl. reflexivity.
        -- unfold ctr1 in H3. rewrite fset_other in H3 by congruence. exact H3.
    + assert (B : buf q p = []) by (destruct (buf q p); [reflexivity|unfold zlen in L; cbn [length] in L; lia]).
      destruct (IH ctr off N2 R') as (H1 & H2 & H3). split; [|split].
      * intros p'. rewrite H1, FS. destruct (Z.eqb_spec p p') as [<-|Ne]; [|reflexivity]. unfold gathered. cbn [flat_map]. rewrite B. reflexivity.
      * intros q' p' H. apply H2. intros K. apply H. right. exact K.
      * intros p'. rewrite FS. specialize (H3 p'). destruct (Z.eqb_spec p p') as [<-|Ne]; [|exact H3]. cbn [placed_at]. split; [left; exact B|]. rewrite B. unfold zlen. cbn [length]. rewrite Z.add_0_r. exact H3.
Qed.
Lemma placed_range off p : forall qs x q, placed_at off p x qs -> In q qs -> buf q p <> [] ->
  x <= off q p /\ off q p + zlen (buf q p) <= x + zlen (gathered p qs).
Proof.
  induction qs as [|q0 qs IH]; intros x q P I B; [destruct I|]. destruct P as [P1 P2]. unfold gathered. cbn [flat_map]. rewrite zlen_app. fold (gathered p qs).
  pose proof (zlen_nonneg (buf q0 p)). pose proof (zlen_nonneg (gathered p qs)).
  destruct I as [->|I]; [destruct P1 as [P1|P1]; [contradiction|lia]|]. destruct (IH _ _ P2 I B). lia.
Qed.
Lemma placed_apart off p : forall qs x q q', placed_at off p x qs -> NoDup qs -> In q qs -> In q' qs -> q <> q' -> buf q p <> [] -> buf q' p <> [] ->
  off q p + zlen (buf q p) <= off q' p \/ off q' p + zlen (buf q' p) <= off q p.
Proof.
  induction qs as [|q0 qs IH]; intros x q q' P N I I' D B B'; [destruct I|]. destruct P as [P1 P2]. inversion N as [|? ? N1 N2]; subst.
  destruct I as [->|I], I' as [->|I'].
  - contradiction.
  - destruct (placed_range _ _ _ _ _ P2 I' B'). destruct P1 as [P1|P1]; [contradiction|]. lia.
  - destruct (placed_range _ _ _ _ _ P2 I B). destruct P1 as [P1|P1]; [contradiction|]. lia.
  - apply (IH _ _ _ P2 N2 I I' D B B').
Qed.

Lemma gathered_read off p y m : forall qs x, placed_at off p x qs -> (forall q, In q qs -> buf q p <> [] -> holds m (y + off q p) (buf q p)) ->
  map (fun k => m (y + k)) (zseq x (length (gathered p qs))) = map Some (gathered p qs).
Proof.
  induction qs as [|q qs IH]; intros x P H; [reflexivity|]. destruct P as [P1 P2]. unfold gathered. cbn [flat_map]. fold (gathered p qs).
  rewrite app_length, zseq_app, !map_app. f_equal.
  - destruct (buf q p) as [|a l] eqn:B; [reflexivity|]. destruct P1 as [P1|P1]; [discriminate|]. rewrite <- B. apply holds_read. rewrite <- P1. apply H; [left; reflexivity|congruence].
  - apply IH; [exact P2|]. intros q' I. apply H. right. exact I.
Qed.
End Exchange.

(** * Sending *)
Lemma zsum_nonneg_map (f : Z -> Z) l : (forall x, 0 <= f x) -> 0 <= zsum (map f l).
Proof. intros F. induction l as [|a l IH]; cbn [map zsum]; [lia|]. specialize (F a). lia. Qed.
Lemma starts_mono size p p' : (forall x, 0 <= size x) -> 0 <= p < p' -> starts size p + size p <= starts size p'.
Proof.
  intros F P. unfold starts. replace (Z.to_nat p') with (Z.to_nat p + (1 + Z.to_nat (p' - p - 1)))%nat by lia.
  rewrite !zseq_app, !map_app, !zsum_app. cbn [zseq map zsum]. replace (0 + Z.of_nat (Z.to_nat p)) with p by lia.
  pose proof (zsum_nonneg_map size (zseq (p + Z.of_nat 1) (Z.to_nat (p' - p - 1))) F). lia.
Qed.
Lemma starts_total n size p : (forall x, 0 <= size x) -> 0 <= p < n -> 1 <= starts size p /\ starts size p + size p <= total_of n size + 1.
Proof.
  intros F P. split; [unfold starts; pose proof (zsum_nonneg_map size (zseq 0 (Z.to_nat p)) F); lia|].
  unfold starts, total_of. replace (Z.to_nat n) with (Z.to_nat p + (1 + Z.to_nat (n - p - 1)))%nat by lia.
  rewrite !zseq_app, !map_app, !zsum_app. cbn [zseq map zsum]. replace (0 + Z.of_nat (Z.to_nat p)) with p by lia.
  pose proof (zsum_nonneg_map size (zseq (p + Z.of_nat 1) (Z.to_nat (n - p - 1))) F). lia.
Qed.

Section Send.
Context {V : Type}.
Variables (n idim : Z) (els : Z -> list (elt V)) (bs : list bins) (size : Z -> Z) (off : Z -> Z -> Z).
Definition sbuf (q p : Z) : list (elt V) := rev (filter (fun e => owner n idim (erow e) =? p) (els q)).
Hypotheses (BN : forall q, 0 <= q < n -> binned n (fun e => owner n idim (erow e)) (els q) (bins_of bs q))
  (SZ : forall p, 0 <= size p)
  (FIT : forall q p, 0 <= q < n -> 0 <= p < n -> sbuf q p <> [] -> 0 <= off q p /\ off q p + zlen (sbuf q p) <= size p)
  (APART : forall q q' p, 0 <= q < n -> 0 <= q' < n -> 0 <= p < n -> q <> q' -> sbuf q p <> [] -> sbuf q' p <> [] ->
     off q p + zlen (sbuf q p) <= off q' p \/ off q' p + zlen (sbuf q' p) <= off q p).

Lemma cnt_sbuf q p : 0 <= q < n -> 0 <= p < n -> cnt bs q p = zlen (sbuf q p).
Proof. intros Q P. destruct (BN q Q p P) as [_ C]. unfold cnt, zlen, sbuf. rewrite C, rev_length. reflexivity. Qed.
Lemma send_one_ok q p m : 0 <= q < n -> 0 <= p < n ->
  exists m', send_one n els bs size off q p m = Done m' /\
    (sbuf q p <> [] -> holds m' (starts size p + off q p) (sbuf q p)) /\
    (forall x, m' x = m x \/ (sbuf q p <> [] /\ starts size p + off q p <= x < starts size p + off q p + zlen (sbuf q p))).
Proof.
  intros Q P. unfold send_one. rewrite (cnt_sbuf q p Q P). destruct (Z.ltb_spec 0 (zlen (sbuf q p))) as [L|L].
  - destruct (binned_walk n _ _ _ p (BN q Q) P) as [W _]. rewrite W. fold (sbuf q p). unfold zlen at 1. rewrite Z.eqb_refl.
    assert (NE : sbuf q p <> []) by (intros E; rewrite E in L; unfold zlen in L; cbn in L; lia).
    destruct (FIT q p Q P NE) as [F1 F2]. destruct (starts_total n size p SZ P) as [S1 S2].
    replace (starts size p + off q p <=? starts size p + off q p + zlen (sbuf q p) - 1) with true by lia.
    replace ((1 <=? starts size p + off q p) && (starts size p + off q p + zlen (sbuf q p) - 1 <=? total_of n size)) with true by lia.
    eexists. split; [reflexivity|]. split.
    + intros _ k K. rewrite put_from_at. replace ((starts size p + off q p <=? starts size p + off q p + k) && (starts size p + off q p + k <? starts size p + off q p + zlen (sbuf q p))) with true by lia. replace (starts size p + off q p + k - (starts size p + off q p)) with k by lia. reflexivity.
    + intros x. rewrite put_from_at. destruct (Z.leb_spec (starts size p + off q p) x), (Z.ltb_spec x (starts size p + off q p + zlen (sbuf q p))); cbn [andb]; auto.
  - exists m. split; [reflexivity|]. split; [|auto]. intros NE. exfalso. destruct (sbuf q p); [congruence|unfold zlen in L; cbn [length] in L; lia].
Qed.
Lemma apart_parts q p q' p' x : 0 <= q < n -> 0 <= p < n -> 0 <= q' < n -> 0 <= p' < n -> (q, p) <> (q', p') -> sbuf q p <> [] -> sbuf q' p' <> [] ->
  starts size p + off q p <= x < starts size p + off q p + zlen (sbuf q p) ->
  starts size p' + off q' p' <= x < starts size p' + off q' p' + zlen (sbuf q' p') -> False.
Proof.
  intros Q P Q' P' D B B' X X'. destruct (FIT q p Q P B). destruct (FIT q' p' Q' P' B').
  destruct (Z.lt_trichotomy p p') as [L|[E|L]].
  - pose proof (starts_mono size p p' SZ ltac:(lia)). lia.
  - subst p'. assert (q <> q') by congruence. destruct (APART q q' p Q Q' P ltac:(assumption) B B'); lia.
  - pose proof (starts_mono size p' p SZ ltac:(lia)). lia.
Qed.
Lemma send_all_ok : forall o m, NoDup o -> (forall q p, In (q, p) o -> 0 <= q < n /\ 0 <= p < n) ->
  exists m', send_all n els bs size off o m = Done m' /\
    (forall q p, In (q, p) o -> sbuf q p <> [] -> holds m' (starts size p + off q p) (sbuf q p)) /\
    (forall x, m' x = m x \/ exists q p, In (q, p) o /\ sbuf q p <> [] /\ starts size p + off q p <= x < starts size p + off q p + zlen (sbuf q p)).
Proof.
  induction o as [|[q p] o IH]; intros m N R.
  - exists m. split; [reflexivity|]. split; [intros q p []|auto].
  - inversion N as [|? ? N1 N2]; subst. destruct (R q p (or_introl eq_refl)) as [Q P].
    destruct (send_one_ok q p m Q P) as (m1 & E1 & H1 & K1). destruct (IH m1 N2) as (m2 & E2 & H2 & K2); [intros a b H; apply R; right; exact H|].
    exists m2. cbn [send_all]. rewrite E1. split; [exact E2|]. split.
    + intros q' p' [E|I] B.
      * injection E as <- <-. intros k K. destruct (K2 (starts size p + off q p + k)) as [E|(q' & p' & I & B' & X)].
        -- rewrite E. apply (H1 B k K).
        -- exfalso. destruct (R q' p' (or_intror I)) as [Q' P']. apply (apart_parts q p q' p' (starts size p + off q p + k) Q P Q' P'); try assumption; [|lia]. intros E. injection E as <- <-. contradiction.
      * apply H2; assumption.
    + intros x. destruct (K2 x) as [E|(q' & p' & I & B' & X)].
      * destruct (K1 x) as [E'|[B X]]; [left; congruence|]. right. exists q, p. split; [left; reflexivity|]. split; assumption.
      * right. exists q', p'. split; [right; exact I|]. split; assumption.
Qed.
End Send.

Lemma all_some_Some {A} (l : list A) : all_some (map Some l) = Some l.
Proof. induction l as [|a l IH]; [reflexivity|]. cbn [map all_some]. rewrite IH. reflexivity. Qed.
