(** Lemmas about sparse matrices: assembly by all processes, and the product with a
    vector. *)
From Verif Require Import SpecSprs MBase MNb MHandle MGroup MSparse MSprs LNb LRadix LStore LIterBlk LSprs LSprs2 LSprs3 LNotify LTile LSparse2.
From Coq Require Import Permutation.
Open Scope Z_scope.

Lemma parts_perm {A} (f : A -> Z) l lo n : Forall (fun a => lo <= f a < lo + Z.of_nat n) l ->
  Permutation (flat_map (fun k => filter (fun a => f a =? k) l) (zseq lo n)) l.
Proof.
  induction l as [|a l IH]; intros F.
  - cbn [filter]. induction (zseq lo n) as [|k ks IH]; [constructor|exact IH].
  - inversion F as [|? ? Fa Fl]; subst. eapply perm_trans; [|apply perm_skip; apply IH; exact Fl]. clear IH.
    assert (I : In (f a) (zseq lo n)) by (apply zseq_In; lia). pose proof (zseq_NoDup lo n) as N. revert I N. generalize (zseq lo n) as ks.
    induction ks as [|k ks IH]; intros I N; [destruct I|]. inversion N as [|? ? N1 N2]; subst. cbn [flat_map filter].
    destruct (Z.eqb_spec (f a) k) as [E|Ne].
    + subst k. cbn [app]. apply perm_skip. apply Permutation_app_head.
      replace (flat_map (fun k => if f a =? k then a :: filter (fun a0 => f a0 =? k) l else filter (fun a0 => f a0 =? k) l) ks) with (flat_map (fun k => filter (fun a0 => f a0 =? k) l) ks); [apply Permutation_refl|].
      clear - N1. induction ks as [|k ks IH]; [reflexivity|]. cbn [flat_map]. rewrite IH by (intros H; apply N1; right; exact H). destruct (Z.eqb_spec (f a) k) as [E|]; [exfalso; apply N1; left; symmetry; exact E|reflexivity].
    + destruct I as [I|I]; [congruence|]. eapply perm_trans; [apply Permutation_app_head; apply (IH I N2)|]. symmetry. apply Permutation_middle.
Qed.
Lemma filter_map_comm {A B} (g : A -> B) (P : B -> bool) l : filter P (map g l) = map g (filter (fun a => P (g a)) l).
Proof. induction l as [|a l IH]; [reflexivity|]. cbn [map filter]. rewrite IH. destruct (P (g a)); reflexivity. Qed.
Lemma filter_flat_map {A B} (g : A -> list B) P l : filter P (flat_map g l) = flat_map (fun a => filter P (g a)) l.
Proof. induction l as [|a l IH]; [reflexivity|]. cbn [flat_map]. rewrite filter_app, IH. reflexivity. Qed.
Lemma filter_filter2 {A} (P Q : A -> bool) l : filter P (filter Q l) = filter (fun a => P a && Q a) l.
Proof. induction l as [|a l IH]; [reflexivity|]. cbn [filter]. destruct (Q a); cbn [filter]; rewrite IH; destruct (P a); reflexivity. Qed.
Lemma filter_ext_Forall {A} (P Q : A -> bool) l : Forall (fun a => P a = Q a) l -> filter P l = filter Q l.
Proof. induction 1 as [|a l E F IH]; [reflexivity|]. cbn [filter]. rewrite E, IH. reflexivity. Qed.
Lemma flat_map_perm_ext {A B} (f g : A -> list B) l : (forall a, Permutation (f a) (g a)) -> Permutation (flat_map f l) (flat_map g l).
Proof. intros H. induction l as [|a l IH]; [constructor|]. cbn [flat_map]. apply Permutation_app; [apply H|exact IH]. Qed.
Lemma zlen_flat_map {A B} (f : A -> list B) l : zlen (flat_map f l) = zsum (map (fun a => zlen (f a)) l).
Proof. induction l as [|a l IH]; [reflexivity|]. cbn [flat_map map zsum]. rewrite zlen_app, IH. reflexivity. Qed.
Lemma zlen_perm {A} (l l' : list A) : Permutation l l' -> zlen l = zlen l'.
Proof. intros H. unfold zlen. rewrite (Permutation_length H). reflexivity. Qed.

Lemma all_pairs_In n o q p : all_pairs n o -> In (q, p) o -> 0 <= q < n /\ 0 <= p < n.
Proof. intros H I. apply (Permutation_in _ H) in I. apply in_prod_iff in I. rewrite !zseq_In in I. lia. Qed.
Lemma prod_NoDup (l' : list Z) : NoDup l' -> forall l : list Z, NoDup l -> NoDup (list_prod l l').
Proof.
  intros N'. induction l as [|a l IH]; intros N; [constructor|]. inversion N as [|? ? N1 N2]; subst. cbn [list_prod].
  assert (M : NoDup (map (fun y => (a, y)) l')). { clear - N'. induction N' as [|b l' H N IH]; [constructor|]. cbn [map]. constructor; [|exact IH]. intros I. apply in_map_iff in I. destruct I as (y & E & I). injection E as ->. contradiction. }
  specialize (IH N2). revert M IH. generalize (list_prod l l') (fun x y => proj1 (in_prod_iff l l' x y)). intros r R M IHr.
  assert (D : forall c, In c (map (fun y => (a, y)) l') -> ~ In c r). { intros c I K. apply in_map_iff in I. destruct I as (y & <- & _). apply R in K. apply N1. apply K. }
  clear R. revert D M. generalize (map (fun y => (a, y)) l'). intros m D M. induction M as [|c m H M IHm]; [exact IHr|]. cbn [app]. constructor.
  - intros I. apply in_app_or in I. destruct I as [I|I]; [contradiction|]. apply (D c); [left; reflexivity|exact I].
  - apply IHm. intros c' I. apply D. right. exact I.
Qed.
Lemma all_pairs_NoDup n o : all_pairs n o -> NoDup o.
Proof. intros H. apply (Permutation_NoDup (Permutation_sym H)). apply prod_NoDup; apply zseq_NoDup. Qed.
Lemma all_pairs_froms n o p : all_pairs n o -> 0 <= p < n -> Permutation (froms p o) (zseq 0 (Z.to_nat n)).
Proof.
  intros H P. unfold froms. eapply perm_trans; [apply Permutation_map; apply Permutation_filter_in; exact H|].
  fold (froms p (list_prod (zseq 0 (Z.to_nat n)) (zseq 0 (Z.to_nat n)))). rewrite froms_prod; [apply Permutation_refl|apply zseq_In; lia|apply zseq_NoDup].
Qed.

Section All.
Context {V : Type}.
Variables (fuel : nat) (n idim jdim : Z) (els : Z -> list (elt V)) (o o' : list (Z * Z)).
Hypotheses (FU : (2 <= fuel)%nat) (NI : 1 <= n <= idim) (NJ : 1 <= jdim) (O : all_pairs n o) (O' : all_pairs n o')
  (IN : forall q, 0 <= q < n -> Forall (inside idim jdim) (els q)).
Notation key := (fun e : elt V => owner n idim (erow e)).
Notation buf := (sbuf n idim els).
Definition loc (p : Z) : list (elt V) := gathered buf p (froms p o).

Lemma all_inside : Forall (inside idim jdim) (all_elts n els).
Proof. apply Forall_forall. intros e I. apply in_flat_map in I. destruct I as (q & Q & I). apply zseq_In in Q. pose proof (IN q ltac:(lia)) as F. rewrite Forall_forall in F. apply F. exact I. Qed.
Lemma loc_perm p : 0 <= p < n -> Permutation (loc p) (filter (fun e => key e =? p) (all_elts n els)).
Proof.
  intros P. unfold loc, gathered, all_elts. rewrite filter_flat_map.
  eapply perm_trans; [apply flat_map_Permutation; apply (all_pairs_froms n o p O P)|].
  apply flat_map_perm_ext. intros q. unfold sbuf. symmetry. apply Permutation_rev.
Qed.
Lemma sort_all : exists bs, collect (sort_out n idim els) (zseq 0 (Z.to_nat n)) = Done bs /\
  forall q, 0 <= q < n -> binned n key (els q) (bins_of bs q).
Proof.
  destruct (collect_choice (sort_out n idim els) (fun q b => binned n key (els q) b) (zseq 0 (Z.to_nat n))) as (bs & E & F).
  { intros q Q. apply zseq_In in Q. unfold sort_out. apply bin_all_ok. eapply Forall_impl; [|apply IN; lia]. intros e [Hr _]. apply owner_range; lia. }
  exists bs. split; [exact E|]. apply Forall2_zseq in F. destruct F as [L F]. intros q Q. unfold bins_of.
  destruct (nth_error bs (Z.to_nat q)) as [b|] eqn:B; [|apply nth_error_None in B; lia]. rewrite (nth_error_nth _ _ _ B). specialize (F _ _ B). rewrite Z2Nat.id in F by lia. rewrite Z.add_0_l in F. exact F.
Qed.
Definition of_rows (p : Z) (s : sprs V) : Prop :=
  own_low fuel n idim p = Done (s_ilo s) /\ high_limit fuel n idim p = Done (s_ihi s) /\
    (forall c, In c (s_blk s) <-> 0 <= c < n /\ exists e, In e (loc p) /\ owner n jdim (ecol e) = c) /\ apart s /\
    forall c i, s_ilo s <= i <= s_ihi s ->
      block_row s c i = Done (if 0 <=? c then if c <? n then map (fun e => (ecol e, evalue e)) (picked (rowkey (s_ilo s)) (picked (fun e => owner n jdim (ecol e)) (loc p) c) (i - s_ilo s)) else [] else []).
Lemma assemble_ok : exists ss, length ss = Z.to_nat n /\ (forall k s, nth_error ss k = Some s -> of_rows (Z.of_nat k) s) /\
  assemble fuel n idim jdim els o o' = (if zlen (all_elts n els) <? n then Abort else
    if zsum (map (fun s => (s_ihi s - s_ilo s + 1 + 1) * Z.of_nat (length (s_blk s))) ss) <? n then Abort else Done ss).
Proof.
  destruct sort_all as (bs & EB & BN). unfold assemble. rewrite EB.
  assert (CN : forall q p, cnt bs q p = zlen (buf q p) \/ ~ (0 <= q < n /\ 0 <= p < n)).
  { intros q p. destruct (Z_le_dec 0 q), (Z_lt_dec q n), (Z_le_dec 0 p), (Z_lt_dec p n); try (right; lia). left. apply cnt_sbuf; [exact BN|lia|lia]. }
  destruct (read_offsets_ok n buf bs CN o (fun _ => 0) (fun _ _ => 0) (all_pairs_NoDup n o O)) as (R1 & R2 & R3); [intros q p I; apply (all_pairs_In n o q p O I)|].
  destruct (read_offsets bs o (fun _ => 0) (fun _ _ => 0)) as [size off]. cbn [fst snd] in R1, R2, R3.
  assert (SZ : forall p, size p = zlen (loc p)) by (intros p; rewrite R1; unfold loc; lia).
  assert (TOT : total_of n size = zlen (all_elts n els)).
  { unfold total_of. rewrite (map_ext _ _ SZ). rewrite <- zlen_flat_map. apply zlen_perm.
    eapply perm_trans; [|apply (parts_perm key (all_elts n els) 0 (Z.to_nat n))].
    - assert (X : forall ps, (forall p, In p ps -> 0 <= p < n) -> Permutation (flat_map loc ps) (flat_map (fun k => filter (fun a => key a =? k) (all_elts n els)) ps)).
      { induction ps as [|p ps IH]; intros H; [constructor|]. cbn [flat_map]. apply Permutation_app; [apply loc_perm; apply H; left; reflexivity|]. apply IH. intros p' I. apply H. right. exact I. }
      apply X. intros p I. apply zseq_In in I. lia.
    - eapply Forall_impl; [|apply all_inside]. intros e [Hr _]. cbn. pose proof (owner_range n idim (erow e) ltac:(lia) ltac:(lia) Hr). lia. }
  rewrite TOT. destruct (zlen (all_elts n els) <? n).
  { destruct (collect_choice (fun p => arrange fuel n idim jdim p (loc p)) of_rows (zseq 0 (Z.to_nat n))) as (ss & E & F).
    { intros p I. apply zseq_In in I. apply (arrange_ok fuel n idim jdim FU NI NJ p (loc p)); [lia| |].
      - eapply Permutation_Forall; [symmetry; apply loc_perm; lia|]. eapply incl_Forall; [|apply all_inside]. intros e Ie. apply filter_In in Ie. apply Ie.
      - eapply Permutation_Forall; [symmetry; apply loc_perm; lia|]. apply Forall_forall. intros e Ie. apply filter_In in Ie. destruct Ie as [_ Ie]. apply Z.eqb_eq in Ie. exact Ie. }
    apply Forall2_zseq in F. destruct F as [L F]. exists ss. split; [exact L|]. split; [intros k s E'; apply (F k s E')|]. reflexivity. }
  destruct (send_all_ok n idim els bs size off BN) with (o := o') (m := fun _ : Z => @None (elt V)) as (m & EM & H1 & _).
  { intros p. rewrite SZ. apply zlen_nonneg. }
  { intros q p Q P B. pose proof (placed_range buf off p _ _ q (R3 p)) as X. rewrite SZ. unfold loc. destruct X as [X1 X2]; [apply (Permutation_in _ (Permutation_sym (all_pairs_froms n o p O P))); apply zseq_In; lia|exact B|]. lia. }
  { intros q q' p Q Q' P D B B'. apply (placed_apart buf off p (froms p o) 0 q q' (R3 p)); try assumption.
    - apply froms_NoDup. apply (all_pairs_NoDup n o O).
    - apply (Permutation_in _ (Permutation_sym (all_pairs_froms n o p O P))); apply zseq_In; lia.
    - apply (Permutation_in _ (Permutation_sym (all_pairs_froms n o p O P))); apply zseq_In; lia. }
  { apply (all_pairs_NoDup n o' O'). }
  { intros q p I. apply (all_pairs_In n o' q p O' I). }
  rewrite EM.
  assert (LP : forall p, 0 <= p < n -> local_part size m p = Done (loc p)).
  { intros p P. unfold local_part. rewrite SZ. unfold zlen. rewrite Nat2Z.id. unfold loc. rewrite (gathered_read buf off p (starts size p) m (froms p o) 0 (R3 p)).
    - rewrite all_some_Some. reflexivity.
    - intros q Q B. apply H1; [|exact B]. apply (Permutation_in _ (all_pairs_froms n o p O P)) in Q. apply zseq_In in Q.
      apply (Permutation_in _ (Permutation_sym O')). apply in_prod_iff. rewrite !zseq_In. lia. }
  destruct (collect_choice (fun p => try l <- local_part size m p; arrange fuel n idim jdim p l) of_rows (zseq 0 (Z.to_nat n))) as (ss & E & F).
  { intros p I. apply zseq_In in I. rewrite LP by lia. apply (arrange_ok fuel n idim jdim FU NI NJ p (loc p)); [lia| |].
    - eapply Permutation_Forall; [symmetry; apply loc_perm; lia|]. eapply incl_Forall; [|apply all_inside]. intros e Ie. apply filter_In in Ie. apply Ie.
    - eapply Permutation_Forall; [symmetry; apply loc_perm; lia|]. apply Forall_forall. intros e Ie. apply filter_In in Ie. destruct Ie as [_ Ie]. apply Z.eqb_eq in Ie. exact Ie. }
  rewrite E. apply Forall2_zseq in F. destruct F as [L F]. exists ss. split; [exact L|]. split; [intros k s E'; apply (F k s E')|]. reflexivity.
Qed.
Lemma of_rows_spec p s : 0 <= p < n -> of_rows p s ->
  0 <= s_ilo s <= s_ihi s /\ s_ihi s < idim /\ (forall i, 0 <= i < idim -> (s_ilo s <= i <= s_ihi s <-> in_part n idim p i)) /\
  (forall c, In c (s_blk s) <-> 0 <= c < n /\ exists e, In e (all_elts n els) /\ in_part n idim p (erow e) /\ in_part n jdim c (ecol e)) /\ apart s /\
  forall c i, 0 <= c < n -> s_ilo s <= i <= s_ihi s -> exists r, block_row s c i = Done r /\ Permutation r (row_part n jdim c i (all_elts n els)).
Proof.
  intros P (L & H & BL & AP & ROW). destruct (column_limits fuel n idim p FU NI P) as (lo & hi & _ & EL & EH & LH & HD & RNG). rewrite L in EL. rewrite H in EH. injection EL as <-. injection EH as <-.
  split; [lia|]. split; [lia|]. split; [exact RNG|]. pose proof (loc_perm p P) as LP. pose proof all_inside as AI. rewrite Forall_forall in AI. split.
  - intros c. rewrite BL. split.
    + intros [C (e & Ie & Oe)]. split; [exact C|]. exists e. apply (Permutation_in _ LP) in Ie. apply filter_In in Ie. destruct Ie as [Ie Ke]. apply Z.eqb_eq in Ke. destruct (AI e Ie) as [Hr Hc].
      split; [exact Ie|]. split; [apply owner_part in Ke; [exact Ke|lia|lia|lia]|apply owner_part in Oe; [exact Oe|lia|lia|lia]].
    + intros [C (e & Ie & Pe & Ce)]. split; [exact C|]. exists e. destruct (AI e Ie) as [Hr Hc]. split; [|apply owner_part; [lia|lia|lia|exact Ce]].
      apply (Permutation_in _ (Permutation_sym LP)). apply filter_In. split; [exact Ie|]. apply Z.eqb_eq. apply owner_part; [lia|lia|lia|exact Pe].
  - split; [exact AP|]. intros c i C I. eexists. split; [apply ROW; exact I|]. replace (0 <=? c) with true by lia. replace (c <? n) with true by lia. unfold row_part. apply Permutation_map.
    eapply perm_trans; [apply picked_perm|]. eapply perm_trans; [apply Permutation_filter_in; apply picked_perm|]. eapply perm_trans; [apply Permutation_filter_in; apply Permutation_filter_in; exact LP|].
    rewrite !filter_filter2. rewrite (filter_ext_Forall _ (fun e => (erow e =? i) && in_partb n jdim c (ecol e))); [apply Permutation_refl|].
    apply Forall_forall. intros e Ie. destruct (AI e Ie) as [Hr Hc]. unfold rowkey. rewrite (owner_partb n jdim (ecol e) c) by lia.
    replace (erow e - s_ilo s =? i - s_ilo s) with (erow e =? i) by lia. destruct (Z.eqb_spec (erow e) i) as [->|]; [|reflexivity]. cbn [andb].
    replace (owner n idim i =? p) with true; [apply andb_true_r|]. symmetry. apply Z.eqb_eq. apply owner_part; [lia|lia|lia|]. apply RNG; lia.
Qed.
End All.
