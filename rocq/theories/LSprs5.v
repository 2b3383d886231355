(** Lemmas about sparse matrices: the product with a vector. *)
From Verif Require Import SpecSprs MBase MNb MHandle MGroup MSparse MSprs LNb LRadix LStore LIterBlk LSprs LSprs2 LSprs3 LSprs4 LNotify LTile LSparse2.
From Coq Require Import Permutation.
Open Scope Z_scope.

Section Sums.
Context {V : Type}.
Variables (add : V -> V -> V) (zero : V).
Hypothesis AD : addition add zero.
Lemma add_zero_r a : add a zero = a.
Proof. rewrite (ad_comm _ _ AD). apply (ad_zero _ _ AD). Qed.
Lemma lsum_app l l' : lsum add zero (l ++ l') = add (lsum add zero l) (lsum add zero l').
Proof. induction l as [|a l IH]; cbn [app lsum fold_right]; [symmetry; apply (ad_zero _ _ AD)|]. fold (lsum add zero (l ++ l')). rewrite IH. apply (ad_assoc _ _ AD). Qed.
Lemma lsum_perm l l' : Permutation l l' -> lsum add zero l = lsum add zero l'.
Proof.
  induction 1 as [|a l l' H IH|a b l|l l' l'' H1 IH1 H2 IH2]; cbn [lsum fold_right]; [reflexivity| | |congruence].
  - unfold lsum in IH. rewrite IH. reflexivity.
  - rewrite !(ad_assoc _ _ AD), (ad_comm _ _ AD b a). reflexivity.
Qed.
End Sums.

Section Product.
Context {V : Type}.
Variables (fuel : nat) (n idim jdim : Z) (add mul : V -> V -> V) (zero : V) (all : list (elt V)) (x : Z -> V).
Hypotheses (FU : (2 <= fuel)%nat) (NI : 1 <= n <= idim) (NJ : n <= jdim) (AD : addition add zero) (IN : Forall (inside idim jdim) all).
Notation prod := (fun jv : Z * V => mul (snd jv) (x (fst jv))).
Notation rowsum := (fun c i => lsum add zero (map prod (row_part n jdim c i all))).

Lemma dot_loop_ok buf len jlo : forall l sum, (forall j v, In (j, v) l -> 0 <= j - jlo < len /\ buf (j - jlo) = x j) ->
  dot_loop add mul buf len jlo l sum = Done (add sum (lsum add zero (map prod l))).
Proof.
  induction l as [|[j v] l IH]; intros sum H; cbn [dot_loop map lsum fold_right fst snd].
  - rewrite (add_zero_r add zero AD). reflexivity.
  - destruct (H j v (or_introl eq_refl)) as [R E]. replace ((0 <=? j - jlo) && (j - jlo <? len)) with true by lia. rewrite E, IH by (intros j' v' I; apply (H j' v'); right; exact I).
    rewrite <- (ad_assoc _ _ AD). reflexivity.
Qed.
Variable s : sprs V.
Hypothesis ROWS : forall c i, 0 <= c < n -> s_ilo s <= i <= s_ihi s -> exists r, block_row s c i = Done r /\ Permutation r (row_part n jdim c i all).
Lemma mv_rows_ok c w jlo jhi : 0 <= c < n -> access_col_block s c = Done (Some w) -> column_distribution fuel n jdim c = Done (jlo, jhi) ->
  forall rows sum, NoDup rows -> (forall i, In i rows -> s_ilo s <= i <= s_ihi s) ->
  exists f, mv_rows false add mul s w (fun k => x (jlo + k)) (jhi - jlo + 1) jlo rows sum = Done f /\
    (forall i, In i rows -> f i = add (sum i) (rowsum c i)) /\ (forall i, ~ In i rows -> f i = sum i).
Proof.
  intros C W CD. destruct (column_limits fuel n jdim c FU ltac:(lia) C) as (lo & hi & E & _ & _ & LH & HD & RNG). rewrite CD in E. injection E as <- <-.
  induction rows as [|i rows IH]; intros sum N R.
  - exists sum. split; [reflexivity|]. split; [intros i []|reflexivity].
  - inversion N as [|? ? N1 N2]; subst. destruct (ROWS c i C (R i (or_introl eq_refl))) as (r & E & P). unfold block_row in E. rewrite W in E. cbn [mv_rows]. rewrite E.
    rewrite dot_loop_ok.
    2:{ intros j v I. apply (Permutation_in _ P) in I. unfold row_part in I. apply in_map_iff in I. destruct I as (e & Ee & I). injection Ee as <- <-. apply filter_In in I. destruct I as [I B].
        apply andb_prop in B. destruct B as [_ B]. apply in_partb_spec in B. rewrite Forall_forall in IN. destruct (IN e I) as [_ Hc]. apply RNG in B; [|exact Hc]. split; [lia|]. f_equal. lia. }
    rewrite (lsum_perm add zero AD (map prod r) (map prod (row_part n jdim c i all))) by (apply Permutation_map; exact P).
    destruct (IH (fset sum i (add (sum i) (rowsum c i))) N2) as (f & F & F1 & F2); [intros i' I; apply R; right; exact I|].
    exists f. split; [exact F|]. split.
    + intros i' [<-|I]; [rewrite F2 by exact N1; apply fset_same|]. rewrite F1 by exact I. rewrite fset_other; [reflexivity|]. intros ->. contradiction.
    + intros i' I. rewrite F2 by (intros K; apply I; right; exact K). apply fset_other. intros ->. apply I. left. reflexivity.
Qed.
Definition sval (sum : option (Z -> V)) (i : Z) : V := match sum with None => zero | Some f => f i end.
Lemma access_none c : access_col_block s c = Done None -> forall i, s_ilo s <= i <= s_ihi s -> 0 <= c < n -> rowsum c i = zero.
Proof.
  intros A i I C. destruct (ROWS c i C I) as (r & E & P). unfold block_row in E. rewrite A in E. injection E as <-. apply Permutation_nil in P. rewrite P. reflexivity.
Qed.
Hypothesis ACC : forall c, access_col_block s c = Done None /\ ~ In c (s_blk s) \/ exists w, access_col_block s c = Done (Some w).
Lemma mv_blocks_ok : forall cs sum, (forall c, In c cs -> 0 <= c < n) ->
  exists sum', mv_blocks false fuel n jdim add mul zero s x cs sum = Done sum' /\
    (forall i, s_ilo s <= i <= s_ihi s -> sval sum' i = add (sval sum i) (lsum add zero (map (fun c => rowsum c i) cs))) /\
    (sum' = None -> sum = None /\ forall c, In c cs -> ~ In c (s_blk s)).
Proof.
  induction cs as [|c cs IH]; intros sum R.
  - exists sum. split; [reflexivity|]. split; [intros i I; cbn; symmetry; apply (add_zero_r add zero AD)|]. intros ->. split; [reflexivity|]. intros c [].
  - assert (C : 0 <= c < n) by (apply R; left; reflexivity). assert (R' : forall c, In c cs -> 0 <= c < n) by (intros c' I; apply R; right; exact I).
    destruct (column_limits fuel n jdim c FU ltac:(lia) C) as (jlo & jhi & CD & _ & _ & LH & HD & _). cbn [mv_blocks]. rewrite CD.
    destruct (ACC c) as [[A NB]|[w A]]; rewrite A.
    + destruct (IH sum R') as (sum' & E & H1 & H2). exists sum'. split; [exact E|]. split.
      * intros i I. rewrite H1 by exact I. cbn [map lsum fold_right]. rewrite (access_none c A i I C), (ad_zero _ _ AD). reflexivity.
      * intros Q. destruct (H2 Q) as [Q1 Q2]. split; [exact Q1|]. intros c' [<-|I]; [exact NB|apply Q2; exact I].
    + replace ((0 <=? jlo) && (jlo <=? jhi) && (jhi <? jdim)) with true by lia.
      destruct (mv_rows_ok c w jlo jhi C A CD (zseq (s_ilo s) (Z.to_nat (s_ihi s - s_ilo s + 1))) (match sum with None => fun _ => zero | Some f => f end)) as (f & F & F1 & F2).
      { apply zseq_NoDup. } { intros i I. apply zseq_In in I. lia. }
      rewrite F. destruct (IH (Some f) R') as (sum' & E & H1 & H2). exists sum'. split; [exact E|]. split.
      * intros i I. rewrite H1 by exact I. cbn [sval map lsum fold_right]. rewrite F1 by (apply zseq_In; lia). rewrite <- (ad_assoc _ _ AD). destruct sum; reflexivity.
      * intros Q. destruct (H2 Q) as [Q1 _]. discriminate.
Qed.
Lemma rowsum_all i : lsum add zero (map (fun c => rowsum c i) (zseq 0 (Z.to_nat n))) = row_product add mul zero all x i.
Proof.
  unfold row_product. transitivity (lsum add zero (flat_map (fun c => map prod (row_part n jdim c i all)) (zseq 0 (Z.to_nat n)))).
  - induction (zseq 0 (Z.to_nat n)) as [|c cs IH]; [reflexivity|]. cbn [flat_map]. rewrite lsum_app by exact AD. rewrite <- IH. reflexivity.
  - apply (lsum_perm add zero AD).
    set (l := filter (fun e => erow e =? i) all). set (g := fun e : elt V => mul (evalue e) (x (ecol e))).
    assert (F : Forall (inside idim jdim) l) by (eapply incl_Forall; [|exact IN]; intros e I; apply filter_In in I; apply I).
    assert (E : forall c, map prod (row_part n jdim c i all) = map g (filter (fun e => owner n jdim (ecol e) =? c) l)).
    { intros c. unfold row_part. rewrite map_map. cbn [fst snd]. unfold l. rewrite filter_filter2. f_equal. apply filter_ext_Forall. eapply Forall_impl; [|exact IN]. intros e [_ Hc]. cbn. rewrite (owner_partb n jdim (ecol e) c) by lia. apply andb_comm. }
    assert (E2 : forall cs, flat_map (fun c => map prod (row_part n jdim c i all)) cs = map g (flat_map (fun c => filter (fun e => owner n jdim (ecol e) =? c) l) cs)).
    { induction cs as [|c cs IH]; [reflexivity|]. cbn [flat_map]. rewrite map_app, IH, E. reflexivity. }
    rewrite E2. apply Permutation_map. apply parts_perm. eapply Forall_impl; [|exact F]. intros e [_ Hc]. cbn. pose proof (owner_range n jdim (ecol e) ltac:(lia) ltac:(lia) Hc). lia.
Qed.
Lemma matvec1_ok alpha vdim v : (forall y, mul alpha y = y) -> (exists c, In c (s_blk s) /\ 0 <= c < n) -> 0 <= s_ilo s <= s_ihi s -> s_ihi s < vdim ->
  exists v', matvec1 false fuel n jdim add mul zero alpha vdim x s v = Done v' /\
    forall i, v' i = if (s_ilo s <=? i) && (i <=? s_ihi s) then add (v i) (row_product add mul zero all x i) else v i.
Proof.
  intros AL (c & CB & C) L H. unfold matvec1. destruct (mv_blocks_ok (zseq 0 (Z.to_nat n)) None) as (sum & E & H1 & H2); [intros c' I; apply zseq_In in I; lia|].
  rewrite E. replace (s_ilo s <=? s_ihi s) with true by lia. destruct sum as [f|].
  - replace ((0 <=? s_ilo s) && (s_ihi s <? vdim)) with true by lia. eexists. split; [reflexivity|]. intros i. cbn beta. destruct ((s_ilo s <=? i) && (i <=? s_ihi s)) eqn:B; [|reflexivity].
    specialize (H1 i ltac:(lia)). cbn [sval] in H1. rewrite AL, H1, rowsum_all, (ad_zero _ _ AD). reflexivity.
  - exfalso. destruct (H2 eq_refl) as [_ K]. apply (K c); [apply zseq_In; lia|exact CB].
Qed.
End Product.
Lemma find_block_In : forall l c k, In c l -> exists j, find_block l c k = Some j /\ k <= j < k + zlen l.
Proof.
  induction l as [|a l IH]; intros c k I; [destruct I|]. cbn [find_block]. unfold zlen. cbn [length]. destruct (Z.eqb_spec a c) as [->|Ne]; [exists k; split; [reflexivity|lia]|].
  destruct I as [I|I]; [congruence|]. destruct (IH c (k + 1) I) as (j & E & R). exists j. split; [exact E|]. unfold zlen in R. lia.
Qed.
Lemma find_block_bound : forall l c k j, find_block l c k = Some j -> In c l.
Proof.
  induction l as [|a l IH]; intros c k j E; [discriminate|]. cbn [find_block] in E. destruct (Z.eqb_spec a c) as [->|Ne]; [left; reflexivity|right; apply (IH _ _ _ E)].
Qed.
Lemma access_cases {V} (s : sprs V) (c i : Z) r : block_row s c i = Done r ->
  access_col_block s c = Done None /\ ~ In c (s_blk s) \/ exists w, access_col_block s c = Done (Some w).
Proof.
  unfold block_row. intros H. destruct (access_col_block s c) as [[w|]| |] eqn:A; try discriminate; [right; exists w; reflexivity|left].
  split; [reflexivity|]. intros I. destruct (find_block_In _ c 0 I) as (j & E & _). unfold access_col_block in A. rewrite E in A. destruct (rdl (s_off s) j); discriminate.
Qed.
