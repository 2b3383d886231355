(** Lemmas about the product of two sparse matrices: size of the table, and one process. *)
From Verif Require Import SpecSprs MBase MNb MHandle MGroup MSparse MSprs SpecSprs3 MSprs3 LNb LDist LRadix LStore LIterBlk LTile LNotify LSprs LSprs2 LSprs3 LSprs4 LSprs5 PSprs LSprs7 LSprs8.
From Coq Require Import Permutation.
Open Scope Z_scope.

Section Table.
Context {V : Type}.
Variables (jdim : Z) (add : V -> V -> V) (zero : V) (bufsize : Z).
Hypothesis AD : addition add zero.
Lemma add_products_ok : forall ps done t, inv jdim add zero bufsize done t -> (forall e, In e ps -> 0 <= erow e * jdim + ecol e) ->
  (forall ks, NoDup ks -> incl ks (map fst (done ++ ps)) -> zlen ks <= bufsize) ->
  exists t', add_products jdim add bufsize ps t = Done t' /\ inv jdim add zero bufsize (done ++ ps) t'.
Proof.
  induction ps as [|p ps IH]; intros done t I H CAP; cbn [add_products].
  - exists t. split; [reflexivity|]. rewrite app_nil_r. exact I.
  - destruct (add_product_ok jdim add zero bufsize AD done t p I) as (t' & E & I').
    + specialize (CAP [fst p] ltac:(repeat constructor; intros [])). unfold zlen in CAP. cbn [length] in CAP. apply CAP. intros k [<-|[]]. apply in_map. apply in_or_app. right. left. reflexivity.
    + apply H. left. reflexivity.
    + intros N. specialize (CAP (fst p :: map fst (snd t))). unfold zlen in *. cbn [length] in CAP. rewrite map_length in CAP.
      enough (Z.of_nat (S (length (snd t))) <= bufsize) by (unfold elt in *; lia). apply CAP; [constructor; [exact N|apply (in_nodup _ _ _ _ _ _ I)]|].
      intros k [<-|K]; [apply in_map; apply in_or_app; right; left; reflexivity|]. apply (in_keys _ _ _ _ _ _ I) in K. rewrite map_app. apply in_or_app. left. exact K.
    + rewrite E. destruct (IH (done ++ [p]) t' I') as (t2 & E2 & I2); [intros e Ie; apply H; right; exact Ie|rewrite <- app_assoc; exact CAP|]. rewrite <- app_assoc in I2. exists t2. split; [exact E2|exact I2].
Qed.
Lemma table_ok ps : (forall e, In e ps -> 0 <= erow e * jdim + ecol e) -> (forall ks, NoDup ks -> incl ks (map fst ps) -> zlen ks <= bufsize) ->
  exists b es, add_products jdim add bufsize ps (no_bins, []) = Done (b, es) /\ NoDup (map fst es) /\
    forall k v, In (k, v) es <-> In k (map fst ps) /\ v = lsum add zero (values_at k ps).
Proof.
  intros H CAP. destruct (add_products_ok ps [] (no_bins, [])) as ([b es] & E & [B N K W]); [|exact H|exact CAP|].
  - constructor; cbn [fst snd map].
    + intros k _. split; [constructor|reflexivity].
    + constructor.
    + reflexivity.
    + intros k v [].
  - cbn [app fst snd] in *. exists b, es. split; [exact E|]. split; [exact N|]. intros k v. split.
    + intros I. split; [apply K; apply (in_map fst) in I; exact I|apply W; exact I].
    + intros [I ->]. apply K in I. apply in_map_iff in I. destruct I as ([k' v] & E1 & I). cbn in E1. subst k'. rewrite (W _ _ I) in I. exact I.
Qed.
End Table.

Lemma fold_max l x : In x l -> x <= fold_right Z.max 0 l.
Proof. induction l as [|y l IH]; intros I; [destruct I|]. cbn [fold_right]. destruct I as [->|I]; [lia|specialize (IH I); lia]. Qed.
Lemma fold_max_pos l : 0 <= fold_right Z.max 0 l.
Proof. induction l as [|y l IH]; cbn [fold_right]; lia. Qed.
Lemma nth_of {A} (l : list A) n p : length l = Z.to_nat n -> 0 <= p < n -> exists a, nth_error l (Z.to_nat p) = Some a.
Proof. intros L P. destruct (nth_error l (Z.to_nat p)) as [a|] eqn:E; [exists a; reflexivity|]. apply nth_error_None in E. lia. Qed.
Lemma in_nth {A} (l : list A) n a : length l = Z.to_nat n -> In a l -> exists p, 0 <= p < n /\ nth_error l (Z.to_nat p) = Some a.
Proof.
  intros L I. apply In_nth_error in I. destruct I as (k & E). assert (k < length l)%nat by (apply nth_error_Some; congruence). exists (Z.of_nat k). rewrite Nat2Z.id. split; [lia|exact E].
Qed.

Lemma max_nnz_ok {V} n idim jdim (l : list (elt V)) ss : 1 <= n <= idim -> 1 <= jdim -> Forall (inside idim jdim) l -> represents n idim jdim l ss ->
  exists m, max_nnz n ss = Done m /\ 0 <= m /\ forall i, 0 <= i < idim -> zlen (filter (fun e => erow e =? i) l) <= m.
Proof.
  intros NI NJ IN [L R]. unfold max_nnz. set (g := fun s : sprs V => map (fun i => zlen (filter (fun e => erow e =? i) l)) (rows_of s)).
  rewrite (gather_In _ g).
  - eexists. split; [reflexivity|]. split; [apply fold_max_pos|]. intros i I. apply fold_max. pose proof (owner_range n idim i ltac:(lia) ltac:(lia) I) as O.
    destruct (nth_of ss n _ L O) as (s & E). destruct (R _ s O E) as (LS & _ & RNG & _). apply in_flat_map. exists s. split; [apply (nth_error_In _ _ E)|].
    unfold g. apply in_map_iff. exists i. split; [reflexivity|]. apply rows_of_In; [lia|]. apply RNG; [exact I|]. apply owner_part; [lia|lia|lia|reflexivity].
  - intros s Is. destruct (in_nth ss n s L Is) as (p & P & E). destruct (R p s P E) as (LS & HS & RNG & _ & _ & ROW). unfold g. apply collect_map. intros i I. apply rows_of_In in I; [|lia].
    unfold row_nnz. destruct (gather_perm (fun c => block_row s c i) (fun c => row_part n jdim c i l) (zseq 0 (Z.to_nat n))) as (r & Er & Pr).
    { intros c C. apply zseq_In in C. apply ROW; lia. }
    rewrite Er. f_equal. change (zlen r = zlen (filter (fun e => erow e =? i) l)). rewrite (zlen_perm _ _ Pr), (zlen_perm _ _ (row_parts_all n idim NI idim jdim l i NJ IN)). unfold zlen. rewrite map_length. reflexivity.
Qed.

Lemma products_row {V} (mul : V -> V -> V) la lb i j : products mul la lb i j <> [] -> exists a b, In a la /\ In b lb /\ erow a = i /\ ecol b = j /\ ecol a = erow b.
Proof.
  unfold products. intros H. destruct (flat_map _ _) as [|x l] eqn:E; [contradiction|]. assert (I : In x (x :: l)) by (left; reflexivity). rewrite <- E in I. apply in_flat_map in I. destruct I as (a & Ia & I).
  apply filter_In in Ia. destruct Ia as [Ia Ra]. apply in_map_iff in I. destruct I as (b & _ & I). apply filter_In in I. destruct I as [Ib C]. exists a, b. split; [exact Ia|]. split; [exact Ib|]. lia.
Qed.
Section One.
Context {V : Type}.
Variables (fuel : nat) (n ia ja jb : Z) (add mul : V -> V -> V) (zero : V) (la lb : list (elt V)) (ssa ssb : list (sprs V)).
Hypotheses (FU : (2 <= fuel)%nat) (AD : addition add zero) (NI : 1 <= n <= ia) (NJ : n <= ja) (NB : 1 <= jb)
  (INA : Forall (inside ia ja) la) (INB : Forall (inside ja jb) lb) (RA : represents n ia ja la ssa) (RB : represents n ja jb lb ssb).
Variables (ma mb : Z).
Hypotheses (MA : 0 <= ma /\ forall i, 0 <= i < ia -> zlen (filter (fun e => erow e =? i) la) <= ma)
  (MB : 0 <= mb /\ forall i, 0 <= i < ja -> zlen (filter (fun e => erow e =? i) lb) <= mb).
Variables (p : Z) (sa : sprs V).
Hypotheses (P : 0 <= p < n) (NS : nth_error ssa (Z.to_nat p) = Some sa).
Notation mine := (own_part n ia la p).
Notation T := (flat_map (of_elt mul lb) mine).

Lemma sa_facts : 0 <= s_ilo sa <= s_ihi sa /\ s_ihi sa < ia /\ (forall i, 0 <= i < ia -> (s_ilo sa <= i <= s_ihi sa <-> owner n ia i = p)).
Proof.
  destruct RA as [_ R]. destruct (R p sa P NS) as (L & H & RNG & _). split; [exact L|]. split; [exact H|]. intros i I. rewrite (owner_part n ia i p) by lia. apply RNG. exact I.
Qed.
Lemma T_In e : In e T -> exists a b, In a la /\ In b lb /\ ecol a = erow b /\ e = (erow a, ecol b, mul (evalue a) (evalue b)) /\ owner n ia (erow a) = p.
Proof.
  intros I. apply in_flat_map in I. destruct I as (a & Ia & I). apply filter_In in Ia. destruct Ia as [Ia O]. apply Z.eqb_eq in O. unfold of_elt in I. apply in_map_iff in I.
  destruct I as (b & <- & I). apply filter_In in I. destruct I as [I E]. apply Z.eqb_eq in E. exists a, b. repeat split; try assumption; congruence.
Qed.
Lemma list_prod_len {A B} (x : list A) (y : list B) : zlen (list_prod x y) = zlen x * zlen y.
Proof. unfold zlen. rewrite prod_length. lia. Qed.
Lemma incl_zlen {A} (l l' : list A) : NoDup l -> incl l l' -> zlen l <= zlen l'.
Proof. intros N I. pose proof (NoDup_incl_length N I). unfold zlen. lia. Qed.
Lemma sum_bound {A} (f : A -> Z) m l : (forall a, In a l -> f a <= m) -> zsum (map f l) <= zlen l * m.
Proof.
  induction l as [|a l IH]; intros H; [unfold zlen; cbn; lia|]. cbn [map zsum]. specialize (IH ltac:(intros b I; apply H; right; exact I)). pose proof (H a (or_introl eq_refl)).
  change (a :: l) with ([a] ++ l). rewrite zlen_app. change (zlen [a]) with 1. nia.
Qed.
Lemma mine_len : zlen mine <= (s_ihi sa - s_ilo sa + 1) * ma.
Proof.
  destruct sa_facts as (L & H & RNG). rewrite <- (zlen_perm _ _ (own_rows n ia ja la INA sa ltac:(lia) p RNG)). rewrite zlen_flat_map.
  eapply Z.le_trans; [apply sum_bound with (m := ma)|].
  - intros i I. apply rows_of_In in I; [|lia]. apply MA. lia.
  - unfold rows_of, zlen. rewrite zseq_length. rewrite Z2Nat.id by lia. lia.
Qed.
Lemma capacity ks : NoDup ks -> incl ks (map fst T) -> zlen ks <= buf_size jb sa ma mb.
Proof.
  intros N I. destruct sa_facts as (L & H & RNG). unfold buf_size. destruct (jb <? ma * mb) eqn:B.
  - assert (K : incl ks (list_prod (rows_of sa) (zseq 0 (Z.to_nat jb)))).
    { intros k Ik. apply I in Ik. apply in_map_iff in Ik. destruct Ik as (e & <- & Ie). apply T_In in Ie. destruct Ie as (a & b & Ia & Ib & _ & -> & O). cbn [fst].
      rewrite Forall_forall in INA, INB. destruct (INA a Ia) as [Ra _]. destruct (INB b Ib) as [_ Cb]. apply in_prod; [apply rows_of_In; [lia|]; apply RNG; assumption|apply zseq_In; lia]. }
    pose proof (incl_zlen _ _ N K) as Q. rewrite list_prod_len in Q. unfold rows_of, zlen in Q. rewrite !zseq_length in Q. rewrite !Z2Nat.id in Q by lia. exact Q.
  - assert (Q : zlen ks <= zlen T) by (pose proof (incl_zlen _ _ N I) as Q; unfold zlen in *; rewrite map_length in Q; exact Q). rewrite zlen_flat_map in Q.
    eapply Z.le_trans; [exact Q|]. eapply Z.le_trans; [apply sum_bound with (m := mb)|].
    + intros a Ia. apply filter_In in Ia. destruct Ia as [Ia _]. rewrite Forall_forall in INA. destruct (INA a Ia) as [_ Ca]. unfold of_elt, zlen. rewrite map_length. apply (proj2 MB (ecol a) Ca).
    + pose proof mine_len. destruct MB. apply Z.mul_le_mono_nonneg_r; lia.
Qed.

Lemma values_T i j : owner n ia i = p -> values_at (i, j) T = products mul la lb i j.
Proof.
  intros O. unfold values_at, products. rewrite filter_flat_map, map_flat. unfold own_part.
  assert (FF : forall (Q : elt V -> bool) (f : elt V -> list V) l, flat_map f (filter Q l) = flat_map (fun a => if Q a then f a else []) l).
  { intros Q f l. induction l as [|a l IH]; [reflexivity|]. cbn [filter flat_map]. destruct (Q a); cbn [flat_map]; rewrite IH; reflexivity. }
  rewrite !FF. apply flat_map_ext_in'. intros a _. unfold of_elt. rewrite filter_map_comm, map_map, filter_filter2. cbn [fst snd evalue].
  destruct (Z.eqb_spec (erow a) i) as [->|Ne].
  - rewrite O, Z.eqb_refl. f_equal. apply filter_ext_Forall. apply Forall_forall. intros b _. unfold keyb. cbn [fst snd]. rewrite Z.eqb_refl. cbn [andb]. apply andb_comm.
  - destruct (owner n ia (erow a) =? p); [|reflexivity]. match goal with |- map _ (filter ?F lb) = _ => replace (filter F lb) with (@nil (elt V)); [reflexivity|] end.
    symmetry. clear - Ne. induction lb as [|b l IH]; [reflexivity|]. cbn [filter]. unfold keyb at 1. cbn [fst snd]. replace (erow a =? i) with false by lia. cbn [andb]. rewrite ?andb_false_r. exact IH.
Qed.
Lemma key_values k (l : list (elt V)) : In k (map fst l) <-> values_at k l <> [].
Proof.
  unfold values_at. induction l as [|e l IH]; [split; [intros []|intros H; exfalso; apply H; reflexivity]|]. cbn [map filter In]. destruct (keyb (fst e) k) eqn:B.
  - split; [intros _; discriminate|]. intros _. left. apply keyb_eq. exact B.
  - rewrite <- IH. split; [intros [E|I]; [apply keyb_eq in E; congruence|exact I]|intros I; right; exact I].
Qed.

Lemma low_high : own_low fuel n ia p = Done (s_ilo sa) /\ high_limit fuel n ia p = Done (s_ihi sa).
Proof.
  destruct RA as [_ R]. destruct (R p sa P NS) as (L & H & RNG & _). destruct (column_limits fuel n ia p FU NI P) as (lo & hi & _ & EL & EH & LH & HD & RNG').
  pose proof (proj2 (RNG' (s_ilo sa) ltac:(lia)) (proj1 (RNG (s_ilo sa) ltac:(lia)) ltac:(lia))). pose proof (proj2 (RNG lo ltac:(lia)) (proj1 (RNG' lo ltac:(lia)) ltac:(lia))).
  pose proof (proj2 (RNG' (s_ihi sa) ltac:(lia)) (proj1 (RNG (s_ihi sa) ltac:(lia)) ltac:(lia))). pose proof (proj2 (RNG hi ltac:(lia)) (proj1 (RNG' hi ltac:(lia)) ltac:(lia))).
  replace (s_ilo sa) with lo by lia. replace (s_ihi sa) with hi by lia.
  split; assumption.
Qed.
Lemma arrange_rows_eq (loc : list (elt V)) : loc <> [] -> arrange_rows n jb (s_ilo sa) (s_ihi sa) loc = arrange fuel n ia jb p loc.
Proof.
  intros NE. destruct low_high as [EL EH]. unfold arrange_rows, arrange. destruct loc as [|e loc]; [contradiction|].
  destruct (bin_all _ _ _ _) as [b| |]; try reflexivity. destruct (col_blocks _ _ _) as [blks| |]; try reflexivity. rewrite EL, EH. reflexivity.
Qed.
Lemma one_ok : (exists a b, In a la /\ In b lb /\ ecol a = erow b /\ owner n ia (erow a) = p) ->
  exists es s, matmat1 false n jb add mul ma mb ssb sa = Done s /\ arrange fuel n ia jb p es = Done s /\ es <> [] /\ NoDup (map fst es) /\
    forall i j v, In (i, j, v) es <-> owner n ia i = p /\ products mul la lb i j <> [] /\ v = lsum add zero (products mul la lb i j).
Proof.
  intros (a0 & b0 & Ia0 & Ib0 & E0 & O0). destruct sa_facts as (L & H & RNG). destruct RA as [_ R]. destruct (R p sa P NS) as (_ & _ & _ & _ & _ & ROWS). destruct RB as [LB R'].
  destruct (all_products_ok n ia ja jb mul la lb NI NJ NB INA INB sa ssb ROWS ltac:(lia) LB) with (p := p) as (ps & EP & PP).
  { intros l sb HL HS. destruct (R' l sb HL HS) as (X & _ & Y & _ & _ & Z). split; [lia|]. split; [exact Y|exact Z]. }
  { exact RNG. }
  assert (PK : forall k, In k (map fst ps) <-> In k (map fst T)) by (intros k; split; apply Permutation_in; apply Permutation_map; [exact PP|apply Permutation_sym; exact PP]).
  destruct (table_ok jb add zero (buf_size jb sa ma mb) AD ps) as (b & es & ET & ND & CH).
  { intros e Ie. apply (Permutation_in _ PP) in Ie. apply T_In in Ie. destruct Ie as (a & b & Ia & Ib & _ & -> & _). unfold erow, ecol. cbn [fst snd]. rewrite Forall_forall in INA, INB. destruct (INA a Ia) as [X _]. destruct (INB b Ib) as [_ Y].
    unfold erow, ecol in *. nia. }
  { intros ks N I. apply capacity; [exact N|]. intros k Ik. apply PK. apply I. exact Ik. }
  assert (CH' : forall i j v, In (i, j, v) es <-> owner n ia i = p /\ products mul la lb i j <> [] /\ v = lsum add zero (products mul la lb i j)).
  { intros i j v. rewrite CH, PK. split.
    - intros [I ->]. assert (O : owner n ia i = p). { apply in_map_iff in I. destruct I as (e & Ee & Ie). apply T_In in Ie. destruct Ie as (a & b1 & _ & _ & _ & -> & O). cbn in Ee. injection Ee as <- _. exact O. }
      apply key_values in I. rewrite (values_T i j O) in I. split; [exact O|]. split; [exact I|]. rewrite <- (values_T i j O). apply (lsum_perm add zero AD). unfold values_at. apply Permutation_map. apply Permutation_filter_in. exact PP.
    - intros (O & NE & ->). rewrite <- (values_T i j O) in NE |- *. split; [apply key_values; exact NE|]. apply (lsum_perm add zero AD). unfold values_at. apply Permutation_map. apply Permutation_filter_in. apply Permutation_sym. exact PP. }
  assert (NE : es <> []).
  { intros ->. destruct (CH' (erow a0) (ecol b0) (lsum add zero (products mul la lb (erow a0) (ecol b0)))) as [_ K]. apply K. split; [exact O0|]. split; [|reflexivity].
    unfold products. intros Z0. assert (I : In (mul (evalue a0) (evalue b0)) (@nil V)); [|exact I]. rewrite <- Z0. apply in_flat_map. exists a0. split; [apply filter_In; split; [exact Ia0|apply Z.eqb_refl]|].
    apply in_map_iff. exists b0. split; [reflexivity|]. apply filter_In. split; [exact Ib0|]. rewrite E0, !Z.eqb_refl. reflexivity. }
  assert (IO : Forall (inside ia jb) es /\ Forall (fun e => owner n ia (erow e) = p) es).
  { split; apply Forall_forall; intros [[i j] v] I; apply CH' in I; destruct I as (O & NP & _); [|exact O]. apply products_row in NP. destruct NP as (a & b1 & Ia & Ib & <- & <- & _). rewrite Forall_forall in INA, INB. destruct (INA a Ia), (INB b1 Ib). split; assumption. }
  destruct (arrange_ok fuel n ia jb FU NI NB p es P (proj1 IO) (proj2 IO)) as (s & EA & _).
  exists es, s. split; [|split; [exact EA|split; [exact NE|split; [exact ND|exact CH']]]].
  unfold matmat1. rewrite EP, ET. cbn [snd]. rewrite (arrange_rows_eq es NE). exact EA.
Qed.
End One.

Lemma arranged_part {V} fuel n idim jdim (l loc : list (elt V)) p s : (2 <= fuel)%nat -> 1 <= n <= idim -> 1 <= jdim -> Forall (inside idim jdim) l ->
  0 <= p < n -> Permutation loc (filter (fun e => owner n idim (erow e) =? p) l) -> arrange fuel n idim jdim p loc = Done s ->
  0 <= s_ilo s <= s_ihi s /\ s_ihi s < idim /\ (forall i, 0 <= i < idim -> (s_ilo s <= i <= s_ihi s <-> in_part n idim p i)) /\
  (forall c, In c (s_blk s) <-> 0 <= c < n /\ exists e, In e l /\ in_part n idim p (erow e) /\ in_part n jdim c (ecol e)) /\ apart s /\
  forall c i, 0 <= c < n -> s_ilo s <= i <= s_ihi s -> exists r, block_row s c i = Done r /\ Permutation r (row_part n jdim c i l).
Proof.
  intros FU NI NJ AI P LP EA. rewrite Forall_forall in AI.
  destruct (arrange_ok fuel n idim jdim FU NI NJ p loc P) as (s' & EA' & L & H & BL & AP & ROW).
  { apply Forall_forall. intros e I. apply (Permutation_in _ LP) in I. apply filter_In in I. apply AI. apply I. }
  { apply Forall_forall. intros e I. apply (Permutation_in _ LP) in I. apply filter_In in I. apply Z.eqb_eq. apply I. }
  rewrite EA in EA'. injection EA' as <-.
  destruct (column_limits fuel n idim p FU NI P) as (lo & hi & _ & EL & EH & LH & HD & RNG). rewrite L in EL. rewrite H in EH. injection EL as <-. injection EH as <-.
  split; [lia|]. split; [lia|]. split; [exact RNG|]. split.
  - intros c. rewrite BL. split.
    + intros [C (e & Ie & Oe)]. split; [exact C|]. exists e. apply (Permutation_in _ LP) in Ie. apply filter_In in Ie. destruct Ie as [Ie Ke]. apply Z.eqb_eq in Ke. destruct (AI e Ie) as [Hr Hc].
      split; [exact Ie|]. split; [apply owner_part in Ke; [exact Ke|lia|lia|lia]|apply owner_part in Oe; [exact Oe|lia|lia|lia]].
    + intros [C (e & Ie & Pe & Ce)]. split; [exact C|]. exists e. destruct (AI e Ie) as [Hr Hc]. split; [|apply owner_part; [lia|lia|lia|exact Ce]].
      apply (Permutation_in _ (Permutation_sym LP)). apply filter_In. split; [exact Ie|]. apply Z.eqb_eq. apply owner_part; [lia|lia|lia|exact Pe].
  - split; [exact AP|]. intros c i C I. eexists. split; [apply ROW; exact I|]. replace (0 <=? c) with true by lia. replace (c <? n) with true by lia. unfold row_part. apply Permutation_map.
    eapply perm_trans; [apply picked_perm|]. eapply perm_trans; [apply Permutation_filter_in; apply picked_perm|]. eapply perm_trans; [apply Permutation_filter_in; apply Permutation_filter_in; exact LP|].
    rewrite !filter_filter2. rewrite (filter_ext_Forall _ (fun e => (erow e =? i) && in_partb n jdim c (ecol e))); [apply Permutation_refl|].
    apply Forall_forall. intros e Ie. destruct (AI e Ie) as [Hr Hc]. unfold rowkey. rewrite (owner_partb n jdim (ecol e) c) by lia.
    replace (erow e - s_ilo s =? i - s_ilo s) with (erow e =? i) by lia. destruct (Z.eqb_spec (erow e) i) as [->|]; [|reflexivity]. cbn [andb].
    replace (owner n idim i =? p) with true; [apply andb_true_r|]. symmetry. apply Z.eqb_eq. apply owner_part; [lia|lia|lia|]. apply RNG; lia.
Qed.
