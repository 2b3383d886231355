(** C67: values are sorted into the bins of an array. *)
From Verif Require Import SpecBin MNb MHandle MSort MBin LRadix LNb LIterBC LIterBlk LStore LSparse LBin LBin2.
From Coq Require Import Permutation.

(** The segments of the processes fill a bin without overlap: with an odd number of
    processes, or when workR is zero. *)
Theorem C67_offset_partial : forall nproc x r, 1 <= nproc -> (forall p, 0 <= p < nproc -> 0 <= x p) ->
  (Z.odd nproc = true \/ forall p, r p = 0) ->
  segments_fill nproc (bin_offset nproc x r) x (sum_of Z.add 0 x 0 (nproc - 1)).
Proof.
  intros nproc x r N X C. assert (forall p, 0 <= p -> 2 * p + 2 = nproc -> r p = 0) as ZR.
  { destruct C as [C|C]; [|intros p _ _; apply C]. intros p P E. exfalso. rewrite <- E in C. replace (2 * p + 2) with (2 * (p + 1)) in C by lia. rewrite Z.odd_mul in C. cbn in C. discriminate. }
  pose proof (bin_offset_laid nproc N x r ZR) as LA. pose proof (tree_all nproc N) as TA. pose proof (sum_perm x nproc _ ltac:(lia) TA) as SP.
  set (ps := tree nproc (Z.to_nat nproc) 0) in *. clearbody ps.
  assert (forall q, In q ps -> 0 <= x q) as XP by (intros q Q; apply X; apply (all_procs_In nproc ps q TA Q)).
  split; [|split].
  - intros p P. pose proof (laid_range _ _ _ _ XP LA p (all_procs_all _ _ _ TA P)). lia.
  - intros t T. destruct (laid_cover _ _ _ 0 t LA ltac:(lia)) as (q & Q & QT). exists q. split; [apply (all_procs_In nproc ps q TA Q)|exact QT].
  - intros p q t P Q. apply (laid_apart _ _ _ 0 (all_procs_NoDup _ _ TA) XP LA); apply (all_procs_all _ _ _ TA); assumption.
Qed.

(** After the puts of all processes, in any order, every bin holds the values given
    for it, process after process, and nothing else has changed. *)
Theorem C67_bin_index_partial : forall ty nproc nbin noff goff inp r nb, ty <> B_int -> 1 <= nproc -> nbin < 2 ^ 31 -> nb <= nbin -> nb <= noff ->
  (forall p, 0 <= p < nproc -> by_bin (inp p) /\ forall e, In e (inp p) -> 1 <= fst e <= nb) ->
  bins_fit inp nproc nb goff nbin ->
  (Z.odd nproc = true \/ nb <= NWORK /\ forall p s, r p s = 0) ->
  exists puts r' ps, bin_index ty nproc nbin noff goff inp r = Done (puts, r') /\ all_procs nproc ps /\
    forall g order, Permutation order (concat puts) ->
      (forall b, 1 <= b <= nb -> map (fold_left put1 order g) (zseq (goff b + 1) (Z.to_nat (bin_total inp nproc b))) = concat (map (fun p => vals_of b (inp p)) ps)) /\
      (forall i, (forall b, 1 <= b <= nb -> ~ goff b < i <= goff b + bin_total inp nproc b) -> fold_left put1 order g i = g i).
Proof.
  intros ty nproc nbin noff goff inp r nb TY N NB NB1 NB2 IN [BF1 BF2] C. unfold bin_index.
  set (procs := zseq 0 (Z.to_nat nproc)).
  destruct (omap_ex (fun p => count_bins nbin (map fst (inp p)) (fun _ => 0)) (fun p c => forall b, c b = share b (inp p)) procs) as (cs & -> & F).
  { intros p P. apply zseq_In in P. destruct (IN p ltac:(lia)) as [_ IP]. destruct (count_bins_spec nbin (map fst (inp p)) NB (fun _ => 0)) as (d & D & DB).
    - apply Forall_forall. intros s S. apply in_map_iff in S. destruct S as (e & <- & E). specialize (IP e E). lia.
    - exists d. split; [exact D|]. intros b. rewrite DB, filter_map_len. unfold share. lia. }
  cbv beta iota zeta. set (x := counts_of cs).
  assert (forall p b, 0 <= p < nproc -> x p b = share b (inp p)) as X.
  { intros p b P. unfold x, counts_of. pose proof (Forall2_zseq _ (fun _ => 0) cs (Z.to_nat nproc) 0 F p ltac:(lia)) as H. cbn beta in H. rewrite Z.sub_0_r in H. apply H. }
  clearbody x. clear F. set (ps := tree nproc (Z.to_nat nproc) 0).
  pose proof (tree_all nproc N) as TA. fold ps in TA.
  assert (forall b, 1 <= b <= nb -> laid (fun p => offset_at nproc nbin x r p b) (fun p => share b (inp p)) 0 ps) as LA.
  { intros b B. unfold offset_at. apply (laid_ext (bin_offset nproc (fun q => x q b) (fun q => chunk_state nproc nbin x r (Z.to_nat ((b - 1) / NWORK)) q ((b - 1) mod NWORK))) _ (fun p => x p b)).
    - intros q Q. split; [reflexivity|]. apply X. apply (all_procs_In nproc ps q TA Q).
    - apply bin_offset_laid; [exact N|]. intros p P E. destruct C as [C|[C1 C2]].
      + exfalso. rewrite <- E in C. replace (2 * p + 2) with (2 * (p + 1)) in C by lia. rewrite Z.odd_mul in C. cbn in C. discriminate.
      + rewrite Z.div_small by (unfold NWORK in *; lia). apply C2. }
  assert (forall b q, In q ps -> 0 <= share b (inp q)) as SN by (intros b q _; unfold share; lia).
  assert (forall b, zsum (map (fun p => share b (inp p)) ps) = bin_total inp nproc b) as BT by (intros b; apply sum_perm; [lia|exact TA]).
  assert (forall p b, 0 <= p < nproc -> 1 <= b <= nb -> 0 <= offset_at nproc nbin x r p b /\ offset_at nproc nbin x r p b + share b (inp p) <= bin_total inp nproc b) as RG.
  { intros p b P B. pose proof (laid_range _ _ _ 0 (SN b) (LA b B) p (all_procs_all _ _ _ TA P)) as H. rewrite BT in H. cbn beta in H. lia. }
  destruct (omap_ex (fun p => place_bins ty nbin noff goff (x p) (offset_at nproc nbin x r p) (map fst (inp p)) (map snd (inp p)) (length (inp p)) 0)
      (fun p puts => exists bs, puts = map (the_put goff (offset_at nproc nbin x r p) (inp p)) bs /\ NoDup bs /\ (forall b, In b bs <-> In b (map fst (inp p)))) procs) as (puts & -> & F).
  { intros p P. apply zseq_In in P. destruct (IN p ltac:(lia)) as [SO IP].
    destruct (place_spec ty TY nbin noff goff (x p) (offset_at nproc nbin x r p) (inp p)) with (fuel := length (inp p)) (pre := @nil (Z * Z)) (suf := inp p) as (bs & PL & ND & BI); auto.
    - intros b. apply X. lia.
    - intros b B. apply in_map_iff in B. destruct B as (e & <- & E). specialize (IP e E). destruct (RG p (fst e) ltac:(lia) IP). destruct (BF1 (fst e) IP). lia.
    - intros e f [].
    - exists (map (the_put goff (offset_at nproc nbin x r p) (inp p)) bs). split; [exact PL|]. exists bs. auto. }
  eexists. eexists. exists ps. split; [reflexivity|]. split; [exact TA|]. intros g order PO.
  (* which puts there are *)
  assert (forall e, In e order <-> exists p b, 0 <= p < nproc /\ In b (map fst (inp p)) /\ e = the_put goff (offset_at nproc nbin x r p) (inp p) b) as WH.
  { intros e. assert (In e order <-> In e (concat puts)) as -> by (split; apply Permutation_in; [exact PO|apply Permutation_sym, PO]).
    rewrite in_concat. split.
    - intros (l & L & E). assert (exists p, In p procs /\ exists bs, l = map (the_put goff (offset_at nproc nbin x r p) (inp p)) bs /\ NoDup bs /\ (forall b, In b bs <-> In b (map fst (inp p)))) as (p & P & bs & -> & _ & BI).
      { clear -F L. induction F as [|p l' ps' ls' H F IH]; [destruct L|]. destruct L as [->|L]; [exists p; split; [left; reflexivity|exact H]|]. destruct (IH L) as (q & Q & R). exists q. split; [right; exact Q|exact R]. }
      apply in_map_iff in E. destruct E as (b & <- & B). exists p, b. apply zseq_In in P. split; [lia|]. split; [apply BI, B|reflexivity].
    - intros (p & b & P & B & ->). pose proof (Forall2_zseq _ [] puts (Z.to_nat nproc) 0 F p ltac:(lia)) as (bs & E & _ & BI). rewrite Z.sub_0_r in E.
      exists (nth (Z.to_nat p) puts []). split.
      + apply nth_In. assert (length procs = length puts) as <- by (apply (Forall2_len _ _ _ F)). unfold procs. rewrite zseq_length. lia.
      + rewrite E. apply in_map. apply BI, B. }
  assert (forall p b, 0 <= p < nproc -> In b (map fst (inp p)) -> 1 <= b <= nb) as SB.
  { intros p b P B. apply in_map_iff in B. destruct B as (e & <- & E). destruct (IN p P) as [_ IP]. apply IP, E. }
  assert (forall p b i, 0 <= p < nproc -> 1 <= b <= nb -> covers i (the_put goff (offset_at nproc nbin x r p) (inp p) b) <-> goff b + offset_at nproc nbin x r p b < i <= goff b + offset_at nproc nbin x r p b + share b (inp p)) as CV.
  { intros p b i P B. unfold covers, the_put, share. cbn [fst snd]. lia. }
  split.
  - intros b B. rewrite <- BT.
    pose proof (bin_content (fold_left put1 order g) (goff b + 1) (fun p => offset_at nproc nbin x r p b) (fun p => share b (inp p)) (fun p => vals_of b (inp p)) ps 0) as BC.
    rewrite Z.add_0_r in BC. apply BC; [|apply LA, B]. clear BC. intros p P. pose proof (all_procs_In nproc ps p TA P) as PR. split; [reflexivity|]. intros t T. cbn beta in T.
    assert (In b (map fst (inp p))) as IB.
    { unfold share, vals_of in T. rewrite map_length in T. destruct (filter (fun e => fst e =? b) (inp p)) as [|e m] eqn:FE; [cbn in T; lia|].
      assert (In e (filter (fun e => fst e =? b) (inp p))) as EI by (rewrite FE; left; reflexivity). apply filter_In in EI. destruct EI as [E1 E2]. apply Z.eqb_eq in E2. subst b. apply in_map, E1. }
    apply puts_same.
    + intros e E CE. apply WH in E. destruct E as (q & c & Q & CI & ->). pose proof (SB q c Q CI) as CB. apply CV in CE; [|assumption|assumption].
      destruct (RG p b PR B) as [A1 A2]. destruct (RG q c Q CB) as [A3 A4].
      assert (c = b) as ->. { destruct (Z.eq_dec c b) as [|NE]; [assumption|]. destruct (BF2 b c B CB ltac:(lia)); lia. }
      assert (q = p) as ->.
      { apply (laid_apart _ _ _ 0 (all_procs_NoDup _ _ TA) (SN b) (LA b B) q p (offset_at nproc nbin x r p b + t)); [apply (all_procs_all _ _ _ TA Q)|exact P| |]; cbn beta; lia. }
      unfold the_put. cbn [fst snd]. f_equal. lia.
    + right. exists (the_put goff (offset_at nproc nbin x r p) (inp p) b). split; [apply WH; exists p, b; auto|]. apply CV; auto. lia.
  - intros i I. apply puts_none. intros e E CE. apply WH in E. destruct E as (q & c & Q & CI & ->). pose proof (SB q c Q CI) as CB. apply CV in CE; [|assumption|assumption].
    destruct (RG q c Q CB) as [A3 A4]. apply (I c CB). lia.
Qed.

(** Three processes, two bins. *)
Definition ex_inp (p : Z) : list (Z * Z) := if p =? 0 then [(1, 10); (2, 20); (2, 21)] else if p =? 1 then [(2, 30)] else [(1, 40); (1, 41)].
Definition ex_goff (b : Z) : Z := if b =? 1 then 0 else 3.
Example C67_cases : (forall p, 0 <= p < 3 -> by_bin (ex_inp p) /\ forall e, In e (ex_inp p) -> 1 <= fst e <= 2) /\ bins_fit ex_inp 3 2 ex_goff 8 /\
  exists puts r, bin_index B_long 3 8 2 ex_goff ex_inp (fun _ _ => 7) = Done (puts, r) /\ map (fold_left put1 (concat puts) (fun _ => 0)) (zseq 1 8) = [40; 41; 10; 30; 20; 21; 0; 0].
Proof.
  split; [|split].
  - intros p P. assert (p = 0 \/ p = 1 \/ p = 2) as [->|[->| ->]] by lia; (split; [|intros e E; cbn in E; intuition; subst; cbn; lia]); intros i j IJ J; cbn in J;
      do 3 (destruct i as [|i]; [do 3 (destruct j as [|j]; [cbn; lia|]); exfalso; lia|]); exfalso; lia.
  - split; intros b; [intros B; assert (b = 1 \/ b = 2) as [->| ->] by lia; vm_compute; split; discriminate|].
    intros c B C NE. assert (b = 1 /\ c = 2 \/ b = 2 /\ c = 1) as [[-> ->]|[-> ->]] by lia; [left|right]; vm_compute; discriminate.
  - eexists. eexists. split; [reflexivity|]. vm_compute. reflexivity.
Qed.

(** Beyond the hypotheses. *)
Definition two_inp (p : Z) : list (Z * Z) := if p =? 0 then [(2, 20)] else if p =? 1 then [(2, 21)] else [].
Definition two_goff (b : Z) : Z := if b =? 1 then 0 else 5.
Definition far_inp (p : Z) : list (Z * Z) := if p =? 0 then [(1, 10); (2001, 20)] else if p =? 1 then [(1, 11); (2001, 21)] else [].
Definition far_goff (b : Z) : Z := if b =? 1 then 0 else 2 * b.
Theorem C67_bin_index_refuted :
  (* two processes, the same call twice: the second call writes a value of bin 2 before bin 2 and leaves a hole *)
  (exists puts1 r1 puts2 r2 g1, bins_fit two_inp 2 2 two_goff 10 /\ bin_index B_long 2 10 2 two_goff two_inp (fun _ _ => 0) = Done (puts1, r1) /\
     g1 = fold_left put1 (concat puts1) (fun _ => 0) /\ map g1 (zseq 5 3) = [0; 21; 20] /\
     bin_index B_long 2 10 2 two_goff two_inp r1 = Done (puts2, r2) /\ map (fold_left put1 (concat puts2) (fun _ => 0)) (zseq 5 3) = [21; 0; 20]) /\
  (* one call with bins 1 and 2001 *)
  (exists puts r, bin_index B_long 2 5000 2001 far_goff far_inp (fun _ _ => 0) = Done (puts, r) /\
     map (fold_left put1 (concat puts) (fun _ => 0)) (zseq 4002 3) = [21; 0; 20]) /\
  (* elements of type int are accepted, and receive halves of the values *)
  (exists puts r, bin_index B_int 1 8 2 ex_goff (fun _ => [(1, 5); (1, 6)]) (fun _ _ => 0) = Done (puts, r) /\
     map (fold_left put1 (concat puts) (fun _ => 9)) (zseq 1 3) = [5; 0; 9]) /\
  (* values that are not sorted by bin: a read behind the list *)
  bin_index B_long 1 8 2 ex_goff (fun _ => [(1, 5); (2, 6); (1, 7)]) (fun _ _ => 0) = Undef.
Proof.
  split; [|split; [|split]].
  - eexists. eexists. eexists. eexists. eexists. split; [|split; [reflexivity|split; [reflexivity|split; [vm_compute; reflexivity|split; [reflexivity|vm_compute; reflexivity]]]]].
    split; intros b; [intros B; assert (b = 1 \/ b = 2) as [->| ->] by lia; vm_compute; split; discriminate|].
    intros c B C NE. assert (b = 1 /\ c = 2 \/ b = 2 /\ c = 1) as [[-> ->]|[-> ->]] by lia; [left|right]; vm_compute; discriminate.
  - eexists. eexists. split; [reflexivity|]. vm_compute. reflexivity.
  - eexists. eexists. split; [reflexivity|]. vm_compute. reflexivity.
  - vm_compute. reflexivity.
Qed.

Print Assumptions C67_offset_partial.
Print Assumptions C67_bin_index_partial.
Print Assumptions C67_cases.
Print Assumptions C67_bin_index_refuted.
