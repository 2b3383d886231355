(** Lemmas: operations on the diagonal, the rows and the columns of a matrix. *)
From Verif Require Import LRadix LXfer LXfer2 LStore LLoc LAccess LSelect2 LGcopy2 LGcopy3 LGcopy4 LGcopy5.
From Verif Require Export LPw MDiag.
Open Scope Z_scope.

(** ---- running uses ---- *)
Lemma use_run {V} (f : V -> V -> V) (mv : heap V) es : forall ma,
  NoDup (map fst es) -> (forall e, In e es -> hget mv (snd e) <> None /\ hget ma (fst e) <> None) ->
  exists ma', run_elems (use_elem f mv) ma es = Some ma' /\
    (forall e, In e es -> exists u v, hget ma (fst e) = Some u /\ hget mv (snd e) = Some v /\ hget ma' (fst e) = Some (f u v)) /\
    (forall q, ~ In q (map fst es) -> hget ma' q = hget ma q).
Proof.
  induction es as [|e es IH]; intros ma ND HD.
  { exists ma. split; [reflexivity|]. split; [intros ? []|reflexivity]. }
  cbn [map] in ND. apply NoDup_cons_iff in ND as [Hn ND]. destruct (HD e (or_introl eq_refl)) as [D1 D2].
  destruct (hget mv (snd e)) as [v|] eqn:Ev; [|congruence]. destruct (hget ma (fst e)) as [u|] eqn:Eu; [|congruence].
  assert (OT : forall q, In q (map fst es) -> q <> fst e) by (intros q Hq ->; auto).
  destruct (IH (hset ma (fst e) (f u v)) ND) as (ma' & E & P1 & P2).
  { intros e' He. destruct (HD e' (or_intror He)) as [A B]. split; [exact A|]. rewrite hget_hset_other; [exact B|]. intros X. exact (OT _ (in_map fst _ _ He) (eq_sym X)). }
  exists ma'. split; [cbn [run_elems]; unfold use_elem at 1; rewrite Ev, Eu; exact E|]. split.
  - intros e' [<-|He].
    + exists u, v. split; [exact Eu|]. split; [exact Ev|]. rewrite (P2 _ Hn). apply hget_hset_same.
    + destruct (P1 e' He) as (u' & v' & E1 & E2 & E3). exists u', v'. split; [|auto]. rewrite <- E1. symmetry. apply hget_hset_other.
      intros X. exact (OT _ (in_map fst _ _ He) (eq_sym X)).
  - intros q Hq. rewrite P2 by (intros X; apply Hq; now right). apply hget_hset_other. intros <-. apply Hq. now left.
Qed.

Definition use_at (pa pv : list Z -> place -> Prop) (g0 : list Z -> Z) (x : list Z) (e : place * place) : Prop :=
  pa x (fst e) /\ pv [g0 x] (snd e).

Lemma marked_combined {V} (pa pv : list Z -> place -> Prop) (D : list Z -> Prop) g0 (f : V -> V -> V) mv ma es :
  (forall x q q', pa x q -> pa x q' -> q = q') -> (forall x y q, pa x q -> pa y q -> x = y) ->
  (forall x q q', pv x q -> pv x q' -> q = q') ->
  allocated pa ma -> allocated pv mv -> marked (use_at pa pv g0) D es ->
  exists ma', run_elems (use_elem f mv) ma es = Some ma' /\ combined D (fun x => [g0 x]) f pa pv mv ma ma'.
Proof.
  intros FA IA FV HA HV HM.
  assert (ND : NoDup (map fst es)).
  { apply (marked_NoDup pa D); [exact IA|]. eapply marked_map; [|exact HM]. intros x e _ [X _]. exact X. }
  destruct HM as (l & -> & N & I & J).
  destruct (use_run f mv (map fst l) ma ND) as (ma' & E & P1 & P2).
  { intros e He. apply in_map_iff in He as ((e' & x) & <- & Hin). destruct (J _ _ Hin) as [A B]. split; [eapply HV, B|eapply HA, A]. }
  exists ma'. split; [exact E|]. split.
  - intros x qa qv Hx Ha Hv. apply I in Hx. apply in_map_iff in Hx as ((e & x') & <- & Hin). cbn [snd] in *.
    destruct (J _ _ Hin) as [A B]. rewrite (FA _ _ _ Ha A), (FV _ _ _ Hv B). apply P1. apply (in_map fst _ _ Hin).
  - intros q Hq. apply P2. intros Hin. rewrite map_map in Hin. apply in_map_iff in Hin as ((e & x) & <- & Hin). cbn [fst] in *.
    apply (Hq x); [apply I, (in_map snd _ _ Hin)|apply (J _ _ Hin)].
Qed.

(** ---- the buffer ---- *)
Lemma fetch_ok guess rnd wn smp v pv sv n lo hi :
  good_guess guess -> (forall k, 0 <= rnd k) -> any_layout v wn pv sv -> small_local v sv -> dims (ga_desc v) = [n] ->
  1 <= lo <= hi -> hi <= n -> ga_elemsize v * (hi - lo + 1) <= int_max ->
  exists ts f0, (forall fuel, (f0 <= fuel)%nat -> transfers fuel guess rnd wn smp v [lo] [hi] [hi] = Some ts) /\
    (forall fuel, (f0 <= fuel)%nat -> fetch fuel guess rnd wn smp v lo hi (hi - lo + 1) = Some ts) /\
    (forall k, lo <= k <= hi -> exists p, vec_at ts (k - lo) = Some p /\ pv [k] p) /\
    region_transfers pv [lo] [hi] [hi] ts.
Proof.
  intros HG HR LV SV ED HL HN HB.
  destruct (any_transfers guess rnd wn smp v [lo] [hi] [hi] [hi - lo + 1] pv sv HG HR LV SV) as (ts & (f0 & ET) & RT).
  - rewrite ED. cbn. lia.
  - rewrite ED. cbn. lia.
  - repeat constructor. lia.
  - cbn. repeat constructor. lia.
  - reflexivity.
  - cbn [zprod fold_right]. rewrite Z.mul_1_r. exact HB.
  - assert (IN : forall t, In t ts -> exists k, lo <= k <= hi /\ pv [k] (fst t) /\ snd t = k - lo).
    { intros t Ht. destruct (region_In pv [lo] [hi] [hi] eq_refl ts t RT Ht) as (y & Hy & Hq & Hi).
      destruct y as [|k [|? ?]]; cbn in Hy; try tauto. exists k. split; [lia|]. split; [exact Hq|]. rewrite Hi. cbn. lia. }
    exists ts, f0. split; [exact ET|]. split.
    { intros fuel Hf. unfold fetch. rewrite ET by exact Hf. replace (forallb _ _) with true; [reflexivity|]. symmetry.
      apply forallb_forall. intros t Ht. destruct (IN t Ht) as (k & A & _ & ->). apply andb_true_iff. split; [apply Z.leb_le|apply Z.ltb_lt]; lia. }
    split; [|exact RT]. intros k Hk. unfold vec_at. destruct (find _ ts) as [t|] eqn:EF.
    + apply find_some in EF as [Hin Ek]. apply Z.eqb_eq in Ek. destruct (IN t Hin) as (k' & _ & P & E). exists (fst t). split; [reflexivity|].
      replace k with k' by lia. exact P.
    + exfalso. destruct RT as (l & -> & PT & H).
      assert (Hin : In [k] (map snd l)).
      { eapply Permutation_in; [apply Permutation_sym; exact PT|]. apply box_list_In; [reflexivity|]. cbn. auto. }
      apply in_map_iff in Hin as ((t & y) & Ey & Hin). cbn [snd] in Ey. subst y. destruct (H _ _ Hin) as [_ Q2].
      pose proof (find_none _ _ EF t (in_map fst _ _ Hin)) as N. cbv beta in N. rewrite Q2 in N. cbn in N.
      apply Z.eqb_neq in N. lia.
Qed.

Lemma use_pairs_marked (pa pv : list Z -> place -> Prop) g0 (P : list Z -> Prop) q w ts us xs lo hi vlo (off : list Z -> Z) :
  lp_seg q = w -> us = map (fun x => (off x, g0 x - vlo)) xs -> NoDup xs -> (forall x, In x xs <-> P x) ->
  (forall x, P x -> pa x (w, lp_off q + off x) /\ lo <= g0 x <= hi) ->
  vlo = lo -> (forall k, lo <= k <= hi -> exists p, vec_at ts (k - lo) = Some p /\ pv [k] p) ->
  exists es, use_pairs q ts us = Some es /\ marked (use_at pa pv g0) P es.
Proof.
  intros ES -> ND HI HP -> HV.
  assert (X : forall ys, (forall x, In x ys -> P x) ->
    exists es, use_pairs q ts (map (fun x => (off x, g0 x - lo)) ys) = Some es /\
      Forall2 (fun x e => use_at pa pv g0 x e) ys es).
  { induction ys as [|x ys IH]; intros HY; [exists []; split; [reflexivity|constructor]|].
    destruct IH as (es & E & F); [intros; apply HY; now right|]. destruct (HP x (HY x (or_introl eq_refl))) as [A B].
    destruct (HV _ B) as (p & E1 & E2). exists (((lp_seg q, lp_off q + off x), p) :: es). split.
    - unfold use_pairs in *. cbn [map mapM snd fst]. rewrite E1, E. reflexivity.
    - constructor; [|exact F]. split; cbn [fst snd]; [rewrite ES; exact A|exact E2]. }
  destruct (X xs) as (es & E & F); [intros x Hx; apply HI, Hx|]. exists es. split; [exact E|].
  exists (combine es xs). assert (L : length es = length xs) by (symmetry; eapply Forall2_len; eauto).
  assert (M2 : map snd (combine es xs) = xs).
  { clear - L. revert xs L. induction es as [|e es IH]; intros [|x xs] L; try discriminate; [reflexivity|]. cbn. f_equal. apply IH. now injection L. }
  assert (M1 : map fst (combine es xs) = es).
  { clear - L. revert xs L. induction es as [|e es IH]; intros [|x xs] L; try discriminate; [reflexivity|]. cbn. f_equal. apply IH. now injection L. }
  rewrite M1, M2. split; [reflexivity|]. split; [exact ND|]. split; [exact HI|].
  clear - F. intros e x Hin. induction F as [|x' e' xs es H F IH]; [destruct Hin|]. cbn in Hin. destruct Hin as [Hin|Hin]; [|auto].
  injection Hin as <- <-. exact H.
Qed.

(** ---- the whole array ---- *)
Lemma walk_spec {E} (Q : list Z -> E -> Prop) guess near wn a pa sa (D : list Z -> Prop) (F : nat -> Z -> lpiece -> option (list E)) :
  good_guess guess -> walk_layout a wn pa sa -> (forall me w, abs_rank a me = Some w -> near me w = true) ->
  (forall me w ps q, 0 <= me < ga_nproc a -> abs_rank a me = Some w -> local_cover pa (dims (ga_desc a)) w ps -> In q ps ->
     ld_shape sa (lp_lo q) (lp_hi q) (lp_ld q) ->
     (exists n, forall fuel, (n <= fuel)%nat -> local_iterate fuel guess (near me) wn a me = Some ps) ->
     exists r n, (forall fuel, (n <= fuel)%nat -> F fuel me q = Some r) /\
       marked Q (fun x => in_box (lp_lo q) (lp_hi q) x /\ D x) r) ->
  exists ess n,
    Forall2 (fun me es => forall fuel, (n <= fuel)%nat -> walk fuel guess (near me) wn a me (F fuel me) = Some es)
            (zseq 0 (Z.to_nat (ga_nproc a))) ess /\
    marked Q (fun x => in_array (dims (ga_desc a)) x /\ D x) (concat ess).
Proof.
  intros HG HL HNear HF.
  destruct (procs_fuel (fun fuel me => walk fuel guess (near me) wn a me (F fuel me))
     (fun me es => exists w, abs_rank a me = Some w /\
        marked Q (fun x => (in_array (dims (ga_desc a)) x /\ D x) /\ exists ad, pa x (w, ad)) es)
     (zseq 0 (Z.to_nat (ga_nproc a)))) as (ess & n & E1 & F1).
  - intros me Hme. apply zseq_In in Hme. assert (Hm : 0 <= me < ga_nproc a) by lia.
    destruct (abs_rank_total a me (layout_group _ _ _ _ (proj1 HL)) Hm) as (w & EW).
    destruct (layout_walk guess (near me) wn a me w pa sa HG HL Hm EW (HNear _ _ EW)) as (ps & n & EI & C & LS).
    destruct (mapM_fuel (fun fuel q => F fuel me q)
      (fun q cs => marked Q (fun x => in_box (lp_lo q) (lp_hi q) x /\ D x) cs) ps) as (ls & n' & EM & FF).
    { intros q Hq. eapply HF; eauto. }
    exists (concat ls), (Nat.max n n'). split.
    { intros fuel Hf. unfold walk. rewrite EI by lia. specialize (EM fuel ltac:(lia)). cbv beta in EM.
      change (fun q => F fuel me q) with (F fuel me) in EM. rewrite EM. reflexivity. }
    exists w. split; [exact EW|].
    eapply marked_ext; [|apply (marked_tiles Q ps (fun q => (lp_lo q, lp_hi q)) (fun x => in_array (dims (ga_desc a)) x /\ exists ad, pa x (w, ad)) D ls (proj1 C) FF)].
    intros x. cbv beta. tauto.
  - exists ess, n. split; [exact E1|]. eapply whole_marked; [apply HL| |exact F1]. intros x [X _]. exact X.
Qed.

(** ---- blocks ---- *)
Lemma diag_loop_map n : forall i p step, diag_loop n i p step = map (fun k => (p + (k - i) * step, k)) (zseq i n).
Proof.
  induction n as [|n IH]; intros i p step; [reflexivity|]. cbn [diag_loop zseq map]. f_equal; [f_equal; lia|].
  rewrite IH. apply map_ext. intros k. f_equal. lia.
Qed.
Lemma zseq_counts n : zseq 0 (Z.to_nat n) = counts n.
Proof.
  unfold counts. generalize (Z.to_nat n). intros k. assert (X : forall i, zseq i k = map (fun j => i + Z.of_nat j) (seq 0 k)).
  { induction k as [|k IH]; intros i; [reflexivity|]. cbn [zseq seq map]. f_equal; [lia|]. rewrite IH, <- seq_shift, map_map.
    apply map_ext. intros j. lia. }
  rewrite X. apply map_ext. intros. lia.
Qed.
Lemma counts_NoDup n : NoDup (counts n).
Proof. rewrite <- zseq_counts. apply zseq_NoDup. Qed.

Lemma nest_NoDup {A B C} (f : A -> B -> C) l l' : NoDup l -> NoDup l' ->
  (forall a a' b b', f a b = f a' b' -> a = a' /\ b = b') -> NoDup (flat_map (fun a => map (f a) l') l).
Proof.
  intros N N' HI. induction l as [|a l IH]; [constructor|]. apply NoDup_cons_iff in N as [Hn N]. cbn [flat_map]. apply NoDup_app_intro.
  - apply NoDup_map_inj; [|exact N']. intros b b' _ _ E. apply HI in E. tauto.
  - auto.
  - intros c Hc Hc'. apply in_map_iff in Hc as (b & <- & _). apply in_flat_map in Hc' as (a' & Ha' & Hc').
    apply in_map_iff in Hc' as (b' & E & _). apply HI in E as [-> _]. auto.
Qed.
Lemma map_flat {A B C} (f : B -> C) (g : A -> list B) l : map f (flat_map g l) = flat_map (fun a => map f (g a)) l.
Proof. induction l as [|a l IH]; [reflexivity|]. cbn. rewrite map_app, IH. reflexivity. Qed.

Section Block.
Variables (pa pv : list Z -> place -> Prop) (v : garray) (w : Z) (q : lpiece) (l0 l1 h0 h1 ld : Z) (ldt : list Z).
Hypotheses (EL : lp_lo q = [l0; l1]) (EH : lp_hi q = [h0; h1]) (ELD : lp_ld q = ld :: ldt) (ES : lp_seg q = w).
Hypothesis HP : forall x, in_box (lp_lo q) (lp_hi q) x -> pa x (w, lp_off q + lin (lp_ld q) (vsub x (lp_lo q))).
Hypotheses (Hl0 : 1 <= l0 <= h0) (Hl1 : 1 <= l1 <= h1).

Definition on_diag (x : list Z) : Prop := exists k, x = [k; k].
Lemma cell_at i j : l0 <= i <= h0 -> l1 <= j <= h1 -> pa [i; j] (w, lp_off q + ((j - l1) * ld + (i - l0))).
Proof.
  intros Hi Hj. specialize (HP [i; j]). rewrite EL, EH, ELD in HP. specialize (HP ltac:(cbn; auto)).
  replace ((j - l1) * ld + (i - l0)) with (lin (ld :: ldt) (vsub [i; j] [l0; l1])); [exact HP|]. destruct ldt; cbn; lia.
Qed.

(** The subscripts of the diagonal of the block. *)
Definition diag_xs lo hi : list (list Z) := map (fun i => [lo + i; lo + i]) (counts (hi - lo + 1)).
Lemma diag_xs_In lo hi x : In x (diag_xs lo hi) <-> exists k, x = [k; k] /\ lo <= k <= hi.
Proof.
  unfold diag_xs. rewrite in_map_iff. split.
  - intros (i & <- & Hi). apply counts_In in Hi. exists (lo + i). split; [reflexivity|lia].
  - intros (k & -> & Hk). exists (k - lo). split; [now replace (lo + (k - lo)) with k by lia|apply counts_In; lia].
Qed.
Lemma diag_xs_NoDup lo hi : NoDup (diag_xs lo hi).
Proof. apply NoDup_map_inj; [|apply counts_NoDup]. intros i j _ _ E. injection E as E. lia. Qed.

Lemma diag_range_spec : exists r, diag_range q = Some r /\
  match r with
  | None => forall x, ~ (in_box (lp_lo q) (lp_hi q) x /\ on_diag x)
  | Some (lo, hi) => lo <= hi /\ lo = Z.max l0 l1 /\ hi = Z.min h0 h1 /\
      forall x, In x (diag_xs lo hi) <-> in_box (lp_lo q) (lp_hi q) x /\ on_diag x
  end.
Proof.
  unfold diag_range. rewrite EL, EH. destruct (Z.ltb_spec 0 l0); [|lia]. destruct (Z.leb_spec (Z.max l0 l1) (Z.min h0 h1)).
  - eexists. split; [reflexivity|]. split; [assumption|]. split; [reflexivity|]. split; [reflexivity|]. intros x. rewrite diag_xs_In. split.
    + intros (k & -> & Hk). split; [cbn; lia|]. exists k. reflexivity.
    + intros (B & k & ->). exists k. split; [reflexivity|]. cbn in B. lia.
  - eexists. split; [reflexivity|]. intros x (B & k & ->). cbn in B. lia.
Qed.

Definition diag_off (x : list Z) : Z := (hd 0 x - l1) * ld + (hd 0 x - l0).
Lemma diag_uses_spec lo hi : exists s, diag_start q lo = Some s /\
  diag_uses q s lo hi = Some (map (fun x => (diag_off x, hd 0 x - lo)) (diag_xs lo hi)).
Proof.
  unfold diag_start, diag_uses. rewrite EL, ELD. eexists. split; [reflexivity|]. f_equal. rewrite diag_loop_map, zseq_counts.
  unfold diag_xs. rewrite map_map. apply map_ext. intros i. unfold diag_off. cbn [hd]. f_equal; [ring|lia].
Qed.
Lemma diag_at x : In x (diag_xs (Z.max l0 l1) (Z.min h0 h1)) -> pa x (w, lp_off q + diag_off x).
Proof.
  intros Hx. apply diag_xs_In in Hx as (k & -> & Hk). unfold diag_off. cbn [hd]. apply (cell_at k k); lia.
Qed.

Lemma shift_block_marked t : listed t = true -> exists r, shift_block t q = Some r /\
  marked pa (fun x => in_box (lp_lo q) (lp_hi q) x /\ on_diag x) r.
Proof.
  intros HT. unfold shift_block. destruct diag_range_spec as ([[lo hi]|] & -> & R); [|exists []; split; [reflexivity|apply marked_nil, R]].
  destruct R as (RL & Elo & Ehi & RX). rewrite HT. destruct (diag_uses_spec lo hi) as (s & -> & ->). eexists. split; [reflexivity|].
  rewrite map_map. cbn [fst]. exists (map (fun x => ((lp_seg q, lp_off q + diag_off x), x)) (diag_xs lo hi)). rewrite !map_map. cbn [fst snd].
  split; [reflexivity|]. rewrite map_id. split; [apply diag_xs_NoDup|]. split; [exact RX|].
  intros e x Hin. apply in_map_iff in Hin as (y & E & Hy). injection E as <- <-. rewrite ES. apply diag_at. rewrite <- Elo, <- Ehi. exact Hy.
Qed.
(** The block begins on the diagonal. *)
Lemma zero_block_marked t : listed t = true -> (Z.max l0 l1 <= Z.min h0 h1 -> l0 = l1) -> zero_block t q = shift_block t q.
Proof.
  intros HT HC. unfold zero_block, shift_block. destruct diag_range_spec as ([[lo hi]|] & -> & R); [|reflexivity].
  destruct R as (RL & Elo & Ehi & _). rewrite HT. unfold diag_start. rewrite EL, ELD.
  replace (ld * (lo - l1) + lo - l0) with 0; [reflexivity|]. assert (l0 = l1) by (apply HC; lia). replace lo with l1 by lia. nia.
Qed.


(** Pairs of subscripts, one inside the other. *)
Definition row_xs : list (list Z) := flat_map (fun i => map (fun j => [l0 + i; l1 + j]) (counts (h1 - l1 + 1))) (counts (h0 - l0 + 1)).
Definition col_xs : list (list Z) := flat_map (fun j => map (fun i => [l0 + i; l1 + j]) (counts (h0 - l0 + 1))) (counts (h1 - l1 + 1)).
Lemma row_xs_In x : In x row_xs <-> in_box (lp_lo q) (lp_hi q) x.
Proof.
  rewrite EL, EH. unfold row_xs. rewrite in_flat_map. split.
  - intros (i & Hi & Hx). apply in_map_iff in Hx as (j & <- & Hj). rewrite counts_In in *. cbn. lia.
  - intros Hx. destruct (box2 _ _ _ _ _ Hx) as (x0 & x1 & -> & A & B). exists (x0 - l0). rewrite counts_In. split; [lia|].
    apply in_map_iff. exists (x1 - l1). rewrite counts_In. split; [|lia]. now replace (l0 + (x0 - l0)) with x0 by lia; replace (l1 + (x1 - l1)) with x1 by lia.
Qed.
Lemma col_xs_In x : In x col_xs <-> in_box (lp_lo q) (lp_hi q) x.
Proof.
  rewrite EL, EH. unfold col_xs. rewrite in_flat_map. split.
  - intros (i & Hi & Hx). apply in_map_iff in Hx as (j & <- & Hj). rewrite counts_In in *. cbn. lia.
  - intros Hx. destruct (box2 _ _ _ _ _ Hx) as (x0 & x1 & -> & A & B). exists (x1 - l1). rewrite counts_In. split; [lia|].
    apply in_map_iff. exists (x0 - l0). rewrite counts_In. split; [|lia]. now replace (l0 + (x0 - l0)) with x0 by lia; replace (l1 + (x1 - l1)) with x1 by lia.
Qed.
Lemma row_xs_NoDup : NoDup row_xs.
Proof. apply (nest_NoDup (fun i j => [l0 + i; l1 + j])); try apply counts_NoDup. intros i i' j j' E. injection E as E1 E2. lia. Qed.
Lemma col_xs_NoDup : NoDup col_xs.
Proof. apply (nest_NoDup (fun j i => [l0 + i; l1 + j])); try apply counts_NoDup. intros i i' j j' E. injection E as E1 E2. lia. Qed.

Definition cell_off (x : list Z) : Z := (hd 0 (tl x) - l1) * ld + (hd 0 x - l0).
Definition row_of (x : list Z) : Z := hd 0 x.
Definition col_of (x : list Z) : Z := hd 0 (tl x).
Lemma row_uses_spec : row_uses (h0 - l0 + 1) (h1 - l1 + 1) ld = map (fun x => (cell_off x, row_of x - l0)) row_xs.
Proof.
  unfold row_uses, row_xs. rewrite map_flat. apply flat_map_ext. intros i. rewrite map_map. apply map_ext. intros j.
  unfold cell_off, row_of. cbn [hd tl]. f_equal; [ring|lia].
Qed.
Lemma col_uses_spec : col_uses (h0 - l0 + 1) (h1 - l1 + 1) ld = map (fun x => (cell_off x, col_of x - l1)) col_xs.
Proof.
  unfold col_uses, col_xs. rewrite map_flat. apply flat_map_ext. intros i. rewrite map_map. apply map_ext. intros j.
  unfold cell_off, col_of. cbn [hd tl]. f_equal; [ring|lia].
Qed.
Lemma cell_box x : in_box (lp_lo q) (lp_hi q) x -> pa x (w, lp_off q + cell_off x) /\ l0 <= row_of x <= h0 /\ l1 <= col_of x <= h1.
Proof.
  rewrite EL, EH. intros Hx. destruct (box2 _ _ _ _ _ Hx) as (x0 & x1 & -> & A & B). split; [|auto]. unfold cell_off. cbn [hd tl]. apply cell_at; auto.
Qed.

Section Vec.
Variables (guess : Z -> Z -> Z -> Z) (rnd : Z -> Z) (wn : Z) (smp : Z -> bool) (sv : list Z -> Prop) (n : Z) (t : elt).
Hypotheses (HG : good_guess guess) (HR : forall k, 0 <= rnd k) (LV : any_layout v wn pv sv) (SV : small_local v sv) (EV : dims (ga_desc v) = [n]).
Hypothesis HB : forall m, m <= h0 - l0 + 1 \/ m <= h1 - l1 + 1 -> ga_elemsize v * m <= int_max.
Hypothesis HT : listed t = true.

Lemma diag_block_marked : Z.min h0 h1 <= n ->
  exists r f0, (forall fuel, (f0 <= fuel)%nat -> diag_block fuel guess rnd wn smp t v q = Some r) /\
    marked (use_at pa pv row_of) (fun x => in_box (lp_lo q) (lp_hi q) x /\ on_diag x) r.
Proof.
  intros HN. unfold diag_block. destruct diag_range_spec as ([[lo hi]|] & ER & R).
  2:{ exists [], 0%nat. rewrite ER. split; [reflexivity|apply marked_nil, R]. }
  destruct R as (RL & Elo & Ehi & RX).
  destruct (fetch_ok guess rnd wn smp v pv sv n lo hi HG HR LV SV EV ltac:(lia) ltac:(lia) ltac:(apply HB; lia)) as (ts & f0 & _ & EF & VA & _).
  destruct (diag_uses_spec lo hi) as (s & E1 & E2).
  destruct (use_pairs_marked pa pv row_of (fun x => in_box (lp_lo q) (lp_hi q) x /\ on_diag x) q w ts _ (diag_xs lo hi) lo hi lo diag_off ES eq_refl)
    as (es & EU & M); auto.
  - apply diag_xs_NoDup.
  - intros x Hx. apply RX in Hx. split; [apply diag_at; rewrite <- Elo, <- Ehi; exact Hx|]. apply diag_xs_In in Hx as (k & -> & Hk). exact Hk.
  - exists es, f0. split; [|exact M]. intros fuel Hf. rewrite ER, EF by exact Hf. rewrite HT, E1, E2. exact EU.
Qed.

Lemma find_diag lo hi k : lo <= k <= hi ->
  find (fun u => snd u =? k - lo) (map (fun x => (diag_off x, hd 0 x - lo)) (diag_xs lo hi)) = Some (diag_off [k; k], k - lo).
Proof.
  intros Hk. destruct (find _ _) as [u|] eqn:E.
  - apply find_some in E as [Hin Ek]. apply in_map_iff in Hin as (x & <- & Hx). apply diag_xs_In in Hx as (k' & -> & Hk').
    cbn [hd snd] in *. apply Z.eqb_eq in Ek. now replace k with k' by lia.
  - exfalso. pose proof (find_none _ _ E (diag_off [k; k], k - lo)) as N. cbn [snd] in N. rewrite Z.eqb_refl in N.
    discriminate N. apply in_map_iff. exists [k; k]. split; [reflexivity|]. apply diag_xs_In. eauto.
Qed.

Lemma get_block_labelled : Z.min h0 h1 <= n ->
  exists r f0, (forall fuel, (f0 <= fuel)%nat -> get_block fuel guess rnd wn smp t v q = Some r) /\
    marked (fun x e => pv [row_of x] (fst e) /\ pa x (snd e)) (fun x => in_box (lp_lo q) (lp_hi q) x /\ on_diag x) r.
Proof.
  intros HN. unfold get_block. destruct diag_range_spec as ([[lo hi]|] & ER & R).
  2:{ exists [], 0%nat. rewrite ER. split; [reflexivity|apply marked_nil, R]. }
  destruct R as (RL & Elo & Ehi & RX).
  destruct (fetch_ok guess rnd wn smp v pv sv n lo hi HG HR LV SV EV ltac:(lia) ltac:(lia) ltac:(apply HB; lia)) as (ts & f0 & ET & _ & _ & RT).
  destruct (diag_uses_spec lo hi) as (s & E1 & E2).
  assert (IN : forall u, In u ts -> exists k, lo <= k <= hi /\ snd u = k - lo).
  { intros u Hu. destruct (region_In pv [lo] [hi] [hi] eq_refl ts u RT Hu) as (y & Hy & _ & Hi).
    destruct y as [|k [|? ?]]; cbn in Hy; try tauto. exists k. split; [lia|]. rewrite Hi. cbn. lia. }
  exists (map (fun u => (fst u, (w, lp_off q + diag_off [snd u + lo; snd u + lo]))) ts), f0. split.
  { intros fuel Hf. rewrite ER, HT, E1, E2, ET by exact Hf. apply mapM_total. intros u Hu. destruct (IN u Hu) as (k & Hk & Ek).
    rewrite Ek, find_diag by exact Hk. cbn [fst]. rewrite ES. now replace (k - lo + lo) with k by lia. }
  destruct RT as (l & -> & PT & H). rewrite map_map.
  assert (BX : forall y, In y (map snd l) <-> exists k, y = [k] /\ lo <= k <= hi).
  { intros y. split.
    - intros Hy. apply (Permutation_in _ PT) in Hy. apply box_list_In in Hy; [|reflexivity].
      destruct y as [|k [|? ?]]; cbn in Hy; try tauto. exists k. split; [reflexivity|lia].
    - intros (k & -> & Hk). eapply Permutation_in; [apply Permutation_sym; exact PT|]. apply box_list_In; [reflexivity|]. cbn. auto. }
  exists (map (fun tx => ((fst (fst tx), (w, lp_off q + diag_off [snd (fst tx) + lo; snd (fst tx) + lo])), [hd 0 (snd tx); hd 0 (snd tx)])) l).
  rewrite !map_map. cbn [fst snd]. split; [reflexivity|].
  assert (HM : map (fun tx : place * Z * list Z => [hd 0 (snd tx); hd 0 (snd tx)]) l = map (fun y => [hd 0 y; hd 0 y]) (map snd l)) by (rewrite map_map; reflexivity).
  rewrite HM. split; [|split].
  - apply NoDup_map_inj; [|eapply Permutation_NoDup; [apply Permutation_sym; exact PT|apply box_list_NoDup]].
    intros y y' Hy Hy' E. apply BX in Hy as (k & -> & _). apply BX in Hy' as (k' & -> & _). cbn [hd] in E. injection E as ->. reflexivity.
  - intros x. rewrite <- RX, diag_xs_In, in_map_iff. split.
    + intros (y & <- & Hy). apply BX in Hy as (k & -> & Hk). exists k. auto.
    + intros (k & -> & Hk). exists [k]. split; [reflexivity|]. apply BX. eauto.
  - intros e x Hin. apply in_map_iff in Hin as ((u & y) & E & Hin). cbn [fst snd] in E. injection E as <- <-. cbn [fst snd].
    destruct (H _ _ Hin) as [H1 H2]. destruct (proj1 (BX y) (in_map snd _ _ Hin)) as (k & -> & Hk).
    replace (snd u + lo) with k by (rewrite H2; cbn; lia). cbn [hd row_of]. split; [exact H1|]. apply diag_at. apply diag_xs_In. exists k. split; [reflexivity|]. lia.
Qed.

Lemma row_block_marked : h0 <= n ->
  exists r f0, (forall fuel, (f0 <= fuel)%nat -> row_block fuel guess rnd wn smp t v q = Some r) /\
    marked (use_at pa pv row_of) (in_box (lp_lo q) (lp_hi q)) r.
Proof.
  intros HN. destruct (fetch_ok guess rnd wn smp v pv sv n l0 h0 HG HR LV SV EV ltac:(lia) ltac:(lia) ltac:(apply HB; lia)) as (ts & f0 & _ & EF & VA & _).
  destruct (use_pairs_marked pa pv row_of (in_box (lp_lo q) (lp_hi q)) q w ts _ row_xs l0 h0 l0 cell_off ES eq_refl) as (es & EU & M); auto.
  - apply row_xs_NoDup.
  - apply row_xs_In.
  - intros x Hx. destruct (cell_box x Hx) as (A & B & C). auto.
  - exists es, f0. split; [|exact M]. intros fuel Hf. unfold row_block. rewrite EL, EH, ELD, EF by exact Hf.
    destruct (Z.ltb_spec 0 l0); [|lia]. destruct (Z.leb_spec l0 h0); [|lia]. cbn [andb]. rewrite HT, row_uses_spec. exact EU.
Qed.
Lemma col_block_marked : h1 <= n ->
  exists r f0, (forall fuel, (f0 <= fuel)%nat -> col_block fuel guess rnd wn smp t v q = Some r) /\
    marked (use_at pa pv col_of) (in_box (lp_lo q) (lp_hi q)) r.
Proof.
  intros HN. destruct (fetch_ok guess rnd wn smp v pv sv n l1 h1 HG HR LV SV EV ltac:(lia) ltac:(lia) ltac:(apply HB; lia)) as (ts & f0 & _ & EF & VA & _).
  destruct (use_pairs_marked pa pv col_of (in_box (lp_lo q) (lp_hi q)) q w ts _ col_xs l1 h1 l1 cell_off ES eq_refl) as (es & EU & M); auto.
  - apply col_xs_NoDup.
  - apply col_xs_In.
  - intros x Hx. destruct (cell_box x Hx) as (A & B & C). auto.
  - exists es, f0. split; [|exact M]. intros fuel Hf. unfold col_block. rewrite EL, EH, ELD, EF by exact Hf.
    destruct (Z.ltb_spec 0 l1); [|lia]. destruct (Z.leb_spec l0 h0); [|lia]. cbn [andb]. rewrite HT, col_uses_spec. exact EU.
Qed.
End Vec.
End Block.
