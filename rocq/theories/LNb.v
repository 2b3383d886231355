(** Proofs about the non-blocking handle pool. *)
From Verif Require Import LRadix.
From Verif Require Export MNb.

Lemma fset_same {A} (f : Z -> A) i a : fset f i a i = a.
Proof. unfold fset. rewrite Z.eqb_refl. reflexivity. Qed.
Lemma fset_other {A} (f : Z -> A) i j a : j <> i -> fset f i a j = f j.
Proof. unfold fset. intros H. destruct (Z.eqb_spec j i); [contradiction|reflexivity]. Qed.

(** [l] are the cells from [first] up to [out], linked both ways. *)
Fixpoint seg (cs : Z -> cell) (prev first : option Z) (l : list Z) (out : option Z) : Prop :=
  match l with
  | [] => first = out
  | i :: l' => first = Some i /\ c_prev (cs i) = prev /\ seg cs (Some i) (c_next (cs i)) l' out
  end.
Fixpoint lastof (prev : option Z) (l : list Z) : option Z :=
  match l with [] => prev | i :: l' => lastof (Some i) l' end.

Lemma seg_ext cs cs' prev first l out : (forall i, In i l -> c_next (cs' i) = c_next (cs i) /\ c_prev (cs' i) = c_prev (cs i)) ->
  seg cs prev first l out -> seg cs' prev first l out.
Proof.
  revert prev first. induction l as [|i l IH]; intros prev first H; cbn [seg]; [auto|].
  intros (H1 & H2 & H3). destruct (H i (or_introl eq_refl)) as [N P]. split; [auto|]. split; [congruence|]. rewrite N.
  apply IH; [|auto]. intros j Hj. apply H. now right.
Qed.
Lemma seg_app cs prev first l1 l2 out : seg cs prev first (l1 ++ l2) out <->
  exists mid, seg cs prev first l1 mid /\ seg cs (lastof prev l1) mid l2 out.
Proof.
  revert prev first. induction l1 as [|i l1 IH]; intros prev first; cbn [app seg lastof].
  - split; [intros H; exists first; auto|intros (mid & <- & H); exact H].
  - rewrite IH. split.
    + intros (H1 & H2 & mid & H3 & H4). exists mid. auto.
    + intros (mid & (H1 & H2 & H3) & H4). split; [auto|]. split; [auto|]. exists mid. auto.
Qed.
Lemma lastof_snoc prev l q : lastof prev (l ++ [q]) = Some q.
Proof. revert prev. induction l; intros; cbn; auto. Qed.
Lemma seg_set_next cs prev first l q out o' : ~ In q l -> seg cs prev first (l ++ [q]) out ->
  seg (fset cs q (set_next (cs q) o')) prev first (l ++ [q]) o'.
Proof.
  intros Hq H. apply seg_app in H as (mid & H1 & H2). apply seg_app. exists mid. split.
  - eapply seg_ext; [|exact H1]. intros i Hi. rewrite fset_other by (intros ->; auto). auto.
  - cbn [seg] in *. destruct H2 as (A & B & _). rewrite fset_same. cbn. auto.
Qed.
Lemma seg_set_prev cs prev first j l out p' : ~ In j l -> seg cs prev first (j :: l) out ->
  seg (fset cs j (set_prev (cs j) p')) p' first (j :: l) out.
Proof.
  intros Hj (H1 & H2 & H3). cbn [seg]. rewrite fset_same. cbn [set_prev c_prev c_next]. split; [auto|]. split; [auto|].
  eapply seg_ext; [|exact H3]. intros i Hi. rewrite fset_other by (intros ->; auto). auto.
Qed.

(** ---- the state ---- *)
Definition inr (p : pool) (i : Z) : Prop := 0 <= i < p_n p.
Lemma inb_true p i : inr p i -> inb p i = true.
Proof. unfold inr, inb. intros H. destruct (Z.leb_spec 0 i), (Z.ltb_spec i (p_n p)); auto; lia. Qed.
Lemma rdc_ok p i : inr p i -> rdc p i = Some (p_cells p i).
Proof. intros H. unfold rdc. rewrite inb_true by exact H. reflexivity. Qed.
Lemma rdh_ok p i : inr p i -> rdh p i = Some (p_heads p i).
Proof. intros H. unfold rdh. rewrite inb_true by exact H. reflexivity. Qed.
Lemma wrc_ok p i c : inr p i -> wrc p i c =
  Some (Pool (p_n p) (p_heads p) (fset (p_cells p) i c) (p_lastg p) (p_lasta p) (p_tag p) (p_done p)).
Proof. intros H. unfold wrc. rewrite inb_true by exact H. reflexivity. Qed.
Lemma wrh_ok p i h : inr p i -> wrh p i h =
  Some (Pool (p_n p) (fset (p_heads p) i h) (p_cells p) (p_lastg p) (p_lasta p) (p_tag p) (p_done p)).
Proof. intros H. unfold wrh. rewrite inb_true by exact H. reflexivity. Qed.

(** What a list operation on header [g] leaves alone. *)
Definition same_cell (c c' : cell) : Prop := c_req c' = c_req c /\ c_ga c' = c_ga c /\ c_active c' = c_active c.
Definition same_head (h h' : head) : Prop := h_count h' = h_count h /\ h_tag h' = h_tag h /\ h_active h' = h_active h.

Lemma unlink_spec p g i l1 l2 : inr p g -> (forall k, In k (l1 ++ i :: l2) -> inr p k) -> NoDup (l1 ++ i :: l2) ->
  seg (p_cells p) None (h_first (p_heads p g)) (l1 ++ i :: l2) None ->
  exists p', nb_unlink p i g = Some p' /\ p_n p' = p_n p /\ p_lastg p' = p_lastg p /\ p_lasta p' = p_lasta p /\
    p_tag p' = p_tag p /\ p_done p' = p_done p /\
    (forall k, k <> g -> p_heads p' k = p_heads p k) /\ same_head (p_heads p g) (p_heads p' g) /\
    (forall k, same_cell (p_cells p k) (p_cells p' k)) /\
    (forall k, ~ In k (l1 ++ l2) -> p_cells p' k = p_cells p k) /\
    seg (p_cells p') None (h_first (p_heads p' g)) (l1 ++ l2) None.
Proof.
  intros Hg HR ND HS.
  assert (Hi : inr p i) by (apply HR, in_app_iff; right; now left).
  assert (Ni : ~ In i (l1 ++ l2)) by (apply NoDup_remove_2; exact ND).
  assert (ND' : NoDup (l1 ++ l2)) by (eapply NoDup_remove_1; exact ND).
  apply seg_app in HS as (mid & S1 & S2). cbn [seg] in S2. destruct S2 as (-> & Pi & S2).
  unfold nb_unlink. rewrite rdc_ok by exact Hi. rewrite Pi.
  destruct l1 as [|x l1x] eqn:El1.
  - (* first *)
    cbn [lastof]. cbn [seg] in S1. rewrite rdh_ok by exact Hg. rewrite wrh_ok by exact Hg.
    destruct l2 as [|j l2].
    + cbn [seg] in S2. rewrite S2. eexists. split; [reflexivity|]. cbn [p_n p_heads p_cells p_lastg p_lasta p_tag p_done].
      repeat (split; [reflexivity|]). split; [intros k Hk; apply fset_other; exact Hk|]. rewrite !fset_same.
      split; [unfold same_head; cbn; auto|]. split; [unfold same_cell; auto|]. split; [auto|]. reflexivity.
    + pose proof S2 as (E & _). rewrite E. assert (Hj : inr p j) by (apply HR; right; now left).
      rewrite rdc_ok by exact Hj. rewrite wrc_ok by exact Hj. eexists. split; [reflexivity|].
      cbn [p_n p_heads p_cells p_lastg p_lasta p_tag p_done].
      repeat (split; [reflexivity|]). split; [intros k Hk; apply fset_other; exact Hk|]. rewrite !fset_same.
      split; [unfold same_head; cbn; auto|]. split.
      { intros k. unfold fset. destruct (Z.eqb_spec k j) as [-> |]; unfold same_cell; cbn; auto. }
      split.
      { intros k Hk. apply fset_other. intros ->. apply Hk. now left. }
      cbn [app set_first h_first]. rewrite <- E. apply (seg_set_prev _ (Some i)); [|exact S2].
      cbn [app] in ND'. apply NoDup_cons_iff in ND'. tauto.
  - (* not first *)
    assert (EX : exists l q, x :: l1x = l ++ [q]).
    { destruct (exists_last (l := x :: l1x)) as (l & q & E); [discriminate|]. eauto. }
    destruct EX as (l & q & E). rewrite E in *. clear E El1 x l1x l1.
    rewrite lastof_snoc. assert (Hq : inr p q). { apply HR. rewrite !in_app_iff. left. right. now left. }
    rewrite rdc_ok by exact Hq. rewrite wrc_ok by exact Hq.
    assert (Nqi : q <> i). { intros ->. apply Ni. rewrite !in_app_iff. left. right. now left. }
    rewrite rdc_ok by exact Hi. cbn [p_cells]. rewrite fset_other by auto.
    assert (Nql : ~ In q l /\ ~ In q l2).
    { rewrite <- app_assoc in ND'. cbn [app] in ND'. apply NoDup_remove_2 in ND'. rewrite in_app_iff in ND'. tauto. }
    destruct Nql as [Nql Nql2].
    assert (S1' := seg_set_next _ _ _ _ _ _ (c_next (p_cells p i)) Nql S1).
    destruct l2 as [|j l2].
    + cbn [seg] in S2. rewrite S2 in *. eexists. split; [reflexivity|]. cbn [p_n p_heads p_cells p_lastg p_lasta p_tag p_done].
      repeat (split; [reflexivity|]). split; [unfold same_head; auto|]. split.
      { intros k. unfold fset. destruct (Z.eqb_spec k q) as [-> |]; unfold same_cell; cbn; auto. }
      split.
      { intros k Hk. apply fset_other. intros ->. apply Hk. rewrite !in_app_iff. left. right. now left. }
      rewrite app_nil_r. exact S1'.
    + pose proof S2 as (E & _). rewrite E in *. assert (Hj : inr p j) by (apply HR; rewrite !in_app_iff; right; right; now left).
      assert (Njq : j <> q) by (intros ->; apply Nql2; now left).
      assert (Nj : ~ In j (l ++ [q]) /\ ~ In j l2).
      { apply NoDup_remove_2 in ND'. rewrite in_app_iff in ND'. tauto. }
      rewrite Pi. rewrite lastof_snoc.
      rewrite rdc_ok by exact Hj. rewrite wrc_ok by exact Hj. eexists. split; [reflexivity|].
      cbn [p_n p_heads p_cells p_lastg p_lasta p_tag p_done].
      repeat (split; [reflexivity|]). split; [unfold same_head; auto|]. split.
      { intros k. unfold fset. destruct (Z.eqb_spec k j) as [Ek|].
        - rewrite Ek. destruct (Z.eqb_spec j q); [contradiction|]. unfold same_cell; cbn; auto.
        - destruct (Z.eqb_spec k q) as [Ek|]; [rewrite Ek|]; unfold same_cell; cbn; auto. }
      split.
      { intros k Hk. rewrite !fset_other; [reflexivity|intros ->; apply Hk; rewrite !in_app_iff; left; right; now left|].
        intros ->. apply Hk. rewrite in_app_iff. right. now left. }
      apply seg_app. exists (Some j). split.
      * eapply seg_ext; [|exact S1']. intros k Hk. rewrite (fset_other _ j) by (intros ->; tauto). auto.
      * rewrite lastof_snoc. apply (seg_set_prev _ (Some i)); [tauto|].
        eapply seg_ext; [|exact S2]. intros k Hk. rewrite fset_other; [auto|]. intros ->. tauto.
Qed.

(** ---- scanning for a free entry ---- *)
Lemma scan_range k n i free d : 1 <= n -> 0 <= i -> 0 <= d < n -> 0 <= nb_scan k n i free d < n.
Proof.
  intros Hn. revert i. induction k as [|k IH]; intros i Hi Hd; cbn [nb_scan]; [exact Hd|].
  destruct (free (Z.rem i n)); [apply Z.rem_bound_pos; lia|]. apply IH; lia.
Qed.
Lemma scan_free k n i free d m : 1 <= n -> 0 <= i -> 0 <= m < Z.of_nat k -> free (Z.rem (i + m) n) = true ->
  free (nb_scan k n i free d) = true.
Proof.
  intros Hn. revert i m. induction k as [|k IH]; intros i m Hi Hm HF; [lia|]. cbn [nb_scan].
  destruct (free (Z.rem i n)) eqn:E; [exact E|]. destruct (Z.eq_dec m 0) as [-> |Hm0].
  - rewrite Z.add_0_r in HF. congruence.
  - apply (IH (i + 1) (m - 1)); [lia|lia|]. replace (i + 1 + (m - 1)) with (i + m) by ring. exact HF.
Qed.
Lemma scan_found n i free d j : 1 <= n -> 0 <= i < n -> 0 <= j < n -> free j = true ->
  free (nb_scan (Z.to_nat n) n i free d) = true.
Proof.
  intros Hn Hi Hj HF. destruct (Z_le_gt_dec i j) as [H|H].
  - apply (scan_free _ n i free d (j - i)); [lia|lia|lia|]. replace (i + (j - i)) with j by ring.
    rewrite Z.rem_small by lia. exact HF.
  - apply (scan_free _ n i free d (j - i + n)); [lia|lia|lia|]. replace (i + (j - i + n)) with (j + 1 * n) by ring.
    rewrite Z.rem_mod_nonneg by lia. rewrite Z.mod_add by lia. rewrite Z.mod_small by lia. exact HF.
Qed.

(** ---- the invariant of the lists ---- *)
Definition lists (p : pool) (L : Z -> list Z) : Prop :=
  1 <= p_n p /\ -1 <= p_lastg p < p_n p /\ -1 <= p_lasta p < p_n p /\
  (forall g, inr p g -> seg (p_cells p) None (h_first (p_heads p g)) (L g) None /\
     h_count (p_heads p g) = Z.of_nat (length (L g)) /\ NoDup (L g)) /\
  (forall g i, inr p g -> In i (L g) -> inr p i /\ c_active (p_cells p i) = true /\ c_ga (p_cells p i) = g) /\
  (forall i, inr p i -> c_active (p_cells p i) = true -> inr p (c_ga (p_cells p i)) /\ In i (L (c_ga (p_cells p i)))).

Lemma lists_init n : 1 <= n -> lists (nb_init n) (fun _ => []).
Proof.
  intros Hn. split; [exact Hn|]. split; [cbn; lia|]. split; [cbn; lia|]. split; [|split].
  - intros g _. cbn. split; [reflexivity|]. split; [reflexivity|constructor].
  - intros g i _ [].
  - intros i _. cbn. discriminate.
Qed.

(** Taking a cell out of its list: unlink and decrement of the counter. *)
Definition removed (p : pool) (L : Z -> list Z) (i : Z) (p' : pool) (L' : Z -> list Z) : Prop :=
  p_n p' = p_n p /\ p_lastg p' = p_lastg p /\ p_lasta p' = p_lasta p /\ p_tag p' = p_tag p /\ p_done p' = p_done p /\
  (forall g, h_tag (p_heads p' g) = h_tag (p_heads p g)) /\
  (forall k, same_cell (p_cells p k) (p_cells p' k)) /\ p_cells p' i = p_cells p i /\
  (forall g, inr p g -> seg (p_cells p') None (h_first (p_heads p' g)) (L' g) None /\
     h_count (p_heads p' g) = Z.of_nat (length (L' g)) /\ NoDup (L' g)) /\
  (forall g j, inr p g -> In j (L' g) <-> In j (L g) /\ j <> i).

Lemma lists_disjoint p L g g' i : lists p L -> inr p g -> inr p g' -> In i (L g) -> In i (L g') -> g = g'.
Proof.
  intros (_ & _ & _ & _ & H & _) Hg Hg' H1 H2. destruct (H g i Hg H1) as (_ & _ & <-). destruct (H g' i Hg' H2) as (_ & _ & <-). reflexivity.
Qed.

Lemma remove_spec p L g i : lists p L -> inr p g -> In i (L g) ->
  exists p1 p' L', nb_unlink p i g = Some p1 /\ rdh p1 g = Some (p_heads p1 g) /\
    wrh p1 g (add_count (p_heads p1 g) (-1)) = Some p' /\ removed p L i p' L' /\
    p_n p1 = p_n p /\ p_cells p1 i = p_cells p i /\ (forall k, same_cell (p_cells p k) (p_cells p1 k)) /\
    (forall g', p_cells p' g' = p_cells p1 g') /\ (exists l1 l2, L g = l1 ++ i :: l2 /\ L' g = l1 ++ l2).
Proof.
  intros HL Hg Hi. pose proof HL as (L1 & L2 & L3 & L4 & L5 & L6).
  destruct (in_split _ _ Hi) as (l1 & l2 & E). destruct (L4 g Hg) as (S & C & N). rewrite E in S, C, N.
  assert (HR : forall k, In k (l1 ++ i :: l2) -> inr p k) by (intros k Hk; rewrite <- E in Hk; apply (L5 g k Hg Hk)).
  destruct (unlink_spec p g i l1 l2 Hg HR N S) as (p1 & E1 & A1 & A2 & A3 & A4 & A5 & A6 & A7 & A8 & A9 & A10).
  assert (Hg1 : inr p1 g) by (unfold inr in *; rewrite A1; exact Hg).
  exists p1, (Pool (p_n p1) (fset (p_heads p1) g (add_count (p_heads p1 g) (-1))) (p_cells p1) (p_lastg p1) (p_lasta p1) (p_tag p1) (p_done p1)),
    (fset L g (l1 ++ l2)).
  assert (Ni : ~ In i (l1 ++ l2)) by (apply NoDup_remove_2; exact N).
  assert (Ci : p_cells p1 i = p_cells p i) by (apply A9; exact Ni).
  split; [exact E1|]. split; [apply rdh_ok; exact Hg1|]. split; [apply wrh_ok; exact Hg1|]. split; [|split; [exact A1|]; split; [exact Ci|]; split; [exact A8|]; split; [reflexivity|]; exists l1, l2; split; [exact E|apply fset_same]].
  unfold removed. cbn [p_n p_heads p_cells p_lastg p_lasta p_tag p_done]. repeat (split; [assumption|]).
  split.
  { intros k. unfold fset. destruct (Z.eqb_spec k g) as [-> |]; [apply A7|]. rewrite A6 by assumption. reflexivity. }
  split; [exact A8|]. split; [exact Ci|]. split.
  - intros k Hk. unfold fset. destruct (Z.eqb_spec k g) as [-> |Hkg].
    + split; [exact A10|]. split; [|eapply NoDup_remove_1; exact N]. cbn [add_count h_count].
      destruct A7 as (-> & _). rewrite C, !app_length. cbn [length]. lia.
    + rewrite A6 by exact Hkg. destruct (L4 k Hk) as (S' & C' & N'). split; [|auto]. eapply seg_ext; [|exact S'].
      intros j Hj. rewrite A9; [auto|]. intros Hin.
      assert (In j (L g)) by (rewrite E; apply in_app_iff; apply in_app_iff in Hin; cbn; tauto).
      apply Hkg. eapply lists_disjoint; eauto.
  - intros k j Hk. unfold fset. destruct (Z.eqb_spec k g) as [-> |Hkg].
    + rewrite E, !in_app_iff. cbn [In]. split; [|intuition congruence].
      intros H. split; [tauto|]. intros ->. apply Ni. apply in_app_iff. exact H.
    + split; [|tauto]. intros H. split; [exact H|]. intros ->. apply Hkg. eapply lists_disjoint; eauto.
Qed.

(** ---- issuing a transfer ---- *)
Lemma issue_spec p L index r : lists p L -> inr p index ->
  exists p' L' iloc, nb_issue p index r = Some p' /\ lists p' L' /\ p_n p' = p_n p /\ p_tag p' = p_tag p /\ p_lastg p' = p_lastg p /\
    (forall g, h_tag (p_heads p' g) = h_tag (p_heads p g)) /\
    (forall i, i <> iloc -> c_req (p_cells p' i) = c_req (p_cells p i)) /\ c_req (p_cells p' iloc) = Some r /\
    (forall g i, inr p g -> In i (L' g) <-> (g = index /\ i = iloc) \/ (i <> iloc /\ In i (L g))) /\
    (forall x, In x (p_done p') <-> In x (p_done p) \/ (c_active (p_cells p iloc) = true /\ c_req (p_cells p iloc) = Some x)) /\
    ((exists i, inr p i /\ c_active (p_cells p i) = false) -> c_active (p_cells p iloc) = false).
Proof.
  intros HL Hx. pose proof HL as (L1 & L2 & L3 & L4 & L5 & L6).
  assert (HLast : 0 <= Z.rem (p_lasta p + 1) (p_n p) < p_n p) by (apply Z.rem_bound_pos; lia).
  unfold nb_issue. cbv zeta. set (last := Z.rem (p_lasta p + 1) (p_n p)) in *.
  set (iloc := nb_scan (Z.to_nat (p_n p)) (p_n p) last (fun i => negb (c_active (p_cells p i))) last).
  assert (Hi : inr p iloc) by (apply scan_range; lia).
  assert (HF : (exists i, inr p i /\ c_active (p_cells p i) = false) -> c_active (p_cells p iloc) = false).
  { intros (j & Hj & E). assert (X : negb (c_active (p_cells p iloc)) = true).
    { unfold iloc. apply (scan_found (p_n p) last (fun i => negb (c_active (p_cells p i))) last j); try lia; auto. rewrite E. reflexivity. }
    destruct (c_active (p_cells p iloc)); [discriminate|reflexivity]. }
  clearbody iloc. rewrite rdc_ok by exact Hi.
  (* after the possible completion *)
  set (p0 := if c_active (p_cells p iloc) then complete p (p_cells p iloc) else p).
  assert (H2 : exists p2 L2', (if c_active (p_cells p iloc) then
              do p1 <- nb_unlink (complete p (p_cells p iloc)) iloc (c_ga (p_cells p iloc));
              do h <- rdh p1 (c_ga (p_cells p iloc));
              wrh p1 (c_ga (p_cells p iloc)) (add_count h (-1))
            else Some p) = Some p2 /\ removed p0 L iloc p2 L2').
  { unfold p0. destruct (c_active (p_cells p iloc)) eqn:EA.
    - destruct (L6 iloc Hi EA) as [G1 G2].
      destruct (remove_spec (complete p (p_cells p iloc)) L (c_ga (p_cells p iloc)) iloc HL G1 G2) as (p1 & p' & L' & E1 & E2 & E3 & R & _).
      exists p', L'. cbv zeta. rewrite E1, E2, E3. auto.
    - exists p, L. split; [reflexivity|]. unfold removed. repeat (split; [reflexivity|]). split; [unfold same_cell; auto|].
      split; [reflexivity|]. split; [exact L4|]. intros g j Hg. split; [|tauto]. intros H. split; [exact H|]. intros ->.
      destruct (L5 g iloc Hg H) as (_ & X & _). congruence. }
  destruct H2 as (p2 & L2' & -> & R1 & R2 & R3 & R4 & R5 & R6 & R7 & R8 & R9 & R10).
  assert (P0 : p_n p0 = p_n p /\ p_heads p0 = p_heads p /\ p_cells p0 = p_cells p /\ p_lastg p0 = p_lastg p /\ p_lasta p0 = p_lasta p /\ p_tag p0 = p_tag p).
  { unfold p0. destruct (c_active (p_cells p iloc)); cbn; auto 10. }
  destruct P0 as (P1 & P2 & P3 & P4 & P5 & P6).
  assert (PD : forall x, In x (p_done p0) <-> In x (p_done p) \/ (c_active (p_cells p iloc) = true /\ c_req (p_cells p iloc) = Some x)).
  { intros x. unfold p0. destruct (c_active (p_cells p iloc)) eqn:EA; [|intuition discriminate].
    cbn. destruct (c_req (p_cells p iloc)) as [y|]; cbn; intuition congruence. }
  clearbody p0. rewrite P1, ?P2, ?P3, ?P4, ?P5, ?P6 in *. unfold inr in *. rewrite P1 in *.
  assert (Hi2 : inr p2 iloc) by (unfold inr; rewrite R1; exact Hi).
  rewrite rdc_ok by exact Hi2. rewrite wrc_ok by exact Hi2.
  assert (Hx2 : inr p2 index) by (unfold inr; rewrite R1; exact Hx).
  rewrite rdh_ok by exact Hx2. cbn [p_heads].
  assert (N0 : forall g, 0 <= g < p_n p -> ~ In iloc (L2' g)) by (intros g Hg H; apply R10 in H; tauto).
  destruct (R9 index Hx) as (S & C & N).
  assert (SI : forall f, h_first (p_heads p2 index) = Some f -> In f (L2' index)).
  { intros f Hf. destruct (L2' index) as [|f' l]; cbn [seg] in S; [congruence|]. destruct S as (S & _). left. congruence. }
  (* the cells after linking *)
  set (cs3 := fset (p_cells p2) iloc (Cell None (c_next (p_cells p2 iloc)) None (c_ga (p_cells p2 iloc)) true)).
  set (cs4 := match h_first (p_heads p2 index) with Some f => fset cs3 f (set_prev (cs3 f) (Some iloc)) | None => cs3 end).
  set (p3 := Pool (p_n p2) (p_heads p2) cs3 (p_lastg p2) (p_lasta p2) (p_tag p2) (p_done p2)).
  assert (H4 : match h_first (p_heads p2 index) with
               | Some f => do cf <- rdc p3 f; wrc p3 f (set_prev cf (Some iloc))
               | None => Some p3
               end = Some (Pool (p_n p2) (p_heads p2) cs4 (p_lastg p2) (p_lasta p2) (p_tag p2) (p_done p2))).
  { unfold cs4. destruct (h_first (p_heads p2 index)) as [f|] eqn:Ef; [|reflexivity].
      assert (Hf : 0 <= f < p_n p).
      { specialize (SI f eq_refl). apply R10 in SI; [|exact Hx]. apply (L5 index f Hx). tauto. }
      rewrite rdc_ok by (unfold inr; cbn; rewrite R1; exact Hf). rewrite wrc_ok by (unfold inr; cbn; rewrite R1; exact Hf). reflexivity. }
  rewrite H4. clear H4.
  assert (C4i : cs4 iloc = cs3 iloc).
  { unfold cs4. destruct (h_first (p_heads p2 index)) as [f|] eqn:Ef; [|reflexivity]. apply fset_other.
    intros ->. apply (N0 index Hx). auto. }
  rewrite rdc_ok by (unfold inr; cbn; rewrite R1; exact Hi). rewrite rdh_ok by (unfold inr; cbn; rewrite R1; exact Hx).
  rewrite wrc_ok by (unfold inr; cbn; rewrite R1; exact Hi). rewrite wrh_ok by (unfold inr; cbn; rewrite R1; exact Hx).
  cbn [p_n p_heads p_cells p_lastg p_lasta p_tag p_done]. rewrite C4i.
  set (new := Cell (Some r) (h_first (p_heads p2 index)) (c_prev (cs3 iloc)) index (c_active (cs3 iloc))).
  assert (NP : c_prev new = None /\ c_active new = true) by (unfold new, cs3; rewrite fset_same; cbn; auto). destruct NP as [NP NA].
  set (L' := fset L2' index (iloc :: L2' index)).
  exists (Pool (p_n p2) (fset (p_heads p2) index (Head (Some iloc) (h_count (p_heads p2 index) + 1) (h_tag (p_heads p2 index)) (h_active (p_heads p2 index))))
     (fset cs4 iloc new) (p_lastg p2) iloc (p_tag p2) (p_done p2)), L', iloc.
  split; [reflexivity|].
  assert (CK : forall k, k <> iloc -> same_cell (p_cells p k) (cs4 k) /\ c_next (cs4 k) = c_next (p_cells p2 k) /\
     (h_first (p_heads p2 index) <> Some k -> c_prev (cs4 k) = c_prev (p_cells p2 k))).
  { intros k Hk. unfold cs4, cs3. destruct (h_first (p_heads p2 index)) as [f|] eqn:Ef.
    - destruct (Z.eq_dec k f) as [-> |Hkf].
      + rewrite fset_same. rewrite fset_other by exact Hk. destruct (R7 f) as (X1 & X2 & X3). unfold same_cell. cbn. intuition congruence.
      + rewrite !fset_other by auto. destruct (R7 k) as (X1 & X2 & X3). unfold same_cell. intuition congruence.
    - rewrite fset_other by exact Hk. destruct (R7 k) as (X1 & X2 & X3). unfold same_cell. intuition congruence. }
  assert (LI : forall g i, 0 <= g < p_n p -> In i (L' g) <-> (g = index /\ i = iloc) \/ (i <> iloc /\ In i (L g))).
  { intros g i Hg. unfold L', fset. destruct (Z.eqb_spec g index) as [-> |Hgi].
    - cbn [In]. rewrite R10 by exact Hg. destruct (Z.eq_dec i iloc); intuition congruence.
    - rewrite R10 by exact Hg. tauto. }
  split; [|split; [exact R1|]; split; [exact R4|]; split; [exact R2|]; split; [|split; [|split; [|split; [exact LI|]; split; [intros x; rewrite <- PD; cbn; rewrite R5; tauto|exact HF]]]]].
  - (* lists *)
    unfold lists, inr. cbn [p_n p_heads p_cells p_lastg p_lasta p_tag p_done]. rewrite R1, R2. split; [exact L1|]. split; [exact L2|]. split; [unfold inr in Hi; lia|].
    split; [|split].
    + intros g Hg. unfold L'. destruct (Z.eq_dec g index) as [-> |Hgi];
        [rewrite (fset_same L2'), (fset_same (p_heads p2))|rewrite (fset_other L2'), (fset_other (p_heads p2)) by exact Hgi].
      * cbn [h_first h_count seg length]. split; [|split; [rewrite C; lia|constructor; [apply N0; exact Hx|exact N]]].
        rewrite fset_same. split; [reflexivity|]. split; [exact NP|]. change (c_next new) with (h_first (p_heads p2 index)).
        eapply seg_ext with (cs := cs4).
        { intros i Hin. rewrite fset_other; [auto|]. intros ->. exact (N0 index Hx Hin). }
        unfold cs4. destruct (L2' index) as [|f l] eqn:EL.
        { cbn [seg] in *. exact S. }
        pose proof S as (Ef & _). rewrite Ef. apply (seg_set_prev cs3 None (Some f) f l None (Some iloc)).
        { apply NoDup_cons_iff in N. tauto. }
        rewrite <- Ef. eapply seg_ext; [|exact S]. intros i Hin. unfold cs3. rewrite fset_other; [auto|]. intros ->. apply (N0 index Hx). rewrite EL. exact Hin.
      * destruct (R9 g Hg) as (S' & C' & N'). split; [|auto]. eapply seg_ext; [|exact S'].
        intros i Hin. assert (Hne : i <> iloc) by (intros ->; exact (N0 g Hg Hin)). rewrite fset_other by exact Hne.
        destruct (CK i Hne) as (_ & K1 & K2). split; [exact K1|]. apply K2. intros Ef. apply SI in Ef.
        apply R10 in Ef; [|exact Hx]. apply R10 in Hin; [|exact Hg]. apply Hgi. eapply (lists_disjoint p L g index i); unfold inr; eauto; tauto.
    + intros g i Hg Hin. apply LI in Hin; [|exact Hg]. destruct Hin as [[-> ->]|[Hne Hin]].
      * rewrite fset_same. split; [exact Hi|]. split; [exact NA|reflexivity].
      * rewrite fset_other by exact Hne. destruct (L5 g i Hg Hin) as (X1 & X2 & X3). destruct (CK i Hne) as ((Y1 & Y2 & Y3) & _).
        split; [exact X1|]. split; congruence.
    + intros i Hin. destruct (Z.eq_dec i iloc) as [-> |Hne].
      * rewrite fset_same. intros _. unfold new. cbn [c_ga]. split; [exact Hx|]. apply LI; [exact Hx|]. left. auto.
      * rewrite fset_other by exact Hne. destruct (CK i Hne) as ((Y1 & Y2 & Y3) & _). rewrite Y2, Y3. intros HA.
        destruct (L6 i Hin HA) as [X1 X2]. split; [exact X1|]. apply LI; [exact X1|]. right. auto.
  - intros g. cbn [p_heads]. unfold fset. destruct (Z.eqb_spec g index) as [-> |]; cbn [h_tag]; apply R6.
  - intros i Hne. cbn [p_cells]. rewrite fset_other by exact Hne. apply (CK i Hne).
  - cbn [p_cells]. rewrite fset_same. reflexivity.
Qed.

(** ---- waiting ---- *)
Lemma short_list n l : NoDup l -> (forall i, In i l -> 0 <= i < n) -> (length l <= Z.to_nat n)%nat.
Proof.
  intros N H. rewrite <- (seq_length (Z.to_nat n) 0), <- (map_length Z.of_nat (seq 0 (Z.to_nat n))).
  apply NoDup_incl_length; [exact N|]. intros i Hi. specialize (H i Hi). apply in_map_iff. exists (Z.to_nat i).
  split; [lia|]. apply in_seq. lia.
Qed.
Lemma list_short p L g : lists p L -> inr p g -> (length (L g) <= Z.to_nat (p_n p))%nat.
Proof.
  intros (_ & _ & _ & L4 & L5 & _) Hg. apply short_list; [apply (L4 g Hg)|]. intros i Hi. apply (L5 g i Hg Hi).
Qed.

Lemma wait_loop_spec l : forall p prev next fuel, (length l <= fuel)%nat -> (forall i, In i l -> inr p i) -> NoDup l ->
  seg (p_cells p) prev next l None ->
  exists p', nb_wait_loop fuel p next = Some p' /\ p_n p' = p_n p /\ p_heads p' = p_heads p /\ p_lastg p' = p_lastg p /\
    p_lasta p' = p_lasta p /\ p_tag p' = p_tag p /\
    (forall i, In i l -> c_active (p_cells p' i) = false) /\ (forall i, ~ In i l -> p_cells p' i = p_cells p i) /\
    (forall x, In x (p_done p') <-> In x (p_done p) \/ exists i, In i l /\ c_req (p_cells p i) = Some x).
Proof.
  induction l as [|i l IH]; intros p prev next fuel HF HR ND HS; cbn [seg] in HS.
  - subst next. exists p. destruct fuel; cbn [nb_wait_loop]; repeat (split; [reflexivity|]); (split; [intros ? []|]); (split; [reflexivity|]);
      intros x; (split; [tauto|]); intros [?|(i & [] & _)]; auto.
  - destruct HS as (-> & HP & HS). destruct fuel as [|fuel]; [cbn in HF; lia|]. cbn [nb_wait_loop].
    assert (Hi : inr p i) by (apply HR; now left). rewrite rdc_ok by exact Hi. rewrite wrc_ok by exact Hi.
    apply NoDup_cons_iff in ND as [Ni ND]. cbn [complete p_n p_heads p_cells p_lastg p_lasta p_tag p_done].
    set (p1 := Pool _ _ _ _ _ _ _).
    destruct (IH p1 (Some i) (c_next (p_cells p i)) fuel) as (p' & E & A1 & A2 & A3 & A4 & A5 & A6 & A7 & A8).
    { cbn in HF. lia. } { intros j Hj. apply HR. now right. } { exact ND. }
    { eapply seg_ext; [|exact HS]. intros j Hj. unfold p1. cbn [p_cells]. rewrite fset_other by (intros ->; auto). auto. }
    exists p'. rewrite E. split; [reflexivity|]. split; [exact A1|]. split; [exact A2|]. split; [exact A3|]. split; [exact A4|]. split; [exact A5|]. split; [|split].
    + intros j [<-|Hj]; [|apply A6; exact Hj]. rewrite A7 by exact Ni. unfold p1. cbn [p_cells]. rewrite fset_same. reflexivity.
    + intros j Hj. rewrite A7 by (intros X; apply Hj; now right). unfold p1. cbn [p_cells]. apply fset_other. intros ->. apply Hj. now left.
    + intros x. rewrite A8. assert (D1 : In x (p_done p1) <-> In x (p_done p) \/ c_req (p_cells p i) = Some x).
      { unfold p1. cbn [p_done]. destruct (c_req (p_cells p i)) as [y|]; cbn [In]; intuition congruence. }
      rewrite D1. unfold p1. cbn [p_cells]. split.
      * intros [[H|H]|(j & Hj & H)]; [auto|right; exists i; split; [now left|exact H]|].
        rewrite fset_other in H by (intros ->; auto). right. exists j. split; [now right|exact H].
      * intros [H|(j & [<-|Hj] & H)]; [auto|auto|]. right. exists j. split; [exact Hj|]. rewrite fset_other by (intros ->; auto). exact H.
Qed.

Lemma wait_spec p L g t : lists p L -> inr p g ->
  exists p' L', nb_wait p (g, t) = Some p' /\ lists p' L' /\ p_n p' = p_n p /\ p_tag p' = p_tag p /\ p_lastg p' = p_lastg p /\
    (forall k, h_tag (p_heads p' k) = h_tag (p_heads p k)) /\
    (t = h_tag (p_heads p g) -> L' = fset L g []) /\ (t <> h_tag (p_heads p g) -> p' = p /\ L' = L) /\
    (forall k i, inr p k -> In i (L' k) -> In i (L k) /\ p_cells p' i = p_cells p i) /\
    (forall x, In x (p_done p') <-> In x (p_done p) \/
       (t = h_tag (p_heads p g) /\ exists i, In i (L g) /\ c_req (p_cells p i) = Some x)).
Proof.
  intros HL Hg. pose proof HL as (L1 & L2 & L3 & L4 & L5 & L6). unfold nb_wait. cbn [fst snd]. rewrite rdh_ok by exact Hg.
  destruct (Z.eqb_spec t (h_tag (p_heads p g))) as [Et|Et].
  2:{ exists p, L. split; [reflexivity|]. split; [exact HL|]. repeat (split; [reflexivity|]). split; [intros; contradiction|].
      split; [auto|]. split; [auto|]. intros x. split; [auto|]. intros [?|[? _]]; [auto|contradiction]. }
  destruct (L4 g Hg) as (S & C & N).
  destruct (wait_loop_spec (L g) p None (h_first (p_heads p g)) (Z.to_nat (p_n p))) as (p1 & E & A1 & A2 & A3 & A4 & A5 & A6 & A7 & A8).
  { apply list_short; auto. } { intros i Hi. apply (L5 g i Hg Hi). } { exact N. } { exact S. }
  rewrite E. assert (Hg1 : inr p1 g) by (unfold inr in *; rewrite A1; exact Hg).
  rewrite rdh_ok by exact Hg1. rewrite wrh_ok by exact Hg1. rewrite A2.
  eexists. exists (fset L g []). split; [reflexivity|]. cbn [p_n p_heads p_cells p_lastg p_lasta p_tag p_done].
  assert (HI : forall k i, inr p k -> In i (fset L g [] k) -> In i (L k) /\ p_cells p1 i = p_cells p i).
  { intros k i Hk. unfold fset. destruct (Z.eqb_spec k g) as [-> |Hkg]; [intros []|]. intros Hi. split; [exact Hi|].
    apply A7. intros X. apply Hkg. eapply lists_disjoint; eauto. }
  split; [|split; [exact A1|]; split; [exact A5|]; split; [exact A3|]; split; [|split; [auto|]; split; [intros; contradiction|]; split; [exact HI|]]].
  - unfold lists, inr. cbn [p_n p_heads p_cells p_lastg p_lasta p_tag p_done]. rewrite A1, A3, A4. split; [exact L1|]. split; [exact L2|]. split; [exact L3|].
    split; [|split].
    + intros k Hk. destruct (Z.eq_dec k g) as [-> |Hkg].
      * rewrite !fset_same. cbn. split; [reflexivity|]. split; [reflexivity|constructor].
      * rewrite !fset_other by exact Hkg. destruct (L4 k Hk) as (S' & C' & N'). split; [|auto]. eapply seg_ext; [|exact S'].
        intros i Hi. rewrite A7; [auto|]. intros X. apply Hkg. eapply lists_disjoint; eauto.
    + intros k i Hk Hi. destruct (HI k i Hk Hi) as [Hi' ->]. apply (L5 k i Hk Hi').
    + intros i Hi. destruct (in_dec Z.eq_dec i (L g)) as [X|X]; [rewrite A6 by exact X; discriminate|]. rewrite A7 by exact X.
      intros HA. destruct (L6 i Hi HA) as [B1 B2]. split; [exact B1|]. rewrite fset_other; [exact B2|].
      intros EQ. rewrite EQ in B2. contradiction.
  - intros k. unfold fset. destruct (Z.eqb_spec k g) as [-> |]; reflexivity.
  - intros x. rewrite A8. intuition.
Qed.

(** ---- a new handle ---- *)
Lemma handle_spec p L : lists p L ->
  exists p' L' g t, nb_handle p = Some (p', (g, t)) /\ lists p' L' /\ p_n p' = p_n p /\ inr p g /\ L' g = [] /\
    h_tag (p_heads p' g) = t /\ t = next_tag p /\ p_tag p' = t /\ (forall k, k <> g -> h_tag (p_heads p' k) = h_tag (p_heads p k)) /\
    (forall k i, inr p k -> In i (L' k) -> In i (L k) /\ p_cells p' i = p_cells p i) /\
    (forall k i, inr p k -> k <> g -> In i (L k) -> In i (L' k)) /\
    (forall x, In x (p_done p') <-> In x (p_done p) \/ exists i, In i (L g) /\ c_req (p_cells p i) = Some x) /\
    ((exists k, inr p k /\ L k = []) -> L g = []).
Proof.
  intros HL. pose proof HL as (L1 & L2 & L3 & L4 & L5 & L6). unfold nb_handle. cbv zeta.
  assert (HLast : 0 <= Z.rem (p_lastg p + 1) (p_n p) < p_n p) by (apply Z.rem_bound_pos; lia).
  set (last := Z.rem (p_lastg p + 1) (p_n p)) in *.
  set (free := fun i => match h_first (p_heads p i) with None => true | Some _ => false end).
  set (idx := nb_scan (Z.to_nat (p_n p)) (p_n p) last free last).
  assert (Hi : inr p idx) by (apply scan_range; lia).
  assert (FE : forall k, inr p k -> free k = true <-> L k = []).
  { intros k Hk. unfold free. destruct (L4 k Hk) as (S & _). destruct (L k) as [|j l]; cbn [seg] in S.
    - rewrite S. tauto.
    - destruct S as (-> & _). split; discriminate. }
  assert (HF : (exists k, inr p k /\ L k = []) -> L idx = []).
  { intros (k & Hk & E). apply FE; [exact Hi|]. unfold idx. apply (scan_found (p_n p) last free last k); try lia; [exact Hk|]. apply FE; auto. }
  clearbody idx. rewrite rdh_ok by exact Hi.
  assert (H1 : exists p1 L1', match h_first (p_heads p idx) with Some _ => nb_wait p (idx, h_tag (p_heads p idx)) | None => Some p end = Some p1 /\
     lists p1 L1' /\ p_n p1 = p_n p /\ p_tag p1 = p_tag p /\ (forall k, h_tag (p_heads p1 k) = h_tag (p_heads p k)) /\ L1' idx = [] /\
     (forall k i, inr p k -> In i (L1' k) -> In i (L k) /\ p_cells p1 i = p_cells p i) /\
     (forall k, k <> idx -> L1' k = L k) /\
     (forall x, In x (p_done p1) <-> In x (p_done p) \/ exists i, In i (L idx) /\ c_req (p_cells p i) = Some x)).
  { destruct (L4 idx Hi) as (S & _). destruct (h_first (p_heads p idx)) as [f|] eqn:Ef.
    - destruct (wait_spec p L idx (h_tag (p_heads p idx)) HL Hi) as (p1 & L1' & E & A1 & A2 & A3 & A4 & A5 & A6 & A7 & A8 & A9).
      exists p1, L1'. specialize (A6 eq_refl). split; [exact E|]. split; [exact A1|]. split; [exact A2|]. split; [exact A3|]. split; [exact A5|].
      split; [rewrite A6; apply fset_same|]. split; [exact A8|]. split; [intros k Hk; rewrite A6; apply fset_other; exact Hk|].
      intros x. rewrite A9. intuition.
    - assert (EL : L idx = []). { destruct (L idx) as [|j l]; [reflexivity|]. cbn [seg] in S. destruct S as (S & _). discriminate. }
      exists p, L. split; [reflexivity|]. split; [exact HL|]. repeat (split; [reflexivity|]). split; [exact EL|]. split; [auto|]. split; [auto|].
      intros x. split; [auto|]. intros [?|(i & H & _)]; [auto|]. rewrite EL in H. destruct H. }
  destruct H1 as (p1 & L1' & -> & B1 & B2 & B3 & B4 & B5 & B6 & B7 & B8).
  assert (Hi1 : inr p1 idx) by (unfold inr in *; rewrite B2; exact Hi).
  rewrite wrh_ok by exact Hi1. cbn [p_n p_heads p_cells p_lastg p_lasta p_tag p_done].
  exists (Pool (p_n p1) (fset (p_heads p1) idx (Head None 0 (next_tag p1) true)) (p_cells p1) idx (p_lasta p1) (next_tag p1) (p_done p1)),
    L1', idx, (next_tag p1). split; [reflexivity|].
  cbn [p_n p_heads p_cells p_lastg p_lasta p_tag p_done]. split; [|split; [exact B2|]; split; [exact Hi|]; split; [exact B5|]; split; [rewrite fset_same; reflexivity|]].
  - pose proof B1 as (M1 & M2 & M3 & M4 & M5 & M6). unfold lists, inr. cbn [p_n p_heads p_cells p_lastg p_lasta p_tag p_done].
    split; [exact M1|]. split; [unfold inr in Hi1; lia|]. split; [exact M3|]. split; [|split; [exact M5|exact M6]].
    intros k Hk. destruct (Z.eq_dec k idx) as [-> |Hki].
    + rewrite fset_same, B5. cbn. split; [reflexivity|]. split; [reflexivity|constructor].
    + rewrite fset_other by exact Hki. apply M4. exact Hk.
  - split; [unfold next_tag; rewrite B3; reflexivity|]. split; [reflexivity|]. split; [intros k Hk; rewrite fset_other by exact Hk; apply B4|].
    split; [exact B6|]. split; [intros k i Hk Hki Hin; rewrite B7 by exact Hki; exact Hin|]. split; [exact B8|exact HF].
Qed.

(** ---- testing ---- *)
Definition weaker (p p' : pool) (L L' : Z -> list Z) : Prop :=
  p_n p' = p_n p /\ p_tag p' = p_tag p /\ p_lastg p' = p_lastg p /\
  (forall k, h_tag (p_heads p' k) = h_tag (p_heads p k)) /\
  (forall k i, inr p k -> In i (L' k) -> In i (L k) /\ c_req (p_cells p' i) = c_req (p_cells p i)) /\
  (forall k i x, inr p k -> In i (L k) -> c_req (p_cells p i) = Some x -> In x (p_done p') \/ In i (L' k)) /\
  (forall x, In x (p_done p) -> In x (p_done p')) /\
  (forall x, In x (p_done p') -> In x (p_done p) \/
     exists k i, inr p k /\ In i (L k) /\ (forall k', inr p k' -> ~ In i (L' k')) /\ c_req (p_cells p i) = Some x).

Lemma test_loop_spec ans g l2 : forall l1 p L next fuel, lists p L -> inr p g -> L g = l1 ++ l2 -> (length l2 <= fuel)%nat ->
  next = match l2 with [] => None | i :: _ => Some i end ->
  exists p' L', nb_test_loop fuel ans p g next = Some p' /\ lists p' L' /\ weaker p p' L L' /\
    (forall i, In i (L' g) <-> In i l1 \/ (In i l2 /\ ans i = false)).
Proof.
  induction l2 as [|i l2 IH]; intros l1 p L next fuel HL Hg E HF ->.
  - exists p, L. split; [destruct fuel; reflexivity|]. split; [exact HL|]. split.
    { unfold weaker. repeat (split; [reflexivity|]). split; [auto|]. repeat (split; [auto|]). auto. }
    intros i. rewrite E, app_nil_r. cbn. tauto.
  - destruct fuel as [|fuel]; [cbn in HF; lia|]. cbn [nb_test_loop]. cbn [length] in HF.
    pose proof HL as (L1 & L2 & L3 & L4 & L5 & L6).
    assert (Hin : In i (L g)) by (rewrite E, in_app_iff; right; now left).
    destruct (L5 g i Hg Hin) as (Hi & Ai & Gi). rewrite rdc_ok by exact Hi. cbv zeta.
    destruct (L4 g Hg) as (S & C & N). rewrite E in S, N.
    assert (EN : c_next (p_cells p i) = match l2 with [] => None | j :: _ => Some j end).
    { apply seg_app in S as (mid & _ & _ & _ & S). destruct l2 as [|j l2']; cbn [seg] in S; [exact S|apply S]. }
    destruct (ans i) eqn:EA.
    + assert (HLc : lists (complete p (p_cells p i)) L) by exact HL.
      destruct (remove_spec (complete p (p_cells p i)) L g i HLc Hg Hin) as (p1 & p2 & L' & E1 & E2 & E3 & R & RN & RC & RS & RE & l1' & l2' & EL & EL').
      assert (EQ : l1' = l1 /\ l2' = l2).
      { rewrite E in EL. clear - EL N. revert l1' EL N. induction l1 as [|x l1 IHl]; intros [|y l1'] EL N; cbn [app] in *.
        - injection EL as ->. auto.
        - injection EL as <- EL. subst l2. apply NoDup_cons_iff in N as [N _]. exfalso. apply N. apply in_app_iff. right. now left.
        - injection EL as -> EL. subst. apply NoDup_cons_iff in N as [N _]. exfalso. apply N. apply in_app_iff. right. now left.
        - injection EL as <- EL. apply NoDup_cons_iff in N as [_ N]. destruct (IHl l1' EL N) as [-> ->]. auto. }
      destruct EQ as [-> ->]. clear EL.
      rewrite E1. cbn [complete p_n] in RN. assert (Hi1 : inr p1 i) by (unfold inr in *; rewrite RN; exact Hi).
      assert (Hg1 : inr p1 g) by (unfold inr in *; rewrite RN; exact Hg).
      rewrite rdc_ok by exact Hi1. rewrite wrc_ok by exact Hi1. rewrite rdh_ok by exact Hg1. rewrite wrh_ok by exact Hg1.
      rewrite wrh_ok in E3 by exact Hg1. injection E3 as <-.
      destruct R as (R1 & R2 & R3 & R4 & R5 & R6 & R7 & R8 & R9 & R10).
      cbn [complete p_n p_heads p_cells p_lastg p_lasta p_tag p_done] in *.
      set (new := Cell (c_req (p_cells p1 i)) None None (c_ga (p_cells p1 i)) false).
      set (p3 := Pool _ _ _ _ _ _ _).
      assert (N' : forall k, inr p k -> ~ In i (L' k)) by (intros k Hk X; apply R10 in X; [tauto|exact Hk]).
      assert (HL3 : lists p3 L').
      { unfold lists, inr, p3. cbn [p_n p_heads p_cells p_lastg p_lasta p_tag p_done]. rewrite R1, R2, R3. split; [exact L1|]. split; [exact L2|]. split; [exact L3|].
        split; [|split].
        - intros k Hk. destruct (R9 k Hk) as (S' & C' & NN'). split; [|split; [exact C'|exact NN']]. eapply seg_ext; [|exact S'].
          intros j Hj. rewrite fset_other; [auto|]. intros ->. exact (N' k Hk Hj).
        - intros k j Hk Hj. assert (j <> i) by (intros ->; exact (N' k Hk Hj)). rewrite fset_other by assumption.
          apply R10 in Hj; [|exact Hk]. destruct Hj as [Hj _]. destruct (L5 k j Hk Hj) as (X1 & X2 & X3). destruct (RS j) as (Y1 & Y2 & Y3).
          cbn [complete p_cells] in *. split; [exact X1|]. split; congruence.
        - intros j Hj. destruct (Z.eq_dec j i) as [-> |Hji]; [rewrite fset_same; discriminate|]. rewrite fset_other by exact Hji.
          destruct (RS j) as (Y1 & Y2 & Y3). cbn [complete p_cells] in *. rewrite Y2, Y3. intros HA.
          destruct (L6 j Hj HA) as [B1 B2]. split; [exact B1|]. apply R10; [exact B1|]. auto. }
      assert (Hg3 : inr p3 g) by (unfold inr, p3; cbn [p_n]; rewrite R1; exact Hg).
      destruct (IH l1 p3 L' (c_next (p_cells p i)) fuel HL3 Hg3 EL' ltac:(lia) EN) as (p' & L'' & E' & HL' & W & HM).
      exists p', L''. cbn [complete p_cells] in *.
      split; [exact E'|]. split; [exact HL'|]. split.
      * destruct W as (W1 & W2 & W3 & W4 & W5 & W6 & W7 & W8). unfold p3 in *. unfold inr in *. cbn [p_n p_heads p_cells p_lastg p_lasta p_tag p_done] in *. rewrite R1 in *.
        unfold weaker, inr. split; [congruence|]. split; [congruence|]. split; [congruence|]. split; [intros k; rewrite W4; apply R6|].
        assert (CR : forall j, c_req (fset (p_cells p1) i new j) = c_req (p_cells p j)).
        { intros j. unfold fset. destruct (Z.eqb_spec j i) as [-> |]; [unfold new; cbn; rewrite RC; reflexivity|]. destruct (RS j) as (Y & _). exact Y. }
        split; [|split; [|split]].
        -- intros k j Hk Hj. destruct (W5 k j Hk Hj) as [X1 X2]. apply R10 in X1; [|exact Hk]. split; [tauto|]. rewrite X2. apply CR.
        -- intros k j x Hk Hj Hx. destruct (Z.eq_dec j i) as [-> |Hji].
           ++ left. apply W7. rewrite R5. rewrite Hx. now left.
           ++ apply (W6 k j x Hk); [apply R10; auto|]. rewrite CR. exact Hx.
        -- intros x Hx. apply W7. rewrite R5. destruct (c_req (p_cells p i)); [now right|exact Hx].
        -- intros x Hx. destruct (W8 x Hx) as [H|(k & j & Hk & Hj & HN & Hr)].
           ++ rewrite R5 in H. destruct (c_req (p_cells p i)) eqn:Er; [|auto]. destruct H as [<-|H]; [|auto]. right. exists g, i.
              split; [exact Hg|]. split; [exact Hin|]. split; [|exact Er]. intros k' Hk' X. apply W5 in X; [|exact Hk']. exact (N' k' Hk' (proj1 X)).
           ++ right. exists k, j. rewrite CR in Hr. split; [exact Hk|]. split; [apply R10 in Hj; [tauto|exact Hk]|]. split; [exact HN|exact Hr].
      * intros j. rewrite HM. cbn [In]. split; [tauto|]. intros [H|[[<-|H] H']]; [auto|congruence|auto].
    + destruct (IH (l1 ++ [i]) p L (c_next (p_cells p i)) fuel HL Hg) as (p' & L' & E' & HL' & W & HM).
      { rewrite E, <- app_assoc. reflexivity. } { lia. } { exact EN. }
      exists p', L'. split; [exact E'|]. split; [exact HL'|]. split; [exact W|].
      intros j. rewrite HM, in_app_iff. cbn [In]. split; [|tauto]. intros [[H|[<-|[]]]|[H H']]; auto.
Qed.

Lemma test_spec ans p L g t : lists p L -> inr p g ->
  exists p' L' b, nb_test ans p (g, t) = Some (p', b) /\ lists p' L' /\ weaker p p' L L' /\
    (t = h_tag (p_heads p g) -> (b = true <-> L' g = []) /\ (forall i, In i (L' g) <-> In i (L g) /\ ans i = false)) /\
    (t <> h_tag (p_heads p g) -> b = true).
Proof.
  intros HL Hg. unfold nb_test. cbn [fst snd]. rewrite rdh_ok by exact Hg.
  destruct (Z.eqb_spec t (h_tag (p_heads p g))) as [Et|Et].
  2:{ exists p, L, true. split; [reflexivity|]. split; [exact HL|]. split.
      { unfold weaker. repeat (split; [reflexivity|]). split; [auto|]. repeat (split; [auto|]). auto. } split; [intros; contradiction|auto]. }
  destruct (test_loop_spec ans g (L g) [] p L (h_first (p_heads p g)) (Z.to_nat (p_n p)) HL Hg eq_refl) as (p1 & L1 & E & HL1 & W & HM).
  { apply list_short; auto. }
  { destruct HL as (_ & _ & _ & L4 & _). destruct (L4 g Hg) as (S & _). destruct (L g) as [|i l]; cbn [seg] in S; [exact S|apply S]. }
  rewrite E. pose proof W as (W1 & W2 & W3 & W4 & W5 & W6 & W7 & W8).
  assert (Hg1 : inr p1 g) by (unfold inr in *; rewrite W1; exact Hg). rewrite rdh_ok by exact Hg1.
  pose proof HL1 as (M1 & M2 & M3 & M4 & M5 & M6). destruct (M4 g Hg1) as (SG & C & N).
  assert (HB : negb (0 <? h_count (p_heads p1 g)) = true <-> L1 g = []).
  { rewrite C. destruct (L1 g); cbn [length]; [cbn; tauto|]. split; [|discriminate]. intros X.
    destruct (Z.ltb_spec 0 (Z.of_nat (S (length l)))); [discriminate|lia]. }
  assert (HM' : forall i, In i (L1 g) <-> In i (L g) /\ ans i = false).
  { intros i. rewrite HM. cbn [In]. tauto. }
  destruct (Z.eqb_spec (h_count (p_heads p1 g)) 0) as [E0|E0].
  - rewrite wrh_ok by exact Hg1. set (b := negb (0 <? h_count (p_heads p1 g))) in *. clearbody b.
    eexists. exists L1, b. split; [reflexivity|]. split; [|split; [|split; [auto|intros; contradiction]]].
    + unfold lists, inr. cbn [p_n p_heads p_cells p_lastg p_lasta p_tag p_done]. split; [exact M1|]. split; [exact M2|]. split; [exact M3|].
      split; [|split; [exact M5|exact M6]]. intros k Hk. destruct (Z.eq_dec k g) as [-> |Hkg].
      * rewrite fset_same. cbn [h_first h_count]. assert (EL : L1 g = []) by (destruct (L1 g); [reflexivity|cbn in C; lia]).
        rewrite EL in *. cbn. split; [reflexivity|]. split; [exact C|constructor].
      * rewrite fset_other by exact Hkg. apply M4. exact Hk.
    + unfold weaker. cbn [p_n p_heads p_cells p_lastg p_lasta p_tag p_done]. repeat (split; [assumption|]).
      split; [|split; [exact W5|split; [exact W6|split; [exact W7|exact W8]]]]. intros k. unfold fset. destruct (Z.eqb_spec k g) as [-> |]; [|apply W4]. cbn [h_tag]. apply W4.
  - eexists. exists L1, (negb (0 <? h_count (p_heads p1 g))). split; [reflexivity|]. split; [exact HL1|]. split; [exact W|]. split; [auto|intros; contradiction].
Qed.

Lemma wait_weaker p L g t : lists p L -> inr p g ->
  exists p' L', nb_wait p (g, t) = Some p' /\ lists p' L' /\ weaker p p' L L' /\ (t = h_tag (p_heads p g) -> L' g = []).
Proof.
  intros HL Hg. destruct (wait_spec p L g t HL Hg) as (p' & L' & E & A1 & A2 & A3 & A4 & A5 & A6 & A7 & A8 & A9).
  exists p', L'. split; [exact E|]. split; [exact A1|]. split; [|intros Et; rewrite (A6 Et); apply fset_same].
  unfold weaker. split; [exact A2|]. split; [exact A3|]. split; [exact A4|]. split; [exact A5|]. split; [|split; [|split]].
  - intros k i Hk Hi. destruct (A8 k i Hk Hi) as [X Y]. rewrite Y. auto.
  - intros k i x Hk Hi Hx. destruct (Z.eq_dec t (h_tag (p_heads p g))) as [Et|Et].
    + rewrite (A6 Et). destruct (Z.eq_dec k g) as [-> |Hkg].
      * left. apply A9. right. split; [exact Et|]. exists i. auto.
      * right. rewrite fset_other by exact Hkg. exact Hi.
    + destruct (A7 Et) as [-> ->]. auto.
  - intros x Hx. apply A9. auto.
  - intros x Hx. apply A9 in Hx as [Hx|(Et & i & Hi & Hr)]; [auto|]. right. exists g, i. split; [exact Hg|]. split; [exact Hi|]. split; [|exact Hr].
    intros k Hk X. rewrite (A6 Et) in X. unfold fset in X. destruct (Z.eqb_spec k g) as [-> |Hkg]; [destruct X|]. apply Hkg. exact (lists_disjoint p L k g i HL Hk Hg X Hi).
Qed.

(** ---- histories ---- *)
Definition ops := list ((Z * Z) * list Z).
Definition good (p : pool) (os : ops) (L : Z -> list Z) (cur : Z -> option nat) : Prop :=
  lists p L /\
  (forall g k, inr p g -> cur g = Some k -> exists rs, nth_error os k = Some ((g, h_tag (p_heads p g)), rs)) /\
  (forall k g t rs, nth_error os k = Some ((g, t), rs) -> inr p g /\
     forall r, In r rs -> In r (p_done p) \/ (cur g = Some k /\ exists i, In i (L g) /\ c_req (p_cells p i) = Some r)) /\
  (forall g i, inr p g -> In i (L g) -> exists k h rs r, cur g = Some k /\ nth_error os k = Some (h, rs) /\ In r rs /\ c_req (p_cells p i) = Some r) /\
  (NoDup (flat_map snd os) -> forall g i g' i' r, inr p g -> inr p g' -> In i (L g) -> In i' (L g') ->
     c_req (p_cells p i) = Some r -> c_req (p_cells p i') = Some r -> i = i') /\
  (forall r, In r (p_done p) -> In r (flat_map snd os)) /\
  (NoDup (flat_map snd os) -> forall g i r, inr p g -> In i (L g) -> c_req (p_cells p i) = Some r -> ~ In r (p_done p)).

Lemma good_weaker p os L cur p' L' : good p os L cur -> lists p' L' -> weaker p p' L L' -> good p' os L' cur.
Proof.
  intros (G1 & G2 & G3 & G4 & G5 & G6 & G7) HL (W1 & W2 & W3 & W4 & W5 & W6 & W7 & W8). unfold good, inr in *. rewrite W1 in *. split; [exact HL|].
  split; [|split; [|split; [|split; [|split]]]].
  - intros g k Hg Hk. rewrite W4. auto.
  - intros k g t rs Hk. destruct (G3 k g t rs Hk) as [X Y]. split; [exact X|]. intros r Hr. destruct (Y r Hr) as [Z|(Z1 & i & Z2 & Z3)]; [auto|].
    destruct (W6 g i r X Z2 Z3) as [D|D]; [auto|]. right. split; [exact Z1|]. exists i. split; [exact D|]. destruct (W5 g i X D) as [_ ->]. exact Z3.
  - intros g i Hg Hi. destruct (W5 g i Hg Hi) as [X ->]. apply G4; auto.
  - intros ND g i g' i' r Hg Hg' Hi Hi' Hr Hr'. destruct (W5 g i Hg Hi) as [X E]. destruct (W5 g' i' Hg' Hi') as [X' E'].
    rewrite E in Hr. rewrite E' in Hr'. exact (G5 ND g i g' i' r Hg Hg' X X' Hr Hr').
  - intros x Hx. destruct (W8 x Hx) as [H|(k & i & Hk & Hi & _ & Hr)]; [auto|]. destruct (G4 k i Hk Hi) as (n & h & rs & r & _ & Y2 & Y3 & Y4).
    apply in_flat_map. exists (h, rs). split; [eapply nth_error_In; exact Y2|]. cbn [snd]. congruence.
  - intros ND g i r Hg Hi Hr HD. destruct (W5 g i Hg Hi) as [X E]. rewrite E in Hr. destruct (W8 r HD) as [H|(k & j & Hk & Hj & HN & Hr')].
    + exact (G7 ND g i r Hg X Hr H).
    + assert (i = j) by exact (G5 ND g i k j r Hg Hk X Hj Hr Hr'). subst j. exact (HN g Hg Hi).
Qed.

Lemma nth_error_snoc {A} (l : list A) a k b : nth_error (l ++ [a]) k = Some b ->
  (nth_error l k = Some b /\ (k < length l)%nat) \/ (k = length l /\ b = a).
Proof.
  intros H. destruct (Nat.lt_ge_cases k (length l)) as [Hk|Hk].
  - rewrite nth_error_app1 in H by exact Hk. auto.
  - rewrite nth_error_app2 in H by exact Hk. right. destruct (k - length l)%nat as [|m] eqn:E; cbn in H.
    + split; [lia|congruence].
    + destruct m; discriminate.
Qed.

Lemma handle_good p os L cur : good p os L cur ->
  exists p' L' cur' g t, nb_handle p = Some (p', (g, t)) /\ inr p' g /\ cur' g = Some (length os) /\ p_n p' = p_n p /\
    h_tag (p_heads p' g) = t /\ t = next_tag p /\ p_tag p' = t /\ (forall x, In x (p_done p) -> In x (p_done p')) /\ good p' (os ++ [((g, t), [])]) L' cur'.
Proof.
  intros (G1 & G2 & G3 & G4 & G5 & G6 & G7). destruct (handle_spec p L G1) as (p' & L' & g & t & E & A1 & A2 & A3 & A4 & A5 & A6 & A7 & A8 & A9 & A10 & A11 & A12).
  exists p', L', (fset cur g (Some (length os))), g, t. split; [exact E|]. split; [unfold inr in *; rewrite A2; exact A3|].
  split; [apply fset_same|]. split; [exact A2|]. split; [exact A5|]. split; [exact A6|]. split; [exact A7|]. split; [intros x Hx; apply A11; auto|]. unfold good, inr in *. rewrite A2. split; [exact A1|].
  assert (EF : flat_map snd (os ++ [((g, t), [])]) = flat_map snd os) by (rewrite flat_map_app; cbn [flat_map snd]; rewrite !app_nil_r; reflexivity).
  rewrite EF. split; [|split; [|split; [|split; [|split]]]].
  - intros k n Hk. destruct (Z.eq_dec k g) as [-> |Hkg].
    + rewrite fset_same. intros X. injection X as <-. exists []. rewrite A5. rewrite nth_error_app2 by lia. rewrite Nat.sub_diag. reflexivity.
    + rewrite fset_other by exact Hkg. intros X. destruct (G2 k n Hk X) as (rs & Y). exists rs. rewrite A8 by exact Hkg.
      rewrite nth_error_app1; [exact Y|]. apply nth_error_Some. congruence.
  - intros n k u rs Hn. apply nth_error_snoc in Hn as [[Hn Hlt]|[-> X]].
    + destruct (G3 n k u rs Hn) as [X Y]. split; [exact X|]. intros r Hr. destruct (Y r Hr) as [Z|(Z1 & i & Z2 & Z3)].
      { left. apply A11. auto. }
      destruct (Z.eq_dec k g) as [-> |Hkg].
      * left. apply A11. right. exists i. auto.
      * right. rewrite fset_other by exact Hkg. split; [exact Z1|]. exists i. assert (D : In i (L' k)) by (apply A10; auto).
        split; [exact D|]. destruct (A9 k i X D) as [_ ->]. exact Z3.
    + injection X as -> -> ->. split; [exact A3|]. intros r [].
  - intros k i Hk Hi. destruct (Z.eq_dec k g) as [-> |Hkg]; [rewrite A4 in Hi; destruct Hi|]. rewrite fset_other by exact Hkg.
    destruct (A9 k i Hk Hi) as [X ->]. destruct (G4 k i Hk X) as (n & h & rs & r & Y1 & Y2 & Y3 & Y4). exists n, h, rs, r.
    split; [exact Y1|]. split; [|auto]. rewrite nth_error_app1; [exact Y2|]. apply nth_error_Some. congruence.
  - intros ND k i k' i' r Hk Hk' Hi Hi' Hr Hr'. destruct (A9 k i Hk Hi) as [X EX]. destruct (A9 k' i' Hk' Hi') as [X' EX'].
    rewrite EX in Hr. rewrite EX' in Hr'. exact (G5 ND k i k' i' r Hk Hk' X X' Hr Hr').
  - intros x Hx. apply A11 in Hx as [Hx|(i & Hi & Hr)]; [auto|]. destruct (G4 g i A3 Hi) as (n & h & rs & r & _ & Y2 & Y3 & Y4).
    apply in_flat_map. exists (h, rs). split; [eapply nth_error_In; exact Y2|]. cbn [snd]. congruence.
  - intros ND k i r Hk Hi Hr HD. destruct (A9 k i Hk Hi) as [X EX]. rewrite EX in Hr. apply A11 in HD as [HD|(j & Hj & Hr')].
    + exact (G7 ND k i r Hk X Hr HD).
    + assert (i = j) by exact (G5 ND k i g j r Hk A3 X Hj Hr Hr'). subst j.
      assert (k = g) by exact (lists_disjoint p L k g i G1 Hk A3 X Hj). subst k. rewrite A4 in Hi. exact Hi.
Qed.

Lemma issue_good p os L cur g t rs r : good p (os ++ [((g, t), rs)]) L cur -> inr p g -> cur g = Some (length os) ->
  exists p' L', nb_issue p g r = Some p' /\ p_n p' = p_n p /\ p_tag p' = p_tag p /\ (forall x, In x (p_done p) -> In x (p_done p')) /\
    good p' (os ++ [((g, t), rs ++ [r])]) L' cur.
Proof.
  intros (G1 & G2 & G3 & G4 & G5 & G6 & G7) Hg Hc.
  destruct (issue_spec p L g r G1 Hg) as (p' & L' & j & E & A1 & A2 & A3 & A4 & A5 & A6 & A7 & A8 & A9 & A10).
  assert (A11 : c_active (p_cells p j) = true -> 0 <= c_ga (p_cells p j) < p_n p /\ In j (L (c_ga (p_cells p j)))).
  { intros HA. pose proof G1 as (_ & _ & _ & _ & _ & L6). apply L6; [|exact HA]. pose proof A1 as (_ & _ & _ & _ & M5 & _).
    assert (X : In j (L' g)) by (apply A8; auto). destruct (M5 g j) as (Y & _); [unfold inr in *; rewrite A2; exact Hg|exact X|]. unfold inr in *. rewrite A2 in Y. exact Y. }
  exists p', L'. split; [exact E|]. split; [exact A2|]. split; [exact A3|]. split; [intros x Hx; apply A9; auto|]. unfold good, inr in *. rewrite A2 in *. split; [exact A1|].
  assert (NE : forall n h xs, nth_error (os ++ [((g, t), rs)]) n = Some (h, xs) ->
    exists ys, nth_error (os ++ [((g, t), rs ++ [r])]) n = Some (h, ys) /\ forall x, In x xs -> In x ys).
  { intros n h xs Hn. apply nth_error_snoc in Hn as [[Hn Hlt]|[-> X]].
    - exists xs. split; [rewrite nth_error_app1 by exact Hlt; exact Hn|auto].
    - injection X as -> ->. exists (rs ++ [r]). split; [rewrite nth_error_app2, Nat.sub_diag by lia; reflexivity|]. intros x Hx. apply in_app_iff. auto. }
  assert (EF : flat_map snd (os ++ [((g, t), rs ++ [r])]) = flat_map snd (os ++ [((g, t), rs)]) ++ [r])
    by (rewrite !flat_map_app; cbn [flat_map snd]; rewrite !app_nil_r, app_assoc; reflexivity).
  assert (ND0 : NoDup (flat_map snd (os ++ [((g, t), rs ++ [r])])) ->
    NoDup (flat_map snd (os ++ [((g, t), rs)])) /\ ~ In r (flat_map snd (os ++ [((g, t), rs)]))).
  { intros ND. rewrite EF in ND. split.
    - rewrite <- (app_nil_r (flat_map snd (os ++ _))). eapply NoDup_remove_1. exact ND.
    - pose proof (NoDup_remove_2 _ _ _ ND) as X. rewrite app_nil_r in X. exact X. }
  split; [|split; [|split; [|split; [|split]]]].
  - intros k n Hk X. rewrite A5. destruct (G2 k n Hk X) as (xs & Y). destruct (NE _ _ _ Y) as (ys & Z & _). eauto.
  - assert (OLD : forall n k u xs, nth_error (os ++ [((g, t), rs)]) n = Some ((k, u), xs) -> 0 <= k < p_n p /\
       forall x, In x xs -> In x (p_done p') \/ (cur k = Some n /\ exists i, In i (L' k) /\ c_req (p_cells p' i) = Some x)).
    { intros n k u xs Hn. destruct (G3 n k u xs Hn) as [X Y]. split; [exact X|]. intros x Hx. destruct (Y x Hx) as [Z|(Z1 & i & Z2 & Z3)].
      { left. apply A9. auto. }
      destruct (Z.eq_dec i j) as [-> |Hij].
      - left. apply A9. right. destruct G1 as (_ & _ & _ & _ & L5 & _). destruct (L5 k j X Z2) as (_ & B & _). auto.
      - right. split; [exact Z1|]. exists i. split; [apply A8; auto|]. rewrite A6 by exact Hij. exact Z3. }
    intros n k u xs Hn. apply nth_error_snoc in Hn as [[Hn Hlt]|[-> X]].
    + apply OLD with u. rewrite nth_error_app1 by exact Hlt. exact Hn.
    + injection X as -> -> ->. destruct (OLD (length os) g t rs) as [X Y].
      { rewrite nth_error_app2, Nat.sub_diag by lia. reflexivity. }
      split; [exact X|]. intros x Hx. apply in_app_iff in Hx as [Hx|[<-|[]]]; [auto|]. right. split; [exact Hc|]. exists j. split; [apply A8; auto|exact A7].
  - intros k i Hk Hi. apply A8 in Hi; [|exact Hk]. destruct Hi as [[-> ->]|[Hne Hi]].
    + exists (length os), (g, t), (rs ++ [r]), r. split; [exact Hc|]. split; [rewrite nth_error_app2, Nat.sub_diag by lia; reflexivity|].
      split; [apply in_app_iff; right; now left|exact A7].
    + rewrite A6 by exact Hne. destruct (G4 k i Hk Hi) as (n & h & xs & x & Y1 & Y2 & Y3 & Y4). destruct (NE _ _ _ Y2) as (ys & Z & HS).
      exists n, h, ys, x. auto.
  - intros ND. destruct (ND0 ND) as [ND1 NI].
    assert (FR : forall k i, 0 <= k < p_n p -> In i (L k) -> c_req (p_cells p i) <> Some r).
    { intros k i Hk Hi Hr. destruct (G4 k i Hk Hi) as (n & h & xs & x & Y1 & Y2 & Y3 & Y4). apply NI. apply in_flat_map. exists (h, xs).
      split; [eapply nth_error_In; exact Y2|]. cbn [snd]. congruence. }
    intros k i k' i' x Hk Hk' Hi Hi' Hr Hr'. apply A8 in Hi; [|exact Hk]. apply A8 in Hi'; [|exact Hk'].
    destruct Hi as [[-> ->]|[Hne Hi]], Hi' as [[-> ->]|[Hne' Hi']]; [reflexivity| | |].
    + exfalso. rewrite A7 in Hr. rewrite A6 in Hr' by exact Hne'. apply (FR k' i' Hk' Hi'). congruence.
    + exfalso. rewrite A7 in Hr'. rewrite A6 in Hr by exact Hne. apply (FR k i Hk Hi). congruence.
    + rewrite A6 in Hr by exact Hne. rewrite A6 in Hr' by exact Hne'. exact (G5 ND1 k i k' i' x Hk Hk' Hi Hi' Hr Hr').
  - intros x Hx. rewrite EF. apply in_app_iff. left. apply A9 in Hx as [Hx|[HA Hr]]; [auto|].
    destruct (A11 HA) as [B1 B2]. destruct (G4 _ _ B1 B2) as (n & h & xs & y & _ & Y2 & Y3 & Y4).
    apply in_flat_map. exists (h, xs). split; [eapply nth_error_In; exact Y2|]. cbn [snd]. congruence.
  - intros ND k i x Hk Hi Hr HD. destruct (ND0 ND) as [ND1 NI]. apply A8 in Hi; [|exact Hk]. destruct Hi as [[-> ->]|[Hne Hi]].
    + rewrite A7 in Hr. injection Hr as <-. apply A9 in HD as [HD|[HA Hr]]; [exact (NI (G6 _ HD))|].
      destruct (A11 HA) as [B1 B2]. destruct (G4 _ _ B1 B2) as (n & h & xs & y & _ & Y2 & Y3 & Y4). apply NI.
      apply in_flat_map. exists (h, xs). split; [eapply nth_error_In; exact Y2|]. cbn [snd]. congruence.
    + rewrite A6 in Hr by exact Hne. apply A9 in HD as [HD|[HA Hr']]; [exact (G7 ND1 k i x Hk Hi Hr HD)|].
      destruct (A11 HA) as [B1 B2]. apply Hne. exact (G5 ND1 k i _ j x Hk B1 Hi B2 Hr Hr').
Qed.

Lemma issues_good os cur g t rs' : forall p rs L0, good p (os ++ [((g, t), rs)]) L0 cur -> inr p g -> cur g = Some (length os) ->
  exists p' L', nb_issues p g rs' = Some p' /\ p_n p' = p_n p /\ p_tag p' = p_tag p /\ (forall x, In x (p_done p) -> In x (p_done p')) /\ good p' (os ++ [((g, t), rs ++ rs')]) L' cur.
Proof.
  induction rs' as [|r rs' IH]; intros p rs L0 HG Hg Hc.
  - exists p, L0. rewrite app_nil_r. auto.
  - destruct (issue_good p os L0 cur g t rs r HG Hg Hc) as (p1 & L1 & E & A1 & A2 & AM & A3).
    destruct (IH p1 (rs ++ [r]) L1 A3) as (p' & L' & E' & B1 & BT & BM & B2); [unfold inr in *; rewrite A1; exact Hg|exact Hc|].
    exists p', L'. cbn [nb_issues]. rewrite E, E'. split; [reflexivity|]. split; [congruence|]. split; [congruence|]. split; [auto|]. rewrite <- app_assoc in B2. exact B2.
Qed.

Lemma start_good p os L cur rs : good p os L cur ->
  exists p' L' cur' h, nb_start p rs = Some (p', h) /\ p_n p' = p_n p /\ snd h = next_tag p /\ p_tag p' = next_tag p /\ (forall x, In x (p_done p) -> In x (p_done p')) /\ good p' (os ++ [(h, rs)]) L' cur'.
Proof.
  intros HG. destruct (handle_good p os L cur HG) as (p1 & L1 & cur1 & g & t & E & A1 & A2 & A3 & A4 & AT & AT' & AM & A5).
  destruct (issues_good os cur1 g t rs p1 [] L1 A5 A1 A2) as (p' & L' & E' & B1 & BT & BM & B2).
  exists p', L', cur1, (g, t). unfold nb_start. rewrite E. cbn [fst snd]. rewrite E'. split; [reflexivity|]. split; [congruence|]. split; [exact AT|]. split; [congruence|]. split; [auto|exact B2].
Qed.

(** Tags are given out in order. *)
Definition tagged (s : nb_state) : Prop :=
  (p_tag (fst s) + 1) mod 16777216 = Z.of_nat (length (snd s)) mod 16777216 /\
  forall k h rs, nth_error (snd s) k = Some (h, rs) -> snd h = Z.of_nat k mod 16777216.
Definition good_state (n : Z) (s : nb_state) : Prop := p_n (fst s) = n /\ tagged s /\ exists L cur, good (fst s) (snd s) L cur.

Lemma init_good n : 1 <= n -> good_state n (nb_init n, []).
Proof.
  intros Hn. split; [reflexivity|]. split; [split; [reflexivity|intros [|k]; discriminate]|]. exists (fun _ => []), (fun _ => None). cbn [fst snd]. split; [apply lists_init; exact Hn|].
  split; [discriminate|]. split; [intros [|k]; discriminate|]. split; [intros g i _ []|]. split; [intros _ g i g' i' r _ _ []|]. split; [intros r []|]. intros _ g i r _ [].
Qed.
Lemma step_good n s e : good_state n s -> exists s', nb_step s e = Some s' /\ good_state n s' /\
  (forall x, In x (p_done (fst s)) -> In x (p_done (fst s'))) /\
  (exists l, snd s' = snd s ++ l).
Proof.
  intros (HN & HT & L & cur & HG). destruct s as [p os]. cbn [fst snd] in *. destruct e as [rs|k|k ans]; cbn [nb_step fst snd].
  - destruct (start_good p os L cur rs HG) as (p' & L' & cur' & h & E & A1 & AT & AT' & AM & A2). rewrite E. eexists. split; [reflexivity|].
    assert (HT' : tagged (p', os ++ [(h, rs)])).
    { destruct HT as [T1 T2]. cbn [fst snd] in *. unfold next_tag in *. split; cbn [fst snd].
      - rewrite AT', app_length. cbn [length]. rewrite T1. rewrite Nat2Z.inj_add. rewrite Zplus_mod_idemp_l. reflexivity.
      - intros k h' rs' Hk. apply nth_error_snoc in Hk as [[Hk _]|[-> X]]; [eauto|]. injection X as -> ->. congruence. }
    split; [split; [cbn; congruence|]; split; [exact HT'|]; exists L', cur'; exact A2|]. split; [exact AM|]. cbn [snd]. eauto.
  - destruct (nth_error os k) as [((g & t) & rs)|] eqn:Ek.
    2:{ eexists; split; [reflexivity|]. split; [split; [exact HN|]; split; [exact HT|]; exists L, cur; exact HG|]. split; [auto|]. exists []. now rewrite app_nil_r. }
    pose proof HG as (G1 & _ & G3 & _). destruct (G3 k g t rs Ek) as [Hg _]. cbn [fst].
    destruct (wait_weaker p L g t G1 Hg) as (p' & L' & E & A1 & A2 & A3). rewrite E. eexists. split; [reflexivity|]. cbn [fst snd].
    split; [split; [cbn; destruct A2 as (A2 & _); congruence|]; split; [unfold tagged in *; cbn [fst snd] in *; destruct A2 as (_ & -> & _); exact HT|]; exists L', cur; cbn [fst snd]; eapply good_weaker; eauto|].
    split; [apply A2|]. exists []. now rewrite app_nil_r.
  - destruct (nth_error os k) as [((g & t) & rs)|] eqn:Ek.
    2:{ eexists; split; [reflexivity|]. split; [split; [exact HN|]; split; [exact HT|]; exists L, cur; exact HG|]. split; [auto|]. exists []. now rewrite app_nil_r. }
    pose proof HG as (G1 & _ & G3 & _). destruct (G3 k g t rs Ek) as [Hg _]. cbn [fst].
    destruct (test_spec ans p L g t G1 Hg) as (p' & L' & b & E & A1 & A2 & A3). rewrite E. eexists. split; [reflexivity|]. cbn [fst snd].
    split; [split; [cbn; destruct A2 as (A2 & _); congruence|]; split; [unfold tagged in *; cbn [fst snd] in *; destruct A2 as (_ & -> & _); exact HT|]; exists L', cur; cbn [fst snd]; eapply good_weaker; eauto|].
    split; [apply A2|]. exists []. now rewrite app_nil_r.
Qed.
Lemma run_good n es : forall s, good_state n s -> exists s', nb_run s es = Some s' /\ good_state n s' /\
  (forall x, In x (p_done (fst s)) -> In x (p_done (fst s'))) /\ (exists l, snd s' = snd s ++ l).
Proof.
  induction es as [|e es IH]; intros s HG; [eexists; split; [reflexivity|]; split; [exact HG|]; split; [auto|]; exists []; now rewrite app_nil_r|].
  cbn [nb_run]. destruct (step_good n s e HG) as (s1 & E & HG1 & M1 & l1 & P1). rewrite E.
  destruct (IH s1 HG1) as (s2 & E2 & HG2 & M2 & l2 & P2). exists s2. split; [exact E2|]. split; [exact HG2|]. split; [auto|].
  exists (l1 ++ l2). rewrite P2, P1. now rewrite app_assoc.
Qed.
