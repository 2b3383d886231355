(** The table of handles of the MA allocator. *)
From Coq Require Import ZArith List Lia Bool Permutation.
From Verif Require Import SpecMa MBase MMa LRadix LDist LGroup.

Definition is_alloc (e : Z * tstate) : bool := match snd e with Allocated => true | _ => false end.
Definition cnt (tab : list (Z * tstate)) : Z := Z.of_nat (length (filter is_alloc tab)).

(** The table holds the handles and addresses [A]. *)
Definition tab_ok (tab : list (Z * tstate)) (entries next : Z) (A : list (Z * Z)) : Prop :=
  (forall h p, table_lookup h tab = Some p <-> In (h, p) A) /\ NoDup (map fst A) /\
  entries = Z.of_nat (length A) /\ entries = cnt tab /\ (tab = [] \/ 0 <= next < Z.of_nat (length tab)).

Lemma tab_ok_perm tab e n A B : Permutation A B -> tab_ok tab e n A -> tab_ok tab e n B.
Proof.
  intros P (H1 & H2 & H3 & H4 & H5). split; [|split; [|split; [|split]]]; auto.
  - intros h p. rewrite H1. split; apply Permutation_in; auto using Permutation_sym.
  - eapply Permutation_NoDup; [|exact H2]. now apply Permutation_map.
  - now rewrite <- (Permutation_length P).
Qed.

Lemma zget_split {A} (l : list A) i a : zget l i = Some a -> exists l1 l2, l = l1 ++ a :: l2 /\ i = Z.of_nat (length l1).
Proof.
  intros H. pose proof (zget_inv _ _ _ H). unfold zget in H. destruct (Z.ltb_spec i 0); [lia|]. apply nth_error_split in H as (l1 & l2 & -> & E). exists l1, l2. split; [reflexivity|lia].
Qed.
Lemma cnt_app A B : cnt (A ++ B) = cnt A + cnt B.
Proof. unfold cnt. rewrite filter_app, app_length. lia. Qed.
Lemma cnt_cons e A : cnt (e :: A) = (if is_alloc e then 1 else 0) + cnt A.
Proof. unfold cnt. cbn [filter]. destruct (is_alloc e); cbn [length]; lia. Qed.
Lemma cnt_repeat n d : cnt (repeat (d, Unused) n) = 0.
Proof. induction n; cbn [repeat]; [reflexivity|]. now rewrite cnt_cons, IHn. Qed.
Lemma cnt_le tab : cnt tab <= Z.of_nat (length tab).
Proof. induction tab as [|e tab IH]; [unfold cnt; cbn; lia|]. rewrite cnt_cons. cbn [length]. destruct (is_alloc e); lia. Qed.
Lemma cnt_lt tab : cnt tab < Z.of_nat (length tab) -> exists j e, zget tab j = Some e /\ is_alloc e = false.
Proof.
  induction tab as [|e tab IH]; [unfold cnt; cbn; lia|]. rewrite cnt_cons. cbn [length]. intros H. destruct (is_alloc e) eqn:A.
  - destruct IH as (j & e' & G & F); [lia|]. exists (j + 1), e'. split; [|exact F]. pose proof (zget_inv _ _ _ G). rewrite zget_cons by lia. now replace (j + 1 - 1) with j by lia.
  - exists 0, e. split; [apply zget_0|exact A].
Qed.

Lemma find_slot_ok tab : forall n i, 0 <= i < Z.of_nat (length tab) ->
  (exists k e, 0 <= k < Z.of_nat n /\ zget tab ((i + k) mod Z.of_nat (length tab)) = Some e /\ is_alloc e = false) ->
  exists r e, find_slot n i tab = Some (Some r) /\ zget tab r = Some e /\ is_alloc e = false.
Proof.
  induction n as [|n IH]; intros i Hi (k & e & Hk & G & F); [lia|]. cbn [find_slot].
  rewrite (zget_Some tab i (0, Unused)) by lia. pose proof (zget_Some tab i (0, Unused) Hi) as GI. set (ei := nth (Z.to_nat i) tab (0, Unused)) in *. unfold is_alloc in *.
  destruct (snd ei) eqn:EI; [exists i, ei; rewrite EI; auto| |exists i, ei; rewrite EI; auto].
  apply IH; [apply Z.mod_pos_bound; lia|]. destruct (Z.eq_dec k 0) as [->|K].
  - rewrite Z.add_0_r, Z.mod_small in G by lia. rewrite G in GI. injection GI as ->. rewrite EI in F. discriminate.
  - exists (k - 1), e. repeat split; try lia; auto. rewrite Zplus_mod_idemp_l. now replace (i + 1 + (k - 1)) with (i + k) by lia.
Qed.

Lemma lookup_mid l1 e l2 h : table_lookup h (l1 ++ e :: l2) = if h =? Z.of_nat (length l1) then (if is_alloc e then Some (fst e) else None) else table_lookup h (l1 ++ (0, Unused) :: l2).
Proof.
  unfold table_lookup. destruct (Z.eqb_spec h (Z.of_nat (length l1))) as [->|N].
  - rewrite zget_mid by reflexivity. unfold is_alloc. destruct e as [d []]; reflexivity.
  - destruct (Z.lt_ge_cases h (Z.of_nat (length l1))) as [L|L].
    + now rewrite !zget_app1 by lia.
    + rewrite !zget_app2 by lia. rewrite !zget_cons by lia. reflexivity.
Qed.
Lemma lookup_app_unused tab n h : table_lookup h (tab ++ repeat (0, Unused) n) = table_lookup h tab.
Proof.
  unfold table_lookup. destruct (Z.lt_ge_cases h (Z.of_nat (length tab))) as [L|L].
  - now rewrite zget_app1 by lia.
  - rewrite zget_app2 by lia. assert (G : zget tab h = None). { unfold zget. destruct (Z.ltb_spec h 0); [reflexivity|]. apply nth_error_None. lia. }
    rewrite G. destruct (zget (repeat _ n) _) as [e|] eqn:R; [|reflexivity]. apply zget_In, repeat_spec in R. now subst e.
Qed.

(** A new entry in a free slot. *)
Lemma tab_put tab entries next A r e data : tab_ok tab entries next A -> zget tab r = Some e -> is_alloc e = false ->
  exists tab', zset tab r (data, Allocated) = Some tab' /\ tab_ok tab' (entries + 1) ((r + 1) mod Z.of_nat (length tab)) ((r, data) :: A) /\ ~ In r (map fst A).
Proof.
  intros (H1 & H2 & H3 & H4 & H5) G F. destruct (zget_split _ _ _ G) as (l1 & l2 & -> & ->). rewrite (zset_mid l1 e _ l2) by reflexivity. eexists. split; [reflexivity|].
  assert (NI : ~ In (Z.of_nat (length l1)) (map fst A)).
  { intros I. apply in_map_iff in I as ([h p] & E & I). cbn [fst] in E. subst h. apply H1 in I. rewrite lookup_mid, Z.eqb_refl, F in I. discriminate. }
  split; [|exact NI]. split; [|split; [|split; [|split]]].
  - intros h p. rewrite lookup_mid. destruct (Z.eqb_spec h (Z.of_nat (length l1))) as [->|N].
    + cbn [is_alloc snd fst]. split; [intros [= ->]; now left|]. intros [[= ->]|I]; [reflexivity|]. exfalso. apply NI. now apply (in_map fst) in I.
    + specialize (H1 h p). rewrite lookup_mid in H1. destruct (Z.eqb_spec h (Z.of_nat (length l1))); [easy|]. rewrite H1. cbn [In]. split; [auto|]. intros [E|I]; [|exact I]; injection E as E _; congruence.
  - cbn [map fst]. constructor; auto.
  - cbn [length]. lia.
  - rewrite H4, !cnt_app, !cnt_cons, F. cbn [is_alloc snd]. lia.
  - right. rewrite !app_length. cbn [length]. apply Z.mod_pos_bound. lia.
Qed.

(** table.c 86-147, with memory for the table. *)
Lemma table_allocate_ok s A data : tab_ok (m_tab s) (m_entries s) (m_next s) A -> Z.of_nat (length A) < 2 ^ 27 ->
  exists tab e n h, table_allocate true data s = Some (set_table s tab e n, Some h) /\ tab_ok tab e n ((h, data) :: A) /\ ~ In h (map fst A).
Proof.
  intros (H1 & H2 & H3 & H4 & H5) HL. unfold table_allocate. cbv zeta. set (cap := Z.of_nat (length (m_tab s))) in *.
  assert (GR : exists tab next, (if cap <=? m_entries s then
       let cap' := if cap =? 0 then 32 else 2 * cap in
       if 2 ^ 32 <=? cap' * 16 then None
       else if true then Some (Some (m_tab s ++ repeat (0, Unused) (Z.to_nat (cap' - cap)), cap)) else Some None
     else Some (Some (m_tab s, m_next s))) = Some (Some (tab, next)) /\ tab_ok tab (m_entries s) next A /\ cnt tab < Z.of_nat (length tab) /\ 0 <= next < Z.of_nat (length tab)).
  { destruct (Z.leb_spec cap (m_entries s)) as [L|L].
    - cbn zeta. set (cap' := if cap =? 0 then 32 else 2 * cap). assert (C : cap < cap' /\ cap' < 2 ^ 28). { unfold cap'. destruct (Z.eqb_spec cap 0); lia. }
      destruct (Z.leb_spec (2 ^ 32) (cap' * 16)); [lia|]. eexists _, _. split; [reflexivity|].
      assert (LN : Z.of_nat (length (m_tab s ++ repeat (0, Unused) (Z.to_nat (cap' - cap)))) = cap') by (rewrite app_length, repeat_length; lia).
      assert (CN : cnt (m_tab s ++ repeat (0, Unused) (Z.to_nat (cap' - cap))) = cnt (m_tab s)) by (rewrite cnt_app, cnt_repeat; lia).
      assert (CL : cnt (m_tab s) <= cap). { unfold cap. apply cnt_le. }
      rewrite LN, CN. split; [|lia]. split; [|split; [|split; [|split]]]; auto; [intros h p; rewrite lookup_app_unused; apply H1|lia|].
      right. rewrite LN. lia.
    - exists (m_tab s), (m_next s). split; [reflexivity|]. destruct H5 as [H5|H5]; [unfold cap in L; rewrite H5 in L; cbn in L; lia|].
      split; [|split; [fold cap; lia|exact H5]]. split; [|split; [|split; [|split]]]; auto. }
  cbv zeta in GR. destruct GR as (tab & next & -> & TO & CL & NX).
  destruct (cnt_lt tab CL) as (j & ej & Gj & Fj). pose proof (zget_inv _ _ _ Gj) as Bj.
  destruct (find_slot_ok tab (length tab) next NX) as (r & e & -> & G & F).
  { exists ((j - next) mod Z.of_nat (length tab)), ej. split; [apply Z.mod_pos_bound; lia|]. split; [|exact Fj]. rewrite Zplus_mod_idemp_r. replace (next + (j - next)) with j by lia. now rewrite Z.mod_small by lia. }
  destruct (tab_put _ _ _ _ _ _ data TO G F) as (tab' & -> & TO' & NI). eexists _, _, _, r. split; [reflexivity|]. split; auto.
Qed.

(** table.c 157-169. *)
Lemma table_deallocate_ok s A1 h p A2 : tab_ok (m_tab s) (m_entries s) (m_next s) (A1 ++ (h, p) :: A2) ->
  exists tab e, table_deallocate h s = Some (set_table s tab e (m_next s)) /\ tab_ok tab e (m_next s) (A1 ++ A2).
Proof.
  intros (H1 & H2 & H3 & H4 & H5). assert (L : table_lookup h (m_tab s) = Some p) by (apply H1, in_or_app; right; now left).
  unfold table_deallocate. unfold table_lookup in L. destruct (zget (m_tab s) h) as [[d st]|] eqn:G; [|discriminate]. destruct st; try discriminate. injection L as ->.
  destruct (zget_split _ _ _ G) as (l1 & l2 & ET & EH). rewrite ET in *. rewrite (zset_mid l1 _ _ l2 h EH). eexists _, _. split; [reflexivity|].
  rewrite map_app in H2. cbn [map fst] in H2. pose proof (NoDup_remove_2 _ _ _ H2) as NI. apply NoDup_remove_1 in H2. rewrite <- map_app in *.
  split; [|split; [|split; [|split]]]; auto.
  - intros h' p'. rewrite lookup_mid. destruct (Z.eqb_spec h' (Z.of_nat (length l1))) as [->|N].
    + cbn [is_alloc snd fst]. split; [discriminate|]. intros I. exfalso. apply NI. rewrite EH. now apply (in_map fst) in I.
    + specialize (H1 h' p'). rewrite lookup_mid in H1. destruct (Z.eqb_spec h' (Z.of_nat (length l1))); [easy|]. rewrite H1. rewrite !in_app_iff. cbn [In]. split; [|tauto]. intros [I|[[= <- <-]|I]]; auto. congruence.
  - rewrite H3, !app_length. cbn [length]. lia.
  - rewrite H4, !cnt_app, !cnt_cons. cbn [is_alloc snd]. lia.
  - right. destruct H5 as [H5|H5]; [now destruct l1|]. rewrite !app_length in *. exact H5.
Qed.

(** table.c 209-221. *)
Lemma lookup_assoc_ok data tab : forall i, match lookup_assoc i data tab with
  | Some h => i <= h /\ table_lookup (h - i) tab = Some data
  | None => forall j, table_lookup j tab <> Some data end.
Proof.
  induction tab as [|[d st] tab IH]; intros i; cbn [lookup_assoc].
  - intros j. unfold table_lookup, zget. destruct (j <? 0); [discriminate|]. destruct (Z.to_nat j); discriminate.
  - assert (NX : match lookup_assoc (i + 1) data tab with Some h => i <= h /\ table_lookup (h - i) ((d, st) :: tab) = Some data | None => st <> Allocated \/ d <> data -> forall j, table_lookup j ((d, st) :: tab) <> Some data end).
    { specialize (IH (i + 1)). destruct (lookup_assoc (i + 1) data tab) as [h|].
      - destruct IH as [I1 I2]. split; [lia|]. unfold table_lookup in *. rewrite zget_cons by lia. replace (h - i - 1) with (h - (i + 1)) by lia. exact I2.
      - intros ND j. destruct (Z.lt_trichotomy j 0) as [J|[->|J]].
        + unfold table_lookup. now rewrite zget_neg.
        + unfold table_lookup. rewrite zget_0. destruct st; try discriminate. destruct ND; congruence.
        + unfold table_lookup in *. rewrite zget_cons by lia. apply IH. }
    destruct st; [destruct (lookup_assoc (i + 1) data tab); [exact NX|apply NX; left; discriminate]| |destruct (lookup_assoc (i + 1) data tab); [exact NX|apply NX; left; discriminate]].
    destruct (Z.eqb_spec d data) as [->|N]; [split; [lia|]; unfold table_lookup; now rewrite Z.sub_diag, zget_0|].
    destruct (lookup_assoc (i + 1) data tab); [exact NX|apply NX; now right].
Qed.
Lemma mh_free_ok s x h A : tab_ok (m_tab s) (m_entries s) (m_next s) ((h, a_at x) :: A) -> NoDup (map snd ((h, a_at x) :: A)) ->
  exists tab e, mh_free s x = Some (set_table s tab e (m_next s)) /\ tab_ok tab e (m_next s) A.
Proof.
  intros TO ND. unfold mh_free. pose proof (lookup_assoc_ok (a_at x) (m_tab s) 0) as LA. destruct (lookup_assoc 0 (a_at x) (m_tab s)) as [h'|].
  - destruct LA as [_ LA]. rewrite Z.sub_0_r in LA. apply TO in LA. assert (h' = h).
    { destruct LA as [[= <-]|I]; [reflexivity|]. inversion ND as [|? ? N _]; subst. exfalso. apply N. now apply (in_map snd) in I. }
    subst h'. exact (table_deallocate_ok s [] h (a_at x) A TO).
  - exfalso. apply (LA h). apply TO. now left.
Qed.
