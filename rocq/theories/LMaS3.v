(** The stack of the MA allocator, and runs of calls. *)
From Coq Require Import ZArith List Lia Bool Permutation.
From Verif Require Import SpecMa MBase MMa LMa LMaH LMaT LMaS LMaS2.

Lemma free_all_ok : forall KA R s, tab_ok (m_tab s) (m_entries s) (m_next s) (map atof (KA ++ R)) -> NoDup (map a_at (map snd (KA ++ R))) ->
  exists tab e, free_all s (map snd KA) = Some (set_table s tab e (m_next s)) /\ tab_ok tab e (m_next s) (map atof R).
Proof.
  induction KA as [|[h x] KA IH]; intros R s TO ND; cbn [map free_all app].
  - exists (m_tab s), (m_entries s). split; [now destruct s|exact TO].
  - cbn [app map] in TO, ND. unfold atof at 1 in TO. cbn [fst snd] in *.
    destruct (mh_free_ok s x h _ TO) as (tab & e & -> & TO').
    { cbn [map snd]. rewrite map_map in *. exact ND. }
    destruct (IH R (set_table s tab e (m_next s)) TO') as (tab' & e' & -> & TO''); [now inversion ND|]. exists tab', e'. split; [reflexivity|exact TO''].
Qed.

Section S.
Variable E : ma_env.
Hypothesis HE : ma_env_ok E.
Notation sz := (e_size E).
Notation bs := (e_base E).
Notation inv := (inv E).

Lemma push_ok b s L K KS T dt ne : inv b s L K KS T -> in_bytes E (Push dt ne true) -> step_res E b s L K KS (Push dt ne true) (ma_step E s (Push dt ne true)).
Proof.
  intros I HB. cbn [ma_step]. unfold push_stack.
  assert (ST : forall v, step_res E b s L K KS (Push dt ne true) (Some (s, Ret false v))) by (intros v; eapply step_same; [exact I|cbn; discriminate|reflexivity]).
  unfold mt_valid. destruct (Z.leb_spec 1000 dt); [|apply ST]. destruct (Z.leb_spec dt 1016); [|apply ST]. cbn [andb negb]. destruct (Z.ltb_spec ne 0) as [|Hn]; [apply ST|].
  cbn [in_bytes] in HB. specialize (HB ltac:(lia) Hn). set (d := dt - 1000) in *. assert (Hd : 0 <= d < 17) by (unfold d; lia). pose proof (i_al _ _ _ _ _ _ _ I) as Hk. set (k := m_align s) in *.
  destruct (inv_ends _ _ _ _ _ _ _ I) as (E1 & E2 & E3). pose proof (i_eos _ _ _ _ _ _ _ I) as EO. pose proof (i_seg _ _ _ _ _ _ _ I) as S0. pose proof (i_d8s _ _ _ _ _ _ _ I) as S8.
  rewrite (balloc_before_ok E HE) by (auto; lia). cbn [fst snd]. destruct (nb_before_ok E HE k d ne (m_sp s) Hd Hk Hn S8) as (N1 & N2 & N3 & N4 & N5). set (nb := nb_before E k d ne (m_sp s)) in *. set (c := cs_before E k d (m_sp s - 4 - ne * sz d)) in *.
  rewrite (u64_small (m_sp s - m_hp s)) by lia. destruct (Z.ltb_spec (m_sp s - m_hp s) nb) as [|FIT]; [apply ST|]. rewrite (u64_small (m_sp s - nb)) by lia.
  assert (L0 : 0 <= ne * sz d) by (pose proof (sz_pos E HE d Hd); nia). rewrite (u64_small c) by lia.
  set (z := Ad (m_sp s - nb) d ne c nb). set (s1 := set_stack s (m_sp s - nb) (z :: m_sused s)).
  destruct (table_allocate_ok s1 (map atof (K ++ KS)) (m_sp s - nb)) as (tab & e & n & h & TA & TO & NI).
  { exact (i_tab _ _ _ _ _ _ _ I). } { rewrite map_length. pose proof (inv_count _ _ _ _ _ _ _ I). lia. }
  rewrite TA. cbn [snd fst]. rewrite fst_atof in NI. destruct (inv_handles _ _ _ _ _ _ _ I) as (NH & HA & _).
  eexists _, (Ret true h), K, ((h, z) :: KS), T. split; [reflexivity|]. split; [cbn; rewrite HA; auto|]. split; [|split; [split; [reflexivity|split; reflexivity]|]].
  - split; cbn; try exact (i_lh _ _ _ _ _ _ _ I); try exact (i_hu _ _ _ _ _ _ _ I); try exact (i_chain _ _ _ _ _ _ _ I); try exact (i_free _ _ _ _ _ _ _ I); try exact (i_perm _ _ _ _ _ _ _ I); try exact (i_last _ _ _ _ _ _ _ I); try exact (i_sep _ _ _ _ _ _ _ I); try apply (i_seg _ _ _ _ _ _ _ I); try apply (i_d8 _ _ _ _ _ _ _ I); try apply (i_eos _ _ _ _ _ _ _ I); try apply (i_size _ _ _ _ _ _ _ I); try apply (i_al _ _ _ _ _ _ _ I); try apply (i_pc _ _ _ _ _ _ _ I).
    + rewrite (i_ls _ _ _ _ _ _ _ I). unfold lvof. cbn [fst snd z a_dt a_ne]. repeat f_equal. unfold d. lia.
    + now rewrite (i_su _ _ _ _ _ _ _ I).
    + repeat split; auto. replace (m_sp s - nb + nb) with (m_sp s) by lia. apply (i_stk _ _ _ _ _ _ _ I).
    + pose proof (i_lay _ _ _ _ _ _ _ I) as LY. rewrite !map_app in *. rewrite !Forall_app in *. split; [tauto|]. cbn [map snd]. constructor; [|tauto]. unfold lay. cbn [z a_at a_dt a_ne a_cs a_nb]. repeat split; try lia.
      apply (place_base E HE k d); auto. now apply cs_before_ok.
    + now apply Z.divide_sub_r.
    + lia.
    + eapply tab_ok_perm; [|exact TO]. rewrite !map_app. cbn [map]. unfold atof at 3. cbn [fst snd z a_at]. apply Permutation_middle.
  - apply kept_incl; [exact NH|]. intros [h' x'] HX HH. rewrite in_app_iff in *. cbn [In] in HX. destruct HX as [HX|[HX|HX]]; auto. injection HX as <- <-. cbn [fst] in HH. contradiction.
Qed.

Lemma pop_ok b s L K KS T h : inv b s L K KS T -> step_res E b s L K KS (Pop h) (ma_step E s (Pop h)).
Proof.
  intros I. cbn [ma_step]. unfold pop_stack. rewrite (i_su _ _ _ _ _ _ _ I). destruct (inv_handles _ _ _ _ _ _ _ I) as (NH & _ & _ & HS).
  destruct (mh2ad_ok _ _ _ _ _ _ _ h KS I) as [(x & HX & ->)|[N ->]]; [intros e HE'; apply in_or_app; now right| |].
  2: { eapply step_same; [exact I| |reflexivity]. cbn [expected]. split; [discriminate|]. intros (y & t & EL & EH). exfalso. apply N. rewrite <- HS, EL. left. exact EH. }
  destruct KS as [|[h0 x0] KS]; [easy|]. pose proof (i_stk _ _ _ _ _ _ _ I) as CH. cbn [map chain snd] in CH. destruct CH as (C1 & C2 & C3 & C4).
  assert (HD : a_at x = m_sp s -> (h, x) = (h0, x0)).
  { intros EA. destruct HX as [HX|HX]; [now symmetry|]. exfalso. assert (H' : In (true, x) (map (fun e : Z * ad => (true, snd e)) KS)) by (apply (in_map (fun e => (true, snd e))) in HX; exact HX). destruct (chain_in _ _ _ _ _ C4 H'). lia. }
  destruct (Z.eqb_spec (a_at x) (m_sp s)) as [EA|NA]; cbn [negb].
  - specialize (HD EA). injection HD as <- <-. cbn [map snd list_delete]. rewrite Z.eqb_refl.
    pose proof (inv_ends _ _ _ _ _ _ _ I) as (E1 & E2 & E3). pose proof (i_eos _ _ _ _ _ _ _ I). pose proof (i_seg _ _ _ _ _ _ _ I). pose proof (chain_le _ _ _ C4). rewrite u64_small by lia. set (s1 := set_stack s (m_sp s + a_nb x) (map snd KS)).
    destruct (table_deallocate_ok s1 (map atof K) h (a_at x) (map atof KS)) as (tab & e & TD & TO). { cbn. pose proof (i_tab _ _ _ _ _ _ _ I) as TO. rewrite map_app in TO. exact TO. }
    rewrite TD. eexists _, _, K, KS, T. split; [reflexivity|]. split; [cbn [expected]|]. { split; [|auto]. intros _. rewrite (i_ls _ _ _ _ _ _ _ I). cbn [map]. eauto. }
    split; [|split; [repeat split|]].
    + split; cbn; try exact (i_lh _ _ _ _ _ _ _ I); try exact (i_hu _ _ _ _ _ _ _ I); try exact (i_chain _ _ _ _ _ _ _ I); try exact (i_free _ _ _ _ _ _ _ I); try exact (i_perm _ _ _ _ _ _ _ I); try exact (i_last _ _ _ _ _ _ _ I); try exact (i_sep _ _ _ _ _ _ _ I); try apply (i_seg _ _ _ _ _ _ _ I); try apply (i_d8 _ _ _ _ _ _ _ I); try apply (i_eos _ _ _ _ _ _ _ I); try apply (i_size _ _ _ _ _ _ _ I); try apply (i_al _ _ _ _ _ _ _ I); try apply (i_pc _ _ _ _ _ _ _ I); auto.
      * now rewrite (i_ls _ _ _ _ _ _ _ I).
      * pose proof (i_lay _ _ _ _ _ _ _ I) as LY. rewrite !map_app in *. rewrite !Forall_app in *. cbn [map snd] in LY. destruct LY as [L1 L2]. split; [exact L1|]. now inversion L2.
      * apply Z.divide_add_r; [apply (i_d8s _ _ _ _ _ _ _ I)|exact C3].
      * lia.
      * now rewrite map_app.
    + apply kept_incl; [exact NH|]. intros w HW _. rewrite in_app_iff in *. cbn [In]. tauto.
  - eapply step_same; [exact I| |reflexivity]. cbn [expected]. split; [discriminate|]. intros (y & t & EL & EH). exfalso. apply NA. rewrite (i_ls _ _ _ _ _ _ _ I) in EL. cbn [map] in EL. injection EL as EL _. subst y. cbn [lvof fst] in EH. subst h0.
    pose proof (nodup_inj fst _ (h, x) (h, x0) NH ltac:(apply in_or_app; now right) ltac:(apply in_or_app; right; now left) eq_refl) as Q. injection Q as ->. exact C1.
Qed.

Lemma chop_ok b s L K KS T h : inv b s L K KS T -> step_res E b s L K KS (Chop h) (ma_step E s (Chop h)).
Proof.
  intros I. cbn [ma_step]. unfold chop_stack. rewrite (i_su _ _ _ _ _ _ _ I). destruct (inv_handles _ _ _ _ _ _ _ I) as (NH & _ & _ & HS).
  destruct (mh2ad_ok _ _ _ _ _ _ _ h KS I) as [(x & HX & ->)|[N ->]]; [intros e HE'; apply in_or_app; now right| |].
  2: { eapply step_same; [exact I| |reflexivity]. cbn [expected]. rewrite HS. split; [discriminate|contradiction]. }
  destruct (in_split _ _ HX) as (KS1 & KS2 & EK). pose proof (i_stk _ _ _ _ _ _ _ I) as CH. rewrite EK, map_app in CH. apply chain_app in CH as (p & C1 & C2). cbn [map chain snd] in C2. destruct C2 as (C2 & C3 & C4 & C5).
  assert (HLO : forall y, In y (map snd KS1) -> a_at y < a_at x).
  { intros y HY. apply in_map_iff in HY as (e & <- & HY). apply (in_map (fun e => (true, snd e))) in HY. destruct (chain_in _ _ _ _ _ C1 HY). lia. }
  assert (HHI : forall y, In y (map snd KS2) -> a_at x < a_at y).
  { intros y HY. apply in_map_iff in HY as (e & <- & HY). apply (in_map (fun e => (true, snd e))) in HY. destruct (chain_in _ _ _ _ _ C5 HY). lia. }
  assert (F1 : filter (fun y => a_at y <=? a_at x) (map snd KS) = map snd (KS1 ++ [(h, x)])).
  { rewrite EK, !map_app, filter_app. cbn [map snd filter]. rewrite Z.leb_refl. f_equal; [|f_equal].
    - apply filter_all. intros y HY. specialize (HLO y HY). destruct (Z.leb_spec (a_at y) (a_at x)); [reflexivity|lia].
    - apply filter_none. intros y HY. specialize (HHI y HY). destruct (Z.leb_spec (a_at y) (a_at x)); [lia|reflexivity]. }
  assert (F2 : filter (fun y => negb (a_at y <=? a_at x)) (map snd KS) = map snd KS2).
  { rewrite EK, !map_app, filter_app. cbn [map snd filter]. rewrite Z.leb_refl. cbn [negb].
    rewrite (filter_none _ (map snd KS1)); [cbn [app]; apply filter_all|]; intros y HY; [specialize (HHI y HY); destruct (Z.leb_spec (a_at y) (a_at x)); [lia|reflexivity]|specialize (HLO y HY); destruct (Z.leb_spec (a_at y) (a_at x)); [reflexivity|lia]]. }
  rewrite F1, F2.
  assert (PM : Permutation (K ++ KS) ((KS1 ++ [(h, x)]) ++ (K ++ KS2))).
  { rewrite EK. replace (KS1 ++ (h, x) :: KS2) with ((KS1 ++ [(h, x)]) ++ KS2) by (now rewrite <- app_assoc). rewrite !app_assoc. apply Permutation_app_tail. rewrite <- (app_assoc K). apply Permutation_app_comm. }
  destruct (free_all_ok (KS1 ++ [(h, x)]) (K ++ KS2) s) as (tab & e & FA & TO).
  { eapply tab_ok_perm; [|apply (i_tab _ _ _ _ _ _ _ I)]. now apply Permutation_map. }
  { eapply Permutation_NoDup; [|apply (inv_nodup _ _ _ _ _ _ _ I)]. now do 2 apply Permutation_map. }
  rewrite FA. pose proof (inv_ends _ _ _ _ _ _ _ I) as (E1 & E2 & E3). pose proof (i_eos _ _ _ _ _ _ _ I). pose proof (i_seg _ _ _ _ _ _ _ I). pose proof (chain_le _ _ _ C5). pose proof (chain_le _ _ _ C1). rewrite u64_small by lia.
  eexists _, _, K, KS2, T. split; [reflexivity|]. split; [cbn [expected]; rewrite HS; split; [intros _; apply (in_map fst) in HX; exact HX|auto]|]. split; [|split; [repeat split|]].
  - split; cbn; try exact (i_lh _ _ _ _ _ _ _ I); try exact (i_hu _ _ _ _ _ _ _ I); try exact (i_chain _ _ _ _ _ _ _ I); try exact (i_free _ _ _ _ _ _ _ I); try exact (i_perm _ _ _ _ _ _ _ I); try exact (i_last _ _ _ _ _ _ _ I); try exact (i_sep _ _ _ _ _ _ _ I); try apply (i_seg _ _ _ _ _ _ _ I); try apply (i_d8 _ _ _ _ _ _ _ I); try apply (i_eos _ _ _ _ _ _ _ I); try apply (i_size _ _ _ _ _ _ _ I); try apply (i_al _ _ _ _ _ _ _ I); try apply (i_pc _ _ _ _ _ _ _ I); auto.
    + rewrite (i_ls _ _ _ _ _ _ _ I), EK, map_app. cbn [map]. unfold lvof at 2. cbn [fst snd]. apply chop_mid. rewrite handles_lvof. intros HI. rewrite EK in NH. rewrite !map_app in NH. cbn [map fst] in NH. rewrite app_assoc in NH. apply NoDup_remove_2 in NH. apply NH. apply in_or_app. left. apply in_or_app. now right.
    + rewrite C2. exact C5.
    + pose proof (i_lay _ _ _ _ _ _ _ I) as LY. rewrite EK in LY. rewrite !map_app in *. rewrite !Forall_app in *. cbn [map snd] in LY. destruct LY as [L1 [L2 L3]]. split; [exact L1|]. now inversion L3.
    + apply Z.divide_add_r; [|exact C4]. rewrite C2. apply (chain_div _ _ _ C1), (i_d8s _ _ _ _ _ _ _ I).
    + lia.
  - apply kept_incl; [exact NH|]. intros w HW _. rewrite EK. rewrite !in_app_iff in *. cbn [In]. tauto.
Qed.

Lemma align_ok s L K KS T k : inv false s L K KS T -> step_res E false s L K KS (SetAlign k) (ma_step E s (SetAlign k)).
Proof.
  intros I. cbn [ma_step]. unfold set_numalign. destruct (Z.ltb_spec k 0), (Z.ltb_spec 30 k); cbn [orb]; try (eapply step_same; [exact I| |reflexivity]; cbn [expected]; split; [discriminate|lia]).
  eexists _, _, K, KS, T. split; [reflexivity|]. split; [cbn [expected]; split; [lia|auto]|]. split; [|split; [repeat split|apply kept_incl; [apply (inv_handles _ _ _ _ _ _ _ I)|auto]]].
  destruct I. split; cbn; auto. discriminate.
Qed.
Lemma align_same b s L K KS T k : inv b s L K KS T -> ~ 0 <= k <= 30 -> step_res E b s L K KS (SetAlign k) (ma_step E s (SetAlign k)).
Proof.
  intros I N. cbn [ma_step]. unfold set_numalign. destruct (Z.ltb_spec k 0), (Z.ltb_spec 30 k); cbn [orb]; try lia; eapply step_same; try exact I; try reflexivity; cbn [expected]; split; try discriminate; lia.
Qed.

Lemma get_ok b s L K KS T h : inv b s L K KS T ->
  (exists x, In (h, x) (K ++ KS) /\ get_pointer s h = Ret true (a_cs x) /\ get_index E s h = Some (Ret true (u64 (a_cs x - bs (a_dt x)) / sz (a_dt x)))) \/
  (~ In h (map fst (K ++ KS)) /\ get_pointer s h = Ret false 0 /\ get_index E s h = Some (Ret false 0)).
Proof.
  intros I. unfold get_pointer, get_index. rewrite (i_hu _ _ _ _ _ _ _ I), (i_su _ _ _ _ _ _ _ I), <- map_app.
  destruct (mh2ad_ok _ _ _ _ _ _ _ h (K ++ KS) I) as [(x & HX & ->)|[N ->]]; [auto| |right; auto].
  left. exists x. split; [exact HX|]. split; [reflexivity|]. destruct (inv_in _ _ _ _ _ _ _ x I) as (_ & _ & _ & D & _); [apply (in_map snd) in HX; exact HX|]. pose proof (sz_pos E HE _ D). destruct (Z.eqb_spec (sz (a_dt x)) 0); [lia|reflexivity].
Qed.
Lemma getptr_ok b s L K KS T h : inv b s L K KS T -> step_res E b s L K KS (GetPtr h) (ma_step E s (GetPtr h)).
Proof.
  intros I. cbn [ma_step]. destruct (inv_handles _ _ _ _ _ _ _ I) as (NH & HA & _). destruct (get_ok _ _ _ _ _ _ h I) as [(x & HX & -> & _)|(N & -> & _)].
  - eexists _, _, K, KS, T. split; [reflexivity|]. split; [cbn [expected]; rewrite HA; split; [intros _; apply (in_map fst) in HX; exact HX|auto]|]. split; [exact I|]. split; [repeat split|]. apply kept_incl; auto.
  - eapply step_same; [exact I| |reflexivity]. cbn [expected]. rewrite HA. split; [discriminate|contradiction].
Qed.
Lemma getidx_ok b s L K KS T h : inv b s L K KS T -> step_res E b s L K KS (GetIndex h) (ma_step E s (GetIndex h)).
Proof.
  intros I. cbn [ma_step]. destruct (inv_handles _ _ _ _ _ _ _ I) as (NH & HA & _). destruct (get_ok _ _ _ _ _ _ h I) as [(x & HX & _ & ->)|(N & _ & ->)].
  - eexists _, _, K, KS, T. split; [reflexivity|]. split; [cbn [expected]; rewrite HA; split; [intros _; apply (in_map fst) in HX; exact HX|auto]|]. split; [exact I|]. split; [repeat split|]. apply kept_incl; auto.
  - eapply step_same; [exact I| |reflexivity]. cbn [expected]. rewrite HA. split; [discriminate|contradiction].
Qed.

(** The calls for which the invariant with [b] is kept. *)
Definition op_ok (b : bool) (o : ma_op) : Prop :=
  match o with
  | Alloc _ _ room | Push _ _ room => room = true
  | FreePiece _ _ => b = true
  | SetAlign _ => b = false
  | _ => True
  end.
Lemma step_ok b s L K KS T o : inv b s L K KS T -> in_bytes E o -> op_ok b o -> step_res E b s L K KS o (ma_step E s o).
Proof.
  intros I HB HO. destruct o; cbn [op_ok] in HO; try subst room; try subst b.
  - now apply (alloc_ok E HE _ _ _ _ _ T).
  - now apply (free_ok E _ _ _ _ _ T).
  - now apply (piece_ok E HE _ _ _ _ T).
  - now apply (push_ok _ _ _ _ _ T).
  - now apply (pop_ok _ _ _ _ _ T).
  - now apply (chop_ok _ _ _ _ _ T).
  - now apply (align_ok _ _ _ _ T).
  - now apply (getptr_ok _ _ _ _ _ T).
  - now apply (getidx_ok _ _ _ _ _ T).
Qed.
Lemma run_ok b os : forall s L K KS T, inv b s L K KS T -> Forall (in_bytes E) os -> Forall (op_ok b) os ->
  exists s' L' rs K' KS' T', ma_run E s L os = Some (s', L', rs) /\ inv b s' L' K' KS' T' /\ frame s s'.
Proof.
  induction os as [|o os IH]; intros s L K KS T I HB HO; cbn [ma_run].
  - eexists _, _, _, K, KS, T. split; [reflexivity|]. split; [exact I|repeat split].
  - inversion HB as [|? ? B1 B2]; subst. inversion HO as [|? ? O1 O2]; subst. destruct (step_ok _ _ _ _ _ _ _ I B1 O1) as (s1 & r & K1 & KS1 & T1 & -> & _ & I1 & (F1 & F2 & F3) & _). cbn [fst snd].
    destruct (IH _ _ _ _ _ I1 B2 O2) as (s' & L' & rs & K' & KS' & T' & -> & I' & (G1 & G2 & G3)). cbn [fst snd]. eexists _, _, _, K', KS', T'. split; [reflexivity|]. split; [exact I'|]. unfold frame. repeat split; congruence.
Qed.
End S.
