(** C74, C75, C76: the MA memory allocator. *)
From Coq Require Import ZArith List Lia Bool Permutation.
From Verif Require Import SpecMa MBase MMa LMa LMaH LMaT LMaS LMaS2 LMaS3 LMaQ.
Import ListNotations.

Lemma mai_round_8 v : (8 | mai_round v 8).
Proof.
  unfold mai_round. apply Z.mod_divide; [lia|]. change 8 with (2 ^ 3) at 3. rewrite <- Z.land_ones by lia. rewrite <- Z.land_assoc. change (Z.land (u64 (Z.lnot (8 - 1))) (Z.ones 3)) with 0. apply Z.land_0_r.
Qed.
Lemma init_inv b E dt0 ns nh k seg s : ma_init E dt0 ns nh k seg = Some (Some s) -> segment_ok (m_seg s) (m_eos s) -> 0 <= k <= 30 -> inv E b s (Live [] []) [] [] [] /\ m_align s = k /\ (8 | m_part s).
Proof.
  unfold ma_init. destruct (negb (mt_valid dt0)); [discriminate|]. destruct (region E (dt0 - 1000) nh) as [hb|] eqn:RH; [|discriminate]. destruct (region E (dt0 - 1000) ns) as [sb|] eqn:RS; [|discriminate]. destruct (seg =? 0); [discriminate|]. intros [= <-] (S1 & S2 & S3 & S4) Hk. cbn in S1, S2, S3, S4.
  assert (R8 : forall n r, region E (dt0 - 1000) n = Some r -> (8 | r)). { intros n r. unfold region. destruct (n <? 0); [intros [= <-]; apply mai_round_8|]. destruct (mul64 _ _); [|discriminate]. intros [= <-]. apply mai_round_8. }
  assert (U8 : forall x, (8 | x) -> (8 | u64 x)). { intros x HX. unfold u64. apply Z.mod_divide; [lia|]. apply Z.mod_divide in HX; [|lia]. change (2 ^ 64) with (8 * 2 ^ 61). rewrite Z.rem_mul_r by lia. rewrite HX. rewrite Z.add_0_l, Z.mul_comm. apply Z.mod_mul. lia. }
  specialize (R8 nh hb RH) as H8. specialize (R8 ns sb RS) as B8.
  assert (T8 : (8 | u64 (seg + u64 (hb + sb)))) by (apply U8, Z.divide_add_r; [exact S1|apply U8, Z.divide_add_r; auto]).
  split; [|split; [reflexivity|apply U8, Z.divide_add_r; auto]].
  split; cbn; auto; try lia; try (left; reflexivity).
  repeat split; auto; try (intros H; unfold table_lookup, zget in H; destruct (h <? 0); [discriminate|destruct (Z.to_nat h); discriminate]); try easy. constructor.
Qed.
Lemma calls_flag E os : calls_ok E os -> exists b, Forall (in_bytes E) os /\ Forall (op_ok b) os.
Proof.
  intros (H1 & H2 & H3). assert (R : forall o, In o os -> match o with Alloc _ _ room | Push _ _ room => room = true | _ => True end).
  { intros [dt ne room| | |dt ne room| | | | |] HI; auto; destruct room; auto; exfalso; destruct (H2 dt ne); contradiction. }
  destruct H3 as [H3|H3]; [exists true|exists false]; (split; [exact H1|]); apply Forall_forall; intros o HI; specialize (R o HI); destruct o; cbn [op_ok]; auto; exfalso; eapply H3; eauto.
Qed.
Lemma at_pointer E b s L K KS T h p : ma_env_ok E -> inv E b s L K KS T -> In h (map fst (K ++ KS)) -> (get_pointer s h = Ret true p <-> exists x, In (h, x) (K ++ KS) /\ a_cs x = p).
Proof.
  intros HE I HI. destruct (inv_handles _ _ _ _ _ _ _ I) as (NH & _). destruct (get_ok E HE _ _ _ _ _ _ h I) as [(x & HX & -> & _)|(N & _)]; [|contradiction]. split.
  - intros [= <-]. eauto.
  - intros (y & HY & <-). pose proof (nodup_inj fst _ _ _ NH HX HY eq_refl). congruence.
Qed.

(** C74.  After any sequence of calls, the blocks the program has lie in the
    segment, aligned to their base arrays, and do not overlap, with their guard
    words; the descriptors of the allocator overlap none of them; and the index of
    a block leads from the base array to its pointer. *)
Theorem ma_blocks_partial E dt0 ns nh k seg s os : ma_env_ok E -> ma_init E dt0 ns nh k seg = Some (Some s) -> segment_ok (m_seg s) (m_eos s) -> 0 <= k <= 30 -> calls_ok E os ->
  exists s' L rs, ma_run E s (Live [] []) os = Some (s', L, rs) /\
    blocks_placed E (m_seg s) (m_eos s) L (fun h p => get_pointer s' h = Ret true p) /\
    (forall x h dt ne p, In x (m_hfree s' ++ m_hused s' ++ m_sused s') -> In (h, (dt, ne)) (lv_all L) -> get_pointer s' h = Ret true p ->
       a_at x + 80 <= p - 4 \/ p + ne * e_size E (dt - 1000) + 4 <= a_at x) /\
    (forall h dt ne p, In (h, (dt, ne)) (lv_all L) -> get_pointer s' h = Ret true p ->
       exists i, get_index E s' h = Some (Ret true i) /\ (e_base E (dt - 1000) + e_size E (dt - 1000) * i) mod 2 ^ 64 = p).
Proof.
  intros HE HI HS Hk HC. destruct (calls_flag _ _ HC) as (b & HB & HO). destruct (init_inv b _ _ _ _ _ _ _ HI HS Hk) as (I0 & _).
  destruct (run_ok E HE b os _ _ _ _ _ I0 HB HO) as (s' & L & rs & K & KS & T & R & I & (F1 & F2 & F3)). exists s', L, rs. split; [exact R|]. rewrite <- F1, <- F2.
  destruct (inv_handles _ _ _ _ _ _ _ I) as (NH & HA & _). assert (LA : lv_all L = map lvof (K ++ KS)) by (unfold lv_all; rewrite (i_lh _ _ _ _ _ _ _ I), (i_ls _ _ _ _ _ _ _ I), map_app; reflexivity).
  assert (BLK : forall h dt ne, In (h, (dt, ne)) (lv_all L) -> exists x, In (h, x) (K ++ KS) /\ a_dt x = dt - 1000 /\ a_ne x = ne /\ forall p, get_pointer s' h = Ret true p <-> p = a_cs x).
  { intros h dt ne HL. rewrite LA in HL. apply in_map_iff in HL as ([h' x] & HX & HL). unfold lvof in HX. cbn [fst snd] in HX. injection HX as -> HD HN. exists x. split; [exact HL|]. split; [lia|]. split; [exact HN|].
    intros p. rewrite (at_pointer E b s' L K KS T h p HE I ltac:(apply (in_map fst) in HL; exact HL)). split; [|intros ->; eauto]. intros (y & HY & <-). pose proof (nodup_inj fst _ _ _ NH HL HY eq_refl). congruence. }
  assert (XT : forall h x, In (h, x) (K ++ KS) -> In x (map snd (K ++ KS))) by (intros h x HX; apply (in_map snd) in HX; exact HX).
  (* all tiles *)
  set (TT := T ++ map (fun e : Z * ad => (true, snd e)) KS).
  assert (DIS : forall t t', In t TT -> In t' TT -> t = t' \/ a_at (snd t) + a_nb (snd t) <= a_at (snd t') \/ a_at (snd t') + a_nb (snd t') <= a_at (snd t)).
  { pose proof (i_chain _ _ _ _ _ _ _ I) as C1. pose proof (i_stk _ _ _ _ _ _ _ I) as C2. pose proof (i_hs _ _ _ _ _ _ _ I). intros [u x] [u' x'] H1 H2. unfold TT in *. apply in_app_or in H1, H2. cbn [snd]. destruct H1 as [H1|H1], H2 as [H2|H2].
    - exact (chain_disj _ _ _ (u, x) (u', x') C1 H1 H2).
    - destruct (chain_in _ _ _ _ _ C1 H1), (chain_in _ _ _ _ _ C2 H2). right. left. lia.
    - destruct (chain_in _ _ _ _ _ C2 H1), (chain_in _ _ _ _ _ C1 H2). right. right. lia.
    - exact (chain_disj _ _ _ (u, x) (u', x') C2 H1 H2). }
  assert (INT : forall x, In x (map snd (K ++ KS)) -> In (true, x) TT).
  { intros x HX. unfold TT. rewrite map_app in HX. apply in_or_app. apply in_app_or in HX as [HX|HX].
    - left. apply in_useds. exact (Permutation_in _ (i_perm _ _ _ _ _ _ _ I) HX).
    - right. apply in_map_iff in HX as (e & <- & HX). apply (in_map (fun e => (true, snd e))) in HX. exact HX. }
  split; [|split].
  - split; [now rewrite HA|]. split.
    + intros h dt ne HL. destruct (BLK _ _ _ HL) as (x & HX & ED & EN & HP). exists (a_cs x). split; [now apply HP|]. destruct (inv_in _ _ _ _ _ _ _ x I (XT _ _ HX)) as (A & B & _ & D1 & D2 & D3 & D4 & D5 & D6). rewrite <- ED, <- EN. repeat split; auto; lia.
    + intros h dt ne h' dt' ne' p p' HL HL' NE HP HP'. destruct (BLK _ _ _ HL) as (x & HX & ED & EN & HQ). destruct (BLK _ _ _ HL') as (x' & HX' & ED' & EN' & HQ'). apply HQ in HP. apply HQ' in HP'. subst p p'. rewrite <- ED, <- EN, <- ED', <- EN'.
      destruct (inv_in _ _ _ _ _ _ _ x I (XT _ _ HX)) as (A & B & _ & D1 & D2 & D3 & D4 & D5 & D6). destruct (inv_in _ _ _ _ _ _ _ x' I (XT _ _ HX')) as (A' & B' & _ & D1' & D2' & D3' & D4' & D5' & D6').
      destruct (DIS (true, x) (true, x') (INT _ (XT _ _ HX)) (INT _ (XT _ _ HX'))) as [Q|[Q|Q]]; cbn [snd] in Q; [|lia|lia]. injection Q as <-. exfalso. apply NE.
      pose proof (inv_nodup _ _ _ _ _ _ _ I) as NA. rewrite map_map in NA. pose proof (nodup_inj _ _ _ _ NA HX HX' eq_refl). congruence.
  - intros y h dt ne p HY HL HP. destruct (BLK _ _ _ HL) as (x & HX & ED & EN & HQ). apply HQ in HP. subst p. rewrite <- ED, <- EN.
    destruct (inv_in _ _ _ _ _ _ _ x I (XT _ _ HX)) as (A & B & _ & D1 & D2 & D3 & D4 & D5 & D6). pose proof (sz_pos E HE _ D1). assert (0 <= a_ne x * e_size E (a_dt x)) by nia.
    assert (HYT : exists u, In (u, y) TT /\ 88 <= a_nb y).
    { apply in_app_or in HY as [HY|HY]; [|apply in_app_or in HY as [HY|HY]].
      - rewrite (i_free _ _ _ _ _ _ _ I) in HY. apply in_frees in HY. exists false. split; [apply in_or_app; now left|]. now destruct (chain_in _ _ _ _ _ (i_chain _ _ _ _ _ _ _ I) HY) as (_ & _ & Q & _).
      - rewrite (i_hu _ _ _ _ _ _ _ I) in HY. assert (HY' : In y (map snd (K ++ KS))) by (rewrite map_app; apply in_or_app; now left). exists true. split; [now apply INT|]. now destruct (inv_in _ _ _ _ _ _ _ y I HY') as (_ & _ & Q & _).
      - rewrite (i_su _ _ _ _ _ _ _ I) in HY. assert (HY' : In y (map snd (K ++ KS))) by (rewrite map_app; apply in_or_app; now right). exists true. split; [now apply INT|]. now destruct (inv_in _ _ _ _ _ _ _ y I HY') as (_ & _ & Q & _). }
    destruct HYT as (u & HYT & NB). destruct (DIS (true, x) (u, y) (INT _ (XT _ _ HX)) HYT) as [Q|[Q|Q]]; cbn [snd] in Q; [|lia|lia]. injection Q as _ <-. left. lia.
  - intros h dt ne p HL HP. destruct (BLK _ _ _ HL) as (x & HX & ED & EN & HQ). apply HQ in HP. subst p.
    destruct (get_ok E HE _ _ _ _ _ _ h I) as [(y & HY & _ & GI)|(N & _)]; [|exfalso; apply N; apply (in_map fst) in HX; exact HX]. pose proof (nodup_inj fst _ _ _ NH HX HY eq_refl) as EQ. injection EQ as <-.
    eexists. split; [exact GI|]. rewrite <- ED. destruct (inv_in _ _ _ _ _ _ _ x I (XT _ _ HX)) as (A & B & _ & D1 & D2 & D3 & D4 & D5 & D6). destruct (sz_pow E HE _ D1) as (j & Hj & EJ). pose proof (sz_pos E HE _ D1).
    pose proof (i_seg _ _ _ _ _ _ _ I). pose proof (i_eos _ _ _ _ _ _ _ I).
    assert (DV : (e_size E (a_dt x) | u64 (a_cs x - e_base E (a_dt x)))). { apply Z.mod_divide; [lia|]. rewrite u64_sz by auto. now apply Z.mod_divide; [lia|]. }
    destruct DV as (q & DV). rewrite DV, Z.div_mul by lia. rewrite (Z.mul_comm (e_size E (a_dt x)) q), <- DV. unfold u64. rewrite Zplus_mod_idemp_r. replace (e_base E (a_dt x) + (a_cs x - e_base E (a_dt x))) with (a_cs x) by lia. apply Z.mod_small. split; [lia|]. nia.
Qed.

(** C74, the calls: each returns what it must, no behaviour is undefined, and the
    pointer of a block does not change while the program has it. *)
Theorem ma_calls_partial E dt0 ns nh k seg s os o : ma_env_ok E -> ma_init E dt0 ns nh k seg = Some (Some s) -> segment_ok (m_seg s) (m_eos s) -> 0 <= k <= 30 -> calls_ok E (os ++ [o]) ->
  exists s' L rs s'' r, ma_run E s (Live [] []) os = Some (s', L, rs) /\ ma_step E s' o = Some (s'', r) /\ expected L o r /\
    (forall h p, In h (handles (lv_all L)) -> In h (handles (lv_all (live_step o r L))) -> (get_pointer s' h = Ret true p <-> get_pointer s'' h = Ret true p)).
Proof.
  intros HE HI HS Hk HC. destruct (calls_flag _ _ HC) as (b & HB & HO). apply Forall_app in HB as [HB HB1], HO as [HO HO1]. destruct (init_inv b _ _ _ _ _ _ _ HI HS Hk) as (I0 & _).
  destruct (run_ok E HE b os _ _ _ _ _ I0 HB HO) as (s' & L & rs & K & KS & T & R & I & _). inversion HB1; subst. inversion HO1; subst.
  destruct (step_ok E HE b s' L K KS T o I) as (s'' & r & K' & KS' & T' & ST & X & I' & _ & KP); auto. exists s', L, rs, s'', r. split; [exact R|]. split; [exact ST|]. split; [exact X|].
  intros h p HH HH'. destruct (inv_handles _ _ _ _ _ _ _ I) as (NH & HA & _). destruct (inv_handles _ _ _ _ _ _ _ I') as (NH' & HA' & _). rewrite HA in HH. rewrite HA' in HH'.
  rewrite (at_pointer E b s' L K KS T h p HE I HH), (at_pointer E b s'' _ K' KS' T' h p HE I' HH').
  apply in_map_iff in HH as ([h1 x] & E1 & HX). apply in_map_iff in HH' as ([h2 x'] & E2 & HX'). cbn [fst] in *. subst h1 h2. pose proof (KP h x x' HX HX') as CS. split.
  - intros (y & HY & <-). pose proof (nodup_inj fst _ _ _ NH HX HY eq_refl) as EQ. injection EQ as <-. eauto.
  - intros (y & HY & <-). pose proof (nodup_inj fst _ _ _ NH' HX' HY eq_refl) as EQ. injection EQ as <-. eauto.
Qed.

Lemma fits_fits_in E k dt ne a e : ma_env_ok E -> 1000 <= dt <= 1016 -> 0 <= k <= 30 -> (fits E k (dt - 1000) ne a e <-> fits_in E k dt ne a e).
Proof.
  intros HE Ht Hk. assert (Hd : 0 <= dt - 1000 < 17) by lia. unfold fits, fits_in. set (d := dt - 1000) in *. pose proof (sz_pos E HE d Hd) as SZ. split; intros (c & C1 & C2 & C3); exists c; (split; [exact C1|]); (split; [exact C2|]).
  - split; [now apply (place_base E HE k d)|]. intros K0 D1 D2. unfold place_ok in C3. destruct (realigns E k d) eqn:R; [exact C3|]. exfalso. unfold realigns in R. apply Z.divide_pos_le in D1; [|apply Z.pow_pos_nonneg; lia]. apply Z.mod_divide in D2; [|lia]. rewrite D2 in R. destruct (Z.ltb_spec 0 k), (Z.leb_spec (e_size E d) (2 ^ k)); cbn in R; try discriminate; lia.
  - destruct C3 as [C3 C4]. unfold place_ok. destruct (realigns E k d) eqn:R; [|exact C3]. destruct (realigns_div E HE k d Hd Hk R) as [D1 D2]. apply C4; auto. unfold realigns in R. destruct (Z.ltb_spec 0 k); [auto|discriminate].
Qed.
Lemma chain_full a e : a < e -> forall T p q, (forall t, In t T -> fst t = true) -> chain p T q -> e <= q -> (forall x, In x (useds T) -> e <= a_at x \/ a_at x + a_nb x <= a) -> e <= p.
Proof.
  intros AE. induction T as [|[u x] T IH]; intros p q U C Q D; cbn [chain] in C; [lia|]. destruct C as (C1 & C2 & C3 & C4). pose proof (U (u, x) ltac:(now left)) as UX. cbn [fst] in UX. subst u.
  assert (H : e <= p + a_nb x) by (apply (IH (p + a_nb x) q); auto; [intros t HT; apply U; now right|intros y HY; apply D; now right]). destruct (D x ltac:(now left)); lia.
Qed.

(** C75.  A heap block is refused only if no stretch of the segment that meets no
    block in use can hold it, and a stack block only if no stretch between the heap
    blocks and the stack blocks can; when all blocks are released, the allocator has
    all its memory again. *)
Theorem ma_refusals_partial E dt0 ns nh k seg s os : ma_env_ok E -> ma_init E dt0 ns nh k seg = Some (Some s) -> segment_ok (m_seg s) (m_eos s) -> 0 <= k <= 30 -> calls_ok E os ->
  exists s' L rs, ma_run E s (Live [] []) os = Some (s', L, rs) /\
    (forall dt ne, 1000 <= dt <= 1016 -> 0 <= ne -> in_bytes E (Alloc dt ne true) -> forall s1 v, ma_step E s' (Alloc dt ne true) = Some (s1, Ret false v) ->
       forall a e, m_seg s <= a -> e <= m_eos s -> (forall x, In x (m_hused s' ++ m_sused s') -> e <= a_at x \/ a_at x + a_nb x <= a) -> ~ fits_in E (m_align s') dt ne a e) /\
    (forall dt ne, 1000 <= dt <= 1016 -> 0 <= ne -> in_bytes E (Push dt ne true) -> forall s1 v, ma_step E s' (Push dt ne true) = Some (s1, Ret false v) ->
       forall a e, m_seg s <= a -> e <= m_eos s -> (forall x, In x (m_hused s') -> a_at x + a_nb x <= a) -> (forall x, In x (m_sused s') -> e <= a_at x) -> ~ fits_in E (m_align s') dt ne a e) /\
    (lv_all L = [] -> m_hp s' = m_hp s /\ m_sp s' = m_sp s /\ m_hfree s' = m_hfree s /\ m_hused s' = m_hused s /\ m_sused s' = m_sused s /\ m_entries s' = m_entries s).
Proof.
  intros HE HI HS Hk HC. destruct (calls_flag _ _ HC) as (b & HB & HO). destruct (init_inv b _ _ _ _ _ _ _ HI HS Hk) as (I0 & _).
  destruct (run_ok E HE b os _ _ _ _ _ I0 HB HO) as (s' & L & rs & K & KS & T & R & I & (F1 & F2 & F3)). exists s', L, rs. split; [exact R|]. rewrite <- F1, <- F2.
  pose proof (i_al _ _ _ _ _ _ _ I) as Hk'.
  assert (NEG : forall dt ne a e, 1000 <= dt <= 1016 -> 0 <= ne -> fits_in E (m_align s') dt ne a e -> a < e). { intros dt ne a e Ht Hn (c & C1 & C2 & _). pose proof (sz_pos E HE (dt - 1000) ltac:(lia)). nia. }
  split; [|split].
  - intros dt ne Ht Hn IB s1 v ST a e A1 A2 D FI. pose proof (NEG _ _ _ _ Ht Hn FI) as AE. apply fits_fits_in in FI; auto. cbn [in_bytes] in IB. specialize (IB Ht Hn).
    destruct (alloc_iff E HE b s' L K KS T dt ne I Ht Hn IB) as (s2 & v2 & [(Q & _)|(Q & Q1 & Q2)]); rewrite ST in Q; [discriminate|].
    assert (B : e <= m_sp s').
    { eapply (chain_full a e AE); [|exact (i_stk _ _ _ _ _ _ _ I)|exact A2|]; [intros t HT; apply in_map_iff in HT as (? & <- & _); reflexivity|]. intros x HX. apply D, in_or_app. right. rewrite (i_su _ _ _ _ _ _ _ I). apply in_useds in HX. apply in_map_iff in HX as (ee & HX & HE'). injection HX as <-. now apply in_map. }
    destruct (gap_find a e AE T (m_seg s') (m_hp s') (i_chain _ _ _ _ _ _ _ I) (i_sep _ _ _ _ _ _ _ I) (i_last _ _ _ _ _ _ _ I) A1) as [(x & X1 & X2 & X3)|G].
    { intros x HX. apply D, in_or_app. left. rewrite (i_hu _ _ _ _ _ _ _ I). exact (Permutation_in _ (Permutation_sym (i_perm _ _ _ _ _ _ _ I)) HX). }
    + apply (Q2 x); [now rewrite (i_free _ _ _ _ _ _ _ I)|]. eapply fits_mono; eauto.
    + apply Q1. eapply fits_mono; eauto.
  - intros dt ne Ht Hn IB s1 v ST a e A1 A2 D1 D2 FI. pose proof (NEG _ _ _ _ Ht Hn FI) as AE. apply fits_fits_in in FI; auto. cbn [in_bytes] in IB. specialize (IB Ht Hn).
    destruct (push_iff E HE b s' L K KS T dt ne I Ht Hn IB) as (s2 & v2 & [(Q & _)|(Q & Q1)]); rewrite ST in Q; [discriminate|]. apply Q1. eapply fits_mono; [| |exact FI].
    + destruct (i_last _ _ _ _ _ _ _ I) as [ET|(T0 & x & ET)]; pose proof (i_chain _ _ _ _ _ _ _ I) as C; rewrite ET in C; [cbn [chain] in C; lia|]. apply chain_app in C as (p & _ & C). cbn [chain] in C. destruct C as (C1 & _ & _ & C2). rewrite <- C2, <- C1. apply D1. rewrite (i_hu _ _ _ _ _ _ _ I). apply (Permutation_in _ (Permutation_sym (i_perm _ _ _ _ _ _ _ I))). rewrite ET, useds_app. apply in_or_app. right. now left.
    + pose proof (i_stk _ _ _ _ _ _ _ I) as C. destruct KS as [|[h x] KS]; cbn [map chain snd] in C; [lia|]. destruct C as (C & _). rewrite <- C. apply D2. rewrite (i_su _ _ _ _ _ _ _ I). now left.
  - intros LE. assert (K = [] /\ KS = []) as [-> ->]. { unfold lv_all in LE. rewrite (i_lh _ _ _ _ _ _ _ I), (i_ls _ _ _ _ _ _ _ I), <- map_app in LE. destruct K; [destruct KS; [auto|discriminate]|discriminate]. }
    assert (T = []) as ->. { pose proof (i_perm _ _ _ _ _ _ _ I) as P. apply Permutation_nil in P. destruct (i_last _ _ _ _ _ _ _ I) as [->|(T0 & x & ->)]; [reflexivity|]. rewrite useds_app in P. now destruct (useds T0). }
    pose proof (i_chain _ _ _ _ _ _ _ I) as C1. pose proof (i_chain _ _ _ _ _ _ _ I0) as C2. pose proof (i_stk _ _ _ _ _ _ _ I) as C3. pose proof (i_stk _ _ _ _ _ _ _ I0) as C4. cbn [chain map] in *.
    rewrite (i_free _ _ _ _ _ _ _ I), (i_free _ _ _ _ _ _ _ I0), (i_hu _ _ _ _ _ _ _ I), (i_hu _ _ _ _ _ _ _ I0), (i_su _ _ _ _ _ _ _ I), (i_su _ _ _ _ _ _ _ I0). destruct (i_tab _ _ _ _ _ _ _ I) as (_ & _ & -> & _). destruct (i_tab _ _ _ _ _ _ _ I0) as (_ & _ & -> & _). repeat split; congruence.
Qed.

(** C76.  What the inquiries tell: [avail] and [stack_no_partition] are exact for the
    stack and sound for the heap; [heap_check_stack] and [heap_no_partition] are
    sound; [heap_no_partition] is the largest if the heap did not outgrow the
    partition; [heap] and [stack] are sound if neither outgrew it. *)
Theorem ma_inquiries_partial E dt0 ns nh k seg s os dt : ma_env_ok E -> ma_init E dt0 ns nh k seg = Some (Some s) -> segment_ok (m_seg s) (m_eos s) -> m_seg s <= m_part s <= m_eos s -> 0 <= k <= 30 -> calls_ok E os -> 1000 <= dt <= 1016 ->
  exists s' L rs, ma_run E s (Live [] []) os = Some (s', L, rs) /\
    let allocs n := exists s1 h, ma_step E s' (Alloc dt n true) = Some (s1, Ret true h) in
    let pushes n := exists s1 h, ma_step E s' (Push dt n true) = Some (s1, Ret true h) in
    (exists n, inquire_avail E s' (dt - 1000) = Some n /\ inquire_stack_no_partition E s' (dt - 1000) = Some n /\ 0 <= n /\ (0 < n -> allocs n /\ pushes n) /\
       (forall m, n < m -> in_bytes E (Push dt m true) -> ~ pushes m)) /\
    (exists n, inquire_heap_check_stack E s' (dt - 1000) = Some n /\ 0 <= n /\ (0 < n -> allocs n)) /\
    (exists n, inquire_heap_no_partition E s' (dt - 1000) = Some n /\ 0 <= n /\ (0 < n -> allocs n) /\
       (m_hp s' <= m_part s -> forall m, n < m -> in_bytes E (Alloc dt m true) -> ~ allocs m)) /\
    (m_part s <= m_sp s' -> exists n, inquire_heap E s' (dt - 1000) = Some n /\ 0 <= n /\ (0 < n -> allocs n)) /\
    (m_hp s' <= m_part s <= m_sp s' -> exists n, inquire_stack E s' (dt - 1000) = Some n /\ inquire_stack_check_heap E s' (dt - 1000) = Some n /\ 0 <= n /\ (0 < n -> pushes n)).
Proof.
  intros HE HI HS HP Hk HC Ht. destruct (calls_flag _ _ HC) as (b & HB & HO). destruct (init_inv b _ _ _ _ _ _ _ HI HS Hk) as (I0 & _ & P8).
  destruct (run_ok E HE b os _ _ _ _ _ I0 HB HO) as (s' & L & rs & K & KS & T & R & I & (F1 & F2 & F3)). exists s', L, rs. split; [exact R|]. cbn zeta. rewrite <- F1, <- F2, <- F3 in HP. rewrite <- F3 in P8. rewrite <- F3.
  destruct (inv_ends _ _ _ _ _ _ _ I) as (E1 & E2 & E3). pose proof (i_seg _ _ _ _ _ _ _ I) as S0. pose proof (i_eos _ _ _ _ _ _ _ I) as EO. pose proof (i_d8s _ _ _ _ _ _ _ I) as S8. pose proof (i_al _ _ _ _ _ _ _ I) as Hk'. assert (Hd : 0 <= dt - 1000 < 17) by lia. set (d := dt - 1000) in *.
  assert (AL : forall n x, 0 <= n -> n * e_size E d < 2 ^ 62 -> In x (m_hfree s') -> fits E (m_align s') d n (a_at x) (a_at x + a_nb x) -> exists s1 h, ma_step E s' (Alloc dt n true) = Some (s1, Ret true h)).
  { intros n x Hn HB' HX HF. destruct (alloc_iff E HE b s' L K KS T dt n I Ht Hn HB') as (s2 & v2 & [(Q & _)|(Q & _ & Q2)]); [eauto|]. exfalso. now apply (Q2 x). }
  assert (AG : forall n, 0 <= n -> n * e_size E d < 2 ^ 62 -> fits E (m_align s') d n (m_hp s') (m_sp s') -> (exists s1 h, ma_step E s' (Alloc dt n true) = Some (s1, Ret true h)) /\ exists s1 h, ma_step E s' (Push dt n true) = Some (s1, Ret true h)).
  { intros n Hn HB' HF. split.
    - destruct (alloc_iff E HE b s' L K KS T dt n I Ht Hn HB') as (s2 & v2 & [(Q & _)|(Q & Q1 & _)]); [eauto|]. contradiction.
    - destruct (push_iff E HE b s' L K KS T dt n I Ht Hn HB') as (s2 & v2 & [(Q & _)|(Q & Q1)]); [eauto|]. contradiction. }
  assert (UG : u64 (m_sp s' - m_hp s') = m_sp s' - m_hp s') by (apply u64_small; lia).
  destruct (gap_nelem_ok E HE s' d (m_hp s') (m_sp s') Hd Hk' ltac:(lia) ltac:(lia) E3 S8) as (g & G1 & G2 & G3 & G4 & G5).
  assert (GP : m_hp s' <= m_part s' -> m_part s' <= m_sp s' -> exists r, gap_nelem E s' (m_hp s') (m_part s' - m_hp s') d = Some r /\ 0 <= r /\ r * e_size E d < 2 ^ 62 /\ (0 < r -> fits E (m_align s') d r (m_hp s') (m_sp s'))).
  { intros A B. destruct (gap_nelem_ok E HE s' d (m_hp s') (m_part s') Hd Hk' ltac:(lia) ltac:(lia) E3 P8) as (r & R1 & R2 & R3 & R4 & _). exists r. repeat split; auto. intros Hr. eapply fits_mono; [| |apply R4, Hr]; lia. }
  assert (WF : forall gap r0, gap = Some r0 -> 0 <= r0 -> r0 * e_size E d < 2 ^ 62 -> (0 < r0 -> fits E (m_align s') d r0 (m_hp s') (m_sp s')) ->
     exists n, with_frags E s' d gap = Some n /\ 0 <= n /\ (0 < n -> exists s1 h, ma_step E s' (Alloc dt n true) = Some (s1, Ret true h)) /\ r0 <= n /\ (m_hp s' <= m_part s' -> forall x m, In x (m_hfree s') -> n < m -> ~ fits E (m_align s') d m (a_at x) (a_at x + a_nb x))).
  { intros gap r0 H1 H2 H3 H4. destruct (with_frags_ok E HE b s' L K KS T d gap r0 I ltac:(lia) P8 Hd H1 H2 H3) as (n & N1 & N2 & N3 & N4 & N5). exists n. split; [exact N1|]. split; [lia|]. split; [|split; auto]. intros Hn. destruct (Z.eq_dec r0 n) as [->|NE]; [apply AG; auto; lia|]. destruct N4 as (x & X1 & X2); [lia|]. apply (AL n x); auto; lia. }
  split; [|split; [|split; [|split]]].
  - exists g. unfold inquire_avail, inquire_stack_no_partition. rewrite UG. split; [exact G1|]. split; [exact G1|]. split; [exact G2|]. split; [intros Hg; apply AG; auto|]. intros m Hm IB (s1 & h & ST). cbn [in_bytes] in IB. fold d in IB.
    destruct (push_iff E HE b s' L K KS T dt m I Ht ltac:(lia) ltac:(apply IB; lia)) as (s2 & v2 & [(Q & Q1)|(Q & _)]); [|rewrite ST in Q; discriminate]. now apply (G5 m).
  - unfold inquire_heap_check_stack. rewrite UG. destruct (Z.le_gt_cases (m_hp s') (m_part s')) as [A|A].
    + rewrite (u64_small (m_part s' - m_hp s')) by lia. destruct (Z.le_gt_cases (m_part s') (m_sp s')) as [B|B].
      * rewrite Z.min_l by lia. destruct (GP A B) as (r & R1 & R2 & R3 & R4). destruct (WF _ r R1 R2 R3 R4) as (n & N1 & N2 & N3 & _). exists n. auto.
      * rewrite Z.min_r by lia. destruct (WF _ g G1 G2 G3 G4) as (n & N1 & N2 & N3 & _). exists n. auto.
    + rewrite Z.min_r. * destruct (WF _ g G1 G2 G3 G4) as (n & N1 & N2 & N3 & _). exists n. auto.
      * unfold u64. replace (m_part s' - m_hp s') with (m_part s' - m_hp s' + 2 ^ 64 - 1 * 2 ^ 64) by lia. rewrite <- Zminus_mod_idemp_r, Z.mod_mul, Z.sub_0_r by lia. rewrite Z.mod_small by lia. lia.
  - unfold inquire_heap_no_partition. rewrite UG. destruct (WF _ g G1 G2 G3 G4) as (n & N1 & N2 & N3 & N4 & N5). exists n. split; [exact N1|]. split; [exact N2|]. split; [exact N3|]. intros HL m Hm IB (s1 & h & ST). cbn [in_bytes] in IB. fold d in IB.
    destruct (alloc_iff E HE b s' L K KS T dt m I Ht ltac:(lia) ltac:(apply IB; lia)) as (s2 & v2 & [(Q & [Q1|(x & X1 & X2)])|(Q & _)]); [| |rewrite ST in Q; discriminate].
    + apply (G5 m); [lia|exact Q1].
    + exact (N5 HL x m X1 Hm X2).
  - intros A. unfold inquire_heap. destruct (Z.ltb_spec (m_hp s') (m_part s')) as [B|B].
    + rewrite (u64_small (m_part s' - m_hp s')) by lia. destruct (ma_nelem_ok E HE (m_align s') d (m_hp s') (m_part s') Hd Hk' ltac:(lia) ltac:(lia) E3 P8) as (r & R1 & R2 & R3 & R4 & _). destruct (WF _ r R1 R2 R3) as (n & N1 & N2 & N3 & _); [intros Hr; eapply fits_mono; [| |apply R4, Hr]; lia|]. exists n. auto.
    + destruct (WF _ 0 eq_refl) as (n & N1 & N2 & N3 & _); [lia|lia|lia|]. exists n. auto.
  - intros [A B]. unfold inquire_stack, inquire_stack_check_heap. rewrite UG. rewrite (u64_small (m_sp s' - m_part s')) by lia. rewrite Z.min_l by lia.
    destruct (gap_nelem_ok E HE s' d (m_part s') (m_sp s') Hd Hk' ltac:(lia) ltac:(lia) P8 S8) as (r & R1 & R2 & R3 & R4 & _). exists r. split; [exact R1|]. split; [exact R1|]. split; [exact R2|]. intros Hr. apply AG; auto. eapply fits_mono; [| |apply R4, Hr]; lia.
Qed.

(** ---- a platform: char, int, long, float, double, long double, ... ---- *)
Definition ma_E0 : ma_env := MaEnv (fun d => nth (Z.to_nat d) [1;4;8;4;8;16;8;16;32;1;8;8;4;8;8;16;8] 8) (fun d => 65536 + 1024 * d).
Definition ma_s0 (ns nh : Z) : mas := match ma_init ma_E0 1004 ns nh 0 4096 with Some (Some s) => s | _ => Mas 0 0 0 0 0 [] [] [] 0 [] 0 0 end.
Lemma ma_E0_ok : ma_env_ok ma_E0.
Proof.
  intros d Hd. split; [|change (0 <= 65536 + 1024 * d < 2 ^ 47); lia]. assert (P : forall n, (n < 17)%nat -> exists j, 0 <= j <= 30 /\ nth n [1;4;8;4;8;16;8;16;32;1;8;8;4;8;8;16;8] 8 = 2 ^ j).
  { intros n Hn. do 17 (destruct n as [|n]; [first [exists 0; split; [lia|reflexivity]|exists 2; split; [lia|reflexivity]|exists 3; split; [lia|reflexivity]|exists 4; split; [lia|reflexivity]|exists 5; split; [lia|reflexivity]]|]). lia. }
  cbn [e_size ma_E0]. apply P. lia.
Qed.
Definition ma_results (ns nh : Z) (os : list ma_op) : option (list ma_ret) := option_map snd (ma_run ma_E0 (ma_s0 ns nh) (Live [] []) os).

(** A program that meets the hypotheses: blocks of several types, a hole that is
    filled again, a piece freed, the stack popped and chopped. *)
Definition ma_os0 : list ma_op :=
  [Alloc 1004 100 true; Alloc 1000 33 true; Push 1007 10 true; FreeHeap 0; Alloc 1008 5 true; Push 1001 7 true; FreePiece 1 20; GetPtr 0; GetIndex 0; Pop 2; Pop 3; Chop 2; FreeHeap 7; Alloc 1004 100000 true; FreeHeap 0; FreeHeap 1].
Example ma_os0_results : ma_results 200 100 ma_os0 = Some
  [Ret true 0; Ret true 1; Ret true 2; Ret true 0; Ret true 3; Ret true 4; Ret true 0; Ret false 0; Ret false 0; Ret false 0; Ret false 0; Ret true 0; Ret false 0; Ret false 0; Ret false 0; Ret true 0].
Proof. vm_compute. reflexivity. Qed.
Example ma_os0_ok : ma_init ma_E0 1004 200 100 0 4096 = Some (Some (ma_s0 200 100)) /\ segment_ok (m_seg (ma_s0 200 100)) (m_eos (ma_s0 200 100)) /\ m_seg (ma_s0 200 100) <= m_part (ma_s0 200 100) <= m_eos (ma_s0 200 100) /\ calls_ok ma_E0 ma_os0.
Proof.
  split; [vm_compute; reflexivity|]. split. { repeat split; try (vm_compute; congruence). exists 512. reflexivity. } split; [vm_compute; split; congruence|].
  split; [|split].
  - repeat constructor; vm_compute; auto.
  - intros dt ne. split; intros H; repeat (destruct H as [H|H]; [discriminate|]); exact H.
  - left. intros k H. repeat (destruct H as [H|H]; [discriminate|]). exact H.
Qed.

(** Freeing a piece of a block after the alignment was changed: the next block
    overlaps it. *)
Theorem ma_blocks_refuted_piece : exists os s' L rs, ma_run ma_E0 (ma_s0 1000 1000) (Live [] []) os = Some (s', L, rs) /\ Forall (in_bytes ma_E0) os /\ Forall (fun o => match o with Alloc _ _ room | Push _ _ room => room = true | _ => True end) os /\
  ~ blocks_placed ma_E0 (m_seg s') (m_eos s') L (fun h p => get_pointer s' h = Ret true p).
Proof.
  exists [SetAlign 10; Alloc 1004 200 true; SetAlign 0; FreePiece 0 100; Alloc 1004 50 true]. eexists _, _, _. split; [vm_compute; reflexivity|]. split; [repeat constructor; vm_compute; auto|]. split; [repeat constructor|].
  intros (_ & _ & D). destruct (D 0 1004 100 1 1004 50 5120 5080) as [H|H]; try (cbn; tauto); try lia; try (vm_compute; reflexivity); vm_compute in H; now apply H.
Qed.
(** A number of elements whose size in bytes does not fit a long: undefined. *)
Theorem ma_calls_refuted_overflow : exists dt ne, 1000 <= dt <= 1016 /\ 0 <= ne < 2 ^ 63 /\ ma_step ma_E0 (ma_s0 100 100) (Alloc dt ne true) = None /\ ma_step ma_E0 (ma_s0 100 100) (Push dt ne true) = None.
Proof. exists 1004, (2 ^ 61). split; [lia|]. split; [lia|]. split; vm_compute; reflexivity. Qed.
(** When the table of handles cannot grow, the call fails but keeps the memory. *)
Theorem ma_refusals_refuted_leak : exists o s' L rs o', ma_run ma_E0 (ma_s0 1000 1000) (Live [] []) [o] = Some (s', L, rs) /\ rs = [Ret false (-1)] /\ lv_all L = [] /\
  (exists s1 h, ma_step ma_E0 (ma_s0 1000 1000) o' = Some (s1, Ret true h)) /\ (exists s1 v, ma_step ma_E0 s' o' = Some (s1, Ret false v)).
Proof.
  exists (Alloc 1004 1000 false). eexists _, _, _. exists (Alloc 1004 1500 true). split; [vm_compute; reflexivity|]. split; [reflexivity|]. split; [reflexivity|]. split; eexists _, _; vm_compute; reflexivity.
Qed.
(** "The largest piece of memory available": not if it lies beyond the partition. *)
Theorem ma_inquiries_refuted_heap_no_partition : exists os s' L rs n m s1 h, calls_ok ma_E0 os /\ ma_run ma_E0 (ma_s0 1000 10) (Live [] []) os = Some (s', L, rs) /\
  inquire_heap_no_partition ma_E0 s' 4 = Some n /\ n < m /\ ma_step ma_E0 s' (Alloc 1004 m true) = Some (s1, Ret true h).
Proof.
  exists [Alloc 1004 500 true; Alloc 1004 1 true; FreeHeap 0; Push 1004 380 true]. eexists _, _, _. exists 107, 500. eexists _, _. split.
  { split; [repeat constructor; vm_compute; auto|]. split; [|left; intros k H; repeat (destruct H as [H|H]; [discriminate|]); exact H]. intros dt ne. split; intros H; repeat (destruct H as [H|H]; [discriminate|]); exact H. }
  split; [vm_compute; reflexivity|]. split; [vm_compute; reflexivity|]. split; [lia|]. vm_compute. reflexivity.
Qed.
(** The heap has outgrown the partition: the inquiry names a number that the stack
    refuses. *)
Theorem ma_inquiries_refuted_stack_check_heap : exists os s' L rs n s1 v, calls_ok ma_E0 os /\ ma_run ma_E0 (ma_s0 200 90) (Live [] []) os = Some (s', L, rs) /\
  inquire_stack_check_heap ma_E0 s' 7 = Some n /\ 0 < n /\ ma_step ma_E0 s' (Push 1007 n true) = Some (s1, Ret false v).
Proof.
  exists [Alloc 1004 100 true]. eexists _, _, _. exists 96. eexists _, _. split.
  { split; [repeat constructor; vm_compute; auto|]. split; [|left; intros k H; repeat (destruct H as [H|H]; [discriminate|]); exact H]. intros dt ne. split; intros H; repeat (destruct H as [H|H]; [discriminate|]); exact H. }
  split; [vm_compute; reflexivity|]. split; [vm_compute; reflexivity|]. split; [lia|]. vm_compute. reflexivity.
Qed.
(** The stack has outgrown the partition: a negative number for characters, and
    undefined for doubles. *)
Theorem ma_inquiries_refuted_stack : exists os s' L rs n, calls_ok ma_E0 os /\ ma_run ma_E0 (ma_s0 100 100) (Live [] []) os = Some (s', L, rs) /\
  inquire_stack ma_E0 s' 0 = Some n /\ n < 0 /\ inquire_stack ma_E0 s' 4 = None.
Proof.
  exists [Push 1004 120 true]. eexists _, _, _. exists (-240). split.
  { split; [repeat constructor; vm_compute; auto|]. split; [|left; intros k H; repeat (destruct H as [H|H]; [discriminate|]); exact H]. intros dt ne. split; intros H; repeat (destruct H as [H|H]; [discriminate|]); exact H. }
  split; [vm_compute; reflexivity|]. split; [vm_compute; reflexivity|]. split; [lia|].
  unfold inquire_stack, gap_nelem. match goal with |- context [0 <? ?l] => set (len := l) end. assert (EL : len = 2 ^ 64 - 152) by (vm_compute; reflexivity). clearbody len. subst len. cbn [Z.ltb m_align m_part]. unfold ma_nelem.
  change (Z.ltb 0 (2 ^ 64 - 152)) with true. change (2 ^ 64 - 152 <=? OVERHEAD) with false. change (e_size ma_E0 4 =? 0) with false. cbv zeta iota.
  set (n := i64 ((2 ^ 64 - 152 - OVERHEAD) / e_size ma_E0 4)). assert (EN : n = 2305843009213693922) by (vm_compute; reflexivity). clearbody n. subst n. change (2305843009213693922 <=? 0) with false. cbv iota.
  destruct (Z.to_nat 2305843009213693922) eqn:Q; [lia|]. cbn [try_nelem]. assert (EN : Z.of_nat (S n) = 2305843009213693922) by lia. rewrite EN. reflexivity.
Qed.

Print Assumptions ma_blocks_partial.
Print Assumptions ma_calls_partial.
Print Assumptions ma_refusals_partial.
Print Assumptions ma_inquiries_partial.
Print Assumptions ma_blocks_refuted_piece.
Print Assumptions ma_calls_refuted_overflow.
Print Assumptions ma_refusals_refuted_leak.
Print Assumptions ma_inquiries_refuted_heap_no_partition.
Print Assumptions ma_inquiries_refuted_stack_check_heap.
Print Assumptions ma_inquiries_refuted_stack.
