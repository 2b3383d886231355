(** The remaining calls of the MA allocator keep its invariant. *)
From Coq Require Import ZArith List Lia Bool Permutation.
From Verif Require Import SpecMa MBase MMa LMa LMaH LMaT LMaS.

Lemma nd_app_l {A} (l l' : list A) : NoDup (l ++ l') -> NoDup l.
Proof. induction l as [|x l IH]; cbn [app]; intros H; [constructor|]. inversion H as [|? ? N D]; subst. constructor; [|auto]. intros I. apply N, in_or_app. now left. Qed.
Lemma drop_mid h v l1 l2 : ~ In h (handles (l1 ++ l2)) -> drop_handle h (l1 ++ (h, v) :: l2) = l1 ++ l2.
Proof.
  intros N. unfold drop_handle. rewrite filter_app. cbn [filter fst]. rewrite Z.eqb_refl. cbn [negb]. unfold handles in N. rewrite map_app in N. f_equal; apply filter_all; intros y I; destruct (Z.eqb_spec (fst y) h) as [F|]; auto; exfalso; apply N, in_or_app; rewrite <- F; [left|right]; now apply in_map.
Qed.
Lemma count_mid h v l1 l2 : ~ In h (handles l1) -> count_of h (l1 ++ (h, v) :: l2) = snd v.
Proof.
  induction l1 as [|y l1 IH]; cbn [app count_of fst snd]; [now rewrite Z.eqb_refl|]. intros N. destruct (Z.eqb_spec (fst y) h) as [F|]; [exfalso; apply N; now left|]. apply IH. intros I. apply N. now right.
Qed.
Lemma shrink_mid h n v l1 l2 : ~ In h (handles (l1 ++ l2)) -> shrink h n (l1 ++ (h, v) :: l2) = l1 ++ (h, (fst v, snd v - n)) :: l2.
Proof.
  intros N. unfold shrink. rewrite map_app. cbn [map fst snd]. rewrite Z.eqb_refl. unfold handles in N. rewrite map_app in N. f_equal; [|f_equal].
  - rewrite <- (map_id l1) at 2. apply map_ext_in. intros y I. destruct (Z.eqb_spec (fst y) h) as [F|]; auto. exfalso; apply N, in_or_app; rewrite <- F. left. now apply in_map.
  - rewrite <- (map_id l2) at 2. apply map_ext_in. intros y I. destruct (Z.eqb_spec (fst y) h) as [F|]; auto. exfalso; apply N, in_or_app; rewrite <- F. right. now apply in_map.
Qed.
Lemma chop_mid h v l1 l2 : ~ In h (handles l1) -> chopped h (l1 ++ (h, v) :: l2) = l2.
Proof.
  induction l1 as [|y l1 IH]; cbn [app chopped fst]; [now rewrite Z.eqb_refl|]. intros N. destruct (Z.eqb_spec (fst y) h) as [F|]; [exfalso; apply N; now left|]. apply IH. intros I. apply N. now right.
Qed.

Section S.
Variable E : ma_env.
Hypothesis HE : ma_env_ok E.
Notation sz := (e_size E).
Notation bs := (e_base E).
Notation inv := (inv E).

(** Facts on a heap block and the others. *)
Lemma split_heap b s L K KS T h x : inv b s L K KS T -> In (h, x) K -> exists K1 K2 T1 T2, K = K1 ++ (h, x) :: K2 /\ T = T1 ++ (true, x) :: T2 /\
  (forall z, In z (map snd (K1 ++ K2)) -> a_at z <> a_at x) /\ ~ In h (map fst (K1 ++ K2)) /\ Permutation (map snd (K1 ++ K2)) (useds T1 ++ useds T2).
Proof.
  intros I H. destruct (in_split _ _ H) as (K1 & K2 & EK). assert (HX : In x (map snd K)) by (apply (in_map snd) in H; exact H). apply (Permutation_in _ (i_perm _ _ _ _ _ _ _ I)), in_useds in HX. destruct (in_split _ _ HX) as (T1 & T2 & ET).
  exists K1, K2, T1, T2. split; [exact EK|]. split; [exact ET|]. pose proof (inv_nodup _ _ _ _ _ _ _ I) as NA. destruct (inv_handles _ _ _ _ _ _ _ I) as (NH & _). subst K T. split; [|split].
  - rewrite map_app, map_app in NA. apply nd_app_l in NA. rewrite !map_app in NA. cbn [map snd] in NA. apply NoDup_remove_2 in NA. intros z HZ EZ. apply NA. rewrite <- EZ. rewrite <- !map_app. now apply in_map.
  - rewrite map_app in NH. apply nd_app_l in NH. rewrite map_app in *. cbn [map fst] in NH. now apply NoDup_remove_2 in NH.
  - pose proof (i_perm _ _ _ _ _ _ _ I) as P. rewrite map_app, useds_app in *. cbn [map snd] in P. change (useds ((true, x) :: T2)) with (x :: useds T2) in P. now apply Permutation_app_inv in P.
Qed.

Lemma free_core b s L K KS T h x : inv b s L K KS T -> In (h, x) K ->
  exists s' K' T', free_heap s h = Some (s', Ret true 0) /\ inv b s' (Live (drop_handle h (lv_heap L)) (lv_stack L)) K' KS T' /\ frame s s' /\ kept (K ++ KS) (K' ++ KS).
Proof.
  intros I H. unfold free_heap. rewrite (i_hu _ _ _ _ _ _ _ I).
  assert (MH : mh2ad s h (map snd K) = Some x).
  { destruct (mh2ad_ok _ _ _ _ _ _ _ h K I) as [(y & HY & ->)|[N _]]; [intros e HE'; apply in_or_app; now left| |exfalso; apply N; apply (in_map fst) in H; exact H].
    destruct (inv_handles _ _ _ _ _ _ _ I) as (NH & _). pose proof (nodup_inj fst _ (h, y) (h, x) NH ltac:(apply in_or_app; now left) ltac:(apply in_or_app; now left) eq_refl). congruence. }
  rewrite MH. destruct (split_heap _ _ _ _ _ _ _ _ I H) as (K1 & K2 & T1 & T2 & EK & ET & NX & NH & PM).
  assert (LD : list_delete (a_at x) (map snd K) = Some (map snd (K1 ++ K2))). { rewrite EK, !map_app. cbn [map snd]. apply delete_mid. intros z HZ; apply NX; rewrite map_app; apply in_or_app; now left. }
  rewrite LD.
  set (s0 := set_heap s (m_hp s) (m_hfree s) (map snd (K1 ++ K2))).
  destruct (inv_ends _ _ _ _ _ _ _ I) as (E1 & E2 & E3). pose proof (i_eos _ _ _ _ _ _ _ I) as EO. pose proof (i_chain _ _ _ _ _ _ _ I) as CH. pose proof (i_last _ _ _ _ _ _ _ I) as LU. pose proof (i_sep _ _ _ _ _ _ _ I) as SP. rewrite ET in CH, LU, SP.
  destruct (block_free_ok s0 x T1 T2) as (T' & B1 & B2 & B3 & B4 & B5 & B6 & B7).
  { apply (i_seg _ _ _ _ _ _ _ I). } { cbn. lia. } { eapply chain_flip; exact CH. }
  { cbn. rewrite (i_free _ _ _ _ _ _ _ I), ET, frees_app. reflexivity. } { exact PM. } { exact (proj1 (last_app _ _ _ LU)). } { eapply sep_app; eauto. }
  set (s1 := block_free_heap s0 x) in *. cbn zeta in B1.
  destruct (table_deallocate_ok s1 (map atof K1) h (a_at x) (map atof (K2 ++ KS))) as (tab & e & TD & TO).
  { rewrite B1. cbn. pose proof (i_tab _ _ _ _ _ _ _ I) as TO. rewrite EK, <- app_assoc, map_app in TO. exact TO. }
  rewrite TD. eexists _, (K1 ++ K2), T'. split; [reflexivity|]. split; [|split].
  - rewrite B1. cbn [s0] in *. split; cbn; try exact (i_ls _ _ _ _ _ _ _ I); try exact (i_su _ _ _ _ _ _ _ I); try exact (i_stk _ _ _ _ _ _ _ I); try apply (i_seg _ _ _ _ _ _ _ I); try apply (i_d8 _ _ _ _ _ _ _ I); try apply (i_d8s _ _ _ _ _ _ _ I); try apply (i_eos _ _ _ _ _ _ _ I); try apply (i_size _ _ _ _ _ _ _ I); try apply (i_al _ _ _ _ _ _ _ I); auto.
    + rewrite (i_lh _ _ _ _ _ _ _ I), EK, !map_app. cbn [map]. unfold lvof at 2. cbn [fst snd]. apply drop_mid. now rewrite <- map_app, handles_lvof.
    + now rewrite B5.
    + pose proof (i_lay _ _ _ _ _ _ _ I) as LY. rewrite EK in LY. rewrite !map_app in *. cbn [map snd] in LY. rewrite !Forall_app in *. destruct LY as [[L1 L2] L3]. inversion L2; auto.
    + cbn in B2. lia.
    + rewrite <- app_assoc, map_app. rewrite B1 in TO. exact TO.
    + intros Bt y HY. apply (i_pc _ _ _ _ _ _ _ I Bt). rewrite EK, map_app. rewrite map_app in HY. cbn [map snd]. apply in_or_app. apply in_app_or in HY as [HY|HY]; [now left|right; now right].
  - rewrite B1. repeat split.
  - apply kept_incl; [apply (inv_handles _ _ _ _ _ _ _ I)|]. intros w HW _. rewrite EK. rewrite !in_app_iff in *. cbn [In]. tauto.
Qed.
Lemma free_ok b s L K KS T h : inv b s L K KS T -> step_res E b s L K KS (FreeHeap h) (ma_step E s (FreeHeap h)).
Proof.
  intros I. cbn [ma_step]. destruct (inv_handles _ _ _ _ _ _ _ I) as (_ & _ & HH & _).
  destruct (mh2ad_ok _ _ _ _ _ _ _ h K I) as [(x & HX & _)|[N MH]]; [intros e HE'; apply in_or_app; now left| |].
  - destruct (free_core _ _ _ _ _ _ _ _ I HX) as (s' & K' & T' & F & IV & FR & KP). exists s', (Ret true 0), K', KS, T'. split; [exact F|]. split; [|auto]. cbn [expected]. rewrite HH. split; [|auto]. intros _. apply (in_map fst) in HX. exact HX.
  - unfold free_heap. rewrite (i_hu _ _ _ _ _ _ _ I), MH. eapply step_same; [exact I| |reflexivity]. cbn [expected]. rewrite HH. split; [discriminate|contradiction].
Qed.

Lemma kept_change A1 h x x' A2 : NoDup (map fst (A1 ++ (h, x) :: A2)) -> a_cs x' = a_cs x -> kept (A1 ++ (h, x) :: A2) (A1 ++ (h, x') :: A2).
Proof.
  intros N C h0 y y' HY HY'. rewrite in_app_iff in HY'. cbn [In] in HY'.
  assert (D : In (h0, y') (A1 ++ (h, x) :: A2) \/ (h0 = h /\ y' = x')). { rewrite in_app_iff. cbn [In]. destruct HY' as [|[Q|]]; auto. right. split; congruence. }
  destruct D as [D|[-> ->]].
  - pose proof (nodup_inj fst _ _ _ N HY D eq_refl). congruence.
  - pose proof (nodup_inj fst _ (h, y) (h, x) N HY ltac:(apply in_or_app; right; now left) eq_refl). congruence.
Qed.

(** A tile replaced by another of the same extent. *)
Definition upd_tile (z : ad) (T : list tile) : list tile := map (fun t => (fst t, if fst t && (a_at (snd t) =? a_at z) then z else snd t)) T.
Lemma upd_frees z T : frees (upd_tile z T) = frees T.
Proof. unfold frees, upd_tile. induction T as [|[u y] T IH]; [reflexivity|]. cbn [map filter fst snd]. destruct u; cbn [negb andb map snd]; [exact IH|now rewrite IH]. Qed.
Lemma upd_useds z T : useds (upd_tile z T) = update_ad z (useds T).
Proof. unfold useds, upd_tile, update_ad. induction T as [|[u y] T IH]; [reflexivity|]. cbn [map filter fst snd]. destruct u; cbn [andb map snd]; [now rewrite IH|exact IH]. Qed.
Lemma upd_sep z T : forall b, sep b T -> sep b (upd_tile z T).
Proof. unfold upd_tile. induction T as [|[u y] T IH]; intros b; cbn [map fst sep]; [auto|]. destruct u; [apply IH|]. intros [A B]. auto. Qed.
Lemma upd_last z T : last_used T -> last_used (upd_tile z T).
Proof. intros [->|(T0 & y & ->)]; [now left|]. right. unfold upd_tile. rewrite map_app. cbn [map fst snd andb]. eauto. Qed.
Lemma upd_chain z T : forall p q, (forall y, In y (useds T) -> a_at y = a_at z -> a_nb y = a_nb z) -> chain p T q -> chain p (upd_tile z T) q.
Proof.
  unfold upd_tile. induction T as [|[u y] T IH]; intros p q H; cbn [map fst snd chain]; [auto|]. intros (A & B & C & D). destruct u; cbn [andb].
  - assert (H' : forall y0, In y0 (useds T) -> a_at y0 = a_at z -> a_nb y0 = a_nb z) by (intros; apply H; [now right|auto]). destruct (Z.eqb_spec (a_at y) (a_at z)) as [F|F]; [|repeat split; auto]. pose proof (H y ltac:(now left) F) as HN. split; [lia|]. rewrite <- HN. split; [exact B|]. split; [exact C|]. apply IH; auto.
  - repeat split; auto.
Qed.

Lemma piece_ok s L K KS T h n : inv true s L K KS T -> step_res E true s L K KS (FreePiece h n) (ma_step E s (FreePiece h n)).
Proof.
  intros I. cbn [ma_step]. destruct (inv_handles _ _ _ _ _ _ _ I) as (NHA & _ & HH & _). unfold free_heap_piece. rewrite (i_hu _ _ _ _ _ _ _ I).
  destruct (mh2ad_ok _ _ _ _ _ _ _ h K I) as [(x & HX & ->)|[N ->]]; [intros e HE'; apply in_or_app; now left| |].
  2: { eapply step_same; [exact I| |reflexivity]. cbn [expected]. rewrite HH. split; [discriminate|tauto]. }
  assert (HHX : In h (handles (lv_heap L))) by (rewrite HH; apply (in_map fst) in HX; exact HX).
  destruct (Z.ltb_spec n 0) as [|Hn]; [eapply step_same; [exact I| |reflexivity]; cbn [expected]; split; [discriminate|lia]|].
  destruct (split_heap _ _ _ _ _ _ _ _ I HX) as (K1 & K2 & T1 & T2 & EK & ET & NX & NH & PM).
  assert (CO : count_of h (lv_heap L) = a_ne x). { rewrite (i_lh _ _ _ _ _ _ _ I), EK, map_app. cbn [map]. unfold lvof at 2. cbn [fst snd]. rewrite count_mid; [reflexivity|]. rewrite handles_lvof. rewrite map_app in NH. intros Q. apply NH, in_or_app. now left. }
  destruct (Z.leb_spec (a_ne x) n) as [LE|GT].
  { destruct (free_core _ _ _ _ _ _ _ _ I HX) as (s' & K' & T' & F & IV & FR & KP). exists s', (Ret true 0), K', KS, T'. split; [exact F|]. split; [cbn [expected]; tauto|]. cbn [live_step]. rewrite CO. destruct (Z.leb_spec (a_ne x) n); [auto|lia]. }
  destruct (inv_heap_in _ _ _ _ _ _ _ x I) as (R1 & R2 & R3 & R4 & R5 & LX); [apply (in_map snd) in HX; exact HX|]. pose proof LX as (D1 & D2 & D3 & D4 & D5 & D6).
  pose proof (i_pc _ _ _ _ _ _ _ I eq_refl x ltac:(apply (in_map snd) in HX; exact HX)) as PC. destruct (inv_ends _ _ _ _ _ _ _ I) as (E1 & E2 & E3). pose proof (i_eos _ _ _ _ _ _ _ I) as EO. pose proof (i_seg _ _ _ _ _ _ _ I) as S0. pose proof (i_al _ _ _ _ _ _ _ I) as Hk.
  set (keep := a_ne x - n). pose proof (sz_pos E HE (a_dt x) D1) as SZ. assert (KL : keep * sz (a_dt x) <= a_ne x * sz (a_dt x)) by (unfold keep; nia). assert (K0 : 0 <= keep) by (unfold keep; lia).
  rewrite (balloc_after_ok E HE) by (auto; lia). cbn [fst snd]. destruct (nb_after_ok E HE (m_align s) (a_dt x) keep (a_at x) D1 Hk K0 R5) as (N1 & N2 & N3 & N4). rewrite <- PC in N3.
  set (nb := nb_after E (m_align s) (a_dt x) keep (a_at x)) in *.
  assert (NB : nb <= a_nb x). { unfold nb, nb_after. rewrite <- PC. pose proof (ceilm_least 8 0 (a_cs x + keep * sz (a_dt x) + 4) (a_at x + a_nb x) ltac:(lia) ltac:(lia)) as Q. rewrite Z.sub_0_r in Q. specialize (Q ltac:(now apply Z.divide_add_r)). unfold up8. lia. }
  pose proof (i_chain _ _ _ _ _ _ _ I) as CH. pose proof (i_last _ _ _ _ _ _ _ I) as LU. pose proof (i_sep _ _ _ _ _ _ _ I) as SP. rewrite ET in CH, LU, SP. pose proof CH as CH'. apply chain_app in CH' as (p & C1 & C2). cbn [chain] in C2. destruct C2 as (C2 & _ & _ & C3).
  assert (KK : forall x', map snd (K1 ++ (h, x') :: K2) = map snd K1 ++ x' :: map snd K2) by (intros; rewrite map_app; reflexivity).
  assert (KX : map snd K = map snd K1 ++ x :: map snd K2) by (rewrite EK; apply KK).
  assert (KN : forall z, In z (map snd K1 ++ map snd K2) -> a_at z <> a_at x) by (intros z; rewrite <- map_app; apply NX).
  (* the result, given the final state *)
  assert (FIN : forall hp hf nb' T', nb <= nb' -> a_nb x >= nb' -> chain (m_seg s) T' hp -> hp <= m_hp s -> hf = frees T' ->
      Permutation (map snd (K1 ++ (h, Ad (a_at x) (a_dt x) keep (a_cs x) nb') :: K2)) (useds T') -> last_used T' -> sep true T' ->
      step_res E true s L K KS (FreePiece h n) (Some (set_heap s hp hf (map snd (K1 ++ (h, Ad (a_at x) (a_dt x) keep (a_cs x) nb') :: K2)), Ret true 0))).
  { intros hp hf nb' T' B1 B2 B3 B4 B5 B6 B7 B8. set (x' := Ad (a_at x) (a_dt x) keep (a_cs x) nb') in *. eexists _, _, (K1 ++ (h, x') :: K2), KS, T'. split; [reflexivity|]. split; [cbn [expected]; tauto|]. cbn [live_step]. rewrite CO. destruct (Z.leb_spec (a_ne x) n); [lia|]. split; [|split].
    - split; cbn; try exact (i_ls _ _ _ _ _ _ _ I); try exact (i_su _ _ _ _ _ _ _ I); try exact (i_stk _ _ _ _ _ _ _ I); try apply (i_seg _ _ _ _ _ _ _ I); try apply (i_d8 _ _ _ _ _ _ _ I); try apply (i_d8s _ _ _ _ _ _ _ I); try apply (i_eos _ _ _ _ _ _ _ I); try apply (i_size _ _ _ _ _ _ _ I); try apply (i_al _ _ _ _ _ _ _ I); auto; try lia.
      + rewrite (i_lh _ _ _ _ _ _ _ I), EK, !map_app. cbn [map]. unfold lvof at 2 5. cbn [fst snd]. rewrite shrink_mid by (now rewrite <- map_app, handles_lvof). cbn [fst snd a_ne a_dt x']. reflexivity.
      + pose proof (i_lay _ _ _ _ _ _ _ I) as LY. rewrite EK in LY. rewrite !map_app in *. cbn [map snd] in *. rewrite !Forall_app in *. destruct LY as [[L1 L2] L3]. inversion L2; subst. repeat split; auto. constructor; auto. unfold lay, x'. cbn [a_at a_dt a_ne a_cs a_nb]. repeat split; auto; try lia.
      + pose proof (i_tab _ _ _ _ _ _ _ I) as TO. rewrite EK in TO. rewrite <- app_assoc in *. rewrite map_app in *. exact TO.
      + intros _ y HY. rewrite KK in HY. apply in_app_or in HY as [HY|[<-|HY]]; [|exact PC|]; apply (i_pc _ _ _ _ _ _ _ I eq_refl); rewrite EK, KK; apply in_or_app; [now left|right; now right].
    - repeat split.
    - rewrite EK, <- !app_assoc. apply kept_change; [|reflexivity]. rewrite EK, <- app_assoc in NHA. exact NHA. }
  assert (NOSPLIT : step_res E true s L K KS (FreePiece h n) (let '(x1, rest) := (x, @None ad) in
        let s1 := set_heap s (m_hp s) (m_hfree s) (update_ad x1 (m_hused s)) in
        let s2 := match rest with Some y => block_free_heap s1 y | None => s1 end in
        Some (set_heap s2 (m_hp s2) (m_hfree s2) (update_ad (Ad (a_at x1) (a_dt x1) keep (a_cs x1) (a_nb x1)) (m_hused s2)), Ret true 0))).
  { cbn zeta. cbn [set_heap m_hp m_hfree m_hused m_seg m_part m_eos m_sp m_sused m_align m_tab m_entries m_next]. rewrite (i_hu _ _ _ _ _ _ _ I), KX. rewrite (update_mid x x) by (auto; intros; now apply KN). rewrite (update_mid x) by (auto; intros; now apply KN). rewrite <- (KK (Ad (a_at x) (a_dt x) keep (a_cs x) (a_nb x))).
    change (set_heap (set_heap ?a ?b ?c ?d) ?e ?f ?g) with (set_heap a e f g).
    apply (FIN (m_hp s) (m_hfree s) (a_nb x) (T1 ++ (true, Ad (a_at x) (a_dt x) keep (a_cs x) (a_nb x)) :: T2)); auto; try lia.
    - apply chain_app. exists p. split; [exact C1|]. cbn [chain a_at a_nb]. auto.
    - rewrite frees_app, (i_free _ _ _ _ _ _ _ I), ET, frees_app. reflexivity.
    - rewrite KK, useds_app. apply Permutation_elt. now rewrite <- map_app.
    - destruct T2 as [|t2 T2]; [right; eauto|]. assert (LU0 : last_used (t2 :: T2)) by (exact (proj1 (last_app _ _ _ LU))). pose proof (last_put (T1 ++ [(true, Ad (a_at x) (a_dt x) keep (a_cs x) (a_nb x))]) (t2 :: T2) ltac:(discriminate) LU0) as LU1. rewrite <- app_assoc in LU1. exact LU1.
    - eapply sep_swap; eauto. }
  destruct (Z.ltb_spec nb (a_nb x)) as [LT|GE].
  2: { rewrite <- (i_hu _ _ _ _ _ _ _ I). exact NOSPLIT. }
  unfold block_split. cbn zeta. rewrite (u64_small (a_nb x - nb)), MINBLOCK_eq by lia. destruct (Z.leb_spec 96 (a_nb x - nb)) as [SPL|NSP]; [|rewrite <- (i_hu _ _ _ _ _ _ _ I); exact NOSPLIT].
  clear NOSPLIT. set (x1 := Ad (a_at x) (a_dt x) (a_ne x) (a_cs x) nb). set (y := Ad (u64 (a_at x + nb)) 0 0 0 (a_nb x - nb)). assert (YA : a_at y = a_at x + nb) by (unfold y; cbn [a_at]; apply u64_small; lia).
  set (x2 := Ad (a_at x) (a_dt x) keep (a_cs x) nb). cbn [a_at a_dt a_cs a_nb x1]. fold x2.
  rewrite KX, (update_mid x x1) by (auto; intros; now apply KN). set (s1 := set_heap s (m_hp s) (m_hfree s) (map snd K1 ++ x1 :: map snd K2)).
  destruct (block_free_ok s1 y (T1 ++ [(true, x1)]) T2) as (T' & B1 & B2 & B3 & B4 & B5 & B6 & B7).
  { exact S0. } { cbn. lia. }
  { cbn. rewrite <- app_assoc. apply chain_app. exists p. split; [exact C1|]. cbn [app chain]. rewrite YA. cbn [x1 y a_at a_nb]. rewrite C2. repeat split; auto; try lia; [now apply Z.divide_sub_r|]. replace (p + nb + (a_nb x - nb)) with (p + a_nb x) by lia. exact C3. }
  { cbn. rewrite (i_free _ _ _ _ _ _ _ I), ET, !frees_app. change (frees [(true, x1)]) with (@nil ad). rewrite app_nil_r. reflexivity. }
  { cbn. rewrite useds_app, <- app_assoc. change (useds [(true, x1)]) with [x1]. cbn [app]. apply Permutation_elt. rewrite <- map_app. exact PM. }
  { exact (proj1 (last_app _ _ _ LU)). } { apply sep_snoc. eapply sep_app; eauto. }
  set (s2 := block_free_heap s1 y) in *. cbn zeta in B1.
  assert (UF : set_heap s2 (m_hp s2) (m_hfree s2) (update_ad x2 (m_hused s2)) = set_heap s (m_hp s2) (m_hfree s2) (map snd (K1 ++ (h, x2) :: K2))).
  { rewrite KK. rewrite <- (update_mid x1 x2) by (auto; intros; now apply KN). rewrite B1. reflexivity. }
  rewrite UF. apply (FIN (m_hp s2) (m_hfree s2) nb (upd_tile x2 T')); auto; try lia.
  - apply upd_chain; [|exact B3]. rewrite B5, useds_app, <- app_assoc. intros w HW EW. change (useds [(true, x1)]) with [x1] in HW. cbn [app] in HW. apply in_app_or in HW as [HW|[<-|HW]]; [|reflexivity|]; exfalso; cbn [a_at x2] in EW; apply (KN w); auto; rewrite <- map_app; apply (Permutation_in _ (Permutation_sym PM)), in_or_app; auto.
  - now rewrite upd_frees.
  - rewrite upd_useds, B5. rewrite KK, <- (update_mid x1 x2) by (auto; intros; now apply KN). unfold update_ad at 1 2. apply Permutation_map. rewrite useds_app, <- app_assoc. change (useds [(true, x1)]) with [x1]. cbn [app]. apply Permutation_elt. now rewrite <- map_app.
  - now apply upd_last.
  - now apply upd_sep.
Qed.
End S.
