(** The calls of the MA allocator keep its invariant. *)
From Coq Require Import ZArith List Lia Bool Permutation.
From Verif Require Import SpecMa MBase MMa LMa LMaH LMaT.

Lemma nodup_inj {A} (f : A -> Z) l a b : NoDup (map f l) -> In a l -> In b l -> f a = f b -> a = b.
Proof.
  induction l as [|x l IH]; [easy|]. cbn [map]. intros N. inversion N as [|? ? NI ND]; subst. intros [->|IA] [->|IB] E; auto.
  - exfalso. apply NI. rewrite E. now apply in_map.
  - exfalso. apply NI. rewrite <- E. now apply in_map.
Qed.
Lemma list_find_ok p l : match list_find p l with Some y => In y l /\ a_at y = p | None => forall y, In y l -> a_at y <> p end.
Proof.
  induction l as [|z l IH]; cbn [list_find]; [easy|]. destruct (Z.eqb_spec (a_at z) p) as [E|N]; [split; [now left|exact E]|].
  destruct (list_find p l); [destruct IH; split; [now right|auto]|]. intros y [<-|I]; auto.
Qed.
Lemma sep_app A : forall b B, sep b (A ++ B) -> sep b A.
Proof. induction A as [|[u x] A IH]; intros b B; cbn [app sep]; [auto|]. destruct u; [apply IH|]. intros [H K]. split; [exact H|eapply IH; eauto]. Qed.
Lemma last_app A t B : last_used (A ++ t :: B) -> last_used B /\ (B = [] -> fst t = true).
Proof.
  intros [H|(T0 & x & H)]; [now destruct A|]. destruct (exists_last (l := t :: B)) as (B0 & w & E); [easy|]. rewrite E, app_assoc in H. apply app_inj_tail in H as [_ ->].
  destruct B0 as [|t0 B0]; injection E as -> ->; [split; [now left|reflexivity]|]. split; [right; eauto|]. intros H. now destruct B0.
Qed.
Lemma last_put A B : B <> [] -> last_used B -> last_used (A ++ B).
Proof. intros N [->|(T0 & x & ->)]; [easy|]. right. exists (A ++ T0), x. now rewrite app_assoc. Qed.
Lemma sep_true_any b A : sep b A -> sep true A.
Proof. destruct A as [|[u x] A]; cbn [sep]; [auto|]. destruct u; [auto|]. intros [_ H]. auto. Qed.
Lemma sep_use A : forall b x z B, sep b (A ++ (false, x) :: B) -> sep b (A ++ (true, z) :: B).
Proof.
  induction A as [|[u y] A IH]; intros b x z B; cbn [app sep].
  - intros [_ H]. now apply sep_true_any in H.
  - destruct u; [apply IH|]. intros [H K]. split; [exact H|eapply IH; eauto].
Qed.
Lemma sep_use2 A : forall b x z y B, sep b (A ++ (false, x) :: B) -> sep b (A ++ (true, z) :: (false, y) :: B).
Proof.
  induction A as [|[u w] A IH]; intros b x z y B; cbn [app sep].
  - intros [_ H]. split; [reflexivity|exact H].
  - destruct u; [apply IH|]. intros [H K]. split; [exact H|eapply IH; eauto].
Qed.
Lemma sep_swap A : forall b x z B, sep b (A ++ (true, x) :: B) -> sep b (A ++ (true, z) :: B).
Proof. induction A as [|[u w] A IH]; intros b x z B; cbn [app sep]; [auto|]. destruct u; [apply IH|]. intros [H K]. split; [exact H|eapply IH; eauto]. Qed.
Lemma sep_snoc z A : forall b, sep b A -> sep b (A ++ [(true, z)]).
Proof. induction A as [|[u y] A IH]; intros b; cbn [app sep]; [auto|]. destruct u; [apply IH|]. intros [H K]. split; [exact H|apply IH, K]. Qed.
Lemma chain_flip A : forall p u x v B q, chain p (A ++ (u, x) :: B) q -> chain p (A ++ (v, x) :: B) q.
Proof. intros p u x v B q H. apply chain_app in H as (m & H1 & H2). apply chain_app. exists m. split; [exact H1|exact H2]. Qed.

Definition lvof (e : Z * ad) : Z * (Z * Z) := (fst e, (a_dt (snd e) + 1000, a_ne (snd e))).
Definition atof (e : Z * ad) : Z * Z := (fst e, a_at (snd e)).
Lemma handles_lvof K : handles (map lvof K) = map fst K.
Proof. unfold handles. rewrite map_map. reflexivity. Qed.
Lemma fst_atof K : map fst (map atof K) = map fst K.
Proof. rewrite map_map. reflexivity. Qed.

Section S.
Variable E : ma_env.
Hypothesis HE : ma_env_ok E.
Notation sz := (e_size E).
Notation bs := (e_base E).

(** The descriptor of a block in use. *)
Definition lay (x : ad) : Prop :=
  0 <= a_dt x < 17 /\ 0 <= a_ne x /\ a_ne x * sz (a_dt x) < 2 ^ 62 /\ a_at x + 84 <= a_cs x /\
  a_cs x + a_ne x * sz (a_dt x) + 4 <= a_at x + a_nb x /\ (sz (a_dt x) | a_cs x - bs (a_dt x)).

Record inv (b : bool) (s : mas) (L : ma_live) (K KS : list (Z * ad)) (T : list tile) : Prop := Inv {
  i_lh : lv_heap L = map lvof K; i_ls : lv_stack L = map lvof KS;
  i_hu : m_hused s = map snd K; i_su : m_sused s = map snd KS;
  i_chain : chain (m_seg s) T (m_hp s); i_free : m_hfree s = frees T; i_perm : Permutation (map snd K) (useds T);
  i_last : last_used T; i_sep : sep true T;
  i_stk : chain (m_sp s) (map (fun e => (true, snd e)) KS) (m_eos s);
  i_lay : Forall lay (map snd (K ++ KS));
  i_seg : 0 <= m_seg s; i_d8 : (8 | m_seg s); i_d8s : (8 | m_sp s); i_hs : m_hp s <= m_sp s; i_eos : m_eos s < 2 ^ 47; i_size : m_eos s - m_seg s < 2 ^ 33;
  i_al : 0 <= m_align s <= 30;
  i_tab : tab_ok (m_tab s) (m_entries s) (m_next s) (map atof (K ++ KS));
  i_pc : b = true -> forall x, In x (map snd K) -> a_cs x = cs_after E (m_align s) (a_dt x) (a_at x + 84)
}.

Lemma inv_ends b s L K KS T : inv b s L K KS T -> m_seg s <= m_hp s /\ m_hp s <= m_sp s <= m_eos s /\ (8 | m_hp s).
Proof. intros I. pose proof (chain_le _ _ _ (i_chain _ _ _ _ _ _ I)). pose proof (chain_le _ _ _ (i_stk _ _ _ _ _ _ I)). pose proof (i_hs _ _ _ _ _ _ I). split; [auto|split; [auto|]]. apply (chain_div _ _ _ (i_chain _ _ _ _ _ _ I)), (i_d8 _ _ _ _ _ _ I). Qed.
Lemma inv_heap_in b s L K KS T x : inv b s L K KS T -> In x (map snd K) -> m_seg s <= a_at x /\ a_at x + a_nb x <= m_hp s /\ 88 <= a_nb x /\ (8 | a_nb x) /\ (8 | a_at x) /\ lay x.
Proof.
  intros I H. assert (H' : In (true, x) T) by (apply in_useds, (Permutation_in _ (i_perm _ _ _ _ _ _ I)), H). destruct (chain_in _ _ _ _ _ (i_chain _ _ _ _ _ _ I) H') as (A & B & C & D). repeat (split; [assumption|]). split.
  - eapply chain_div_in; [apply (i_chain _ _ _ _ _ _ I)|apply (i_d8 _ _ _ _ _ _ I)|exact H'].
  - apply (proj1 (Forall_forall _ _) (i_lay _ _ _ _ _ _ I)). rewrite map_app. apply in_or_app. now left.
Qed.
Lemma inv_stack_in b s L K KS T x : inv b s L K KS T -> In x (map snd KS) -> m_sp s <= a_at x /\ a_at x + a_nb x <= m_eos s /\ 88 <= a_nb x /\ (8 | a_nb x) /\ lay x.
Proof.
  intros I H. assert (H' : In (true, x) (map (fun e : Z * ad => (true, snd e)) KS)). { apply in_map_iff in H as (e & <- & H). apply (in_map (fun e => (true, snd e))) in H. exact H. }
  destruct (chain_in _ _ _ _ _ (i_stk _ _ _ _ _ _ I) H') as (A & B & C & D). repeat (split; [assumption|]).
  apply (proj1 (Forall_forall _ _) (i_lay _ _ _ _ _ _ I)). rewrite map_app. apply in_or_app. now right.
Qed.
Lemma inv_in b s L K KS T x : inv b s L K KS T -> In x (map snd (K ++ KS)) -> m_seg s <= a_at x /\ a_at x + a_nb x <= m_eos s /\ 88 <= a_nb x /\ lay x.
Proof.
  intros I H. destruct (inv_ends _ _ _ _ _ _ I) as (A & B & _). rewrite map_app in H. apply in_app_or in H as [H|H].
  - destruct (inv_heap_in _ _ _ _ _ _ _ I H) as (H1 & H2 & H3 & H4 & H5 & H6). split; [lia|split; [lia|split; [lia|exact H6]]].
  - destruct (inv_stack_in _ _ _ _ _ _ _ I H) as (H1 & H2 & H3 & H4 & H5). split; [lia|split; [lia|split; [lia|exact H5]]].
Qed.
Lemma nodup_app {A} (f : A -> Z) l l' : NoDup (map f l) -> NoDup (map f l') -> (forall x y, In x l -> In y l' -> f x <> f y) -> NoDup (map f (l ++ l')).
Proof.
  induction l as [|x l IH]; cbn [app map]; [auto|]. intros N N' D. inversion N as [|? ? NI ND]; subst. constructor; [|apply IH; auto; intros; apply D; auto; now right].
  rewrite map_app, in_app_iff. intros [I|I]; [auto|]. apply in_map_iff in I as (y & E0 & I). symmetry in E0. revert E0. apply D; auto. now left.
Qed.
Lemma inv_nodup b s L K KS T : inv b s L K KS T -> NoDup (map a_at (map snd (K ++ KS))).
Proof.
  intros I. rewrite map_app. apply nodup_app.
  - eapply Permutation_NoDup; [apply Permutation_map, Permutation_sym, (i_perm _ _ _ _ _ _ I)|]. eapply useds_nodup, (i_chain _ _ _ _ _ _ I).
  - pose proof (chain_nodup _ _ _ (i_stk _ _ _ _ _ _ I)) as H. rewrite map_map in *. exact H.
  - intros x y HX HY. destruct (inv_heap_in _ _ _ _ _ _ _ I HX) as (A & B & C & _). destruct (inv_stack_in _ _ _ _ _ _ _ I HY) as (A' & _). destruct (inv_ends _ _ _ _ _ _ I). lia.
Qed.
Lemma inv_handles b s L K KS T : inv b s L K KS T -> NoDup (map fst (K ++ KS)) /\ handles (lv_all L) = map fst (K ++ KS) /\ handles (lv_heap L) = map fst K /\ handles (lv_stack L) = map fst KS.
Proof.
  intros I. destruct (i_tab _ _ _ _ _ _ I) as (_ & N & _). rewrite fst_atof in N. split; [exact N|]. unfold lv_all. rewrite (i_lh _ _ _ _ _ _ I), (i_ls _ _ _ _ _ _ I), <- map_app, !handles_lvof. auto.
Qed.
Lemma inv_count b s L K KS T : inv b s L K KS T -> 88 * Z.of_nat (length (K ++ KS)) < 2 ^ 33.
Proof.
  intros I. pose proof (useds_len _ _ _ (i_chain _ _ _ _ _ _ I)) as A. pose proof (useds_len _ _ _ (i_stk _ _ _ _ _ _ I)) as B.
  rewrite <- (Permutation_length (i_perm _ _ _ _ _ _ I)), map_length in A.
  assert (U : useds (map (fun e : Z * ad => (true, snd e)) KS) = map snd KS). { clear. induction KS as [|e KS IH]; [reflexivity|]. unfold useds in *. cbn [map filter fst snd]. now rewrite IH. }
  rewrite U, map_length in B. pose proof (i_size _ _ _ _ _ _ I). pose proof (i_hs _ _ _ _ _ _ I). rewrite app_length. lia.
Qed.

(** ma.c 1600-1734. *)
Lemma mh2ad_ok b s L K KS T h KK : inv b s L K KS T -> (forall e, In e KK -> In e (K ++ KS)) ->
  (exists x, In (h, x) KK /\ mh2ad s h (map snd KK) = Some x) \/ (~ In h (map fst KK) /\ mh2ad s h (map snd KK) = None).
Proof.
  intros I S. pose proof (inv_nodup _ _ _ _ _ _ I) as NA. destruct (inv_handles _ _ _ _ _ _ I) as (NH & _). rewrite map_map in NA. unfold mh2ad. destruct (table_lookup h (m_tab s)) as [p|] eqn:TL.
  - apply (i_tab _ _ _ _ _ _ I) in TL. apply in_map_iff in TL as ([h' x] & TE & TI). unfold atof in TE. injection TE as TE1 TE2. cbn [fst snd] in *. subst h' p.
    destruct (inv_in _ _ _ _ _ _ x I) as (R1 & R2 & R3 & _); [apply (in_map snd) in TI; exact TI|].
    destruct (Z.leb_spec (m_seg s) (a_at x)); [|lia]. destruct (Z.ltb_spec (a_at x) (m_eos s)); [|lia]. cbn [andb].
    pose proof (list_find_ok (a_at x) (map snd KK)) as F. destruct (list_find (a_at x) (map snd KK)) as [y|].
    + destruct F as [F1 F2]. apply in_map_iff in F1 as ([h' y'] & <- & F1). cbn [snd] in *. pose proof (nodup_inj _ _ _ _ NA (S _ F1) TI F2) as EQ. injection EQ as -> ->. left. exists x. auto.
    + right. split; [|reflexivity]. intros HI. apply in_map_iff in HI as ([h' y] & HE1 & HI). cbn [fst] in HE1. subst h'. pose proof (nodup_inj fst _ _ _ NH (S _ HI) TI eq_refl) as EQ. injection EQ as ->. apply (in_map snd) in HI. exact (F x HI eq_refl).
  - right. split; [|reflexivity]. intros HI. apply in_map_iff in HI as ([h' y] & HE1 & HI). cbn [fst] in HE1. subst h'. apply S in HI. apply (in_map atof) in HI. unfold atof at 1 in HI. cbn [fst snd] in HI. apply (i_tab _ _ _ _ _ _ I) in HI. congruence.
Qed.

(** The pointers of blocks that live on. *)
Definition kept (A A' : list (Z * ad)) : Prop := forall h x x', In (h, x) A -> In (h, x') A' -> a_cs x' = a_cs x.
Definition frame (s s' : mas) : Prop := m_seg s' = m_seg s /\ m_eos s' = m_eos s /\ m_part s' = m_part s.
Lemma kept_incl A A' : NoDup (map fst A) -> (forall e, In e A' -> In (fst e) (map fst A) -> In e A) -> kept A A'.
Proof. intros N S h x x' H H'. apply S in H'; [|cbn [fst]; apply (in_map fst) in H; exact H]. pose proof (nodup_inj fst _ _ _ N H H' eq_refl) as EQ. congruence. Qed.

(** ma.c 2019-2083. *)
Lemma finish_ok b s L K KS T T' z hf : inv b s L K KS T ->
  chain (m_seg s) T' (Z.max (m_hp s) (a_at z + a_nb z)) -> hf = frees T' -> Permutation (z :: useds T) (useds T') -> last_used T' -> sep true T' ->
  a_at z + a_nb z <= m_sp s -> 0 <= a_at z + a_nb z -> lay z -> (b = true -> a_cs z = cs_after E (m_align s) (a_dt z) (a_at z + 84)) ->
  exists s' h, finish_heap true s z hf = Some (s', Ret true h) /\ ~ In h (handles (lv_all L)) /\
    inv b s' (Live ((h, (a_dt z + 1000, a_ne z)) :: lv_heap L) (lv_stack L)) ((h, z) :: K) KS T' /\ frame s s' /\ kept (K ++ KS) (((h, z) :: K) ++ KS) /\ m_sp s' = m_sp s.
Proof.
  intros I C F P LU SP LE GE LY PC. unfold finish_heap. destruct (inv_ends _ _ _ _ _ _ I) as (E1 & E2 & E3). pose proof (i_eos _ _ _ _ _ _ I).
  rewrite u64_small by lia. set (s1 := set_heap _ _ _ _).
  destruct (table_allocate_ok s1 (map atof (K ++ KS)) (a_at z)) as (tab & e & n & h & TA & TO & NI).
  { exact (i_tab _ _ _ _ _ _ I). } { rewrite map_length. pose proof (inv_count _ _ _ _ _ _ I). lia. }
  rewrite TA. cbn [snd fst]. eexists _, h. split; [reflexivity|]. rewrite fst_atof in NI. destruct (inv_handles _ _ _ _ _ _ I) as (NH & HA & _).
  split; [now rewrite HA|]. split; [|split; [split; [reflexivity|split; reflexivity]|split; [|reflexivity]]].
  - split; cbn; try exact (i_ls _ _ _ _ _ _ I); try exact (i_su _ _ _ _ _ _ I); try exact (i_stk _ _ _ _ _ _ I); try apply (i_seg _ _ _ _ _ _ I); try apply (i_d8 _ _ _ _ _ _ I); try apply (i_d8s _ _ _ _ _ _ I); try apply (i_eos _ _ _ _ _ _ I); try apply (i_size _ _ _ _ _ _ I); try apply (i_al _ _ _ _ _ _ I); auto.
    + rewrite (i_lh _ _ _ _ _ _ I). reflexivity.
    + now rewrite (i_hu _ _ _ _ _ _ I).
    + destruct (Z.ltb_spec (m_hp s) (a_at z + a_nb z)); [now rewrite Z.max_r in C by lia|now rewrite Z.max_l in C by lia].
    + rewrite <- P. constructor. apply (i_perm _ _ _ _ _ _ I).
    + constructor; [exact LY|apply (i_lay _ _ _ _ _ _ I)].
    + destruct (m_hp s <? a_at z + a_nb z); lia.
    + intros B x [<-|HX]; [auto|]. apply (i_pc _ _ _ _ _ _ I B x HX).
  - apply kept_incl; [exact NH|]. intros [h' x'] [HX|HX] HH; [|exact HX]. injection HX as <- <-. cbn [fst] in HH. contradiction.
Qed.

(** ma.c 504-528. *)
Lemma first_fit_ok k d ne l : 0 <= d < 17 -> 0 <= k <= 30 -> 0 <= ne -> ne * sz d < 2 ^ 62 -> (forall x, In x l -> 0 <= a_at x < 2 ^ 48 /\ (8 | a_at x)) ->
  (first_fit E k d ne l = Some None /\ forall x, In x l -> a_nb x < nb_after E k d ne (a_at x)) \/
  (exists x, In x l /\ nb_after E k d ne (a_at x) <= a_nb x /\
     let sp := block_split x (nb_after E k d ne (a_at x)) in
     first_fit E k d ne l = Some (Some (Ad (a_at x) (a_dt x) (a_ne x) (cs_after E k d (a_at x + 84)) (a_nb (fst sp)), snd sp))).
Proof.
  intros Hd Hk Hn HL. induction l as [|x l IH]; intros HB; [left; split; [reflexivity|easy]|]. destruct (HB x ltac:(now left)) as [B1 B2]. cbn [first_fit]. rewrite (balloc_after_ok E HE) by auto. cbn [fst snd].
  destruct (Z.leb_spec (nb_after E k d ne (a_at x)) (a_nb x)) as [LE|GT].
  - right. exists x. split; [now left|]. split; [exact LE|reflexivity].
  - destruct IH as [[IH1 IH2]|(y & IH1 & IH2 & IH3)]; [intros y I; apply HB; now right| |].
    + left. split; [exact IH1|]. intros y [<-|I]; auto.
    + right. exists y. split; [now right|]. auto.
Qed.

Lemma after_lay k d ne a nb dt0 : 0 <= d < 17 -> 0 <= k <= 30 -> 0 <= ne -> ne * sz d < 2 ^ 62 -> (8 | a) -> nb_after E k d ne a <= nb -> dt0 = d -> lay (Ad a dt0 ne (cs_after E k d (a + 84)) nb).
Proof.
  intros Hd Hk Hn HL H8 HN ->. destruct (nb_after_ok E HE k d ne a Hd Hk Hn H8) as (A & B & C & D). pose proof (cs_after_ge E HE k d (a + 84) Hd Hk). unfold lay. cbn [a_at a_dt a_ne a_cs a_nb].
  repeat split; auto; try lia. apply (place_base E HE k d); auto. now apply cs_after_ok.
Qed.

Definition step_res (b : bool) (s : mas) (L : ma_live) (K KS : list (Z * ad)) (o : ma_op) (R : option (mas * ma_ret)) : Prop :=
  exists s' r K' KS' T', R = Some (s', r) /\ expected L o r /\ inv b s' (live_step o r L) K' KS' T' /\ frame s s' /\ kept (K ++ KS) (K' ++ KS').
Lemma step_same b s L K KS T o v : inv b s L K KS T -> expected L o (Ret false v) -> live_step o (Ret false v) L = L -> step_res b s L K KS o (Some (s, Ret false v)).
Proof.
  intros I X H. exists s, (Ret false v), K, KS, T. rewrite H. split; [reflexivity|]. split; [exact X|]. split; [exact I|]. split; [repeat split|]. apply kept_incl; [apply (inv_handles _ _ _ _ _ _ I)|auto].
Qed.

Lemma alloc_ok b s L K KS T dt ne : inv b s L K KS T -> in_bytes E (Alloc dt ne true) -> step_res b s L K KS (Alloc dt ne true) (ma_step E s (Alloc dt ne true)).
Proof.
  intros I HB. cbn [ma_step]. unfold allocate_heap.
  assert (ST : forall v, step_res b s L K KS (Alloc dt ne true) (Some (s, Ret false v))) by (intros v; eapply step_same; [exact I|cbn; discriminate|reflexivity]).
  unfold mt_valid. destruct (Z.leb_spec 1000 dt); [|apply ST]. destruct (Z.leb_spec dt 1016); [|apply ST]. cbn [andb negb]. destruct (Z.ltb_spec ne 0) as [|Hn]; [apply ST|].
  cbn [in_bytes] in HB. specialize (HB ltac:(lia) Hn). set (d := dt - 1000) in *. assert (Hd : 0 <= d < 17) by (unfold d; lia). pose proof (i_al _ _ _ _ _ _ I) as Hk. set (k := m_align s) in *.
  destruct (inv_ends _ _ _ _ _ _ I) as (E1 & E2 & E3). pose proof (i_eos _ _ _ _ _ _ I) as EO. pose proof (i_seg _ _ _ _ _ _ I) as S0. pose proof (i_chain _ _ _ _ _ _ I) as CH.
  assert (FIN : forall s' h T' z, ~ In h (handles (lv_all L)) -> a_dt z = d -> a_ne z = ne ->
     inv b s' (Live ((h, (a_dt z + 1000, a_ne z)) :: lv_heap L) (lv_stack L)) ((h, z) :: K) KS T' -> frame s s' -> kept (K ++ KS) (((h, z) :: K) ++ KS) -> step_res b s L K KS (Alloc dt ne true) (Some (s', Ret true h))).
  { intros s' h T' z NI ED EN IV FR KP. exists s', (Ret true h), ((h, z) :: K), KS, T'. split; [reflexivity|]. split; [cbn; auto|]. cbn [live_step]. rewrite ED, EN in IV. replace (d + 1000) with dt in IV by (unfold d; lia). auto. }
  destruct (first_fit_ok k d ne (m_hfree s) Hd Hk Hn HB) as [[FF _]|(x & XI & XN & FF)].
  { intros x HX. rewrite (i_free _ _ _ _ _ _ I) in HX. apply in_frees in HX. destruct (chain_in _ _ _ _ _ CH HX). split; [lia|]. eapply chain_div_in; [exact CH|apply (i_d8 _ _ _ _ _ _ I)|exact HX]. }
  - rewrite FF. rewrite (balloc_after_ok E HE) by (auto; lia). cbn [fst snd]. destruct (nb_after_ok E HE k d ne (m_hp s) Hd Hk Hn E3) as (N1 & N2 & N3 & N4). set (nb := nb_after E k d ne (m_hp s)) in *. rewrite u64_small by lia.
    destruct (Z.ltb_spec (m_sp s) (m_hp s + nb)) as [|FIT]; [apply ST|].
    set (z := Ad (m_hp s) d ne (cs_after E k d (m_hp s + 84)) nb). assert (LZ : lay z) by (unfold z; apply (after_lay k); auto; lia).
    destruct (finish_ok b s L K KS T (T ++ [(true, z)]) z (m_hfree s) I) as (s' & h & F1 & F2 & F3 & F4 & F5 & _).
    + cbn [a_at a_nb z]. rewrite Z.max_r by lia. apply chain_app. exists (m_hp s). split; [exact CH|]. cbn [chain z a_at a_nb]. auto.
    + rewrite frees_app, (i_free _ _ _ _ _ _ I). change (frees [(true, z)]) with (@nil ad). now rewrite app_nil_r.
    + rewrite useds_app. apply Permutation_cons_append.
    + right. eauto.
    + apply sep_snoc, (i_sep _ _ _ _ _ _ I).
    + exact FIT.
    + cbn [a_at a_nb z]. lia.
    + exact LZ.
    + reflexivity.
    + rewrite F1. eapply FIN; eauto; reflexivity.
  - rewrite FF. rewrite (i_free _ _ _ _ _ _ I) in XI. apply in_frees in XI. pose proof (chain_div_in _ _ _ _ _ CH (i_d8 _ _ _ _ _ _ I) XI) as X8. pose proof (chain_in _ _ _ _ _ CH XI) as (X1 & X2 & X3 & X4).
    destruct (nb_after_ok E HE k d ne (a_at x) Hd Hk Hn X8) as (N1 & N2 & N3 & N4). set (nb := nb_after E k d ne (a_at x)) in *. unfold block_split. cbn zeta. rewrite (u64_small (a_nb x - nb)), MINBLOCK_eq by lia.
    destruct (in_split _ _ XI) as (T1 & T2 & ET). pose proof (i_last _ _ _ _ _ _ I) as LU. rewrite ET in LU. pose proof (last_app _ _ _ LU) as [LU2 NE]. assert (T2N : T2 <> []) by (intros H2; now specialize (NE H2)).
    pose proof CH as CH0. rewrite ET in CH0. apply chain_app in CH0 as (p & C1 & C2). cbn [chain] in C2. destruct C2 as (C2 & _ & _ & C3).
    assert (HF : m_hfree s = frees T1 ++ x :: frees T2) by (rewrite (i_free _ _ _ _ _ _ I), ET, frees_app; reflexivity).
    assert (PU : forall z, Permutation (z :: useds T) (useds T1 ++ z :: useds T2)). { intros z. rewrite ET, useds_app. change (useds ((false, x) :: T2)) with (useds T2). apply Permutation_middle. }
    assert (F1A : forall w, In w (frees T1) -> a_at w < a_at x). { intros w HW. apply in_frees in HW. destruct (chain_in _ _ _ _ _ C1 HW). lia. }
    assert (SP := i_sep _ _ _ _ _ _ I). rewrite ET in SP.
    destruct (Z.leb_spec 96 (a_nb x - nb)) as [SPL|NSP]; cbn [fst snd a_nb a_at a_cs].
    + set (y := Ad (u64 (a_at x + nb)) 0 0 0 (a_nb x - nb)). set (z := Ad (a_at x) d ne (cs_after E k d (a_at x + 84)) nb). assert (YA : a_at y = a_at x + nb) by (unfold y; cbn [a_at]; apply u64_small; lia).
      assert (IN : insert_ordered y (m_hfree s) = (frees T1 ++ [x]) ++ y :: frees T2).
      { rewrite HF. replace (frees T1 ++ x :: frees T2) with ((frees T1 ++ [x]) ++ frees T2) by (now rewrite <- app_assoc). apply insert_mid.
        - intros w HW. apply in_app_or in HW as [HW|[<-|[]]]; [specialize (F1A w HW); lia|lia].
        - intros w HW. apply in_frees in HW. destruct (chain_in _ _ _ _ _ C3 HW). lia. }
      rewrite IN, <- app_assoc. cbn [app]. change (a_at x) with (a_at x) at 1. rewrite (delete_mid x (frees T1)) by (intros w HW; specialize (F1A w HW); lia).
      destruct (finish_ok b s L K KS T (T1 ++ (true, z) :: (false, y) :: T2) z (frees T1 ++ y :: frees T2) I) as (s' & h & G1 & G2 & G3 & G4 & G5 & _).
      * cbn [a_at a_nb z]. rewrite Z.max_l by lia. apply chain_app. exists p. split; [exact C1|]. cbn [chain]. rewrite YA. cbn [z y a_at a_nb]. rewrite C2. repeat split; auto; try lia; [now apply Z.divide_sub_r|]. replace (p + nb + (a_nb x - nb)) with (p + a_nb x) by lia. exact C3.
      * rewrite frees_app. reflexivity.
      * rewrite useds_app. apply PU.
      * change (T1 ++ (true, z) :: (false, y) :: T2) with (T1 ++ [(true, z); (false, y)] ++ T2). rewrite app_assoc. now apply last_put.
      * eapply sep_use2; eauto.
      * cbn [a_at a_nb z]. lia.
      * cbn [a_at a_nb z]. lia.
      * unfold z. apply (after_lay k); auto. unfold nb. lia.
      * reflexivity.
      * fold z. rewrite G1. eapply FIN; eauto; reflexivity.
    + set (z := Ad (a_at x) d ne (cs_after E k d (a_at x + 84)) (a_nb x)). rewrite HF. rewrite (delete_mid x (frees T1)) by (intros w HW; specialize (F1A w HW); lia).
      destruct (finish_ok b s L K KS T (T1 ++ (true, z) :: T2) z (frees T1 ++ frees T2) I) as (s' & h & G1 & G2 & G3 & G4 & G5 & _).
      * cbn [a_at a_nb z]. rewrite Z.max_l by lia. apply chain_app. exists p. split; [exact C1|]. cbn [chain z a_at a_nb]. auto.
      * rewrite frees_app. reflexivity.
      * rewrite useds_app. apply PU.
      * change (T1 ++ (true, z) :: T2) with (T1 ++ [(true, z)] ++ T2). rewrite app_assoc. now apply last_put.
      * eapply sep_use; eauto.
      * cbn [a_at a_nb z]. lia.
      * cbn [a_at a_nb z]. lia.
      * unfold z. apply (after_lay k); auto.
      * reflexivity.
      * fold z. rewrite G1. eapply FIN; eauto; reflexivity.
Qed.
End S.
