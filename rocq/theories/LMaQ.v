(** When the MA allocator refuses a block, and what its inquiries tell. *)
From Coq Require Import ZArith List Lia Bool Permutation.
From Verif Require Import SpecMa MBase MMa LMa LMaH LMaT LMaS LMaS2 LMaS3.

(** An interval that meets no tile in use lies in a free tile or behind the tiles. *)
Lemma gap_find a e : a < e -> forall T p q, chain p T q -> sep true T -> last_used T -> p <= a ->
  (forall x, In x (useds T) -> e <= a_at x \/ a_at x + a_nb x <= a) ->
  (exists x, In x (frees T) /\ a_at x <= a /\ e <= a_at x + a_nb x) \/ q <= a.
Proof.
  intros AE. induction T as [|[u x] T IH]; intros p q C SP LU PA D; cbn [chain] in C.
  - right. lia.
  - destruct C as (C1 & C2 & C3 & C4). destruct (Z.le_gt_cases (p + a_nb x) a) as [LE|GT].
    + assert (SP' : sep true T). { destruct u; cbn [sep] in SP; [exact SP|]. destruct SP as [_ SP]. now apply sep_true_any in SP. }
      pose proof (proj1 (last_app [] (u, x) T LU)) as LU'. destruct (IH (p + a_nb x) q C4 SP' LU' LE) as [(y & Y1 & Y2)|R].
      * intros y HY. apply D. apply in_useds. right. now apply in_useds.
      * left. exists y. split; [|exact Y2]. apply in_frees. right. now apply in_frees.
      * now right.
    + destruct u.
      * exfalso. destruct (D x ltac:(now left)); lia.
      * left. exists x. split; [now left|]. split; [lia|]. destruct T as [|[u y] T]; [destruct (last_app [] _ [] LU) as [_ Q]; now specialize (Q eq_refl)|].
        cbn [sep] in SP. destruct SP as [_ SP]. destruct u; [|now destruct SP]. cbn [chain] in C4. destruct C4 as (C4 & C5 & _). destruct (D y ltac:(now left)); lia.
Qed.

Section Q.
Variable E : ma_env.
Hypothesis HE : ma_env_ok E.
Notation sz := (e_size E).
Notation bs := (e_base E).
Notation inv := (inv E).

(** A block of [ne] elements with descriptor, guards and padding fits in [a, e). *)
Definition fits (k d ne a e : Z) : Prop := exists c, a + 84 <= c /\ c + ne * sz d + 4 <= e /\ place_ok E k d c.
Lemma fits_mono k d ne a e a' e' : a' <= a -> e <= e' -> fits k d ne a e -> fits k d ne a' e'.
Proof. intros A B (c & C1 & C2 & C3). exists c. repeat split; auto; lia. Qed.
Lemma fits_after k d ne a e : 0 <= d < 17 -> 0 <= k <= 30 -> 0 <= ne -> (8 | a) -> (8 | e) -> (fits k d ne a e <-> nb_after E k d ne a <= e - a).
Proof.
  intros Hd Hk Hn A8 E8. split.
  - intros (c & C1 & C2 & C3). pose proof (cs_after_least E HE k d (a + 84) c Hd Hk C1 C3) as LE. unfold nb_after, up8.
    pose proof (ceilm_least 8 0 (cs_after E k d (a + 84) + ne * sz d + 4) e ltac:(lia) ltac:(lia)) as Q. rewrite Z.sub_0_r in Q. specialize (Q E8). lia.
  - intros H. destruct (nb_after_ok E HE k d ne a Hd Hk Hn A8) as (_ & _ & Q & _). exists (cs_after E k d (a + 84)). pose proof (cs_after_ge E HE k d (a + 84) Hd Hk). repeat split; try lia. now apply cs_after_ok.
Qed.
Lemma fits_before k d ne a e : 0 <= d < 17 -> 0 <= k <= 30 -> 0 <= ne -> (8 | a) -> (8 | e) -> (fits k d ne a e <-> nb_before E k d ne e <= e - a).
Proof.
  intros Hd Hk Hn A8 E8. split.
  - intros (c & C1 & C2 & C3). pose proof (cs_before_most E HE k d (e - 4 - ne * sz d) c Hd Hk ltac:(lia) C3) as LE. unfold nb_before, down8.
    pose proof (floorm_most 8 0 (cs_before E k d (e - 4 - ne * sz d) - 84) a ltac:(lia) ltac:(lia)) as Q. rewrite Z.sub_0_r in Q. specialize (Q A8). lia.
  - intros H. destruct (nb_before_ok E HE k d ne e Hd Hk Hn E8) as (_ & _ & Q1 & Q2 & _). exists (cs_before E k d (e - 4 - ne * sz d)). repeat split; try lia. now apply cs_before_ok.
Qed.
Lemma fits_less k d ne ne' a e : 0 <= d < 17 -> ne' <= ne -> fits k d ne a e -> fits k d ne' a e.
Proof. intros Hd H (c & C1 & C2 & C3). pose proof (sz_pos E HE d Hd). exists c. repeat split; auto. nia. Qed.

(** ma.c 1949-2084: when a block is allocated. *)
Lemma alloc_iff b s L K KS T dt ne : inv b s L K KS T -> 1000 <= dt <= 1016 -> 0 <= ne -> ne * sz (dt - 1000) < 2 ^ 62 ->
  let F := fits (m_align s) (dt - 1000) ne in
  exists s' v, ma_step E s (Alloc dt ne true) = Some (s', Ret true v) /\ (F (m_hp s) (m_sp s) \/ exists x, In x (m_hfree s) /\ F (a_at x) (a_at x + a_nb x)) \/
               ma_step E s (Alloc dt ne true) = Some (s', Ret false v) /\ ~ F (m_hp s) (m_sp s) /\ (forall x, In x (m_hfree s) -> ~ F (a_at x) (a_at x + a_nb x)).
Proof.
  intros I Ht Hn HB F. assert (Hd : 0 <= dt - 1000 < 17) by lia. pose proof (i_al _ _ _ _ _ _ _ I) as Hk. destruct (inv_ends _ _ _ _ _ _ _ I) as (E1 & E2 & E3). pose proof (i_eos _ _ _ _ _ _ _ I) as EO. pose proof (i_seg _ _ _ _ _ _ _ I) as S0. pose proof (i_chain _ _ _ _ _ _ _ I) as CH. pose proof (i_d8s _ _ _ _ _ _ _ I) as S8.
  destruct (alloc_ok E HE b s L K KS T dt ne I) as (s' & r & K' & KS' & T' & ST & _); [cbn; auto|]. destruct r as [ok v]. exists s', v.
  assert (X8 : forall x, In x (m_hfree s) -> 0 <= a_at x < 2 ^ 48 /\ (8 | a_at x) /\ (8 | a_nb x)).
  { intros x HX. rewrite (i_free _ _ _ _ _ _ _ I) in HX. apply in_frees in HX. destruct (chain_in _ _ _ _ _ CH HX) as (Q1 & Q2 & Q3 & Q4). split; [lia|]. split; [|exact Q4]. eapply chain_div_in; [exact CH|apply (i_d8 _ _ _ _ _ _ _ I)|exact HX]. }
  rewrite ST. cbn [ma_step] in ST. unfold allocate_heap, mt_valid in ST. destruct (Z.leb_spec 1000 dt); [|lia]. destruct (Z.leb_spec dt 1016); [|lia]. cbn [andb negb] in ST. destruct (Z.ltb_spec ne 0); [lia|].
  assert (FH : forall z hf s0 r0, finish_heap true s z hf = Some (s0, r0) -> Ret ok v = r0 -> exists w, table_allocate true (a_at z) (set_heap s (if m_hp s <? u64 (a_at z + a_nb z) then u64 (a_at z + a_nb z) else m_hp s) hf (z :: m_hused s)) = Some w /\ (ok = true <-> snd w <> None)).
  { intros z hf s0 r0 HF HR. unfold finish_heap in HF. destruct (table_allocate _ _ _) as [w|]; [|discriminate]. exists w. split; [reflexivity|]. destruct (snd w); injection HF as <- <-; injection HR as -> ->; split; congruence. }
  assert (TA : forall data s1, m_tab s1 = m_tab s -> m_entries s1 = m_entries s -> m_next s1 = m_next s -> forall w, table_allocate true data s1 = Some w -> snd w <> None).
  { intros data s1 A1 A2 A3 w HW. destruct (table_allocate_ok s1 (map atof (K ++ KS)) data) as (tab & e & n & h & TA & _); [rewrite A1, A2, A3; apply (i_tab _ _ _ _ _ _ _ I)|rewrite map_length; pose proof (inv_count _ _ _ _ _ _ _ I); lia|]. rewrite TA in HW. injection HW as <-. discriminate. }
  assert (OKF : forall z hf, finish_heap true s z hf = Some (s', Ret ok v) -> ok = true).
  { intros z hf HF. destruct (FH _ _ _ _ HF eq_refl) as (w & W1 & W2). apply W2. eapply TA; [| | |exact W1]; reflexivity. }
  destruct (first_fit_ok E HE (m_align s) (dt - 1000) ne (m_hfree s) Hd Hk Hn HB) as [[FF NF]|(x & XI & XN & FF)]; [intros x HX; split; apply X8; auto| |]; rewrite FF in ST.
  - rewrite (balloc_after_ok E HE) in ST by (auto; lia). cbn [fst snd] in ST. destruct (nb_after_ok E HE (m_align s) (dt - 1000) ne (m_hp s) Hd Hk Hn E3) as (N1 & N2 & N3 & N4). rewrite u64_small in ST by lia.
    pose proof (fits_after (m_align s) (dt - 1000) ne (m_hp s) (m_sp s) Hd Hk Hn E3 S8) as FG. fold (F (m_hp s) (m_sp s)) in FG.
    destruct (Z.ltb_spec (m_sp s) (m_hp s + nb_after E (m_align s) (dt - 1000) ne (m_hp s))) as [LT|GE].
    + injection ST as <- <- <-. right. split; [reflexivity|]. split; [rewrite FG; lia|]. intros y HY. destruct (X8 y HY) as (_ & Y1 & Y2). unfold F. rewrite fits_after by (auto using Z.divide_add_r). specialize (NF y HY). lia.
    + left. rewrite (OKF _ _ ST). split; [reflexivity|]. left. apply FG. lia.
  - cbn zeta in ST. cbn [a_at] in ST. set (bsp := block_split x (nb_after E (m_align s) (dt - 1000) ne (a_at x))) in *. destruct (list_delete _ _) as [l'|] in ST; [|discriminate]. left. rewrite (OKF _ _ ST). split; [reflexivity|]. right. exists x. split; [exact XI|]. destruct (X8 x XI) as (_ & Y1 & Y2). unfold F. rewrite fits_after by (auto using Z.divide_add_r). lia.
Qed.

(** ma.c 3244-3361: when a block is pushed. *)
Lemma push_iff b s L K KS T dt ne : inv b s L K KS T -> 1000 <= dt <= 1016 -> 0 <= ne -> ne * sz (dt - 1000) < 2 ^ 62 ->
  let F := fits (m_align s) (dt - 1000) ne in
  exists s' v, ma_step E s (Push dt ne true) = Some (s', Ret true v) /\ F (m_hp s) (m_sp s) \/
               ma_step E s (Push dt ne true) = Some (s', Ret false v) /\ ~ F (m_hp s) (m_sp s).
Proof.
  intros I Ht Hn HB F. assert (Hd : 0 <= dt - 1000 < 17) by lia. pose proof (i_al _ _ _ _ _ _ _ I) as Hk. destruct (inv_ends _ _ _ _ _ _ _ I) as (E1 & E2 & E3). pose proof (i_eos _ _ _ _ _ _ _ I) as EO. pose proof (i_seg _ _ _ _ _ _ _ I) as S0. pose proof (i_d8s _ _ _ _ _ _ _ I) as S8.
  cbn [ma_step]. unfold push_stack, mt_valid. destruct (Z.leb_spec 1000 dt); [|lia]. destruct (Z.leb_spec dt 1016); [|lia]. cbn [andb negb]. destruct (Z.ltb_spec ne 0); [lia|].
  rewrite (balloc_before_ok E HE) by (auto; lia). cbn [fst snd]. rewrite (u64_small (m_sp s - m_hp s)) by lia.
  pose proof (fits_before (m_align s) (dt - 1000) ne (m_hp s) (m_sp s) Hd Hk Hn E3 S8) as FG. fold (F (m_hp s) (m_sp s)) in FG.
  destruct (Z.ltb_spec (m_sp s - m_hp s) (nb_before E (m_align s) (dt - 1000) ne (m_sp s))) as [LT|GE].
  - eexists _, _. right. split; [reflexivity|]. rewrite FG. lia.
  - set (s1 := set_stack _ _ _). destruct (table_allocate_ok s1 (map atof (K ++ KS)) (u64 (m_sp s - nb_before E (m_align s) (dt - 1000) ne (m_sp s)))) as (tab & e & n & h & TA & _ & _).
    { exact (i_tab _ _ _ _ _ _ _ I). } { rewrite map_length. pose proof (inv_count _ _ _ _ _ _ _ I). lia. }
    rewrite TA. cbn [fst snd]. eexists _, _. left. split; [reflexivity|]. apply FG. lia.
Qed.

(** ---- inquiries ---- *)
Lemma try_nelem_ok k d a len : 0 <= d < 17 -> 0 <= k <= 30 -> 0 <= a < 2 ^ 48 -> (8 | a) -> 0 <= len < 2 ^ 48 -> forall n, Z.of_nat n * sz d < 2 ^ 62 ->
  exists r, try_nelem n E k a len d = Some r /\ 0 <= r <= Z.of_nat n /\ (0 < r -> nb_after E k d r a <= len) /\ (forall m, r < m <= Z.of_nat n -> len < nb_after E k d m a).
Proof.
  intros Hd Hk Ha A8 HL. pose proof (sz_pos E HE d Hd) as SZ. induction n as [|n IH]; intros HB.
  - exists 0. cbn [try_nelem]. repeat split; try lia.
  - cbn [try_nelem]. rewrite (balloc_after_ok E HE) by (auto; lia). cbn [snd]. destruct (Z.ltb_spec len (nb_after E k d (Z.of_nat (S n)) a)) as [LT|GE].
    + destruct IH as (r & R1 & R2 & R3 & R4); [nia|]. exists r. split; [exact R1|]. split; [lia|]. split; [exact R3|]. intros m Hm. destruct (Z.eq_dec m (Z.of_nat (S n))) as [->|N]; [exact LT|apply R4; lia].
    + exists (Z.of_nat (S n)). split; [reflexivity|]. split; [lia|]. split; [auto|]. intros m Hm. lia.
Qed.
Lemma nb_after_min k d n a : 0 <= d < 17 -> 0 <= k <= 30 -> 0 <= n -> (8 | a) -> 88 + n * sz d <= nb_after E k d n a.
Proof. intros Hd Hk Hn A8. destruct (nb_after_ok E HE k d n a Hd Hk Hn A8) as (_ & _ & Q & _). pose proof (cs_after_ge E HE k d (a + 84) Hd Hk). lia. Qed.
(** ma.c 1531-1563: the largest number of elements that fit. *)
Lemma ma_nelem_ok k d a e : 0 <= d < 17 -> 0 <= k <= 30 -> 0 <= a <= e -> e < 2 ^ 48 -> (8 | a) -> (8 | e) ->
  exists r, ma_nelem E k a (e - a) d = Some r /\ 0 <= r /\ r * sz d < 2 ^ 62 /\ (0 < r -> fits k d r a e) /\ (forall m, r < m -> ~ fits k d m a e).
Proof.
  intros Hd Hk Ha He A8 E8. pose proof (sz_pos E HE d Hd) as SZ. unfold ma_nelem. change OVERHEAD with 88. destruct (Z.leb_spec (e - a) 88) as [LE|GT].
  - exists 0. split; [reflexivity|]. split; [lia|]. split; [lia|]. split; [lia|]. intros m Hm. rewrite fits_after by (auto; lia). pose proof (nb_after_min k d m a Hd Hk ltac:(lia) A8). nia.
  - destruct (Z.eqb_spec (sz d) 0); [lia|]. pose proof (Z.div_mod (e - a - 88) (sz d) ltac:(lia)) as DM. pose proof (Z.mod_pos_bound (e - a - 88) (sz d) ltac:(lia)) as MB. set (q := (e - a - 88) / sz d) in *.
    assert (Q0 : 0 <= q) by (apply Z.div_pos; lia). assert (Q1 : q <= e - a) by nia. unfold i64. destruct (Z.ltb_spec q (2 ^ 63)); [|lia].
    assert (NQ : forall m, q < m -> ~ fits k d m a e). { intros m Hm. rewrite fits_after by (auto; lia). pose proof (nb_after_min k d m a Hd Hk ltac:(lia) A8). nia. }
    destruct (Z.leb_spec q 0) as [Z0|P].
    + exists q. split; [reflexivity|]. split; [lia|]. split; [nia|]. split; [lia|exact NQ].
    + destruct (try_nelem_ok k d a (e - a) Hd Hk ltac:(lia) A8 ltac:(lia) (Z.to_nat q)) as (r & R1 & R2 & R3 & R4); [rewrite Z2Nat.id by lia; nia|]. rewrite Z2Nat.id in * by lia. exists r. split; [exact R1|]. split; [lia|]. split; [nia|]. split.
      * intros Hr. apply fits_after; auto; lia.
      * intros m Hm. destruct (Z.le_gt_cases m q) as [L|G]; [|apply NQ; lia]. rewrite fits_after by (auto; lia). specialize (R4 m ltac:(lia)). lia.
Qed.
Lemma gap_nelem_ok s d a e : 0 <= d < 17 -> 0 <= m_align s <= 30 -> 0 <= a <= e -> e < 2 ^ 48 -> (8 | a) -> (8 | e) ->
  exists r, gap_nelem E s a (e - a) d = Some r /\ 0 <= r /\ r * sz d < 2 ^ 62 /\ (0 < r -> fits (m_align s) d r a e) /\ (forall m, r < m -> ~ fits (m_align s) d m a e).
Proof.
  intros Hd Hk Ha He A8 E8. unfold gap_nelem. destruct (Z.ltb_spec 0 (e - a)) as [P|N]; [now apply ma_nelem_ok|]. exists 0. split; [reflexivity|]. split; [lia|]. split; [lia|]. split; [lia|].
  intros m Hm. rewrite fits_after by (auto; lia). pose proof (sz_pos E HE d Hd). pose proof (nb_after_min (m_align s) d m a Hd Hk ltac:(lia) A8). nia.
Qed.

(** ma.c 1472-1521. *)
Lemma frag_ok s d mb : 0 <= d < 17 -> 0 <= m_align s <= 30 -> 0 <= m_part s < 2 ^ 48 -> (8 | m_part s) -> forall l best, 0 <= best -> best * sz d < 2 ^ 62 ->
  (forall x, In x l -> 0 <= a_at x /\ a_at x + a_nb x < 2 ^ 48 /\ 88 <= a_nb x /\ (8 | a_at x) /\ (8 | a_nb x)) ->
  exists r, frag_nelem E s d mb best l = Some r /\ best <= r /\ r * sz d < 2 ^ 62 /\ (best < r -> exists x, In x l /\ fits (m_align s) d r (a_at x) (a_at x + a_nb x)) /\
    (forall x m, In x l -> a_at x + a_nb x <= m_part s -> mb <= a_nb x -> r < m -> ~ fits (m_align s) d m (a_at x) (a_at x + a_nb x)).
Proof.
  intros Hd Hk Hp P8. induction l as [|x l IH]; intros best B0 BB HX; cbn [frag_nelem].
  - exists best. split; [reflexivity|]. split; [lia|]. split; [exact BB|]. split; [lia|easy].
  - destruct (HX x ltac:(now left)) as (X0 & X1 & X2 & X3 & X4). assert (HX' : forall y, In y l -> 0 <= a_at y /\ a_at y + a_nb y < 2 ^ 48 /\ 88 <= a_nb y /\ (8 | a_at y) /\ (8 | a_nb y)) by (intros y HY; apply HX; now right).
    assert (SKIP : (m_part s <= a_at x \/ a_nb x < mb \/ m_part s < a_at x + a_nb x) -> exists r, frag_nelem E s d mb best l = Some r /\ best <= r /\ r * sz d < 2 ^ 62 /\ (best < r -> exists y, In y (x :: l) /\ fits (m_align s) d r (a_at y) (a_at y + a_nb y)) /\
      (forall y m, In y (x :: l) -> a_at y + a_nb y <= m_part s -> mb <= a_nb y -> r < m -> ~ fits (m_align s) d m (a_at y) (a_at y + a_nb y))).
    { intros SK. destruct (IH best B0 BB HX') as (r & R1 & R2 & R3 & R4 & R5). exists r. split; [exact R1|]. split; [exact R2|]. split; [exact R3|]. split.
      - intros Hr. destruct (R4 Hr) as (y & Y1 & Y2). exists y. split; [now right|exact Y2].
      - intros y m [<-|HY]; [|apply R5; exact HY]. intros Q1 Q2. lia. }
    destruct (Z.leb_spec (m_part s) (a_at x)) as [PX|PX]; [apply SKIP; lia|]. rewrite (u64_small (a_at x + a_nb x)), (u64_small (m_part s - a_at x)) by lia.
    set (e := Z.min (m_part s) (a_at x + a_nb x)). assert (EN : (if m_part s <=? a_at x + a_nb x then m_part s - a_at x else a_nb x) = e - a_at x) by (unfold e; destruct (Z.leb_spec (m_part s) (a_at x + a_nb x)); lia). rewrite EN.
    destruct (Z.leb_spec mb (e - a_at x)) as [ML|MG]; [|apply SKIP; unfold e in MG; lia].
    assert (E8 : (8 | e)). { unfold e. destruct (Z.min_spec (m_part s) (a_at x + a_nb x)) as [[_ ->]|[_ ->]]; [exact P8|now apply Z.divide_add_r]. }
    destruct (ma_nelem_ok (m_align s) d (a_at x) e Hd Hk ltac:(unfold e; lia) ltac:(unfold e; lia) X3 E8) as (n & N1 & N2 & N3 & N4 & N5). rewrite N1.
    destruct (IH (if best <? n then n else best)) as (r & R1 & R2 & R3 & R4 & R5); [destruct (best <? n); lia|destruct (best <? n); lia|exact HX'|]. exists r. split; [exact R1|].
    assert (BN : best <= (if best <? n then n else best) /\ n <= (if best <? n then n else best)) by (destruct (Z.ltb_spec best n); lia). split; [lia|]. split; [exact R3|]. split.
    + intros Hr. destruct (Z.eq_dec r (if best <? n then n else best)) as [RE|RN].
      * assert (r = n /\ 0 < n) as [-> Hn] by (destruct (Z.ltb_spec best n); lia). exists x. split; [now left|]. eapply fits_mono; [| |apply N4, Hn]; unfold e; lia.
      * destruct R4 as (y & Y1 & Y2); [lia|]. exists y. split; [now right|exact Y2].
    + intros y m [<-|HY] Q1 Q2 Q3; [|eapply R5; eauto]. apply N5 in Q3 as Q4 || (assert (n < m) as Q4 by lia; apply N5 in Q4). unfold e in Q4. rewrite Z.min_r in Q4 by lia. exact Q4.
Qed.
Lemma frees_bounds b s L K KS T : inv b s L K KS T -> forall x, In x (m_hfree s) -> 0 <= a_at x /\ a_at x + a_nb x < 2 ^ 48 /\ 88 <= a_nb x /\ (8 | a_at x) /\ (8 | a_nb x) /\ a_at x + a_nb x <= m_hp s.
Proof.
  intros I x HX. rewrite (i_free _ _ _ _ _ _ _ I) in HX. apply in_frees in HX. pose proof (i_chain _ _ _ _ _ _ _ I) as CH. destruct (chain_in _ _ _ _ _ CH HX) as (A & B & C & D). pose proof (i_seg _ _ _ _ _ _ _ I). pose proof (i_eos _ _ _ _ _ _ _ I). destruct (inv_ends _ _ _ _ _ _ _ I). repeat split; auto; try lia.
  eapply chain_div_in; [exact CH|apply (i_d8 _ _ _ _ _ _ _ I)|exact HX].
Qed.
Lemma with_frags_ok b s L K KS T d gap g : inv b s L K KS T -> 0 <= m_part s < 2 ^ 48 -> (8 | m_part s) -> 0 <= d < 17 -> gap = Some g -> 0 <= g -> g * sz d < 2 ^ 62 ->
  exists r, with_frags E s d gap = Some r /\ g <= r /\ r * sz d < 2 ^ 62 /\ (g < r -> exists x, In x (m_hfree s) /\ fits (m_align s) d r (a_at x) (a_at x + a_nb x)) /\
    (m_hp s <= m_part s -> forall x m, In x (m_hfree s) -> r < m -> ~ fits (m_align s) d m (a_at x) (a_at x + a_nb x)).
Proof.
  intros I HP P8 Hd -> G0 GB. pose proof (i_al _ _ _ _ _ _ _ I) as Hk. pose proof (sz_pos E HE d Hd) as SZ. pose proof (frees_bounds _ _ _ _ _ _ I) as FB. unfold with_frags, max_heap_frag_nelem. rewrite mul64_ok by nia. rewrite u64_small by (change OVERHEAD with 88; nia).
  destruct (frag_ok s d (g * sz d + OVERHEAD) Hd Hk HP P8 (m_hfree s) 0) as (r & R1 & R2 & R3 & R4 & R5); [lia|lia|intros x HX; destruct (FB x HX) as (A & B & C & D & F & _); auto|].
  rewrite R1. exists (if g <? r then r else g). split; [reflexivity|]. destruct (Z.ltb_spec g r) as [LT|GE].
  - split; [lia|]. split; [exact R3|]. split; [intros _; apply R4; lia|]. intros HL x m HX Hm. destruct (FB x HX) as (A & B & C & D & F & G). destruct (Z.le_gt_cases (g * sz d + OVERHEAD) (a_nb x)) as [L1|L1]; [apply R5; auto; lia|].
    rewrite fits_after by (auto using Z.divide_add_r; lia). pose proof (nb_after_min (m_align s) d m (a_at x) Hd Hk ltac:(lia) D). change OVERHEAD with 88 in L1. nia.
  - split; [lia|]. split; [exact GB|]. split; [lia|]. intros HL x m HX Hm. destruct (FB x HX) as (A & B & C & D & F & G). destruct (Z.le_gt_cases (g * sz d + OVERHEAD) (a_nb x)) as [L1|L1]; [apply R5; auto; lia|].
    rewrite fits_after by (auto using Z.divide_add_r; lia). pose proof (nb_after_min (m_align s) d m (a_at x) Hd Hk ltac:(lia) D). change OVERHEAD with 88 in L1. nia.
Qed.
End Q.
