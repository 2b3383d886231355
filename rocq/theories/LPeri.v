(** Proofs about periodic transfers. *)
From Verif Require Import LStore MXfer LXfer LXfer2 LStrided2.
From Verif Require Export MPeri.

Lemma wrap_unique d y x c : 1 <= x <= d -> y = x + c * d -> wrap d y = x.
Proof.
  intros Hx ->. unfold wrap. replace (x + c * d - 1) with (x - 1 + c * d) by ring.
  rewrite Z.mod_add, Z.mod_small by lia. lia.
Qed.

(** ---- one dimension ---- *)
Lemma peri_shift_spec d l h : peri_dim d l h ->
  exists l1 h1 ns c, peri_shift d l h = Some (l1, h1, ns) /\ l1 = l + c * d /\ h1 = h + c * d /\
    1 - d <= l1 <= d /\ 1 <= h1 <= 2 * d /\ (ns = true -> c = 0).
Proof.
  intros (Hd & Hlh & HC). unfold peri_shift. destruct (Z.ltb_spec d l) as [H1|H1].
  - rewrite cmod_pos by lia.
    pose proof (Z.div_mod l d ltac:(lia)) as E. pose proof (Z.mod_pos_bound l d ltac:(lia)) as B.
    assert (Q : cdiv (l - l mod d) d = Some (l / d)).
    { rewrite cdiv_pos by lia. f_equal. replace (l - l mod d) with ((l / d) * d) by lia. apply Z.div_mul. lia. }
    rewrite Q. cbn [fst snd]. assert (D1 : 1 <= l / d) by (apply Z.div_le_lower_bound; lia).
    revert E B D1. generalize (l / d) (l mod d). intros q r E B D1.
    assert (El : l - q * d = r) by lia. rewrite El.
    destruct (Z.ltb_spec (h - q * d) 1) as [H2|H2].
    + assert (R0 : r = 0) by lia. assert (H0 : h - q * d = 0) by lia. clear El. subst r. rewrite H0.
      rewrite cmod_pos by lia. change (- 0) with 0. rewrite Z.mod_0_l by lia. rewrite cdiv_pos by lia. change (0 + 0) with 0. rewrite Z.div_0_l by lia.
      cbn [fst snd]. exists (0 + (0 + 1) * d), (0 + (0 + 1) * d), ((q =? 0) && (0 + 1 =? 0)), (1 - q).
      split; [reflexivity|]. split; [lia|]. split; [lia|]. split; [lia|]. split; [lia|].
      rewrite andb_false_r. discriminate.
    + exists r, (h - q * d), (q =? 0), (- q). split; [reflexivity|]. split; [lia|]. split; [lia|]. split; [lia|].
      split; [|intros X; lia]. split; [lia|]. destruct HC as [HC|HC]; [lia|]. lia.
  - cbn [fst snd]. destruct (Z.ltb_spec h 1) as [H2|H2].
    + destruct HC as [HC|HC]; [lia|]. rewrite cmod_pos by lia. rewrite Z.mod_small by lia.
      replace (h + - h) with 0 by lia. rewrite cdiv_pos by lia. rewrite Z.div_0_l by lia.
      eexists _, _, _, 1. split; [reflexivity|]. split; [lia|]. split; [lia|]. split; [lia|]. split; [lia|]. discriminate.
    + eexists _, _, _, 0. split; [reflexivity|]. split; [lia|]. split; [lia|].
      split; [lia|]. split; [|reflexivity]. destruct HC; lia.
Qed.

Definition axis_ok (d l h : Z) (r : list (Z * Z * Z)) : Prop :=
  1 <= Z.of_nat (length r) /\
  (forall k rl rh off, zget r k = Some (rl, rh, off) ->
     1 <= rl <= rh /\ rh <= d /\ 0 <= off /\ off + (rh - rl) <= h - l /\
     forall x, rl <= x <= rh -> wrap d (l + off + (x - rl)) = x) /\
  (forall y, l <= y <= h -> exists k rl rh off, zget r k = Some (rl, rh, off) /\ off <= y - l <= off + (rh - rl)) /\
  (forall y k rl rh off k' rl' rh' off', zget r k = Some (rl, rh, off) -> zget r k' = Some (rl', rh', off') ->
     off <= y - l <= off + (rh - rl) -> off' <= y - l <= off' + (rh' - rl') -> k = k').

Lemma pair3 (a b c a' b' c' : Z) : (a, b, c) = (a', b', c') -> a = a' /\ b = b' /\ c = c'.
Proof. intros H. injection H as -> -> ->. auto. Qed.
Lemma zget_1 {A} (a : A) k b : zget [a] k = Some b -> k = 0 /\ b = a.
Proof.
  intros H. pose proof (zget_inv _ _ _ H) as B. cbn in B. assert (k = 0) by lia. subst k. cbn in H. split; congruence.
Qed.
Lemma zget_2 {A} (a a' : A) k b : zget [a; a'] k = Some b -> (k = 0 /\ b = a) \/ (k = 1 /\ b = a').
Proof.
  intros H. pose proof (zget_inv _ _ _ H) as B. cbn in B. assert (k = 0 \/ k = 1) as [-> | ->] by lia; compute in H; [left|right]; split; congruence.
Qed.
Lemma zget_3 {A} (a a' a'' : A) k b : zget [a; a'; a''] k = Some b ->
  (k = 0 /\ b = a) \/ (k = 1 /\ b = a') \/ (k = 2 /\ b = a'').
Proof.
  intros H. pose proof (zget_inv _ _ _ H) as B. cbn in B.
  assert (k = 0 \/ k = 1 \/ k = 2) as [-> | [-> | ->]] by lia; compute in H; [left|right; left|right; right]; split; congruence.
Qed.

Lemma peri_ranges_ok d l h c : 1 <= d -> l + c * d <= h + c * d -> 1 - d <= l + c * d <= d -> 1 <= h + c * d <= 2 * d ->
  axis_ok d l h (peri_ranges d (l + c * d) (h + c * d)).
Proof.
  intros Hd Hlh HL HH. unfold peri_ranges. set (l1 := l + c * d) in *. set (h1 := h + c * d) in *.
  assert (El : l = l1 - c * d) by (unfold l1; lia). assert (Eh : h = h1 - c * d) by (unfold h1; lia).
  clearbody l1 h1. subst l h.
  assert (W : forall x y z, 1 <= x <= d -> y = x + z * d -> wrap d y = x) by (intros; eapply wrap_unique; eauto).
  destruct (Z.ltb_spec l1 1), (Z.ltb_spec d h1), (Z.leb_spec 1 l1), (Z.leb_spec h1 d); try lia; cbn [andb orb app].
  - split; [cbn; lia|]. split; [|split].
    + intros k rl rh off Hk. apply zget_3 in Hk as [(-> & E)|[(-> & E)|(-> & E)]]; apply pair3 in E as (-> & -> & ->);
        (split; [lia|]); (split; [lia|]); (split; [lia|]); (split; [lia|]); intros x Hx.
      * apply (W _ _ (- c - 1)); [lia|]. ring.
      * apply (W _ _ (- c)); [lia|]. ring.
      * apply (W _ _ (- c + 1)); [lia|]. ring.
    + intros y Hy. destruct (Z_lt_le_dec (y + c * d) 1); [|destruct (Z_lt_le_dec d (y + c * d))].
      * exists 0. eexists _, _, _. split; [reflexivity|]. lia.
      * exists 2. eexists _, _, _. split; [reflexivity|]. lia.
      * exists 1. eexists _, _, _. split; [reflexivity|]. lia.
    + intros y k rl rh off k' rl' rh' off' Hk Hk'.
      apply zget_3 in Hk as [(-> & E)|[(-> & E)|(-> & E)]]; apply pair3 in E as (-> & -> & ->);
      apply zget_3 in Hk' as [(-> & E)|[(-> & E)|(-> & E)]]; apply pair3 in E as (-> & -> & ->); lia.
  - split; [cbn; lia|]. split; [|split].
    + intros k rl rh off Hk. apply zget_2 in Hk as [(-> & E)|(-> & E)]; apply pair3 in E as (-> & -> & ->);
        (split; [lia|]); (split; [lia|]); (split; [lia|]); (split; [lia|]); intros x Hx.
      * apply (W _ _ (- c - 1)); [lia|]. ring.
      * apply (W _ _ (- c)); [lia|]. ring.
    + intros y Hy. destruct (Z_lt_le_dec (y + c * d) 1).
      * exists 0. eexists _, _, _. split; [reflexivity|]. lia.
      * exists 1. eexists _, _, _. split; [reflexivity|]. lia.
    + intros y k rl rh off k' rl' rh' off' Hk Hk'.
      apply zget_2 in Hk as [(-> & E)|(-> & E)]; apply pair3 in E as (-> & -> & ->);
      apply zget_2 in Hk' as [(-> & E)|(-> & E)]; apply pair3 in E as (-> & -> & ->); lia.
  - split; [cbn; lia|]. split; [|split].
    + intros k rl rh off Hk. apply zget_2 in Hk as [(-> & E)|(-> & E)]; apply pair3 in E as (-> & -> & ->);
        (split; [lia|]); (split; [lia|]); (split; [lia|]); (split; [lia|]); intros x Hx.
      * apply (W _ _ (- c)); [lia|]. ring.
      * apply (W _ _ (- c + 1)); [lia|]. ring.
    + intros y Hy. destruct (Z_lt_le_dec d (y + c * d)).
      * exists 1. eexists _, _, _. split; [reflexivity|]. lia.
      * exists 0. eexists _, _, _. split; [reflexivity|]. lia.
    + intros y k rl rh off k' rl' rh' off' Hk Hk'.
      apply zget_2 in Hk as [(-> & E)|(-> & E)]; apply pair3 in E as (-> & -> & ->);
      apply zget_2 in Hk' as [(-> & E)|(-> & E)]; apply pair3 in E as (-> & -> & ->); lia.
  - split; [cbn; lia|]. split; [|split].
    + intros k rl rh off Hk. apply zget_1 in Hk as (-> & E); apply pair3 in E as (-> & -> & ->);
        (split; [lia|]); (split; [lia|]); (split; [lia|]); (split; [lia|]); intros x Hx.
      apply (W _ _ (- c)); [lia|]. ring.
    + intros y Hy. exists 0. eexists _, _, _. split; [reflexivity|]. lia.
    + intros y k rl rh off k' rl' rh' off' Hk Hk'.
      apply zget_1 in Hk as (-> & E). apply zget_1 in Hk' as (-> & E'). reflexivity.
Qed.

(** ---- all dimensions ---- *)
Fixpoint axes_ok (dims lo hi : list Z) (rs : list (list (Z * Z * Z))) : Prop :=
  match dims, lo, hi, rs with
  | [], [], [], [] => True
  | d :: dims', l :: lo', h :: hi', r :: rs' => axis_ok d l h r /\ axes_ok dims' lo' hi' rs'
  | _, _, _, _ => False
  end.

Lemma peri_get_range_spec dims lo hi : peri_region dims lo hi ->
  exists r, peri_get_range dims lo hi = Some r /\
    match r with
    | PeriInvalid => False
    | PeriRegular => in_array dims lo /\ in_array dims hi /\ Forall2 Z.le lo hi
    | PeriRanges rs => axes_ok dims lo hi rs
    end.
Proof.
  intros H.
  assert (HV : peri_valid dims lo hi = Some true).
  { revert lo hi H. induction dims as [|d dims IH]; intros [|l lo] [|h hi]; cbn [peri_region peri_valid]; try tauto.
    intros [(Hd & Hlh & HC) HR]. destruct (Z.ltb_spec (h - l + 1) 1), (Z.ltb_spec (2 * d) (h - l + 1)); try lia.
    cbn [orb]. auto. }
  assert (HE : exists rs reg ns, peri_each dims lo hi = Some (rs, reg, ns) /\ axes_ok dims lo hi rs /\
    (reg = true -> ns = true -> in_array dims lo /\ in_array dims hi /\ Forall2 Z.le lo hi)).
  { clear HV. revert lo hi H. induction dims as [|d dims IH]; intros [|l lo] [|h hi]; cbn [peri_region peri_each]; try tauto.
    - intros _. exists [], true, true. split; [reflexivity|]. split; [exact I|]. intros; repeat split; auto.
    - intros [HD HR]. destruct (IH lo hi HR) as (rs & reg & ns & E & A & N).
      destruct (peri_shift_spec d l h HD) as (l1 & h1 & n1 & c & ES & E1 & E2 & B1 & B2 & HN).
      rewrite ES, E. cbn [fst snd]. eexists _, _, _. split; [reflexivity|]. destruct HD as (Hd & Hlh & _). split.
      + split; [|exact A]. rewrite E1, E2. apply peri_ranges_ok; lia.
      + intros R1 R2. apply andb_true_iff in R1 as [R1 R1'], R2 as [R2 R2']. destruct (N R1' R2') as (I1 & I2 & I3).
        rewrite (HN R2) in *. unfold peri_outside in R1. apply negb_true_iff, orb_false_iff in R1 as [X Y].
        cbn [in_array]. split; [split; [lia|exact I1]|]. split; [split; [lia|exact I2]|]. constructor; auto. }
  destruct HE as (rs & reg & ns & E & A & N). unfold peri_get_range. rewrite HV, E. cbn [fst snd].
  destruct (reg && ns) eqn:ER.
  - apply andb_true_iff in ER as [-> ->]. exists PeriRegular. split; [reflexivity|]. auto.
  - exists (PeriRanges rs). split; [reflexivity|exact A].
Qed.

(** ---- patches ---- *)
Definition counts (rs : list (list (Z * Z * Z))) : list Z := map (fun r => Z.of_nat (length r)) rs.
Fixpoint patch_at (rs : list (list (Z * Z * Z))) (c plo phi off : list Z) : Prop :=
  match rs, c, plo, phi, off with
  | [], [], [], [], [] => True
  | r :: rs', k :: c', l :: plo', h :: phi', o :: off' => zget r k = Some (l, h, o) /\ patch_at rs' c' plo' phi' off'
  | _, _, _, _, _ => False
  end.

Lemma peri_patch_spec rs c ld f : rs <> [] -> in_range0 (counts rs) c -> (length rs <= S (length ld))%nat ->
  exists plo phi off, peri_patch rs c ld f = Some (plo, phi, f * lin ld off) /\ patch_at rs c plo phi off.
Proof.
  revert c ld f. induction rs as [|r rs IH]; intros c ld f Hne HR HL; [congruence|].
  destruct c as [|k c]; [destruct HR|]. cbn [counts map in_range0] in HR. destruct HR as [Hk HR].
  destruct (zget r k) as [[[l h] o]|] eqn:Ek; [|exfalso; unfold zget in Ek; destruct (Z.ltb_spec k 0); [lia|]; apply nth_error_None in Ek; lia].
  destruct rs as [|r' rs].
  - destruct c; [|destruct HR]. exists [l], [h], [o]. cbn [peri_patch]. rewrite Ek. cbn [fst snd lin]. split; [do 2 f_equal; ring|].
    cbn. auto.
  - destruct c as [|k' c]; [destruct HR|]. destruct ld as [|d ld]; [cbn in HL; lia|].
    destruct (IH (k' :: c) ld (f * d)) as (plo & phi & off & E & P); [discriminate|exact HR|cbn in *; lia|].
    change (peri_patch (r :: r' :: rs) (k :: k' :: c) (d :: ld) f) with
      (do b <- zget r k; do p <- peri_patch (r' :: rs) (k' :: c) ld (f * d);
       Some (fst (fst b) :: fst (fst p), snd (fst b) :: snd (fst p), snd b * f + snd p)).
    rewrite Ek, E. cbn [fst snd]. exists (l :: plo), (h :: phi), (o :: off). split; [|split; [exact Ek|exact P]].
    do 2 f_equal. destruct off as [|o' off]; [destruct plo, phi; cbn in P; tauto|]. rewrite lin_cons. ring.
Qed.

Lemma peri_advance_0 rs c : rs <> [] -> in_range0 (counts rs) c -> peri_advance rs c 0 = Some c.
Proof.
  revert c. induction rs as [|r rs IH]; intros [|k c] Hne HR; try congruence; [destruct HR|].
  destruct HR as [Hk HR]. fold (counts rs) in HR. cbn [peri_advance]. rewrite Z.add_0_r. destruct (Z.eqb_spec k (Z.of_nat (length r))); [lia|].
  destruct rs as [|r' rs]; [destruct c; [reflexivity|destruct HR]|]. rewrite IH by (auto; discriminate). reflexivity.
Qed.
Lemma peri_advance_1 rs c : rs <> [] -> in_range0 (counts rs) c ->
  match peri_advance rs c 1 with
  | None => encode (counts rs) c + 1 = zprod (counts rs)
  | Some c' => in_range0 (counts rs) c' /\ encode (counts rs) c' = encode (counts rs) c + 1
  end.
Proof.
  revert c. induction rs as [|r rs IH]; intros [|k c] Hne HR; try congruence; [destruct HR|].
  pose proof HR as [Hk HR']. fold (counts rs) in HR'. cbn [peri_advance].
  cbn [counts map encode zprod]. fold (counts rs).
  destruct (Z.eqb_spec (k + 1) (Z.of_nat (length r))) as [E|E]; destruct rs as [|r' rs].
  - destruct c; [|destruct HR']. cbn. lia.
  - specialize (IH c ltac:(discriminate) HR'). destruct (peri_advance (r' :: rs) c 1) as [c'|].
    + destruct IH as [I1 I2]. split; [split; [lia|exact I1]|]. cbn [encode]. rewrite I2. nia.
    + rewrite <- IH. nia.
  - destruct c; [|destruct HR']. cbn. lia.
  - rewrite peri_advance_0 by (auto; discriminate). split; [split; [lia|exact HR']|]. cbn [encode]. lia.
Qed.

Lemma peri_loop_spec rs ld : rs <> [] -> (length rs <= S (length ld))%nat -> Forall (fun n => 1 <= n) (counts rs) ->
  forall n c fuel, in_range0 (counts rs) c -> n = Z.to_nat (zprod (counts rs) - encode (counts rs) c) -> (n <= fuel)%nat ->
  exists ps, peri_loop fuel rs c ld = Some ps /\
    map fst ps = map (decode (counts rs)) (zseq (encode (counts rs) c) n) /\
    forall c' p, In (c', p) ps -> in_range0 (counts rs) c' /\ peri_patch rs c' ld 1 = Some p.
Proof.
  intros Hne HL HF n. induction n as [|n IH]; intros c fuel HR Hn Hf; pose proof (encode_range _ _ HR) as ER; [lia|].
  destruct fuel as [|fuel]; [lia|]. cbn [peri_loop].
  destruct (peri_patch_spec rs c ld 1 Hne HR HL) as (plo & phi & off & E & _). rewrite E.
  pose proof (peri_advance_1 rs c Hne HR) as A. destruct (peri_advance rs c 1) as [c'|].
  - destruct A as [A1 A2]. destruct (IH c' fuel A1) as (ps & EL & EM & EP); [lia|lia|]. rewrite EL.
    eexists. split; [reflexivity|]. split.
    + cbn [map fst zseq]. rewrite decode_encode by exact HR. f_equal. rewrite EM, A2. reflexivity.
    + intros c0 p [X|X]; [injection X as <- <-; auto|apply EP; exact X].
  - assert (n = O) by lia. subst n. eexists. split; [reflexivity|]. split.
    + cbn [map fst zseq]. rewrite decode_encode by exact HR. reflexivity.
    + intros c0 p [X|[]]. injection X as <- <-. auto.
Qed.

(** ---- elements of the patches ---- *)
Definition unwrap (lo off plo x : list Z) : list Z := vadd lo (vadd off (vsub x plo)).

Lemma axes_patch dims : forall lo hi rs c plo phi off, axes_ok dims lo hi rs -> patch_at rs c plo phi off ->
  in_array dims plo /\ in_array dims phi /\ Forall2 Z.le plo phi /\ Forall2 Z.le (extents plo phi) (extents lo hi) /\
  length plo = length lo /\ length off = length lo /\
  forall x, in_box plo phi x -> in_box lo hi (unwrap lo off plo x) /\ wrapv dims (unwrap lo off plo x) = x.
Proof.
  induction dims as [|d dims IH]; intros [|l lo] [|h hi] [|r rs] c plo phi off; cbn [axes_ok]; try tauto.
  - intros _. destruct c, plo, phi, off; cbn [patch_at]; try tauto. intros _.
    split; [exact I|]. split; [exact I|]. split; [constructor|]. split; [constructor|]. split; [reflexivity|]. split; [reflexivity|].
    intros [|x xs]; cbn; tauto.
  - intros [A AS]. destruct c as [|k c], plo as [|p plo], phi as [|q phi], off as [|o off]; cbn [patch_at]; try tauto.
    intros [P PS]. destruct (IH _ _ _ _ _ _ _ AS PS) as (I1 & I2 & I3 & I4 & I5 & I6 & I7).
    destruct A as (_ & A & _). destruct (A _ _ _ _ P) as (B1 & B2 & B3 & B4 & B5).
    cbn [in_array extents length]. split; [split; [lia|exact I1]|]. split; [split; [lia|exact I2]|].
    split; [constructor; [lia|exact I3]|]. split; [constructor; [lia|exact I4]|]. split; [lia|]. split; [lia|].
    intros [|x xs]; cbn [in_box]; [tauto|]. intros [Hx HX]. destruct (I7 xs HX) as [J1 J2].
    unfold unwrap in *. cbn [vsub vadd in_box wrapv]. specialize (B5 x Hx).
    replace (l + (o + (x - p))) with (l + o + (x - p)) by ring.
    split; [split; [lia|exact J1]|]. rewrite B5, J2. reflexivity.
Qed.

Lemma axes_cover dims : forall lo hi rs y, axes_ok dims lo hi rs -> in_box lo hi y ->
  exists c plo phi off x, in_range0 (counts rs) c /\ patch_at rs c plo phi off /\ in_box plo phi x /\ y = unwrap lo off plo x.
Proof.
  induction dims as [|d dims IH]; intros [|l lo] [|h hi] [|r rs] y; cbn [axes_ok]; try tauto.
  - intros _ Hy. destruct y; [|destruct Hy]. exists [], [], [], [], []. cbn. auto.
  - intros [A AS]. destruct y as [|y ys]; cbn [in_box]; [tauto|]. intros [Hy HY].
    destruct (IH _ _ _ _ AS HY) as (c & plo & phi & off & x & R & P & B & E).
    destruct A as (_ & _ & A & _). destruct (A y Hy) as (k & rl & rh & o & Ek & Ho).
    exists (k :: c), (rl :: plo), (rh :: phi), (o :: off), (rl + (y - l - o) :: x).
    split; [split; [apply zget_inv in Ek; lia|exact R]|]. split; [split; auto|]. split; [split; [lia|exact B]|].
    unfold unwrap in *. cbn [vsub vadd]. rewrite <- E. f_equal. lia.
Qed.

Lemma axes_unique dims : forall lo hi rs c plo phi off x c' plo' phi' off' x',
  axes_ok dims lo hi rs -> patch_at rs c plo phi off -> patch_at rs c' plo' phi' off' ->
  in_box plo phi x -> in_box plo' phi' x' -> unwrap lo off plo x = unwrap lo off' plo' x' -> c = c'.
Proof.
  induction dims as [|d dims IH]; intros [|l lo] [|h hi] [|r rs] c plo phi off x c' plo' phi' off' x'; cbn [axes_ok]; try tauto.
  - intros _. destruct c, c'; cbn [patch_at]; try tauto.
  - intros [A AS]. destruct c as [|k c], plo as [|p plo], phi as [|q phi], off as [|o off]; cbn [patch_at]; try tauto.
    destruct c' as [|k' c'], plo' as [|p' plo'], phi' as [|q' phi'], off' as [|o' off']; cbn [patch_at]; try tauto.
    destruct x as [|x xs], x' as [|x' xs']; cbn [in_box]; try tauto.
    intros [P PS] [P' PS'] [B BS] [B' BS'] E. unfold unwrap in E. cbn [vsub vadd] in E. injection E as E1 E2. f_equal.
    + destruct A as (_ & _ & _ & A). apply (A (l + (o + (x - p))) k p q o k' p' q' o' P P'); lia.
    + exact (IH _ _ _ _ _ _ _ _ _ _ _ _ _ AS PS PS' BS BS' E2).
Qed.

Lemma axes_counts dims lo hi rs : axes_ok dims lo hi rs ->
  Forall (fun n => 1 <= n) (counts rs) /\ length rs = length lo /\ length rs = length dims.
Proof.
  revert lo hi rs. induction dims as [|d dims IH]; intros [|l lo] [|h hi] [|r rs]; cbn [axes_ok]; try tauto.
  - intros _. split; [constructor|auto].
  - intros [(A & _) AS]. destruct (IH _ _ _ AS) as (I1 & I2 & I3). split; [constructor; [exact A|exact I1]|]. cbn; lia.
Qed.

(** Requests for parts whose extents are not larger. *)
Lemma good_smaller a (shape : list Z -> Prop) lo hi plo phi ld : 1 <= ga_elemsize a <= int_max ->
  Forall2 Z.le (extents plo phi) (extents lo hi) -> Forall2 Z.le plo phi -> length plo = length lo -> length hi = length lo ->
  in_array (dims (ga_desc a)) plo -> in_array (dims (ga_desc a)) phi ->
  valid_ld lo hi ld -> int_counts (ga_elemsize a) lo hi -> int_strides (ga_elemsize a) (length lo - 1) ld ->
  (forall sh, shape sh -> int_strides (ga_elemsize a) (length lo - 1) sh) -> good_request a shape plo phi ld.
Proof.
  intros He HE HF L1 L2 A1 A2 HV HC HS HSh. split; [exact A1|]. split; [exact A2|]. split; [exact HF|].
  split.
  { clear - HE HF L1 L2 HV. revert lo hi ld L1 L2 HE HV. induction HF as [|p q plo phi Hp HF IH]; intros [|l lo] [|h hi] ld L1 L2 HE HV; cbn [length] in *; try discriminate; [exact I|].
    cbn [extents] in HE. inversion HE; subst. destruct plo as [|p' plo]; [exact I|]. destruct lo as [|l' lo]; [cbn in L1; discriminate|].
    cbn [valid_ld] in *. destruct ld as [|d ld]; [tauto|]. destruct HV as [V1 V2]. split; [lia|]. apply (IH (l' :: lo) hi); auto; cbn in *; lia. }
  split; [exact He|]. split.
  { unfold int_counts in *. destruct HE as [|e' e ex' ex H1 H2]; [exact I|]. destruct HC as [C1 C2]. inversion C2; subst.
    split; [nia|]. constructor; [lia|]. clear - H2 H4. induction H2; constructor; inversion H4; subst; auto; lia. }
  rewrite L1. split; [exact HS|exact HSh].
Qed.
Lemma zprod_upd_mono i xs ys : Forall2 Z.le xs ys -> Forall (fun x => 0 <= x) xs -> zprod (upd i 1 xs) <= zprod (upd i 1 ys).
Proof.
  assert (M : forall xs ys, Forall2 Z.le xs ys -> Forall (fun x => 0 <= x) xs -> 0 <= zprod xs <= zprod ys).
  { induction 1 as [|x y l l' H F IH]; intros HP; cbn [zprod]; [lia|]. inversion HP; subst. specialize (IH H3). nia. }
  intros HF. revert i. induction HF as [|x y l l' H F IH]; intros i HP; cbn [upd].
  - destruct i; cbn; lia.
  - inversion HP; subst. destruct i as [|i]; cbn [upd zprod].
    + destruct (M _ _ F H3). lia.
    + specialize (IH i H3).
      assert (0 <= zprod (upd i 1 l)).
      { clear - H3. revert i. induction H3 as [|x l Hx HP IH]; intros i; cbn [upd]; [destruct i; cbn; lia|].
        destruct i; cbn [zprod upd]; [|specialize (IH i); nia].
        assert (0 <= zprod l) by (apply zprod_nonneg; exact HP). lia. }
      nia.
Qed.
Lemma splittable_smaller es lo hi plo phi : 1 <= es -> Forall2 Z.le plo phi -> length plo = length lo ->
  Forall2 Z.le (extents plo phi) (extents lo hi) -> splittable es lo hi -> splittable es plo phi.
Proof.
  intros He HF HL HE HS i Hi. specialize (HS i ltac:(lia)).
  assert (Forall (fun x => 0 <= x) (extents plo phi)).
  { clear - HF. induction HF; cbn; constructor; auto; lia. }
  pose proof (zprod_upd_mono i _ _ HE H). nia.
Qed.

(** ---- all transfers ---- *)
Section Periodic.
Variables (guess : Z -> Z -> Z -> Z) (rnd : list Z -> Z -> Z) (nn : Z) (smp : Z -> bool) (a : garray).
Variables (placed : list Z -> place -> Prop) (shape : list Z -> Prop) (lo hi ld : list Z).
Hypothesis HQ : good_periodic a shape lo hi ld.
Hypothesis HD : dims (ga_desc a) <> [].
Hypothesis HT : forall c plo phi, good_request a shape plo phi ld -> Forall2 Z.le (extents plo phi) (extents lo hi) ->
  length plo = length lo -> exists ts, gives_transfers guess (rnd c) nn smp a plo phi ld placed ts.

Definition wrapped (y : list Z) (q : place) : Prop := placed (wrapv (dims (ga_desc a)) y) q.

Lemma wrapv_id ds x : in_array ds x -> wrapv ds x = x.
Proof.
  revert x. induction ds as [|d ds IH]; intros [|x xs]; cbn [in_array wrapv]; try tauto. intros [H1 H2].
  rewrite IH by exact H2. f_equal. apply (wrap_unique d x x 0); lia.
Qed.
Lemma extents_le_refl : Forall2 Z.le (extents lo hi) (extents lo hi).
Proof. clear. generalize (extents lo hi). intros l. induction l; constructor; auto; lia. Qed.

Lemma patch_call c plo phi off rs : axes_ok (dims (ga_desc a)) lo hi rs -> patch_at rs c plo phi off ->
  exists ts, gives_transfers guess (rnd c) nn smp a plo phi ld placed ts.
Proof.
  intros A P. destruct (axes_patch _ _ _ _ _ _ _ _ A P) as (I1 & I2 & I3 & I4 & I5 & I6 & I7).
  destruct HQ as (Q1 & Q2 & Q3 & Q4 & Q5 & Q6). apply HT; auto.
  apply (good_smaller a shape lo hi plo phi ld); auto.
  clear - Q1. revert lo hi Q1. induction (dims (ga_desc a)) as [|d ds IH]; intros [|l lo] [|h hi]; cbn; try tauto.
  intros [_ H]. rewrite (IH lo hi H). reflexivity.
Qed.

Theorem periodic_sel_transfers :
  exists ts fuel0, (forall fuel, (fuel0 <= fuel)%nat -> periodic_transfers fuel guess rnd nn smp a lo hi ld = Some ts) /\
    sel_transfers wrapped (in_box lo hi) (fun y => lin ld (vsub y lo)) ts.
Proof.
  pose proof HQ as (Q1 & Q2 & Q3 & Q4 & Q5 & Q6).
  destruct (peri_get_range_spec _ _ _ Q1) as (r & E & R).
  unfold periodic_transfers. rewrite E. destruct r as [| |rs]; [tauto| |].
  - destruct R as (R1 & R2 & R3). pose proof (Forall2_len _ _ _ R3) as HL.
    destruct (HT [] lo hi) as (ts & (f0 & ET) & (l & E1 & E2 & E3)).
    { split; [exact R1|]. split; [exact R2|]. split; [exact R3|]. auto. } { apply extents_le_refl. } { reflexivity. }
    exists ts, f0. split; [exact ET|]. exists l. split; [exact E1|]. split; [|split].
    + eapply Permutation_NoDup; [apply Permutation_sym; exact E2|apply box_list_NoDup].
    + intros x. rewrite <- box_list_In by exact HL. split; apply Permutation_in; auto using Permutation_sym.
    + intros t x Hin. destruct (E3 t x Hin) as [P1 P2]. split; [|exact P2]. unfold wrapped. rewrite wrapv_id; [exact P1|].
      assert (Hx : in_box lo hi x).
      { apply box_list_In; [exact HL|]. eapply Permutation_in; [exact E2|]. apply in_map_iff. exists (t, x). auto. }
      clear - R1 R2 Hx. revert lo hi x R1 R2 Hx. induction (dims (ga_desc a)) as [|d ds IH]; intros [|l lo] [|h hi] [|x xs]; cbn; try tauto.
      intros [? X1] [? X2] [? X3]. split; [lia|]. exact (IH _ _ _ X1 X2 X3).
  - destruct (axes_counts _ _ _ _ R) as (C1 & C2 & C3).
    assert (Hrs : rs <> []) by (intros ->; destruct (dims (ga_desc a)); [congruence|discriminate]).
    assert (VL : Forall2 Z.le lo hi).
    { clear - Q1. revert lo hi Q1. induction (dims (ga_desc a)) as [|d ds IH]; intros [|l lo] [|h hi]; cbn; try tauto; [constructor|].
      intros [(_ & H & _) HR]. constructor; auto. }
    destruct (valid_ld_pos lo hi ld VL Q2) as [V1 V2].
    pose proof (Forall2_len _ _ _ VL) as HL.
    assert (Z0 : in_range0 (counts rs) (map (fun _ => 0) rs) /\ encode (counts rs) (map (fun _ => 0) rs) = 0).
    { clear - C1. unfold counts in *. induction rs as [|r rs IH]; cbn [map in_range0 encode] in *; [auto|]. inversion C1; subst.
      destruct IH as [I1 I2]; [assumption|]. split; [split; [lia|exact I1]|]. rewrite I2. lia. }
    destruct Z0 as [Z1 Z2]. set (N := Z.to_nat (zprod (counts rs))).
    destruct (peri_loop_spec rs ld Hrs ltac:(lia) C1 N (map (fun _ => 0) rs) N Z1) as (ps & EL & EM & EP).
    { rewrite Z2. unfold N. f_equal. lia. } { lia. }
    assert (ELf : forall fuel, (N <= fuel)%nat -> peri_loop fuel rs (map (fun _ => 0) rs) ld = Some ps).
    { intros fuel Hf. destruct (peri_loop_spec rs ld Hrs ltac:(lia) C1 N (map (fun _ => 0) rs) fuel Z1) as (ps' & EL' & EM' & EP').
      { rewrite Z2. unfold N. f_equal. lia. } { exact Hf. }
      rewrite EL'. f_equal. rewrite <- EM in EM'. clear - EM' EP EP'. revert ps EM' EP.
      induction ps' as [|[c p] ps' IH]; intros [|[c1 p1] ps] EM EP; try discriminate; [reflexivity|]. cbn [map fst] in EM. injection EM as <- EM.
      destruct (EP _ _ (or_introl eq_refl)) as [_ X1]. destruct (EP' _ _ (or_introl eq_refl)) as [_ X2].
      rewrite X1 in X2. injection X2 as ->. f_equal. apply IH; auto.
      - intros c' p' H. apply EP'. now right.
      - intros c' p' H. apply EP. now right. }
    rewrite Z2 in EM.
    (* every call *)
    set (Q := fun (cp : list Z * (list Z * list Z * Z)) (l : list (place * Z * list Z)) =>
      exists off, patch_at rs (fst cp) (fst (fst (snd cp))) (snd (fst (snd cp))) off /\ snd (snd cp) = lin ld off /\
        Permutation (map snd l) (map (unwrap lo off (fst (fst (snd cp)))) (box_list (fst (fst (snd cp))) (snd (fst (snd cp))))) /\
        forall t y, In (t, y) l -> wrapped y (fst t) /\ snd t = lin ld (vsub y lo)).
    assert (HC : exists ls f0, Forall2 Q ps ls /\ forall fuel, (f0 <= fuel)%nat ->
      mapM (fun cp => let p := snd cp in
             do ts <- transfers fuel guess (rnd (fst cp)) nn smp a (fst (fst p)) (snd (fst p)) ld;
             Some (shift_buf (snd p) ts)) ps = Some (map (map fst) ls)).
    { clear EM ELf EL. induction ps as [|[c p] ps IH]; [exists [], O; split; [constructor|reflexivity]|].
      destruct IH as (ls & f0 & F & EF); [intros; apply EP; now right|].
      destruct (EP c p (or_introl eq_refl)) as [X1 X2].
      destruct (peri_patch_spec rs c ld 1 Hrs X1 ltac:(lia)) as (plo & phi & off & E2 & P). rewrite X2, Z.mul_1_l in E2. assert (EP1 : p = (plo, phi, lin ld off)) by congruence. subst p. clear E2.
      destruct (patch_call c plo phi off rs R P) as (ts & (f1 & ET) & (l & L1 & L2 & L3)).
      destruct (axes_patch _ _ _ _ _ _ _ _ R P) as (I1 & I2 & I3 & I4 & I5 & I6 & I7).
      pose proof (Forall2_len _ _ _ I3) as LP.
      set (g := fun tx : place * Z * list Z => ((fst (fst tx), lin ld off + snd (fst tx)), unwrap lo off plo (snd tx))).
      exists (map g l :: ls), (Nat.max f0 f1). split.
      - constructor; [|exact F]. exists off. cbn [fst snd]. split; [exact P|]. split; [reflexivity|]. split.
        + rewrite map_map. change (fun x => snd (g x)) with (fun x : place * Z * list Z => unwrap lo off plo (snd x)).
          rewrite <- (map_map snd (unwrap lo off plo)). apply Permutation_map. exact L2.
        + intros t y Hin. apply in_map_iff in Hin as ((t0 & x) & EQ & Hin). unfold g in EQ. cbn [fst snd] in EQ. injection EQ as <- <-.
          destruct (L3 t0 x Hin) as [P1 P2]. cbn [fst snd].
          assert (Hx : in_box plo phi x).
          { apply box_list_In; [exact LP|]. eapply Permutation_in; [exact L2|]. apply in_map_iff. exists (t0, x). auto. }
          destruct (I7 x Hx) as [_ J2]. split; [unfold wrapped; rewrite J2; exact P1|].
          rewrite P2. destruct (in_box_len _ _ _ Hx) as [Lx Lx'].
          rewrite <- lin_add by (rewrite vsub_length; lia). f_equal. unfold unwrap.
          assert (LV : length (vadd off (vsub x plo)) = length lo) by (rewrite vadd_length by (rewrite vsub_length; lia); lia).
          revert LV. generalize (vadd off (vsub x plo)). clear. intros v LV. revert v LV.
          induction lo as [|b lo0 IH]; intros [|e v] H; try discriminate; [reflexivity|]. cbn in *. rewrite <- IH by lia. f_equal. lia.
      - intros fuel Hf. cbn [mapM]. cbn [fst snd]. rewrite ET by lia. rewrite EF by lia. cbn [map]. f_equal. f_equal.
        rewrite L1. unfold shift_buf. rewrite !map_map. apply map_ext. intros [t x]. unfold g. reflexivity. }
    destruct HC as (ls & f0 & F & EF). exists (map fst (concat ls)), (Nat.max N f0). split.
    { intros fuel Hf. rewrite ELf by lia. rewrite EF by lia. rewrite concat_map. reflexivity. }
    assert (UI : forall c plo phi off, patch_at rs c plo phi off -> forall x x', in_box plo phi x -> in_box plo phi x' ->
      unwrap lo off plo x = unwrap lo off plo x' -> x = x').
    { intros c plo phi off P x x' Hx Hx' EQ. destruct (axes_patch _ _ _ _ _ _ _ _ R P) as (_ & _ & _ & _ & _ & _ & I7).
      destruct (I7 x Hx) as [_ <-]. destruct (I7 x' Hx') as [_ <-]. rewrite EQ. reflexivity. }
    assert (HIn : forall k cp l y, nth_error ps k = Some cp -> Q cp l -> In y (map snd l) ->
      exists off x, patch_at rs (fst cp) (fst (fst (snd cp))) (snd (fst (snd cp))) off /\
        in_box (fst (fst (snd cp))) (snd (fst (snd cp))) x /\ y = unwrap lo off (fst (fst (snd cp))) x).
    { intros k cp l y Hk (off & P & _ & PM & _) Hy. destruct (axes_patch _ _ _ _ _ _ _ _ R P) as (_ & _ & I3 & _).
      eapply Permutation_in in Hy; [|exact PM]. apply in_map_iff in Hy as (x & <- & Hx).
      apply box_list_In in Hx; [|eapply Forall2_len; exact I3]. exists off, x. auto. }
    assert (NC : NoDup (map fst ps)).
    { rewrite EM. clear - C1. assert (HZ : forall k n, 0 <= k -> k + Z.of_nat n <= zprod (counts rs) -> NoDup (map (decode (counts rs)) (zseq k n))).
      { intros k n. revert k. induction n as [|n IH]; intros k Hk Hn; [constructor|]. cbn [zseq map]. constructor; [|apply IH; lia].
        intros Hin. apply in_map_iff in Hin as (j & EQ & Hj).
        assert (HJ : k + 1 <= j < k + 1 + Z.of_nat n).
        { clear - Hj. revert Hj. generalize (k + 1). induction n as [|n IH]; intros m Hj; [destruct Hj|]. cbn [zseq] in Hj. destruct Hj as [<-|Hj]; [lia|]. specialize (IH _ Hj). lia. }
        apply (f_equal (encode (counts rs))) in EQ. rewrite !encode_decode in EQ by (auto; lia). lia. }
      apply HZ; [lia|]. unfold N. pose proof (zprod_pos _ C1). lia. }
    exists (concat ls). split; [reflexivity|]. split; [|split].
    + rewrite concat_map, <- flat_map_concat_map. apply NoDup_flat_map_nth.
      * intros l Hl. apply In_nth_error in Hl as (k & Hk). destruct (Forall2_nth _ _ _ _ _ F Hk) as (cp & Hcp & (off & P & _ & PM & _)).
        eapply Permutation_NoDup; [apply Permutation_sym; exact PM|].
        destruct (axes_patch _ _ _ _ _ _ _ _ R P) as (_ & _ & I3 & _). pose proof (Forall2_len _ _ _ I3) as LP.
        assert (NM : forall bs, NoDup bs -> (forall x, In x bs -> in_box (fst (fst (snd cp))) (snd (fst (snd cp))) x) ->
          NoDup (map (unwrap lo off (fst (fst (snd cp)))) bs)).
        { induction 1 as [|b bs Hb NB IH]; intros HB; [constructor|]. cbn [map]. constructor; [|apply IH; intros; apply HB; now right].
          intros Hin. apply in_map_iff in Hin as (b' & EQ & Hb'). apply Hb.
          rewrite <- (UI _ _ _ _ P b' b (HB _ (or_intror Hb')) (HB _ (or_introl eq_refl)) EQ). exact Hb'. }
        apply NM; [apply box_list_NoDup|]. intros x Hx. apply box_list_In in Hx; auto.
      * intros k k' l l' y Hk Hk' Hy Hy'.
        destruct (Forall2_nth _ _ _ _ _ F Hk) as (cp & Hcp & HQ1). destruct (Forall2_nth _ _ _ _ _ F Hk') as (cp' & Hcp' & HQ2).
        destruct (HIn _ _ _ _ Hcp HQ1 Hy) as (off & x & P & B & EQ). destruct (HIn _ _ _ _ Hcp' HQ2 Hy') as (off' & x' & P' & B' & EQ').
        rewrite EQ' in EQ.
        pose proof (axes_unique _ _ _ _ _ _ _ _ _ _ _ _ _ _ R P' P B' B EQ) as EC.
        assert (N1 : nth_error (map fst ps) k = Some (fst cp)) by (apply map_nth_error; exact Hcp).
        assert (N2 : nth_error (map fst ps) k' = Some (fst cp')) by (apply map_nth_error; exact Hcp').
        rewrite EC in N2. rewrite <- N1 in N2. symmetry in N2.
        apply (proj1 (NoDup_nth_error _) NC); [apply nth_error_Some; congruence|exact N2].
    + intros y. split.
      * intros Hy. apply in_map_iff in Hy as (e & <- & Hin). apply in_concat in Hin as (l & Hl & He).
        apply In_nth_error in Hl as (k & Hk). destruct (Forall2_nth _ _ _ _ _ F Hk) as (cp & Hcp & HQ1).
        destruct (HIn _ _ _ _ Hcp HQ1 (in_map _ _ _ He)) as (off & x & P & B & EQ). rewrite EQ.
        destruct (axes_patch _ _ _ _ _ _ _ _ R P) as (_ & _ & _ & _ & _ & _ & I7). apply (I7 x B).
      * intros Hy. destruct (axes_cover _ _ _ _ _ R Hy) as (c & plo & phi & off & x & RC & P & B & EQ).
        assert (Hc : In c (map fst ps)).
        { rewrite EM. apply in_map_iff. exists (encode (counts rs) c). split; [apply decode_encode; exact RC|].
          pose proof (encode_range _ _ RC) as ER. unfold N. clear - ER. 
          assert (HZ : forall n k j, k <= j < k + Z.of_nat n -> In j (zseq k n)).
          { induction n as [|n IH]; intros k j Hj; [lia|]. cbn [zseq]. destruct (Z.eq_dec k j); [now left|]. right. apply IH. lia. }
          apply HZ. lia. }
        apply in_map_iff in Hc as ([c0 p] & EC & Hc). cbn [fst] in EC. subst c0.
        destruct (In_nth_error _ _ Hc) as (k & Hk). destruct (Forall2_nth_l _ _ _ _ _ F Hk) as (l & Hl & (off' & P' & _ & PM & _)).
        cbn [fst snd] in *.
        assert (EQP : fst (fst p) = plo /\ snd (fst p) = phi /\ off' = off).
        { clear - P P'. revert P P'. generalize (fst (fst p)) (snd (fst p)). revert c plo phi off off'.
          induction rs as [|r rs IH]; intros [|k c] [|a1 plo] [|b1 phi] [|o1 off] [|o2 off'] [|a2 plo'] [|b2 phi']; cbn [patch_at]; try tauto.
          intros [X X'] [Y Y']. rewrite X in Y. injection Y as -> -> ->. destruct (IH _ _ _ _ _ _ _ X' Y') as (-> & -> & ->). auto. }
        destruct EQP as (X1 & X2 & ->). rewrite X1, X2 in PM.
        assert (Hy2 : In y (map snd l)).
        { eapply Permutation_in; [apply Permutation_sym; exact PM|]. rewrite EQ. apply in_map. apply box_list_In; [|exact B].
          destruct (axes_patch _ _ _ _ _ _ _ _ R P) as (_ & _ & I3 & _). eapply Forall2_len; exact I3. }
        apply in_map_iff in Hy2 as (e & <- & He). apply in_map, in_concat. exists l. split; [eapply nth_error_In; eauto|exact He].
    + intros t y Hin. apply in_concat in Hin as (l & Hl & He). apply In_nth_error in Hl as (k & Hk).
      destruct (Forall2_nth _ _ _ _ _ F Hk) as (cp & _ & (off & _ & _ & _ & C)). exact (C t y He).
Qed.
End Periodic.

Lemma sel_perm placed sel ix ts ts' : sel_transfers placed sel ix ts -> Permutation ts ts' -> sel_transfers placed sel ix ts'.
Proof.
  intros (l & -> & N & S & H) PT. apply Permutation_sym, Permutation_map_inv in PT as (l' & -> & PL).
  exists l'. split; [reflexivity|]. split; [|split].
  - eapply Permutation_NoDup; [apply Permutation_map; exact PL|exact N].
  - intros x. rewrite <- S. split; apply Permutation_in, Permutation_map; [apply Permutation_sym|]; exact PL.
  - intros t x Hin. apply H. eapply Permutation_in; [apply Permutation_sym; exact PL|exact Hin].
Qed.

Lemma wrapv_inj ds : forall lo hi x y, one_period ds lo hi -> Forall (fun d => 1 <= d) ds -> in_box lo hi x -> in_box lo hi y ->
  wrapv ds x = wrapv ds y -> x = y.
Proof.
  induction ds as [|d ds IH]; intros [|l lo] [|h hi] [|x xs] [|y ys]; cbn [one_period in_box wrapv]; try tauto.
  intros [O1 O2] HF [B1 B2] [B3 B4] E. inversion HF; subst. injection E as E1 E2. f_equal; [|eapply IH; eauto].
  unfold wrap in E1. pose proof (Z.div_mod (x - 1) d ltac:(lia)). pose proof (Z.div_mod (y - 1) d ltac:(lia)).
  pose proof (Z.mod_pos_bound (x - 1) d ltac:(lia)). pose proof (Z.mod_pos_bound (y - 1) d ltac:(lia)).
  revert E1 H H0 H1 H4. generalize ((x - 1) / d) ((y - 1) / d) ((x - 1) mod d) ((y - 1) mod d). intros q q' r r'. intros.
  assert (q = q') by nia. subst. lia.
Qed.
Lemma peri_region_pos ds lo hi : peri_region ds lo hi -> Forall (fun d => 1 <= d) ds.
Proof.
  revert lo hi. induction ds as [|d ds IH]; intros [|l lo] [|h hi]; cbn [peri_region]; try tauto; intros; constructor.
  - destruct H as [(H & _) _]. exact H.
  - destruct H as [_ H]. eapply IH; eauto.
Qed.

Lemma wrapped_allocated {V} a placed (m : heap V) : allocated placed m -> allocated (wrapped a placed) m.
Proof. intros H x q Hq. exact (H _ _ Hq). Qed.
