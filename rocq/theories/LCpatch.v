(** Lemmas: patches, positions, intersections. *)
From Verif Require Import LRadix LStrided LIterReg LIterSca LStore LXfer LXfer2 LLoc LAccess LSelect LSelect2.
From Verif Require Export SpecCpatch MCpatch LGcopy4.
Open Scope Z_scope.

(** ---- boxes ---- *)
Lemma box_refl_hi lo hi : Forall2 Z.le lo hi -> in_box lo hi hi.
Proof. intros H. induction H; cbn; auto. split; [lia|auto]. Qed.
Lemma patch_in ds lo hi x : patch_of ds lo hi -> in_box lo hi x -> in_array ds x.
Proof.
  intros (H1 & H2 & _). revert lo hi x H1 H2. induction ds as [|d ds IH]; intros [|l lo] [|h hi] [|a x]; cbn; try tauto.
  intros [A B] [C D] [E F]. split; [lia|eauto].
Qed.
Lemma patch_lens ds lo hi : patch_of ds lo hi -> length lo = length ds /\ length hi = length ds.
Proof. intros (H1 & H2 & _). split; [exact (in_array_length _ _ H1)|exact (in_array_length _ _ H2)]. Qed.

Lemma le_some_spec lo hi : length lo = length hi -> le_some lo hi = true <-> Forall2 Z.le lo hi.
Proof.
  revert hi. induction lo as [|l lo IH]; intros [|h hi] HL; try discriminate; cbn [le_some].
  - split; constructor.
  - rewrite andb_true_iff, (IH hi) by (cbn in HL; lia). split.
    + intros [A B]. constructor; [lia|exact B].
    + intros H. inversion H; subst. split; [lia|assumption].
Qed.

Lemma zip_box lo : forall hi lop hip x, length hi = length lo -> length lop = length lo -> length hip = length lo ->
  in_box (zip_max lo lop) (zip_min hi hip) x <-> in_box lo hi x /\ in_box lop hip x.
Proof.
  induction lo as [|l lo IH]; intros [|h hi] [|lp lop] [|hp hip] x H1 H2 H3; try discriminate; cbn [zip_max zip_min].
  - destruct x; cbn; tauto.
  - destruct x as [|a x]; [cbn; tauto|]. cbn [in_box]. rewrite (IH hi lop hip x) by (cbn in *; lia).
    destruct (Z.ltb_spec lp l), (Z.ltb_spec h hp); intuition lia.
Qed.
Lemma zip_le lo : forall hi lop hip, length hi = length lo -> length lop = length lo -> length hip = length lo ->
  Forall2 Z.le lo hi -> Forall2 Z.le lop hip -> Forall2 Z.le lop hi -> Forall2 Z.le lo hip -> Forall2 Z.le (zip_max lo lop) (zip_min hi hip).
Proof.
  induction lo as [|l lo IH]; intros [|h hi] [|lp lop] [|hp hip] H1 H2 H3 A B C D; try discriminate; cbn [zip_max zip_min]; constructor.
  - inversion A; inversion B; inversion C; inversion D; subst. destruct (Z.ltb_spec lp l), (Z.ltb_spec h hp); lia.
  - inversion A; inversion B; inversion C; inversion D; subst. apply IH; auto; cbn in *; lia.
Qed.
Lemma zip_lens lo : forall hi lop hip, length hi = length lo -> length lop = length lo -> length hip = length lo ->
  length (zip_max lo lop) = length lo /\ length (zip_min hi hip) = length lo.
Proof.
  induction lo as [|l lo IH]; intros [|h hi] [|lp lop] [|hp hip] H1 H2 H3; try discriminate; cbn [zip_max zip_min length]; [auto|].
  destruct (IH hi lop hip) as [-> ->]; cbn in *; auto; lia.
Qed.

Lemma box_le lo hi x : in_box lo hi x -> Forall2 Z.le lo hi.
Proof. revert hi x. induction lo as [|l lo IH]; intros [|h hi] [|a x]; cbn; try tauto; constructor; [lia|eapply IH; apply H]. Qed.
Lemma box_cross lo hi lop hip x : in_box lo hi x -> in_box lop hip x -> Forall2 Z.le lop hi /\ Forall2 Z.le lo hip.
Proof.
  revert hi lop hip x. induction lo as [|l lo IH]; intros [|h hi] [|lp lop] [|hp hip] [|a x]; cbn; try tauto.
  - intros _ _. split; constructor.
  - intros [A B] [C D]. destruct (IH _ _ _ _ B D). split; constructor; auto; lia.
Qed.

(** The intersection test is exact. *)
Lemma patch_intersect_spec lo hi lop hip : length hi = length lo -> length lop = length lo -> length hip = length lo ->
  match patch_intersect lo hi lop hip with
  | Some b => Forall2 Z.le (fst b) (snd b) /\ forall x, in_box (fst b) (snd b) x <-> in_box lo hi x /\ in_box lop hip x
  | None => forall x, in_box lo hi x -> in_box lop hip x -> False
  end.
Proof.
  intros H1 H2 H3. unfold patch_intersect.
  destruct (le_some lo hi && le_some lop hip) eqn:E1.
  - apply andb_prop in E1 as [A B]. apply le_some_spec in A; [|lia]. apply le_some_spec in B; [|lia].
    destruct (le_some lop hi && le_some lo hip) eqn:E2.
    + apply andb_prop in E2 as [C D]. apply le_some_spec in C; [|lia]. apply le_some_spec in D; [|lia].
      cbn [fst snd]. split; [apply zip_le; auto|]. intros x. apply zip_box; auto.
    + intros x X Y. destruct (box_cross _ _ _ _ _ X Y) as [C D]. apply le_some_spec in C; [|lia]. apply le_some_spec in D; [|lia].
      rewrite C, D in E2. discriminate.
  - intros x X Y. pose proof (box_le _ _ _ X) as C. pose proof (box_le _ _ _ Y) as D. apply le_some_spec in C; [|lia]. apply le_some_spec in D; [|lia].
    rewrite C, D in E1. discriminate.
Qed.

(** ---- positions ---- *)
Lemma lin_index_encode x : forall b d f, length b = length x -> length d = length x -> lin_index x b d f = f * encode d (vsub x b).
Proof.
  induction x as [|a x IH]; intros [|b bs] [|d ds] f H1 H2; try discriminate; cbn [lin_index vsub encode]; [lia|].
  rewrite IH by (cbn in *; lia). nia.
Qed.
Lemma unlin_decode d : forall b i, Forall (fun n => 1 <= n) d -> length b = length d -> 0 <= i ->
  unlin i d b = Some (vadd (decode d i) b).
Proof.
  induction d as [|n d IH]; intros [|c b] i HP HL Hi; try discriminate; cbn [unlin decode vadd]; [reflexivity|].
  apply Forall_cons_iff in HP as [Hn HP]. rewrite cmod_pos, cdiv_pos by lia.
  rewrite IH; [reflexivity|exact HP|cbn in *; lia|apply Z.div_pos; lia].
Qed.
Lemma corner_offset_lin x : forall lo ld j, x <> [] -> length lo = length x -> (length x - 1 <= length ld)%nat ->
  corner_offset x lo ld j = Some (j * lin ld (vsub x lo)).
Proof.
  induction x as [|a x IH]; intros [|l lo] ld j Hne HL HD; try discriminate; [congruence|].
  destruct x as [|a' x], lo as [|l' lo]; try discriminate.
  - cbn. f_equal. lia.
  - destruct ld as [|d ld]; [cbn in HD; lia|]. 
    change (corner_offset (a :: a' :: x) (l :: l' :: lo) (d :: ld) j) with
      (do r <- corner_offset (a' :: x) (l' :: lo) ld (j * d); Some ((a - l) * j + r)).
    rewrite IH by (try discriminate; cbn in *; lia). f_equal.
    change (vsub (a :: a' :: x) (l :: l' :: lo)) with (a - l :: vsub (a' :: x) (l' :: lo)).
    change (vsub (a' :: x) (l' :: lo)) with (a' - l' :: vsub x lo). rewrite lin_cons. lia.
Qed.

(** Moving a patch. *)
Definition shift (a b x : list Z) : list Z := vadd (vsub x a) b.
Lemma shift_box a b : forall hi x, length b = length a -> in_box a hi x -> in_box b (shift a b hi) (shift a b x).
Proof.
  revert b. induction a as [|l a IH]; intros [|c b] [|h hi] [|v x] HL; cbn; try tauto; try discriminate.
  intros [A B]. split; [lia|]. apply IH; auto.
Qed.
Lemma shift_inv a : forall b x, length b = length a -> length x = length a -> shift b a (shift a b x) = x.
Proof.
  induction a as [|l a IH]; intros [|c b] [|v x] H1 H2; try discriminate; cbn; [reflexivity|].
  f_equal; [lia|]. apply IH; cbn in *; lia.
Qed.
Lemma shift_len a b x : length b = length a -> length x = length a -> length (shift a b x) = length a.
Proof. intros H1 H2. unfold shift. rewrite LStrided.vadd_length; rewrite vsub_length; lia. Qed.
Lemma shift_sub a : forall b x y, length b = length a -> length x = length a -> length y = length a ->
  vsub (shift a b x) (shift a b y) = vsub x y.
Proof.
  induction a as [|l a IH]; intros [|c b] [|v x] [|w y] H1 H2 H3; try discriminate; cbn; [reflexivity|].
  f_equal; [lia|]. apply IH; cbn in *; lia.
Qed.
Lemma shift_extents a : forall b x y, length b = length a -> length x = length a -> length y = length a ->
  extents (shift a b x) (shift a b y) = extents x y.
Proof.
  induction a as [|l a IH]; intros [|c b] [|v x] [|w y] H1 H2 H3; try discriminate; cbn; [reflexivity|].
  f_equal; [lia|]. apply IH; cbn in *; lia.
Qed.
Lemma shift_le2 a : forall b x y, length b = length a -> Forall2 Z.le x y -> length x = length a -> Forall2 Z.le (shift a b x) (shift a b y).
Proof.
  induction a as [|l a IH]; intros [|c b] x y H1 H H2; try discriminate.
  - destruct x; [|discriminate]. inversion H. constructor.
  - destruct H as [|v w x y Hv H]; [discriminate|]. cbn. constructor; [lia|]. apply IH; auto.
Qed.

Lemma same_vec_eq a : forall b, same_vec a b = true <-> a = b.
Proof.
  induction a as [|x a IH]; intros [|y b]; cbn; try (split; [discriminate|congruence]); [tauto|].
  rewrite andb_true_iff, IH, Z.eqb_eq. split; [intros [-> ->]; reflexivity|intros [= -> ->]; auto].
Qed.
(** Equal shapes: the other corner is moved along. *)
Lemma test_shape_shift alo : forall ahi blo bhi, length ahi = length alo -> length bhi = length blo ->
  test_shape alo ahi blo bhi = true <-> length blo = length alo /\ shift alo blo ahi = bhi.
Proof.
  unfold test_shape. induction alo as [|l alo IH]; intros [|h ahi] [|c blo] [|k bhi] H1 H2; try discriminate.
  - cbn. tauto.
  - cbn. split; [discriminate|intros [A _]; discriminate].
  - cbn. split; [discriminate|intros [A _]; discriminate].
  - cbn [vsub same_vec]. rewrite andb_true_iff, Z.eqb_eq, IH by (cbn in *; lia). unfold shift at 2. cbn [vsub vadd]. fold (shift alo blo ahi). cbn [length].
    split.
    + intros (A & B & C). split; [lia|]. f_equal; [lia|exact C].
    + intros (A & B). injection B as B C. split; [lia|]. split; [lia|exact C].
Qed.
Lemma extents_shift alo blo ahi : length blo = length alo -> length ahi = length alo -> extents blo (shift alo blo ahi) = extents alo ahi.
Proof.
  revert blo ahi. induction alo as [|l alo IH]; intros [|c blo] [|h ahi] H1 H2; try discriminate; [reflexivity|].
  unfold shift. cbn [vsub vadd extents]. fold (shift alo blo ahi). rewrite IH by (cbn in *; lia). f_equal. lia.
Qed.

Lemma dest_shift plo phi olo ohi x : length olo = length plo -> shift plo olo phi = ohi -> in_box plo phi x ->
  dest_indices x plo (extents plo phi) olo (extents olo ohi) = Some (shift plo olo x).
Proof.
  intros HL <- Hx. destruct (in_box_len _ _ _ Hx) as [X1 X2]. pose proof (box_le _ _ _ Hx) as HLE.
  destruct (LXfer2.extents_pos _ _ HLE) as [EL EP]. pose proof (extents_range _ _ _ Hx) as R.
  unfold dest_indices. rewrite extents_shift by lia. rewrite lin_index_encode by lia. rewrite Z.mul_1_l.
  pose proof (encode_range _ _ R). rewrite unlin_decode by (auto; lia). rewrite decode_encode by exact R. reflexivity.
Qed.

(** Correspondence of elements as a function. *)
Lemma rev_in_box lo : forall hi x, in_box lo hi x -> in_box (rev lo) (rev hi) (rev x).
Proof.
  assert (APP : forall l1 h1 x1 l2 h2 x2, in_box l1 h1 x1 -> in_box l2 h2 x2 -> in_box (l1 ++ l2) (h1 ++ h2) (x1 ++ x2)).
  { induction l1 as [|l l1 IH]; intros [|h h1] [|v x1] l2 h2 x2; cbn; try tauto. intros [A B] C. split; [exact A|auto]. }
  induction lo as [|l lo IH]; intros [|h hi] [|v x]; cbn; try tauto. intros [A B]. apply APP; [auto|cbn; auto].
Qed.
Lemma app_extents lo : forall hi l h, length hi = length lo -> extents (lo ++ [l]) (hi ++ [h]) = extents lo hi ++ [h - l + 1].
Proof. induction lo as [|a lo IH]; intros [|b hi] l h HL; try discriminate; cbn; [reflexivity|]. rewrite IH by (cbn in *; lia). reflexivity. Qed.
Lemma rev_extents lo : forall hi, length hi = length lo -> extents (rev lo) (rev hi) = rev (extents lo hi).
Proof.
  induction lo as [|a lo IH]; intros [|b hi] HL; try discriminate; [reflexivity|]. cbn [rev extents].
  rewrite app_extents by (rewrite !rev_length; cbn in *; lia). rewrite IH by (cbn in *; lia). reflexivity.
Qed.
Lemma app_vsub x : forall y a b, length x = length y -> vsub (x ++ [a]) (y ++ [b]) = vsub x y ++ [a - b].
Proof. induction x as [|u x IH]; intros [|v y] a b HL; try discriminate; cbn; [reflexivity|]. rewrite IH by (cbn in *; lia). reflexivity. Qed.

Definition pos_a (trans : bool) (alo ahi x : list Z) : Z :=
  if trans then encode (extents (rev alo) (rev ahi)) (vsub (rev x) (rev alo)) else encode (extents alo ahi) (vsub x alo).
Definition target (trans : bool) (alo ahi blo bhi x : list Z) : list Z := vadd (decode (extents blo bhi) (pos_a trans alo ahi x)) blo.

Lemma zprod_rev l : zprod (rev l) = zprod l.
Proof.
  assert (A : forall a b, zprod (a ++ b) = zprod a * zprod b).
  { induction a as [|x a IH]; intros b; cbn [app]; [cbn; destruct (zprod b); reflexivity|]. cbn. fold (zprod (a ++ b)). fold (zprod a). rewrite IH. ring. }
  induction l as [|x l IH]; [reflexivity|]. cbn [rev]. rewrite A, IH. cbn. ring.
Qed.
Lemma pos_a_range trans alo ahi x : in_box alo ahi x -> 0 <= pos_a trans alo ahi x < zprod (extents alo ahi).
Proof.
  intros Hx. destruct (in_box_len _ _ _ Hx). unfold pos_a. destruct trans.
  - pose proof (encode_range _ _ (extents_range _ _ _ (rev_in_box _ _ _ Hx))) as R. replace (zprod (extents alo ahi)) with (zprod (extents (rev alo) (rev ahi))); [exact R|]. rewrite rev_extents by lia. apply zprod_rev.
  - apply encode_range, extents_range, Hx.
Qed.
Lemma pos_a_inj trans alo ahi x y : in_box alo ahi x -> in_box alo ahi y -> pos_a trans alo ahi x = pos_a trans alo ahi y -> x = y.
Proof.
  intros Hx Hy E. destruct (in_box_len _ _ _ Hx), (in_box_len _ _ _ Hy). unfold pos_a in E. destruct trans.
  - apply encode_inj in E; try (apply extents_range, rev_in_box; assumption).
    apply vsub_inj in E; rewrite ?rev_length; try lia. rewrite <- (rev_involutive x), E. apply rev_involutive.
  - apply encode_inj in E; try (apply extents_range; assumption). apply vsub_inj in E; lia || exact E.
Qed.
Lemma patch_pos_encode lo hi x : in_box lo hi x -> patch_pos lo hi x = encode (extents lo hi) (vsub x lo).
Proof.
  intros Hx. unfold patch_pos. apply lin_encode. pose proof (in_range0_length _ _ (extents_range _ _ _ Hx)). lia.
Qed.
Lemma target_corresponds trans alo ahi blo bhi x y :
  Forall2 Z.le blo bhi -> zprod (extents alo ahi) = zprod (extents blo bhi) -> in_box alo ahi x ->
  (corresponds trans alo ahi blo bhi x y <-> y = target trans alo ahi blo bhi x).
Proof.
  intros HB EZ Hx. destruct (LXfer2.extents_pos _ _ HB) as [EL EP]. pose proof (pos_a_range trans _ _ _ Hx) as R.
  pose proof (Forall2_len _ _ _ HB) as LB.
  assert (PA : (if trans then patch_pos (rev alo) (rev ahi) (rev x) else patch_pos alo ahi x) = pos_a trans alo ahi x).
  { unfold pos_a. destruct trans; apply patch_pos_encode; [apply rev_in_box|]; exact Hx. }
  assert (DR : in_range0 (extents blo bhi) (decode (extents blo bhi) (pos_a trans alo ahi x))) by (apply decode_range; auto; lia).
  unfold corresponds. rewrite PA. unfold target. split.
  - intros (_ & Hy & E). rewrite patch_pos_encode in E by exact Hy. rewrite <- E, decode_encode by (apply extents_range, Hy).
    symmetry. apply vsub_in_range with (hi := bhi). exact Hy.
  - intros ->. assert (Hy := vadd_in_box blo bhi _ HB DR). split; [exact Hx|]. split; [exact Hy|].
    rewrite patch_pos_encode by exact Hy. rewrite vsub_vadd by (apply in_range0_length in DR; lia).
    apply encode_decode; auto. lia.
Qed.
Lemma target_in trans alo ahi blo bhi x :
  Forall2 Z.le blo bhi -> zprod (extents alo ahi) = zprod (extents blo bhi) -> in_box alo ahi x ->
  in_box blo bhi (target trans alo ahi blo bhi x).
Proof. intros HB EZ Hx. apply (target_corresponds trans alo ahi blo bhi x _ HB EZ Hx). reflexivity. Qed.
Lemma target_inj trans alo ahi blo bhi x y :
  Forall2 Z.le blo bhi -> zprod (extents alo ahi) = zprod (extents blo bhi) -> in_box alo ahi x -> in_box alo ahi y ->
  target trans alo ahi blo bhi x = target trans alo ahi blo bhi y -> x = y.
Proof.
  intros HB EZ Hx Hy E.
  destruct (proj2 (target_corresponds trans alo ahi blo bhi x _ HB EZ Hx) eq_refl) as (_ & _ & Ex).
  destruct (proj2 (target_corresponds trans alo ahi blo bhi y _ HB EZ Hy) eq_refl) as (_ & _ & Ey).
  rewrite E in Ex. rewrite Ex in Ey. apply (pos_a_inj trans alo ahi x y Hx Hy). unfold pos_a.
  destruct trans; rewrite <- !patch_pos_encode by (try apply rev_in_box; assumption); exact Ey.
Qed.
(** Equal shapes without transposition. *)
Lemma target_shift alo ahi blo bhi x : length blo = length alo -> shift alo blo ahi = bhi -> in_box alo ahi x ->
  target false alo ahi blo bhi x = shift alo blo x.
Proof.
  intros HL <- Hx. destruct (in_box_len _ _ _ Hx). unfold target, pos_a. rewrite extents_shift by lia.
  rewrite decode_encode by (apply extents_range, Hx). reflexivity.
Qed.

(** ---- from labelled copies to the specification ---- *)
Theorem labelled_patch {V} trans alo ahi blo bhi (pa pb : list Z -> place -> Prop) (ma mb : heap V) es :
  (forall x q q', pa x q -> pa x q' -> q = q') -> (forall x q q', pb x q -> pb x q' -> q = q') ->
  (forall x y q, pb x q -> pb y q -> x = y) ->
  Forall2 Z.le blo bhi -> zprod (extents alo ahi) = zprod (extents blo bhi) ->
  allocated pa ma -> allocated pb mb ->
  labelled (target trans alo ahi blo bhi) pa pb (in_box alo ahi) es ->
  exists mb', run_elems (copy_elem ma) mb es = Some mb' /\ copied_rel (corresponds trans alo ahi blo bhi) pa pb ma mb mb'.
Proof.
  intros FA FB IB HB EZ AA AB L.
  destruct (labelled_copied (target trans alo ahi blo bhi) pa pb FA FB IB (in_box alo ahi) ma mb es) as (mb' & E & C1 & C2); auto.
  { intros x y Hx Hy. apply target_inj; auto. }
  exists mb'. split; [exact E|]. split.
  - intros x y qa qb HR Ha Hb. assert (Hx : in_box alo ahi x) by apply HR. apply target_corresponds in HR; auto. subst y. eauto.
  - intros q Hq. apply C2. intros x Hx. apply (Hq x). apply target_corresponds; auto.
Qed.
