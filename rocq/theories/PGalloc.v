(** Property theorems: the buffers from ga_malloc (C106). *)
From Verif Require Import MBase MNb MHandle MGalloc.
Open Scope Z_scope.

(** Ranges that have no byte in common. *)
Definition apart (a la b lb : Z) : Prop := a + la <= b \/ b + lb <= a.
Definition apart_blocks (x y : block) : Prop := apart (b_base x) (b_size x) (b_base y) (b_size y).
Definition apart_bufs (x y : Z * Z) : Prop := apart (fst x) (snd x) (fst y) (snd y).
(** The buffers of the program, the newest first, with their sizes in bytes; [ma] tells which
    allocator is used all the time.  An allocator gives out memory that is not in use.  With
    MA the newest buffer is freed first. *)
Inductive reach (ma : bool) : list (Z * Z) -> gmem -> Prop :=
  | r_init : reach ma [] (Gmem ma [] (fun _ => None))
  | r_malloc : forall bufs s nelem item base h s' p b, reach ma bufs s -> 0 <= nelem -> 0 < item -> 0 < base -> ga_malloc s nelem item (Some (base, h)) = Done (s', p) ->
      blocks s' = b :: blocks s -> Forall (apart_blocks b) (blocks s) -> reach ma ((p, nelem * item) :: bufs) s'
  | r_free : forall u x w s s', reach ma (u ++ x :: w) s -> (ma = true -> u = []) -> ga_free s (fst x) = Done s' -> reach ma (u ++ w) s'
  | r_write : forall bufs s x a, reach ma bufs s -> In x bufs -> fst x <= a < fst x + snd x -> reach ma bufs (write_byte s a).

(** A buffer in its block. *)
Definition inside (ma : bool) (c : Z -> option Z) (x : Z * Z) (b : block) : Prop :=
  fst x mod 16 = 0 /\ b_base b <= fst x - 16 /\ 0 <= snd x /\ fst x + snd x <= b_base b + b_size b /\ b_ma b = ma /\ c (fst x - 16) = Some (if ma then b_handle b else fst x - 16 - b_base b).
Definition good (ma : bool) (bufs : list (Z * Z)) (s : gmem) : Prop :=
  uses_ma s = ma /\ Forall2 (inside ma (cells s)) bufs (blocks s) /\ ForallOrdPairs apart_blocks (blocks s).

Lemma inside_frame ma c c' x b : inside ma c x b -> c' (fst x - 16) = c (fst x - 16) -> inside ma c' x b.
Proof. intros (A & B & C & D & E & F) H. repeat split; try assumption. rewrite H. exact F. Qed.
Lemma malloc_fits s nelem item base h : 0 <= nelem -> 0 < item -> 0 < base -> Z.rem 16 item = 0 ->
  exists a, ga_malloc s nelem item (Some (base, h)) = Done (Gmem (uses_ma s) (Block (uses_ma s) h base ((nelem + 32 / item) * item) :: blocks s) (store (cells s) a (if uses_ma s then h else a - base)), a + 16) /\
    a mod 16 = 0 /\ base <= a <= base + 15 /\ (nelem + 32 / item) * item = nelem * item + 32.
Proof.
  intros N I B D. unfold ga_malloc. replace (item =? 0) with false by lia. change ALIGNMENT with 16. change INTEGER with 8. rewrite D. cbn [negb Z.eqb]. change (2 * 16) with 32. rewrite (Z.quot_div_nonneg 32 item) by lia. rewrite (Z.rem_mod_nonneg base 16) by lia.
  rewrite Z.rem_mod_nonneg in D by lia. assert (S : (nelem + 32 / item) * item = nelem * item + 32).
  { pose proof (Z.div_mod 16 item ltac:(lia)). assert (32 = 2 * (16 / item) * item) by lia. assert (32 / item = 2 * (16 / item)) by (rewrite H0 at 1; apply Z.div_mul; lia). nia. }
  pose proof (Z.mod_pos_bound base 16 ltac:(lia)) as M. set (adj := if base mod 16 =? 0 then 0 else 16 - base mod 16). assert (ADJ : 0 <= adj <= 15 /\ (base + adj) mod 16 = 0).
  { unfold adj. destruct (Z.eqb_spec (base mod 16) 0) as [E|E]; [rewrite Z.add_0_r; lia|]. split; [lia|]. pose proof (Z.div_mod base 16 ltac:(lia)). replace (base + (16 - base mod 16)) with ((base / 16 + 1) * 16) by lia. apply Z.mod_mul. lia. }
  destruct ADJ as [A1 A2]. exists (base + adj). replace (base + adj =? 0) with false by lia. replace ((base <=? base + adj) && (base + adj + 8 <=? base + (nelem + 32 / item) * item)) with true by (symmetry; apply andb_true_intro; split; apply Z.leb_le; nia).
  split; [|split; [exact A2|split; [lia|exact S]]]. replace (base + adj - base) with adj by lia. reflexivity.
Qed.
Lemma ext_free_at a : forall l u b w, l = u ++ b :: w -> b_ma b = false -> b_base b = a -> (forall x, In x u -> b_base x <> a) -> ext_free a l = Some (u ++ w).
Proof.
  intros l u. revert l. induction u as [|x u IH]; intros l b w -> M B N; cbn [app ext_free].
  - rewrite M, B, Z.eqb_refl. reflexivity.
  - assert (b_base x <> a) by (apply N; left; reflexivity). replace (b_base x =? a) with false by lia. rewrite andb_false_r. rewrite (IH (u ++ b :: w) b w eq_refl M B); [reflexivity|]. intros y Y. apply N. right. exact Y.
Qed.
Lemma FOP_drop {A} (R : A -> A -> Prop) : forall u x w, ForallOrdPairs R (u ++ x :: w) -> ForallOrdPairs R (u ++ w) /\ (forall y, In y u -> R y x) /\ (forall y, In y w -> R x y).
Proof.
  induction u as [|a u IH]; intros x w H; cbn [app] in *; inversion H as [|? ? F T]; subst; rewrite Forall_forall in F; [split; [exact T|split; [intros y []|exact F]]|]. destruct (IH x w T) as (P & Q & Q2). split; [|split; [|exact Q2]].
  - constructor; [|exact P]. apply Forall_forall. intros y Y. apply F. apply in_app_or in Y. apply in_or_app. destruct Y as [Y|Y]; [left; exact Y|right; right; exact Y].
  - intros y [<-|Y]; [apply F, in_or_app; right; left; reflexivity|apply Q; exact Y].
Qed.
(** ga_free of a buffer. *)
Lemma free_good ma u x w s : good ma (u ++ x :: w) s -> (ma = true -> u = []) ->
  exists s' u' b w', ga_free s (fst x) = Done s' /\ good ma (u ++ w) s' /\ blocks s = u' ++ b :: w' /\ blocks s' = u' ++ w' /\ inside ma (cells s) x b.
Proof.
  intros (UM & F & O) TOP. apply Forall2_app_inv_l in F. destruct F as (u' & l & F1 & F2 & E). inversion F2 as [|? b ? w' IB F3]; subst l; subst. destruct IB as (A & B & C & D & M & H). pose proof (FOP_drop _ _ _ _ ltac:(rewrite E in O; exact O)) as (O' & ND & _).
  unfold ga_free. change ALIGNMENT with 16. change INTEGER with 8. assert (EX : existsb (fun b0 => (b_base b0 <=? fst x - 16) && (fst x - 16 + 8 <=? b_base b0 + b_size b0)) (blocks s) = true).
  { apply existsb_exists. exists b. split; [rewrite E; apply in_or_app; right; left; reflexivity|]. lia. }
  rewrite EX. cbn [negb]. rewrite H. destruct (uses_ma s) eqn:UM.
  - rewrite (TOP eq_refl) in *. inversion F1; subst. cbn [app] in *. rewrite E, M. cbn [andb]. rewrite ?Z.eqb_refl. eexists. exists [], b, w'. split; [reflexivity|]. split; [split; [reflexivity|split; [exact F3|exact O']]|]. split; [reflexivity|]. split; [reflexivity|]. repeat split; assumption.
  - rewrite (ext_free_at (fst x - 16 - (fst x - 16 - b_base b)) (blocks s) u' b w' E M ltac:(lia)).
    + eexists. exists u', b, w'. split; [reflexivity|]. split; [split; [reflexivity|split; [apply Forall2_app; [exact F1|exact F3]|exact O']]|]. split; [exact E|]. split; [reflexivity|]. repeat split; assumption.
    + intros y Y Q. destruct (ND y Y) as [P|P]; [|lia]. assert (0 <= b_size y) by (destruct (in_split _ _ Y) as (y1 & y2 & ->); apply Forall2_app_inv_r in F1; destruct F1 as (z1 & z2 & _ & F1 & _); inversion F1 as [|z ? ? ? (_ & Z1 & Z2 & Z3 & _) _]; subst; lia).
      assert (16 <= b_size y) by (destruct (in_split _ _ Y) as (y1 & y2 & ->); apply Forall2_app_inv_r in F1; destruct F1 as (z1 & z2 & _ & F1 & _); inversion F1 as [|z ? ? ? (_ & Z1 & Z2 & Z3 & _) _]; subst; lia). lia.
Qed.
Lemma reach_good ma bufs s : reach ma bufs s -> good ma bufs s.
Proof.
  induction 1 as [|bufs s nelem item base h s' p b RE IH N I B E EB AP|u x w s s' RE IH TOP E|bufs s x a RE IH IN A].
  - split; [reflexivity|]. split; constructor.
  - destruct IH as (UM & F & O). assert (D : Z.rem 16 item = 0).
    { unfold ga_malloc in E. replace (item =? 0) with false in E by lia. change ALIGNMENT with 16 in E. destruct (Z.eqb_spec (Z.rem 16 item) 0); [assumption|discriminate]. }
    destruct (malloc_fits s nelem item base h N I B D) as (a & E' & A1 & A2 & S). rewrite E in E'. injection E' as Es Ep. subst s' p. cbn [blocks] in EB. injection EB as EB. subst b. cbn [uses_ma blocks cells] in *. split; [exact UM|]. split.
    + cbn [cells blocks]. constructor.
      * unfold inside. cbn [fst snd b_base b_size b_ma b_handle]. rewrite S. replace (a + 16 - 16) with a by lia. split; [rewrite <- Z.add_mod_idemp_l, A1 by lia; reflexivity|]. split; [lia|]. split; [nia|]. split; [lia|]. split; [exact UM|]. cbn [cells]. unfold store. rewrite Z.eqb_refl, UM. destruct ma; f_equal; lia.
      * clear E RE. rewrite Forall_forall in AP. induction F as [|y b ys bs H F IH]; [constructor|]. inversion O as [|? ? O1 O2]; subst. constructor; [|apply IH; [intros z Z; apply AP; right; exact Z|exact O2]].
        apply (inside_frame _ (cells s)); [exact H|]. destruct H as (H1 & H2 & H3 & H4 & H5 & H6). specialize (AP b (or_introl eq_refl)). unfold apart_blocks, apart in AP. cbn [b_base b_size] in AP. rewrite S in AP. cbn [cells]. unfold store. change INTEGER with 8.
        replace (fst y - 16 =? a) with false by (symmetry; apply Z.eqb_neq; nia). replace (Z.abs (fst y - 16 - a) <? 8) with false by (symmetry; apply Z.ltb_ge; nia). reflexivity.
    + constructor; [exact AP|exact O].
  - destruct (free_good ma u x w s IH TOP) as (s2 & _ & _ & _ & E2 & G & _). rewrite E in E2. injection E2 as <-. exact G.
  - destruct IH as (UM & F & O). split; [exact UM|]. split; [|exact O]. cbn [write_byte cells blocks].
    destruct (in_split _ _ IN) as (u & w & ->). apply Forall2_app_inv_l in F. destruct F as (u' & l & F1 & F2 & E). inversion F2 as [|? b ? w' IB F3]; subst l; subst. rewrite E in O |- *. pose proof (FOP_drop _ _ _ _ O) as (_ & N1 & N2). pose proof IB as (X1 & X2 & X3 & X4 & _).
    assert (K : forall y c, inside (uses_ma s) (cells s) y c -> (apart_blocks c b \/ apart_blocks b c) -> inside (uses_ma s) (fun k => if (k <=? a) && (a <? k + INTEGER) then None else cells s k) y c).
    { intros y c H P. apply (inside_frame _ (cells s)); [exact H|]. destruct H as (H1 & H2 & H3 & H4 & _). unfold apart_blocks, apart in P. change INTEGER with 8. destruct (Z.leb_spec (fst y - 16) a); destruct (Z.ltb_spec a (fst y - 16 + 8)); cbn [andb]; try reflexivity. lia. }
    assert (L : forall ys cs, Forall2 (inside (uses_ma s) (cells s)) ys cs -> (forall c, In c cs -> apart_blocks c b \/ apart_blocks b c) -> Forall2 (inside (uses_ma s) (fun k => if (k <=? a) && (a <? k + INTEGER) then None else cells s k)) ys cs).
    { intros ys cs H. induction H as [|y c ys cs H H' IH]; intros Q; constructor; [apply K; [exact H|apply Q; left; reflexivity]|apply IH; intros z Z; apply Q; right; exact Z]. }
    apply Forall2_app; [apply L; [exact F1|intros c C; left; apply N1; exact C]|]. constructor; [|apply L; [exact F3|intros c C; right; apply N2; exact C]].
    apply (inside_frame _ (cells s)); [exact IB|]. change INTEGER with 8. replace (a <? fst x - 16 + 8) with false by lia. rewrite andb_false_r. reflexivity.
Qed.
Lemma bufs_apart ma c : forall bufs bs, Forall2 (inside ma c) bufs bs -> ForallOrdPairs apart_blocks bs -> ForallOrdPairs apart_bufs bufs.
Proof.
  induction 1 as [|x b xs bs H F IH]; intros O; [constructor|]. inversion O as [|? ? O1 O2]; subst. constructor; [|apply IH; exact O2]. clear IH O O2. rewrite Forall_forall in O1. apply Forall_forall. intros y Y.
  destruct (in_split _ _ Y) as (u & w & ->). apply Forall2_app_inv_l in F. destruct F as (u' & l & _ & F2 & ->). inversion F2 as [|? d ? w' ID _]; subst. specialize (O1 d ltac:(apply in_or_app; right; left; reflexivity)).
  destruct H as (_ & A1 & A2 & A3 & _). destruct ID as (_ & B1 & B2 & B3 & _). unfold apart_blocks, apart_bufs, apart in *. lia.
Qed.

(** ga_malloc of elements of a size that divides 16 succeeds when the allocator does. *)
Theorem C106_malloc_partial : forall s nelem item base h, 0 <= nelem -> 0 < item -> 16 mod item = 0 -> 0 < base ->
  exists s' p, ga_malloc s nelem item (Some (base, h)) = Done (s', p) /\ p mod 16 = 0 /\ base + 16 <= p /\ p + nelem * item <= base + (nelem + 32 / item) * item.
Proof.
  intros s nelem item base h N I D B. destruct (malloc_fits s nelem item base h N I B ltac:(rewrite Z.rem_mod_nonneg by lia; exact D)) as (a & E & A1 & A2 & S). eexists. exists (a + 16). split; [exact E|]. rewrite S. split; [rewrite <- Z.add_mod_idemp_l, A1 by lia; reflexivity|lia].
Qed.
(** At all times the buffers are aligned, lie in memory that the allocator gave out and that
    is not given back, and do not overlap. *)
Theorem C106_buffers_partial : forall ma bufs s, reach ma bufs s ->
  (forall p n, In (p, n) bufs -> p mod 16 = 0 /\ exists b, In b (blocks s) /\ b_base b <= p /\ p + n <= b_base b + b_size b) /\ ForallOrdPairs apart_bufs bufs /\ length (blocks s) = length bufs.
Proof.
  intros ma bufs s RE. apply reach_good in RE. destruct RE as (_ & F & O). split; [|split; [exact (bufs_apart _ _ _ _ F O)|clear O; induction F as [|? ? ? ? _ _ IH]; [reflexivity|cbn [length]; rewrite IH; reflexivity]]]. intros p n IN. destruct (in_split _ _ IN) as (u & w & ->). apply Forall2_app_inv_l in F. destruct F as (u' & l & _ & F2 & ->). inversion F2 as [|? d ? w' ID _]; subst. destruct ID as (A1 & A2 & A3 & A4 & _). cbn [fst snd] in *. split; [exact A1|]. exists d. split; [apply in_or_app; right; left; reflexivity|lia].
Qed.
(** Whatever the program wrote in its buffers, ga_free of one succeeds and gives back the
    block it lies in, and no other. *)
Theorem C106_free_partial : forall ma u p n w s, reach ma (u ++ (p, n) :: w) s -> (ma = true -> u = []) ->
  exists s' u' b w', ga_free s p = Done s' /\ blocks s = u' ++ b :: w' /\ blocks s' = u' ++ w' /\ b_base b <= p /\ p + n <= b_base b + b_size b.
Proof.
  intros ma u p n w s RE TOP. destruct (free_good ma u (p, n) w s (reach_good _ _ _ RE) TOP) as (s' & u' & b & w' & E & _ & B & B' & I). exists s', u', b, w'. destruct I as (I1 & I2 & I3 & I4 & _). cbn [fst snd] in *. repeat split; try assumption. lia.
Qed.

(** With MA, freeing a buffer that is not the newest ends the program; nothing else is given
    back in its place. *)
Theorem C106_order : forall x u p n w s, reach true (x :: u ++ (p, n) :: w) s -> NoDup (map b_handle (blocks s)) -> ga_free s p = Abort.
Proof.
  intros x u p n w s RE ND. apply reach_good in RE. destruct RE as (UM & F & _). destruct (blocks s) as [|bx bs] eqn:E2; [inversion F|]. assert (F1 : Forall2 (inside true (cells s)) (u ++ (p, n) :: w) bs) by (inversion F; assumption). apply Forall2_app_inv_l in F1. destruct F1 as (u' & l & _ & F2 & E). inversion F2 as [|? b ? w' IB _]; subst. destruct IB as (_ & B & C & D & _ & H). cbn [fst snd] in *.
  unfold ga_free. change ALIGNMENT with 16. change INTEGER with 8. rewrite E2, UM, H. replace (existsb _ _) with true; [|symmetry; apply existsb_exists; exists b; split; [right; apply in_or_app; right; left; reflexivity|lia]]. cbn [negb].
  cbn [map] in ND. inversion ND as [|? ? N _]; subst. replace (b_handle bx =? b_handle b) with false; [rewrite andb_false_r; reflexivity|]. symmetry. apply Z.eqb_neq. intros Q. apply N. rewrite Q, map_app. apply in_or_app. right. left. reflexivity.
Qed.
Example C106_order_nonvacuous : exists s, reach true [(192, 20); (128, 24)] s /\ NoDup (map b_handle (blocks s)).
Proof.
  exists (Gmem true [Block true 7 161 52; Block true 3 104 56] (store (store (fun _ => None) 112 3) 176 7)). split; [|repeat constructor; cbn; intuition discriminate].
  apply (r_malloc true [(128, 24)] (Gmem true [Block true 3 104 56] (store (fun _ => None) 112 3)) 5 4 161 7 _ 192 (Block true 7 161 52)); [|lia|lia|lia|reflexivity|reflexivity|constructor; [right; cbn; lia|constructor]].
  apply (r_malloc true [] (Gmem true [] (fun _ => None)) 3 8 104 3 _ 128 (Block true 3 104 56)); [constructor|lia|lia|lia|reflexivity|reflexivity|constructor].
Qed.

(** Two buffers of the program's allocator, of 3 doubles and 5 ints, the second written, the
    older one freed first. *)
Definition g1 : gmem := Gmem false [Block false 0 104 56] (store (fun _ => None) 112 8).
Definition g2 : gmem := Gmem false [Block false 0 161 52; Block false 0 104 56] (store (store (fun _ => None) 112 8) 176 15).
Example C106_nonvacuous : reach false [(192, 20); (128, 24)] g2 /\ reach false [(192, 20)] (Gmem false [Block false 0 161 52] (cells (write_byte g2 192))).
Proof.
  assert (A : reach false [(128, 24)] g1).
  { apply (r_malloc false [] (Gmem false [] (fun _ => None)) 3 8 104 0 g1 128 (Block false 0 104 56)); [constructor|lia|lia|lia|reflexivity|reflexivity|constructor]. }
  assert (B : reach false [(192, 20); (128, 24)] g2).
  { apply (r_malloc false [(128, 24)] g1 5 4 161 0 g2 192 (Block false 0 161 52)); [exact A|lia|lia|lia|reflexivity|reflexivity|]. constructor; [right; cbn; lia|constructor]. }
  split; [exact B|]. apply (r_free false [(192, 20)] (128, 24) [] (write_byte g2 192)); [|discriminate|reflexivity]. apply (r_write false _ g2 (192, 20) 192 B); [left; reflexivity|cbn; lia].
Qed.
(** Not for all types: elements of 24 bytes, which a registered type may have. *)
Theorem C106_types_refuted : exists item, 0 < item /\ forall s nelem ans, ga_malloc s nelem item ans = Abort.
Proof. exists 24. split; [lia|]. reflexivity. Qed.
(** Nor if the program registers its allocator while it has a buffer from MA: ga_free takes
    the handle for an adjustment and frees an address that was never given out. *)
Theorem C106_register_refuted : exists p n s, reach true [(p, n)] s /\ (exists s', ga_free s p = Done s') /\ ga_free (register s) p = Undef.
Proof.
  exists 128, 24, (Gmem true [Block true 3 104 56] (store (fun _ => None) 112 3)). split; [|split; [eexists; reflexivity|reflexivity]].
  apply (r_malloc true [] (Gmem true [] (fun _ => None)) 3 8 104 3 _ 128 (Block true 3 104 56)); [constructor|lia|lia|lia|reflexivity|reflexivity|constructor].
Qed.

Print Assumptions C106_malloc_partial.
Print Assumptions C106_buffers_partial.
Print Assumptions C106_free_partial.
Print Assumptions C106_order.
Print Assumptions C106_types_refuted.
Print Assumptions C106_register_refuted.
