(** Proofs about strided transfers. *)
From Verif Require Export LRmw MStrided.

Fixpoint vmul (x y : list Z) : list Z :=
  match x, y with a :: x', b :: y' => a * b :: vmul x' y' | _, _ => [] end.
Lemma vmul_length x y : length x = length y -> length (vmul x y) = length x.
Proof. revert y; induction x as [|a x IH]; intros [|b y] H; cbn in *; try lia. now rewrite IH by lia. Qed.
Lemma vadd_length x y : length x = length y -> length (vadd x y) = length x.
Proof. revert y; induction x as [|a x IH]; intros [|b y] H; cbn in *; try lia. now rewrite IH by lia. Qed.

Lemma cmod_pos x s : 1 <= s -> 0 <= x -> cmod x s = Some (x mod s).
Proof. intros. unfold cmod. destruct (Z.eqb_spec s 0); [lia|]. rewrite Z.rem_mod_nonneg by lia. reflexivity. Qed.
Lemma cdiv_pos x s : 1 <= s -> 0 <= x -> cdiv x s = Some (x / s).
Proof. intros. unfold cdiv. destruct (Z.eqb_spec s 0); [lia|]. rewrite Z.quot_div_nonneg by lia. reflexivity. Qed.

(** ---- one dimension of gai_correct_strided_patch ---- *)
Lemma step_up l s p : 1 <= s -> l <= p ->
  let r := (p - l) mod s in let p' := if r =? 0 then p else p - r + s in
  p <= p' /\ (p' - l) mod s = 0 /\ forall x, p <= x -> (x - l) mod s = 0 -> p' <= x.
Proof.
  intros Hs Hp r p'. assert (Hr : 0 <= r < s) by (apply Z.mod_pos_bound; lia).
  assert (E : p - l = s * ((p - l) / s) + r) by (apply Z.div_mod; lia).
  unfold p'. destruct (Z.eqb_spec r 0) as [E0|E0].
  - split; [lia|]. split; [exact E0|lia].
  - split; [lia|]. split.
    + replace (p - r + s - l) with (((p - l) / s + 1) * s) by lia. apply Z.mod_mul. lia.
    + intros x Hx Hm. apply Z.mod_divide in Hm; [|lia]. destruct Hm as (t & Ht).
      assert (t > (p - l) / s) by nia. nia.
Qed.
Lemma step_down l s q : 1 <= s -> l <= q ->
  let r := (q - l) mod s in let q' := if r =? 0 then q else q - r in
  q' <= q /\ l <= q' /\ (q' - l) mod s = 0 /\ forall x, x <= q -> (x - l) mod s = 0 -> x <= q'.
Proof.
  intros Hs Hq r q'. assert (Hr : 0 <= r < s) by (apply Z.mod_pos_bound; lia).
  assert (E : q - l = s * ((q - l) / s) + r) by (apply Z.div_mod; lia).
  assert (0 <= (q - l) / s) by (apply Z.div_pos; lia).
  unfold q'. destruct (Z.eqb_spec r 0) as [E0|E0].
  - split; [lia|]. split; [lia|]. split; [exact E0|lia].
  - split; [lia|]. split; [nia|]. split.
    + replace (q - r - l) with (((q - l) / s) * s) by lia. apply Z.mod_mul. lia.
    + intros x Hx Hm. apply Z.mod_divide in Hm; [|lia]. destruct Hm as (t & Ht).
      assert (t <= (q - l) / s) by nia. nia.
Qed.

Lemma correct_patch_spec lo skip plo phi :
  Forall (fun s => 1 <= s) skip -> length skip = length lo -> Forall2 Z.le lo plo -> Forall2 Z.le plo phi ->
  exists r, correct_patch lo skip plo phi = Some r /\
    match r with
    | None => forall x, in_box plo phi x -> ~ on_grid lo skip x
    | Some (p, q) => Forall2 Z.le p q /\ Forall2 Z.le plo p /\ Forall2 Z.le q phi /\ on_grid lo skip p /\
        forall x, on_grid lo skip x -> (in_box plo phi x <-> in_box p q x)
    end.
Proof.
  intros HS. revert lo plo phi. induction HS as [|s skip Hs HS IH]; intros lo plo phi HL H1 H2.
  - destruct lo; [|discriminate]. inversion H1; subst. inversion H2; subst.
    eexists. split; [reflexivity|]. cbn. split; [constructor|]. split; [constructor|]. split; [constructor|]. split; [exact I|]. intros x _. reflexivity.
  - destruct lo as [|l lo]; [discriminate|]. destruct H1 as [|l0 p lo0 plo Hlp H1]; [discriminate|].
    inversion H2 as [|p0 q plo0 phi0 Hpq H2']; subst. rename phi0 into phi.
    injection HL as HL. cbn [correct_patch]. rewrite !cmod_pos by lia.
    destruct (step_up l0 s p Hs Hlp) as (U1 & U2 & U3). destruct (step_down l0 s q Hs ltac:(lia)) as (D1 & D2 & D3 & D4).
    set (p' := if (p - l0) mod s =? 0 then p else p - (p - l0) mod s + s) in *.
    set (q' := if (q - l0) mod s =? 0 then q else q - (q - l0) mod s) in *.
    clearbody p' q'. destruct (Z.ltb_spec q' p') as [Hlt|Hge].
    + eexists. split; [reflexivity|]. cbn. intros [|x xs]; [tauto|]. intros [Hx _] [Hm _].
      pose proof (U3 x (proj1 Hx) Hm) as A1. pose proof (D4 x (proj2 Hx) Hm) as A2. clear - A1 A2 Hlt. lia.
    + destruct (IH lo0 plo phi HL H1 H2') as (r & E & R). rewrite E. destruct r as [(pp & qq)|].
      * eexists. split; [reflexivity|]. destruct R as (R1 & R2 & R2' & R3 & R4). cbn [fst snd].
        split; [constructor; auto|]. split; [constructor; auto|]. split; [constructor; auto|]. split; [split; auto|].
        intros [|x xs]; [cbn; tauto|]. cbn [on_grid in_box]. intros [Hm Hg]. rewrite (R4 xs Hg).
        split; intros [X Y]; (split; [|exact Y]).
        -- split; [exact (U3 x (proj1 X) Hm)|exact (D4 x (proj2 X) Hm)].
        -- clear - X U1 D1. lia.
      * eexists. split; [reflexivity|]. cbn. intros [|x xs]; [tauto|]. intros [_ Hx] [_ Hm]. exact (R xs Hx Hm).
Qed.

(** ---- the elements of a corrected patch ---- *)
Lemma grid_elems lo skip p q x : Forall (fun s => 1 <= s) skip -> on_grid lo skip p -> Forall2 Z.le p q ->
  (in_box p q x /\ on_grid lo skip x <->
   exists k, in_range0 (grid_counts p q skip) k /\ x = vadd p (vmul k skip)).
Proof.
  intros HS. revert lo p q x. induction HS as [|s skip Hs HS IH]; intros lo p q x HG HF.
  - destruct lo, p; cbn [on_grid] in HG; try tauto. inversion HF; subst. cbn. split.
    + intros [H _]. destruct x; [|tauto]. exists []. auto.
    + intros (k & _ & ->). auto.
  - destruct lo as [|l lo], p as [|a p]; cbn [on_grid] in HG; try tauto. destruct HG as [Hm HG].
    inversion HF as [|? b ? q' Hab HF']; subst. cbn [in_box grid_counts in_range0].
    apply Z.mod_divide in Hm; [|lia]. destruct Hm as (t & Ht).
    destruct x as [|c x].
    { split; [intros [[] _]|intros (k & Hk & E); destruct k as [|u k]; [destruct Hk|discriminate E]]. }
    cbn [in_box on_grid]. specialize (IH lo p q' x HG HF'). split.
    + intros [[Hc Hx] [Hmc Hg]]. destruct (proj1 IH (conj Hx Hg)) as (k & Hk & ->).
      apply Z.mod_divide in Hmc; [|lia]. destruct Hmc as (u & Hu).
      exists (u - t :: k). cbn [in_range0 vmul vadd]. split; [split; [|exact Hk]|f_equal; nia].
      split; [nia|]. assert (u - t <= (b - a) / s); [|lia]. apply Z.div_le_lower_bound; [lia|]. nia.
    + intros (k & Hk & E). destruct k as [|u k]; [destruct Hk|]. destruct Hk as [Hu Hk]. cbn [vmul vadd] in E.
      injection E as -> ->. destruct (proj2 IH) as [X Y]; [exists k; auto|]. split; (split; [|assumption]).
      * assert (s * ((b - a) / s) <= b - a) by (apply Z.mul_div_le; lia). split; nia.
      * replace (a + u * s - l) with ((t + u) * s) by lia. apply Z.mod_mul. lia.
Qed.

Lemma grid_counts_length p q skip : length p = length q -> length skip = length p -> length (grid_counts p q skip) = length p.
Proof. revert q skip. induction p as [|a p IH]; intros [|b q] [|s skip] H1 H2; cbn in *; try lia. now rewrite IH by lia. Qed.

Lemma grid_pos_add lo skip p k : Forall (fun s => 1 <= s) skip -> on_grid lo skip p -> length k = length p ->
  grid_pos lo skip (vadd p (vmul k skip)) = vadd (grid_pos lo skip p) k.
Proof.
  intros HS. revert lo p k. induction HS as [|s skip Hs HS IH]; intros [|l lo] [|a p] [|u k] HG HL; cbn [on_grid] in HG; try tauto; try discriminate.
  destruct HG as [_ HG]. cbn [vmul vadd grid_pos]. rewrite IH by (auto; cbn in HL; lia). f_equal.
  replace (a + u * s - l) with (a - l + u * s) by lia. apply Z.div_add. lia.
Qed.
Lemma grid_pos_length lo skip x : on_grid lo skip x -> length (grid_pos lo skip x) = length x.
Proof. revert skip x. induction lo as [|l lo IH]; intros [|s skip] [|a x]; cbn; try tauto. intros [_ H]. now rewrite IH. Qed.

(** ---- the parts of the transport call ---- *)
Lemma find_offset_lin lo plo ld f : length plo = length lo -> (length lo <= S (length ld))%nat -> lo <> [] ->
  find_offset lo plo ld f = Some (f * lin ld (vsub plo lo)).
Proof.
  revert plo ld f. induction lo as [|l lo IH]; intros [|p plo] ld f H1 H2 Hne; cbn [length] in *; try discriminate; try congruence.
  destruct lo as [|l' lo], plo as [|p' plo]; try discriminate.
  - cbn. f_equal. ring.
  - destruct ld as [|d ld]; [cbn in H2; lia|]. change (find_offset (l :: l' :: lo) (p :: p' :: plo) (d :: ld) f)
      with (do r <- find_offset (l' :: lo) (p' :: plo) ld (f * d); Some ((p - l) * f + r)).
    rewrite IH by (auto; try congruence; cbn in *; lia). cbn [vsub]. rewrite lin_cons. f_equal. ring.
Qed.

Lemma skip_delta_ok l p s : 1 <= s -> l <= p -> (p - l) mod s = 0 -> skip_delta l p s = Some ((p - l) / s).
Proof.
  intros Hs Hl Hm. unfold skip_delta. rewrite cmod_pos, Hm by lia. rewrite Z.sub_0_r. apply cdiv_pos; lia.
Qed.

(** Up to two dimensions. *)
Lemma skip_index_lin lo p skip ld : (length lo <= 2)%nat -> lo <> [] -> (length lo <= S (length ld))%nat ->
  Forall (fun s => 1 <= s) skip -> Forall2 Z.le lo p -> on_grid lo skip p ->
  skip_index lo p skip ld = Some (lin ld (grid_pos lo skip p)).
Proof.
  intros H2 Hne HL HS HF HG.
  destruct lo as [|l [|l' [|l'' lo]]]; [congruence| | |cbn in H2; lia];
    inversion HF as [|? a ? p1 F1 F2]; subst; destruct skip as [|s skip]; cbn [on_grid] in HG; try tauto;
    destruct HG as [G1 HG]; inversion HS as [|? ? S1 S2]; subst.
  - inversion F2; subst. destruct skip; cbn [on_grid] in HG; try tauto.
    unfold skip_index. rewrite skip_delta_ok by auto. cbn. f_equal. lia.
  - inversion F2 as [|? b ? p2 F3 F4]; subst. inversion F4; subst. destruct skip as [|s' skip]; cbn [on_grid] in HG; try tauto.
    destruct HG as [G2 HG]. destruct skip; cbn [on_grid] in HG; try tauto. inversion S2; subst.
    destruct ld as [|d ld]; [cbn in HL; lia|].
    unfold skip_index. cbn [skip_index_loop]. rewrite !skip_delta_ok by auto. cbn [grid_pos]. rewrite lin_cons. cbn [lin]. f_equal. lia.
Qed.

Lemma skip_count_ok p q skip : Forall (fun s => 1 <= s) skip -> length skip = length p -> Forall2 Z.le p q ->
  Forall (fun n => n <= int_max) (extents p q) -> skip_count p q skip = Some (Some (grid_counts p q skip)).
Proof.
  intros HS. revert p q. induction HS as [|s skip Hs HS IH]; intros p q HL HF HE.
  - destruct p; [|discriminate]. inversion HF; subst. reflexivity.
  - destruct p as [|a p]; [discriminate|]. inversion HF as [|? b ? q' Hab HF']; subst. cbn [extents] in HE. inversion HE; subst.
    cbn [skip_count grid_counts]. destruct (Z.ltb_spec (b - a) 0); [lia|].
    rewrite (IH p q') by (auto; cbn in HL; lia).
    destruct (Z.ltb_spec 1 s).
    + rewrite cdiv_pos by lia. rewrite to_int_ok; [reflexivity|].
      assert (0 <= (b - a) / s) by (apply Z.div_pos; lia). assert ((b - a) / s <= b - a) by (apply Z.div_le_upper_bound; nia). lia.
    + assert (s = 1) by lia. subst s. rewrite Z.div_1_r. rewrite !to_int_ok by lia. reflexivity.
Qed.

Lemma skip_stride_rem_ok skip ld s : skip <> [] -> 1 <= s <= int_max -> (length skip <= S (length ld))%nat ->
  Forall (fun k => 1 <= k) skip -> Forall (fun d => 1 <= d) (firstn (length skip - 1) ld) ->
  int_strides s (length skip - 1) ld ->
  (forall i k, nth_error skip i = Some k -> s * zprod (firstn i ld) * k <= int_max) ->
  exists sr, skip_stride_rem skip ld s = Some sr /\
    forall k, length k = length skip -> dot k sr = s * lin ld (vmul k skip).
Proof.
  revert ld s. induction skip as [|k skip IH]; intros ld s Hne Hs HL HK HF HI HM; [congruence|].
  inversion HK as [|? ? K1 K2]; subst.
  assert (T : to_int (s * k) = Some (s * k)).
  { pose proof (HM O k eq_refl) as X. cbn [firstn zprod] in X. apply to_int_ok. nia. }
  destruct skip as [|k' skip].
  - cbn [skip_stride_rem]. rewrite T. eexists. split; [reflexivity|]. intros [|u [|v w]] H; try discriminate. cbn. ring.
  - destruct ld as [|d ld]; [cbn in HL; lia|].
    assert (X : firstn (length (k :: k' :: skip) - 1) (d :: ld) = d :: firstn (length (k' :: skip) - 1) ld)
      by (cbn [length Nat.sub firstn]; rewrite Nat.sub_0_r; reflexivity).
    rewrite X in HF. inversion HF as [|? ? F1 F2]; subst.
    pose proof (HI O ltac:(cbn; lia)) as I0. cbn [firstn zprod] in I0.
    destruct (IH ld (s * d)) as (sr & E & D); auto; try congruence.
    { nia. } { cbn [length] in *; lia. }
    { intros i Hi. specialize (HI (S i) ltac:(cbn [length] in *; lia)). cbn [firstn zprod] in *. rewrite <- Z.mul_assoc. exact HI. }
    { intros i u Hu. specialize (HM (S i) u Hu). cbn [firstn zprod] in HM. replace (s * d * zprod (firstn i ld) * u) with (s * (d * zprod (firstn i ld)) * u) by ring. exact HM. }
    exists (s * k :: sr). split.
    { change (skip_stride_rem (k :: k' :: skip) (d :: ld) s)
        with (do t <- to_int (s * k); do d' <- to_int d; do s' <- to_int (s * d'); do r <- skip_stride_rem (k' :: skip) ld s'; Some (t :: r)).
      rewrite T, !to_int_ok by nia. rewrite E. reflexivity. }
    intros [|u [|v w]] H; try discriminate. remember (v :: w) as vw. cbn [dot]. rewrite D by (subst; cbn in *; lia).
    subst vw. cbn [vmul]. rewrite lin_cons. ring.
Qed.

Lemma skip_stride_loc_ok skip ld s : skip <> [] -> 1 <= s <= int_max -> (length skip <= length ld)%nat ->
  Forall (fun d => 1 <= d) (firstn (length skip - 1) ld) -> int_strides s (length skip - 1) ld ->
  exists sl, skip_stride_loc skip ld s = Some sl /\ forall k, length k = length skip -> dot k sl = s * lin ld k.
Proof.
  revert ld s. induction skip as [|k skip IH]; intros ld s Hne Hs HL HF HI; [congruence|].
  destruct ld as [|d ld]; [cbn in HL; lia|]. destruct skip as [|k' skip].
  - eexists. split; [reflexivity|]. intros [|u [|v w]] H; try discriminate. cbn. ring.
  - assert (X : firstn (length (k :: k' :: skip) - 1) (d :: ld) = d :: firstn (length (k' :: skip) - 1) ld)
      by (cbn [length Nat.sub firstn]; rewrite Nat.sub_0_r; reflexivity).
    rewrite X in HF. inversion HF as [|? ? F1 F2]; subst.
    pose proof (HI O ltac:(cbn; lia)) as I0. cbn [firstn zprod] in I0.
    destruct (IH ld (s * d)) as (sl & E & D); auto; try congruence.
    { nia. } { cbn [length] in *; lia. }
    { intros i Hi. specialize (HI (S i) ltac:(cbn [length] in *; lia)). cbn [firstn zprod] in *. rewrite <- Z.mul_assoc. exact HI. }
    exists (s :: sl). split.
    { change (skip_stride_loc (k :: k' :: skip) (d :: ld) s)
        with (do d' <- to_int d; do s' <- to_int (s * d'); do r <- skip_stride_loc (k' :: skip) ld s'; Some (s :: r)).
      rewrite !to_int_ok by nia. rewrite E. reflexivity. }
    intros [|u [|v w]] H; try discriminate. remember (v :: w) as vw. cbn [dot]. rewrite D by (subst; cbn in *; lia).
    subst vw. rewrite lin_cons. ring.
Qed.

Lemma skip_stride_rem_firstn skip ld s : skip_stride_rem skip ld s = skip_stride_rem skip (firstn (length skip - 1) ld) s.
Proof.
  revert ld s. induction skip as [|k skip IH]; intros ld s; [reflexivity|]. destruct skip as [|k' skip]; [reflexivity|].
  destruct ld as [|d ld]; [reflexivity|].
  replace (firstn (length (k :: k' :: skip) - 1) (d :: ld)) with (d :: firstn (length (k' :: skip) - 1) ld)
    by (cbn [length Nat.sub firstn]; rewrite Nat.sub_0_r; reflexivity).
  change (skip_stride_rem (k :: k' :: skip) (d :: ld) s)
    with (do t <- to_int (s * k); do d' <- to_int d; do s' <- to_int (s * d'); do r <- skip_stride_rem (k' :: skip) ld s'; Some (t :: r)).
  change (skip_stride_rem (k :: k' :: skip) (d :: firstn (length (k' :: skip) - 1) ld) s)
    with (do t <- to_int (s * k); do d' <- to_int d; do s' <- to_int (s * d'); do r <- skip_stride_rem (k' :: skip) (firstn (length (k' :: skip) - 1) ld) s'; Some (t :: r)).
  destruct (to_int (s * k)); [|reflexivity]. destruct (to_int d); [|reflexivity]. destruct (to_int (s * z0)); [|reflexivity].
  rewrite IH. reflexivity.
Qed.
