(** Axes: one-dimensional partitions into ordered blocks, and products. *)
From Verif Require Export LRadix SpecWf.

Record axis := Axis { ad : Z; an : Z; alo : Z -> Z; ahi : Z -> Z }.

Definition valid_axis (a : axis) : Prop :=
  1 <= an a /\
  (forall x, 1 <= x <= ad a -> exists i, 0 <= i < an a /\ alo a i <= x <= ahi a i) /\
  (forall i, 0 <= i < an a -> 1 <= alo a i /\ ahi a i <= ad a) /\
  (forall i j, 0 <= i < j -> j < an a -> ahi a i < alo a j).

Lemma axis_unique a i j x :
  valid_axis a -> 0 <= i < an a -> 0 <= j < an a ->
  alo a i <= x <= ahi a i -> alo a j <= x <= ahi a j -> i = j.
Proof.
  intros (_ & _ & _ & Ho) Hi Hj Hxi Hxj.
  destruct (Z.lt_trichotomy i j) as [L|[L|L]]; auto.
  - specialize (Ho i j ltac:(lia) ltac:(lia)). lia.
  - specialize (Ho j i ltac:(lia) ltac:(lia)). lia.
Qed.

Lemma axis_mono a i j x y :
  valid_axis a -> 0 <= i < an a -> 0 <= j < an a ->
  alo a i <= x <= ahi a i -> alo a j <= y <= ahi a j -> x <= y -> i <= j.
Proof.
  intros (_ & _ & _ & Ho) Hi Hj Hxi Hxj Hxy.
  destruct (Z.le_gt_cases i j) as [|L]; auto.
  specialize (Ho j i ltac:(lia) ltac:(lia)). lia.
Qed.

(** Product of axes. *)
Fixpoint blo (axs : list axis) (is : list Z) : list Z :=
  match axs, is with
  | a :: axs', i :: is' => alo a i :: blo axs' is'
  | _, _ => []
  end.
Fixpoint bhi (axs : list axis) (is : list Z) : list Z :=
  match axs, is with
  | a :: axs', i :: is' => ahi a i :: bhi axs' is'
  | _, _ => []
  end.

Definition in_block axs is x := in_box (blo axs is) (bhi axs is) x.

Lemma in_block_exists axs x :
  Forall valid_axis axs -> in_array (map ad axs) x ->
  exists is, in_range0 (map an axs) is /\ in_block axs is x.
Proof.
  intros H; revert x; induction H as [|a axs Ha _ IH]; intros [|x xs]; cbn; try tauto.
  - exists []; cbn; auto.
  - intros [H1 H2]. destruct (IH _ H2) as (is & Hr & Hb).
    destruct Ha as (_ & He & _). destruct (He _ H1) as (i & Hi & Hx).
    exists (i :: is). cbn. unfold in_block in *. cbn. auto.
Qed.

Lemma in_block_unique axs is js x :
  Forall valid_axis axs -> in_range0 (map an axs) is -> in_range0 (map an axs) js ->
  in_block axs is x -> in_block axs js x -> is = js.
Proof.
  intros H; revert is js x; induction H as [|a axs Ha _ IH]; intros [|i is] [|j js] [|x xs];
    unfold in_block in *; cbn; try tauto.
  intros [Hi His] [Hj Hjs] [H1 H2] [H3 H4]. f_equal; eauto using axis_unique.
Qed.

Lemma in_block_inside axs is x :
  Forall valid_axis axs -> in_range0 (map an axs) is ->
  in_block axs is x -> in_array (map ad axs) x.
Proof.
  intros H; revert is x; induction H as [|a axs Ha _ IH]; intros [|i is] [|x xs];
    unfold in_block in *; cbn; try tauto.
  intros [Hi His] [H1 H2]. split; eauto.
  destruct Ha as (_ & _ & Hin & _). specialize (Hin _ Hi). lia.
Qed.

Lemma in_block_mono axs is js x y :
  Forall valid_axis axs -> in_range0 (map an axs) is -> in_range0 (map an axs) js ->
  in_block axs is x -> in_block axs js y -> Forall2 Z.le x y -> Forall2 Z.le is js.
Proof.
  intros H; revert is js x y; induction H as [|a axs Ha _ IH]; intros [|i is] [|j js] [|x xs] [|y ys];
    unfold in_block in *; cbn; try tauto; try (constructor; fail).
  intros [Hi His] [Hj Hjs] [H1 H2] [H3 H4] HF. inversion_clear HF.
  constructor; eauto using axis_mono.
Qed.

Lemma axes_pos axs : Forall valid_axis axs -> Forall (fun n => 1 <= n) (map an axs).
Proof. induction 1 as [|a axs Ha _ IH]; cbn; constructor; auto. apply Ha. Qed.

(** The block number of a subscript, as a computable function. *)
Lemma in_block_length axs is x : in_block axs is x ->
  in_range0 (map an axs) is -> length x = length axs.
Proof.
  revert is x; induction axs as [|a axs IH]; intros [|i is] [|x xs]; unfold in_block in *; cbn; try tauto.
  intros [_ H] [_ H']. f_equal. eauto.
Qed.

Lemma blo_length axs is : length axs = length is -> length (blo axs is) = length is.
Proof. revert is; induction axs; intros [|i is]; cbn; intros; auto; try discriminate. Qed.
Lemma bhi_length axs is : length axs = length is -> length (bhi axs is) = length is.
Proof. revert is; induction axs; intros [|i is]; cbn; intros; auto; try discriminate. Qed.

(** ---- axis of a block map ---- *)
Definition map_axis (d n : Z) (m : list Z) : axis :=
  Axis d n (fun i => nth (Z.to_nat i) m 0)
       (fun i => if i =? n - 1 then d else nth (Z.to_nat (i + 1)) m 0 - 1).

Lemma valid_map_mono d n m i j :
  valid_map d n m -> 0 <= i <= j -> j < n ->
  nth (Z.to_nat i) m 0 <= nth (Z.to_nat j) m 0.
Proof.
  intros (_ & _ & _ & _ & Hm & _) Hij Hj.
  remember (Z.to_nat (j - i)) as k eqn:Hk.
  replace (Z.to_nat j) with (Z.to_nat i + k)%nat by lia.
  assert (Z.of_nat (Z.to_nat i + k) < n) as Hlt by lia. clear - Hm Hlt.
  induction k as [|k IH]; [rewrite Nat.add_0_r; lia|].
  specialize (IH ltac:(lia)). specialize (Hm (Z.to_nat i + k)%nat ltac:(lia)).
  replace (Z.to_nat i + S k)%nat with (Z.to_nat i + k + 1)%nat by lia. lia.
Qed.

Lemma map_axis_valid d n m : valid_map d n m -> valid_axis (map_axis d n m).
Proof.
  intros H. pose proof H as (Hd & Hn & Hl & H0 & Hm & Hlast).
  unfold valid_axis; cbn [ad an alo ahi map_axis]; repeat split; auto.
  - intros x Hx.
    assert (forall k, 0 <= Z.of_nat k < n -> x < nth k m 0 ->
              exists i, 0 <= i < Z.of_nat k /\ nth (Z.to_nat i) m 0 <= x
                        /\ x <= nth (Z.to_nat (i + 1)) m 0 - 1) as Hdown.
    { induction k as [|k IH]; intros Hk Hlt; [lia|].
      destruct (Z.le_gt_cases (nth k m 0) x) as [L|L].
      - exists (Z.of_nat k). rewrite Nat2Z.id.
        replace (Z.to_nat (Z.of_nat k + 1)) with (S k) by lia. lia.
      - destruct (IH ltac:(lia) L) as (i & ? & ?). exists i; lia. }
    destruct (Z.le_gt_cases (nth (Z.to_nat (n - 1)) m 0) x) as [L|L].
    + exists (n - 1). rewrite Z.eqb_refl. lia.
    + destruct (Hdown (Z.to_nat (n - 1)) ltac:(lia) ltac:(lia)) as (i & Hi & ? & ?).
      exists i. destruct (Z.eqb_spec i (n - 1)); lia.
  - pose proof (valid_map_mono d n m 0 i H ltac:(lia) ltac:(lia)) as Hmo.
    change (Z.to_nat 0) with 0%nat in Hmo. lia.
  - destruct (Z.eqb_spec i (n - 1)); [lia|].
    pose proof (valid_map_mono d n m (i + 1) (n - 1) H ltac:(lia) ltac:(lia)).
    replace (Z.to_nat (n - 1)) with (Z.to_nat n - 1)%nat in * by lia. lia.
  - intros i j Hij Hj. destruct (Z.eqb_spec i (n - 1)); [lia|].
    pose proof (valid_map_mono d n m (i + 1) j H ltac:(lia) ltac:(lia)). lia.
Qed.

Fixpoint map_axes (dims nblock mapc : list Z) : list axis :=
  match dims, nblock with
  | d :: dims', n :: nblock' =>
      map_axis d n mapc :: map_axes dims' nblock' (skipn (Z.to_nat n) mapc)
  | _, _ => []
  end.

Lemma map_axes_valid dims nblock mapc :
  valid_maps dims nblock mapc -> Forall valid_axis (map_axes dims nblock mapc).
Proof.
  revert nblock mapc; induction dims as [|d dims IH]; intros [|n nb] m; cbn; try tauto; constructor.
  - apply map_axis_valid; tauto.
  - apply IH; tauto.
Qed.

Lemma map_axes_ad dims nblock mapc :
  valid_maps dims nblock mapc -> map ad (map_axes dims nblock mapc) = dims.
Proof.
  revert nblock mapc; induction dims as [|d dims IH]; intros [|n nb] m; cbn; try tauto.
  intros [_ H]. f_equal; auto.
Qed.

Lemma map_axes_an dims nblock mapc :
  valid_maps dims nblock mapc -> map an (map_axes dims nblock mapc) = nblock.
Proof.
  revert nblock mapc; induction dims as [|d dims IH]; intros [|n nb] m; cbn; try tauto.
  intros [_ H]. f_equal; auto.
Qed.

Lemma zget_nth (m : list Z) i : 0 <= i < Z.of_nat (length m) ->
  zget m i = Some (nth (Z.to_nat i) m 0).
Proof. apply zget_Some. Qed.

Lemma owns_dims_axes dims nblock mapc p :
  valid_maps dims nblock mapc -> 0 <= p ->
  owns_dims dims nblock mapc p =
  Some (blo (map_axes dims nblock mapc) (decode nblock p),
        bhi (map_axes dims nblock mapc) (decode nblock p)).
Proof.
  revert nblock mapc p; induction dims as [|d dims IH]; intros [|n nb] m p; cbn [valid_maps owns_dims]; try tauto.
  intros [H1 H2] Hp. pose proof H1 as (Hd & Hn & Hl & _).
  unfold cmod, cdiv. destruct (Z.eqb_spec n 0); [lia|].
  rewrite Z.rem_mod_nonneg, Z.quot_div_nonneg by lia.
  pose proof (Z.mod_pos_bound p n ltac:(lia)).
  rewrite (zget_nth m (p mod n)) by lia.
  unfold zdrop. rewrite IH; [|auto|apply Z.div_pos; lia].
  cbn [map_axes blo bhi decode fst snd map_axis alo ahi].
  destruct (Z.eqb_spec (p mod n) (n - 1)); auto.
  rewrite (zget_nth m) by lia. auto.
Qed.

Lemma valid_maps_pos dims nblock mapc :
  valid_maps dims nblock mapc -> Forall (fun n => 1 <= n) nblock.
Proof.
  intros H. rewrite <- (map_axes_an _ _ _ H). apply axes_pos, map_axes_valid, H.
Qed.

(** ---- findblock ---- *)
Lemma fb_up_spec fuel m n b elem :
  n <= Z.of_nat (length m) -> 0 <= b < n -> Z.of_nat fuel >= n - b ->
  nth (Z.to_nat b) m 0 <= elem ->
  exists r, fb_up fuel m n b elem = Some r /\
    let b' := if fst r then snd r else n - 1 in
    0 <= b' < n /\ nth (Z.to_nat b') m 0 <= elem /\
    (b' = n - 1 \/ elem < nth (Z.to_nat (b' + 1)) m 0).
Proof.
  intros Hl; revert b; induction fuel as [|f IH]; intros b Hb Hf Hm; cbn [fb_up].
  - destruct (Z.ltb_spec b (n - 1)); [lia|].
    exists (false, b). cbn. split; [auto|]. replace b with (n - 1) in * by lia. lia.
  - destruct (Z.ltb_spec b (n - 1)).
    + rewrite (zget_nth m (b + 1)) by lia.
      destruct (Z.ltb_spec elem (nth (Z.to_nat (b + 1)) m 0)) as [L|L].
      * exists (true, b). cbn. split; [auto|lia].
      * apply IH; try lia.
    + exists (false, b). cbn. split; [auto|]. replace b with (n - 1) in * by lia. lia.
Qed.

Lemma fb_down_spec fuel m n b elem :
  n <= Z.of_nat (length m) -> -1 <= b < n - 1 -> Z.of_nat fuel >= b + 1 ->
  nth 0 m 0 <= elem -> elem < nth (Z.to_nat (b + 1)) m 0 ->
  exists r, fb_down fuel m b elem = Some r /\
    let b' := if fst r then snd r else n - 1 in
    0 <= b' < n /\ nth (Z.to_nat b') m 0 <= elem /\
    (b' = n - 1 \/ elem < nth (Z.to_nat (b' + 1)) m 0).
Proof.
  intros Hl; revert b; induction fuel as [|f IH]; intros b Hb Hf H0 Hm; cbn [fb_down].
  - destruct (Z.leb_spec 0 b); [lia|].
    replace b with (-1) in * by lia. cbn in Hm. lia.
  - destruct (Z.leb_spec 0 b).
    + rewrite (zget_nth m b) by lia.
      destruct (Z.leb_spec (nth (Z.to_nat b) m 0) elem) as [L|L].
      * exists (true, b). cbn. split; [auto|lia].
      * apply IH; try lia. replace (b - 1 + 1) with b by lia. lia.
    + replace b with (-1) in * by lia. cbn in Hm. lia.
Qed.

Lemma findblock_spec d n m cand elem :
  valid_map d n m -> 0 <= cand <= n -> 1 <= elem <= d ->
  exists b, findblock m n cand elem = Some b /\ 0 <= b < n /\
    alo (map_axis d n m) b <= elem <= ahi (map_axis d n m) b.
Proof.
  intros (Hd & Hn & Hl & H0 & Hm & Hlast) Hc He. unfold findblock.
  set (c := if cand =? n then n - 1 else cand).
  assert (0 <= c < n) as Hc' by (subst c; destruct (Z.eqb_spec cand n); lia).
  rewrite (zget_nth m c) by lia.
  cbn [alo ahi map_axis].
  destruct (Z.leb_spec (nth (Z.to_nat c) m 0) elem) as [L|L].
  - destruct (fb_up_spec (Z.to_nat (n - c)) m n c elem) as (r & -> & Hr); try lia.
    cbn zeta in Hr. eexists; split; [reflexivity|].
    set (b' := if fst r then snd r else n - 1) in *.
    destruct (Z.eqb_spec b' (n - 1)); lia.
  - assert (0 < c).
    { destruct (Z.eq_dec c 0) as [E|]; [|lia]. rewrite E in L. cbn in L. lia. }
    destruct (fb_down_spec (Z.to_nat c) m n (c - 1) elem) as (r & -> & Hr); try lia.
    { replace (c - 1 + 1) with c by lia. auto. }
    cbn zeta in Hr. eexists; split; [reflexivity|].
    set (b' := if fst r then snd r else n - 1) in *.
    destruct (Z.eqb_spec b' (n - 1)); lia.
Qed.

Lemma findblocks_spec guess dims nblock mapc x :
  good_guess guess -> valid_maps dims nblock mapc -> in_array dims x ->
  exists is, findblocks guess dims nblock mapc x = Some is /\
    in_range0 nblock is /\ in_block (map_axes dims nblock mapc) is x.
Proof.
  intros Hg. revert nblock mapc x; induction dims as [|d dims IH]; intros [|n nb] m [|x xs];
    cbn [valid_maps in_array findblocks]; try tauto.
  - intros. exists []. cbn. auto.
  - intros [H1 H2] [H3 H4]. pose proof H1 as (_ & Hn & _).
    destruct (findblock_spec d n m (guess d n x) x H1) as (b & -> & Hb & Hx); auto.
    destruct (IH _ _ _ H2 H4) as (is & E & Hr & Hi). unfold zdrop. rewrite E.
    exists (b :: is). split; auto. cbn. unfold in_block in *. cbn in *. auto.
Qed.

Lemma sub_in_range_spec dims x : sub_in_range dims x = true <-> in_array dims x.
Proof.
  revert x; induction dims as [|d dims IH]; intros [|x xs]; cbn; try tauto; try (split; [discriminate|tauto]).
  rewrite andb_true_iff, IH. split; intros [? ?]; split; auto; lia.
Qed.

(** ---- axis of fixed block size ---- *)
Definition bd_axis (d bd : Z) : axis :=
  Axis d (nblocks_of d bd) (fun i => i * bd + 1) (fun i => Z.min ((i + 1) * bd) d).

Lemma nblocks_of_spec d bd : 1 <= d -> 1 <= bd ->
  d <= nblocks_of d bd * bd < d + bd /\ 1 <= nblocks_of d bd /\
  nblocks_of d bd = (d - 1) / bd + 1.
Proof.
  intros Hd Hb. unfold nblocks_of.
  rewrite Z.quot_div_nonneg, Z.rem_mod_nonneg by lia.
  pose proof (Z.div_mod d bd ltac:(lia)). pose proof (Z.mod_pos_bound d bd ltac:(lia)).
  assert (0 <= d / bd) by (apply Z.div_pos; lia).
  destruct (Z.eqb_spec (d mod bd) 0).
  - rewrite Z.add_0_r. assert (1 <= d / bd) by nia.
    assert ((d - 1) / bd = d / bd - 1).
    { symmetry. apply Z.div_unique with (r := bd - 1); nia. }
    repeat split; nia.
  - assert ((d - 1) / bd = d / bd).
    { symmetry. apply Z.div_unique with (r := d mod bd - 1); nia. }
    repeat split; nia.
Qed.

Lemma bd_axis_at d bd x : 1 <= d -> 1 <= bd -> 1 <= x <= d ->
  let i := (x - 1) / bd in
  0 <= i < nblocks_of d bd /\ i * bd + 1 <= x <= Z.min ((i + 1) * bd) d.
Proof.
  intros Hd Hb Hx i. destruct (nblocks_of_spec d bd Hd Hb) as (H1 & H2 & H3).
  pose proof (Z.div_mod (x - 1) bd ltac:(lia)).
  pose proof (Z.mod_pos_bound (x - 1) bd ltac:(lia)).
  assert (0 <= i) by (apply Z.div_pos; lia). subst i. nia.
Qed.

Lemma bd_axis_valid d bd : 1 <= d -> 1 <= bd -> valid_axis (bd_axis d bd).
Proof.
  intros Hd Hb. destruct (nblocks_of_spec d bd Hd Hb) as (H1 & H2 & H3).
  unfold valid_axis; cbn [ad an alo ahi bd_axis]. repeat split; auto.
  - intros x Hx. exists ((x - 1) / bd). apply bd_axis_at; auto.
  - nia.
  - lia.
  - intros i j Hij Hj. nia.
Qed.

Fixpoint bd_axes (dims bdims : list Z) : list axis :=
  match dims, bdims with
  | d :: dims', b :: bdims' => bd_axis d b :: bd_axes dims' bdims'
  | _, _ => []
  end.

Lemma bd_axes_valid dims bdims :
  valid_bdims dims bdims -> Forall valid_axis (bd_axes dims bdims).
Proof.
  revert bdims; induction dims as [|d dims IH]; intros [|b bs]; cbn; try tauto; constructor.
  - apply bd_axis_valid; tauto.
  - apply IH; tauto.
Qed.

Lemma bd_axes_ad dims bdims : valid_bdims dims bdims -> map ad (bd_axes dims bdims) = dims.
Proof.
  revert bdims; induction dims as [|d dims IH]; intros [|b bs]; cbn; try tauto.
  intros (_ & _ & H). f_equal; auto.
Qed.

Lemma bd_axes_an dims bdims nb :
  valid_bdims dims bdims -> is_block_grid dims bdims nb ->
  map an (bd_axes dims bdims) = nb.
Proof.
  revert bdims nb; induction dims as [|d dims IH]; intros [|b bs] [|n nb]; cbn; try tauto.
  intros (Hd & Hb & H) (Hn & H'). f_equal; auto.
  destruct (nblocks_of_spec d b Hd Hb) as (H1 & _). nia.
Qed.

Lemma bd_limits_axes dims bdims is :
  valid_bdims dims bdims -> length is = length dims ->
  bd_limits dims bdims is =
  Some (blo (bd_axes dims bdims) is, bhi (bd_axes dims bdims) is).
Proof.
  revert bdims is; induction dims as [|d dims IH]; intros [|b bs] [|i is]; cbn [valid_bdims bd_limits length]; try tauto; try discriminate.
  intros (Hd & Hb & H) Hl. rewrite IH by (auto; congruence).
  cbn [fst snd bd_axes blo bhi bd_axis alo ahi]. repeat f_equal.
  destruct (Z.ltb_spec d ((i + 1) * b)); lia.
Qed.

Lemma div_indices_spec dims bdims x :
  valid_bdims dims bdims -> in_array dims x ->
  exists is, div_indices bdims x = Some is /\
    in_range0 (map an (bd_axes dims bdims)) is /\ in_block (bd_axes dims bdims) is x.
Proof.
  revert bdims x; induction dims as [|d dims IH]; intros [|b bs] [|x xs]; cbn [valid_bdims in_array div_indices]; try tauto.
  - exists []. cbn. auto.
  - intros (Hd & Hb & H) [Hx H'].
    destruct (IH _ _ H H') as (is & E & Hr & Hi). rewrite E.
    unfold cdiv. destruct (Z.eqb_spec b 0); [lia|].
    rewrite Z.quot_div_nonneg by lia.
    pose proof (bd_axis_at d b x Hd Hb Hx) as (H1 & H2).
    eexists. split; [reflexivity|]. cbn. unfold in_block in *. cbn. auto.
Qed.

(** ---- TILED_IRREG limits are the map axes ---- *)
Lemma irreg_limits_axes dims nbs mapc is :
  valid_maps dims nbs mapc -> in_range0 nbs is ->
  irreg_limits dims nbs mapc is =
  Some (blo (map_axes dims nbs mapc) is, bhi (map_axes dims nbs mapc) is).
Proof.
  revert nbs mapc is; induction dims as [|d dims IH]; intros [|n nb] m [|i is]; cbn [valid_maps in_range0 irreg_limits]; try tauto.
  intros [H1 H2] [Hi His]. pose proof H1 as (Hd & Hn & Hl & _).
  rewrite (zget_nth m i) by lia. unfold zdrop. rewrite IH by auto.
  cbn [map_axes blo bhi fst snd map_axis alo ahi].
  destruct (Z.ltb_spec i (n - 1)), (Z.eqb_spec i (n - 1)); try lia; auto.
  rewrite (zget_nth m (i + 1)) by lia. auto.
Qed.
