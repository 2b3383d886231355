(** Direct access (C17, C52, C53). *)
From Verif Require Export LStore LXfer2 MAccess.

(** Sum of f 0 .. f (n-1). *)
Fixpoint psum (f : Z -> Z) (n : nat) : Z :=
  match n with O => 0 | S n' => psum f n' + f (Z.of_nat n') end.

Lemma psum_ext f h n : (forall i, 0 <= i < Z.of_nat n -> f i = h i) -> psum f n = psum h n.
Proof.
  induction n as [|n IH]; intros H; [reflexivity|]. cbn [psum]. rewrite IH by (intros; apply H; lia).
  rewrite H by lia. reflexivity.
Qed.
Lemma psum_add f n m : psum f (n + m) = psum f n + psum (fun i => f (Z.of_nat n + i)) m.
Proof.
  induction m as [|m IH]; [rewrite Nat.add_0_r; cbn; lia|]. rewrite Nat.add_succ_r. cbn [psum]. rewrite IH.
  rewrite Nat2Z.inj_add. lia.
Qed.
Lemma psum_scale f c n : psum (fun i => f i * c) n = psum f n * c.
Proof. induction n as [|n IH]; cbn [psum]; [reflexivity|]. rewrite IH. ring. Qed.

Lemma psum_mixed f (h : Z -> Z) n K : 0 <= n ->
  psum (fun k => f (k mod n) * h (k / n)) (Z.to_nat n * K) = psum f (Z.to_nat n) * psum h K.
Proof.
  intros Hn. destruct (Z.eq_dec n 0) as [->|Hne]; [cbn; reflexivity|].
  induction K as [|K IH]; [rewrite Nat.mul_0_r; cbn; lia|].
  rewrite Nat.mul_succ_r, psum_add, IH. cbn [psum]. 
  rewrite (psum_ext (fun i => f ((Z.of_nat (Z.to_nat n * K) + i) mod n) * h ((Z.of_nat (Z.to_nat n * K) + i) / n)) (fun i => f i * h (Z.of_nat K))).
  - rewrite psum_scale. ring.
  - intros i Hi. rewrite Nat2Z.inj_mul, !Z2Nat.id in * by lia.
    rewrite (Z.add_comm (n * _)), (Z.mul_comm n), Z.mod_add, Z.div_add by lia.
    rewrite Z.mod_small, Z.div_small by lia. reflexivity.
Qed.

(** Sum of products over all index vectors before [d] in the order of
    [encode]. *)
Fixpoint partial_sum (fs : list (Z -> Z)) (nb d : list Z) : Z :=
  match fs, nb, d with
  | f :: fs', n :: nb', i :: d' =>
      psum f (Z.to_nat i) * size_at fs' d' + psum f (Z.to_nat n) * partial_sum fs' nb' d'
  | _, _, _ => 0
  end.

Lemma psum_encode fs nb d : length fs = length nb -> in_range0 nb d ->
  psum (fun k => size_at fs (decode nb k)) (Z.to_nat (encode nb d)) = partial_sum fs nb d.
Proof.
  revert nb d. induction fs as [|f fs IH]; intros [|n nb] [|i d]; cbn [length in_range0]; try tauto; try discriminate.
  intros HL [Hi HR]. cbn [encode partial_sum]. pose proof (encode_range _ _ HR) as HE.
    replace (Z.to_nat (i + n * encode nb d)) with (Z.to_nat n * Z.to_nat (encode nb d) + Z.to_nat i)%nat by nia.
    rewrite psum_add. cbn [decode size_at].
    rewrite (psum_mixed f (fun k => size_at fs (decode nb k))) by lia. rewrite IH by (auto; lia).
    rewrite (psum_ext (fun x => f ((Z.of_nat (Z.to_nat n * Z.to_nat (encode nb d)) + x) mod n) * _) (fun x => f x * size_at fs d)); [rewrite psum_scale; ring|].
    intros x Hx. rewrite Nat2Z.inj_mul, !Z2Nat.id in * by lia.
    rewrite (Z.add_comm (n * _)), (Z.mul_comm n), Z.mod_add, Z.div_add by lia.
    rewrite Z.mod_small, Z.div_small by lia. rewrite Z.add_0_l. rewrite decode_encode by exact HR. reflexivity.
Qed.

(** The sizes of the blocks of one dimension that belong to coordinate [p]. *)
Definition masked (x : axis) (g p : Z) : Z -> Z := fun j => if j mod g =? p then asize x j else 0.
Fixpoint masks (axs : list axis) (grid pc : list Z) : list (Z -> Z) :=
  match axs, grid, pc with
  | x :: axs', g :: grid', p :: pc' => masked x g p :: masks axs' grid' pc'
  | _, _, _ => []
  end.
Lemma masks_length axs grid pc : length grid = length axs -> length pc = length axs ->
  length (masks axs grid pc) = length axs.
Proof. revert grid pc. induction axs as [|x axs IH]; intros [|g grid] [|p pc]; cbn; try discriminate; auto. Qed.

Lemma masks_at axs grid pc t : length grid = length axs -> length pc = length axs -> length t = length axs ->
  size_at (masks axs grid pc) t = if list_eq_dec Z.eq_dec (vmod grid t) pc then size_at (map asize axs) t else 0.
Proof.
  unfold vmod. revert grid pc t. induction axs as [|x axs IH]; intros [|g grid] [|p pc] [|i t]; cbn [length]; try discriminate.
  - intros _ _ _. reflexivity.
  - intros H1 H2 H3. cbn [masks size_at map combine fst snd]. rewrite IH by lia. unfold masked.
    destruct (Z.eqb_spec (i mod g) p) as [E|E], (list_eq_dec Z.eq_dec (map (fun q => snd q mod fst q) (combine grid t)) pc) as [F|F];
      destruct (list_eq_dec Z.eq_dec (i mod g :: map (fun q => snd q mod fst q) (combine grid t)) (p :: pc)) as [G|G];
      try congruence; lia.
Qed.

Lemma sizes_before_psum size home p n :
  sizes_before size home p n =
  psum (fun k => match home k with Some q => if q =? p then size k else 0 | None => 0 end) n.
Proof. induction n as [|n IH]; cbn [sizes_before psum]; [reflexivity|]. rewrite IH. reflexivity. Qed.

Lemma before_partial a p k :
  wf_blocks (ga_desc a) -> wf_grid (ga_nproc a) (ga_desc a) ->
  0 <= k < zprod (num_blocks (ga_desc a)) -> 0 <= p < ga_nproc a ->
  before a p k = partial_sum (masks (axes_of (ga_desc a)) (nblock (ga_desc a)) (decode (nblock (ga_desc a)) p))
                   (num_blocks (ga_desc a)) (decode (num_blocks (ga_desc a)) k).
Proof.
  intros WB WG Hk Hp. set (g := ga_desc a) in *. pose proof WG as (_ & _ & HLg & Hpos & HNp).
  destruct (wf_any_axes g (wf_blocks_any g WB)) as (_ & Had & Han & Hnb & HLn).
  assert (HLa : length (axes_of g) = length (dims g)) by (rewrite <- Had, map_length; reflexivity).
  pose proof (decode_range _ _ Hnb Hk) as HR.
  rewrite <- psum_encode; [|rewrite masks_length; rewrite ?decode_length; lia|exact HR].
  rewrite encode_decode by auto. unfold before. rewrite sizes_before_psum. apply psum_ext.
  intros i Hi. fold g. assert (Hi' : 0 <= i < zprod (num_blocks g)) by lia.
  pose proof (decode_range _ _ Hnb Hi') as HRi. apply in_range0_length in HRi.
  rewrite masks_at by (rewrite ?decode_length; lia).
  destruct (block_home (ga_nproc a) g i) as [q|] eqn:EQ.
  - destruct (list_eq_dec _ _ _) as [E|E].
    + assert (X : block_home (ga_nproc a) g i = Some p) by (apply (sl_home a WG); auto).
      assert (q = p) by congruence. subst q. rewrite Z.eqb_refl.
      rewrite <- bx_size by auto. unfold bx. cbn [fst snd]. rewrite size_at_count by lia. reflexivity.
    + destruct (Z.eqb_spec q p) as [->|]; [|reflexivity]. exfalso. apply E.
      apply (sl_home a WG) in EQ; auto. tauto.
  - exfalso. destruct (grid_home _ _ i WG Hi') as (q & _ & _ & _ & H1 & _). fold g in H1. congruence.
Qed.

(** Sums over strided lists. *)
Lemma zsum_filter_psum (f : Z -> Z) (P : Z -> bool) n :
  zsum (map f (filter P (zseq 0 n))) = psum (fun j => if P j then f j else 0) n.
Proof.
  induction n as [|n IH]; [reflexivity|]. replace (S n) with (n + 1)%nat by lia.
  rewrite zseq_app, filter_app, map_app, zsum_app, IH, psum_add. f_equal. cbn [zseq filter psum].
  change (Z.of_nat 0) with 0. rewrite !Z.add_0_l, Z.add_0_r. destruct (P (Z.of_nat n)); cbn [map zsum]; lia.
Qed.

Lemma jsok_sum (f : Z -> Z) g p n js m : 0 <= m <= n -> StronglySorted Z.lt js ->
  (forall i, In i js <-> 0 <= i < n /\ i mod g = p) ->
  zsum (map f (filter (fun j => j <? m) js)) = psum (fun j => if j mod g =? p then f j else 0) (Z.to_nat m).
Proof.
  intros Hm HS HI. rewrite <- (zsum_filter_psum f (fun j => j mod g =? p)). do 2 f_equal.
  apply sorted_unique; [apply filter_sorted; exact HS|apply filter_sorted, zseq_sorted|].
  intros x. rewrite !filter_In, HI, zseq_In. rewrite Z.ltb_lt, Z.eqb_eq. lia.
Qed.
Lemma filter_all {A} (P : A -> bool) l : (forall x, In x l -> P x = true) -> filter P l = l.
Proof.
  induction l as [|a l IH]; intros H; [reflexivity|]. cbn. rewrite H by now left. f_equal. apply IH. intros; apply H; now right.
Qed.
Lemma jsok_total (f : Z -> Z) g p n js : 0 <= n -> StronglySorted Z.lt js ->
  (forall i, In i js <-> 0 <= i < n /\ i mod g = p) ->
  zsum (map f js) = psum (fun j => if j mod g =? p then f j else 0) (Z.to_nat n).
Proof.
  intros Hn HS HI. rewrite <- (jsok_sum f g p n js n) by (auto; lia). do 2 f_equal. symmetry. apply filter_all.
  intros x Hx. apply HI in Hx. apply Z.ltb_lt. lia.
Qed.

Lemma map_before_sum d n idx m js : Z.of_nat (length m) >= n -> (forall j, In j js -> 0 <= j < n) ->
  map_before d n idx m js = Some (zsum (map (asize (map_axis d n m)) (filter (fun j => j <? idx) js))).
Proof.
  intros HL. induction js as [|j js IH]; intros H; [reflexivity|]. cbn [map_before filter].
  pose proof (H j (or_introl eq_refl)).
  rewrite (zget_nth m j) by lia. rewrite IH by (intros; apply H; now right).
  assert (E : (do imax <- (if j <? n - 1 then do m0 <- zget m (j + 1); Some (m0 - 1) else Some d);
               Some ((if j <? idx then imax - nth (Z.to_nat j) m 0 + 1 else 0) +
                     zsum (map (asize (map_axis d n m)) (filter (fun j0 => j0 <? idx) js)))) =
              Some ((if j <? idx then asize (map_axis d n m) j else 0) +
                     zsum (map (asize (map_axis d n m)) (filter (fun j0 => j0 <? idx) js)))).
  { unfold asize at 2. cbn [map_axis alo ahi].
    destruct (Z.ltb_spec j (n - 1)), (Z.eqb_spec j (n - 1)); try lia; [|reflexivity].
    rewrite (zget_nth m (j + 1)) by lia. reflexivity. }
  rewrite E. f_equal. destruct (j <? idx); cbn [map zsum]; lia.
Qed.

(** The extents of a block given by axes. *)
Lemma blo_bhi_extents axs t : length t = length axs ->
  extents (blo axs t) (bhi axs t) = map (fun p => asize (fst p) (snd p)) (combine axs t).
Proof.
  revert t. induction axs as [|x axs IH]; intros [|i t]; cbn [length]; try discriminate; [reflexivity|].
  intros H. cbn [blo bhi extents combine map fst snd]. rewrite IH by lia. reflexivity.
Qed.
Lemma size_at_combine axs t : length t = length axs ->
  size_at (map asize axs) t = zprod (map (fun p => asize (fst p) (snd p)) (combine axs t)).
Proof.
  revert t. induction axs as [|x axs IH]; intros [|i t]; cbn [length]; try discriminate; [reflexivity|].
  intros H. cbn [map size_at combine zprod fst snd]. rewrite IH by lia. reflexivity.
Qed.

(** ---- TILED_IRREG ---- *)
Lemma irreg_dims_spec ds m nb grid pc idx :
  valid_maps ds nb m -> length grid = length ds -> in_range0 grid pc -> in_range0 nb idx -> vmod grid idx = pc ->
  exists ts, irreg_dims ds m nb grid pc idx = Some ts /\
    map i_size ts = map (fun p => asize (fst p) (snd p)) (combine (map_axes ds nb m) idx) /\
    forall pre, irreg_offset ts pre = pre * partial_sum (masks (map_axes ds nb m) grid pc) nb idx.
Proof.
  unfold vmod. revert m nb grid pc idx. induction ds as [|d ds IH]; intros m [|n nb] [|g grid] [|p pc] [|i idx];
    cbn [length in_range0 valid_maps]; try discriminate; try tauto.
  - intros _ _ _ _ _. exists []. cbn. split; [reflexivity|]. split; [reflexivity|]. intros; ring.
  - intros [H1 H2] H3 [Hp Hr] [Hi HR] HM. pose proof H1 as (Hd & Hn & Hl & _).
    cbn [combine map fst snd] in HM. injection HM as HM1 HM2.
    destruct (IH (skipn (Z.to_nat n) m) nb grid pc idx) as (ts & E & ES & EO); try lia; auto.
    destruct (strided_mod g n p ltac:(lia) Hp) as (js & Es & S & HI).
    cbn [irreg_dims]. rewrite (zget_nth m i) by lia. rewrite Es.
    rewrite map_total_sum; [|lia|intros j Hj; apply HI in Hj; lia].
    rewrite map_before_sum; [|lia|intros j Hj; apply HI in Hj; lia].
    unfold zdrop. rewrite E.
    assert (EH : (if i <? n - 1 then do m0 <- zget m (i + 1); Some (m0 - 1) else Some d) = Some (ahi (map_axis d n m) i)).
    { cbn [map_axis ahi]. destruct (Z.ltb_spec i (n - 1)), (Z.eqb_spec i (n - 1)); try lia; [|reflexivity].
      rewrite (zget_nth m (i + 1)) by lia. reflexivity. }
    rewrite EH. eexists. split; [reflexivity|]. cbn [map i_size map_axes combine fst snd]. split.
    { rewrite ES. reflexivity. }
    intros pre. cbn [irreg_offset i_before i_lld masks partial_sum]. rewrite EO.
    rewrite (jsok_sum _ g p n js i) by (auto; lia). rewrite (jsok_total _ g p n js) by (auto; lia).
    change (fun j => if j mod g =? p then asize (map_axis d n m) j else 0) with (masked (map_axis d n m) g p).
    rewrite ES.
    pose proof (in_range0_length _ _ HR). pose proof (in_range0_length _ _ Hr).
    assert (LA : length (map_axes ds nb (skipn (Z.to_nat n) m)) = length nb).
    { rewrite <- (map_length an), map_axes_an by auto. reflexivity. }
    pose proof (map_length ad (map_axes ds nb (skipn (Z.to_nat n) m))) as LD. rewrite map_axes_ad in LD by auto.
    rewrite masks_at by lia. unfold vmod. destruct (list_eq_dec _ _ _); [|congruence].
    rewrite size_at_combine by lia. ring.
Qed.

(** ---- TILED ---- *)
Lemma psum_const f c n : (forall i, 0 <= i < Z.of_nat n -> f i = c) -> psum f n = Z.of_nat n * c.
Proof.
  induction n as [|n IH]; intros H; [reflexivity|]. cbn [psum]. rewrite IH by (intros; apply H; lia).
  rewrite H by lia. lia.
Qed.

(** Every g-th term, starting at p. *)
Lemma psum_strided c g p n : 1 <= g -> 0 <= p < g ->
  psum (fun j => if j mod g =? p then c j else 0) n =
  psum (fun q => c (p + g * q)) (Z.to_nat ((Z.of_nat n - p + g - 1) / g)).
Proof.
  intros Hg Hp. induction n as [|n IH].
  - change (Z.of_nat 0) with 0. rewrite Z.div_small by lia. reflexivity.
  - cbn [psum]. rewrite IH. replace (Z.of_nat (S n)) with (Z.of_nat n + 1) by lia. set (m := Z.of_nat n).
    pose proof (Z.div_mod m g ltac:(lia)) as D. pose proof (Z.mod_pos_bound m g ltac:(lia)) as B.
    set (k := m / g) in *. set (r := m mod g) in *. assert (0 <= k) by (apply Z.div_pos; lia).
    destruct (Z.eqb_spec r p) as [E|E].
    + assert (E1 : (m - p + g - 1) / g = k) by (symmetry; apply Z.div_unique with (g - 1); lia).
      assert (E2 : (m + 1 - p + g - 1) / g = k + 1) by (symmetry; apply Z.div_unique with 0; lia).
      rewrite E1, E2. replace (Z.to_nat (k + 1)) with (S (Z.to_nat k)) by lia. cbn [psum]. rewrite Z2Nat.id by lia.
      f_equal. f_equal. lia.
    + assert (E1 : (m + 1 - p + g - 1) / g = (m - p + g - 1) / g).
      { destruct (Z_lt_ge_dec r p).
        - rewrite <- (Z.div_unique (m + 1 - p + g - 1) g k (r - p + g)) by lia.
          apply Z.div_unique with (r - p + g - 1); lia.
        - rewrite <- (Z.div_unique (m + 1 - p + g - 1) g (k + 1) (r - p)) by lia.
          apply Z.div_unique with (r - p - 1); lia. }
      rewrite E1. lia.
Qed.

Lemma bd_asize d bd n j : 1 <= bd -> (n - 1) * bd < d <= n * bd -> 0 <= j < n ->
  asize (bd_axis d bd) j = if j =? n - 1 then d - (n - 1) * bd else bd.
Proof.
  intros Hb Hd Hj. unfold asize. cbn [bd_axis alo ahi]. destruct (Z.eqb_spec j (n - 1)) as [->|]; nia.
Qed.

Lemma tiled_dim_spec d bd n p i : 1 <= d -> 1 <= bd -> (n - 1) * bd < d <= n * bd -> 0 <= i < n -> 0 <= p < 2 ->
  i mod 2 = p ->
  exists t, tiled_dim d bd n 2 p i = Some t /\ t_bd t = bd /\ t_size t = asize (bd_axis d bd) i /\
    t_idx t * bd = psum (masked (bd_axis d bd) 2 p) (Z.to_nat i) /\
    t_lld t = psum (masked (bd_axis d bd) 2 p) (Z.to_nat n) /\
    (if t_idx t =? t_count t - 1 then t_size t else bd) = asize (bd_axis d bd) i.
Proof.
  intros Hd Hb HB Hi Hp HM. pose proof (Z.div_mod i 2 ltac:(lia)) as Di. rewrite HM in Di. set (q := i / 2) in *.
  unfold tiled_dim, cdiv, cmod. destruct (Z.eqb_spec 2 0); [lia|]. destruct (Z.eqb_spec bd 0); [lia|].
  rewrite !Z.quot_div_nonneg, !Z.rem_mod_nonneg by lia.
  assert (Eq : (i - p + 1) / 2 = q) by (symmetry; apply Z.div_unique with 1; lia). rewrite Eq.
  pose proof (Z.div_mod (n - p + 1) 2 ltac:(lia)) as Dn. pose proof (Z.mod_pos_bound (n - p + 1) 2 ltac:(lia)) as Bn.
  set (Q := (n - p + 1) / 2) in *. set (r := (n - p + 1) mod 2) in *.
  eexists. split; [reflexivity|]. cbn [t_bd t_size t_idx t_lld t_count].
  assert (ES : (if d <? (i + 1) * bd then d else (i + 1) * bd) - (i * bd + 1) + 1 = asize (bd_axis d bd) i).
  { unfold asize. cbn [bd_axis alo ahi]. destruct (Z.ltb_spec d ((i + 1) * bd)); lia. }
  split; [reflexivity|]. split; [exact ES|]. split; [|split].
  - unfold masked. rewrite psum_strided by lia. rewrite Z2Nat.id by lia.
    replace (i - p + 2 - 1) with (i - p + 1) by lia. rewrite Eq.
    rewrite (psum_const _ bd); [rewrite Z2Nat.id by lia; reflexivity|].
    intros j Hj. rewrite (bd_asize d bd n) by lia. destruct (Z.eqb_spec (p + 2 * j) (n - 1)); [lia|reflexivity].
  - unfold masked. rewrite psum_strided by lia. rewrite Z2Nat.id by lia.
    replace (n - p + 2 - 1) with (n - p + 1) by lia. fold Q.
    destruct (Z.eqb_spec r 0) as [Er|Er].
    + assert (1 <= Q) by lia. replace (Z.to_nat Q) with (S (Z.to_nat (Q - 1))) by lia. cbn [psum].
      rewrite (psum_const _ bd).
      2:{ intros j Hj. rewrite (bd_asize d bd n) by lia. destruct (Z.eqb_spec (p + 2 * j) (n - 1)); [lia|reflexivity]. }
      rewrite Z2Nat.id by lia. rewrite (bd_asize d bd n) by lia.
      destruct (Z.eqb_spec (p + 2 * (Q - 1)) (n - 1)); [|lia].
      pose proof (Z.div_mod d bd ltac:(lia)) as Dd. pose proof (Z.mod_pos_bound d bd ltac:(lia)) as Bd.
      destruct (Z.eqb_spec (d mod bd) 0) as [E0|E0]; cbn [negb].
      * assert (d / bd = n) by nia. nia.
      * assert (d / bd = n - 1) by nia. nia.
    + rewrite (psum_const _ bd); [rewrite Z2Nat.id by lia; reflexivity|].
      intros j Hj. rewrite (bd_asize d bd n) by lia. destruct (Z.eqb_spec (p + 2 * j) (n - 1)); [lia|reflexivity].
  - rewrite ES. destruct (Z.eqb_spec q (Q - 1)); [reflexivity|]. rewrite (bd_asize d bd n) by lia.
    destruct (Z.eqb_spec i (n - 1)); [lia|reflexivity].
Qed.

Lemma tiled_dims_spec ds bds nb grid pc idx :
  valid_bdims ds bds -> is_block_grid ds bds nb -> length grid = length ds -> Forall (fun n => n = 2) grid ->
  in_range0 grid pc -> in_range0 nb idx -> vmod grid idx = pc ->
  exists ts, tiled_dims ds bds nb grid pc idx = Some ts /\
    map t_size ts = map (fun p => asize (fst p) (snd p)) (combine (bd_axes ds bds) idx) /\
    tiled_rest ts = size_at (map asize (bd_axes ds bds)) idx /\
    forall pre, tiled_offset ts pre = pre * partial_sum (masks (bd_axes ds bds) grid pc) nb idx.
Proof.
  unfold vmod. revert bds nb grid pc idx. induction ds as [|d ds IH]; intros [|b bds] [|n nb] [|g grid] [|p pc] [|i idx];
    cbn [length in_range0 valid_bdims is_block_grid]; try discriminate; try tauto.
  - intros _ _ _ _ _ _ _. exists []. cbn. split; [reflexivity|]. split; [reflexivity|]. split; [reflexivity|]. intros; ring.
  - intros (Hd & Hb & HV) HG H3 HF [Hp Hr] [Hi HR] HM. inversion HF as [|? ? Eg HF']; subst.
    cbn [combine map fst snd] in HM. injection HM as HM1 HM2.
    destruct HG as [HB0 HG]. assert (HB : (n - 1) * b < d <= n * b) by lia.
    destruct (IH bds nb grid pc idx) as (ts & E & ES & ER & EO); try lia; auto.
    destruct (tiled_dim_spec d b n p i Hd Hb HB Hi Hp HM1) as (t & Et & T1 & T2 & T3 & T4 & T5).
    cbn [tiled_dims]. rewrite Et, E. eexists. split; [reflexivity|].
    cbn [map combine fst snd bd_axes tiled_rest size_at]. split; [rewrite T2, ES; reflexivity|].
    split; [rewrite T1, T5, ER; reflexivity|].
    intros pre. cbn [tiled_offset masks partial_sum]. rewrite EO, <- T3, <- T4, T1, ER.
    pose proof (in_range0_length _ _ HR). pose proof (in_range0_length _ _ Hr).
    assert (LA : length (bd_axes ds bds) = length ds) by (rewrite <- (bd_axes_ad ds bds HV) at 2; rewrite map_length; reflexivity).
    assert (LN : length nb = length ds).
    { clear - HG. revert bds nb HG. induction ds as [|d ds IH]; intros [|b bds] [|n nb]; cbn; try tauto. intros [_ H]. f_equal. eauto. }
    rewrite masks_at by lia. unfold vmod. destruct (list_eq_dec _ _ _); [|congruence]. ring.
Qed.

(** ---- SCALAPACK ---- *)
Lemma sl_lds_spec ds bds grid pc :
  ds <> [] -> valid_bdims ds bds -> length grid = length ds -> in_range0 grid pc ->
  exists ld, sl_lds ds bds grid pc = Some ld /\ length ld = (length ds - 1)%nat /\
    (forall k, length k = length ds -> lin ld k = lin (local_extents ds bds grid pc) k) /\
    forall idx f, length idx = length ds -> Forall (fun i => 0 <= i) idx -> vmod grid idx = pc ->
      sl_block_offset bds grid pc idx ld f =
        Some (f * lin (local_extents ds bds grid pc) (local_coords bds grid (map (fun p => snd p * fst p + 1) (combine bds idx)))).
Proof.
  unfold vmod. revert bds grid pc. induction ds as [|d ds IH]; intros bds grid pc Hne HV HL HR; [congruence|].
  destruct bds as [|b bds]; cbn [valid_bdims] in HV; [tauto|]. destruct HV as (Hd & Hb & HV).
  destruct grid as [|g grid]; [discriminate|]. destruct pc as [|p pc]; cbn [in_range0] in HR; [tauto|]. destruct HR as [Hp HR].
  assert (QE : forall i, 0 <= i -> i mod g = p -> cdiv (i - p) g = Some (i / g)).
  { intros i Hi Hm. unfold cdiv. destruct (Z.eqb_spec g 0); [lia|].
    pose proof (Z.div_mod i g ltac:(lia)). assert (0 <= i / g) by (apply Z.div_pos; lia).
    rewrite Z.quot_div_nonneg by nia. f_equal. symmetry. apply Z.div_unique with 0; lia. }
  assert (LC : forall i, 0 <= i -> (i * b + 1 - 1) / b / g * b + (i * b + 1 - 1) mod b = i / g * b).
  { intros i Hi. replace (i * b + 1 - 1) with (i * b) by ring. rewrite Z.div_mul, Z.mod_mul by lia. ring. }
  destruct ds as [|d' ds].
  - destruct bds as [|]; [|cbn in HV; tauto]. destruct grid; [|discriminate]. destruct pc; [|cbn in HR; tauto].
    exists []. split; [reflexivity|]. split; [reflexivity|]. split.
    + intros k Hk. destruct k as [|k0 [|k1 k]]; try discriminate. reflexivity.
    + intros idx f Hi Hpos HM. destruct idx as [|i [|]]; try discriminate.
      cbn [combine map fst snd] in HM. injection HM as HM. inversion Hpos; subst.
      cbn [sl_block_offset combine map fst snd local_coords lin]. rewrite QE by auto. f_equal.
      rewrite LC by auto. ring.
  - destruct bds as [|b' bds]; [cbn in HV; tauto|]. destruct grid as [|g' grid]; [discriminate|].
    destruct pc as [|p' pc]; [cbn in HR; tauto|].
    destruct (IH (b' :: bds) (g' :: grid) (p' :: pc)) as (ld & E & LL & K & O); auto; try discriminate.
    exists (local_extent d b g p :: ld). split.
    { change (sl_lds (d :: d' :: ds) (b :: b' :: bds) (g :: g' :: grid) (p :: p' :: pc)) with
        (do l <- sl_local_ld d b g p; do r <- sl_lds (d' :: ds) (b' :: bds) (g' :: grid) (p' :: pc); Some (l :: r)).
      rewrite sl_local_ld_spec, E by lia. reflexivity. }
    split; [cbn in *; lia|]. split.
    + intros k Hk. destruct k as [|k0 [|k1 k]]; try discriminate.
      specialize (K (k1 :: k) ltac:(cbn in *; lia)).
      cbn [local_extents] in K |- *. remember (k1 :: k) as kk. cbn [lin]. rewrite K. subst kk. reflexivity.
    + intros idx f Hi Hpos HM. destruct idx as [|i idx]; [discriminate|].
      cbn [combine map fst snd] in HM. injection HM as HM1 HM2. inversion Hpos; subst.
      destruct idx as [|i' idx]; [discriminate|].
      change (sl_block_offset (b :: b' :: bds) (g :: g' :: grid) (i mod g :: p' :: pc) (i :: i' :: idx) (local_extent d b g (i mod g) :: ld) f)
        with (do q <- cdiv (i - i mod g) g;
              do r <- sl_block_offset (b' :: bds) (g' :: grid) (p' :: pc) (i' :: idx) ld (f * local_extent d b g (i mod g));
              Some (q * b * f + r)).
      rewrite QE by auto. rewrite O by (auto; cbn in *; auto; lia). f_equal.
      cbn [combine map fst snd local_extents local_coords]. rewrite LC by auto.
      cbn [lin]. ring.
Qed.

(** ---- the theorems ---- *)
Lemma init_ld_lin l k : length k = length l -> lin (init_ld l) k = lin l k.
Proof.
  revert l. induction k as [|a k IH]; intros [|x l] HL; try discriminate; [reflexivity|].
  destruct k as [|b k]; [reflexivity|]. destruct l as [|y l]; [discriminate|].
  specialize (IH (y :: l) ltac:(cbn in *; lia)). change (init_ld (x :: y :: l)) with (x :: init_ld (y :: l)).
  remember (b :: k) as kk. cbn [lin]. rewrite IH. subst kk. reflexivity.
Qed.

Lemma init_ld_length l : length (init_ld l) = (length l - 1)%nat.
Proof.
  induction l as [|x l IH]; [reflexivity|]. destruct l as [|y l]; [reflexivity|].
  change (init_ld (x :: y :: l)) with (x :: init_ld (y :: l)). cbn [length] in *. lia.
Qed.

Lemma block_in_range_true nb idx : in_range0 nb idx -> block_in_range nb idx = true.
Proof.
  revert idx. induction nb as [|n nb IH]; intros [|i idx]; cbn; try tauto. intros [H1 H2].
  rewrite IH by auto. destruct (Z.ltb_spec i 0), (Z.leb_spec n i); auto; lia.
Qed.

(** The block number and process coordinates of a block of a grid array. *)
Lemma grid_block a k :
  wf_blocks (ga_desc a) -> wf_grid (ga_nproc a) (ga_desc a) ->
  0 <= k < zprod (num_blocks (ga_desc a)) ->
  exists p, 0 <= p < ga_nproc a /\ block_home (ga_nproc a) (ga_desc a) k = Some p /\
    find_indices (num_blocks (ga_desc a)) k = Some (decode (num_blocks (ga_desc a)) k) /\
    block_in_range (num_blocks (ga_desc a)) (decode (num_blocks (ga_desc a)) k) = true /\
    find_proc_from_indices (nblock (ga_desc a)) (decode (num_blocks (ga_desc a)) k) = Some p /\
    find_indices (nblock (ga_desc a)) p = Some (decode (nblock (ga_desc a)) p) /\
    in_range0 (nblock (ga_desc a)) (decode (nblock (ga_desc a)) p) /\
    in_range0 (num_blocks (ga_desc a)) (decode (num_blocks (ga_desc a)) k) /\
    vmod (nblock (ga_desc a)) (decode (num_blocks (ga_desc a)) k) = decode (nblock (ga_desc a)) p.
Proof.
  intros WB WG Hk. set (g := ga_desc a) in *. pose proof WG as (_ & HB & HLg & Hpos & HNp).
  destruct (wf_any_axes g (wf_blocks_any g WB)) as (_ & _ & _ & Hnb & HLn).
  destruct (grid_home _ _ k WG Hk) as (p & _ & _ & _ & H1 & H2 & _).
  pose proof (decode_range _ _ Hnb Hk) as HR.
  pose proof (find_indices_decode _ k Hnb ltac:(lia)) as EF.
  exists p. split; [exact H2|]. split; [exact H1|]. split; [exact EF|]. split; [apply block_in_range_true; exact HR|].
  split.
  { unfold block_home in H1. destruct (distr_type g); try congruence; rewrite EF in H1; exact H1. }
  split; [apply find_indices_decode; auto; lia|]. split; [apply decode_range; auto; lia|].
  split; [exact HR|]. apply (sl_home a WG) in H1; tauto.
Qed.

Lemma access_grid a wn k off ld p :
  wf_blocks (ga_desc a) -> wf_grid (ga_nproc a) (ga_desc a) -> ga_group a = None ->
  0 <= k < zprod (num_blocks (ga_desc a)) -> block_home (ga_nproc a) (ga_desc a) k = Some p ->
  match distr_type (ga_desc a) with
  | TILED =>
      do ts <- tiled_dims (dims (ga_desc a)) (block_dims (ga_desc a)) (num_blocks (ga_desc a)) (nblock (ga_desc a))
                 (decode (nblock (ga_desc a)) p) (decode (num_blocks (ga_desc a)) k);
      Some (tiled_offset ts 1, init_ld (map t_size ts))
  | TILED_IRREG =>
      do ts <- irreg_dims (dims (ga_desc a)) (mapc (ga_desc a)) (num_blocks (ga_desc a)) (nblock (ga_desc a))
                 (decode (nblock (ga_desc a)) p) (decode (num_blocks (ga_desc a)) k);
      Some (irreg_offset ts 1, init_ld (map i_size ts))
  | SCALAPACK =>
      do ld <- sl_lds (dims (ga_desc a)) (block_dims (ga_desc a)) (nblock (ga_desc a)) (decode (nblock (ga_desc a)) p);
      do off <- sl_block_offset (block_dims (ga_desc a)) (nblock (ga_desc a)) (decode (nblock (ga_desc a)) p)
                  (decode (num_blocks (ga_desc a)) k) ld 1;
      Some (off, ld)
  | _ => None
  end = Some (off, ld) ->
  access_block_ptr wn a k = Some (p, off, ld).
Proof.
  intros WB WG HG Hk HP E. destruct (grid_block a k WB WG Hk) as (q & Hq & H1 & H2 & H3 & H4 & H5 & _).
  assert (q = p) by congruence. subst q.
  unfold access_block_ptr. destruct (Z.ltb_spec k 0); [lia|]. destruct (Z.leb_spec (zprod (num_blocks (ga_desc a))) k); [lia|].
  cbn [orb]. destruct WG as (_ & HB & _).
  destruct (distr_type (ga_desc a)) eqn:ET; try discriminate; rewrite H2;
    unfold access_block_grid_ptr; rewrite H3, H4, H5, ET, E; unfold ptr_owner, abs_rank; rewrite HG; reflexivity.
Qed.

(** Blocks stored one after the other. *)
Lemma block_at a k p ld off :
  wf_blocks (ga_desc a) -> 0 <= k < zprod (num_blocks (ga_desc a)) ->
  block_home (ga_nproc a) (ga_desc a) k = Some p -> off = before a p k ->
  ld = init_ld (extents (fst (bx (ga_desc a) k)) (snd (bx (ga_desc a) k))) ->
  block_home (ga_nproc a) (ga_desc a) k = Some p /\ length (fst (bx (ga_desc a) k)) = S (length ld) /\
  forall x, in_box (fst (bx (ga_desc a) k)) (snd (bx (ga_desc a) k)) x ->
    block_place a x (p, off + lin ld (vsub x (fst (bx (ga_desc a) k)))).
Proof.
  intros WB Hk HP -> ->. split; [exact HP|]. split.
  { pose proof (bx_le _ k WB Hk) as HLE. destruct (bx_length _ k WB) as [L1 L2].
    assert (Hne : dims (ga_desc a) <> []) by (destruct WB as [(_ & H & _)|[(_ & H & _) _]]; exact H).
    rewrite init_ld_length, (proj1 (extents_pos _ _ HLE)), L1. destruct (dims (ga_desc a)); [congruence|cbn; lia]. }
  intros x Hx. exists k, (fst (bx (ga_desc a) k)), (snd (bx (ga_desc a) k)).
  split; [exact Hk|]. split; [rewrite bx_distribution by auto; destruct (bx (ga_desc a) k); reflexivity|].
  split; [exact Hx|]. split; [exact HP|]. cbn [fst snd]. unfold before. f_equal. apply init_ld_lin.
  apply extents_range in Hx. apply in_range0_length in Hx. exact Hx.
Qed.

Definition block_access (placed : list Z -> place -> Prop) (wn : Z) (a : garray) (k : Z) : Prop :=
  exists lo hi p off ld, distribution (ga_desc a) k = Some (lo, hi) /\
    access_block_ptr wn a k = Some (p, off, ld) /\
    block_home (ga_nproc a) (ga_desc a) k = Some p /\ length lo = S (length ld) /\
    forall x, in_box lo hi x -> placed x (p, off + lin ld (vsub x lo)).

Lemma access_irreg wn a k :
  distr_type (ga_desc a) = TILED_IRREG -> wf_strict_tiled_irreg (ga_desc a) -> wf_grid (ga_nproc a) (ga_desc a) ->
  ga_group a = None -> 0 <= k < zprod (num_blocks (ga_desc a)) ->
  block_access (block_place a) wn a k.
Proof.
  intros HT W WG HG Hk. assert (WB : wf_blocks (ga_desc a)) by (right; exact W).
  destruct (grid_block a k WB WG Hk) as (p & Hp & HP & _ & _ & _ & _ & R1 & R2 & HM).
  set (g := ga_desc a) in *. pose proof W as [(_ & _ & HV & _) _]. pose proof WG as (_ & _ & HLg & _).
  destruct (irreg_dims_spec (dims g) (mapc g) (num_blocks g) (nblock g) (decode (nblock g) p) (decode (num_blocks g) k))
    as (ts & E & ES & EO); auto.
  assert (HA : axes_of g = map_axes (dims g) (num_blocks g) (mapc g)) by (unfold axes_of; rewrite HT; reflexivity).
  exists (fst (bx g k)), (snd (bx g k)), p, (irreg_offset ts 1), (init_ld (map i_size ts)). fold g.
  split; [rewrite bx_distribution by auto; destruct (bx g k); reflexivity|]. split.
  - apply access_grid; auto. fold g. rewrite HT, E. reflexivity.
  - apply block_at; auto.
    + fold g. rewrite EO, before_partial, Z.mul_1_l by auto. rewrite <- HA. reflexivity.
    + rewrite ES. fold g. f_equal. unfold bx. cbn [fst snd]. rewrite blo_bhi_extents, HA; [reflexivity|].
      rewrite decode_length, <- (map_length an), HA, map_axes_an by auto. reflexivity.
Qed.

Lemma wf_blocked_lens g : valid_bdims (dims g) (block_dims g) -> is_block_grid (dims g) (block_dims g) (num_blocks g) ->
  length (bd_axes (dims g) (block_dims g)) = length (num_blocks g).
Proof.
  generalize (dims g) (block_dims g) (num_blocks g). intros ds. induction ds as [|d ds IH]; intros [|b bds] [|n nb]; cbn; try tauto.
  intros (_ & _ & HV) [_ HG]. f_equal. auto.
Qed.

Lemma access_tiled wn a k :
  distr_type (ga_desc a) = TILED -> wf_blocked (ga_desc a) -> wf_grid (ga_nproc a) (ga_desc a) ->
  Forall (fun n => n = 2) (nblock (ga_desc a)) ->
  ga_group a = None -> 0 <= k < zprod (num_blocks (ga_desc a)) ->
  block_access (block_place a) wn a k.
Proof.
  intros HT W WG H2 HG Hk. assert (WB : wf_blocks (ga_desc a)) by (left; exact W).
  destruct (grid_block a k WB WG Hk) as (p & Hp & HP & _ & _ & _ & _ & R1 & R2 & HM).
  set (g := ga_desc a) in *. pose proof W as (_ & _ & HV & HGr & _). pose proof WG as (_ & _ & HLg & _).
  destruct (tiled_dims_spec (dims g) (block_dims g) (num_blocks g) (nblock g) (decode (nblock g) p) (decode (num_blocks g) k))
    as (ts & E & ES & _ & EO); auto.
  assert (HA : axes_of g = bd_axes (dims g) (block_dims g)) by (unfold axes_of; rewrite HT; reflexivity).
  exists (fst (bx g k)), (snd (bx g k)), p, (tiled_offset ts 1), (init_ld (map t_size ts)). fold g.
  split; [rewrite bx_distribution by auto; destruct (bx g k); reflexivity|]. split.
  - apply access_grid; auto. fold g. rewrite HT, E. reflexivity.
  - apply block_at; auto.
    + fold g. rewrite EO, before_partial, Z.mul_1_l by auto. rewrite <- HA. reflexivity.
    + rewrite ES. fold g. f_equal. unfold bx. cbn [fst snd]. rewrite blo_bhi_extents, HA; [reflexivity|].
      rewrite decode_length, HA, wf_blocked_lens by auto. reflexivity.
Qed.

Lemma blo_bd ds bds idx : length idx = length ds -> length bds = length ds ->
  blo (bd_axes ds bds) idx = map (fun p => snd p * fst p + 1) (combine bds idx).
Proof.
  revert bds idx. induction ds as [|d ds IH]; intros [|b bds] [|i idx]; cbn [length]; try discriminate; [reflexivity|].
  intros H1 H2. cbn [bd_axes blo combine map fst snd bd_axis alo]. rewrite IH by lia. reflexivity.
Qed.

Lemma access_scalapack wn a k :
  distr_type (ga_desc a) = SCALAPACK -> wf_blocked (ga_desc a) -> wf_grid (ga_nproc a) (ga_desc a) ->
  ga_group a = None -> 0 <= k < zprod (num_blocks (ga_desc a)) ->
  block_access (scalapack_place a) wn a k.
Proof.
  intros HT W WG HG Hk. assert (WB : wf_blocks (ga_desc a)) by (left; exact W).
  destruct (grid_block a k WB WG Hk) as (p & Hp & HP & _ & _ & _ & _ & R1 & R2 & HM).
  set (g := ga_desc a) in *. pose proof W as (_ & Hne & HV & HGr & _). pose proof WG as (_ & _ & HLg & Hpos & HNp).
  destruct (sl_lds_spec (dims g) (block_dims g) (nblock g) (decode (nblock g) p)) as (ld & EL & LL & KL & OL); auto.
  assert (HA : axes_of g = bd_axes (dims g) (block_dims g)) by (unfold axes_of; rewrite HT; reflexivity).
  destruct (sl_pos a WB) as [Hnb HLb]. fold g in Hnb, HLb.
  assert (Hin : Forall (fun i => 0 <= i) (decode (num_blocks g) k)) by (eapply in_range0_nonneg; eauto).
  assert (LBd : length (block_dims g) = length (dims g)).
  { clear - HV. revert HV. generalize (block_dims g). induction (dims g) as [|d ds IH]; intros [|b bs]; cbn; try tauto.
    intros (_ & _ & H). f_equal. auto. }
  assert (LD : length (decode (num_blocks g) k) = length (dims g)) by (rewrite decode_length; exact HLb).
  specialize (OL (decode (num_blocks g) k) 1 LD Hin HM). rewrite <- (blo_bd (dims g)) in OL by auto.
  rewrite <- HA in OL. change (blo (axes_of g) (decode (num_blocks g) k)) with (fst (bx g k)) in OL. rewrite Z.mul_1_l in OL.
  eexists (fst (bx g k)), (snd (bx g k)), p, _, ld. fold g.
  split; [rewrite bx_distribution by auto; destruct (bx g k); reflexivity|]. split.
  - apply access_grid; auto. fold g. rewrite HT, EL, OL. reflexivity.
  - split; [exact HP|]. split.
    { destruct (bx_length g k WB) as [L1 _]. rewrite L1, LL. destruct (dims g); [congruence|cbn; lia]. }
    intros x Hx. pose proof (bx_le g k WB Hk) as HLE. pose proof (lo_in_box _ _ HLE) as Hlo.
    destruct (in_box_len _ _ _ Hx) as [X1 X2]. destruct (bx_length g k WB) as [L1 L2].
    assert (GC : grid_coords (block_dims g) (nblock g) x = decode (nblock g) p).
    { rewrite <- HM. apply (grid_coords_block (dims g)); auto. unfold in_block. rewrite <- HA. exact Hx. }
    unfold scalapack_place. fold g. cbv zeta. rewrite GC. cbn [fst snd].
    split; [eapply bx_inside; eauto|]. split; [exact R1|]. split.
    { rewrite lin_encode by (rewrite decode_length; reflexivity). rewrite encode_decode; auto. lia. }
    rewrite KL by (rewrite vsub_length; lia).
    rewrite (local_coords_shift (dims g) (block_dims g) (nblock g) (decode (num_blocks g) k) x (fst (bx g k))); auto.
    2:{ unfold in_block. rewrite <- HA. exact Hx. }
    2:{ unfold in_block. rewrite <- HA. exact Hlo. }
    rewrite lin_add; [ring|]. rewrite local_coords_length, vsub_length by lia. lia.
Qed.

Lemma access_bc a k :
  distr_type (ga_desc a) = BLOCK_CYCLIC -> wf_blocked (ga_desc a) -> ga_group a = None ->
  1 <= ga_nproc a -> 0 <= k < zprod (num_blocks (ga_desc a)) ->
  block_access (block_place a) (ga_nproc a) a k.
Proof.
  intros HT W HG HN Hk. assert (WB : wf_blocks (ga_desc a)) by (left; exact W). set (g := ga_desc a) in *.
  assert (HM : 0 <= k mod ga_nproc a < ga_nproc a) by (apply Z.mod_pos_bound; lia).
  assert (HP : block_home (ga_nproc a) g k = Some (k mod ga_nproc a)) by (apply bc_home_mod; auto; lia).
  exists (fst (bx g k)), (snd (bx g k)), (k mod ga_nproc a), (before a (k mod ga_nproc a) k),
    (init_ld (extents (fst (bx g k)) (snd (bx g k)))). fold g.
  split; [rewrite bx_distribution by auto; destruct (bx g k); reflexivity|]. split.
  - unfold access_block_ptr. fold g. destruct (Z.ltb_spec k 0); [lia|]. destruct (Z.leb_spec (zprod (num_blocks g)) k); [lia|].
    cbn [orb]. rewrite HT. unfold cmod. destruct (Z.eqb_spec (ga_nproc a) 0); [lia|]. rewrite Z.rem_mod_nonneg by lia.
    destruct (strided_mod (ga_nproc a) k (k mod ga_nproc a) HN HM) as (js & E & S & HI). rewrite E.
    rewrite owned_size_spec; auto.
    2:{ intros j Hj. apply HI in Hj. fold g. lia. }
    unfold ptr_owner, abs_rank. rewrite HG, bx_owns by auto. do 3 f_equal.
    unfold before. rewrite sizes_before_sum. fold g. do 2 f_equal.
    apply sorted_unique; [exact S|apply filter_sorted, zseq_sorted|].
    intros j. rewrite HI, filter_In, zseq_In. split.
    + intros [H1 H2]. split; [lia|]. unfold g. rewrite bc_home_mod by (auto; lia). fold g. rewrite H2. apply Z.eqb_refl.
    + intros [H1 H2]. split; [lia|]. unfold g in H2. rewrite bc_home_mod in H2 by (auto; lia). apply Z.eqb_eq in H2. exact H2.
  - apply block_at; auto.
Qed.

(** ---- map-distributed arrays ---- *)
Lemma le_all_true lo hi : length lo = length hi -> (le_all lo hi = true <-> Forall2 Z.le lo hi).
Proof.
  revert hi. induction lo as [|l lo IH]; intros [|h hi] HL; try discriminate; cbn.
  - split; constructor.
  - rewrite andb_true_iff, IH by (cbn in HL; lia). split.
    + intros [H1 H2]. constructor; [lia|exact H2].
    + intros H. inversion H; subst. split; [lia|assumption].
Qed.

Lemma find_pos_spec l w i k : NoDup l -> zget l k = Some w -> find_pos l w i = Some (i + k).
Proof.
  intros HN. revert i k. induction HN as [|x l Hx HN IH]; intros i k E.
  - apply zget_inv in E. cbn in E. lia.
  - cbn [find_pos]. destruct (Z.eqb_spec x w) as [->|Hne].
    + destruct (Z.eq_dec k 0) as [->|Hk]; [f_equal; lia|]. exfalso. apply Hx.
      pose proof (zget_inv _ _ _ E) as X. destruct (Z_lt_ge_dec k 0); [lia|].
      rewrite zget_cons in E by lia. unfold zget in E. destruct (k - 1 <? 0); [discriminate|]. apply nth_error_In in E. exact E.
    + destruct (Z.eq_dec k 0) as [->|Hk]; [rewrite zget_0 in E; congruence|].
      destruct (Z_lt_ge_dec k 0); [rewrite zget_neg in E by lia; discriminate|].
      rewrite zget_cons in E by lia. rewrite (IH (i + 1) _ E). f_equal. lia.
Qed.

Lemma grp_rank_abs a p w : wf_group a -> abs_rank a p = Some w -> grp_rank a w = Some p.
Proof.
  unfold wf_group, abs_rank, grp_rank. destruct (ga_group a) as [l|]; [|congruence].
  intros [HN _] E. rewrite (find_pos_spec _ _ 0 _ HN E). f_equal.
Qed.

Lemma corner_owner_in guess near a x p lo hi w :
  good_guess guess -> wf_array a -> 0 <= p < ga_nproc a ->
  distribution (ga_desc a) p = Some (lo, hi) -> in_box lo hi x -> abs_rank a p = Some w -> near w = true ->
  corner_owner guess near a x = Some w.
Proof.
  intros HG (W & _) Hp E Hx EA HN. unfold corner_owner.
  destruct (regular_blocks_inside _ _ _ W Hp) as (l1 & h1 & E1 & HI). rewrite E in E1. injection E1 as <- <-.
  pose proof (HI _ Hx) as HX.
  destruct (locate_in guess _ _ _ HG W HX) as (q & l2 & h2 & EL & Hq & E2 & Hx2). rewrite EL.
  destruct (regular_unique_owner _ _ _ W HX) as (o & _ & _ & HU).
  assert (p = o) by (eapply HU; eauto; exists lo, hi; auto). assert (q = o) by (eapply HU; eauto; exists l2, h2; auto).
  subst. rewrite EA, HN. reflexivity.
Qed.

Lemma in_box_convex blo bhi lo hi x : in_box blo bhi lo -> in_box blo bhi hi -> in_box lo hi x -> in_box blo bhi x.
Proof.
  revert bhi lo hi x. induction blo as [|l blo IH]; intros [|h bhi] [|a lo] [|b hi] [|x xs]; cbn; try tauto.
  intros [H1 H2] [H3 H4] [H5 H6]. split; [lia|]. exact (IH _ _ _ _ H2 H4 H6).
Qed.

Lemma access_ptr_spec guess near a lo hi p blo bhi w :
  good_guess guess -> wf_array a -> 0 <= p < ga_nproc a ->
  distribution (ga_desc a) p = Some (blo, bhi) -> in_box blo bhi lo -> in_box blo bhi hi -> Forall2 Z.le lo hi ->
  abs_rank a p = Some w -> near w = true ->
  exists off ld, access_ptr guess near a lo hi = Some (w, off, ld) /\
    forall x, in_box lo hi x -> reg_place a x (w, off + lin ld (vsub x lo)).
Proof.
  intros HG WA Hp ED Hlo Hhi Hle EA HN. unfold access_ptr.
  rewrite (corner_owner_in guess near a lo p blo bhi w) by auto.
  rewrite (corner_owner_in guess near a hi p blo bhi w) by auto.
  rewrite (proj2 (le_all_true lo hi (Forall2_len _ _ _ Hle)) Hle).
  pose proof WA as (WR & HW & HW0 & HGr & HE). rewrite (grp_rank_abs a p w HGr EA).
  destruct (reg_location a p blo bhi lo WA Hp ED Hlo) as (rank & q & ld & E1 & E2 & E3 & E4).
  assert (q = w) by congruence. subst q.
  assert (ER : (if 0 <? num_rstrctd (ga_desc a) then zget (rank_rstrctd (ga_desc a)) p else Some p) = Some rank).
  { assert (0 <= num_rstrctd (ga_desc a)) by (unfold num_rstrctd; lia).
    destruct (Z.eqb_spec (num_rstrctd (ga_desc a)) 0), (Z.ltb_spec 0 (num_rstrctd (ga_desc a))); try lia; exact E1. }
  rewrite ER, E3. eexists _, _. split; [reflexivity|].
  intros x Hx. exists p, blo, bhi. split; [exact Hp|]. split; [exact ED|].
  destruct (in_box_len _ _ _ Hx) as [X1 X2]. destruct (in_box_len _ _ _ Hlo) as [L1 L2].
  split; [|split; [exact EA|]].
  - exact (in_box_convex _ _ _ _ _ Hlo Hhi Hx).
  - cbn [snd]. rewrite E4 by (rewrite vsub_length; lia).
    pose proof (dist_dims _ _ _ _ _ WR Hp ED lo Hlo) as LD.
    rewrite <- lin_add by (rewrite !vadd_length, !vsub_length; rewrite ?vsub_length; lia).
    rewrite vsub_chain by lia. reflexivity.
Qed.

(** Conversely the call succeeds only for a patch inside one block. *)
Lemma loc_loop_in sub lo hi w f r : loc_loop sub lo hi w f = Some r -> in_box lo hi sub.
Proof.
  revert lo hi w f r. induction sub as [|s sub IH]; intros [|l lo] [|h hi] [|a w] f r; try discriminate;
    try (destruct sub; discriminate); try (destruct sub, lo; discriminate); try (destruct sub, lo, hi; discriminate).
  destruct sub as [|s' sub].
  - destruct lo, hi, w; cbn [loc_loop]; destruct (_ || _) eqn:E; try discriminate. intros _. cbn. lia.
  - intros H. assert (E : (s <? l) || (h <? s) = false).
    { destruct ((s <? l) || (h <? s)) eqn:E; [|reflexivity]. cbn [loc_loop] in H. rewrite E in H. discriminate. }
    assert (X : exists r', loc_loop (s' :: sub) lo hi w (f * (h - l + 1 + 2 * a)) = Some r').
    { change (loc_loop (s :: s' :: sub) (l :: lo) (h :: hi) (a :: w) f) with
        (if (s <? l) || (h <? s) then None else
         do r <- loc_loop (s' :: sub) lo hi w (f * (h - l + 1 + 2 * a));
         Some ((s - l + a) * f + fst r, h - l + 1 + 2 * a :: snd r)) in H. rewrite E in H.
      destruct (loc_loop (s' :: sub) lo hi w (f * (h - l + 1 + 2 * a))); [eauto|discriminate]. }
    destruct X as (r' & X). cbn [in_box]. split; [lia|]. eapply IH; eauto.
Qed.

Lemma access_ptr_only guess near a lo hi w off ld :
  good_guess guess -> wf_array a -> length lo = length hi ->
  access_ptr guess near a lo hi = Some (w, off, ld) ->
  exists p blo bhi, 0 <= p < ga_nproc a /\ distribution (ga_desc a) p = Some (blo, bhi) /\
    in_box blo bhi lo /\ in_box blo bhi hi /\ Forall2 Z.le lo hi /\ abs_rank a p = Some w /\ near w = true.
Proof.
  intros HG WA HL. pose proof WA as (WR & HW & HW0 & HGr & HE). unfold access_ptr.
  destruct (corner_owner guess near a lo); [|discriminate].
  destruct (corner_owner guess near a hi) as [w'|] eqn:EC; [|discriminate].
  destruct (le_all lo hi) eqn:EL; [|discriminate]. apply le_all_true in EL; auto.
  unfold corner_owner in EC.
  destruct (locate guess (ga_desc a) hi) as [[p|]|] eqn:ELo; try discriminate.
  destruct (abs_rank a p) as [w''|] eqn:EA; [|discriminate]. destruct (near w'') eqn:EN; [|discriminate].
  injection EC as ->.
  assert (HX : in_array (dims (ga_desc a)) hi).
  { pose proof WR as (HT & _).
    destruct (sub_in_range (dims (ga_desc a)) hi) eqn:ES; [apply sub_in_range_spec; exact ES|].
    rewrite locate_out in ELo; [discriminate|exact HT|]. rewrite <- sub_in_range_spec. congruence. }
  destruct (locate_in guess _ _ _ HG WR HX) as (q & blo & bhi & EL2 & Hq & ED & Hhi).
  assert (q = p) by congruence. subst q.
  rewrite (grp_rank_abs a p w' HGr EA).
  destruct (reg_location a p blo bhi hi WA Hq ED Hhi) as (rank & q & ld' & E1 & E2 & E3 & E4).
  assert (ER : (if 0 <? num_rstrctd (ga_desc a) then zget (rank_rstrctd (ga_desc a)) p else Some p) = Some rank).
  { assert (0 <= num_rstrctd (ga_desc a)) by (unfold num_rstrctd; lia).
    destruct (Z.eqb_spec (num_rstrctd (ga_desc a)) 0), (Z.ltb_spec 0 (num_rstrctd (ga_desc a))); try lia; exact E1. }
  rewrite ER. intros H.
  assert (EO : owns (ga_desc a) rank = Some (blo, bhi)).
  { unfold distribution in ED. rewrite ER in ED. exact ED. }
  unfold location in H, E3. rewrite EO in H, E3. cbn [fst snd] in H, E3.
  destruct (loc_loop hi blo bhi (ga_width a) 1); [|discriminate].
  destruct (loc_loop lo blo bhi (ga_width a) 1) eqn:EL3; [|discriminate].
  destruct (if num_rstrctd (ga_desc a) =? 0 then Some rank else zget (rstrctd_list (ga_desc a)) rank) as [pv|]; [|discriminate].
  destruct (ptr_owner a pv) as [sg|]; [|discriminate].
  exists p, blo, bhi. split; [exact Hq|]. split; [exact ED|]. split; [eapply loc_loop_in; eauto|].
  split; [exact Hhi|]. split; [exact EL|]. assert (w = w') by congruence. subst w'. auto.
Qed.

Lemma access_idx_unrestricted guess near a lo hi : rstrctd_list (ga_desc a) = [] ->
  access_idx guess near a lo hi = access_ptr guess near a lo hi.
Proof. intros E. unfold access_idx, access_ptr, num_rstrctd. rewrite E. reflexivity. Qed.
