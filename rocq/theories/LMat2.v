(** Lemmas: products of matrices, block-distributed arrays. *)
From Verif Require Import LRadix LDist LStrided LStrided2 LIterReg LIterReg3 LIterSca LStore LXfer LXfer2 LLoc LAccess LSelect LSelect2 LOdo LGcopy2 LGcopy3 LGcopy4 LGcopy5 LCpatch LPw LPw2 SpecDiag.
From Verif Require Export LMat.
Open Scope Z_scope.

(** ---- chunks by number ---- *)
Definition kch (k r i : Z) : Z * Z := (i * r, Z.min (k - 1) (i * r + r - 1)).
Lemma chunk_loop_kch fuel : forall s n c num, 1 <= c -> (Z.to_nat (n - s * c) <= fuel)%nat -> s <= num -> (num - 1) * c < n <= num * c \/ (num = s /\ n <= s * c) ->
  chunk_loop fuel (s * c) n c = map (kch n c) (zseq s (Z.to_nat (num - s))).
Proof.
  induction fuel as [|f IH]; intros s n c num Hc Hf Hs Hn; cbn [chunk_loop].
  - assert (n <= s * c) by lia. assert (num = s) by nia. subst. rewrite Z.sub_diag. reflexivity.
  - destruct (Z.ltb_spec (s * c) n).
    + assert (num <> s) by (intros ->; lia). replace (Z.to_nat (num - s)) with (S (Z.to_nat (num - (s + 1)))) by lia. cbn [zseq map]. f_equal.
      replace (s * c + c) with ((s + 1) * c) by lia. apply IH; [lia|lia|lia|].
      destruct Hn as [Hn|Hn]; [|lia]. destruct (Z.eq_dec num (s + 1)) as [->|]; [right; lia|left; lia].
    + assert (num = s) by nia. subst. rewrite Z.sub_diag. reflexivity.
Qed.
Lemma chunks_kch n c num : 1 <= c -> 1 <= n -> (num - 1) * c < n <= num * c -> chunks n c = map (kch n c) (counts num).
Proof.
  intros Hc Hn H. assert (1 <= num) by nia. unfold chunks. rewrite counts_zseq.
  pose proof (chunk_loop_kch (Z.to_nat n) 0 n c num) as X. rewrite Z.mul_0_l, Z.sub_0_r in X. rewrite X; [f_equal; f_equal; lia|lia|lia|lia|now left].
Qed.
(** The order in which a block visits the chunks. *)
Lemma rotated num s : 0 <= s -> 1 <= num -> Permutation (map (fun nb => (s + nb) mod num) (counts num)) (counts num).
Proof.
  intros Hs Hn. apply NoDup_Permutation_bis.
  - apply NoDup_map_inj; [|rewrite counts_zseq; apply zseq_NoDup]. intros x y Hx Hy E. apply counts_In in Hx, Hy.
    assert (X : (x - y) mod num = 0).
    { replace (x - y) with ((s + x) - (s + y)) by lia. rewrite Zminus_mod, E, Z.sub_diag. apply Z.mod_0_l. lia. }
    apply Z.mod_divide in X; [|lia]. destruct X as (d & X). assert (d = 0) by nia. nia.
  - rewrite map_length. reflexivity.
  - intros y Hy. apply in_map_iff in Hy as (x & <- & _). apply counts_In. apply Z.mod_pos_bound. lia.
Qed.
Lemma flat_one {A B} (g : A -> list B) l : forall k p, nth_error l k = Some p ->
  (forall k' p', nth_error l k' = Some p' -> k' <> k -> g p' = []) -> flat_map g l = g p.
Proof.
  induction l as [|a l IH]; intros k p Hk H; [destruct k; discriminate|]. cbn [flat_map]. destruct k as [|k].
  - injection Hk as ->. rewrite flat_map_nil; [apply app_nil_r|]. intros x Hx. apply In_nth_error in Hx as (i & Hi). apply (H (S i)); [exact Hi|lia].
  - rewrite (H O a eq_refl) by lia. cbn [app]. apply (IH k p Hk). intros k' p' H1 H2. apply (H (S k')); [exact H1|lia].
Qed.

(** ---- a block of C ---- *)
Definition block_moves (seg off ld l0 l1 h0 h1 : Z) : list (place * Z) :=
  flat_map (fun j => map (fun i => ((seg, off + (i + ld * j)), i + j * (h0 - l0 + 1))) (counts (h0 - l0 + 1))) (counts (h1 - l1 + 1)).
Lemma block_moves_ok (placed : list Z -> place -> Prop) seg off ld lds l0 l1 h0 h1 : l0 <= h0 -> l1 <= h1 ->
  (forall x, in_box [l0; l1] [h0; h1] x -> placed x (seg, off + lin (ld :: lds) (vsub x [l0; l1]))) ->
  region_transfers placed [l0; l1] [h0; h1] [h0 - l0 + 1] (block_moves seg off ld l0 l1 h0 h1).
Proof.
  intros H0 H1 HP.
  exists (flat_map (fun j => map (fun i => (((seg, off + (i + ld * j)), i + j * (h0 - l0 + 1)), [l0 + i; l1 + j])) (counts (h0 - l0 + 1))) (counts (h1 - l1 + 1))).
  split; [|split].
  - unfold block_moves. induction (counts (h1 - l1 + 1)) as [|j js IH]; [reflexivity|]. cbn [flat_map]. rewrite map_app, map_map. f_equal. exact IH.
  - match goal with |- Permutation ?u ?v => assert (E : u = v); [|rewrite E; apply Permutation_refl] end.
    cbn [box_list]. cbn [flat_map]. rewrite app_nil_r. rewrite (zseq_seq l1), flat_map_map. unfold counts at 2. rewrite flat_map_map.
    induction (seq 0 (Z.to_nat (h1 - l1 + 1))) as [|j js IH]; [reflexivity|]. cbn [flat_map map]. rewrite map_app. f_equal; [|exact IH].
    rewrite map_map. unfold counts. rewrite map_map, (zseq_seq l0), map_map. reflexivity.
  - intros t x Hin. apply in_flat_map in Hin as (j & Hj & Hin). apply in_map_iff in Hin as (i & E & Hi). injection E as <- <-.
    apply counts_In in Hi, Hj. cbn [fst snd]. split.
    + pose proof (HP [l0 + i; l1 + j] ltac:(cbn; lia)) as X. cbn [vsub lin] in X. replace (l0 + i - l0) with i in X by lia. replace (l1 + j - l1) with j in X by lia. exact X.
    + rewrite (region_lin l0 l1 h0 []). reflexivity.
Qed.

Lemma concat2 {A} (l : list (list (list A))) : concat (concat l) = concat (map (@concat A) l).
Proof. induction l as [|x l IH]; [reflexivity|]. cbn [concat map]. now rewrite concat_app, IH. Qed.

Section Block.
Context {V : Type} (radd rmul : V -> V -> V) (zero : V) (conj : V -> V) (junk : V).
Variables (guess : Z -> Z -> Z -> Z) (wn : Z) (smp : Z -> bool) (rnda rndb : list Z -> Z -> Z -> Z).
Variables (alpha : V) (a b c : garray) (pa pb pc : list Z -> place -> Prop) (sha shb shc : list Z -> Prop).
Variables (da1 da2 db1 db2 m n : Z) (ma mb : heap V) (A B : list Z -> V).
Variables (a1 b0 k : Z).
Hypothesis HG : good_guess guess.
Hypothesis (RA : forall t u i, 0 <= rnda t u i) (RB : forall t u i, 0 <= rndb t u i).
Hypothesis (LA : any_layout a wn pa sha) (LB : any_layout b wn pb shb).
Hypothesis (SA : small_local a sha) (SB : small_local b shb).
Hypothesis (DA : dims (ga_desc a) = [da1; da2]) (DB : dims (ga_desc b) = [db1; db2]).
Hypothesis (AA : allocated pa ma) (AB : allocated pb mb) (HA : holds [da1; da2] pa ma A) (HB : holds [db1; db2] pb mb B).
Hypothesis (Hk : 1 <= k) (PA : 1 <= a1 /\ a1 + k - 1 <= da2 /\ m <= da1) (PB : 1 <= b0 /\ b0 + k - 1 <= db1 /\ n <= db2).

Section One.
Variables (l0 l1 h0 h1 ld : Z) (lds : list Z) (seg off : Z).
Let q := LPiece [l0; l1] [h0; h1] seg off (ld :: lds).
Let r := h0 - l0 + 1.
Let jd := h1 - l1 + 1.
Hypothesis (Q0 : 1 <= l0 <= h0) (Q1 : h0 <= m) (Q2 : 1 <= l1 <= h1) (Q3 : h1 <= n).
Hypothesis (QS : r <= jd \/ k <= jd) (Qa : ga_elemsize a * (r * jd) <= int_max) (Qb : ga_elemsize b * (r * jd) <= int_max).
Hypothesis (QP : forall x, in_box [l0; l1] [h0; h1] x -> pc x (seg, off + lin (ld :: lds) (vsub x [l0; l1]))).

Definition pair_value (kc : Z * Z) (x y : Z) : V :=
  rmul alpha (sum radd zero (len kc) (fun l => rmul (A [x; a1 + (fst kc + l)]) (B [b0 + (fst kc + l); y]))).
Definition pair_ok (kc : Z * Z) (ot : region_op V * list (place * Z)) : Prop :=
  o_lo (fst ot) = [l0; l1] /\ o_hi (fst ot) = [h0; h1] /\ o_ld (fst ot) = [r] /\ region_transfers pc [l0; l1] [h0; h1] [r] (snd ot) /\
  forall x y, in_box [l0; l1] [h0; h1] [x; y] -> buf_at (o_buf (fst ot)) [l0; l1] [r] [x; y] = Some (pair_value kc x y).

Lemma basic_pair_ok num istart nb : 0 <= istart -> 0 <= nb < num -> (num - 1) * r < k <= num * r ->
  exists ot f0, pair_ok (kch k r ((istart + nb) mod num)) ot /\ forall fuel, (f0 <= fuel)%nat ->
    basic_pair radd rmul zero conj junk fuel guess wn smp rnda rndb opN opN alpha a b ma mb [1; a1] [m; a1 + k - 1] [b0; 1] [b0 + k - 1; n] q num istart nb
    = Some (op_events [ot]).
Proof.
  intros Hi Hnb Hnum. unfold basic_pair, q. cbn [lp_lo lp_hi lp_ld lp_seg lp_off].
  assert (EI : cmod (istart + nb) num = Some ((istart + nb) mod num)).
  { unfold cmod. rewrite (proj2 (Z.eqb_neq num 0)) by lia. rewrite Z.rem_mod_nonneg by lia. reflexivity. }
  rewrite EI. set (i := (istart + nb) mod num) in *. assert (Hi' : 0 <= i < num) by (apply Z.mod_pos_bound; lia).
  assert (R1 : 1 <= r) by (unfold r; lia). assert (I1 : 0 <= i * r) by (apply Z.mul_nonneg_nonneg; lia).
  assert (I2 : i * r <= (num - 1) * r) by (apply Z.mul_le_mono_nonneg_r; lia).
  change (zget [l0; l1] 0) with (Some l0). change (zget [l0; l1] 1) with (Some l1). change (zget [h0; h1] 0) with (Some h0). change (zget [h0; h1] 1) with (Some h1).
  change (zget (ld :: lds) 0) with (Some ld). change (zget [1; a1] 1) with (Some a1). change (zget [m; a1 + k - 1] 1) with (Some (a1 + k - 1)).
  change (zget [b0; 1] 0) with (Some b0). change (zget [b0 + k - 1; n] 0) with (Some (b0 + k - 1)). cbv beta iota. fold r.
  set (kc := kch k r i). assert (Ekc : len kc = Z.min (k - 1) (i * r + r - 1) - i * r + 1) by reflexivity.
  assert (L1 : 1 <= len kc <= r) by lia. assert (L2 : len kc <= jd \/ len kc <= jd) by lia.
  assert (MA : r * len kc <= r * jd) by (apply Z.mul_le_mono_nonneg_l; lia).
  assert (MB : len kc * jd <= r * jd) by (apply Z.mul_le_mono_nonneg_r; unfold jd in *; lia).
  destruct (get_region conj junk guess wn smp a pa sha da1 da2 ma A HG LA SA DA AA HA (rnda [l0; l1] nb) l0 h0 (a1 + i * r) (Z.min (a1 + k - 1) (a1 + i * r + (h0 - l0))) [] (r * jd))
    as (bufa & fa & Ea & Xa); auto; try lia.
  all: try (fold r; replace (Z.min (a1 + k - 1) (a1 + i * r + (h0 - l0)) - (a1 + i * r) + 1) with (len kc) by (unfold r in *; lia)).
  all: try exact MA.
  all: try (eapply Z.le_trans; [|exact Qa]; apply Z.mul_le_mono_nonneg_l; [destruct SA; lia|exact MA]).
  set (nbh := Z.min (b0 + k - 1) (b0 + i * r + (h0 - l0))). assert (EN : nbh - (b0 + i * r) + 1 = len kc) by (unfold nbh, r in *; lia).
  destruct (get_region conj junk guess wn smp b pb shb db1 db2 mb B HG LB SB DB AB HB (rndb [l0; l1] nb) (b0 + i * r) nbh l1 h1 [] (r * jd))
    as (bufb & fb & Eb & Xb); auto; try lia.
  all: try (rewrite EN).
  all: try exact MB.
  all: try (eapply Z.le_trans; [|exact Qb]; apply Z.mul_le_mono_nonneg_l; [destruct SB; lia|exact MB]).
  set (g := gemm_buf radd rmul zero conj opN opN alpha r jd (len kc) bufa r bufb (len kc)).
  exists (RegionOp [l0; l1] [h0; h1] [r] g, block_moves seg off ld l0 l1 h0 h1), (Nat.max fa fb). split.
  - unfold pair_ok. cbn [fst snd o_lo o_hi o_ld o_buf]. do 3 (split; [reflexivity|]). split; [apply (block_moves_ok pc seg off ld lds); auto; lia|].
    intros x y Hxy. cbn in Hxy. unfold buf_at. replace [x; y] with [l0 + (x - l0); l1 + (y - l1)] by (f_equal; [lia|f_equal; lia]).
    unfold r at 1. rewrite region_lin. fold r. unfold g.
    pose proof (gemm_buf_ok radd rmul zero conj opN opN alpha bufa bufb r jd (len kc)
      (fun x l => A [l0 + x; a1 + (i * r + l)]) (fun l y => B [b0 + (i * r + l); l1 + y]) (x - l0) (y - l1)) as G. cbn [is_n] in G. rewrite G.
    + unfold pair_value. replace (l0 + (x - l0)) with x by lia. replace (l1 + (y - l1)) with y by lia. reflexivity.
    + intros u l Hu Hl. exists (A [l0 + u; a1 + (i * r + l)]). split; [|reflexivity].
      fold r in Xa. rewrite Xa; [f_equal; f_equal; f_equal; f_equal; lia|unfold r in *; lia|unfold r in *; lia].
    + intros l v Hl Hv. exists (B [b0 + (i * r + l); l1 + v]). split; [|reflexivity].
      rewrite EN in Xb. rewrite Xb; [f_equal; f_equal; f_equal; lia|lia|unfold jd in *; lia].
    + unfold r in *; lia.
    + unfold jd; lia.
  - intros fuel Hf. specialize (Ea fuel ltac:(lia)). specialize (Eb fuel ltac:(lia)). fold r in Ea. fold jd. rewrite EN in Eb.
    destruct (transfers fuel guess (rnda [l0; l1] nb) wn smp a _ _ _) as [ta|]; [|discriminate]. rewrite Ea.
    try fold nbh. destruct (transfers fuel guess (rndb [l0; l1] nb) wn smp b _ _ _) as [tb|]; [|discriminate]. rewrite Eb.
    unfold op_events. cbn [flat_map fst snd o_buf]. rewrite app_nil_r. f_equal. unfold block_moves, g, jd, r.
    induction (counts (h1 - l1 + 1)) as [|j js IH]; [reflexivity|]. cbn [flat_map]. rewrite map_app, map_map. f_equal. exact IH.
Qed.

Lemma basic_block_ok c1 : exists ots f0 num s, 0 <= s /\ 1 <= num /\ chunks k r = map (kch k r) (counts num) /\
  Forall2 (fun nb ot => pair_ok (kch k r ((s + nb) mod num)) ot) (counts num) ots /\
  forall fuel, (f0 <= fuel)%nat ->
    basic_block radd rmul zero conj junk fuel guess wn smp rnda rndb opN opN alpha a b ma mb [1; a1] [m; a1 + k - 1] [b0; 1] [b0 + k - 1; n] [1; c1] q = Some (op_events ots).
Proof.
  assert (R1 : 1 <= r) by (unfold r; lia). unfold basic_block, q. cbn [lp_lo lp_hi lp_ld lp_seg lp_off].
  change (zget [l0; l1] 0) with (Some l0). change (zget [h0; h1] 0) with (Some h0).
  change (zget [1; a1] 1) with (Some a1). change (zget [m; a1 + k - 1] 1) with (Some (a1 + k - 1)). change (zget [1; c1] 0) with (Some 1). cbv beta iota. fold r.
  replace (a1 + k - 1 - a1 + 1) with k by lia. unfold cdiv. rewrite (proj2 (Z.eqb_neq r 0)) by lia.
  rewrite !Z.quot_div_nonneg by lia. set (num := if k / r * r <? k then k / r + 1 else k / r).
  assert (HN : (num - 1) * r < k <= num * r).
  { unfold num. pose proof (Z.mul_div_le k r ltac:(lia)). pose proof (Z.mul_succ_div_gt k r ltac:(lia)). destruct (Z.ltb_spec (k / r * r) k); nia. }
  assert (H1 : 1 <= num) by nia. assert (HS : 0 <= (l0 - 1) / r) by (apply Z.div_pos; lia).
  destruct (mapM_fuel (fun fuel nb => basic_pair radd rmul zero conj junk fuel guess wn smp rnda rndb opN opN alpha a b ma mb [1; a1] [m; a1 + k - 1] [b0; 1] [b0 + k - 1; n]
       (LPiece [l0; l1] [h0; h1] seg off (ld :: lds)) num ((l0 - 1) / r) nb)
      (fun nb es => exists ot, es = op_events [ot] /\ pair_ok (kch k r (((l0 - 1) / r + nb) mod num)) ot) (counts num)) as (ess & f0 & E & F).
  { intros nb Hnb. apply counts_In in Hnb. destruct (basic_pair_ok num ((l0 - 1) / r) nb HS Hnb HN) as (ot & f & P & E).
    exists (op_events [ot]), f. split; [exact E|]. eauto. }
  assert (X : exists ots, concat ess = op_events ots /\ Forall2 (fun nb ot => pair_ok (kch k r (((l0 - 1) / r + nb) mod num)) ot) (counts num) ots).
  { clear - F. induction F as [|nb es l ess (ot & -> & P) F IH]; [exists []; split; [reflexivity|constructor]|].
    destruct IH as (ots & E & FF). exists (ot :: ots). split; [|constructor; auto]. cbn [concat]. rewrite E.
    change (ot :: ots) with ([ot] ++ ots). now rewrite op_events_app. }
  destruct X as (ots & EC & FF). exists ots, f0, num, ((l0 - 1) / r). split; [exact HS|]. split; [exact H1|].
  split; [apply chunks_kch; auto|]. split; [exact FF|]. intros fuel Hf. specialize (E fuel Hf). cbv beta in E.
  change (mapM (fun nb => basic_pair radd rmul zero conj junk fuel guess wn smp rnda rndb opN opN alpha a b ma mb [1; a1] [m; a1 + k - 1] [b0; 1] [b0 + k - 1; n]
       {| lp_lo := [l0; l1]; lp_hi := [h0; h1]; lp_seg := seg; lp_off := off; lp_ld := ld :: lds |} num ((l0 - 1) / r) nb) (counts num))
    with (mapM (basic_pair radd rmul zero conj junk fuel guess wn smp rnda rndb opN opN alpha a b ma mb [1; a1] [m; a1 + k - 1] [b0; 1] [b0 + k - 1; n]
       {| lp_lo := [l0; l1]; lp_hi := [h0; h1]; lp_seg := seg; lp_off := off; lp_ld := ld :: lds |} num ((l0 - 1) / r)) (counts num)) in E.
  rewrite E, EC. reflexivity.
Qed.

Hypothesis SR : semiring radd rmul zero.
(** What a block of C receives. *)
Lemma block_value num s ots : 0 <= s -> 1 <= num -> chunks k r = map (kch k r) (counts num) ->
  Forall2 (fun nb ot => pair_ok (kch k r ((s + nb) mod num)) ot) (counts num) ots ->
  forall x y, in_box [l0; l1] [h0; h1] [x; y] ->
    fold_left radd (contributions (map fst ots) [x; y]) zero = rmul alpha (product radd rmul zero conj opN opN A B 1 a1 b0 1 k (x - 1) (y - 1)).
Proof.
  intros Hs Hn EC F x y Hxy.
  assert (E : contributions (map fst ots) [x; y] = map (fun nb => pair_value (kch k r ((s + nb) mod num)) x y) (counts num)).
  { clear EC. induction F as [|nb ot l ots' P F IH]; [reflexivity|]. cbn [map contributions flat_map]. fold (contributions (map fst ots') [x; y]).
    rewrite IH. destruct P as (-> & -> & -> & _ & X). rewrite (proj2 (in_boxb_spec _ _ _) Hxy), (X x y Hxy). reflexivity. }
  rewrite E. replace (map (fun nb => pair_value (kch k r ((s + nb) mod num)) x y) (counts num))
    with (map (fun i => pair_value (kch k r i) x y) (map (fun nb => (s + nb) mod num) (counts num))) by (rewrite map_map; reflexivity).
  rewrite (fold_perm radd _ _ _ (radd_swap radd rmul zero SR) (Permutation_map _ (rotated num s Hs Hn))).
  rewrite <- (map_map (kch k r) (fun kc => pair_value kc x y)), <- EC. unfold pair_value.
  rewrite <- (map_map _ (rmul alpha)), (fold_rmul radd rmul zero SR). f_equal.
  unfold product. assert (R1 : 1 <= r) by (unfold r; lia).
  rewrite (sum_chunks radd rmul zero SR k r (fun l => rmul (A [x; a1 + l]) (B [b0 + l; y])) R1). unfold sum. f_equal. apply map_ext. intros l.
  cbn [op_at]. replace (1 + (x - 1)) with x by lia. replace (1 + (y - 1)) with y by lia. reflexivity.
Qed.
End One.

Definition piece_ok (q : lpiece) (ots : list (region_op V * list (place * Z))) : Prop :=
  (forall ot, In ot ots -> length (o_lo (fst ot)) = length (o_hi (fst ot)) /\ o_lo (fst ot) = lp_lo q /\ o_hi (fst ot) = lp_hi q /\
      region_transfers pc (o_lo (fst ot)) (o_hi (fst ot)) (o_ld (fst ot)) (snd ot) /\
      forall x, in_box (o_lo (fst ot)) (o_hi (fst ot)) x -> buf_at (o_buf (fst ot)) (o_lo (fst ot)) (o_ld (fst ot)) x <> None) /\
  forall x y, in_box (lp_lo q) (lp_hi q) [x; y] ->
    fold_left radd (contributions (map fst ots) [x; y]) zero = rmul alpha (product radd rmul zero conj opN opN A B 1 a1 b0 1 k (x - 1) (y - 1)).

Hypothesis SR : semiring radd rmul zero.
Hypothesis (LC : walk_layout c wn pc shc) (SC : small_local c shc) (DC : dims (ga_desc c) = [m; n]).
Hypothesis (EA : ga_elemsize a = ga_elemsize c) (EB : ga_elemsize b = ga_elemsize c).

(** Every block of C has at least as many columns as rows, or as the operands have in common. *)
Definition wide_block (q : lpiece) : Prop :=
  forall l0 l1 h0 h1, lp_lo q = [l0; l1] -> lp_hi q = [h0; h1] -> h0 - l0 <= h1 - l1 \/ k <= h1 - l1 + 1.

Lemma basic_pieces near me w : 0 <= me < ga_nproc c -> abs_rank c me = Some w -> near w = true ->
  (forall fuel ps q, local_iterate fuel guess near wn c me = Some ps -> In q ps -> wide_block q) ->
  exists ps otss f0, local_cover pc (dims (ga_desc c)) w ps /\ Forall2 piece_ok ps otss /\
    forall fuel, (f0 <= fuel)%nat ->
      (do ps' <- local_iterate fuel guess near wn c me;
       do ls <- mapM (basic_block radd rmul zero conj junk fuel guess wn smp rnda rndb opN opN alpha a b ma mb [1; a1] [m; a1 + k - 1] [b0; 1] [b0 + k - 1; n] [1; 1]) ps';
       Some (concat ls)) = Some (op_events (concat otss)).
Proof.
  intros Hme EW HNr HQ. destruct (layout_walk guess near wn c me w pc shc HG LC Hme EW HNr) as (ps & f1 & EP & CV & LD).
  destruct (mapM_fuel (fun fuel q => basic_block radd rmul zero conj junk fuel guess wn smp rnda rndb opN opN alpha a b ma mb [1; a1] [m; a1 + k - 1] [b0; 1] [b0 + k - 1; n] [1; 1] q)
      (fun q es => exists ots, es = op_events ots /\ piece_ok q ots) ps) as (ess & f2 & E & F).
  { intros q Hq. destruct (piece_in_array _ _ _ _ _ CV Hq) as (P1 & P2 & P3). specialize (HQ f1 ps q (EP f1 (le_n _)) Hq).
    destruct CV as [_ CV]. destruct (CV q Hq) as (_ & ES & HP). destruct (LD q Hq) as (sh & S1 & S2 & S3).
    rewrite DC in P2, P3. destruct q as [lo hi seg off ld]. cbn [lp_lo lp_hi lp_seg lp_off lp_ld] in *. subst seg.
    destruct lo as [|l0 [|l1 [|]]]; cbn in P2; try tauto. destruct hi as [|h0 [|h1 [|]]]; cbn in P3; try tauto.
    inversion P1 as [|? ? ? ? P4 P5]; subst. inversion P5; subst. specialize (HQ l0 l1 h0 h1 eq_refl eq_refl).
    cbn [extents] in S2. inversion S2 as [|? s0 ? sh' Q4 Q5]; subst. inversion Q5 as [|? s1 ? sh2 Q6 Q7]; subst. inversion Q7; subst.
    cbn [length Nat.sub firstn] in S3. destruct ld as [|ld lds]; [discriminate|]. injection S3 as S3; subst ld.
    assert (SZ : ga_elemsize c * ((h0 - l0 + 1) * (h1 - l1 + 1)) <= int_max).
    { destruct SC as [SC1 SC2]. eapply Z.le_trans; [|exact (SC2 _ S1)]. apply Z.mul_le_mono_nonneg_l; [lia|]. unfold zprod. cbn [fold_right].
      rewrite Z.mul_1_r. apply Z.mul_le_mono_nonneg; lia. }
    destruct (basic_block_ok l0 l1 h0 h1 s0 lds w off ltac:(lia) ltac:(lia) ltac:(lia) ltac:(lia)) with (c1 := 1) as (ots & f & num & s & Hs & Hnum & EC & FF & E).
    { lia. } { rewrite EA. exact SZ. } { rewrite EB. exact SZ. } { exact HP. }
    exists (op_events ots), f. split; [exact E|]. exists ots. split; [reflexivity|]. split.
    - intros ot Hot. destruct (combine_Forall2 _ _ _ FF _ Hot) as (nb & _ & (X1 & X2 & X3 & X4 & X5)). rewrite X1, X2, X3.
      split; [reflexivity|]. split; [reflexivity|]. split; [reflexivity|]. split; [exact X4|].
      intros x Hx. destruct x as [|x [|y [|]]]; cbn in Hx; try tauto. rewrite (X5 x y) by (cbn; lia). discriminate.
    - cbn [lp_lo lp_hi]. intros x y Hxy. eapply (block_value l0 l1 h0 h1); eauto; lia. }
  assert (X : exists otss, concat ess = op_events (concat otss) /\ Forall2 piece_ok ps otss).
  { clear - F. induction F as [|q es l ess (ot & -> & P) F IH]; [exists []; split; [reflexivity|constructor]|].
    destruct IH as (ots & E & FF). exists (ot :: ots). split; [|constructor; auto]. cbn [concat]. rewrite E. now rewrite op_events_app. }
  destruct X as (otss & EC & FF). exists ps, otss, (Nat.max f1 f2). split; [exact CV|]. split; [exact FF|].
  intros fuel Hf. rewrite EP by lia. pose proof (E fuel ltac:(lia)) as E'. cbv beta in E'.
  match type of E' with ?u = _ => match goal with |- context [mapM ?f ps] => change (mapM f ps) with u end end. rewrite E', EC. reflexivity.
Qed.

Lemma contributions_concat (lss : list (list (region_op V * list (place * Z)))) x :
  contributions (map fst (concat lss)) x = flat_map (fun l => contributions (map fst l) x) lss.
Proof. induction lss as [|l lss IH]; [reflexivity|]. cbn [concat flat_map]. rewrite map_app, <- IH. unfold contributions. apply flat_map_app. Qed.
Lemma Forall2_nth {X Y} (R : X -> Y -> Prop) l l' : Forall2 R l l' -> forall i x, nth_error l i = Some x -> exists y, nth_error l' i = Some y /\ R x y.
Proof. induction 1 as [|x y l l' H F IH]; intros [|i] z E; try discriminate; cbn in *; [injection E as <-; eauto|eauto]. Qed.
Lemma Forall2_nth' {X Y} (R : X -> Y -> Prop) l l' : Forall2 R l l' -> forall i y, nth_error l' i = Some y -> exists x, nth_error l i = Some x /\ R x y.
Proof. induction 1 as [|x y l l' H F IH]; intros [|i] z E; try discriminate; cbn in *; [injection E as <-; eauto|eauto]. Qed.

Lemma outside_piece q ots x : piece_ok q ots -> ~ in_box (lp_lo q) (lp_hi q) x -> contributions (map fst ots) x = [].
Proof.
  intros [P _] Hx. unfold contributions. apply flat_map_nil. intros o Ho. apply in_map_iff in Ho as (ot & <- & Hot).
  destruct (P ot Hot) as (_ & -> & -> & _). destruct (in_boxb _ _ _) eqn:E; [|reflexivity]. apply in_boxb_spec in E. tauto.
Qed.

Definition proc_ok (me : Z) (otss : list (list (region_op V * list (place * Z)))) : Prop :=
  exists w ps, abs_rank c me = Some w /\ local_cover pc (dims (ga_desc c)) w ps /\ Forall2 piece_ok ps otss.

Lemma blocks_sum (osss : list (list (list (region_op V * list (place * Z))))) : Forall2 proc_ok (zseq 0 (Z.to_nat (ga_nproc c))) osss ->
  forall i j, in_array [m; n] [i; j] ->
    fold_left radd (contributions (map fst (concat (concat osss))) [i; j]) zero = rmul alpha (product radd rmul zero conj opN opN A B 1 a1 b0 1 k (i - 1) (j - 1)).
Proof.
  intros F i j Hij. destruct (any_storage _ _ _ _ (proj1 LC)) as (al & S1 & S2 & S3 & S4).
  rewrite <- DC in Hij. destruct (S1 _ Hij) as ([w ad] & Hq). destruct (S4 _ _ Hq) as (me & ? & Hme & EW & _). cbn [fst] in EW.
  assert (NE : nth_error (zseq 0 (Z.to_nat (ga_nproc c))) (Z.to_nat me) = Some me).
  { rewrite zseq_seq. rewrite nth_error_map, (nth_error_nth' _ O) by (rewrite seq_length; lia). rewrite seq_nth by lia. cbn. f_equal. lia. }
  destruct (Forall2_nth _ _ _ F _ _ NE) as (otss & NO & (w' & ps & EW' & CV & FP)). rewrite EW in EW'. injection EW' as <-.
  pose proof CV as [[T1 T2] _]. destruct (T2 [i; j] (Logic.conj Hij (ex_intro _ ad Hq))) as (kq & q & Nq & Bq & Uq). cbn [fst snd] in *.
  destruct (Forall2_nth _ _ _ FP _ _ Nq) as (ots & Not & PQ).
  rewrite concat2, contributions_concat, flat_map_map.
  rewrite (flat_one _ osss _ _ NO).
  - rewrite contributions_concat. rewrite (flat_one _ otss _ _ Not); [apply (proj2 PQ); exact Bq|].
    intros k' p' Hk' Hne. destruct (Forall2_nth' _ _ _ FP _ _ Hk') as (q' & Nq' & PQ'). apply (outside_piece q'); [exact PQ'|].
    intros HB'. apply Hne. eapply Uq; eauto.
  - intros k' otss' Hk' Hne. destruct (Forall2_nth' _ _ _ F _ _ Hk') as (me' & NM & (w' & ps' & EW' & CV' & FP')).
    rewrite contributions_concat. apply flat_map_nil. intros ots' Ho. destruct (combine_Forall2 _ _ _ FP' _ Ho) as (q' & Hq' & PQ'). apply (outside_piece q'); [exact PQ'|].
    intros HB'. destruct CV' as [_ CV']. destruct (CV' q' Hq') as (_ & _ & HP'). specialize (HP' _ HB').
    pose proof (S2 _ _ _ Hq HP') as EQ. injection EQ as EQ _. subst w'.
    assert (me' = me) by (eapply abs_rank_inj; eauto; eapply layout_group; apply (proj1 LC)). subst me'.
    apply Hne. rewrite zseq_seq, nth_error_map in NM. destruct (nth_error (seq _ _) k') as [u|] eqn:EU; [|discriminate].
    assert (HL : (k' < length (seq 0 (Z.to_nat (ga_nproc c))))%nat) by (apply nth_error_Some; congruence).
    rewrite seq_length in HL. rewrite (nth_error_nth' _ O) in EU by (rewrite seq_length; exact HL). rewrite seq_nth in EU by exact HL. injection EU as <-. cbn in NM. injection NM as NM. lia.
Qed.

Lemma basic_phase (osss : list (list (list (region_op V * list (place * Z))))) es (mc : heap V) : Forall2 proc_ok (zseq 0 (Z.to_nat (ga_nproc c))) osss ->
  Permutation es (op_events (concat (concat osss))) -> allocated pc mc ->
  exists m', run_elems (acc_event radd) mc es = Some m' /\
    (forall i j q v, in_array [m; n] [i; j] -> pc [i; j] q -> hget mc q = Some v ->
       hget m' q = Some (radd v (rmul alpha (product radd rmul zero conj opN opN A B 1 a1 b0 1 k (i - 1) (j - 1))))) /\
    (forall q, (forall x, in_array [m; n] x -> ~ pc x q) -> hget m' q = hget mc q).
Proof.
  intros F P AL. destruct (any_storage _ _ _ _ (proj1 LC)) as (al & S1 & S2 & S3 & S4).
  assert (IN : forall ot, In ot (concat (concat osss)) -> exists me w ps q, local_cover pc (dims (ga_desc c)) w ps /\ In q ps /\ exists ots, In ot ots /\ piece_ok q ots /\ me = w).
  { intros ot Hot. apply in_concat in Hot as (ots & Ho & Hot). apply in_concat in Ho as (otss & Hs & Ho).
    destruct (combine_Forall2 _ _ _ F _ Hs) as (me & _ & (w & ps & EW & CV & FP)). destruct (combine_Forall2 _ _ _ FP _ Ho) as (q & Hq & PQ).
    exists w, w, ps, q. split; [exact CV|]. split; [exact Hq|]. eauto. }
  destruct (concurrent_acc pc S2 S3 V (concat (concat osss))) with (m := mc) (f := radd) (es := es) as (m' & R & X1 & X2); auto.
  { intros o t Hin. destruct (IN _ Hin) as (_ & w & ps & q & _ & _ & ots & Hot & [PQ _] & _). destruct (PQ _ Hot) as (L & _ & _ & RT & BF). auto. }
  { intros. apply (radd_swap radd rmul zero SR). }
  exists m'. split; [exact R|]. split.
  - intros i j q v Hb Hq Hv. rewrite (X1 _ _ _ Hq Hv). f_equal. rewrite (fold_radd radd rmul zero SR). f_equal. apply blocks_sum; auto.
  - intros q Hq. apply X2. intros x o t Hin Hx. destruct (IN _ Hin) as (_ & w & ps & qq & [[T1 _] CV] & Hqq & ots & Hot & [PQ _] & _).
    destruct (PQ _ Hot) as (_ & E1 & E2 & _). cbn [fst] in *. rewrite E1, E2 in Hx. apply Hq. rewrite <- DC. apply In_nth_error in Hqq as (z & Hz). apply (T1 z qq Hz x Hx).
Qed.
End Block.
