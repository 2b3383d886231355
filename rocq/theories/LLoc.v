(** The local iterator (C69). *)
From Verif Require Export SpecLoc LIterSL LAccess.

Lemma in_range_gridok nb grid pc :
  Forall (fun n => 1 <= n) grid -> length grid = length nb -> in_range0 nb pc -> gridok nb grid pc (hmax nb grid pc).
Proof.
  revert grid pc. induction nb as [|n nb IH]; intros [|q grid] [|p pc] HG HL HR; cbn in HL, HR; try contradiction; try lia; cbn; [exact I|].
  apply Forall_cons_iff in HG as [Hq HG]. destruct HR as [Hp HR].
  pose proof (Z.div_mod (n - 1 - p) q ltac:(lia)).
  pose proof (Z.mod_pos_bound (n - 1 - p) q ltac:(lia)).
  assert (0 <= (n - 1 - p) / q) by (apply Z.div_pos; lia).
  split; [lia|]. split; [lia|]. split; [lia|]. apply IH; auto.
Qed.

Lemma fits_cases nb pc : fits_but_last nb pc -> Forall (fun x => 0 <= x) pc ->
  (in_range0 nb pc /\ last_reached nb pc = false) \/ (last_reached nb pc = true /\ last nb 0 <= last pc 0).
Proof.
  unfold last_reached. revert pc. induction nb as [|n nb IH]; intros [|p pc] HF HP; cbn [fits_but_last] in HF; try contradiction.
  { destruct nb; contradiction. }
  apply Forall_cons_iff in HP as [Hp HP].
  destruct nb as [|n' nb].
  { destruct pc as [|p' pc]; [|destruct HF as [_ []]]. cbn. destruct (Z.leb_spec n p); [right|left]; split; auto; lia. }
  destruct pc as [|p' pc]; [destruct HF as [_ HF]; destruct nb; contradiction|].
  destruct HF as [H1 H2]. change (last (n :: n' :: nb) 0) with (last (n' :: nb) 0).
  change (last (p :: p' :: pc) 0) with (last (p' :: pc) 0).
  destruct (IH _ H2 HP) as [[A B]|[A B]]; [left|right]; split; auto. cbn [in_range0] in *. split; [lia|exact A].
Qed.

Lemma last_lt nb i : nb <> [] -> in_range0 nb i -> 0 <= last i 0 < last nb 0.
Proof.
  revert i. induction nb as [|n nb IH]; intros [|x i] H; cbn [in_range0]; try tauto. intros [Hx Hi].
  destruct nb as [|n' nb], i as [|x' i]; cbn in Hi; try contradiction; [cbn; lia|].
  change (0 <= last (x' :: i) 0 < last (n' :: nb) 0). apply IH; [discriminate|exact Hi].
Qed.

Lemma last_vmod g i : length i = length g -> last (vmod g i) 0 = last i 0 mod last g 0.
Proof.
  revert i. induction g as [|q g IH]; intros [|x i] HL; cbn in HL; try lia; [reflexivity|].
  destruct g as [|q' g], i as [|x' i]; cbn in HL; try lia; [reflexivity|].
  change (last (vmod (q' :: g) (x' :: i)) 0 = last (x' :: i) 0 mod last (q' :: g) 0). apply IH. cbn; lia.
Qed.

Lemma bx_in_array g k x : wf_blocks g -> 0 <= k < zprod (num_blocks g) ->
  in_box (fst (bx g k)) (snd (bx g k)) x -> in_array (dims g) x.
Proof.
  intros W Hk Hx. destruct (wf_any_axes g (wf_blocks_any g W)) as (Hax & Had & Han & Hpos & _).
  rewrite <- Had. eapply in_block_inside; [exact Hax| |exact Hx]. rewrite Han. apply decode_range; auto.
Qed.

(** ---- a list of blocks walked by the iterator covers what the process holds ---- *)
Section Blocks.
Variable a : garray.
Variable placed : list Z -> place -> Prop.
Variable acc : Z -> option (Z * Z * list Z).
Notation g := (ga_desc a).
Notation T := (zprod (num_blocks g)).
Notation N := (ga_nproc a).
Hypothesis WB : wf_blocks g.
Hypothesis HA : forall k, 0 <= k < T -> exists p off ld, acc k = Some (p, off, ld) /\
  block_home N g k = Some p /\
  forall x, in_box (fst (bx g k)) (snd (bx g k)) x -> placed x (p, off + lin ld (vsub x (fst (bx g k)))).
Hypothesis HFun : forall x q q', placed x q -> placed x q' -> fst q = fst q'.

Definition pc_of (k : Z) : lpiece :=
  match acc k with Some r => lpiece_of (bx g k) r | None => LPiece [] [] 0 0 [] end.

Lemma pc_of_box k : 0 <= k < T -> lp_lo (pc_of k) = fst (bx g k) /\ lp_hi (pc_of k) = snd (bx g k).
Proof. intros Hk. destruct (HA k Hk) as (p & off & ld & E & _). unfold pc_of. rewrite E. split; reflexivity. Qed.

Lemma column_cover w : local_cover placed (dims g) w (map pc_of (column a w)).
Proof.
  assert (IN : forall k, In k (column a w) -> 0 <= k < T /\ block_home N g k = Some w) by (intros k; apply column_In).
  split.
  - split.
    + intros i q E x Hx. cbn [fst snd] in Hx. apply nth_error_In in E. apply in_map_iff in E as (k & <- & Hk).
      destruct (IN k Hk) as [Kr Kh]. destruct (pc_of_box k Kr) as [E1 E2]. rewrite E1, E2 in Hx.
      destruct (HA k Kr) as (p & off & ld & _ & Hh & HP). rewrite Kh in Hh. injection Hh as <-.
      split; [eapply bx_in_array; eauto|]. eexists. apply HP, Hx.
    + intros x [Hx (ad & HP)]. destruct (bx_cover g x WB Hx) as (k & Kr & Kb).
      destruct (HA k Kr) as (p & off & ld & _ & Hh & HQ). specialize (HQ x Kb).
      pose proof (HFun _ _ _ HQ HP) as E. cbn [fst] in E. subst p.
      assert (Hk : In k (column a w)) by (apply column_In; split; auto).
      destruct (In_nth_error _ _ Hk) as (i & Ei). exists i, (pc_of k).
      split; [apply map_nth_error; exact Ei|]. cbn [fst snd]. destruct (pc_of_box k Kr) as [E1 E2]. rewrite E1, E2.
      split; [exact Kb|]. intros j q Ej Hq. rewrite nth_error_map in Ej.
      destruct (nth_error (column a w) j) as [k'|] eqn:Ej'; [|discriminate]. injection Ej as <-.
      destruct (IN k' (nth_error_In _ _ Ej')) as [Kr' _]. destruct (pc_of_box k' Kr') as [F1 F2]. rewrite F1, F2 in Hq.
      pose proof (bx_disj g k k' x WB Kr Kr' Kb Hq) as ->.
      assert (ND : NoDup (column a w)) by (apply NoDup_filter, zseq_NoDup).
      eapply NoDup_nth_error; [exact ND|apply nth_error_Some; congruence|congruence].
  - intros q Hq. apply in_map_iff in Hq as (k & <- & Hk). destruct (IN k Hk) as [Kr Kh].
    destruct (pc_of_box k Kr) as [E1 E2]. rewrite E1, E2.
    destruct (HA k Kr) as (p & off & ld & E & Hh & HP). rewrite Kh in Hh. injection Hh as <-.
    split; [apply bx_le; auto|]. unfold pc_of. rewrite E. cbn [lpiece_of lp_seg lp_off lp_ld fst snd]. auto.
Qed.
End Blocks.

(** ---- simple block-cyclic ---- *)
Section BCWalk.
Variables (guess : Z -> Z -> Z -> Z) (near : Z -> bool) (a : garray) (me : Z).
Notation g := (ga_desc a).
Notation T := (zprod (num_blocks g)).
Notation N := (ga_nproc a).
Hypothesis HT : distr_type g = BLOCK_CYCLIC.
Hypothesis W : wf_blocked g.
Hypothesis HN : 1 <= N.
Hypothesis HA : forall k, 0 <= k < T -> exists p off ld, access_block_ptr N a k = Some (p, off, ld) /\
  block_home N g k = Some p /\
  forall x, in_box (fst (bx g k)) (snd (bx g k)) x -> block_place a x (p, off + lin ld (vsub x (fst (bx g k)))).

Lemma bc_walk suf : forall pre k, column a me = pre ++ k :: suf ->
  exists n, forall fuel, (n <= fuel)%nat -> loc_drain guess near N a me fuel (LCount k) =
    Some (map (pc_of a (access_block_ptr N a)) (k :: suf)).
Proof.
  induction suf as [|k' suf IH]; intros pre k E.
  all: assert (Kr : 0 <= k < T) by (assert (In k (column a me)) by (rewrite E; apply in_app_iff; right; now left);
         apply column_In in H; tauto).
  all: destruct (column_next a HT HN me _ _ _ E) as [[H1 (s' & H2)]|[H1 H2]]; try discriminate.
  all: destruct (HA k Kr) as (p & off & ld & EA & _).
  all: assert (EN : forall f, loc_drain guess near N a me (S f) (LCount k) =
         do l <- loc_drain guess near N a me f (LCount (k + N)); Some (pc_of a (access_block_ptr N a) k :: l))
    by (intros f; cbn [loc_drain]; unfold loc_next at 1; rewrite HT; destruct (Z.leb_spec T k); [lia|];
        rewrite (bx_distribution g k (or_introl W) Kr), EA; unfold pc_of; rewrite EA; reflexivity).
  - exists 2%nat. intros [|[|f]] Hf; try lia. rewrite EN. cbn [loc_drain]. unfold loc_next. rewrite HT.
    destruct (Z.leb_spec T (k + N)); [reflexivity|lia].
  - injection H2 as -> <-. destruct (IH (pre ++ [k]) (k + N)) as (n & HD); [rewrite <- app_assoc; exact E|].
    exists (S n). intros [|f] Hf; [lia|]. rewrite EN, HD by lia. reflexivity.
Qed.
End BCWalk.

(** ---- process grids ---- *)
Lemma emb_zero nb grid pc h : gridok nb grid pc h -> emb pc grid (zeros h) = pc.
Proof.
  revert grid pc h. induction nb as [|n nb IH]; intros [|q grid] [|p pc] [|m h]; cbn [gridok]; try tauto.
  intros (_ & _ & _ & H). cbn [zeros map emb]. fold (zeros h). rewrite (IH _ _ _ H). f_equal. lia.
Qed.

Section GridWalk.
Variables (guess : Z -> Z -> Z -> Z) (near : Z -> bool) (wn : Z) (a : garray) (me : Z).
Notation g := (ga_desc a).
Notation T := (zprod (num_blocks g)).
Notation N := (ga_nproc a).
Notation pcoord := (decode (nblock g) me).
Variable placed : list Z -> place -> Prop.
Hypothesis WB : wf_blocks g.
Hypothesis WG : wf_grid N g.
Hypothesis Hme : 0 <= me < N.
Hypothesis HA : forall k, 0 <= k < T -> exists p off ld, access_block_ptr wn a k = Some (p, off, ld) /\
  block_home N g k = Some p /\
  forall x, in_box (fst (bx g k)) (snd (bx g k)) x -> placed x (p, off + lin ld (vsub x (fst (bx g k)))).

Lemma loc_limits_bx k : 0 <= k < T -> loc_limits g (decode (num_blocks g) k) = Some (bx g k).
Proof.
  intros Hk. rewrite <- (sl_limits a WB WG k Hk). destruct (sl_pos a WB) as [Hnb HL].
  pose proof (decode_range _ _ Hnb Hk) as Hr. unfold loc_limits, grid_limits.
  destruct (distr_type g); try reflexivity. clear HL. revert Hr. generalize (decode (num_blocks g) k).
  generalize (mapc g), (num_blocks g). induction (dims g) as [|d ds IH]; intros m [|n nb] [|i is];
    cbn [in_range0 loc_irreg_limits it_irreg_limits]; try tauto.
  intros [Hi His]. rewrite IH by exact His. destruct (Z.ltb_spec i (n - 1)), (Z.eqb_spec i (n - 1)); try lia; reflexivity.
Qed.

Lemma access_grid_ptr k : 0 <= k < T -> access_block_grid_ptr a (decode (num_blocks g) k) = access_block_ptr wn a k.
Proof.
  intros Hk. destruct (sl_pos a WB) as [Hnb HL]. pose proof WG as (_ & HB & _).
  unfold access_block_ptr. destruct (Z.ltb_spec k 0); [lia|]. destruct (Z.leb_spec T k); [lia|]. cbn [orb].
  rewrite (find_indices_decode _ k Hnb ltac:(lia)).
  assert (HR : distr_type g <> REGULAR) by (destruct WB as [([HT|[HT|HT]] & _)|[(HT & _) _]]; congruence).
  destruct (distr_type g); try congruence; reflexivity.
Qed.

Lemma grid_step k f : 0 <= k < T -> last_reached (num_blocks g) (decode (num_blocks g) k) = false ->
  loc_drain guess near wn a me (S f) (LIndex pcoord (decode (num_blocks g) k)) =
  do l <- loc_drain guess near wn a me f
            (LIndex pcoord (carry (num_blocks g) (nblock g) pcoord (decode (num_blocks g) k) true));
  Some (pc_of a (access_block_ptr wn a) k :: l).
Proof.
  intros Hk HL. pose proof WG as (_ & HB & _). destruct (HA k Hk) as (p & off & ld & EA & _).
  assert (HR : distr_type g <> REGULAR) by (destruct WB as [([HT|[HT|HT]] & _)|[(HT & _) _]]; congruence).
  cbn [loc_drain]. unfold loc_next at 1. rewrite HL, (loc_limits_bx k Hk), (access_grid_ptr k Hk), EA.
  unfold pc_of. rewrite EA. destruct (distr_type g); try congruence; reflexivity.
Qed.

Lemma grid_stop idx f : last_reached (num_blocks g) idx = true ->
  loc_drain guess near wn a me (S f) (LIndex pcoord idx) = Some [].
Proof.
  intros HL. pose proof WG as (_ & HB & _).
  assert (HR : distr_type g <> REGULAR) by (destruct WB as [([HT|[HT|HT]] & _)|[(HT & _) _]]; congruence).
  cbn [loc_drain]. unfold loc_next at 1. rewrite HL. destruct (distr_type g); try congruence; reflexivity.
Qed.

Definition ghs : list Z := hmax (num_blocks g) (nblock g) pcoord.
Definition gidx (t : list Z) : list Z := emb pcoord (nblock g) t.

Lemma grid_column : in_range0 (num_blocks g) pcoord ->
  column a me = map (fun t => encode (num_blocks g) (gidx t)) (box_list (zeros ghs) ghs).
Proof.
  intros HR. pose proof WG as (_ & _ & HL & Hpos & HN). destruct (sl_pos a WB) as [Hnb HLn].
  pose proof (in_range_gridok (num_blocks g) (nblock g) _ Hpos ltac:(congruence) HR) as G. fold ghs in G.
  pose proof (sl_pcoord a WG me Hme) as R.
  apply sorted_unique.
  - apply filter_sorted, zseq_sorted.
  - apply emb_sorted; auto.
  - intros k. rewrite column_In, in_map_iff. split.
    + intros [Hk HH]. apply (sl_home a WG) in HH as [_ HV]; [|exact Hk].
      destruct (emb_of_vmod _ _ _ _ _ G (decode_range _ _ Hnb Hk) HV) as (t & Ht & Et).
      exists t. split; [unfold gidx; rewrite Et; apply encode_decode; auto|].
      apply box_list_In; [|exact Ht]. unfold zeros. apply map_length.
    + intros (t & <- & Ht). apply box_list_In in Ht; [|unfold zeros; apply map_length].
      pose proof (emb_range _ _ _ _ _ G R Ht) as RI. pose proof (encode_range _ _ RI) as RE.
      split; [exact RE|]. apply (sl_home a WG); [exact RE|]. split; [exact Hme|].
      unfold gidx. rewrite decode_encode by exact RI. eapply emb_vmod; eauto.
Qed.

Lemma grid_walk : in_range0 (num_blocks g) pcoord ->
  forall suf pre t, box_list (zeros ghs) ghs = pre ++ t :: suf ->
  exists n, forall fuel, (n <= fuel)%nat -> loc_drain guess near wn a me fuel (LIndex pcoord (gidx t)) =
    Some (map (pc_of a (access_block_ptr wn a)) (map (fun t => encode (num_blocks g) (gidx t)) (t :: suf))).
Proof.
  intros HR. pose proof WG as (_ & _ & HL & Hpos & HN). destruct (sl_pos a WB) as [Hnb HLn].
  pose proof (in_range_gridok (num_blocks g) (nblock g) _ Hpos ltac:(congruence) HR) as G. fold ghs in G.
  pose proof (sl_pcoord a WG me Hme) as R. pose proof (hmax_le _ _ _ G) as HZ. fold ghs in HZ.
  pose proof (wf_blocks_dims g WB) as HD.
  assert (NE : num_blocks g <> []) by (intros E; rewrite E in HLn; destruct (dims g); cbn in HLn; congruence).
  assert (HN0 : forall t', in_box (zeros ghs) ghs t' -> t' <> []).
  { intros t' Ht'. destruct t'; [|discriminate]. intros _. pose proof (emb_range _ _ _ _ _ G R Ht') as X.
    apply in_range0_length in X. unfold emb in X. destruct pcoord, (nblock g), (num_blocks g); cbn in *; congruence. }
  induction suf as [|t' suf IH]; intros pre t E.
  all: assert (Ht : in_box (zeros ghs) ghs t)
    by (apply box_list_In; [unfold zeros; apply map_length|rewrite E; apply in_app_iff; right; now left]).
  all: pose proof (emb_range _ _ _ _ _ G R Ht) as RI; fold (gidx t) in RI; pose proof (encode_range _ _ RI) as RE.
  all: assert (ED : decode (num_blocks g) (encode (num_blocks g) (gidx t)) = gidx t) by (apply decode_encode; exact RI).
  all: assert (LR : last_reached (num_blocks g) (gidx t) = false)
    by (unfold last_reached; pose proof (last_lt _ _ NE RI); destruct (Z.leb_spec (last (num_blocks g) 0) (last (gidx t) 0)); [lia|reflexivity]).
  all: destruct (carry_true _ _ _ _ t G Ht (HN0 t Ht)) as [C1 C2].
  all: destruct (box_list_step _ _ _ _ _ HZ E) as [[X1 X2]|(suf' & X1 & X2)]; try discriminate.
  all: assert (ST := fun f => grid_step (encode (num_blocks g) (gidx t)) f RE); rewrite ED in ST.
  - exists 2%nat. intros [|[|f]] Hf; try lia. rewrite (ST _ LR).
    rewrite grid_stop; [reflexivity|]. apply C1, X2.
  - injection X1 as -> <-. destruct (C2 X2) as [C3 C4].
    destruct (IH (pre ++ [t]) (update_sub t (zeros ghs) ghs)) as (n & HD').
    { rewrite <- app_assoc. exact E. }
    exists (S n). intros [|f] Hf; [lia|]. rewrite (ST _ LR). unfold gidx at 1.
    rewrite C3. fold (gidx (update_sub t (zeros ghs) ghs)). rewrite HD' by lia. reflexivity.
Qed.

Lemma grid_iterate : fits_but_last (num_blocks g) pcoord ->
  exists n, forall fuel, (n <= fuel)%nat ->
    local_iterate fuel guess near wn a me = Some (map (pc_of a (access_block_ptr wn a)) (column a me)).
Proof.
  intros HFt. pose proof WG as (_ & HB & HL & Hpos & HN). destruct (sl_pos a WB) as [Hnb HLn].
  pose proof (sl_pcoord a WG me Hme) as R. pose proof (wf_blocks_dims g WB) as HD.
  assert (HR : distr_type g <> REGULAR) by (destruct WB as [([HT|[HT|HT]] & _)|[(HT & _) _]]; congruence).
  assert (NE : num_blocks g <> []) by (intros E; rewrite E in HLn; destruct (dims g); cbn in HLn; congruence).
  assert (EI : forall fuel, local_iterate fuel guess near wn a me = loc_drain guess near wn a me fuel (LIndex pcoord pcoord)).
  { intros fuel. unfold local_iterate, loc_init. rewrite (find_indices_decode _ me Hpos ltac:(lia)).
    destruct (distr_type g); try congruence; reflexivity. }
  destruct (fits_cases _ _ HFt (in_range0_nonneg _ _ R)) as [[IR LR]|[LR LL]].
  - pose proof (in_range_gridok (num_blocks g) (nblock g) _ Hpos ltac:(congruence) IR) as G. fold ghs in G.
    pose proof (hmax_le _ _ _ G) as HZ. fold ghs in HZ. destruct (box_list_first _ _ HZ) as (suf & E).
    destruct (grid_walk IR suf [] _ E) as (n & HW). exists n. intros fuel Hf. rewrite EI, (grid_column IR), E.
    rewrite <- (HW fuel Hf). unfold gidx. rewrite (emb_zero _ _ _ _ G). reflexivity.
  - exists 1%nat. intros [|f] Hf; [lia|]. rewrite EI, (grid_stop _ f LR).
    assert (EC : column a me = []); [|rewrite EC; reflexivity].
    destruct (column a me) as [|k l] eqn:EC; [reflexivity|]. exfalso.
    assert (HI : In k (column a me)) by (rewrite EC; now left). apply column_In in HI as [Hk HH].
    apply (sl_home a WG) in HH as [_ HV]; [|exact Hk].
    pose proof (decode_range _ _ Hnb Hk) as DR. pose proof (last_lt _ _ NE DR) as LD.
    apply (f_equal (fun l => last l 0)) in HV. rewrite last_vmod in HV by (rewrite decode_length; lia).
    pose proof (Z.mod_le (last (decode (num_blocks g) k) 0) (last (nblock g) 0) ltac:(lia)) as ML.
    assert (1 <= last (nblock g) 0).
    { assert (NB : nblock g <> []) by (intros E; rewrite E in HL; destruct (dims g); cbn in HL; congruence).
      rewrite Forall_forall in Hpos. apply Hpos. destruct (exists_last NB) as (l' & z & ->). rewrite last_last.
      apply in_app_iff. right. now left. }
    lia.
Qed.
End GridWalk.

(** ---- map-distributed arrays ---- *)
Lemma owns_dims_len ds nb m k lo hi : owns_dims ds nb m k = Some (lo, hi) -> length lo = length hi.
Proof.
  revert nb m k lo hi. induction ds as [|d ds IH]; intros [|n nb] m k lo hi; cbn [owns_dims]; try discriminate.
  - intros [= <- <-]. reflexivity.
  - destruct (cmod k n); [|discriminate]. destruct (cdiv k n) as [k'|]; [|discriminate].
    destruct (zget m _); [|discriminate]. match goal with |- match ?e with _ => _ end = _ -> _ => destruct e; [|discriminate] end.
    destruct (owns_dims ds nb (zdrop n m) k') as [[lo' hi']|] eqn:E; [|discriminate].
    intros [= <- <-]. cbn. f_equal. eapply IH; eauto.
Qed.

Lemma dist_len g k lo hi : distr_type g = REGULAR -> distribution g k = Some (lo, hi) -> length lo = length hi.
Proof.
  intros HT. unfold distribution, owns, owns_no_handle. rewrite HT.
  match goal with |- match ?e with _ => _ end = _ -> _ => destruct e; [|discriminate] end.
  repeat match goal with |- (if ?b then _ else _) = _ -> _ => destruct b end;
    try (intros [= <- <-]; now rewrite !map_length); apply owns_dims_len.
Qed.

Lemma le_all_empty lo hi x : le_all lo hi = false -> ~ in_box lo hi x.
Proof.
  revert hi x. induction lo as [|l lo IH]; intros [|h hi] [|y x]; cbn; try tauto; try discriminate.
  intros H [H1 H2]. destruct (Z.ltb_spec h l); [lia|]. cbn in H. eapply IH; eauto.
Qed.

Lemma regular_iterate guess near wn a me w :
  good_guess guess -> wf_array a -> 0 <= me < ga_nproc a -> abs_rank a me = Some w -> near w = true ->
  exists ps, (forall fuel, (2 <= fuel)%nat -> local_iterate fuel guess near wn a me = Some ps) /\
    local_cover (reg_place a) (dims (ga_desc a)) w ps.
Proof.
  intros HG WA Hme EW HN. pose proof WA as (WR & _ & _ & HGr & _). pose proof WR as (HT & _).
  destruct (regular_blocks_inside _ _ _ WR Hme) as (lo & hi & ED & HI).
  pose proof (dist_len _ _ _ _ HT ED) as HL.
  assert (OWN : forall x ad, reg_place a x (w, ad) -> in_box lo hi x).
  { intros x ad (p & lo' & hi' & Hp & ED' & HB & EP & _). cbn [fst] in EP.
    pose proof (abs_rank_inj a p me w HGr EP EW) as ->. rewrite ED in ED'. injection ED' as <- <-. exact HB. }
  destruct (le_all lo hi) eqn:LE.
  - pose proof (proj1 (le_all_true lo hi HL) LE) as Hle.
    destruct (access_ptr_spec guess near a lo hi me lo hi w HG WA Hme ED (lo_in_box _ _ Hle)) as (off & ld & EA & HP); auto.
    { clear - Hle. induction Hle; cbn; auto. split; [lia|auto]. }
    exists [LPiece lo hi w off ld]. split.
    + intros [|[|f]] Hf; try lia. unfold local_iterate, loc_init. rewrite HT. cbn [loc_drain].
      unfold loc_next. rewrite HT, ED. cbn [fst snd]. rewrite LE, EA. reflexivity.
    + split; [split|].
      * intros [|[|k]] q E; try discriminate. injection E as <-. cbn. intros x Hx. split; [apply HI, Hx|]. eauto.
      * intros x [_ (ad & HX)]. exists 0%nat, (LPiece lo hi w off ld). split; [reflexivity|]. cbn.
        split; [eapply OWN; eauto|]. intros [|[|k]] q E; try discriminate. reflexivity.
      * intros q [<-|[]]. cbn. auto.
  - exists []. split.
    + intros [|f] Hf; [lia|]. unfold local_iterate, loc_init. rewrite HT. cbn [loc_drain].
      unfold loc_next. rewrite HT, ED. cbn [fst snd]. rewrite LE. reflexivity.
    + split; [split|]; [intros [|k]; discriminate| |intros q []].
      intros x [_ (ad & HX)]. exfalso. eapply le_all_empty; eauto.
Qed.

(** ---- block distributions ---- *)
Lemma block_place_fun a x q q' : wf_blocks (ga_desc a) -> block_place a x q -> block_place a x q' -> fst q = fst q'.
Proof.
  intros W (k & lo & hi & K & D & B & H & _) (k' & lo' & hi' & K' & D' & B' & H' & _).
  rewrite bx_distribution in D, D' by auto.
  assert (k = k'); [|subst; congruence].
  apply (bx_disj (ga_desc a) k k' x W K K').
  - destruct (bx (ga_desc a) k). injection D as -> ->. exact B.
  - destruct (bx (ga_desc a) k'). injection D' as -> ->. exact B'.
Qed.
Lemma scalapack_place_fun a x q q' : scalapack_place a x q -> scalapack_place a x q' -> fst q = fst q'.
Proof. intros (_ & _ & E & _) (_ & _ & E' & _). congruence. Qed.

Lemma block_access_bx placed wn a k : wf_blocks (ga_desc a) -> 0 <= k < zprod (num_blocks (ga_desc a)) ->
  block_access placed wn a k ->
  exists p off ld, access_block_ptr wn a k = Some (p, off, ld) /\ block_home (ga_nproc a) (ga_desc a) k = Some p /\
    forall x, in_box (fst (bx (ga_desc a) k)) (snd (bx (ga_desc a) k)) x ->
      placed x (p, off + lin ld (vsub x (fst (bx (ga_desc a) k)))).
Proof.
  intros W Hk (lo & hi & p & off & ld & D & A & H & _ & P). rewrite bx_distribution in D by auto.
  assert (D' : bx (ga_desc a) k = (lo, hi)) by congruence. exists p, off, ld. rewrite D'. auto.
Qed.

Lemma bc_pieces guess near a me : distr_type (ga_desc a) = BLOCK_CYCLIC -> wf_blocked (ga_desc a) -> ga_group a = None ->
  0 <= me < ga_nproc a ->
  exists n, forall fuel, (n <= fuel)%nat -> local_iterate fuel guess near (ga_nproc a) a me =
    Some (map (pc_of a (access_block_ptr (ga_nproc a) a)) (column a me)).
Proof.
  intros HT W HG Hme. assert (HN : 1 <= ga_nproc a) by lia. pose proof (or_introl W : wf_blocks (ga_desc a)) as WB.
  assert (HA := fun k Hk => block_access_bx (block_place a) (ga_nproc a) a k WB Hk (access_bc a k HT W HG HN Hk)).
  assert (EI : forall fuel, local_iterate fuel guess near (ga_nproc a) a me = loc_drain guess near (ga_nproc a) a me fuel (LCount me)).
  { intros. unfold local_iterate, loc_init. rewrite HT. reflexivity. }
  assert (HH : forall j, 0 <= j -> block_home (ga_nproc a) (ga_desc a) j = Some (j mod ga_nproc a)) by (intros; apply bc_home_mod; auto).
  destruct (column a me) as [|k suf] eqn:EC.
  - exists 1%nat. intros [|f] Hf; [lia|]. rewrite EI. cbn [loc_drain]. unfold loc_next. rewrite HT.
    destruct (Z.leb_spec (zprod (num_blocks (ga_desc a))) me); [reflexivity|]. exfalso.
    assert (HI : In me (column a me)) by (apply column_In; split; [lia|]; rewrite HH, Z.mod_small by lia; reflexivity).
    rewrite EC in HI. contradiction.
  - assert (k = me).
    { assert (HI : In k (column a me)) by (rewrite EC; now left). apply column_In in HI as [Hk Hk'].
      rewrite HH in Hk' by lia. injection Hk' as Hk'.
      assert (HI : In me (column a me)).
      { apply column_In. pose proof (Z.mod_le k (ga_nproc a) ltac:(lia)). split; [lia|]. rewrite HH, Z.mod_small by lia. reflexivity. }
      assert (SS : StronglySorted Z.lt (column a me)) by (apply filter_sorted, zseq_sorted).
      rewrite EC in HI, SS. destruct HI as [HI|HI]; [exact HI|]. inversion SS as [|? ? _ F]; subst.
      rewrite Forall_forall in F. specialize (F _ HI). pose proof (Z.mod_le k (ga_nproc a) ltac:(lia)). lia. }
    subst k. destruct (bc_walk guess near a me HT W HN HA suf [] me EC) as (n & HW).
    exists n. intros fuel Hf. rewrite EI. apply HW, Hf.
Qed.

Lemma bc_iterate guess near a me :
  distr_type (ga_desc a) = BLOCK_CYCLIC -> wf_blocked (ga_desc a) -> ga_group a = None -> 0 <= me < ga_nproc a ->
  exists ps n, (forall fuel, (n <= fuel)%nat -> local_iterate fuel guess near (ga_nproc a) a me = Some ps) /\
    local_cover (block_place a) (dims (ga_desc a)) me ps.
Proof.
  intros HT W HG Hme. assert (HN : 1 <= ga_nproc a) by lia. pose proof (or_introl W : wf_blocks (ga_desc a)) as WB.
  assert (HA := fun k Hk => block_access_bx (block_place a) (ga_nproc a) a k WB Hk (access_bc a k HT W HG HN Hk)).
  destruct (bc_pieces guess near a me HT W HG Hme) as (n & HI).
  eexists _, n. split; [exact HI|]. apply column_cover; auto. intros x q q'. apply block_place_fun, WB.
Qed.
