(** Irregular distribution requests: C44. *)
From Verif Require Import SpecWf MBase MHandle MDist MIrreg LRadix LAxis LDist LDist2 LDist3.

(** The first block of every dimension begins at 1. *)
Fixpoint starts_at_one (nb m : list Z) : Prop :=
  match nb with [] => True | n :: nb' => nth 0 m 0 = 1 /\ starts_at_one nb' (skipn (Z.to_nat n) m) end.

(** What the check guarantees for one dimension. *)
Definition weak_map (d n : Z) (m : list Z) : Prop :=
  1 <= n /\ n <= Z.of_nat (length m) /\ 1 <= nth 0 m 0 /\
  (forall i, (i + 1 < Z.to_nat n)%nat -> nth i m 0 <= nth (i + 1) m 0) /\
  nth (Z.to_nat n - 1) m 0 <= d + 1.
Fixpoint weak_maps (dims nb m : list Z) : Prop :=
  match dims, nb with
  | [], [] => True
  | d :: dims', n :: nb' => weak_map d n m /\ weak_maps dims' nb' (skipn (Z.to_nat n) m)
  | _, _ => False
  end.

Lemma entries_spec d : forall j x m r, irreg_entries j d x m = Done r -> x <= d + 1 ->
  exists es, m = es ++ r /\ length es = j /\ (forall i, (i < j)%nat -> nth i (x :: es) 0 <= nth (i + 1) (x :: es) 0) /\ nth j (x :: es) 0 <= d + 1.
Proof.
  induction j as [|j IH]; intros x m r E H; cbn [irreg_entries] in E.
  - injection E as ->. exists []. repeat split; auto. intros i L; lia.
  - destruct m as [|y m]; [discriminate|]. destruct (Z.ltb_spec y x); [discriminate|].
    destruct ((y <? 1) || (d + 1 <? y)) eqn:B; [discriminate|]. apply orb_false_iff in B; destruct B as [B1 B2].
    destruct (IH y m r E ltac:(lia)) as (es & -> & L & M & N). exists (y :: es). repeat split; auto; [cbn; lia|].
    intros [|i] LT; [cbn; lia|]. specialize (M i ltac:(lia)). exact M.
Qed.
Lemma check_spec : forall ds nb m u, irreg_check ds nb m = Done u -> Forall (fun n => 1 <= n) nb ->
  exists e t, m = e ++ t /\ Z.of_nat (length e) = zsum nb /\ (forall t', weak_maps ds nb (e ++ t')) /\
    (forall t', starts_at_one nb (e ++ t) <-> starts_at_one nb (e ++ t')).
Proof.
  induction ds as [|d ds IH]; intros [|n nb] m u E F; try discriminate; cbn [irreg_check] in E.
  - exists [], m. cbn. repeat split; auto.
  - inversion F as [|? ? N F']; subst. destruct m as [|x m]; [discriminate|].
    destruct ((x <? 1) || (d + 1 <? x)) eqn:B; [discriminate|]. apply orb_false_iff in B; destruct B as [B1 B2].
    destruct (irreg_entries (Z.to_nat (n - 1)) d x m) as [r| |] eqn:EE; try discriminate.
    destruct (entries_spec _ _ _ _ _ EE ltac:(lia)) as (es & -> & L & M & LA).
    destruct (IH nb r u E F') as (e & t & -> & LE & W & ST).
    assert (SK : forall t', skipn (Z.to_nat n) (((x :: es) ++ e) ++ t') = e ++ t').
    { intros t'. rewrite <- app_assoc. replace (Z.to_nat n) with (length (x :: es)) by (cbn [length]; lia). rewrite skipn_app, skipn_all, Nat.sub_diag. reflexivity. }
    assert (NT : forall t' i, (i < Z.to_nat n)%nat -> nth i (((x :: es) ++ e) ++ t') 0 = nth i (x :: es) 0).
    { intros t' i LT. rewrite <- app_assoc. apply app_nth1. cbn [length]; lia. }
    exists ((x :: es) ++ e), t. split; [cbn; f_equal; now rewrite app_assoc|].
    split; [rewrite app_length; cbn [length zsum]; lia|]. split.
    + intros t'. cbn [weak_maps]. rewrite SK. split; auto. unfold weak_map.
      split; [auto|]. split; [rewrite !app_length; cbn [length]; lia|]. split; [cbn; lia|]. split.
      * intros i LT. rewrite !NT by lia. apply M; lia.
      * rewrite NT by lia. replace (Z.to_nat n - 1)%nat with (Z.to_nat (n - 1)) by lia. auto.
    + intros t'. cbn [starts_at_one]. rewrite !SK, (ST t'). reflexivity.
Qed.
Lemma weak_valid : forall ds nb m, weak_maps ds nb m -> Forall (fun d => 1 <= d) ds -> starts_at_one nb m -> valid_maps ds nb m.
Proof.
  induction ds as [|d ds IH]; intros [|n nb] m W D S; cbn [weak_maps valid_maps starts_at_one] in *; auto.
  inversion D; subst. destruct W as [(W1 & W2 & W3 & W4 & W5) W]; destruct S as [S1 S]. split; [repeat split; auto|apply IH; auto].
Qed.
Lemma weak_mono d n m : weak_map d n m -> forall i, (i < Z.to_nat n)%nat -> nth 0 m 0 <= nth i m 0.
Proof.
  intros (W1 & W2 & W3 & W4 & W5). induction i as [|i IH]; intros L; [lia|]. specialize (W4 i ltac:(lia)). replace (i + 1)%nat with (S i) in W4 by lia. specialize (IH ltac:(lia)). lia.
Qed.
Lemma weak_first d n m k l : weak_map d n m -> zget m k = Some l -> k < n -> l <= 1 -> nth 0 m 0 = 1.
Proof.
  intros W Z K L. pose proof (zget_inv _ _ _ Z) as B. rewrite (zget_Some _ _ 0) in Z by auto. injection Z as <-.
  pose proof (weak_mono _ _ _ W (Z.to_nat k) ltac:(lia)). destruct W as (_ & _ & W & _). lia.
Qed.

(** The call's result. *)
Lemma set_irreg_inv actv g m nb g' : set_irreg_distr actv g m nb = Done g' -> Forall (fun n => 1 <= n) nb ->
  actv = false /\ dims g <> [] /\ dims g' = dims g /\ nblock g' = nb /\ distr_type g' = distr_type g /\ rstrctd_list g' = rstrctd_list g /\
  rank_rstrctd g' = rank_rstrctd g /\ weak_maps (dims g) nb (mapc g') /\ (starts_at_one nb m <-> starts_at_one nb (mapc g')).
Proof.
  unfold set_irreg_distr. destruct actv; [discriminate|]. destruct (dims g) as [|d ds] eqn:D; [discriminate|]. rewrite <- D in *.
  assert (dims g <> []) by congruence. destruct (too_many (dims g) nb); [discriminate|].
  destruct (irreg_check (dims g) nb m) as [u| |] eqn:C; try discriminate. intros E F.
  destruct (check_spec _ _ _ _ C F) as (e & t & M & L & W & S). unfold irreg_copy in E.
  destruct ((zsum nb <? 0) || (Z.of_nat (length m) <? zsum nb)); [discriminate|]. injection E as <-. cbn.
  rewrite M. rewrite firstn_app. replace (Z.to_nat (zsum nb)) with (length e) by lia. rewrite firstn_all, Nat.sub_diag. cbn [firstn]. rewrite app_nil_r. repeat split; auto; apply S.
Qed.
Lemma set_tiled_inv actv g m nb grid g' : set_tiled_irreg actv g m nb grid = Done g' -> Forall (fun n => 1 <= n) nb ->
  actv = false /\ dims g <> [] /\ dims g' = dims g /\ num_blocks g' = nb /\ nblock g' = grid /\ distr_type g' = TILED_IRREG /\ rstrctd_list g' = rstrctd_list g /\
  rank_rstrctd g' = rank_rstrctd g /\ length grid = length (dims g) /\ Forall (fun p => 1 <= p) grid /\
  weak_maps (dims g) nb (mapc g') /\ (starts_at_one nb m <-> starts_at_one nb (mapc g')).
Proof.
  unfold set_tiled_irreg. destruct actv; [discriminate|]. destruct (dims g) as [|d ds] eqn:D; [discriminate|]. rewrite <- D in *.
  assert (dims g <> []) by congruence. destruct (too_many (dims g) nb); [discriminate|]. destruct (distr_type g); try discriminate.
  destruct (irreg_check (dims g) nb m) as [u| |] eqn:C; try discriminate. intros E F.
  destruct (check_spec _ _ _ _ C F) as (e & t & M & L & W & S).
  destruct (length grid =? length (dims g))%nat eqn:LG; [|discriminate]. apply Nat.eqb_eq in LG. cbn [negb] in E.
  destruct (existsb (fun p => p <? 1) grid) eqn:EX; [discriminate|]. unfold irreg_copy in E.
  destruct ((zsum nb <? 0) || (Z.of_nat (length m) <? zsum nb)); [discriminate|]. injection E as <-. cbn.
  rewrite M. rewrite firstn_app. replace (Z.to_nat (zsum nb)) with (length e) by lia. rewrite firstn_all, Nat.sub_diag. cbn [firstn]. rewrite app_nil_r.
  repeat split; auto; try apply S. apply Forall_forall. intros p I. destruct (Z.ltb_spec p 1); [|lia].
  assert (existsb (fun p => p <? 1) grid = true) by (apply existsb_exists; exists p; split; auto; lia). congruence.
Qed.

(** C44: an accepted request with as many blocks as processes at most, at least
    one block in every dimension, whose maps begin at 1, gives every element
    exactly one owner. *)
Theorem C44_irregular_partial : forall nproc g m nb g',
  set_irreg_distr false g m nb = Done g' -> distr_type g = REGULAR -> rstrctd_list g = [] -> Forall (fun d => 1 <= d) (dims g) ->
  Forall (fun n => 1 <= n) nb -> starts_at_one nb m -> zprod nb <= nproc ->
  forall x, in_array (dims g) x -> exists p, 0 <= p < nproc /\
    (exists lo hi, distribution g' p = Some (lo, hi) /\ in_box lo hi x) /\
    forall q lo hi, 0 <= q < nproc -> distribution g' q = Some (lo, hi) -> in_box lo hi x -> q = p.
Proof.
  intros nproc g m nb g' E T R D N S P x X.
  destruct (set_irreg_inv _ _ _ _ _ E N) as (_ & H0 & H1 & H2 & H3 & H4 & H5 & H6 & H7).
  apply (regular_unique_owner nproc g' x); [|now rewrite H1].
  split; [congruence|]. split; [congruence|]. rewrite H1, H2. split; [apply weak_valid; auto; now apply H7|]. left. split; [congruence|auto].
Qed.
(** For tiled arrays also the grid of processes is checked, when the array is
    allocated; then every element is in exactly one block and this block has a
    process to live on. *)
Theorem C44_tiled_partial : forall nproc g m nb grid g',
  set_tiled_irreg false g m nb grid = Done g' -> grid_accepted g' nproc = true -> rstrctd_list g = [] -> Forall (fun d => 1 <= d) (dims g) ->
  Forall (fun n => 1 <= n) nb -> starts_at_one nb m ->
  forall x, in_array (dims g) x -> exists k p, 0 <= k < zprod nb /\
    (exists lo hi, distribution g' k = Some (lo, hi) /\ in_box lo hi x) /\
    (forall j lo hi, 0 <= j < zprod nb -> distribution g' j = Some (lo, hi) -> in_box lo hi x -> j = k) /\
    block_home nproc g' k = Some p /\ 0 <= p < nproc.
Proof.
  intros nproc g m nb grid g' E G R D N S x X.
  destruct (set_tiled_inv _ _ _ _ _ _ E N) as (_ & H0 & H1 & H2 & H3 & H4 & H5 & H6 & H7 & H8 & H9 & H10).
  assert (W : wf_tiled_irreg g').
  { split; auto. split; [congruence|]. rewrite H1, H2. split; [apply weak_valid; auto; now apply H10|congruence]. }
  destruct (blocked_unique_block (fun _ _ _ => 0) g' x) as (k & K1 & _ & K2 & K3).
  { intros d n s A B; lia. } { auto. } { now rewrite H1. }
  rewrite H2 in *. destruct (grid_home nproc g' k) as (p & idx & co & _ & P1 & P2 & _).
  { split; auto. split; [congruence|]. rewrite H1, H3. split; auto. split; auto. unfold grid_accepted in G. rewrite H3 in G. lia. }
  { rewrite H2; auto. }
  exists k, p. auto.
Qed.

(** Both hypotheses on the maps are needed: *)
Lemma owns_first : forall ds nb m k lo hi, weak_maps ds nb m -> owns_dims ds nb m k = Some (lo, hi) -> in_box lo hi (map (fun _ => 1) ds) -> starts_at_one nb m.
Proof.
  induction ds as [|d ds IH]; intros [|n nb] m k lo hi W E B; cbn [weak_maps] in W; try contradiction; cbn [starts_at_one]; auto.
  cbn [owns_dims] in E. destruct W as [W1 W2]. pose proof W1 as (P & _). unfold cmod, cdiv in E. destruct (Z.eqb_spec n 0); [lia|].
  destruct (zget m (Z.rem k n)) as [l|] eqn:Z; [|discriminate].
  destruct (if Z.rem k n =? n - 1 then Some d else _) as [h|]; [|discriminate].
  destruct (owns_dims ds nb (zdrop n m) (Z.quot k n)) as [[lo' hi']|] eqn:O; [|discriminate]. injection E as <- <-. cbn [fst snd map in_box] in B.
  destruct B as [B1 B2]. split.
  - eapply weak_first; eauto; [|lia]. pose proof (Z.rem_bound_abs k n ltac:(lia)). lia.
  - eapply IH; eauto.
Qed.
Lemma limits_first : forall ds nb m idx lo hi, weak_maps ds nb m -> Forall2 (fun i n => i < n) idx nb -> irreg_limits ds nb m idx = Some (lo, hi) ->
  in_box lo hi (map (fun _ => 1) ds) -> starts_at_one nb m.
Proof.
  induction ds as [|d ds IH]; intros [|n nb] m idx lo hi W F E B; cbn [weak_maps] in W; try contradiction; cbn [starts_at_one]; auto.
  inversion F as [|i ? idx' ? L F']; subst. cbn [irreg_limits] in E. destruct W as [W1 W2].
  destruct (zget m i) as [l|] eqn:Z; [|discriminate].
  destruct (if i <? n - 1 then _ else Some d) as [h|]; [|discriminate].
  destruct (irreg_limits ds nb (zdrop n m) idx') as [[lo' hi']|] eqn:O; [|discriminate]. injection E as <- <-. cbn [fst snd map in_box] in B.
  destruct B as [B1 B2]. split; [eapply weak_first; eauto; lia|eapply IH; eauto].
Qed.
Lemma indices_lt : forall nb k idx, Forall (fun n => 1 <= n) nb -> find_indices nb k = Some idx -> Forall2 (fun i n => i < n) idx nb.
Proof.
  induction nb as [|n nb IH]; intros k idx F E; cbn [find_indices] in E.
  - injection E as <-. constructor.
  - inversion F; subst. unfold cmod, cdiv in E. destruct (Z.eqb_spec n 0); [lia|].
    destruct (find_indices nb _) as [r|] eqn:Q; [|discriminate]. injection E as <-. constructor; [|eapply IH; eauto].
    pose proof (Z.rem_bound_abs k n ltac:(lia)). lia.
Qed.
(** If the element (1,...,1) has an owner then all maps begin at 1 ... *)
Theorem C44_first_needed : forall g m nb g' p lo hi,
  set_irreg_distr false g m nb = Done g' -> distr_type g = REGULAR -> Forall (fun n => 1 <= n) nb ->
  distribution g' p = Some (lo, hi) -> in_box lo hi (map (fun _ => 1) (dims g)) -> starts_at_one nb m.
Proof.
  intros g m nb g' p lo hi E T N O B.
  destruct (set_irreg_inv _ _ _ _ _ E N) as (_ & H0 & H1 & H2 & H3 & H4 & H5 & H6 & H7). apply H7.
  unfold distribution in O. destruct (if 0 <? num_rstrctd g' then _ else _) as [q|]; [|discriminate].
  unfold owns in O. rewrite H3, T, H1, H2 in O.
  assert (NE : forall lo hi, Some (map (fun _ => 0) (dims g), map (fun _ => -1) (dims g)) = Some (lo, hi) -> ~ in_box lo hi (map (fun _ => 1) (dims g))).
  { intros l h EQ. injection EQ as <- <-. apply in_box_empty; auto. }
  unfold owns_no_handle in O. destruct (num_rstrctd g' =? 0); [|destruct (q <? num_rstrctd g'); [|exfalso; eapply NE; eauto]];
    (destruct ((zprod nb - 1 <? q) || (q <? 0)); [exfalso; eapply NE; eauto|]); eapply owns_first; eauto.
Qed.
Theorem C44_tiled_first_needed : forall g m nb grid g' k lo hi,
  set_tiled_irreg false g m nb grid = Done g' -> Forall (fun n => 1 <= n) nb ->
  distribution g' k = Some (lo, hi) -> in_box lo hi (map (fun _ => 1) (dims g)) -> starts_at_one nb m.
Proof.
  intros g m nb grid g' p lo hi E N O B.
  destruct (set_tiled_inv _ _ _ _ _ _ E N) as (_ & H0 & H1 & H2 & H3 & H4 & H5 & H6 & H7 & H8 & H9 & H10). apply H10.
  unfold distribution in O. destruct (if 0 <? num_rstrctd g' then _ else _) as [q|]; [|discriminate].
  unfold owns in O. rewrite H4, H1, H2 in O. destruct (find_indices nb q) as [idx|] eqn:F; [|discriminate].
  eapply limits_first; eauto. eapply indices_lt; eauto.
Qed.
Lemma strict_nonempty : forall ds nb m k lo hi, strict_maps ds nb m -> owns_dims ds nb m k = Some (lo, hi) -> in_box lo hi lo.
Proof.
  induction ds as [|d ds IH]; intros [|n nb] m k lo hi W E; cbn [strict_maps] in W; try contradiction; cbn [owns_dims] in E.
  - injection E as <- <-. exact Logic.I.
  - destruct W as [(P & W1 & W2 & W3 & W4) W]. unfold cmod, cdiv in E. destruct (Z.eqb_spec n 0); [lia|].
    destruct (zget m (Z.rem k n)) as [l|] eqn:Z; [|discriminate]. pose proof (zget_inv _ _ _ Z) as B. rewrite (zget_Some _ _ 0) in Z by auto. injection Z as <-.
    pose proof (Z.rem_bound_abs k n ltac:(lia)) as RB. set (r := Z.rem k n) in *.
    destruct (Z.eqb_spec r (n - 1)) as [e|N].
    + destruct (owns_dims ds nb (zdrop n m) (Z.quot k n)) as [[lo' hi']|] eqn:O; [|discriminate]. injection E as <- <-. cbn [fst snd in_box].
      split; [|eapply IH; eauto]. rewrite e. replace (Z.to_nat (n - 1)) with (Z.to_nat n - 1)%nat by lia. lia.
    + destruct (zget m (r + 1)) as [v|] eqn:Z; [|discriminate]. pose proof (zget_inv _ _ _ Z) as B2. rewrite (zget_Some _ _ 0) in Z by auto. injection Z as <-.
      destruct (owns_dims ds nb (zdrop n m) (Z.quot k n)) as [[lo' hi']|] eqn:O; [|discriminate]. injection E as <- <-. cbn [fst snd in_box].
      split; [|eapply IH; eauto]. specialize (W3 (Z.to_nat r) ltac:(lia)). replace (Z.to_nat (r + 1)) with (Z.to_nat r + 1)%nat by lia. lia.
Qed.
(** ... and if no block is empty and all elements have an owner then there are
    no more blocks than processes. *)
Theorem C44_blocks_needed : forall nproc g m nb g',
  set_irreg_distr false g m nb = Done g' -> distr_type g = REGULAR -> rstrctd_list g = [] -> Forall (fun d => 1 <= d) (dims g) ->
  Forall (fun n => 1 <= n) nb -> strict_maps (dims g') (nblock g') (mapc g') ->
  (forall x, in_array (dims g) x -> exists p lo hi, 0 <= p < nproc /\ distribution g' p = Some (lo, hi) /\ in_box lo hi x) -> zprod nb <= nproc.
Proof.
  intros nproc g m nb g' E T R D N S A.
  destruct (set_irreg_inv _ _ _ _ _ E N) as (_ & H0 & H1 & H2 & H3 & H4 & H5 & H6 & H7).
  rewrite H1, H2 in S. destruct (Z_le_dec (zprod nb) nproc) as [|L]; auto. exfalso.
  assert (WF : wf_regular (zprod nb) g').
  { split; [congruence|]. split; [congruence|]. rewrite H1, H2. split; [apply strict_valid; auto|]. left. split; [congruence|lia]. }
  assert (P1 : 1 <= zprod nb). { clear - N. induction N; cbn; [lia|]. nia. }
  destruct (regular_blocks_inside _ _ (zprod nb - 1) WF ltac:(lia)) as (lo & hi & O & IN).
  assert (B : in_box lo hi lo).
  { unfold distribution, num_rstrctd in O. rewrite H4, R in O. cbn in O. unfold owns, num_rstrctd in O. rewrite H3, T, H4, R, H1, H2 in O. cbn in O.
    unfold owns_no_handle in O. destruct (Z.ltb_spec (zprod nb - 1) (zprod nb - 1)); [lia|]. destruct (Z.ltb_spec (zprod nb - 1) 0); [lia|]. cbn [orb] in O.
    eapply strict_nonempty; eauto. }
  pose proof (IN lo B) as X. rewrite H1 in X. destruct (A lo X) as (p & lo' & hi' & P & O' & B').
  destruct (regular_unique_owner _ _ lo WF ltac:(now rewrite H1)) as (q & Q1 & Q2 & Q3).
  assert (p = q) by (eapply Q3; eauto; lia). assert (zprod nb - 1 = q) by (eapply Q3; eauto; lia). lia.
Qed.

Definition fresh (ds : list Z) : gadesc :=
  {| distr_type := REGULAR; dims := ds; nblock := []; mapc := []; block_dims := []; num_blocks := []; rstrctd_list := []; rank_rstrctd := [] |}.
Example C44_accepts : exists g', set_irreg_distr false (fresh [10; 7]) [1; 6; 9; 1; 4] [3; 2] = Done g' /\ mapc g' = [1; 6; 9; 1; 4; -1] /\
  starts_at_one [3; 2] [1; 6; 9; 1; 4] /\ zprod [3; 2] = 6 /\ distribution g' 4 = Some ([6; 4], [8; 7]).
Proof. eexists. repeat split. Qed.
Example C44_tiled_accepts : exists g', set_tiled_irreg false (fresh [10; 7]) [1; 6; 9; 1; 4] [3; 2] [2; 1] = Done g' /\ grid_accepted g' 2 = true /\
  distribution g' 4 = Some ([6; 4], [8; 7]).
Proof. eexists. repeat split. Qed.
(** Accepted: a map that does not begin at 1, on any number of processes ... *)
Theorem C44_first_refuted : exists g', set_irreg_distr false (fresh [4]) [2; 3] [2] = Done g' /\
  forall p lo hi, distribution g' p = Some (lo, hi) -> ~ in_box lo hi [1].
Proof.
  eexists. split; [reflexivity|]. intros p lo hi O B.
  assert (starts_at_one [2] [2; 3]) as [X _]; [|discriminate X].
  refine (C44_first_needed (fresh [4]) [2; 3] [2] _ p lo hi eq_refl eq_refl _ O B). repeat constructor; lia.
Qed.
Theorem C44_tiled_first_refuted : exists g', set_tiled_irreg false (fresh [4]) [2; 3] [2] [2] = Done g' /\ grid_accepted g' 2 = true /\
  forall k lo hi, distribution g' k = Some (lo, hi) -> ~ in_box lo hi [1].
Proof.
  eexists. split; [reflexivity|]. split; [reflexivity|]. intros p lo hi O B.
  assert (starts_at_one [2] [2; 3]) as [X _]; [|discriminate X].
  refine (C44_tiled_first_needed (fresh [4]) [2; 3] [2] [2] _ p lo hi eq_refl _ O B). repeat constructor; lia.
Qed.
(** ... more blocks than processes ... *)
Theorem C44_blocks_refuted : exists g', set_irreg_distr false (fresh [4]) [1; 2; 4] [3] = Done g' /\
  forall p lo hi, 0 <= p < 2 -> distribution g' p = Some (lo, hi) -> ~ in_box lo hi [4].
Proof.
  eexists. split; [reflexivity|]. intros p lo hi P O B. assert (H : p = 0 \/ p = 1) by lia. destruct H as [->| ->]; vm_compute in O; injection O as <- <-; cbn in B; lia.
Qed.
(** ... and no blocks at all. *)
Theorem C44_no_blocks_refuted : exists g', set_irreg_distr false (fresh [4]) [1] [0] = Done g' /\
  forall p lo hi x, distribution g' p = Some (lo, hi) -> ~ in_box lo hi x.
Proof.
  eexists. split; [reflexivity|]. intros p lo hi x O B. unfold distribution, owns, owns_no_handle in O; cbn in O.
  destruct (Z.ltb_spec (-1) p); cbn [orb] in O; [|destruct (Z.ltb_spec p 0); [|lia]]; injection O as <- <-; destruct x; cbn in B; try contradiction; lia.
Qed.
Print Assumptions C44_irregular_partial.
Print Assumptions C44_tiled_partial.
Print Assumptions C44_first_needed.
Print Assumptions C44_tiled_first_needed.
Print Assumptions C44_blocks_needed.
Print Assumptions C44_first_refuted.
Print Assumptions C44_tiled_first_refuted.
Print Assumptions C44_blocks_refuted.
Print Assumptions C44_no_blocks_refuted.
