(** C36, C58: put with notification. *)
From Coq Require Import ZArith List Lia Bool Permutation.
From Verif Require Import SpecBox SpecStore SpecHome SpecXfer MBase MXfer MNotify LRadix LIterReg2 LIterReg3 LStore LXfer LXfer2 LNotify PDist PIter PXfer PStrided.
Import ListNotations.
Open Scope Z_scope.

(** A regular array, or a block-distributed one within the restrictions of
    [block_layout], and a region that transfers can be split on. *)
Definition xfer_layout (a : garray) (nn : Z) (placed : list Z -> place -> Prop) (shape : list Z -> Prop) (lo hi : list Z) : Prop :=
  (wf_array a /\ splittable (ga_elemsize a) lo hi /\ placed = reg_place a /\ shape = reg_shape a) \/ block_layout a nn placed shape.
(** The element [e] can be transferred. *)
Definition good_element (a : garray) (nn : Z) placed shape (e : list Z) : Prop :=
  xfer_layout a nn placed shape e e /\ good_request a shape e e (repeat 1 7) /\ (length e <= 7)%nat.

(** After the operation the target holds the notify value [v] at [e] and the
    data [u] in the rest of the region. *)
Definition notified {V} (placed : list Z -> place -> Prop) lo hi ld e (v : option V) (u : buffer V) (m m' : heap V) : Prop :=
  (forall q, placed e q -> hget m' q = v) /\
  (forall x q, in_box lo hi x -> x <> e -> placed x q -> hget m' q = buf_at u lo ld x) /\
  (forall q, (forall x, in_box lo hi x \/ x = e -> ~ placed x q) -> hget m' q = hget m q).

Lemma xfer_cover guess rnd nn a placed shape lo hi : good_guess guess -> (forall k, 0 <= rnd k) -> xfer_layout a nn placed shape lo hi ->
  in_array (dims (ga_desc a)) lo -> in_array (dims (ga_desc a)) hi -> Forall2 Z.le lo hi ->
  gives_cover guess rnd nn a lo hi placed shape /\ (forall x q q', placed x q -> placed x q' -> q = q') /\ (forall x y q, placed x q -> placed y q -> x = y).
Proof.
  intros Hg Hr [(W & Hs & -> & ->)|B] H1 H2 H3.
  - split; [apply regular_cover; assumption|]. apply regular_placed. exact W.
  - split; [apply block_cover; assumption|]. exact (block_placed a nn placed shape B).
Qed.
Lemma xfer_transfers guess rnd nn smp a placed shape lo hi ld : good_guess guess -> (forall k, 0 <= rnd k) -> xfer_layout a nn placed shape lo hi -> good_request a shape lo hi ld ->
  exists ts, gives_transfers guess rnd nn smp a lo hi ld placed ts.
Proof.
  intros Hg Hr [(W & Hs & -> & ->)|B] HQ; [apply regular_transfers; assumption|]. exact (block_transfers guess rnd nn smp a lo hi ld placed shape B HQ).
Qed.
Lemma element_transfer guess rnd nn smp b placed shape e : good_guess guess -> (forall k, 0 <= rnd k) -> good_element b nn placed shape e ->
  exists q f0, placed e q /\ forall fuel, (f0 <= fuel)%nat -> transfers fuel guess rnd nn smp b e e ldn = Some [(q, 0)].
Proof.
  intros Hg Hr (L & Q & L7). pose proof Q as (H1 & H2 & H3 & _). destruct (xfer_cover guess rnd nn b placed shape e e Hg Hr L H1 H2 H3) as (GC & _).
  exact (point_transfers guess rnd nn smp b e placed shape GC Q L7).
Qed.
Lemma same_length ds lo hi : in_array ds lo -> in_array ds hi -> length lo = length hi.
Proof. intros H1 H2. apply in_array_length in H1, H2. congruence. Qed.

(** C36 when the notify element is not in the region: the user's memory is
    unchanged and the target holds the data and the notify value.  First for a
    notify element of the same array. *)
Theorem C36_same_array_partial : forall guess rnd1 rnd2 nn smp a placed shape lo hi ld e off u m,
  good_guess guess -> (forall k, 0 <= rnd1 k) -> (forall k, 0 <= rnd2 k) ->
  xfer_layout a nn placed shape lo hi -> good_request a shape lo hi ld -> good_element a nn placed shape e ->
  allocated placed m -> buffer_ok u lo hi ld -> u off <> None -> ~ in_box lo hi e ->
  exists es fuel0,
    (forall fuel, (fuel0 <= fuel)%nat -> nbput_notify fuel guess rnd1 rnd2 nn smp a a true lo hi ld e off u = Some (u, (es, []))) /\
    forall es', keeps_cells es es' -> exists m', run_elems put_event m es' = Some m' /\ notified placed lo hi ld e (u off) u m m'.
Proof.
  intros guess rnd1 rnd2 nn smp a placed shape lo hi ld e off u m Hg H1 H2 XL GR GE AL BO UO NI.
  destruct (xfer_transfers guess rnd1 nn smp a placed shape lo hi ld Hg H1 XL GR) as (ts & (f1 & E1) & R).
  destruct (element_transfer guess rnd2 nn smp a placed shape e Hg H2 GE) as (q & f2 & PQ & E2).
  pose proof GR as (G1 & G2 & G3 & _). destruct GE as (_ & (G4 & _) & _).
  destruct (xfer_cover guess rnd1 nn a placed shape lo hi Hg H1 XL G1 G2 G3) as (_ & FP & IP).
  exists (map (fun t => (u, t)) ts ++ map (fun t => (at_off u off, t)) [(q, 0)]), (Nat.max f1 f2). split.
  - intros fuel Hf. unfold nbput_notify. destruct (intersect_coords lo hi e) eqn:IE.
    + exfalso. apply NI. apply intersect_spec; [eapply same_length; eauto|eapply same_length; eauto|exact IE].
    + cbn [andb]. rewrite E1, E2 by lia. reflexivity.
  - intros es' K. destruct (u off) as [v|] eqn:EU; [|congruence].
    destruct (region_element placed FP IP lo hi ld ts u (at_off u off) e q v es' m) as (m' & ER & P1 & P2 & P3); auto; [eapply same_length; eauto|unfold at_off; rewrite Z.add_0_r; exact EU|].
    exists m'. split; [exact ER|]. split; [|split; assumption]. intros q' PQ'. rewrite (FP _ _ _ PQ' PQ). exact P1.
Qed.
(** For a notify element of another array. *)
Theorem C36_other_array_partial : forall guess rnd1 rnd2 nn smp a b placed shape placedb shapeb lo hi ld e off u m mb,
  good_guess guess -> (forall k, 0 <= rnd1 k) -> (forall k, 0 <= rnd2 k) ->
  xfer_layout a nn placed shape lo hi -> good_request a shape lo hi ld -> good_element b nn placedb shapeb e ->
  allocated placed m -> allocated placedb mb -> buffer_ok u lo hi ld -> u off <> None ->
  exists es eb fuel0,
    (forall fuel, (fuel0 <= fuel)%nat -> nbput_notify fuel guess rnd1 rnd2 nn smp a b false lo hi ld e off u = Some (u, (es, eb))) /\
    forall es' eb', Permutation es es' -> Permutation eb eb' ->
      exists m' mb', run_elems put_event m es' = Some m' /\ run_elems put_event mb eb' = Some mb' /\ put_effect placed lo hi ld u m m' /\
        (forall q, placedb e q -> hget mb' q = u off) /\ (forall q, ~ placedb e q -> hget mb' q = hget mb q).
Proof.
  intros guess rnd1 rnd2 nn smp a b placed shape placedb shapeb lo hi ld e off u m mb Hg H1 H2 XL GR GE AL ALB BO UO.
  destruct (xfer_transfers guess rnd1 nn smp a placed shape lo hi ld Hg H1 XL GR) as (ts & (f1 & E1) & R).
  destruct (element_transfer guess rnd2 nn smp b placedb shapeb e Hg H2 GE) as (q & f2 & PQ & E2).
  pose proof GR as (G1 & G2 & G3 & _). destruct GE as (GL & (G4 & G5 & G6 & _) & _).
  destruct (xfer_cover guess rnd1 nn a placed shape lo hi Hg H1 XL G1 G2 G3) as (_ & FP & IP).
  destruct (xfer_cover guess rnd1 nn b placedb shapeb e e Hg H1 GL G4 G5 G6) as (_ & FPB & IPB).
  exists (map (fun t => (u, t)) ts), (map (fun t => (at_off u off, t)) [(q, 0)]), (Nat.max f1 f2). split.
  - intros fuel Hf. unfold nbput_notify. cbn [andb]. rewrite E1, E2 by lia. reflexivity.
  - intros es' eb' P PB. apply Permutation_sym, Permutation_map_inv in P as (ts' & -> & PT). apply Permutation_length_1_inv in PB. subst eb'.
    destruct (region_put placed lo hi ld (same_length _ _ _ G1 G2) FP IP ts' u m) as (m' & ER & PE); auto.
    { eapply region_perm; [exact R|exact PT]. }
    destruct (u off) as [v|] eqn:EU; [|congruence]. pose proof (ALB e q PQ) as AB. destruct (hget mb q) as [w|] eqn:EW; [|congruence].
    exists m', (hset mb q v). split; [rewrite run_elems_map; exact ER|]. split; [|split; [exact PE|split]].
    + cbn [map run_elems]. unfold put_event, put_elem, at_off. cbn [fst snd]. rewrite Z.add_0_r, EU, EW. reflexivity.
    + intros q' PQ'. rewrite (FPB _ _ _ PQ' PQ). apply hget_hset_same.
    + intros q' NQ. apply hget_hset_other. intros ->. exact (NQ PQ).
Qed.
(** The notify element is in the region, in up to two dimensions, and [bufn]
    points to its place in the buffer: the target holds the data, but the bytes
    of the notify element in the user's buffer are changed. *)
Theorem C36_inside_partial : forall guess rnd1 rnd2 nn smp a placed shape lo hi ld e off u m v,
  good_guess guess -> (forall k, 0 <= rnd1 k) -> (forall k, 0 <= rnd2 k) ->
  xfer_layout a nn placed shape lo hi -> good_request a shape lo hi ld -> good_element a nn placed shape e ->
  allocated placed m -> buffer_ok u lo hi ld -> in_box lo hi e -> (length lo <= 2)%nat -> off = lin ld (vsub e lo) -> u off = Some v ->
  exists u' es fuel0,
    (forall fuel, (fuel0 <= fuel)%nat -> nbput_notify fuel guess rnd1 rnd2 nn smp a a true lo hi ld e off u = Some (u', (es, []))) /\
    (forall i, u' i = if i =? off then Some (bump v) else u i) /\
    forall es', keeps_cells es es' -> exists m', run_elems put_event m es' = Some m' /\ put_effect placed lo hi ld u m m'.
Proof.
  intros guess rnd1 rnd2 nn smp a placed shape lo hi ld e off u m v Hg H1 H2 XL GR GE AL BO IB L2 EO EU.
  destruct (xfer_transfers guess rnd1 nn smp a placed shape lo hi ld Hg H1 XL GR) as (ts & (f1 & E1) & R).
  destruct (element_transfer guess rnd2 nn smp a placed shape e Hg H2 GE) as (q & f2 & PQ & E2).
  pose proof GR as (G1 & G2 & G3 & VL & _). destruct GE as (_ & (G4 & _) & _).
  destruct (xfer_cover guess rnd1 nn a placed shape lo hi Hg H1 XL G1 G2 G3) as ((NE & _) & FP & IP).
  assert (LE := same_length _ _ _ G1 G4). destruct (valid_ld_pos lo hi ld G3 VL) as (LD & _).
  set (u1 := bset u off (bump v)). exists u1, (map (fun t => (u1, t)) ts ++ map (fun t => (one_elem v, t)) [(q, 0)]), (Nat.max f1 f2). split; [|split].
  - intros fuel Hf. unfold nbput_notify. rewrite (proj2 (intersect_spec lo hi e (same_length _ _ _ G1 G2) LE) IB). cbn [andb].
    rewrite offset_2d by (auto; lia). rewrite <- EO, Z.eqb_refl, EU. fold u1. rewrite E1, E2 by lia. reflexivity.
  - reflexivity.
  - assert (BU : forall x, in_box lo hi x -> x <> e -> buf_at u1 lo ld x = buf_at u lo ld x).
    { intros x Hx N. unfold buf_at, u1, bset. destruct (lin ld (vsub x lo) =? off) eqn:X; [|reflexivity]. exfalso. apply N.
      apply (lin_ld_inj lo hi ld x e VL Hx IB). lia. }
    intros es' K. destruct (region_element placed FP IP lo hi ld ts u1 (one_elem v) e q v es' m) as (m' & ER & P1 & P2 & P3); auto.
    + eapply same_length; eauto.
    + intros x Hx. unfold buf_at, u1, bset. destruct (_ =? off); [discriminate|]. exact (BO x Hx).
    + exists m'. split; [exact ER|]. split.
      * intros x q' Hx PX. destruct (list_eq_dec Z.eq_dec x e) as [->|N]; [|rewrite (P2 x q' Hx N PX); apply BU; assumption].
        rewrite (FP _ _ _ PX PQ), P1. unfold buf_at. rewrite <- EO. symmetry. exact EU.
      * intros q' HQ. apply P3. intros x [Hx| ->]; [apply HQ; exact Hx|apply HQ; exact IB].
Qed.


(** Memories of 4-byte elements; the user's memory holds elements 0, 1, ... *)
Definition byte_mem (n : Z) : heap (list Z) := fun p o => if (0 <=? o) && (o <? n) then Some [0; 0; 0; 0] else None.
Definition byte_buf (n : Z) : buffer (list Z) := fun i => if (0 <=? i) && (i <? n) then Some [i; i; i; 255] else None.
Lemma byte_buf_ok : buffer_ok (byte_buf 45) [3; 2] [7; 5] [9].
Proof.
  intros [|x [|y [|z l]]]; cbn [in_box]; try tauto. intros (Hx & Hy & _). unfold buf_at, byte_buf.
  cbn [vsub]. rewrite lin_cons. cbn [lin]. replace ((0 <=? _) && _) with true by lia. discriminate.
Qed.
Lemma byte_allocated : allocated (reg_place ex_ga) (byte_mem 56).
Proof.
  intros x q H. pose proof (ex_mem_allocated x q H) as A. unfold hget, ex_mem, byte_mem in *. destruct (_ && _); congruence.
Qed.
Lemma ex_ga_region : xfer_layout ex_ga 8 (reg_place ex_ga) (reg_shape ex_ga) [3; 2] [7; 5].
Proof. left. split; [exact ex_ga_wf|]. split; [|auto]. intros [|[|i]] Hi; cbn in Hi; try lia; vm_compute; discriminate. Qed.
Lemma ex_ga_element e : in_array [10; 7] e -> good_element ex_ga 8 (reg_place ex_ga) (reg_shape ex_ga) e.
Proof.
  intros H. assert (exists x y, e = [x; y]) as (x & y & ->) by (destruct e as [|x [|y [|]]]; cbn in H; try tauto; eauto). 
  assert (X : extents [x; y] [x; y] = [1; 1]) by (cbn; f_equal; [lia|f_equal; lia]).
  split; [|split; [|cbn; lia]].
  - left. split; [exact ex_ga_wf|]. split; [|auto]. intros i Hi. rewrite X. destruct i as [|[|i]]; cbn in Hi; try lia; vm_compute; discriminate.
  - destruct ex_request as (_ & _ & _ & _ & R5 & _ & _ & R8). split; [exact H|]. split; [exact H|]. split; [repeat constructor; lia|]. split; [cbn; lia|]. split; [exact R5|].
    split; [|split; [|exact R8]].
    + unfold int_counts. rewrite X. cbn. unfold int_max. split; [lia|]. repeat constructor; lia.
    + intros [|i] Hi; cbn in Hi; [vm_compute; discriminate|lia].
Qed.
(** A notify element beside the region, and one in it. *)
Example C36_ex :
  good_request ex_ga (reg_shape ex_ga) [3; 2] [7; 5] [9] /\ xfer_layout ex_ga 8 (reg_place ex_ga) (reg_shape ex_ga) [3; 2] [7; 5] /\
  good_element ex_ga 8 (reg_place ex_ga) (reg_shape ex_ga) [8; 5] /\ good_element ex_ga 8 (reg_place ex_ga) (reg_shape ex_ga) [7; 4] /\
  allocated (reg_place ex_ga) (byte_mem 56) /\ buffer_ok (byte_buf 45) [3; 2] [7; 5] [9] /\
  (do r <- nbput_notify 9 ex_guess (fun i => 7 * i + 2) (fun _ => 1) 8 (fun p => p =? 5) ex_ga ex_ga true [3; 2] [7; 5] [9] [7; 4] 22 (byte_buf 45);
   do m' <- run_elems put_event (byte_mem 56) (fst (snd r));
   Some (fst r 22, hget m' (0, 16))) = Some (Some [23; 23; 23; 0], Some [22; 22; 22; 255]).
Proof.
  split; [exact ex_request|]. split; [exact ex_ga_region|]. split; [apply ex_ga_element; cbn; lia|]. split; [apply ex_ga_element; cbn; lia|].
  split; [exact byte_allocated|]. split; [exact byte_buf_ok|]. vm_compute. reflexivity.
Qed.

(** The user's buffer is not intact when the notify element is in the region. *)
Theorem C36_source_changed_refuted : exists guess a lo hi ld e off u u' es,
  good_guess guess /\ wf_array a /\ good_request a (reg_shape a) lo hi ld /\ in_box lo hi e /\ off = lin ld (vsub e lo) /\ buffer_ok u lo hi ld /\
  (forall k, nbput_notify (9 + k) guess (fun _ => 0) (fun _ => 0) 8 (fun _ => false) a a true lo hi ld e off u = Some (u', (es, []))) /\ u' off <> u off.
Proof.
  assert (IB : in_box [3; 2] [7; 5] [7; 4]) by (cbn; lia).
  assert (GE : good_element ex_ga 8 (reg_place ex_ga) (reg_shape ex_ga) [7; 4]) by (apply ex_ga_element; cbn; lia).
  destruct (C36_inside_partial ex_guess (fun _ => 0) (fun _ => 0) 8 (fun _ => false) ex_ga (reg_place ex_ga) (reg_shape ex_ga) [3; 2] [7; 5] [9] [7; 4] 22 (byte_buf 45) (byte_mem 56) [22; 22; 22; 255]
    ex_guess_good ltac:(intros; lia) ltac:(intros; lia) ex_ga_region ex_request GE byte_allocated byte_buf_ok IB ltac:(cbn; lia) eq_refl eq_refl) as (u' & es & f0 & E & U & _).
  assert (Q : exists u1 es1, forall k, nbput_notify (9 + k) ex_guess (fun _ => 0) (fun _ => 0) 8 (fun _ => false) ex_ga ex_ga true [3; 2] [7; 5] [9] [7; 4] 22 (byte_buf 45) = Some (u1, (es1, []))).
  { eexists _, _. intros k. cbv -[byte_buf bset one_elem bump]. reflexivity. }
  destruct Q as (u1 & es1 & Q). assert (u1 = u') by (specialize (E (9 + f0)%nat ltac:(lia)); rewrite Q in E; congruence). subst u1.
  exists ex_guess, ex_ga, [3; 2], [7; 5], [9], [7; 4], 22, (byte_buf 45), u', es1.
  split; [exact ex_guess_good|]. split; [exact ex_ga_wf|]. split; [exact ex_request|]. split; [cbn; lia|]. split; [reflexivity|]. split; [exact byte_buf_ok|]. split; [exact Q|].
  rewrite U. vm_compute. discriminate.
Qed.

(** In three dimensions the place of the notify element in the buffer is
    computed without the product of the leading dimensions: a correct call ends
    in an error. *)
Theorem C36_three_dimensions_refuted : exists guess a lo hi ld e off u,
  good_guess guess /\ wf_array a /\ in_array (dims (ga_desc a)) lo /\ in_array (dims (ga_desc a)) hi /\ valid_ld lo hi ld /\ in_box lo hi e /\ off = lin ld (vsub e lo) /\ buffer_ok u lo hi ld /\
  forall fuel, nbput_notify fuel guess (fun _ => 0) (fun _ => 0) 8 (fun _ => false) a a true lo hi ld e off u = None.
Proof.
  exists ex_guess, ex_3d, [1; 1; 1], [2; 2; 4], [2; 2], [1; 1; 3], 8, (byte_buf 16).
  split; [exact ex_guess_good|]. split; [exact ex_3d_wf|]. split; [cbn; lia|]. split; [cbn; lia|]. split; [cbn; lia|]. split; [cbn; lia|]. split; [reflexivity|]. split; [|reflexivity].
  intros [|x [|y [|z [|]]]]; cbn [in_box]; try tauto. intros (Hx & Hy & Hz & _). unfold buf_at, byte_buf.
  cbn [vsub]. rewrite !lin_cons. cbn [lin]. replace ((0 <=? _) && _) with true by lia. discriminate.
Qed.
(** A call with a pointer to another element is accepted; that other element of
    the target, (1,1,2), gets changed bytes. *)
Theorem C36_wrong_element_refuted : exists guess a lo hi ld e off u,
  good_guess guess /\ wf_array a /\ valid_ld lo hi ld /\ in_box lo hi e /\ off <> lin ld (vsub e lo) /\ buffer_ok u lo hi ld /\
  forall k, match nbput_notify (9 + k) guess (fun _ => 0) (fun _ => 0) 8 (fun _ => false) a a true lo hi ld e off u with
            | Some (_, (es, _)) => match run_elems put_event (byte_mem 8) es with
                                   | Some m' => exists x q, in_box lo hi x /\ x <> e /\ reg_place a x q /\ hget m' q <> buf_at u lo ld x
                                   | None => False end
            | None => False end.
Proof.
  exists ex_guess, ex_3d, [1; 1; 1], [2; 2; 4], [2; 2], [1; 1; 3], 4, (byte_buf 16).
  split; [exact ex_guess_good|]. split; [exact ex_3d_wf|]. split; [cbn; lia|]. split; [cbn; lia|]. split; [discriminate|]. split.
  { intros [|x [|y [|z [|]]]]; cbn [in_box]; try tauto. intros (Hx & Hy & Hz & _). unfold buf_at, byte_buf.
    cbn [vsub]. rewrite !lin_cons. cbn [lin]. replace ((0 <=? _) && _) with true by lia. discriminate. }
  intros k. assert (E : exists m' u' es, nbput_notify (9 + k) ex_guess (fun _ => 0) (fun _ => 0) 8 (fun _ => false) ex_3d ex_3d true [1; 1; 1] [2; 2; 4] [2; 2] [1; 1; 3] 4 (byte_buf 16) = Some (u', es) /\
    run_elems put_event (byte_mem 8) (fst es) = Some m' /\ hget m' (0, 4) = Some [5; 5; 5; 0]).
  { eexists _, _, _. split; [vm_compute; reflexivity|]. split; vm_compute; reflexivity. }
  destruct E as (m' & u' & [es eb] & E1 & E2 & E3). rewrite E1. cbn [fst] in E2. rewrite E2.
  exists [1; 1; 2], (0, 4). split; [cbn; lia|]. split; [discriminate|]. split.
  - exists 0, [1; 1; 1], [2; 2; 2]. split; [cbn; lia|]. split; [vm_compute; reflexivity|]. split; [cbn; lia|]. split; vm_compute; reflexivity.
  - rewrite E3. vm_compute. discriminate.
Qed.

(** C58: with at most 100 operations outstanding under different handles no
    call fails, and a wait with a handle waits for exactly the two transfers
    of the operation outstanding under it. *)
Theorem C58_notify_handles : forall evs, good_notify [] evs -> exists l, nrun notify_table evs = Some (l, waits [] evs).
Proof.
  intros evs G. apply nrun_ok; [reflexivity| |constructor|exact G]. vm_compute. constructor.
Qed.
Example C58_ex : good_notify [] [NPut 11 1 2; NPut 12 3 4; NWait 11; NPut 13 5 6; NWait 12; NWait 12; NPut 11 7 8; NWait 11] /\
  waits [] [NPut 11 1 2; NPut 12 3 4; NWait 11; NPut 13 5 6; NWait 12; NWait 12; NPut 11 7 8; NWait 11] = [[1; 2]; [3; 4]; []; [7; 8]].
Proof. split; [cbn; lia|reflexivity]. Qed.

Print Assumptions C36_same_array_partial.
Print Assumptions C36_other_array_partial.
Print Assumptions C36_inside_partial.
Print Assumptions C36_source_changed_refuted.
Print Assumptions C36_three_dimensions_refuted.
Print Assumptions C36_wrong_element_refuted.
Print Assumptions C58_notify_handles.
