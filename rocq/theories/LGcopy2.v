(** Lemmas: the pieces of a walk are good transfer requests. *)
From Verif Require Import LDecomp LIterReg2 LIterReg3 LXfer2 LStore LLoc LAccess LSelect2.
From Verif Require Export LGcopy.
Open Scope Z_scope.

(** Leading dimensions that address like [sh] are those of [sh]. *)
Lemma lin_zero ld n : lin ld (repeat 0 n) = 0.
Proof. revert ld. induction n as [|[|n] IH]; intros [|l ld]; try reflexivity. change (repeat 0 (S (S n))) with (0 :: repeat 0 (S n)). change (0 + l * lin ld (repeat 0 (S n)) = 0). rewrite IH. lia. Qed.

Lemma lin_pins n : forall ld sh, length sh = S n -> Forall (fun d => 1 <= d) sh ->
  (forall k, length k = S n -> lin ld k = lin sh k) -> firstn n ld = firstn n sh.
Proof.
  induction n as [|n IH]; intros ld sh HL HP HK; [reflexivity|].
  destruct sh as [|s sh]; [discriminate|]. apply Forall_cons_iff in HP as [Hs HP]. cbn [length] in HL.
  pose proof (HK (0 :: 1 :: repeat 0 n) ltac:(cbn; rewrite repeat_length; lia)) as E.
  assert (L1 : forall l, lin l (1 :: repeat 0 n) = 1).
  { intros l. destruct n as [|n']; [reflexivity|]. destruct l as [|y l]; [reflexivity|].
    change (1 + y * lin l (repeat 0 (S n')) = 1). rewrite lin_zero. lia. }
  change (lin (s :: sh) (0 :: 1 :: repeat 0 n)) with (0 + s * lin sh (1 :: repeat 0 n)) in E. rewrite L1 in E.
  destruct ld as [|l ld]; [cbn in E; lia|].
  change (lin (l :: ld) (0 :: 1 :: repeat 0 n)) with (0 + l * lin ld (1 :: repeat 0 n)) in E. rewrite L1 in E.
  assert (l = s) by lia. subst l. cbn [firstn]. f_equal. apply IH; [lia|exact HP|].
  intros [|a k] Hk; [discriminate|]. specialize (HK (0 :: a :: k) ltac:(cbn in *; lia)).
  change (0 + s * lin ld (a :: k) = 0 + s * lin sh (a :: k)) in HK. nia.
Qed.

Lemma Forall_firstn {A} (P : A -> Prop) n l : Forall P l -> Forall P (firstn n l).
Proof. intros H. revert n. induction H; intros [|n]; cbn; constructor; auto. Qed.
Lemma firstn_zprod n l : Forall (fun d => 1 <= d) l -> 1 <= zprod (firstn n l) <= zprod l.
Proof.
  intros H. split; [apply zprod_pos, Forall_firstn, H|]. revert n.
  induction H as [|d l Hd H IH]; intros [|n]; cbn [firstn zprod]; try lia.
  - pose proof (zprod_pos l H). cbn. nia.
  - specialize (IH n). pose proof (zprod_pos _ (Forall_firstn _ n _ H)). cbn. nia.
Qed.

Lemma ld_valid lo hi sh ld n : S n = length lo -> length hi = length lo -> Forall2 Z.le (extents lo hi) sh ->
  firstn n ld = firstn n sh -> valid_ld lo hi ld.
Proof.
  revert hi sh ld n. induction lo as [|l lo IH]; intros hi sh ld n HN HL HE HF; [discriminate|].
  destruct hi as [|h hi]; [discriminate|]. cbn [length] in *. destruct lo as [|l' lo]; [exact I|].
  cbn [extents] in HE. inversion HE as [|? s ? sh' H1 H2]; subst. destruct n as [|n]; [discriminate|].
  destruct ld as [|d ld]; [discriminate|]. cbn [firstn] in HF. injection HF as -> HF. split; [lia|].
  eapply (IH hi sh' ld n); auto; cbn in *; lia.
Qed.

(** [es * zprod sh] fits in an int, [sh] is at least the box, [ld] as [sh]. *)
Lemma piece_request a shape lo hi ld sh :
  in_array (dims (ga_desc a)) lo -> in_array (dims (ga_desc a)) hi -> Forall2 Z.le lo hi -> lo <> [] ->
  Forall2 Z.le (extents lo hi) sh -> firstn (length lo - 1) ld = firstn (length lo - 1) sh ->
  small_local a shape -> (forall s, shape s -> length s = length lo /\ Forall (fun d => 1 <= d) s) ->
  ga_elemsize a * zprod sh <= int_max ->
  good_request a shape lo hi ld /\ splittable (ga_elemsize a) lo hi.
Proof.
  intros H1 H2 H3 Hne HE HF [S1 S2] HS HB.
  destruct (LXfer2.extents_pos lo hi H3) as [EL EP].
  assert (SP : Forall (fun d => 1 <= d) sh).
  { clear - EP HE. revert EP HE. generalize (extents lo hi). intros l EP HE. induction HE; constructor; inversion EP; subst; [lia|auto]. }
  pose proof (zprod_pos sh SP) as ZP. pose proof (Forall2_len _ _ _ HE) as SL.
  pose proof (Forall2_len _ _ _ H3) as HLh.
  assert (S3 : ga_elemsize a <= int_max) by nia.
  assert (ZE : zprod (extents lo hi) <= zprod sh) by (apply LDecomp.zprod_le; auto).
  assert (FS : forall s i, Forall (fun d => 1 <= d) s -> ga_elemsize a * zprod s <= int_max ->
             ga_elemsize a * zprod (firstn i s) <= int_max).
  { intros s i Hs Hb. destruct (firstn_zprod i s Hs). nia. }
  split.
  - split; [exact H1|]. split; [exact H2|]. split; [exact H3|]. split.
    { eapply ld_valid; [| |exact HE|exact HF]; [destruct lo; [congruence|cbn; lia]|congruence]. }
    split; [lia|]. split.
    { unfold int_counts. destruct (extents lo hi) as [|e es] eqn:EE; [exact I|]. 
      assert (forall v, In v (e :: es) -> v <= zprod sh).
      { intros v Hv. apply In_nth_error in Hv as (i & Hi). pose proof (zprod_ge_elem _ _ _ EP Hi). lia. }
      split; [|apply Forall_forall; intros v Hv; specialize (H v Hv); nia].
      specialize (H e (or_introl eq_refl)). apply Forall_cons_iff in EP as [Ee _]. nia. }
    split.
    { intros i Hi. replace (firstn (S i) ld) with (firstn (S i) sh); [apply FS; auto|].
      replace (S i) with (Nat.min (S i) (length lo - 1)) by lia. rewrite <- !firstn_firstn, HF. reflexivity. }
    intros s Hs i Hi. apply FS; [apply HS, Hs|apply S2, Hs].
  - intros i Hi. unfold max_int_value. unfold int_max in *.
    assert (zprod (upd i 1 (extents lo hi)) <= zprod (extents lo hi)).
    { apply LDecomp.zprod_le.
      - clear - EP. revert i. induction EP as [|d l Hd EP IH]; intros [|i]; cbn; constructor; auto; lia.
      - clear - EP. revert i. induction EP as [|d l Hd EP IH]; intros [|i]; cbn; constructor; auto; try lia.
        clear - EP. induction EP; constructor; auto; lia. }
    nia.
Qed.

(** ---- transfers of any layout ---- *)
Lemma any_storage a wn placed shape : any_layout a wn placed shape ->
  exists alloc, sound_storage a placed alloc.
Proof.
  intros [(W & -> & ->)|(HG & [(T & W & E & HN & -> & ->)|[(T & W & WG & HF & -> & ->)|(T & W & WG & HF & -> & ->)]])].
  - eexists. apply (regular_storage a 0 W).
  - eexists. apply bc_storage; auto. apply HN.
  - eexists. apply (tiled_storage a 0); auto.
  - eexists. apply (scalapack_storage a 0); auto.
Qed.

Lemma any_transfers guess rnd wn smp a lo hi ld sh placed shape :
  good_guess guess -> (forall k, 0 <= rnd k) -> any_layout a wn placed shape -> small_local a shape ->
  in_array (dims (ga_desc a)) lo -> in_array (dims (ga_desc a)) hi -> Forall2 Z.le lo hi ->
  Forall2 Z.le (extents lo hi) sh -> firstn (length lo - 1) ld = firstn (length lo - 1) sh ->
  ga_elemsize a * zprod sh <= int_max ->
  exists ts, gives_transfers guess rnd wn smp a lo hi ld placed ts.
Proof.
  intros HG HR HL HS H1 H2 H3 HE HF HB. destruct HL as [(W & -> & ->)|HL].
  - assert (SPL : good_request a (reg_shape a) lo hi ld /\ splittable (ga_elemsize a) lo hi).
    { pose proof (in_array_length _ _ H1) as LL. apply (piece_request a _ lo hi ld sh); auto.
      - intros ->. pose proof (wf_array_dims a W). destruct (dims (ga_desc a)); [auto|discriminate].
      - intros s (p & l & h & Hp & E & F & ->). destruct W as (W & W1 & W2 & _).
        destruct (regular_blocks_inside _ _ _ W Hp) as (l1 & h1 & E1 & HI).
        rewrite E in E1. injection E1 as <- <-.
        pose proof (in_array_length _ _ (HI _ (lo_in_box _ _ F))).
        destruct (padded_pos l h (ga_width a) F ltac:(lia) W2). split; [lia|assumption]. }
    apply regular_transfers; tauto.
  - destruct (block_cover guess rnd wn a lo hi placed shape HL H1 H2 H3) as (C1 & C2 & C3).
    apply (block_transfers guess rnd wn smp a lo hi ld placed shape HL).
    apply (piece_request a shape lo hi ld sh); auto.
Qed.
