(** Lemmas on the tables of all processes and on the whole update. *)
From Coq Require Import ZArith List Lia Bool.
From Verif Require Import SpecBox SpecStore SpecPeri SpecGhost MBase SpecCopy MXfer MOdo MGhost LRadix LAxis LIterReg LIterReg2 LIterReg3 LXfer LOdo LIterBlk LGhost LGhost2 LGhost3 LGhost4 LGhost5 LDist.

(** ---- the check of the distribution ---- *)
Lemma check_dim_ok d n m w : valid_map d n m -> wide_axis w (map_axis d n m) -> forall k np, 0 <= np -> np + Z.of_nat k = n -> check_dim k np n d w m = Some true.
Proof.
  intros HV HW. pose proof HV as (Hd & Hn & Hl & _). induction k as [|k IH]; intros np H0 Hk; [reflexivity|]. cbn [check_dim].
  rewrite (zget_nth m np) by lia. destruct (HW np) as [A B]; [cbn [map_axis an]; lia|]. cbn [map_axis alo ahi] in A, B.
  destruct (Z.ltb_spec np (n - 1)).
  - rewrite (zget_nth m (np + 1)) by lia. destruct (Z.eqb_spec np (n - 1)); [lia|]. destruct (Z.ltb_spec (nth (Z.to_nat (np + 1)) m 0 - nth (Z.to_nat np) m 0 + 1) w); [lia|]. apply IH; lia.
  - destruct (Z.eqb_spec np (n - 1)); [|lia]. destruct (Z.ltb_spec (d - nth (Z.to_nat np) m 0 + 1) w); [lia|]. apply IH; lia.
Qed.
Lemma check_distr_ok dims : forall nblock mapc w, valid_maps dims nblock mapc -> length w = length dims ->
  (forall j, (j < length dims)%nat -> wide_axis (nth j w 0) (nth j (map_axes dims nblock mapc) ax0)) -> check_ghost_distr dims nblock mapc w = Some true.
Proof.
  induction dims as [|d dims IH]; intros [|n nb] m [|g w]; try discriminate; cbn [valid_maps]; try tauto; intros HV HL HW.
  destruct HV as [HV1 HV2]. cbn [check_ghost_distr]. pose proof HV1 as (_ & Hn & _). rewrite check_dim_ok; [|exact HV1|exact (HW O ltac:(cbn; lia))|lia|lia].
  apply IH; [exact HV2|cbn in HL; lia|]. intros j Hj. exact (HW (S j) ltac:(cbn; lia)).
Qed.

(** ---- the size of the buffers ---- *)
Lemma buf_len_ok tot n : 0 <= tot -> forall acc lo hi w, length lo = n -> length hi = n -> length w = n ->
  (forall j, (j < n)%nat -> 1 <= nth j hi 0 - nth j lo 0 + 1 + 2 * nth j w 0) ->
  exists N, buf_len tot acc lo hi w = Some N /\ acc <= N /\ forall j, (j < n)%nat -> tot / (nth j hi 0 - nth j lo 0 + 1 + 2 * nth j w 0) * nth j w 0 <= N.
Proof.
  intros Ht. induction n as [|n IH]; intros acc [|l lo] [|h hi] [|g w]; try discriminate; intros L1 L2 L3 HD.
  - exists acc. split; [reflexivity|]. split; [lia|]. intros j Hj. lia.
  - apply Sn_all in HD as [H0 HD]. cbn [nth] in H0. cbn [buf_len]. unfold cdiv. destruct (Z.eqb_spec (h - l + 1 + 2 * g) 0); [lia|]. rewrite Z.quot_div_nonneg by lia.
    set (q := tot / (h - l + 1 + 2 * g)). destruct (IH (if acc <? q * g then q * g else acc) lo hi w) as (N & E & A & B); [cbn in *; lia..|exact HD|].
    exists N. split; [exact E|]. split; [destruct (Z.ltb_spec acc (q * g)); lia|]. intros [|j] Hj; [cbn [nth]; fold q; destruct (Z.ltb_spec acc (q * g)); lia|]. cbn [nth]. apply B. lia.
Qed.

Lemma zseq_seq k : forall l, zseq (Z.of_nat l) k = map Z.of_nat (seq l k).
Proof. induction k as [|k IH]; intros l; [reflexivity|]. cbn [zseq seq map]. f_equal. rewrite <- IH. f_equal. lia. Qed.

Section U.
Variable guess : Z -> Z -> Z -> Z.
Variable a : garray.
Variable seg : Z -> Z.
Hypothesis Hg : good_guess guess.
Hypothesis HA : ghost_array a.
Notation g := (ga_desc a).
Notation n := (length (dims (ga_desc a))).
Notation es := (ga_elemsize a).
Notation nproc := (ga_nproc a).
Notation Lo := (L a). Notation Hi := (H a). Notation Wi := (W a).
Notation Ei := (E a).
Notation ps := (zseq 0 (Z.to_nat (ga_nproc a))).

Fixpoint msgs (flag : bool) (i k : nat) (p : Z) : list gmsg :=
  match k with
  | O => []
  | S k' => (if Wi i =? 0 then [] else [ent a seg flag i true p; ent a seg flag i false p]) ++ msgs flag (S i) k' p
  end.
Lemma msgs_len flag k : forall i p q, length (msgs flag i k p) = length (msgs flag i k q).
Proof. induction k as [|k IH]; intros i p q; [reflexivity|]. cbn [msgs]. rewrite !app_length, (IH (S i) p q). destruct (_ =? _); reflexivity. Qed.

Lemma info_loop_ok flag p : 0 <= p < nproc -> forall k i inc, (i + k = n)%nat -> inc_ok a flag i inc ->
  info_loop guess a seg p (lo a p) (hi a p) flag inc (Z.of_nat i) (skipn i (ga_width a)) = Some (msgs flag i k p).
Proof.
  intros Hp. induction k as [|k IH]; intros i inc Hk HI.
  - rewrite skipn_all2 by (rewrite (w_len a HA); lia). reflexivity.
  - assert (Hi : (i < n)%nat) by lia.
    assert (ES : skipn i (ga_width a) = Wi i :: skipn (S i) (ga_width a)).
    { unfold W. assert (LT : (i < length (ga_width a))%nat) by (rewrite (w_len a HA); exact Hi). revert LT. generalize (ga_width a). clear. induction i as [|i IH]; intros [|x l] LT; cbn in LT; try lia; [reflexivity|]. cbn [skipn nth]. apply IH. lia. }
    rewrite ES. cbn [info_loop msgs]. pose proof (w_nonneg a HA i Hi) as W0.
    assert (HI' : inc_ok a flag (S i) (if flag then upd (Z.to_nat (Z.of_nat i)) (2 * Wi i) inc else inc)).
    { rewrite Nat2Z.id. destruct HI as [HL HI]. destruct flag; cbn [andb] in *; split; rewrite ?upd_len; auto.
      intros j Hj. rewrite nth_upd by (rewrite HL; exact Hj). rewrite HI by exact Hj. destruct (Nat.eqb_spec j i) as [->|N].
      - destruct (Nat.ltb_spec i (S i)); [reflexivity|lia].
      - destruct (Nat.ltb_spec j i), (Nat.ltb_spec j (S i)); try lia; reflexivity. }
    replace (Z.of_nat i + 1) with (Z.of_nat (S i)) by lia. specialize (IH (S i) _ ltac:(lia) HI').
    destruct (Z.eqb_spec (Wi i) 0) as [E0|E0].
    + rewrite IH. reflexivity.
    + rewrite !(gmsg_ok a HA guess Hg seg flag _ i p inc) by (auto; lia). rewrite IH. reflexivity.
Qed.

Lemma buf_ok p : 0 <= p < nproc -> exists N, buf_elems (lo a p) (hi a p) (ga_width a) = Some N /\ forall flag i, (i < n)%nat -> 1 <= Wi i -> zprod (cnt a flag i p) <= N.
Proof.
  intros Hp. unfold buf_elems. fold (ld a p).
  assert (LP : forall j, (j < n)%nat -> 1 <= nth j (ld a p) 0).
  { intros j Hj. rewrite ld_nth by auto. pose proof (LH a HA p j Hp Hj). pose proof (w_nonneg a HA j Hj). lia. }
  assert (LF : Forall (fun d => 1 <= d) (ld a p)) by (apply (Forall_nth_list _ _ n); [apply ld_len; auto|exact LP]).
  pose proof (zprod_pos _ LF) as HZ.
  destruct (buf_len_ok (zprod (ld a p)) n ltac:(lia) 1 (lo a p) (hi a p) (ga_width a)) as (N & E1 & _ & B); [apply lo_len; auto|apply hi_len; auto|apply w_len; auto| |].
  { intros j Hj. specialize (LP j Hj). rewrite ld_nth in LP by auto. rewrite lo_nth, hi_nth by auto. exact LP. }
  exists N. split; [exact E1|]. intros flag i Hi Hw. specialize (B i Hi). rewrite lo_nth, hi_nth in B by auto. fold (Wi i) in B. rewrite <- ld_nth in B by auto.
  set (d := nth i (ld a p) 0) in *. specialize (LP i Hi) as LPi. fold d in LPi.
  assert (EZ : zprod (ld a p) = d * zprod (upd i 1 (ld a p))).
  { rewrite <- zprod_upd by (rewrite ld_len; auto). rewrite upd_same; [reflexivity|]. unfold d. apply nth_error_nth'. rewrite ld_len; auto. }
  rewrite EZ, (Z.mul_comm d), Z.div_mul in B by lia.
  assert (EC : zprod (cnt a flag i p) = Wi i * zprod (upd i 1 (cnt a flag i p))).
  { rewrite <- zprod_upd by (unfold cnt; rewrite tab_length; auto). rewrite upd_same; [reflexivity|].
    assert (X : nth i (cnt a flag i p) 0 = Wi i) by (unfold cnt; rewrite nth_tab by exact Hi; unfold cntf; now rewrite Nat.eqb_refl).
    rewrite <- X. apply nth_error_nth'. unfold cnt. now rewrite tab_length. }
  assert (LE : 0 <= zprod (upd i 1 (cnt a flag i p)) <= zprod (upd i 1 (ld a p))).
  { apply zprod_le_pointwise. apply (Forall2_nth_list _ n); [rewrite upd_len; apply tab_length|rewrite upd_len; apply ld_len; auto|].
    intros j Hj. rewrite !nth_upd by (unfold cnt; rewrite ?tab_length, ?ld_len; auto). destruct (Nat.eqb j i); [lia|]. unfold cnt. rewrite nth_tab by exact Hj.
    pose proof (slo_fits a HA flag true i p j Hp Hi Hj). pose proof (cnt_pos a HA flag i p j Hp Hj Hw). lia. }
  rewrite EC. nia.
Qed.

Definition bufn p : Z := if forallb (fun w => w =? 0) (ga_width a) then 0 else match buf_elems (lo a p) (hi a p) (ga_width a) with Some N => N | None => 0 end.
Lemma bufn_ok p flag i : 0 <= p < nproc -> (i < n)%nat -> 1 <= Wi i -> zprod (cnt a flag i p) <= bufn p.
Proof.
  intros Hp Hi Hw. unfold bufn. destruct (forallb _ _) eqn:F.
  - rewrite forallb_forall in F. assert (I : In (Wi i) (ga_width a)) by (apply nth_In; rewrite (w_len a HA); exact Hi). specialize (F _ I). lia.
  - destruct (buf_ok p Hp) as (N & -> & B). now apply B.
Qed.

Lemma msgs_zero flag p : forallb (fun w => w =? 0) (ga_width a) = true -> forall k i, (i + k <= n)%nat -> msgs flag i k p = [].
Proof.
  intros F. rewrite forallb_forall in F. induction k as [|k IH]; intros i Hk; [reflexivity|]. cbn [msgs].
  assert (I : In (Wi i) (ga_width a)) by (apply nth_In; rewrite (w_len a HA); lia). rewrite (F _ I). apply IH. lia.
Qed.

Lemma info_ok flag p : 0 <= p < nproc -> set_update4_info guess a seg flag p = Some (Some (bufn p, msgs flag 0 n p)).
Proof.
  intros Hp. unfold set_update4_info, bufn. destruct (forallb _ _) eqn:F; [rewrite msgs_zero by (auto; lia); reflexivity|].
  rewrite check_distr_ok; [|apply ga_maps; auto|apply w_len; auto|intros j Hj; apply wide; auto]. rewrite dist_ok by auto. cbn [fst snd].
  assert (EX : existsb (fun q => (fst q =? 0) && (snd q =? -1)) (combine (lo a p) (hi a p)) = false).
  { apply not_true_is_false. intros X. apply existsb_exists in X as ((l & h) & X1 & X2). cbn [fst snd] in X2. apply in_combine_l in X1.
    apply (In_nth _ _ 0) in X1 as (j & Hj & <-). rewrite lo_len in Hj by auto. rewrite lo_nth in X2 by auto. pose proof (LH a HA p j Hp Hj). lia. }
  rewrite EX. destruct (buf_ok p Hp) as (N & -> & _). pose proof (info_loop_ok flag p Hp n 0 (repeat 0 n) ltac:(lia)) as I. cbn [skipn] in I. change (Z.of_nat 0) with 0 in I. rewrite I; [reflexivity|].
  split; [apply repeat_length|]. intros j Hj. rewrite nth_repeat. rewrite andb_comm. cbn. reflexivity.
Qed.

Lemma tables_ok flag : ghost_tables guess a seg flag = Some (map (fun p => (p, (bufn p, msgs flag 0 n p))) ps).
Proof.
  unfold ghost_tables. change 0 with (Z.of_nat 0). rewrite zseq_seq, map_map. apply mapM_ok. intros r Hr. apply in_seq in Hr. unfold abs_rank. rewrite (ga_world a HA).
  rewrite info_ok by lia. reflexivity.
Qed.

(** ---- the exchange ---- *)
Definition own_box (p : Z) (x : list Z) : Prop := length x = n /\ forall j, (j < n)%nat -> Lo p j <= nth j x 0 <= Hi p j.
(** The cells that are right after the messages for the dimensions below [i]. *)
Definition done_box (flag : bool) (i : nat) (p : Z) (x : list Z) : Prop :=
  length x = n /\ (forall j, (j < n)%nat -> if (j <? i)%nat then Lo p j - Wi j <= nth j x 0 <= Hi p j + Wi j else Lo p j <= nth j x 0 <= Hi p j) /\
  (flag = false -> exists i0, forall j, (j < n)%nat -> j <> i0 -> Lo p j <= nth j x 0 <= Hi p j).

Lemma done_0 flag p x : done_box flag 0 p x <-> own_box p x.
Proof.
  split.
  - intros (A & B & _). split; [exact A|]. intros j Hj. exact (B j Hj).
  - intros (A & B). split; [exact A|]. split; [intros j Hj; exact (B j Hj)|]. intros _. exists O. intros j Hj _. exact (B j Hj).
Qed.
Lemma snd_done flag i p x : snd_box a flag i p x -> done_box flag i p x.
Proof.
  intros (A & B). split; [exact A|]. split.
  - intros j Hj. specialize (B j Hj). unfold E in B. pose proof (w_nonneg a HA j Hj). destruct (Nat.ltb_spec j i); destruct flag; cbn [andb] in B; lia.
  - intros ->. exists O. intros j Hj _. specialize (B j Hj). unfold E in B. cbn [andb] in B. lia.
Qed.
Lemma rcv_done flag neg i p x : (i < n)%nat -> 0 <= p < nproc -> rcv_box a flag neg i p x -> done_box flag (S i) p x.
Proof.
  intros Hin Hp (A & B). split; [exact A|]. split.
  - intros j Hj. specialize (B j Hj). pose proof (w_nonneg a HA j Hj). pose proof (LH a HA p j Hp Hj). destruct (Nat.eqb_spec j i) as [Ej|N]; [subst j|].
    + destruct (Nat.ltb_spec i (S i)); [|lia]. destruct neg; lia.
    + unfold E in B. destruct (Nat.ltb_spec j (S i)), (Nat.ltb_spec j i); try lia; destruct flag; cbn [andb] in B; lia.
  - intros ->. exists i. intros j Hj N. specialize (B j Hj). destruct (Nat.eqb_spec j i); [contradiction|]. unfold E in B. cbn [andb] in B. lia.
Qed.
Lemma done_mono flag i p x : done_box flag i p x -> done_box flag (S i) p x.
Proof.
  intros (A & B & C). split; [exact A|]. split; [|exact C]. intros j Hj. specialize (B j Hj). pose proof (w_nonneg a HA j Hj). destruct (Nat.ltb_spec j i), (Nat.ltb_spec j (S i)); lia.
Qed.
Lemma done_pad flag i p x : done_box flag i p x -> pad_box a p x.
Proof. intros (A & B & C). split; [exact A|]. intros j Hj. specialize (B j Hj). pose proof (w_nonneg a HA j Hj). destruct (Nat.ltb_spec j i); lia. Qed.
Lemma done_next flag i p x : (i < n)%nat -> done_box flag (S i) p x -> done_box flag i p x \/ rcv_box a flag true i p x \/ rcv_box a flag false i p x.
Proof.
  intros Hin (A & B & C). specialize (B i Hin) as Bi. destruct (Nat.ltb_spec i (S i)); [|lia].
  assert (Bo : forall j, (j < n)%nat -> j <> i -> if (j <? i)%nat then Lo p j - Wi j <= nth j x 0 <= Hi p j + Wi j else Lo p j <= nth j x 0 <= Hi p j).
  { intros j Hj N. specialize (B j Hj). destruct (Nat.ltb_spec j i), (Nat.ltb_spec j (S i)); try lia. }
  assert (D : Lo p i <= nth i x 0 <= Hi p i \/ Hi p i + 1 <= nth i x 0 <= Hi p i + Wi i \/ Lo p i - Wi i <= nth i x 0 <= Lo p i - 1) by lia.
  assert (OE : forall j, (j < n)%nat -> j <> i -> nth i x 0 < Lo p i \/ Hi p i < nth i x 0 -> Lo p j - Ei flag i j <= nth j x 0 <= Hi p j + Ei flag i j).
  { intros j Hj N O. specialize (Bo j Hj N). unfold E. destruct flag; cbn [andb].
    - destruct (Nat.ltb_spec j i); lia.
    - destruct (C eq_refl) as (i0 & C0). assert (i0 = i) as ->; [|specialize (C0 j Hj N); lia]. destruct (Nat.eq_dec i0 i); [assumption|]. specialize (C0 i Hin ltac:(congruence)). lia. }
  destruct D as [D|[D|D]]; [left|right; left|right; right].
  - split; [exact A|]. split; [|exact C]. intros j Hj. destruct (Nat.eq_dec j i) as [->|N]; [destruct (Nat.ltb_spec i i); [lia|exact D]|]. exact (Bo j Hj N).
  - split; [exact A|]. intros j Hj. destruct (Nat.eqb_spec j i) as [->|N]; [exact D|]. apply OE; auto. lia.
  - split; [exact A|]. intros j Hj. destruct (Nat.eqb_spec j i) as [->|N]; [exact D|]. apply OE; auto. lia.
Qed.
Lemma done_rcv flag neg i p x : (i < n)%nat -> done_box flag i p x -> rcv_box a flag neg i p x -> False.
Proof. intros Hin (_ & B & _) (_ & R). specialize (B i Hin). specialize (R i Hin). rewrite Nat.eqb_refl in R. destruct (Nat.ltb_spec i i); [lia|]. destruct neg; lia. Qed.
Lemma rcv_rcv flag i p x : (i < n)%nat -> 0 <= p < nproc -> rcv_box a flag true i p x -> rcv_box a flag false i p x -> False.
Proof. intros Hin Hp (_ & B) (_ & R). specialize (B i Hin). specialize (R i Hin). rewrite Nat.eqb_refl in B, R. pose proof (LH a HA p i Hp Hin). lia. Qed.

Lemma heads flag i k' (h : Z -> gmsg) (t : Z -> list gmsg) : (forall p, msgs flag i k' p = h p :: t p) -> forall f : Z -> Z,
  mapM head_entry (map (fun p => (p, (f p, h p :: t p))) ps) = Some (map (fun p => (p, (f p, h p))) ps) /\
  map tail_entries (map (fun p => (p, (f p, h p :: t p))) ps) = map (fun p => (p, (f p, t p))) ps.
Proof.
  intros _ f. split; [rewrite mapM_map; apply mapM_ok; reflexivity|]. rewrite map_map. apply map_ext. reflexivity.
Qed.

Lemma exchange_ok {V} flag (G : list Z -> V) (m0 : Z -> pmem V) : forall k i (m : Z -> pmem V), (i + k = n)%nat ->
  (forall p x, 0 <= p < nproc -> pad_box a p x -> m p (seg p) (cell a p x) <> None) ->
  (forall p x, 0 <= p < nproc -> done_box flag i p x -> m p (seg p) (cell a p x) = Some (G (wrapv (dims g) x))) ->
  (forall p s o, (0 <= p < nproc -> s = seg p -> forall x, done_box flag i p x -> o <> cell a p x) -> m p s o = m0 p s o) ->
  exists m', exchange (length (msgs flag i k 0)) true es (map (fun p => (p, (bufn p, msgs flag i k p))) ps) m = Some m' /\
    (forall p x, 0 <= p < nproc -> done_box flag n p x -> m' p (seg p) (cell a p x) = Some (G (wrapv (dims g) x))) /\
    (forall p s o, (0 <= p < nproc -> s = seg p -> forall x, done_box flag n p x -> o <> cell a p x) -> m' p s o = m0 p s o).
Proof.
  induction k as [|k IH]; intros i m Hk HP HD HU.
  - assert (i = n) as -> by lia. exists m. split; [reflexivity|]. auto.
  - assert (Hin : (i < n)%nat) by lia. cbn [msgs]. destruct (Z.eqb_spec (Wi i) 0) as [E0|E0].
    + cbn [app]. apply IH; auto; [lia| |].
      * intros p x Hp B. apply HD; auto. destruct (done_next flag i p x Hin B) as [B'|[B'|B']]; auto; destruct B' as [_ B']; specialize (B' i Hin); rewrite Nat.eqb_refl in B'; lia.
      * intros p s o O. apply HU. intros Hp Es x B. apply O; auto. now apply done_mono.
    + pose proof (w_nonneg a HA i Hin) as W0. assert (Hw : 1 <= Wi i) by lia. cbn [app length exchange].
      destruct (heads flag i (S k) (ent a seg flag i true) (fun p => ent a seg flag i false p :: msgs flag (S i) k p)) with (f := bufn) as [-> ->].
      { intros p. cbn [msgs]. destruct (Z.eqb_spec (Wi i) 0); [lia|reflexivity]. }
      destruct (phase_ghost a seg HA flag true i bufn G m Hin Hw) as (m1 & -> & A1 & A2); auto.
      { intros p Hp. now apply bufn_ok. }
      { intros p x Hp B. apply HD; auto. now apply snd_done. }
      assert (HP1 : forall p x, 0 <= p < nproc -> pad_box a p x -> m1 p (seg p) (cell a p x) <> None).
      { intros p x Hp B. destruct (match_rcv a seg flag true i p x) as [R|R].
        - rewrite A1; [discriminate|auto|exact R].
        - rewrite A2; [now apply HP|]. intros _ _ y Ry Ey. apply (cell_inj a seg HA p) in Ey; auto; [subst y; contradiction|]. apply (rcv_pad a seg HA flag true i); auto. }
      assert (HD1 : forall p x, 0 <= p < nproc -> done_box flag i p x -> m1 p (seg p) (cell a p x) = Some (G (wrapv (dims g) x))).
      { intros p x Hp B. rewrite A2; [now apply HD|]. intros _ _ y Ry Ey. apply (cell_inj a seg HA p) in Ey; auto; [subst y; eapply done_rcv; eauto|eapply done_pad; eauto|apply (rcv_pad a seg HA flag true i); auto]. }
      cbn [negb].
      destruct (phase_ghost a seg HA flag false i bufn G m1 Hin Hw) as (m2 & E2 & B1 & B2); auto.
      { intros p Hp. now apply bufn_ok. }
      { intros p x Hp B. apply HD1; auto. now apply snd_done. }
      assert (E3 : forall f : Z -> Z, mapM head_entry (map (fun p => (p, (f p, ent a seg flag i false p :: msgs flag (S i) k p))) ps) = Some (map (fun p => (p, (f p, ent a seg flag i false p))) ps) /\
        map tail_entries (map (fun p => (p, (f p, ent a seg flag i false p :: msgs flag (S i) k p))) ps) = map (fun p => (p, (f p, msgs flag (S i) k p))) ps).
      { intros f. split; [rewrite mapM_map; apply mapM_ok; reflexivity|]. rewrite map_map. apply map_ext. reflexivity. }
      destruct (E3 bufn) as [-> ->]. rewrite E2.
      apply IH; [lia| | |].
      * intros p x Hp B. destruct (match_rcv a seg flag false i p x) as [R|R].
        -- rewrite B1; [discriminate|auto|exact R].
        -- rewrite B2; [now apply HP1|]. intros _ _ y Ry Ey. apply (cell_inj a seg HA p) in Ey; auto; [subst y; contradiction|]. apply (rcv_pad a seg HA flag false i); auto.
      * intros p x Hp B. destruct (done_next flag i p x Hin B) as [B'|[B'|B']]; [| |now apply B1].
        -- rewrite B2; [now apply HD1|]. intros _ _ y Ry Ey. apply (cell_inj a seg HA p) in Ey; auto; [subst y; eapply done_rcv; eauto|eapply done_pad; eauto|apply (rcv_pad a seg HA flag false i); auto].
        -- rewrite B2; [now apply A1|]. intros _ _ y Ry Ey. apply (cell_inj a seg HA p) in Ey; auto; [subst y; eapply rcv_rcv; eauto|eapply done_pad; eauto|apply (rcv_pad a seg HA flag false i); auto].
      * intros p s o O. rewrite B2, A2; [apply HU| |]; intros Hp Es x B; apply O; auto; [now apply done_mono|eapply rcv_done; eauto..].
Qed.
End U.
