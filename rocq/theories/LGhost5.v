(** Lemmas on the exchange of ghost cells of an array. *)
From Coq Require Import ZArith List Lia Bool.
From Verif Require Import SpecBox SpecStore SpecPeri SpecGhost MBase SpecCopy MXfer MOdo MGhost LRadix LAxis LIterReg LIterReg2 LIterReg3 LXfer LOdo LIterBlk LGhost LGhost2 LGhost3 LGhost4 LDist.

Lemma Z_le_le_dec x y z : {x <= y <= z} + {~ x <= y <= z}.
Proof. destruct (Z_le_dec x y), (Z_le_dec y z); [left|right|right|right]; lia. Qed.

Section P.
Variable guess : Z -> Z -> Z -> Z.
Variable a : garray.
Variable seg : Z -> Z.
Hypothesis Hg : good_guess guess.
Hypothesis HA : ghost_array a.
Notation g := (ga_desc a).
Notation n := (length (dims (ga_desc a))).
Notation es := (ga_elemsize a).
Notation nproc := (ga_nproc a).
Notation Lo := (L a). Notation Hi := (H a). Notation Wi := (W a).
Notation Ei := (E a).
Notation ps := (zseq 0 (Z.to_nat (ga_nproc a))).
Definition cell (p : Z) (x : list Z) : Z := ghost_cell (ga_width a) (lo a p) (hi a p) x.

Lemma ps_In p : In p ps <-> 0 <= p < nproc.
Proof. rewrite zseq_In. lia. Qed.

Definition pad_box (p : Z) (x : list Z) : Prop := length x = n /\ forall j, (j < n)%nat -> Lo p j - Wi j <= nth j x 0 <= Hi p j + Wi j.
Definition snd_box flag i (p : Z) (x : list Z) : Prop := length x = n /\ forall j, (j < n)%nat -> Lo p j - Ei flag i j <= nth j x 0 <= Hi p j + Ei flag i j.
Definition rcv_box flag (neg : bool) i (p : Z) (x : list Z) : Prop := length x = n /\ forall j, (j < n)%nat ->
  if Nat.eqb j i then (if neg then Hi p j + 1 <= nth j x 0 <= Hi p j + Wi j else Lo p j - Wi j <= nth j x 0 <= Lo p j - 1)
  else Lo p j - Ei flag i j <= nth j x 0 <= Hi p j + Ei flag i j.

Lemma has_cell_pad p x : 0 <= p < nproc -> (has_cell (ga_width a) (lo a p) (hi a p) x <-> pad_box p x).
Proof.
  intros Hp. unfold has_cell, pad_box. assert (Ll : length (vsub (lo a p) (ga_width a)) = n) by (rewrite vsub_length; rewrite ?lo_len, ?w_len; auto).
  assert (Lh : length (vadd (hi a p) (ga_width a)) = n) by (rewrite vadd_length; rewrite ?hi_len, ?w_len; auto).
  split.
  - intros B. destruct (in_box_lengths _ _ _ B) as [B1 B2]. assert (Lx : length x = n) by congruence. split; [exact Lx|].
    rewrite (in_box_nth n) in B by auto. intros j Hj. specialize (B j Hj). rewrite nth_vsub, nth_vadd in B by (rewrite ?lo_len, ?hi_len, ?w_len; auto).
    rewrite lo_nth, hi_nth in B by auto. exact B.
  - intros [Lx B]. apply (in_box_nth n); auto. intros j Hj. specialize (B j Hj). rewrite nth_vsub, nth_vadd by (rewrite ?lo_len, ?hi_len, ?w_len; auto).
    rewrite lo_nth, hi_nth by auto. exact B.
Qed.

(** Cells by local position. *)
Definition gx p (f : nat -> Z) (k : list Z) : list Z := tab n (fun j => Lo p j - Wi j + f j + nth j k 0).
Lemma cell_gx p f k : length k = n -> cell p (gx p f k) = lin (ld a p) (tab n f) + lin (ld a p) k.
Proof.
  intros Lk. unfold cell, ghost_cell. rewrite <- lin_add by (rewrite tab_length; auto). fold (ld a p). f_equal.
  assert (Lg : length (gx p f k) = n) by apply tab_length.
  assert (L1 : length (vsub (gx p f k) (lo a p)) = n) by (rewrite vsub_length; rewrite ?lo_len; auto).
  apply (list_ext _ _ n).
  - rewrite vadd_length; rewrite ?w_len; auto.
  - rewrite vadd_length; rewrite ?tab_length; auto.
  - intros j Hj. rewrite !nth_vadd by (rewrite ?tab_length, ?L1, ?w_len; auto). rewrite nth_vsub by (rewrite ?lo_len, ?Lg; auto).
    unfold gx. rewrite !nth_tab by exact Hj. rewrite lo_nth by auto. fold (Wi j). lia.
Qed.
Lemma gx_inv p f x : length x = n -> gx p f (tab n (fun j => nth j x 0 - (Lo p j - Wi j + f j))) = x.
Proof. intros Lx. apply (list_ext _ _ n); [apply tab_length|exact Lx|]. intros j Hj. unfold gx. rewrite !nth_tab by exact Hj. lia. Qed.

Lemma cell_inj p x y : 0 <= p < nproc -> pad_box p x -> pad_box p y -> cell p x = cell p y -> x = y.
Proof.
  intros Hp [Lx Bx] [Ly By] Eq. pose proof (ga_ndim a HA) as N.
  rewrite <- (gx_inv p (fun _ => 0) x Lx), <- (gx_inv p (fun _ => 0) y Ly) in Eq. rewrite !cell_gx in Eq by apply tab_length.
  set (kx := tab n (fun j => nth j x 0 - (Lo p j - Wi j + 0))) in *. set (ky := tab n (fun j => nth j y 0 - (Lo p j - Wi j + 0))) in *.
  assert (F : patch_fits (ld a p) (tab n (fun _ => 0)) (ld a p)).
  { apply (patch_fits_nth (n - 1)); rewrite ?tab_length, ?ld_len by auto; try lia. intros j Hj. assert (Hj' : (j < n)%nat) by lia.
    rewrite nth_tab by exact Hj'. rewrite ld_nth by auto. pose proof (LH a HA p j Hp Hj'). pose proof (w_nonneg a HA j Hj'). lia. }
  assert (R : forall z, length z = n -> (forall j, (j < n)%nat -> Lo p j - Wi j <= nth j z 0 <= Hi p j + Wi j) -> in_range0 (ld a p) (tab n (fun j => nth j z 0 - (Lo p j - Wi j + 0)))).
  { intros z Lz Bz. apply (in_range0_nth n); [apply ld_len; auto|apply tab_length|]. intros j Hj. rewrite nth_tab by exact Hj. rewrite ld_nth by auto. specialize (Bz j Hj). lia. }
  assert (K : kx = ky).
  { apply (lin_patch_inj (ld a p) (tab n (fun _ => 0)) (ld a p)); [exact F|unfold kx|unfold ky|lia].
    - apply R; auto. 
    - apply R; auto.  }
  rewrite <- (gx_inv p (fun _ => 0) x Lx), <- (gx_inv p (fun _ => 0) y Ly). fold kx ky. now rewrite K.
Qed.

Lemma cnt_from flag (neg : bool) i p : 0 <= p < nproc -> (i < n)%nat -> cnt a flag i (from_of a neg i p) = cnt a flag i p.
Proof.
  intros Hp Hi. apply (list_ext _ _ n); try apply tab_length. intros j Hj. unfold cnt. rewrite !nth_tab by exact Hj. unfold cntf.
  destruct (Nat.eqb_spec j i) as [->|N]; [reflexivity|]. unfold L, H, from_of.
  rewrite shf_ix by (destruct neg; auto using rng_nxt, rng_prv). destruct (Nat.eqb_spec j i); [contradiction|reflexivity].
Qed.

(** The cell that is received is the cell that was sent. *)
Lemma same_element flag (neg : bool) i p k : 0 <= p < nproc -> (i < n)%nat -> 1 <= Wi i -> length k = n ->
  wrapv (dims g) (gx (from_of a neg i p) (slo a flag neg i (from_of a neg i p)) k) = wrapv (dims g) (gx p (rlo a flag neg i p) k).
Proof.
  intros Hp Hi Hw Lk. assert (Lg : forall p f, length (gx p f k) = n) by (intros; apply tab_length).
  apply (list_ext _ _ n); try (rewrite wrapv_length; rewrite ?Lg; auto). intros j Hj. rewrite !nth_wrapv by (rewrite ?Lg; auto).
  unfold gx. rewrite !nth_tab by exact Hj. rewrite <- Ax_ad by auto.
  pose proof (Ax_valid a HA j Hj) as V. pose proof (wide a HA j Hj) as WW. pose proof (ix_range a HA p j Hp Hj) as R.
  assert (D : 1 <= ad (Ax a j)) by (rewrite Ax_ad by auto; apply dim_pos; auto).
  unfold slo, rlo, from_of. destruct (Nat.eqb_spec j i) as [->|N].
  - destruct neg.
    + unfold L, H. rewrite shf_ix by auto using rng_nxt. rewrite Nat.eqb_refl.
      replace (alo (Ax a i) (ix a p i) - Wi i + (ahi (Ax a i) (ix a p i) - alo (Ax a i) (ix a p i) + Wi i + 1) + nth i k 0) with (ahi (Ax a i) (ix a p i) + 1 + nth i k 0) by ring.
      rewrite (wrap_next _ _ _ _ V WW D R). f_equal. ring.
    + unfold L, H. rewrite shf_ix by auto using rng_prv. rewrite Nat.eqb_refl.
      replace (alo (Ax a i) (ix a p i) - Wi i + 0 + nth i k 0) with (alo (Ax a i) (ix a p i) + (nth i k 0 - Wi i)) by ring.
      rewrite (wrap_prev _ _ _ _ V WW D R). f_equal. ring.
  - unfold L. rewrite shf_ix by (destruct neg; auto using rng_nxt, rng_prv). destruct (Nat.eqb_spec j i); [contradiction|reflexivity].
Qed.

Lemma match_rcv flag neg i p x : rcv_box flag neg i p x \/ ~ rcv_box flag neg i p x.
Proof.
  unfold rcv_box. destruct (Nat.eq_dec (length x) n) as [Lx|Lx]; [|right; tauto].
  set (P := fun j : nat => if Nat.eqb j i then (if neg then Hi p j + 1 <= nth j x 0 <= Hi p j + Wi j else Lo p j - Wi j <= nth j x 0 <= Lo p j - 1)
    else Lo p j - Ei flag i j <= nth j x 0 <= Hi p j + Ei flag i j). assert (D : forall j, {P j} + {~ P j}).
  { intros j. unfold P. destruct (Nat.eqb j i); [destruct neg|]; apply Z_le_le_dec. }
  assert (X : forall k, (forall j, (j < k)%nat -> P j) \/ ~ (forall j, (j < k)%nat -> P j)).
  { induction k as [|k [IH|IH]]; [left; intros j Hj; lia| |right; intros Q; apply IH; intros j Hj; apply Q; lia].
    destruct (D k) as [Dk|Dk]; [left|right; intros Q; apply Dk, Q; lia]. intros j Hj. destruct (Nat.eq_dec j k) as [->|]; [exact Dk|]. apply IH. lia. }
  destruct (X n) as [Y|Y]; [left; auto|right; intros [_ Z]; auto].
Qed.
Lemma rcv_pad flag neg i p x : 0 <= p < nproc -> (i < n)%nat -> rcv_box flag neg i p x -> pad_box p x.
Proof.
  intros Hp Hi [Lx B]. split; [exact Lx|]. intros j Hj. specialize (B j Hj). pose proof (E_range a HA flag i j Hj). pose proof (LH a HA p j Hp Hj). pose proof (w_nonneg a HA j Hj).
  destruct (Nat.eqb_spec j i); [destruct neg|]; lia.
Qed.
Lemma gx_rcv flag neg i p k : 0 <= p < nproc -> (i < n)%nat -> in_range0 (cnt a flag i p) k -> rcv_box flag neg i p (gx p (rlo a flag neg i p) k).
Proof.
  intros Hp Hi R. pose proof (in_range0_length _ _ R) as Lk. unfold cnt in Lk. rewrite tab_length in Lk. rewrite (in_range0_nth n) in R by (auto; apply tab_length).
  split; [apply tab_length|]. intros j Hj. specialize (R j Hj). unfold cnt in R. rewrite nth_tab in R by exact Hj. unfold gx. rewrite nth_tab by exact Hj. unfold cntf, rlo in *.
  destruct (Nat.eqb_spec j i) as [Ej|Nj]; [subst j; destruct neg|]; lia.
Qed.
Lemma gx_snd flag neg i p k : 0 <= p < nproc -> (i < n)%nat -> in_range0 (cnt a flag i p) k -> snd_box flag i p (gx p (slo a flag neg i p) k).
Proof.
  intros Hp Hi R. pose proof (in_range0_length _ _ R) as Lk. unfold cnt in Lk. rewrite tab_length in Lk. rewrite (in_range0_nth n) in R by (auto; apply tab_length).
  split; [apply tab_length|]. intros j Hj. specialize (R j Hj). unfold cnt in R. rewrite nth_tab in R by exact Hj. unfold gx. rewrite nth_tab by exact Hj. unfold cntf, slo in *.
  destruct (Nat.eqb_spec j i) as [Ej|Nj]; [subst j|lia]. rewrite E_self. pose proof (LH a HA p i Hp Hi). destruct neg; lia.
Qed.
Lemma rcv_gx flag neg i p x : rcv_box flag neg i p x -> exists k, in_range0 (cnt a flag i p) k /\ gx p (rlo a flag neg i p) k = x.
Proof.
  intros [Lx B]. exists (tab n (fun j => nth j x 0 - (Lo p j - Wi j + rlo a flag neg i p j))). split; [|apply gx_inv; exact Lx].
  apply (in_range0_nth n); try apply tab_length. intros j Hj. specialize (B j Hj). unfold cnt. rewrite !nth_tab by exact Hj. unfold cntf, rlo.
  destruct (Nat.eqb_spec j i) as [Ej|Nj]; [subst j; destruct neg|]; lia.
Qed.

Lemma phase_ghost {V} flag (neg : bool) i (nn : Z -> Z) (G : list Z -> V) (m : Z -> pmem V) : (i < n)%nat -> 1 <= Wi i ->
  (forall p, 0 <= p < nproc -> zprod (cnt a flag i p) <= nn p) ->
  (forall p x, 0 <= p < nproc -> pad_box p x -> m p (seg p) (cell p x) <> None) ->
  (forall p x, 0 <= p < nproc -> snd_box flag i p x -> m p (seg p) (cell p x) = Some (G (wrapv (dims g) x))) ->
  exists m', phase es neg (map (fun p => (p, (nn p, ent a seg flag i neg p))) ps) m = Some m' /\
    (forall p x, 0 <= p < nproc -> rcv_box flag neg i p x -> m' p (seg p) (cell p x) = Some (G (wrapv (dims g) x))) /\
    (forall p s o, (0 <= p < nproc -> s = seg p -> forall x, rcv_box flag neg i p x -> o <> cell p x) -> m' p s o = m p s o).
Proof.
  intros Hi Hw HN HP HS. pose proof (es_pos a HA) as He.
  assert (CF : forall p, 0 <= p < nproc -> Forall (fun c => 1 <= c) (cnt a flag i p)) by (intros; apply cnt_Forall; auto).
  assert (KL : forall p k, 0 <= p < nproc -> In k (indices (cnt a flag i p)) -> in_range0 (cnt a flag i p) k /\ length k = n).
  { intros p k Hp Hk. apply indices_In in Hk; auto. split; [exact Hk|]. apply in_range0_length in Hk. unfold cnt in Hk. now rewrite tab_length in Hk. }
  destruct (phase_ok es neg ps (ent a seg flag i neg) nn (fun p => indices (cnt a flag i p))
     (fun p k => cell p (gx p (slo a flag neg i p) k)) (fun p k => cell p (gx p (rlo a flag neg i p) k))
     (fun p k => G (wrapv (dims g) (gx p (slo a flag neg i p) k))) m) as (m' & E1 & M1 & M2); auto.
  - intros p Hp. apply ps_In in Hp. cbn [g_snd g_ssnd g_cnt ent]. rewrite (packed_gen a HA flag i p _ Hp Hi Hw (fun j Hj => slo_fits a HA flag neg i p j Hp Hi Hj)).
    f_equal. apply map_ext_in. intros k Hk. symmetry. apply cell_gx. now apply (KL p).
  - intros p Hp. apply ps_In in Hp. cbn [g_rcv g_srcv g_cnt ent]. rewrite (packed_gen a HA flag i p _ Hp Hi Hw (fun j Hj => rlo_fits a HA flag neg i p j Hp Hi Hj)).
    split; [f_equal; apply map_ext_in; intros k Hk; symmetry; apply cell_gx; now apply (KL p)|].
    apply NoDup_map_on; [apply indices_NoDup; auto|]. intros k k' Hk Hk' Eq. destruct (KL p k Hp Hk) as [R L1], (KL p k' Hp Hk') as [R' L2].
    apply (cell_inj p) in Eq; auto; try (apply (rcv_pad flag neg i); auto; apply gx_rcv; auto).
    apply (list_ext _ _ n); auto. intros j Hj. assert (Ej : nth j (gx p (rlo a flag neg i p) k) 0 = nth j (gx p (rlo a flag neg i p) k') 0) by now rewrite Eq.
    unfold gx in Ej. rewrite !nth_tab in Ej by exact Hj. lia.
  - intros p Hp. apply ps_In in Hp. cbn [g_len ent]. rewrite indices_length by auto. split; [now apply HN|reflexivity].
  - intros p Hp. apply ps_In in Hp. cbn [g_from g_to ent].
    assert (HR : 0 <= from_of a neg i p < nproc) by (unfold from_of; apply shf_range; auto; destruct neg; auto using rng_nxt, rng_prv).
    split; [apply ps_In; exact HR|]. split; [|now rewrite cnt_from].
    unfold to_of, from_of. apply shf_shf; auto; destruct neg; auto using rng_nxt, rng_prv, prv_nxt, nxt_prv.
  - intros p Hp. apply ps_In in Hp. cbn [g_from g_to ent]. unfold to_of, from_of. destruct neg; intros Es; [|now symmetry].
    apply (shf_self a HA nxt prv); auto using rng_nxt, rng_prv, nxt_prv.
  - intros p k Hp Hk. apply ps_In in Hp. cbn [g_seg ent]. apply HS; auto. destruct (KL p k Hp Hk). apply gx_snd; auto.
  - intros p k Hp Hk. apply ps_In in Hp. cbn [g_seg ent]. apply HP; auto. destruct (KL p k Hp Hk). apply (rcv_pad flag neg i); auto. apply gx_rcv; auto.
  - exists m'. split; [exact E1|]. split.
    + intros p x Hp B. destruct (rcv_gx flag neg i p x B) as (k & R & Ek). rewrite <- Ek. specialize (M1 p k). cbn [g_seg g_from ent] in M1. rewrite M1.
      * f_equal. f_equal. apply same_element; auto. apply in_range0_length in R. unfold cnt in R. now rewrite tab_length in R.
      * now apply ps_In.
      * apply indices_In; auto.
    + intros p s o Hno. apply M2. cbn [g_seg ent]. intros Hp Es k Hk. apply ps_In in Hp. apply Hno; auto. apply gx_rcv; auto. now apply (KL p).
Qed.
End P.
