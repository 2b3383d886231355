(** Lemmas on the table of messages of an array with ghost cells. *)
From Coq Require Import ZArith List Lia Bool.
From Verif Require Import SpecBox SpecStore SpecPeri SpecGhost MBase SpecCopy MXfer MOdo MGhost LRadix LAxis LIterReg LIterReg2 LIterReg3 LXfer LOdo LIterBlk LGhost LGhost2 LGhost3 LDist.

(** ---- generic facts ---- *)
Lemma patch_fits_nth n : forall cnt start ld, length cnt = S n -> length start = S n -> length ld = S n ->
  (forall j, (j < S n)%nat -> 1 <= nth j cnt 0 /\ 0 <= nth j start 0 /\ nth j start 0 + nth j cnt 0 <= nth j ld 0) ->
  patch_fits cnt start ld /\ zprod (firstn n ld ++ [last cnt 1]) <= zprod ld.
Proof.
  induction n as [|n IH]; intros [|c cnt] [|s start] [|d ld]; try discriminate; intros L1 L2 L3 H.
  - destruct cnt, start, ld; try discriminate. specialize (H O ltac:(lia)). cbn in *. lia.
  - destruct cnt as [|c2 cnt]; [discriminate|]. apply Sn_all in H as [H0 H]. cbn [nth] in H0.
    destruct (IH (c2 :: cnt) start ld) as [A B]; [cbn in *; lia|cbn in *; lia|cbn in *; lia|exact H|].
    split.
    + change (1 <= c /\ 0 <= s /\ s + c <= d /\ patch_fits (c2 :: cnt) start ld). tauto.
    + cbn [firstn]. change (last (c :: c2 :: cnt) 1) with (last (c2 :: cnt) 1). rewrite <- app_comm_cons. cbn [zprod]. set (P := zprod _) in *. clearbody P. nia.
Qed.

Lemma loc_ghosts_ok n : forall lo hi w sub f, length lo = S n -> length hi = S n -> length w = S n -> length sub = S n ->
  loc_ghosts lo hi w sub f = Some (f * lin (padded lo hi w) sub, firstn n (padded lo hi w)).
Proof.
  induction n as [|n IH]; intros [|l lo] [|h hi] [|g w] [|s sub] f; try discriminate; intros L1 L2 L3 L4.
  - destruct lo, hi, w, sub; try discriminate. cbn. f_equal. f_equal. ring.
  - destruct lo as [|l2 lo], hi as [|h2 hi], w as [|g2 w], sub as [|s2 sub]; try discriminate.
    change (loc_ghosts (l :: l2 :: lo) (h :: h2 :: hi) (g :: g2 :: w) (s :: s2 :: sub) f) with
      (do r <- loc_ghosts (l2 :: lo) (h2 :: hi) (g2 :: w) (s2 :: sub) (f * (h - l + 1 + 2 * g)); Some (s * f + fst r, (h - l + 1 + 2 * g) :: snd r)).
    rewrite IH by (cbn in *; lia). cbn [fst snd]. f_equal. f_equal.
    change (padded (l :: l2 :: lo) (h :: h2 :: hi) (g :: g2 :: w)) with ((h - l + 1 + 2 * g) :: padded (l2 :: lo) (h2 :: hi) (g2 :: w)).
    rewrite lin_cons. ring.
Qed.

Lemma set_stride_firstn n : forall s ld, set_stride n s (firstn n ld) = set_stride n s ld.
Proof. induction n as [|n IH]; intros s [|d ld]; cbn [firstn set_stride]; try reflexivity. destruct (to_int d); [|reflexivity]. destruct (to_int _); [|reflexivity]. now rewrite IH. Qed.

Lemma compute_count_nth n : forall lo hi, length lo = n -> length hi = n ->
  (forall j, (j < n)%nat -> 0 <= nth j hi 0 - nth j lo 0 /\ nth j hi 0 - nth j lo 0 + 1 <= int_max) ->
  compute_count lo hi = Some (tab n (fun j => nth j hi 0 - nth j lo 0 + 1)).
Proof.
  induction n as [|n IH]; intros [|l lo] [|h hi]; try discriminate; intros L1 L2 H; [reflexivity|].
  apply Sn_all in H as [H0 H]. cbn [nth] in H0. cbn [compute_count]. rewrite !to_int_ok by lia. rewrite IH by (auto; cbn in *; lia).
  rewrite tab_S. reflexivity.
Qed.
Lemma count_box_tab n : forall lo hi, length lo = n -> length hi = n -> count_box lo hi = zprod (tab n (fun j => nth j hi 0 - nth j lo 0 + 1)).
Proof.
  induction n as [|n IH]; intros [|l lo] [|h hi]; try discriminate; intros L1 L2; [reflexivity|]. rewrite tab_S. cbn [count_box zprod nth].
  rewrite IH by (cbn in *; lia). reflexivity.
Qed.

Lemma indices_In cnt : Forall (fun c => 1 <= c) cnt -> forall k, In k (indices cnt) <-> in_range0 cnt k.
Proof.
  intros H k. rewrite decode_indices by exact H. rewrite in_map_iff. pose proof (zprod_pos _ H) as HZ. split.
  - intros (i & <- & Hi). apply zseq_In in Hi. apply decode_range; [exact H|lia].
  - intros Hk. exists (encode cnt k). split; [apply decode_encode; exact Hk|]. apply zseq_In. pose proof (encode_range _ _ Hk). lia.
Qed.
Lemma indices_NoDup cnt : Forall (fun c => 1 <= c) cnt -> NoDup (indices cnt).
Proof.
  intros H. rewrite decode_indices by exact H. pose proof (zprod_pos _ H) as HZ. apply NoDup_map_on; [apply zseq_NoDup|].
  intros x y Hx Hy E. apply zseq_In in Hx, Hy. rewrite <- (encode_decode cnt x), <- (encode_decode cnt y) by (auto; lia). now rewrite E.
Qed.
Lemma indices_length cnt : Forall (fun c => 1 <= c) cnt -> Z.of_nat (length (indices cnt)) = zprod cnt.
Proof. intros H. rewrite decode_indices by exact H. rewrite map_length, zseq_length. pose proof (zprod_pos _ H). lia. Qed.

Lemma Forall_nth_tab (P : Z -> Prop) n f : (forall j, (j < n)%nat -> P (f j)) -> Forall P (tab n f).
Proof. intros H. apply Forall_forall. intros x Hx. unfold tab in Hx. apply in_map_iff in Hx as (j & <- & Hj). apply in_seq in Hj. apply H. lia. Qed.
Lemma Forall_nth_list (P : Z -> Prop) l n : length l = n -> (forall j, (j < n)%nat -> P (nth j l 0)) -> Forall P l.
Proof. intros HL H. apply Forall_forall. intros x Hx. apply (In_nth _ _ 0) in Hx as (j & Hj & <-). apply H. congruence. Qed.
Lemma Forall2_nth_list (P : Z -> Z -> Prop) n : forall l l', length l = n -> length l' = n -> (forall j, (j < n)%nat -> P (nth j l 0) (nth j l' 0)) -> Forall2 P l l'.
Proof.
  induction n as [|n IH]; intros [|a l] [|b l']; try discriminate; intros L1 L2 H; constructor.
  - exact (H O ltac:(lia)).
  - apply IH; [cbn in *; lia|cbn in *; lia|]. intros j Hj. exact (H (S j) ltac:(lia)).
Qed.
Lemma Forall2_nth_inv (P : Z -> Z -> Prop) l l' : Forall2 P l l' -> forall j, (j < length l)%nat -> P (nth j l 0) (nth j l' 0).
Proof. induction 1 as [|a b l l' H H2 IH]; intros j Hj; [cbn in Hj; lia|]. destruct j as [|j]; [exact H|]. apply IH. cbn in Hj. lia. Qed.
Lemma extents_length n : forall lo hi, length lo = n -> length hi = n -> length (extents lo hi) = n.
Proof. induction n as [|n IH]; intros [|l lo] [|h hi]; try discriminate; cbn; intros; auto; try (f_equal; apply IH; lia). Qed.
Lemma nth_extents n : forall lo hi j, length lo = n -> length hi = n -> (j < n)%nat -> nth j (extents lo hi) 0 = nth j hi 0 - nth j lo 0 + 1.
Proof. induction n as [|n IH]; intros [|l lo] [|h hi] [|j]; try discriminate; cbn; intros; try lia. apply IH; lia. Qed.

Section G.
Variable a : garray.
Hypothesis HA : ghost_array a.
Notation g := (ga_desc a).
Notation n := (length (dims (ga_desc a))).
Notation w := (ga_width a).
Notation es := (ga_elemsize a).
Notation axs := (map_axes (dims (ga_desc a)) (nblock (ga_desc a)) (mapc (ga_desc a))).
Notation nproc := (ga_nproc a).
Definition W (j : nat) : Z := nth j w 0.
Definition Ax (j : nat) : axis := nth j axs ax0.
Definition ix (p : Z) (j : nat) : Z := nth j (decode (nblock g) p) 0.
Definition lo (p : Z) : list Z := blo axs (decode (nblock g) p).
Definition hi (p : Z) : list Z := bhi axs (decode (nblock g) p).
Definition L (p : Z) (j : nat) : Z := alo (Ax j) (ix p j).
Definition H (p : Z) (j : nat) : Z := ahi (Ax j) (ix p j).
Definition ld (p : Z) : list Z := padded (lo p) (hi p) w.

Lemma ga_maps : valid_maps (dims g) (nblock g) (mapc g). Proof. destruct HA as ((_ & _ & V & _) & _). exact V. Qed.
Lemma ga_reg : distr_type g = REGULAR. Proof. destruct HA as ((R & _) & _). exact R. Qed.
Lemma ga_rest : num_rstrctd g = 0. Proof. destruct HA as (_ & R & _). unfold num_rstrctd. now rewrite R. Qed.
Lemma ga_np : zprod (nblock g) = nproc. Proof. destruct HA as (_ & _ & R & _). exact R. Qed.
Lemma ga_world : ga_group a = None. Proof. destruct HA as (_ & _ & _ & R & _). exact R. Qed.
Lemma ga_ndim : (0 < n <= 7)%nat.
Proof. destruct HA as ((_ & N & _) & _ & _ & _ & R & _). split; [|exact R]. destruct (dims g); [congruence|cbn; lia]. Qed.
Lemma w_len : length w = n. Proof. destruct HA as (_ & _ & _ & _ & _ & R & _). exact R. Qed.
Lemma w_nonneg j : (j < n)%nat -> 0 <= W j.
Proof. intros Hj. destruct HA as (_ & _ & _ & _ & _ & R & F & _). rewrite Forall_forall in F. apply F. apply nth_In. congruence. Qed.
Lemma es_pos : 1 <= es. Proof. destruct HA as (_ & _ & _ & _ & _ & _ & _ & R & _). exact R. Qed.

Lemma axs_len : length axs = n. Proof. rewrite <- (map_length ad). now rewrite (map_axes_ad _ _ _ ga_maps). Qed.
Lemma nb_len : length (nblock g) = n. Proof. rewrite <- axs_len, <- (map_length an). now rewrite (map_axes_an _ _ _ ga_maps). Qed.
Lemma Ax_valid j : (j < n)%nat -> valid_axis (Ax j).
Proof. intros Hj. pose proof (map_axes_valid _ _ _ ga_maps) as F. rewrite Forall_forall in F. apply F. apply nth_In. rewrite axs_len. exact Hj. Qed.
Lemma Ax_ad j : (j < n)%nat -> ad (Ax j) = nth j (dims g) 0.
Proof. intros Hj. rewrite <- (map_axes_ad _ _ _ ga_maps). change 0 with (ad ax0). now rewrite map_nth. Qed.
Lemma Ax_an j : (j < n)%nat -> an (Ax j) = nth j (nblock g) 0.
Proof. intros Hj. rewrite <- (map_axes_an _ _ _ ga_maps). change 0 with (an ax0). now rewrite map_nth. Qed.
Lemma nb_pos : Forall (fun n => 1 <= n) (nblock g). Proof. exact (valid_maps_pos _ _ _ ga_maps). Qed.

Lemma dec_len p : length (decode (nblock g) p) = n. Proof. rewrite decode_length. apply nb_len. Qed.
Lemma dec_range p : 0 <= p < nproc -> in_range0 (nblock g) (decode (nblock g) p).
Proof. intros Hp. apply decode_range; [exact nb_pos|]. rewrite ga_np. exact Hp. Qed.
Lemma ix_range p j : 0 <= p < nproc -> (j < n)%nat -> 0 <= ix p j < an (Ax j).
Proof. intros Hp Hj. rewrite Ax_an by exact Hj. pose proof (dec_range p Hp) as R. rewrite (in_range0_nth n) in R by (rewrite ?nb_len, ?dec_len; reflexivity). apply R. exact Hj. Qed.
Lemma lo_len p : length (lo p) = n. Proof. unfold lo. rewrite blo_length; [apply dec_len|]. rewrite axs_len, dec_len. reflexivity. Qed.
Lemma hi_len p : length (hi p) = n. Proof. unfold hi. rewrite bhi_length; [apply dec_len|]. rewrite axs_len, dec_len. reflexivity. Qed.
Lemma lo_nth p j : (j < n)%nat -> nth j (lo p) 0 = L p j.
Proof. intros Hj. unfold lo, L. rewrite nth_blo; [reflexivity| |]; rewrite ?axs_len, dec_len; auto. Qed.
Lemma hi_nth p j : (j < n)%nat -> nth j (hi p) 0 = H p j.
Proof. intros Hj. unfold hi, H. rewrite nth_bhi; [reflexivity| |]; rewrite ?axs_len, dec_len; auto. Qed.
Lemma ld_len p : length (ld p) = n. Proof. apply padded_length; [apply lo_len|apply hi_len|apply w_len]. Qed.
Lemma ld_nth p j : (j < n)%nat -> nth j (ld p) 0 = H p j - L p j + 1 + 2 * W j.
Proof. intros Hj. unfold ld. rewrite (nth_padded n) by (auto using lo_len, hi_len, w_len). rewrite lo_nth, hi_nth by exact Hj. reflexivity. Qed.

Lemma owns_ok p : 0 <= p < nproc -> owns g p = Some (lo p, hi p).
Proof.
  intros Hp. unfold owns. rewrite ga_reg, ga_rest. cbn. unfold owns_no_handle. rewrite ga_np.
  destruct (_ || _) eqn:E; [lia|]. apply owns_dims_axes; [exact ga_maps|lia].
Qed.
Lemma dist_ok p : 0 <= p < nproc -> distribution g p = Some (lo p, hi p).
Proof. intros Hp. unfold distribution. rewrite ga_rest. cbn. apply owns_ok. exact Hp. Qed.

Lemma wide j : (j < n)%nat -> wide_axis (W j) (Ax j).
Proof.
  intros Hj i Hi. set (is := upd j i (repeat 0 n)).
  assert (Li : length is = n) by (unfold is; now rewrite upd_len, repeat_length).
  assert (R : in_range0 (nblock g) is).
  { apply (in_range0_nth n); [apply nb_len|exact Li|]. intros k Hk. unfold is. rewrite nth_upd by (now rewrite repeat_length).
    rewrite <- Ax_an by exact Hk. pose proof (Ax_valid k Hk) as (V & _). rewrite nth_repeat. destruct (Nat.eqb_spec k j) as [->|]; lia. }
  pose proof (encode_range _ _ R) as Hp. rewrite ga_np in Hp. set (p := encode (nblock g) is) in *.
  assert (E : ix p j = i). { unfold ix, p. rewrite decode_encode by exact R. unfold is. rewrite nth_upd by (now rewrite repeat_length). now rewrite Nat.eqb_refl. }
  destruct HA as (_ & _ & _ & _ & _ & _ & _ & _ & B). destruct (B p _ _ Hp (dist_ok p Hp)) as (B1 & B2 & _).
  pose proof (Forall2_nth_inv _ _ _ B1 j ltac:(now rewrite lo_len)) as C1. pose proof (Forall2_nth_inv _ _ _ B2 j ltac:(now rewrite w_len)) as C2.
  rewrite (nth_extents n) in C2 by (auto using lo_len, hi_len). cbv beta in *. rewrite lo_nth, hi_nth in * by exact Hj. unfold L, H in *. rewrite E in *.
  fold (W j) in C2. auto.
Qed.
Lemma LH p j : 0 <= p < nproc -> (j < n)%nat -> 1 <= L p j /\ L p j <= H p j /\ W j <= H p j - L p j + 1 /\ H p j <= nth j (dims g) 0.
Proof.
  intros Hp Hj. pose proof (ix_range p j Hp Hj) as R. destruct (wide j Hj _ R) as [A B]. pose proof (Ax_valid j Hj) as (_ & _ & C & _).
  destruct (C _ R) as [D E]. rewrite Ax_ad in E by exact Hj. unfold L, H. lia.
Qed.
Lemma dim_pos j : (j < n)%nat -> 1 <= nth j (dims g) 0.
Proof.
  intros Hj. pose proof (Ax_valid j Hj) as (A & _ & C & _). destruct (C 0 ltac:(lia)) as [D E]. destruct (wide j Hj 0 ltac:(lia)) as [F _]. rewrite Ax_ad in E by exact Hj. lia.
Qed.
Lemma small p : 0 <= p < nproc -> es * zprod (ld p) <= int_max.
Proof. intros Hp. destruct HA as (_ & _ & _ & _ & _ & _ & _ & _ & B). destruct (B p _ _ Hp (dist_ok p Hp)) as (_ & _ & C). exact C. Qed.

(** ---- neighbours ---- *)
Definition shf (f : Z -> Z -> Z) (i : nat) (p : Z) : Z := encode (nblock g) (upd i (f (an (Ax i)) (ix p i)) (decode (nblock g) p)).
Definition rng (f : Z -> Z -> Z) := forall m i, 0 <= i < m -> 0 <= f m i < m.
Lemma shf_in f i p : rng f -> 0 <= p < nproc -> (i < n)%nat -> in_range0 (nblock g) (upd i (f (an (Ax i)) (ix p i)) (decode (nblock g) p)).
Proof.
  intros Hf Hp Hi. apply (in_range0_nth n); [apply nb_len|rewrite upd_len; apply dec_len|]. intros j Hj. rewrite nth_upd by (now rewrite dec_len).
  rewrite <- Ax_an by exact Hj. destruct (Nat.eqb_spec j i) as [->|]; [apply Hf; apply ix_range; auto|apply ix_range; auto].
Qed.
Lemma shf_range f i p : rng f -> 0 <= p < nproc -> (i < n)%nat -> 0 <= shf f i p < nproc.
Proof. intros. rewrite <- ga_np. apply encode_range. apply shf_in; auto. Qed.
Lemma shf_dec f i p : rng f -> 0 <= p < nproc -> (i < n)%nat -> decode (nblock g) (shf f i p) = upd i (f (an (Ax i)) (ix p i)) (decode (nblock g) p).
Proof. intros. apply decode_encode. apply shf_in; auto. Qed.
Lemma shf_ix f i p j : rng f -> 0 <= p < nproc -> (i < n)%nat -> (j < n)%nat -> ix (shf f i p) j = if Nat.eqb j i then f (an (Ax i)) (ix p i) else ix p j.
Proof. intros. unfold ix at 1. rewrite shf_dec by auto. apply nth_upd. now rewrite dec_len. Qed.
Lemma shf_shf f f' i p : rng f -> rng f' -> (forall m i, 0 <= i < m -> f (m) (f' m i) = i) -> 0 <= p < nproc -> (i < n)%nat -> shf f i (shf f' i p) = p.
Proof.
  intros Hf Hf' E Hp Hi. unfold shf at 1. rewrite shf_dec by auto. rewrite shf_ix by auto. rewrite Nat.eqb_refl.
  rewrite E by (apply ix_range; auto). rewrite upd_upd.
  rewrite upd_same.
  - apply encode_decode; [exact nb_pos|]. now rewrite ga_np.
  - unfold ix. apply nth_error_nth'. now rewrite dec_len.
Qed.
Lemma rng_prv : rng prv. Proof. intros m i. apply prv_range. Qed.
Lemma rng_nxt : rng nxt. Proof. intros m i. apply nxt_range. Qed.
Lemma shf_self f f' i p : rng f -> rng f' -> (forall m i, 0 <= i < m -> f m (f' m i) = i) -> 0 <= p < nproc -> (i < n)%nat -> shf f' i p = p -> shf f i p = p.
Proof. intros Hf Hf' E Hp Hi Es. rewrite <- Es at 1. apply shf_shf; auto. Qed.

(** ---- the entries ---- *)
Definition E (flag : bool) (i j : nat) : Z := if flag && (j <? i)%nat then W j else 0.
Definition cntf flag i p j : Z := if Nat.eqb j i then W i else H p j - L p j + 1 + 2 * E flag i j.
Definition cnt flag i p : list Z := tab n (cntf flag i p).
Definition slo flag neg i p j : Z := if Nat.eqb j i then (if neg : bool then W j else H p j - L p j + 1) else W j - E flag i j.
Definition rlo flag neg i p j : Z := if Nat.eqb j i then (if neg : bool then H p j - L p j + W j + 1 else 0) else W j - E flag i j.
Definition st p := strides es (n - 1) (ld p).
Lemma E_range flag i j : (j < n)%nat -> 0 <= E flag i j <= W j.
Proof. intros Hj. pose proof (w_nonneg j Hj). unfold E. destruct (_ && _); lia. Qed.
Lemma E_self flag i : E flag i i = 0.
Proof. unfold E. rewrite Nat.ltb_irrefl, andb_false_r. reflexivity. Qed.
Lemma cnt_pos flag i p j : 0 <= p < nproc -> (j < n)%nat -> 1 <= W i -> 1 <= cntf flag i p j.
Proof. intros Hp Hj Hw. unfold cntf. destruct (Nat.eqb_spec j i); [lia|]. pose proof (LH p j Hp Hj). pose proof (E_range flag i j Hj). lia. Qed.
Lemma cnt_Forall flag i p : 0 <= p < nproc -> 1 <= W i -> Forall (fun c => 1 <= c) (cnt flag i p).
Proof. intros Hp Hw. apply Forall_nth_tab. intros j Hj. now apply cnt_pos. Qed.
Lemma cnt_S flag i p : cnt flag i p = cntf flag i p 0 :: tab (n - 1) (fun j => cntf flag i p (S j)).
Proof. unfold cnt. pose proof ga_ndim as N. replace n with (S (n - 1)) at 1 by lia. apply tab_S. Qed.
Lemma slo_fits flag neg i p j : 0 <= p < nproc -> (i < n)%nat -> (j < n)%nat -> 0 <= slo flag neg i p j /\ slo flag neg i p j + cntf flag i p j <= nth j (ld p) 0.
Proof.
  intros Hp Hi Hj. rewrite ld_nth by exact Hj. pose proof (LH p j Hp Hj). pose proof (E_range flag i j Hj). pose proof (w_nonneg j Hj). unfold slo, cntf.
  destruct (Nat.eqb_spec j i) as [->|]; [destruct neg|]; lia.
Qed.
Lemma rlo_fits flag neg i p j : 0 <= p < nproc -> (i < n)%nat -> (j < n)%nat -> 0 <= rlo flag neg i p j /\ rlo flag neg i p j + cntf flag i p j <= nth j (ld p) 0.
Proof.
  intros Hp Hi Hj. rewrite ld_nth by exact Hj. pose proof (LH p j Hp Hj). pose proof (E_range flag i j Hj). pose proof (w_nonneg j Hj). unfold rlo, cntf.
  destruct (Nat.eqb_spec j i) as [->|]; [destruct neg|]; lia.
Qed.
Lemma fits_gen flag i p f : 0 <= p < nproc -> (i < n)%nat -> 1 <= W i -> (forall j, (j < n)%nat -> 0 <= f j /\ f j + cntf flag i p j <= nth j (ld p) 0) ->
  patch_fits (cnt flag i p) (tab n f) (ld p) /\ small_buffer es (cnt flag i p) (ld p).
Proof.
  intros Hp Hi Hw Hf. pose proof ga_ndim as N.
  destruct (patch_fits_nth (n - 1) (cnt flag i p) (tab n f) (ld p)) as [A B].
  - unfold cnt. rewrite tab_length. lia.
  - rewrite tab_length. lia.
  - rewrite ld_len. lia.
  - intros j Hj. assert (Hj' : (j < n)%nat) by lia. unfold cnt. rewrite !nth_tab by exact Hj'. destruct (Hf j Hj'). pose proof (cnt_pos flag i p j Hp Hj' Hw). lia.
  - split; [exact A|]. unfold small_buffer. unfold cnt at 1. rewrite tab_length. pose proof (small p Hp) as S. pose proof es_pos.
    set (P := zprod (firstn _ _ ++ _)) in *. nia.
Qed.

Lemma packed_gen flag i p f : 0 <= p < nproc -> (i < n)%nat -> 1 <= W i -> (forall j, (j < n)%nat -> 0 <= f j /\ f j + cntf flag i p j <= nth j (ld p) 0) ->
  forall base, packed_elems es base (st p) (cntf flag i p 0 * es :: tab (n - 1) (fun j => cntf flag i p (S j))) = Some (map (fun k => base + lin (ld p) k) (indices (cnt flag i p))).
Proof.
  intros Hp Hi Hw Hf base. destruct (fits_gen flag i p f Hp Hi Hw Hf) as [A B]. pose proof ga_ndim as N.
  unfold st. rewrite cnt_S in *. rewrite <- (tab_length (n - 1) (fun j => cntf flag i p (S j))) at 1.
  apply (packed_elems_ok es base _ _ (ld p) (tab n f)); auto using es_pos. rewrite tab_length. lia.
Qed.

Lemma entry_ints flag i p : 0 <= p < nproc -> (i < n)%nat -> 1 <= W i ->
  es <= int_max /\ (forall j, (j < n)%nat -> cntf flag i p j <= int_max) /\ cntf flag i p 0 * es <= int_max /\
  set_stride (n - 1) es (firstn (n - 1) (ld p)) = Some (st p).
Proof.
  intros Hp Hi Hw. pose proof ga_ndim as N. destruct (fits_gen flag i p _ Hp Hi Hw (fun j Hj => slo_fits flag true i p j Hp Hi Hj)) as [A B].
  pose proof (cnt_S flag i p) as EC. unfold small_buffer in B. rewrite EC in A, B.
  replace (length (_ :: tab (n - 1) _) - 1)%nat with (length (tab (n - 1) (fun j => cntf flag i p (S j)))) in B by (cbn; lia).
  destruct (small_ints _ _ es _ (ld p) A es_pos B) as (A1 & A2 & A3 & _ & A5 & A6 & _). rewrite tab_length in A1, A2, A3.
  rewrite <- EC in A5, A6. pose proof (zprod_pos _ A6) as HZ. pose proof es_pos as HE.
  assert (EL : forall j, (j < n)%nat -> cntf flag i p j <= zprod (cnt flag i p)).
  { intros j Hj. apply (zprod_ge_elem _ j); [exact A6|]. rewrite <- (nth_tab n (cntf flag i p) j 0 Hj). apply nth_error_nth'. now rewrite tab_length. }
  split; [nia|]. split; [intros j Hj; specialize (EL j Hj); nia|]. split; [specialize (EL O ltac:(lia)); nia|].
  rewrite set_stride_firstn. apply set_stride_strides; auto.
Qed.

Definition inc_ok (flag : bool) (i : nat) (inc : list Z) : Prop :=
  length inc = n /\ forall j, (j < n)%nat -> nth j inc 0 = if flag && (j <? i)%nat then 2 * W j else 0.

Lemma box_lists flag neg i p inc : 0 <= p < nproc -> (i < n)%nat -> inc_ok flag i inc ->
  let b := msg_box neg (Z.of_nat i) (lo p) (hi p) w inc in
  map plo_snd b = tab n (slo flag neg i p) /\ map phi_snd b = tab n (fun j => slo flag neg i p j + cntf flag i p j - 1) /\
  map plo_rcv b = tab n (rlo flag neg i p) /\ map phi_rcv b = tab n (fun j => rlo flag neg i p j + cntf flag i p j - 1).
Proof.
  intros Hp Hi [HL HI] b.
  assert (Lb : length b = n) by (apply msg_box_length; auto using lo_len, hi_len, w_len).
  assert (Nb : forall j, (j < n)%nat -> nth j b lb0 = LBox (slo flag neg i p j) (slo flag neg i p j + cntf flag i p j - 1) (rlo flag neg i p j) (rlo flag neg i p j + cntf flag i p j - 1)).
  { intros j Hj. unfold b. rewrite (nth_msg_box neg n) by (auto using lo_len, hi_len, w_len). rewrite lo_nth, hi_nth by exact Hj. fold (W j).
    rewrite HI by exact Hj. pose proof (w_nonneg j Hj). unfold slo, rlo, cntf, E, msg_dim. destruct (Nat.eqb_spec j i) as [->|N].
    - rewrite Nat.ltb_irrefl, andb_false_r, !Z.eqb_refl. destruct neg; f_equal; lia.
    - destruct (Z.eqb_spec (Z.of_nat i) (Z.of_nat j)); [lia|]. destruct (flag && (j <? i)%nat).
      + destruct (Z.eqb_spec (2 * W j) 0); f_equal; lia.
      + rewrite Z.eqb_refl. f_equal; lia. }
  assert (M : forall (f : lbox -> Z) (h : nat -> Z), f lb0 = 0 -> (forall j, (j < n)%nat -> f (nth j b lb0) = h j) -> map f b = tab n h).
  { intros f h F0 F. apply (list_ext _ _ n); [now rewrite map_length|apply tab_length|]. intros j Hj. rewrite nth_tab by exact Hj. rewrite <- F0. rewrite map_nth. now apply F. }
  split; [|split; [|split]]; apply M; try reflexivity; intros j Hj; rewrite Nb by exact Hj; reflexivity.
Qed.

Definition to_of (neg : bool) i p := shf (if neg then prv else nxt) i p.
Definition from_of (neg : bool) i p := shf (if neg then nxt else prv) i p.
Variable guess : Z -> Z -> Z -> Z.
Hypothesis Hg : good_guess guess.
Variable seg : Z -> Z.
Lemma first_proc_block q r : 0 <= q < nproc -> length (fst r) = n -> length (snd r) = n ->
  (forall j, (j < n)%nat -> L q j <= nth j (fst r) 0 /\ nth j (fst r) 0 <= nth j (snd r) 0 /\ nth j (snd r) 0 <= H q j) ->
  first_proc guess a r = Some q.
Proof.
  intros Hq L1 L2 HR. destruct r as [rl rh]. cbn [fst snd] in *.
  assert (B1 : in_block axs (decode (nblock g) q) rl).
  { change (in_box (lo q) (hi q) rl). apply (in_box_nth n); auto using lo_len, hi_len. intros j Hj. rewrite lo_nth, hi_nth by exact Hj. specialize (HR j Hj). lia. }
  assert (B2 : in_block axs (decode (nblock g) q) rh).
  { change (in_box (lo q) (hi q) rh). apply (in_box_nth n); auto using lo_len, hi_len. intros j Hj. rewrite lo_nth, hi_nth by exact Hj. specialize (HR j Hj). lia. }
  assert (AX : Forall valid_axis axs) by exact (map_axes_valid _ _ _ ga_maps).
  assert (AN : map an axs = nblock g) by exact (map_axes_an _ _ _ ga_maps).
  assert (AD : map ad axs = dims g) by exact (map_axes_ad _ _ _ ga_maps).
  pose proof (dec_range q Hq) as RQ.
  assert (I1 : in_array (dims g) rl) by (rewrite <- AD; eapply in_block_inside; eauto; rewrite AN; exact RQ).
  assert (I2 : in_array (dims g) rh) by (rewrite <- AD; eapply in_block_inside; eauto; rewrite AN; exact RQ).
  assert (LE : Forall2 Z.le rl rh) by (apply (Forall2_nth_list _ n); auto; intros j Hj; specialize (HR j Hj); lia).
  unfold first_proc, locate_region. cbn [fst snd]. rewrite (proj2 (region_ok_spec _ _ _) (conj I1 (conj I2 LE))). rewrite ga_reg. unfold locate_region_map.
  destruct (findblocks_spec guess _ _ _ _ Hg ga_maps I1) as (t1 & -> & R1 & C1). destruct (findblocks_spec guess _ _ _ _ Hg ga_maps I2) as (t2 & -> & R2 & C2).
  assert (E1 : t1 = decode (nblock g) q) by (eapply in_block_unique; eauto; rewrite AN; auto).
  assert (E2 : t2 = decode (nblock g) q) by (eapply in_block_unique; eauto; rewrite AN; auto).
  rewrite E1, E2.
  assert (EC : forall l, count_elems l l = 1). { induction l as [|x l IH]; [reflexivity|]. cbn [count_elems]. rewrite IH. replace (x - x + 1) with 1 by lia. reflexivity. }
  rewrite EC. change (Z.to_nat 1) with 1%nat. cbn [region_loop]. rewrite compute_index_encode, encode_decode by (rewrite ?ga_np; auto using nb_pos).
  rewrite owns_ok by exact Hq. rewrite ga_rest. cbn. unfold abs_rank. rewrite ga_world. reflexivity.
Qed.

Definition ent flag i neg p : gmsg :=
  GMsg (seg p) (lin (ld p) (tab n (slo flag neg i p))) (lin (ld p) (tab n (rlo flag neg i p))) (to_of neg i p) (from_of neg i p)
       (st p) (st p) (es * zprod (cnt flag i p)) (cntf flag i p 0 * es :: tab (n - 1) (fun j => cntf flag i p (S j))).

Lemma to_first neg i p : 0 <= p < nproc -> (i < n)%nat -> 1 <= W i ->
  first_proc guess a (rem_region (if neg : bool then ToNeg else ToPos) (Z.of_nat i) (lo p) (hi p) (dims g) w) = Some (to_of neg i p) /\
  first_proc guess a (rem_region (if neg then FromPos else FromNeg) (Z.of_nat i) (lo p) (hi p) (dims g) w) = Some (from_of neg i p).
Proof.
  intros Hp Hi Hw.
  assert (X : forall f s, rng f -> (forall j, j = i -> rem_dim s (L p j) (H p j) (nth j (dims g) 0) (W j) = (if Bool.bool_dec (match s with ToNeg | FromNeg => true | _ => false end) true then (ahi (Ax j) (f (an (Ax j)) (ix p j)) - W j + 1, ahi (Ax j) (f (an (Ax j)) (ix p j))) else (alo (Ax j) (f (an (Ax j)) (ix p j)), alo (Ax j) (f (an (Ax j)) (ix p j)) + W j - 1))) ->
    first_proc guess a (rem_region s (Z.of_nat i) (lo p) (hi p) (dims g) w) = Some (shf f i p)).
  { intros f s Hf HR. destruct (rem_region_length s n (Z.of_nat i) (lo p) (hi p) (dims g) w) as [L1 L2]; auto using lo_len, hi_len, w_len.
    apply first_proc_block; auto using shf_range. intros j Hj.
    destruct (nth_rem_region s n i (Z.of_nat i) (lo p) (hi p) (dims g) w j) as [-> ->]; auto using lo_len, hi_len, w_len.
    rewrite lo_nth, hi_nth by exact Hj. fold (W j). 
    assert (EL : L (shf f i p) j = alo (Ax j) (if Nat.eqb j i then f (an (Ax i)) (ix p i) else ix p j)) by (unfold L; rewrite shf_ix by auto; reflexivity).
    assert (EH : H (shf f i p) j = ahi (Ax j) (if Nat.eqb j i then f (an (Ax i)) (ix p i) else ix p j)) by (unfold H; rewrite shf_ix by auto; reflexivity).
    rewrite EL, EH. destruct (Nat.eqb_spec j i) as [->|N].
    - rewrite (HR i eq_refl). pose proof (Hf _ _ (ix_range p i Hp Hi)) as R. destruct (wide i Hi _ R) as [A B]. destruct (bool_dec _ _); cbn [fst snd]; lia.
    - fold (L p j) (H p j). pose proof (LH p j Hp Hj). lia. }
  pose proof (Ax_valid i Hi) as V. pose proof (wide i Hi) as WI. pose proof (ix_range p i Hp Hi) as R. pose proof (Ax_ad i Hi) as AD.
  unfold to_of, from_of. destruct neg; split; apply X; auto using rng_prv, rng_nxt; intros j ->; rewrite <- AD; unfold L, H; cbn [bool_dec];
    (rewrite (rem_neg _ (W i)) by auto; reflexivity) || (rewrite (rem_pos _ (W i)) by auto; reflexivity).
Qed.

Lemma gmsg_ok flag neg i p inc : 0 <= p < nproc -> (i < n)%nat -> 1 <= W i -> inc_ok flag i inc ->
  gmsg_of guess a seg p (lo p) (hi p) inc (Z.of_nat i) neg = Some (ent flag i neg p).
Proof.
  intros Hp Hi Hw HI. pose proof ga_ndim as N. unfold gmsg_of. destruct (to_first neg i p Hp Hi Hw) as [-> ->]. rewrite owns_ok by exact Hp. cbn [fst snd].
  destruct (box_lists flag neg i p inc Hp Hi HI) as (-> & -> & -> & ->).
  rewrite !(loc_ghosts_ok (n - 1)) by (rewrite ?tab_length, ?lo_len, ?hi_len, ?w_len; lia). cbn [fst snd].
  destruct (entry_ints flag i p Hp Hi Hw) as (I1 & I2 & I3 & I4). pose proof es_pos as HE. rewrite to_int_ok by lia. rewrite lo_len. fold (ld p). rewrite I4.
  rewrite (compute_count_nth n) by (try apply tab_length; intros j Hj; rewrite !nth_tab by exact Hj; pose proof (cnt_pos flag i p j Hp Hj Hw); specialize (I2 j Hj); lia).
  rewrite (count_box_tab n) by apply tab_length.
  assert (EQ : forall f, tab n (fun j => nth j (tab n (fun j => f j + cntf flag i p j - 1)) 0 - nth j (tab n f) 0 + 1) = cnt flag i p).
  { intros f. apply (list_ext _ _ n); try apply tab_length. intros j Hj. unfold cnt. rewrite !nth_tab by exact Hj. lia. }
  rewrite !EQ. rewrite (cnt_S flag i p) at 1. pose proof (cnt_pos flag i p 0 Hp ltac:(lia) Hw). rewrite to_int_ok by nia. rewrite !Z.mul_1_l. reflexivity.
Qed.
End G.
