(** Lemmas about sparse matrices: the limits of rows and columns, and binning. *)
From Verif Require Import SpecSprs MBase MNb MHandle MGroup MSparse MSprs LNb LRadix LStore LIterBlk.
From Coq Require Import Permutation.
Open Scope Z_scope.

(** * Limits *)
Lemma scaled_pos n d x : 1 <= n -> 1 <= d -> 0 <= x -> scaled n d x = x * n / d.
Proof. intros. unfold scaled. apply Z.quot_div_nonneg; nia. Qed.
Lemma scaled_part n d x p : 1 <= n -> 1 <= d -> 0 <= x -> (scaled n d x = p <-> in_part n d p x).
Proof.
  intros N D X. rewrite scaled_pos by lia. unfold in_part. pose proof (Z.div_mod (x * n) d ltac:(lia)) as E. pose proof (Z.mod_pos_bound (x * n) d ltac:(lia)) as M.
  split; [intros <-; nia|]. intros H. symmetry. apply Z.div_unique with (x * n - p * d); lia.
Qed.
Lemma scaled_lt n d x p : 1 <= n -> 1 <= d -> 0 <= x -> x * n < p * d -> scaled n d x < p.
Proof. intros. rewrite scaled_pos by lia. apply Z.div_lt_upper_bound; lia. Qed.
Lemma low_limit_ok fuel n d p : (2 <= fuel)%nat -> 1 <= n <= d -> 0 <= p < n ->
  exists l, low_limit fuel n d p = Done l /\ 0 <= l /\ p * d <= l * n /\ (l - 1) * n < p * d.
Proof.
  intros F ND P. destruct fuel as [|[|f]]; [lia|lia|]. unfold low_limit.
  rewrite (Z.quot_div_nonneg (d * p) n) by nia.
  pose proof (Z.div_mod (d * p) n ltac:(lia)) as E. pose proof (Z.mod_pos_bound (d * p) n ltac:(lia)) as M. set (a := d * p / n) in *.
  assert (A : 0 <= a) by (subst a; apply Z.div_pos; nia).
  destruct (Z.eq_dec ((d * p) mod n) 0) as [Z0|Z0].
  - assert (S : scaled n d a = p) by (apply scaled_part; [lia|lia|lia|unfold in_part; nia]).
    exists a. cbn [up_while]. rewrite S, Z.ltb_irrefl. cbn [down_while]. rewrite S, Z.ltb_irrefl. split; [reflexivity|]. nia.
  - assert (S : scaled n d a < p) by (apply scaled_lt; [lia|lia|lia|nia]).
    assert (S' : scaled n d (a + 1) = p) by (apply scaled_part; [lia|lia|lia|unfold in_part; nia]).
    exists (a + 1). cbn [up_while]. replace (scaled n d a <? p) with true by lia. rewrite S', Z.ltb_irrefl. cbn [down_while]. rewrite S', Z.ltb_irrefl. split; [reflexivity|]. nia.
Qed.
Lemma low_limit_scaled fuel n d p l : (2 <= fuel)%nat -> 1 <= n <= d -> 0 <= p < n -> low_limit fuel n d p = Done l -> scaled n d l = p.
Proof.
  intros F ND P H. destruct (low_limit_ok fuel n d p F ND P) as (l' & E & A & B & C). rewrite E in H. injection H as <-.
  apply scaled_part; [lia|lia|lia|]. unfold in_part. nia.
Qed.
Lemma column_limits fuel n d p : (2 <= fuel)%nat -> 1 <= n <= d -> 0 <= p < n ->
  exists lo hi, column_distribution fuel n d p = Done (lo, hi) /\ own_low fuel n d p = Done lo /\ high_limit fuel n d p = Done hi /\
    0 <= lo <= hi /\ hi < d /\ (forall x, 0 <= x < d -> (lo <= x <= hi <-> in_part n d p x)).
Proof.
  intros F ND P. destruct (low_limit_ok fuel n d p F ND P) as (l & E & A & B & C).
  unfold column_distribution, own_low, high_limit. rewrite E. rewrite (low_limit_scaled _ _ _ _ _ F ND P E), Z.eqb_refl.
  destruct (Z.ltb_spec p (n - 1)) as [Q|Q].
  - destruct (low_limit_ok fuel n d (p + 1) F ND ltac:(lia)) as (h & E' & A' & B' & C'). rewrite E'.
    exists l, (h - 1). split; [reflexivity|]. split; [reflexivity|]. split; [reflexivity|]. split; [nia|]. split; [nia|].
    intros x X. unfold in_part. split; intros H; nia.
  - exists l, (d - 1). split; [reflexivity|]. split; [reflexivity|]. split; [reflexivity|]. split; [nia|]. split; [nia|].
    intros x X. unfold in_part. split; intros H; nia.
Qed.
Lemma in_partb_spec n d p x : in_partb n d p x = true <-> in_part n d p x.
Proof. unfold in_partb, in_part. lia. Qed.
Lemma owner_part n d x p : 1 <= n -> 1 <= d -> 0 <= x < d -> (owner n d x = p <-> in_part n d p x).
Proof.
  intros N D X. unfold owner. fold (scaled n d x). rewrite <- (scaled_part n d x p) by lia.
  assert (scaled n d x < n) by (apply scaled_lt; nia). replace (n <=? scaled n d x) with false by lia. reflexivity.
Qed.
Lemma owner_range n d x : 1 <= n -> 1 <= d -> 0 <= x < d -> 0 <= owner n d x < n.
Proof.
  intros N D X. unfold owner. fold (scaled n d x). assert (scaled n d x < n) by (apply scaled_lt; nia).
  assert (0 <= scaled n d x) by (rewrite scaled_pos by lia; apply Z.div_pos; nia). replace (n <=? scaled n d x) with false by lia. lia.
Qed.
Lemma owner_partb n d x p : 1 <= n -> 1 <= d -> 0 <= x < d -> (owner n d x =? p) = in_partb n d p x.
Proof.
  intros N D X. pose proof (owner_part n d x p N D X) as H. pose proof (in_partb_spec n d p x) as H'.
  destruct (Z.eqb_spec (owner n d x) p) as [E|E], (in_partb n d p x); try reflexivity; intuition congruence.
Qed.

(** * Binning *)
Inductive vchain {A} (buf : list A) (next : Z -> Z) : Z -> list A -> Prop :=
| vnil : vchain buf next (-1) []
| vcons j a l : 0 <= j -> nth_error buf (Z.to_nat j) = Some a -> next j < j -> vchain buf next (next j) l -> vchain buf next j (a :: l).
Lemma vchain_walk {A} (buf : list A) next j l : vchain buf next j l -> forall fuel, (Z.to_nat (j + 1) <= fuel)%nat -> walk fuel buf next j = Done l.
Proof.
  induction 1 as [|j a l J E N C IH]; intros fuel F; [destruct fuel; reflexivity|].
  destruct fuel as [|fuel]; [lia|]. cbn [walk]. replace (0 <=? j) with true by lia. rewrite E, IH by lia. reflexivity.
Qed.
Lemma vchain_top {A} (buf : list A) next j l : vchain buf next j l -> j < Z.of_nat (length buf).
Proof.
  intros H. destruct H as [|j a l J E N C]; [lia|]. assert (Z.to_nat j < length buf)%nat by (apply nth_error_Some; congruence). lia.
Qed.
Lemma vchain_nonneg {A} (buf : list A) next j l : vchain buf next j l -> (0 <=? j) = (0 <? Z.of_nat (length l)).
Proof. intros H. destruct H as [|j a l J E N C]; [reflexivity|]. cbn [length]. lia. Qed.
Lemma vchain_grow {A} (buf : list A) a next j l x : vchain buf next j l -> vchain (buf ++ [a]) (fset next (Z.of_nat (length buf)) x) j l.
Proof.
  induction 1 as [|j b l J E N C IH]; [constructor|].
  assert (L : (Z.to_nat j < length buf)%nat) by (apply nth_error_Some; congruence).
  constructor; [exact J|rewrite nth_error_app1 by exact L; exact E| |]; rewrite fset_other by lia; assumption.
Qed.
Lemma bin_all_snoc nb k : forall ks i b, bin_all nb (ks ++ [k]) i b = match bin_all nb ks i b with Done b1 => bin_one nb k (i + Z.of_nat (length ks)) b1 | Abort => Abort | Undef => Undef end.
Proof.
  induction ks as [|k0 ks IH]; intros i b; cbn [app bin_all length].
  - rewrite Z.add_0_r. destruct (bin_one nb k i b); reflexivity.
  - destruct (bin_one nb k0 i b) as [b1| |]; try reflexivity. rewrite IH. replace (i + 1 + Z.of_nat (length ks)) with (i + Z.of_nat (S (length ks))) by lia. reflexivity.
Qed.
Definition binned {A} (nb : Z) (f : A -> Z) (buf : list A) (b : bins) : Prop := forall k, 0 <= k < nb ->
  vchain buf (b_next b) (b_top b k) (rev (filter (fun a => f a =? k) buf)) /\ b_count b k = Z.of_nat (length (filter (fun a => f a =? k) buf)).
Lemma bin_all_ok {A} nb (f : A -> Z) (buf : list A) : Forall (fun a => 0 <= f a < nb) buf ->
  exists b, bin_all nb (map f buf) 0 no_bins = Done b /\ binned nb f buf b.
Proof.
  induction buf as [|a buf IH] using rev_ind; intros F.
  - exists no_bins. split; [reflexivity|]. intros k K. split; [constructor|reflexivity].
  - apply Forall_app in F. destruct F as [F Fa]. inversion Fa as [|? ? Fa' ?]; subst. destruct (IH F) as (b & E & B).
    rewrite map_app. cbn [map]. rewrite bin_all_snoc, E, map_length, Z.add_0_l. unfold bin_one. replace ((0 <=? f a) && (f a <? nb)) with true by lia.
    eexists. split; [reflexivity|]. intros k K. destruct (B k K) as [C Q]. cbn [b_next b_top b_count]. rewrite filter_app. cbn [filter].
    destruct (Z.eqb_spec (f a) k) as [->|Ne].
    + rewrite !fset_same, rev_app_distr, app_length. cbn [rev app length]. split; [|lia].
      constructor; [lia| | |].
      * rewrite Nat2Z.id, nth_error_app2, Nat.sub_diag by lia. reflexivity.
      * rewrite fset_same. apply (vchain_top _ _ _ _ C).
      * rewrite fset_same. apply vchain_grow. exact C.
    + rewrite !fset_other by congruence. rewrite app_nil_r. split; [apply vchain_grow; exact C|exact Q].
Qed.
Lemma binned_walk {A} nb (f : A -> Z) buf b k : binned nb f buf b -> 0 <= k < nb ->
  walk (length buf) buf (b_next b) (b_top b k) = Done (rev (filter (fun a => f a =? k) buf)) /\
  (0 <=? b_top b k) = (0 <? b_count b k).
Proof.
  intros B K. destruct (B k K) as [C Q]. split.
  - apply (vchain_walk _ _ _ _ C). pose proof (vchain_top _ _ _ _ C). lia.
  - rewrite (vchain_nonneg _ _ _ _ C), rev_length, Q. reflexivity.
Qed.

(** * Lists of results *)
Lemma collect_map {A} (f : Z -> out A) (g : Z -> A) ps : (forall p, In p ps -> f p = Done (g p)) -> collect f ps = Done (map g ps).
Proof.
  induction ps as [|p ps IH]; intros H; [reflexivity|]. cbn [collect map]. rewrite (H p) by (left; reflexivity). rewrite IH; [reflexivity|]. intros q Q. apply H. right. exact Q.
Qed.
Lemma collect_choice {A} (f : Z -> out A) (P : Z -> A -> Prop) ps : (forall p, In p ps -> exists a, f p = Done a /\ P p a) ->
  exists l, collect f ps = Done l /\ Forall2 P ps l.
Proof.
  induction ps as [|p ps IH]; intros H; [exists []; split; [reflexivity|constructor]|]. cbn [collect].
  destruct (H p (or_introl eq_refl)) as (a & E & Q). destruct IH as (l & El & Fl); [intros q Iq; apply H; right; exact Iq|].
  rewrite E, El. exists (a :: l). split; [reflexivity|]. constructor; assumption.
Qed.
Lemma Forall2_zseq {A} (P : Z -> A -> Prop) : forall n l0 l, Forall2 P (zseq l0 n) l -> length l = n /\ forall k a, nth_error l k = Some a -> P (l0 + Z.of_nat k) a.
Proof.
  induction n as [|n IH]; intros l0 l H; cbn [zseq] in H; inversion H as [|x y xs ys H1 H2]; subst.
  - split; [reflexivity|]. intros k a E. destruct k; discriminate.
  - destruct (IH _ _ H2) as [L K]. split; [cbn; lia|]. intros [|k] a E; cbn in E.
    + injection E as <-. rewrite Z.add_0_r. exact H1.
    + specialize (K k a E). replace (l0 + Z.of_nat (S k)) with (l0 + 1 + Z.of_nat k) by lia. exact K.
Qed.
