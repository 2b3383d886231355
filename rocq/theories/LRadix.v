(** Mixed-radix arithmetic: list access, encode/decode, odometers. *)
From Verif Require Export MDist.
From Coq Require Export ZifyBool ZifyNat ZArith Lia.
Ltac Zify.zify_post_hook ::= Z.div_mod_to_equations.

Lemma Forall2_len {A B} (R : A -> B -> Prop) l l' :
  Forall2 R l l' -> length l = length l'.
Proof. induction 1; simpl; congruence. Qed.

Lemma Forall2_imp {A B} (R S : A -> B -> Prop) l l' :
  (forall a b, R a b -> S a b) -> Forall2 R l l' -> Forall2 S l l'.
Proof. intros H; induction 1; constructor; auto. Qed.

Lemma zget_Some {A} (l : list A) i d :
  0 <= i < Z.of_nat (length l) -> zget l i = Some (nth (Z.to_nat i) l d).
Proof.
  intros H. unfold zget. destruct (Z.ltb_spec i 0); [lia|].
  apply nth_error_nth'. lia.
Qed.

Lemma zget_inv {A} (l : list A) i a :
  zget l i = Some a -> 0 <= i < Z.of_nat (length l).
Proof.
  unfold zget. destruct (Z.ltb_spec i 0); [discriminate|].
  intros H1. assert (nth_error l (Z.to_nat i) <> None) as H2 by congruence.
  apply nth_error_Some in H2. lia.
Qed.

Lemma zget_neg {A} (l : list A) i : i < 0 -> zget l i = None.
Proof. intros. unfold zget. destruct (Z.ltb_spec i 0); [auto|lia]. Qed.

Lemma zget_0 {A} (a : A) l : zget (a :: l) 0 = Some a.
Proof. reflexivity. Qed.

Lemma zget_cons {A} (a : A) l i : 0 < i -> zget (a :: l) i = zget l (i - 1).
Proof.
  intros H. unfold zget.
  destruct (Z.ltb_spec i 0); [lia|]. destruct (Z.ltb_spec (i-1) 0); [lia|].
  replace (Z.to_nat i) with (S (Z.to_nat (i - 1))) by lia. reflexivity.
Qed.

Lemma zprod_pos ns : Forall (fun n => 1 <= n) ns -> 1 <= zprod ns.
Proof. induction 1; simpl; nia. Qed.

Lemma zprod_nonneg ns : Forall (fun n => 0 <= n) ns -> 0 <= zprod ns.
Proof. induction 1; simpl; nia. Qed.

(** [encode ns is]: position of index vector [is] in first-index-fastest
    order; [decode] is its inverse. *)
Fixpoint encode (ns is : list Z) : Z :=
  match ns, is with
  | n :: ns', i :: is' => i + n * encode ns' is'
  | _, _ => 0
  end.

Fixpoint decode (ns : list Z) (p : Z) : list Z :=
  match ns with
  | [] => []
  | n :: ns' => p mod n :: decode ns' (p / n)
  end.

Lemma in_range0_length ns is : in_range0 ns is -> length is = length ns.
Proof.
  revert is; induction ns as [|n ns IH]; intros [|i is]; simpl; try tauto.
  intros [_ H]. f_equal. auto.
Qed.

Lemma in_range0_pos ns is : in_range0 ns is -> Forall (fun n => 1 <= n) ns.
Proof.
  revert is; induction ns as [|n ns IH]; intros [|i is]; simpl; try tauto.
  - constructor.
  - intros [H1 H2]. constructor; [lia|eauto].
Qed.

Lemma encode_range ns is : in_range0 ns is -> 0 <= encode ns is < zprod ns.
Proof.
  revert is; induction ns as [|n ns IH]; intros [|i is]; simpl; try tauto; try lia.
  intros [H1 H2]. specialize (IH _ H2). nia.
Qed.

Lemma decode_encode ns is : in_range0 ns is -> decode ns (encode ns is) = is.
Proof.
  revert is; induction ns as [|n ns IH]; intros [|i is]; simpl; try tauto.
  intros [H1 H2]. rewrite (Z.mul_comm n), Z.mod_add, Z.div_add by lia.
  rewrite Z.mod_small, Z.div_small by lia. f_equal. rewrite Z.add_0_l. auto.
Qed.

Lemma encode_inj ns is js :
  in_range0 ns is -> in_range0 ns js -> encode ns is = encode ns js -> is = js.
Proof.
  intros H1 H2 E. rewrite <- (decode_encode ns is), <- (decode_encode ns js) by auto.
  congruence.
Qed.

Lemma decode_range ns p :
  Forall (fun n => 1 <= n) ns -> 0 <= p < zprod ns -> in_range0 ns (decode ns p).
Proof.
  revert p; induction ns as [|n ns IH]; intros p HF H; simpl in *; auto.
  inversion_clear HF as [|? ? Hn HF']. pose proof (zprod_pos _ HF').
  split; [apply Z.mod_pos_bound; lia|]. apply IH; auto.
  split; [apply Z.div_pos; lia|]. apply Z.div_lt_upper_bound; lia.
Qed.

Lemma encode_decode ns p :
  Forall (fun n => 1 <= n) ns -> 0 <= p < zprod ns -> encode ns (decode ns p) = p.
Proof.
  revert p; induction ns as [|n ns IH]; intros p HF H; simpl in *; [lia|].
  inversion_clear HF as [|? ? Hn HF']. pose proof (zprod_pos _ HF').
  rewrite IH; auto.
  - pose proof (Z.div_mod p n). lia.
  - split; [apply Z.div_pos; lia|]. apply Z.div_lt_upper_bound; lia.
Qed.

Lemma decode_length ns p : length (decode ns p) = length ns.
Proof. revert p; induction ns; simpl; intros; auto. Qed.

Lemma encode_bound_mono ns is js :
  in_range0 ns is -> in_range0 ns js ->
  Forall2 Z.le is js -> encode ns is <= encode ns js.
Proof.
  revert is js; induction ns as [|n ns IH]; intros [|i is] [|j js]; simpl; try tauto; try lia.
  intros [H1 H2] [H3 H4] HF. inversion_clear HF. specialize (IH is js H2 H4 ltac:(auto)). nia.
Qed.

(** The C forms agree with encode/decode. *)
Lemma find_indices_decode ns p :
  Forall (fun n => 1 <= n) ns -> 0 <= p -> find_indices ns p = Some (decode ns p).
Proof.
  intros HF; revert p; induction HF as [|n ns Hn HF IH]; intros p Hp; [reflexivity|].
  cbn [find_indices decode].
  unfold cmod, cdiv. destruct (Z.eqb_spec n 0); [lia|].
  rewrite Z.rem_mod_nonneg by lia.
  pose proof (Z.mod_le p n). rewrite Z.quot_div_nonneg by (try apply Z.le_0_sub; lia).
  replace ((p - p mod n) / n) with (p / n).
  - rewrite IH; [reflexivity|apply Z.div_pos; lia].
  - rewrite (Z.div_mod p n) at 2 by lia.
    replace (n * (p / n) + p mod n - p mod n) with (p / n * n) by ring.
    rewrite Z.div_mul; lia.
Qed.

Lemma compute_index_aux_encode sub ds f :
  compute_index_aux sub ds f = f * encode ds sub.
Proof.
  revert ds f; induction sub as [|s sub IH]; intros [|d ds] f; simpl; try lia.
  rewrite IH. ring.
Qed.

Lemma compute_index_encode sub ds : compute_index sub ds = encode ds sub.
Proof. unfold compute_index. rewrite compute_index_aux_encode. lia. Qed.

Lemma horner_encode ns is : length is = length ns -> horner ns is = encode ns is.
Proof.
  revert is; induction ns as [|n ns IH]; intros [|i is]; simpl; try reflexivity; try discriminate.
  intros H. destruct ns as [|n' ns], is as [|i' is]; try discriminate.
  - simpl; lia.
  - rewrite IH by (simpl in *; congruence). lia.
Qed.

(** ---- odometers: enumeration of a box, first index fastest ---- *)

(** [zseq l n] = [l; l+1; ...] (n entries). *)
Fixpoint zseq (l : Z) (n : nat) : list Z :=
  match n with O => [] | S n' => l :: zseq (l + 1) n' end.

Lemma zseq_In l n x : In x (zseq l n) <-> l <= x < l + Z.of_nat n.
Proof.
  revert l; induction n as [|n IH]; intros l; cbn [zseq In]; [lia|].
  rewrite IH. lia.
Qed.

Lemma zseq_length l n : length (zseq l n) = n.
Proof. revert l; induction n; simpl; intros; auto. Qed.

Lemma zseq_NoDup l n : NoDup (zseq l n).
Proof.
  revert l; induction n as [|n IH]; intros l; simpl; constructor; auto.
  rewrite zseq_In. lia.
Qed.

Lemma zseq_nth l n k d : (k < n)%nat -> nth k (zseq l n) d = l + Z.of_nat k.
Proof.
  revert l k; induction n as [|n IH]; intros l [|k] H; cbn [zseq nth]; try lia.
  rewrite IH; lia.
Qed.

(** all vectors of the box, first component fastest *)
Fixpoint box_list (lo hi : list Z) : list (list Z) :=
  match lo, hi with
  | l :: lo', h :: hi' =>
      flat_map (fun t => map (fun a => a :: t) (zseq l (Z.to_nat (h - l + 1))))
               (box_list lo' hi')
  | _, _ => [[]]
  end.

Lemma box_list_In lo hi x :
  length lo = length hi -> (In x (box_list lo hi) <-> in_box lo hi x).
Proof.
  revert hi x; induction lo as [|l lo IH]; intros [|h hi] x HL; try discriminate; cbn [box_list in_box].
  - destruct x; cbn; intuition congruence.
  - rewrite in_flat_map. split.
    + intros (t & Ht & Hx). apply in_map_iff in Hx. destruct Hx as (a & <- & Ha).
      apply IH in Ht; [|simpl in HL; congruence]. apply zseq_In in Ha. split; [lia|auto].
    + destruct x as [|a t]; [tauto|]. intros [H1 H2]. exists t. split.
      * apply IH; [simpl in HL; congruence|auto].
      * apply in_map_iff. exists a. split; auto. apply zseq_In. lia.
Qed.

Lemma NoDup_flat_map {A B} (f : A -> list B) l :
  NoDup l -> (forall a, In a l -> NoDup (f a)) ->
  (forall a b y, In a l -> In b l -> In y (f a) -> In y (f b) -> a = b) ->
  NoDup (flat_map f l).
Proof.
  induction 1 as [|a l Ha Hl IH]; intros H1 H2; simpl; [constructor|].
  assert (forall l1 l2 : list B, NoDup l1 -> NoDup l2 ->
            (forall y, In y l1 -> In y l2 -> False) -> NoDup (l1 ++ l2)) as Happ.
  { induction l1 as [|x l1 IHl]; simpl; intros l2 N1 N2 D; auto.
    inversion_clear N1. constructor.
    - rewrite in_app_iff. intros [|]; [auto|]. eapply D; eauto.
    - apply IHl; auto. intros; eapply D; eauto. }
  apply Happ.
  - apply H1; simpl; auto.
  - apply IH; [intros; apply H1; simpl; auto|].
    intros b c y Hb Hc; apply H2; simpl; auto.
  - intros y Hy1 Hy2. apply in_flat_map in Hy2. destruct Hy2 as (b & Hb & Hy).
    assert (a = b) by (eapply H2; eauto; simpl; auto). congruence.
Qed.

Lemma NoDup_map_inj {A B} (f : A -> B) l :
  (forall a b, In a l -> In b l -> f a = f b -> a = b) -> NoDup l -> NoDup (map f l).
Proof.
  intros Hf. induction 1 as [|a l Ha Hl IH]; simpl; constructor.
  - rewrite in_map_iff. intros (b & E & Hb). apply Hf in E; simpl; auto. congruence.
  - apply IH. intros; apply Hf; simpl; auto.
Qed.

Lemma box_list_NoDup lo hi : NoDup (box_list lo hi).
Proof.
  revert hi; induction lo as [|l lo IH]; intros hi; cbn [box_list].
  - constructor; [auto|constructor].
  - destruct hi as [|h hi]; [constructor; [auto|constructor]|].
    apply NoDup_flat_map; auto.
    + intros t _. apply NoDup_map_inj; [congruence|apply zseq_NoDup].
    + intros a b y _ _ Ha Hb. apply in_map_iff in Ha, Hb.
      destruct Ha as (? & <- & _), Hb as (? & E & _). congruence.
Qed.

(** Iterating the carry chain [update_sub] from [lo] enumerates [box_list]. *)
Fixpoint iter_sub (n : nat) (sub lo hi : list Z) : list (list Z) :=
  match n with
  | O => []
  | S n' => sub :: iter_sub n' (update_sub sub lo hi) lo hi
  end.

Lemma flat_map_length_const {A B} (f : A -> list B) l c :
  (forall a, length (f a) = c) -> length (flat_map f l) = (length l * c)%nat.
Proof.
  intros H. induction l; simpl; auto. rewrite app_length, IHl, H. lia.
Qed.

Lemma count_elems_box lo hi :
  length lo = length hi -> Forall2 (fun l h => l <= h + 1) lo hi ->
  Z.of_nat (length (box_list lo hi)) = count_elems lo hi.
Proof.
  intros _ H; induction H as [|l h lo hi H1 H2 IH]; cbn [box_list count_elems]; auto.
  rewrite (flat_map_length_const _ _ (Z.to_nat (h - l + 1))).
  - rewrite Nat2Z.inj_mul, IH, Z2Nat.id by lia. ring.
  - intros a. rewrite map_length, zseq_length. auto.
Qed.

(* one sweep of the first component *)
Lemma iter_sub_sweep k m l lo h hi a t :
  l <= a -> Z.of_nat k = h - a ->
  iter_sub (S k + m) (a :: t) (l :: lo) (h :: hi) =
  map (fun b => b :: t) (zseq a (S k)) ++
  iter_sub m (l :: update_sub t lo hi) (l :: lo) (h :: hi).
Proof.
  revert a; induction k as [|k IH]; intros a Ha Hk.
  - cbn [iter_sub Nat.add zseq map app update_sub].
    destruct (Z.ltb_spec a h); [lia|]. auto.
  - change (iter_sub (S (S k) + m) (a :: t) (l :: lo) (h :: hi)) with
      ((a :: t) :: iter_sub (S k + m) (update_sub (a :: t) (l :: lo) (h :: hi)) (l :: lo) (h :: hi)).
    cbn [update_sub]. destruct (Z.ltb_spec a h); [|lia].
    rewrite (IH (a+1)) by lia. reflexivity.
Qed.

Lemma iter_sub_product n l lo h hi t :
  l <= h ->
  iter_sub (n * Z.to_nat (h - l + 1)) (l :: t) (l :: lo) (h :: hi) =
  flat_map (fun t' => map (fun b => b :: t') (zseq l (Z.to_nat (h - l + 1))))
           (iter_sub n t lo hi).
Proof.
  intros Hlh. remember (Z.to_nat (h - l + 1)) as w eqn:Hw.
  destruct w as [|k]; [lia|].
  revert t; induction n as [|n IH]; intros t; [reflexivity|].
  change (S n * S k)%nat with (S k + n * S k)%nat.
  rewrite iter_sub_sweep by lia. rewrite IH. reflexivity.
Qed.

Lemma iter_sub_box lo hi :
  Forall2 Z.le lo hi ->
  iter_sub (length (box_list lo hi)) lo lo hi = box_list lo hi.
Proof.
  induction 1 as [|l h lo hi H1 H2 IH]; cbn [box_list].
  - reflexivity.
  - rewrite (flat_map_length_const _ _ (Z.to_nat (h - l + 1)))
      by (intros; rewrite map_length, zseq_length; auto).
    rewrite iter_sub_product by auto. rewrite IH. auto.
Qed.

Lemma iter_sub_count lo hi :
  Forall2 Z.le lo hi ->
  iter_sub (Z.to_nat (count_elems lo hi)) lo lo hi = box_list lo hi.
Proof.
  intros H. rewrite <- count_elems_box.
  - rewrite Nat2Z.id. apply iter_sub_box; auto.
  - eapply Forall2_len; eauto.
  - eapply Forall2_imp; [|eauto]. simpl; lia.
Qed.
