(** C54: strided transfers of the ComEx transport. *)
From Coq Require Import ZArith List Lia.
From Verif Require Import SpecBox SpecStore SpecXfer SpecCopy MBase MXfer MOdo MComex LOdo LRadix LComex.
Import ListNotations.
Open Scope Z_scope.

(** A strided description with [c] bytes per segment that C ints can express:
    at most 6 levels. *)
Definition desc_ok (c : Z) (cnt sst dst : list Z) : Prop :=
  1 <= c /\ Forall (fun n => 1 <= n) cnt /\ (length cnt <= 6)%nat /\
  length sst = length cnt /\ length dst = length cnt /\ c * zprod cnt <= int_max.
(** The data type algorithm is only used with nested strides. *)
Definition dtype_usable (k : comex_cfg) (c : Z) (cnt sst dst : list Z) : Prop :=
  k_dtype k = true -> k_far k = true -> k_thr k < c * zprod cnt -> nested 1 sst (c :: cnt) /\ nested 1 dst (c :: cnt).

(** Whatever the settings, the place of the target and the size: the described
    bytes arrive where they belong, nothing else changes. *)
Theorem C54_put_partial : forall (V : Type) k (src m : buffer V) c cnt sst dst,
  desc_ok c cnt sst dst -> 1 <= k_max k -> separate c cnt dst -> has_segments src c cnt sst -> has_segments m c cnt dst ->
  dtype_usable k c cnt sst dst ->
  exists m', nb_puts k src sst m dst (c :: cnt) = Some m' /\ strided_copied c cnt sst dst src m m'.
Proof. intros V k. exact (strided_ok k true). Qed.

Theorem C54_get_partial : forall (V : Type) k (src m : buffer V) c cnt sst dst,
  desc_ok c cnt sst dst -> 1 <= k_max k -> separate c cnt dst -> has_segments src c cnt sst -> has_segments m c cnt dst ->
  dtype_usable k c cnt sst dst ->
  exists m', nb_gets k src sst m dst (c :: cnt) = Some m' /\ strided_copied c cnt sst dst src m m'.
Proof. intros V k. exact (strided_ok k false). Qed.

Theorem C54_acc_partial : forall (V : Type) k es (f : list V -> list V -> list V) (src m : buffer V) c cnt sst dst,
  1 <= es -> (forall a b, length a = Z.to_nat es -> length b = Z.to_nat es -> length (f a b) = Z.to_nat es) ->
  desc_ok c cnt sst dst -> 1 <= k_max k -> separate c cnt dst -> has_segments src c cnt sst -> has_segments m c cnt dst ->
  exists m', nb_accs k es f src sst m dst (c :: cnt) = Some m' /\ strided_accumulated es f c cnt sst dst src m m'.
Proof. exact @accs_ok. Qed.

(** A remote target, messages of at most 7 bytes, no data types / data types. *)
Definition ex_far (dt : bool) : comex_cfg :=
  {| k_near := false; k_far := true; k_packed := true; k_dtype := dt;
     k_eager := -1; k_max := 7; k_thr := 4; k_header := 40; k_stride := 80 |}.
Definition ex_bytes (n : Z) : buffer Z := fun a => if (0 <=? a) && (a <? n) then Some a else None.

(** 3 x 2 segments of 4 bytes; both strides nested. *)
Example C54_ex :
  match nb_puts (ex_far false) (ex_bytes 100) [8; 40] (ex_bytes 60) [4; 12] [4; 3; 2] with
  | Some m' => map m' [0; 3; 4; 8; 11; 12; 16; 23; 24] = map Some [0; 3; 8; 16; 19; 40; 48; 59; 24]
  | None => False
  end /\
  match nb_puts (ex_far true) (ex_bytes 100) [8; 40] (ex_bytes 60) [4; 12] [4; 3; 2] with
  | Some m' => map m' [0; 3; 4; 8; 11; 12; 16; 23; 24] = map Some [0; 3; 8; 16; 19; 40; 48; 59; 24]
  | None => False
  end.
Proof. split; vm_compute; reflexivity. Qed.
Example C54_ex_hyps : desc_ok 4 [3; 2] [8; 40] [4; 12] /\ separate 4 [3; 2] [4; 12] /\
  has_segments (ex_bytes 100) 4 [3; 2] [8; 40] /\ dtype_usable (ex_far true) 4 [3; 2] [8; 40] [4; 12].
Proof.
  split; [|split; [|split]].
  - split; [lia|split; [repeat (apply Forall_cons; [lia|]); apply Forall_nil|split; [cbn; lia|split; [reflexivity|split; [reflexivity|cbn; discriminate]]]]].
  - intros i t i' t' Hi Hi' Ht Ht'. destruct t as [|a [|b [|? ?]]], t' as [|a' [|b' [|? ?]]]; cbn in Ht, Ht'; try tauto. cbn [at_strides].
    intros E. assert (b = b') by lia. assert (a = a') by lia. now subst.
  - intros i t Hi Ht. destruct t as [|a [|b [|? ?]]]; cbn in Ht; try tauto. cbn [at_strides]. unfold ex_bytes.
    replace ((0 <=? a * 8 + (b * 40 + 0) + i) && (a * 8 + (b * 40 + 0) + i <? 100)) with true by lia. discriminate.
  - intros _ _ _. split; cbn; [exists 8|exists 4]; (split; [lia|]; split; [lia|]); [exists 5|exists 3]; repeat split; lia.
Qed.

(** Elements of 4 bytes, 12 bytes apart in rows of 20 bytes (a strided put
    with skip 3 into rows of 5 elements) to a remote process: with the data
    type algorithm the second row arrives at offset 12 instead of 20. *)
Theorem C54_datatype_refuted : exists (k : comex_cfg) (src m : buffer Z) c cnt sst dst,
  desc_ok c cnt sst dst /\ 1 <= k_max k /\ separate c cnt dst /\ has_segments src c cnt sst /\ has_segments m c cnt dst /\
  exists m', nb_puts k src sst m dst (c :: cnt) = Some m' /\ ~ strided_copied c cnt sst dst src m m'.
Proof.
  exists (ex_far true), (ex_bytes 100), (ex_bytes 100), 4, [1; 2], [4; 8], [12; 20].
  split; [split; [lia|split; [repeat (apply Forall_cons; [lia|]); apply Forall_nil|split; [cbn; lia|split; [reflexivity|split; [reflexivity|cbn; discriminate]]]]]|]. split; [cbn; lia|]. split; [|split; [|split]].
  - intros i t i' t' Hi Hi' Ht Ht'. destruct t as [|a [|b [|? ?]]], t' as [|a' [|b' [|? ?]]]; cbn in Ht, Ht'; try tauto. cbn [at_strides].
    intros E. assert (a = a') by lia. subst. assert (b = b') by lia. now subst.
  - intros i t Hi Ht. destruct t as [|a [|b [|? ?]]]; cbn in Ht; try tauto. cbn [at_strides]. unfold ex_bytes.
    replace ((0 <=? a * 4 + (b * 8 + 0) + i) && (a * 4 + (b * 8 + 0) + i <? 100)) with true by lia. discriminate.
  - intros i t Hi Ht. destruct t as [|a [|b [|? ?]]]; cbn in Ht; try tauto. cbn [at_strides]. unfold ex_bytes.
    replace ((0 <=? a * 12 + (b * 20 + 0) + i) && (a * 12 + (b * 20 + 0) + i <? 100)) with true by lia. discriminate.
  - assert (H : match nb_puts (ex_far true) (ex_bytes 100) [4; 8] (ex_bytes 100) [12; 20] [4; 1; 2] with Some m' => m' 20 = Some 20 | None => False end) by (vm_compute; reflexivity).
    destruct (nb_puts (ex_far true) (ex_bytes 100) [4; 8] (ex_bytes 100) [12; 20] [4; 1; 2]) as [m'|]; [|destruct H]. exists m'. split; [reflexivity|].
    intros [HC _]. specialize (HC 0 [0; 1] ltac:(lia)). cbn in HC. rewrite H in HC. assert (X : Some 20 = Some 8) by (apply HC; lia). discriminate X.
Qed.

Lemma ones_zeros n : forall t, in_range0 (repeat 1 n) t -> t = repeat 0 n.
Proof.
  induction n as [|n IH]; intros [|a t] H; cbn in H; try tauto. destruct H as [Ha Ht]. cbn [repeat]. rewrite (IH t Ht). f_equal. lia.
Qed.
(** Seven levels pass the assertion (stride_levels < 8) but the odometers
    have room for six. *)
Theorem C54_seven_levels_refuted : exists (k : comex_cfg) (src m : buffer Z) c cnt sst dst,
  length cnt = 7%nat /\ 1 <= k_max k /\ separate c cnt dst /\ has_segments src c cnt sst /\ has_segments m c cnt dst /\
  k_dtype k = false /\ nb_puts k src sst m dst (c :: cnt) = None.
Proof.
  exists (ex_far false), (fun a => Some a), (fun a => Some a), 1, [1; 1; 1; 1; 1; 1; 1], [1; 1; 1; 1; 1; 1; 1], [1; 1; 1; 1; 1; 1; 1].
  split; [reflexivity|]. split; [cbn; lia|]. split; [|split; [|split]]; try (intros i t Hi Ht; discriminate); [|split; reflexivity].
  intros i t i' t' _ _ Ht Ht' _. change [1; 1; 1; 1; 1; 1; 1] with (repeat 1 7) in Ht, Ht'. rewrite (ones_zeros _ _ Ht), (ones_zeros _ _ Ht'). reflexivity.
Qed.

Print Assumptions C54_put_partial.
Print Assumptions C54_get_partial.
Print Assumptions C54_acc_partial.
Print Assumptions C54_datatype_refuted.
Print Assumptions C54_seven_levels_refuted.
