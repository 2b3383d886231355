(** Property theorems: operations with a mask on one-dimensional arrays
    (C63-C66). *)
From Verif Require Import SpecWf SpecSparse MDist MBase MNb MHandle MSparse LRadix LDist LDist2 LLine LSparse LSparse2 LSparse3.
From Coq Require Import Permutation.
Open Scope Z_scope.

(** 7 elements in blocks of 3, 2 and 2 on processes 2, 0 and 3 of 4. *)
Definition ex_line : gadesc :=
  {| distr_type := REGULAR; dims := [7]; nblock := [3]; mapc := [1; 4; 6];
     block_dims := []; num_blocks := []; rstrctd_list := [2; 0; 3]; rank_rstrctd := [1; -1; 0; 2] |}.
Definition ex_lguess (d n x : Z) : Z := n.
Lemma ex_lguess_good : good_guess ex_lguess.
Proof. intros d n x N X. unfold ex_lguess. lia. Qed.
Lemma ex_line_wf : wf_strict_regular 4 ex_line.
Proof.
  split.
  - split; [reflexivity|]. split; [discriminate|]. split.
    + cbn [valid_maps ex_line dims nblock mapc]. split; [|exact I]. split; [lia|]. split; [lia|]. split; [vm_compute; discriminate|]. split; [reflexivity|]. split; [|vm_compute; discriminate].
      intros i H. change (Z.to_nat 3) with 3%nat in H. destruct i as [|[|i]]; [cbn; lia|cbn; lia|lia].
    + right. split; [discriminate|]. split; [repeat constructor; cbn; lia|]. split; [reflexivity|cbn; lia].
  - cbn [strict_maps ex_line dims nblock mapc]. split; [|exact I]. split; [lia|]. split; [vm_compute; discriminate|]. split; [reflexivity|]. split; [|vm_compute; discriminate].
    intros i H. change (Z.to_nat 3) with 3%nat in H. destruct i as [|[|i]]; [cbn; lia|cbn; lia|lia].
Qed.
Lemma ex_procs : all_procs 4 [2; 0; 3; 1].
Proof.
  unfold all_procs. change (zseq 0 (Z.to_nat 4)) with [0; 1; 2; 3].
  apply perm_trans with [0; 2; 3; 1]; [constructor|]. apply perm_skip. apply perm_trans with [2; 1; 3]; [apply perm_skip; constructor|constructor].
Qed.
(** A block without elements: 2 elements in blocks of 1, 0 and 1. *)
Definition gap_line : gadesc :=
  {| distr_type := REGULAR; dims := [2]; nblock := [3]; mapc := [1; 2; 2];
     block_dims := []; num_blocks := []; rstrctd_list := []; rank_rstrctd := [] |}.
Lemma gap_line_wf : wf_regular 3 gap_line.
Proof.
  split; [reflexivity|]. split; [discriminate|]. split.
  - cbn [valid_maps gap_line dims nblock mapc]. split; [|exact I]. split; [lia|]. split; [lia|]. split; [vm_compute; discriminate|]. split; [reflexivity|]. split; [|vm_compute; discriminate].
    intros i H. change (Z.to_nat 3) with 3%nat in H. destruct i as [|[|i]]; [cbn; lia|cbn; lia|lia].
  - left. split; [reflexivity|cbn; lia].
Qed.
(** 4 elements in blocks of 2 on 2 processes. *)
Definition two_line : gadesc :=
  {| distr_type := REGULAR; dims := [4]; nblock := [2]; mapc := [1; 3];
     block_dims := []; num_blocks := []; rstrctd_list := []; rank_rstrctd := [] |}.
Lemma two_line_wf : wf_strict_regular 2 two_line.
Proof.
  split.
  - split; [reflexivity|]. split; [discriminate|]. split.
    + cbn [valid_maps two_line dims nblock mapc]. split; [|exact I]. split; [lia|]. split; [lia|]. split; [vm_compute; discriminate|]. split; [reflexivity|]. split; [|vm_compute; discriminate].
      intros i H. change (Z.to_nat 2) with 2%nat in H. destruct i as [|i]; [cbn; lia|lia].
    + left. split; [reflexivity|cbn; lia].
  - cbn [strict_maps two_line dims nblock mapc]. split; [|exact I]. split; [lia|]. split; [vm_compute; discriminate|]. split; [reflexivity|]. split; [|vm_compute; discriminate].
    intros i H. change (Z.to_nat 2) with 2%nat in H. destruct i as [|i]; [cbn; lia|lia].
Qed.
(** The elements 1..n of an array. *)
Definition elems {V} (n : Z) (a : out (Z -> V)) : out (list V) := match a with Done f => Done (map f (zseq 1 (Z.to_nat n))) | Abort => Abort | Undef => Undef end.

(** * C63 *)
(** Partial: no block is empty. *)
Theorem C63_enum_partial : forall {V} nproc g d ps (val : Z -> V) lo hi a,
  wf_strict_regular nproc g -> dims g = [d] -> all_procs nproc ps -> lo <= hi ->
  exists a', patch_enum g ps val lo hi a = Done a' /\
    (forall x, 1 <= x <= d -> lo <= x <= hi -> a' x = val (x - lo)) /\ (forall x, ~ (1 <= x <= d /\ lo <= x <= hi) -> a' x = a x).
Proof.
  intros V nproc g d ps val lo hi a W D AP LH. destruct (wf_line ex_lguess nproc g d ex_lguess_good W D) as (n & b & own & L).
  destruct (patch_enum_ok _ _ _ _ _ _ _ L val lo hi ps a AP LH) as (a' & E & H). exists a'. split; [exact E|]. split; intros x; apply H.
Qed.
Print Assumptions C63_enum_partial.
Example C63_ex : elems 7 (patch_enum ex_line [2; 0; 3; 1] (fun k => 10 + 5 * k) 2 6 (fun x => x)) = Done [1; 10; 15; 20; 25; 30; 7].
Proof. reflexivity. Qed.
(** A process with an empty block reports an error. *)
Theorem C63_enum_refuted : exists nproc g d ps (val : Z -> Z) lo hi a,
  wf_regular nproc g /\ dims g = [d] /\ all_procs nproc ps /\ 1 <= lo <= hi /\ hi <= d /\ patch_enum g ps val lo hi a = Abort.
Proof.
  exists 3, gap_line, 2, [0; 1; 2], (fun k => k), 1, 2, (fun x => x). split; [exact gap_line_wf|]. split; [reflexivity|]. split; [apply Permutation_refl|].
  split; [lia|]. split; [lia|]. reflexivity.
Qed.
Print Assumptions C63_enum_refuted.

(** * C64 *)
(** Partial: no block is empty. *)
Theorem C64_copy_partial : forall {V} (zero : V) nproc g d ps msk src lo hi dst,
  wf_strict_regular nproc g -> dims g = [d] -> all_procs nproc ps -> 1 <= lo <= hi -> hi <= d ->
  exists dst', scan_copy zero g nproc ps msk src lo hi dst = Done dst' /\
    (forall x j, lo <= x <= hi -> last_set msk lo x j -> dst' x = src j) /\
    (forall x, lo <= x <= hi -> none_set msk lo x -> dst' x = zero) /\
    (forall x, ~ lo <= x <= hi -> dst' x = dst x).
Proof.
  intros V zero nproc g d ps msk src lo hi dst W D AP LH HD. destruct (wf_line ex_lguess nproc g d ex_lguess_good W D) as (n & b & own & L).
  destruct (scan_copy_ok _ _ _ _ _ _ _ L msk lo hi ltac:(lia) zero src ps dst AP ltac:(lia) HD) as (dst' & E & H). exists dst'. split; [exact E|].
  split; [intros x j X LJ; apply (H x); assumption|]. split; intros x; apply H.
Qed.
Print Assumptions C64_copy_partial.
(** The two cases are all there are. *)
Theorem C64_cases : forall msk lo x, (exists j, last_set msk lo x j) \/ none_set msk lo x.
Proof. intros msk lo x. apply last_dec. Qed.
Print Assumptions C64_cases.
Definition ex_msk (x : Z) : bool := (x =? 3) || (x =? 6).
Example C64_ex : elems 7 (scan_copy 0 ex_line 4 [2; 0; 3; 1] ex_msk (fun x => 10 * x) 2 7 (fun x => x)) = Done [1; 0; 30; 30; 30; 60; 60].
Proof. reflexivity. Qed.
Theorem C64_copy_refuted : exists (zero : Z) nproc g d ps msk src lo hi dst,
  wf_regular nproc g /\ dims g = [d] /\ all_procs nproc ps /\ 1 <= lo <= hi /\ hi <= d /\ scan_copy zero g nproc ps msk src lo hi dst = Abort.
Proof.
  exists 0, 3, gap_line, 2, [0; 1; 2], (fun _ => true), (fun x => x), 1, 2, (fun x => x). split; [exact gap_line_wf|]. split; [reflexivity|]. split; [apply Permutation_refl|].
  split; [lia|]. split; [lia|]. reflexivity.
Qed.
Print Assumptions C64_copy_refuted.

(** * C65 *)
(** Partial: no block is empty, and the part that has [lo] has a set element in
    the range, or the range ends before the part does. *)
Theorem C65_add_partial : forall {V} (add : V -> V -> V) (zero : V) excl guess nproc g d ps msk src lo hi dst,
  addition add zero -> good_guess guess -> wf_strict_regular nproc g -> dims g = [d] -> all_procs nproc ps -> 1 <= lo <= hi -> hi <= d ->
  (forall p l h, 0 <= p < nproc -> distribution g p = Some ([l], [h]) -> l <= lo <= h -> hi < h \/ exists j, lo <= j <= h /\ j <= hi /\ msk j = true) ->
  exists dst', scan_add add zero excl guess g nproc ps msk src lo hi dst = Done dst' /\
    (forall x j, lo <= x <= hi -> last_set msk lo x j -> dst' x = sum_of add zero src j (if excl then x - 1 else x)) /\
    (forall x, lo <= x <= hi -> none_set msk lo x -> dst' x = dst x) /\
    (forall x, ~ lo <= x <= hi -> dst' x = dst x).
Proof.
  intros V add zero excl guess nproc g d ps msk src lo hi dst AD GG W D AP LH HD FS. destruct (wf_line guess nproc g d GG W D) as (n & b & own & L).
  destruct (scan_add_ok _ _ _ _ _ _ _ L msk lo hi add zero excl src ps dst ltac:(lia) ltac:(lia) HD AD AP) as (dst' & E & H).
  { intros k K B. pose proof (ln_dist _ _ _ _ _ _ _ L k K) as Q. unfold dist1 in Q.
    destruct (distribution g (own k)) as [[[|l [|? ?]] [|h [|? ?]]]|] eqn:ED; try discriminate. injection Q as -> ->.
    destruct (FS (own k) (b k) (b (k + 1) - 1) (ln_own _ _ _ _ _ _ _ L k K) ED ltac:(lia)) as [|(j & J1 & J2 & J3)]; [left; assumption|right].
    exists j. split; [lia|]. auto. }
  exists dst'. split; [exact E|]. split; [intros x j X LJ; apply (H x); assumption|]. split; intros x; apply H.
Qed.
Print Assumptions C65_add_partial.
Lemma add_addition : addition Z.add 0.
Proof. split; intros; lia. Qed.
Example C65_ex :
  addition Z.add 0 /\ (forall p l h, 0 <= p < 4 -> distribution ex_line p = Some ([l], [h]) -> l <= 2 <= h -> 7 < h \/ exists j, 2 <= j <= h /\ j <= 7 /\ ex_msk j = true) /\
  elems 7 (scan_add Z.add 0 false ex_lguess ex_line 4 [2; 0; 3; 1] ex_msk (fun x => x) 2 7 (fun x => - x)) = Done [-1; -2; 3; 7; 12; 6; 13] /\
  elems 7 (scan_add Z.add 0 true ex_lguess ex_line 4 [2; 0; 3; 1] (fun x => x =? 3) (fun x => x) 2 7 (fun x => - x)) = Done [-1; -2; 0; 3; 7; 12; 18].
Proof.
  split; [exact add_addition|]. split; [|split; reflexivity]. intros p l h P E LH. right. exists 3.
  assert (p = 0 \/ p = 1 \/ p = 2 \/ p = 3) as [->|[->|[->| ->]]] by lia; vm_compute in E; injection E as <- <-; try lia. split; [lia|]. split; [lia|reflexivity].
Qed.
(** With no set element in the first part the search goes past its end. *)
Theorem C65_add_refuted : exists nproc g d ps msk (src : Z -> Z) lo hi dst,
  wf_strict_regular nproc g /\ dims g = [d] /\ all_procs nproc ps /\ 1 <= lo <= hi /\ hi <= d /\
  scan_add Z.add 0 false ex_lguess g nproc ps msk src lo hi dst = Undef.
Proof.
  exists 2, two_line, 4, [0; 1], (fun x => x =? 3), (fun x => x), 1, 4, (fun x => x). split; [exact two_line_wf|]. split; [reflexivity|]. split; [apply Permutation_refl|].
  split; [lia|]. split; [lia|]. reflexivity.
Qed.
Print Assumptions C65_add_refuted.

(** * C66 *)
(** Partial: no block is empty. *)
Theorem C66_pack_partial : forall {V} guess nproc g d ps ext msk (src : Z -> V) lo hi dst,
  good_guess guess -> wf_strict_regular nproc g -> dims g = [d] -> all_procs nproc ps -> 1 <= lo <= hi -> hi <= d -> 0 <= ext ->
  let s := set_list msk lo hi in
  (Z.of_nat (length s) <= ext -> exists dst', pack guess g nproc ps ext msk src lo hi dst = Done (dst', Z.of_nat (length s)) /\
    (forall i x, nth_error s i = Some x -> dst' (Z.of_nat i + 1) = src x) /\
    (forall y, ~ 1 <= y <= Z.of_nat (length s) -> dst' y = dst y)) /\
  (ext < Z.of_nat (length s) -> pack guess g nproc ps ext msk src lo hi dst = Abort).
Proof.
  intros V guess nproc g d ps ext msk src lo hi dst GG W D AP LH HD EX s. destruct (wf_line guess nproc g d GG W D) as (n & b & own & L).
  apply (pack_parts _ _ _ _ _ _ _ L msk lo hi ltac:(lia) ltac:(lia) HD ps AP); exact EX.
Qed.
Print Assumptions C66_pack_partial.
Theorem C66_unpack_partial : forall {V} guess nproc g d ps ext msk (src : Z -> V) lo hi dst,
  good_guess guess -> wf_strict_regular nproc g -> dims g = [d] -> all_procs nproc ps -> 1 <= lo <= hi -> hi <= d -> 0 <= ext ->
  let s := set_list msk lo hi in
  (Z.of_nat (length s) <= ext -> exists dst', unpack guess g nproc ps ext msk src lo hi dst = Done (dst', Z.of_nat (length s)) /\
    (forall i x, nth_error s i = Some x -> dst' x = src (Z.of_nat i + 1)) /\
    (forall x, ~ In x s -> dst' x = dst x)) /\
  (ext < Z.of_nat (length s) -> unpack guess g nproc ps ext msk src lo hi dst = Abort).
Proof.
  intros V guess nproc g d ps ext msk src lo hi dst GG W D AP LH HD EX s. destruct (wf_line guess nproc g d GG W D) as (n & b & own & L).
  apply (unpack_parts _ _ _ _ _ _ _ L msk lo hi ltac:(lia) ltac:(lia) HD ps AP); exact EX.
Qed.
Print Assumptions C66_unpack_partial.
(** Packing and unpacking with the same mask gives back the set elements. *)
Theorem C66_round_trip_partial : forall {V} guess nproc g d ps ps' ext msk (src : Z -> V) lo hi tmp dst,
  good_guess guess -> wf_strict_regular nproc g -> dims g = [d] -> all_procs nproc ps -> all_procs nproc ps' -> 1 <= lo <= hi -> hi <= d ->
  Z.of_nat (length (set_list msk lo hi)) <= ext ->
  exists tmp' dst' c, pack guess g nproc ps ext msk src lo hi tmp = Done (tmp', c) /\ unpack guess g nproc ps' ext msk tmp' lo hi dst = Done (dst', c) /\
    (forall x, lo <= x <= hi -> msk x = true -> dst' x = src x) /\ (forall x, ~ (lo <= x <= hi /\ msk x = true) -> dst' x = dst x).
Proof.
  intros V guess nproc g d ps ps' ext msk src lo hi tmp dst GG W D AP AP' LH HD LE.
  destruct (C66_pack_partial guess nproc g d ps ext msk src lo hi tmp GG W D AP LH HD ltac:(lia)) as [P _]. destruct (P LE) as (tmp' & E & A & _).
  destruct (C66_unpack_partial guess nproc g d ps' ext msk tmp' lo hi dst GG W D AP' LH HD ltac:(lia)) as [Q _]. destruct (Q LE) as (dst' & E' & A' & B').
  exists tmp', dst', (Z.of_nat (length (set_list msk lo hi))). split; [exact E|]. split; [exact E'|]. split.
  - intros x X M. assert (In x (set_list msk lo hi)) as I by (apply set_In; auto). apply In_nth_error in I. destruct I as (i & I).
    rewrite (A' i x I). apply (A i x I).
  - intros x N. apply B'. rewrite set_In. exact N.
Qed.
Print Assumptions C66_round_trip_partial.
Definition elems2 {V} (n : Z) (a : out ((Z -> V) * Z)) : out (list V * Z) :=
  match a with Done (f, c) => Done (map f (zseq 1 (Z.to_nat n)), c) | Abort => Abort | Undef => Undef end.
Example C66_ex : elems2 4 (pack ex_lguess ex_line 4 [2; 0; 3; 1] 4 (fun x => negb (x =? 4)) (fun x => 10 * x) 3 6 (fun x => x)) = Done ([30; 50; 60; 4], 3) /\
  elems2 7 (unpack ex_lguess ex_line 4 [2; 0; 3; 1] 4 (fun x => negb (x =? 4)) (fun x => 10 * x) 3 6 (fun x => x)) = Done ([1; 2; 10; 4; 20; 30; 7], 3) /\
  elems2 2 (pack ex_lguess ex_line 4 [2; 0; 3; 1] 2 (fun x => negb (x =? 4)) (fun x => 10 * x) 3 6 (fun x => x)) = Abort.
Proof. split; [|split]; reflexivity. Qed.
Theorem C66_pack_refuted : exists nproc g d ps ext msk (src : Z -> Z) lo hi dst,
  wf_regular nproc g /\ dims g = [d] /\ all_procs nproc ps /\ 1 <= lo <= hi /\ hi <= d /\ Z.of_nat (length (set_list msk lo hi)) <= ext /\
  pack ex_lguess g nproc ps ext msk src lo hi dst = Abort /\ unpack ex_lguess g nproc ps ext msk src lo hi dst = Abort.
Proof.
  exists 3, gap_line, 2, [0; 1; 2], 2, (fun _ => true), (fun x => x), 1, 2, (fun x => x). split; [exact gap_line_wf|]. split; [reflexivity|]. split; [apply Permutation_refl|].
  split; [lia|]. split; [lia|]. split; [vm_compute; discriminate|]. split; reflexivity.
Qed.
Print Assumptions C66_pack_refuted.
