(** Lemmas about sparse matrices: what is exported. *)
From Verif Require Import SpecSprs MBase MNb MHandle MGroup MSparse MSprs MSprs3 MSprs7 LNb LRadix LStore LIterBlk LSprs LSprs2 LSprs3 LSprs4 LSprs5 LSprs6 LSprs7 LSprs8 PSprs2.
From Coq Require Import Permutation.
Open Scope Z_scope.

Lemma collect_gather {B C} (f : Z -> out B) (g : Z -> out (list C)) (h : B -> C) : forall l r, collect f l = Done r ->
  (forall a y, In a l -> f a = Done y -> g a = Done [h y]) -> gather g l = Done (map h r).
Proof.
  induction l as [|a l IH]; intros r E H; cbn [collect] in E; [injection E as <-; reflexivity|]. destruct (f a) as [y| |] eqn:Ea; try discriminate.
  destruct (collect f l) as [t| |] eqn:Et; try discriminate. injection E as <-. cbn [gather map]. rewrite (H a y (or_introl eq_refl) Ea), (IH t eq_refl); [reflexivity|]. intros b z I. apply H. right. exact I.
Qed.
Lemma rdl_app {A} (a : list A) x b : rdl (a ++ x :: b) (Z.of_nat (length a)) = Done x.
Proof. unfold rdl. replace (0 <=? Z.of_nat (length a)) with true by lia. rewrite Nat2Z.id, nth_error_app2, Nat.sub_diag by lia. reflexivity. Qed.
Lemma find_block_place : forall a c b k, ~ In c a -> find_block (a ++ c :: b) c k = Some (k + Z.of_nat (length a)).
Proof.
  induction a as [|x a IH]; intros c b k N; cbn [app find_block].
  - rewrite Z.eqb_refl. f_equal. cbn. lia.
  - replace (x =? c) with false by (symmetry; apply Z.eqb_neq; intros ->; apply N; left; reflexivity). rewrite IH by (intros I; apply N; right; exact I). f_equal. cbn [length]. lia.
Qed.

Section Export.
Context {V R : Type}.
Variables (kd : kind) (re im : V -> R) (mk : R -> R -> V).
Hypothesis MK : forall x, mk (re x) (im x) = x.
Definition line (i : Z) (jx : Z * V) : Z * Z * V := (i + 1, fst jx + 1, snd jx).
Definition fits (s : sprs V) : Prop := kd = Real \/ kd = Complex /\ (length (s_blk s) <= 1)%nat.

Lemma number_even (s : sprs V) a : number re im s (2 * a) = try x <- rdl (s_v s) a; Done (re x).
Proof. unfold number. rewrite Z.mul_comm, Z.div_mul by lia. replace (Z.even (a * 2)) with true by (symmetry; rewrite Z.even_mul; apply orb_true_r). reflexivity. Qed.
Lemma number_odd (s : sprs V) a : number re im s (2 * a + 1) = try x <- rdl (s_v s) a; Done (im x).
Proof. unfold number. replace ((2 * a + 1) / 2) with a by (symmetry; rewrite Z.add_comm, Z.mul_comm, Z.div_add by lia; reflexivity). replace (Z.even (2 * a + 1)) with false by (symmetry; rewrite Z.even_add, Z.even_mul; reflexivity). reflexivity. Qed.
Lemma export_elt_ok s i loff k j x : kd = Real \/ kd = Complex /\ loff = 0 -> rdl (s_j s) (loff + k) = Done j -> rdl (s_v s) (loff + k) = Done x ->
  export_elt kd re im mk s i loff k = Done [line i (j, x)].
Proof.
  intros K J X. unfold export_elt. destruct K as [->|[-> ->]].
  - rewrite Z.add_comm, X, J. reflexivity.
  - replace (2 * k + 0) with (2 * k) by lia. replace (2 * k + 1 + 0) with (2 * k + 1) by lia. rewrite number_even, number_odd. change (0 + k) with k in *. rewrite X, J, MK. reflexivity.
Qed.
Lemma export_block_ok s i c k loff r : kd = Real \/ kd = Complex /\ loff = 0 -> find_block (s_blk s) c 0 = Some k -> rdl (s_off s) k = Done loff -> block_row s c i = Done r ->
  export_block kd re im mk s i k loff = Done (map (line i) r).
Proof.
  intros K F O B. unfold block_row, access_col_block in B. rewrite F, O in B. unfold read_row in B. cbn [v_i v_j v_v] in B. unfold export_block.
  replace (k * (s_ihi s - s_ilo s + 2) + (i - s_ilo s)) with ((s_ihi s - s_ilo s + 2) * k + (i - s_ilo s)) by ring.
  replace ((s_ihi s - s_ilo s + 2) * k + (i - s_ilo s) + 1) with ((s_ihi s - s_ilo s + 2) * k + (i + 1 - s_ilo s)) by ring.
  destruct (rdl (s_i s) ((s_ihi s - s_ilo s + 2) * k + (i - s_ilo s))) as [a| |]; try discriminate. destruct (rdl (s_i s) ((s_ihi s - s_ilo s + 2) * k + (i + 1 - s_ilo s))) as [b| |]; try discriminate.
  apply (collect_gather _ _ (line i) _ _ B). intros q y _ E. destruct (rdl (s_j s) (loff + (a + q))) as [j| |] eqn:J; try discriminate. destruct (rdl (s_v s) (loff + (a + q))) as [x| |] eqn:X; try discriminate.
  injection E as <-. apply export_elt_ok; assumption.
Qed.
Lemma export_blocks_ok s i (r : Z -> list (Z * V)) total : fits s -> NoDup (s_blk s) -> (forall c, In c (s_blk s) -> block_row s c i = Done (r c)) ->
  forall suf pre po so loff, s_blk s = pre ++ suf -> s_off s = po ++ so -> length po = length pre -> length so = length suf -> (so = [] \/ hd 0 so = loff) -> (pre = [] -> loff = 0) ->
  export_blocks kd re im mk s i suf (sizes_of so total) (Z.of_nat (length pre)) loff = Done (flat_map (fun c => map (line i) (r c)) suf).
Proof.
  intros FT ND BR. induction suf as [|c suf IH]; intros pre po so loff EB EO LP LS HD Z0; [destruct so; reflexivity|].
  destruct so as [|o so]; [discriminate|]. destruct HD as [HD|HD]; [discriminate|]. cbn [hd] in HD. subst o. cbn [sizes_of export_blocks flat_map].
  assert (NC : ~ In c pre). { rewrite EB in ND. apply NoDup_remove_2 in ND. intros I. apply ND, in_or_app. left. exact I. }
  rewrite (export_block_ok s i c (Z.of_nat (length pre)) loff (r c)).
  - replace (Z.of_nat (length pre) + 1) with (Z.of_nat (length (pre ++ [c]))) by (rewrite app_length; cbn; lia).
    rewrite (IH (pre ++ [c]) (po ++ [loff]) so).
    + reflexivity.
    + rewrite <- app_assoc. exact EB.
    + rewrite <- app_assoc. exact EO.
    + rewrite !app_length. cbn. lia.
    + cbn in LS. lia.
    + destruct so as [|o so]; [left; reflexivity|right; cbn; lia].
    + intros Q. destruct pre; discriminate.
  - destruct FT as [K|[K L]]; [left; exact K|right; split; [exact K|]]. apply Z0. rewrite EB, app_length in L. cbn in L. destruct pre; [reflexivity|cbn in L; lia].
  - rewrite EB. apply (find_block_place pre c suf 0 NC).
  - rewrite EO, <- LP. apply rdl_app.
  - apply BR. rewrite EB. apply in_or_app. right. left. reflexivity.
Qed.
End Export.

(** The offsets of the blocks. *)
Definition placed {V} (s : sprs V) : Prop := length (s_off s) = length (s_blk s) /\ (s_off s = [] \/ hd 0 (s_off s) = 0).
Lemma assemble_placed {V} fuel n idim jdim (els : Z -> list (elt V)) o o' ss : assemble fuel n idim jdim els o o' = Done ss -> Forall placed ss.
Proof.
  unfold assemble. intros E. destruct (collect (sort_out n idim els) _) as [bs| |]; try discriminate. destruct (read_offsets _ _ _ _) as [size off]. destruct (total_of n size <? n); try discriminate.
  destruct (send_all _ _ _ _ _ _ _) as [m| |]; try discriminate. destruct (collect (fun p => try loc <- local_part size m p; arrange fuel n idim jdim p loc) _) as [ss0| |] eqn:C; try discriminate.
  destruct (_ <? n) in E; try discriminate. injection E as <-. apply collect_inv in C. induction C as [|p s ps ss' H F IH]; [constructor|]. constructor; [|exact IH]. clear - H.
  destruct (local_part size m p) as [loc| |]; try discriminate. unfold arrange in H. destruct (bin_all _ _ _ _) as [bn| |]; try discriminate. destruct (col_blocks _ _ _) as [blks| |]; try discriminate.
  destruct (_ && _); try discriminate. destruct (own_low _ _ _ _) as [lo| |]; try discriminate. destruct (high_limit _ _ _ _) as [hi| |]; try discriminate. destruct (all_blocks _ _ _) as [[ii es]| |]; try discriminate.
  injection H as <-. unfold placed. cbn [s_blk s_off]. split.
  - rewrite map_length. generalize 0. induction blks as [|b blks IH]; intros z; [reflexivity|]. cbn. rewrite IH. reflexivity.
  - destruct blks as [|b blks]; [left|right]; reflexivity.
Qed.
Lemma block_row_elt {V} (s : sprs V) c i r : block_row s c i = Done r -> r <> [] -> s_v s <> [].
Proof.
  unfold block_row, access_col_block. intros B N E. destruct (find_block _ _ _) as [k|]; [|congruence]. destruct (rdl (s_off s) k) as [o| |]; try discriminate. unfold read_row in B. cbn [v_i v_j v_v] in B.
  destruct (rdl (s_i s) _) as [a| |]; try discriminate. destruct (rdl (s_i s) _) as [b| |]; try discriminate. destruct (zseq 0 (Z.to_nat (b - a))) as [|q qs]; [cbn in B; congruence|]. cbn [collect] in B.
  destruct (rdl (s_j s) _); try discriminate. rewrite E in B. unfold rdl in B. destruct (0 <=? o + (a + q)); [|discriminate]. destruct (Z.to_nat (o + (a + q))); discriminate.
Qed.
