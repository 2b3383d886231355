(** Lemmas: products of matrices. *)
From Verif Require Import LRadix LDist LStrided LStrided2 LIterReg LIterReg3 LIterSca LStore LXfer LXfer2 LLoc LAccess LSelect LSelect2 LOdo LGcopy2 LGcopy5 LCpatch LPw2 SpecDiag.
From Verif Require Export MMat.
Open Scope Z_scope.

(** ---- chunks ---- *)
Lemma chunk_loop_In fuel : forall lo n c r, 1 <= c -> In r (chunk_loop fuel lo n c) -> lo <= fst r <= snd r /\ snd r < n /\ len r <= c.
Proof.
  induction fuel as [|f IH]; intros lo n c r Hc; cbn [chunk_loop]; [intros []|].
  destruct (Z.ltb_spec lo n); [|intros []]. intros [<-|Hr]; [unfold len; cbn; lia|]. apply IH in Hr; [lia|exact Hc].
Qed.
Lemma chunk_loop_zseq fuel : forall lo n c, 1 <= c -> (Z.to_nat (n - lo) <= fuel)%nat ->
  flat_map (fun r => zseq (fst r) (Z.to_nat (len r))) (chunk_loop fuel lo n c) = zseq lo (Z.to_nat (n - lo)).
Proof.
  induction fuel as [|f IH]; intros lo n c Hc Hf; cbn [chunk_loop].
  - replace (Z.to_nat (n - lo)) with O by lia. reflexivity.
  - destruct (Z.ltb_spec lo n); [|replace (Z.to_nat (n - lo)) with O by lia; reflexivity].
    cbn [flat_map]. rewrite IH by lia. unfold len. cbn [fst snd].
    destruct (Z.le_gt_cases (n - 1) (lo + c - 1)).
    + rewrite Z.min_l by lia. replace (Z.to_nat (n - (lo + c))) with O by lia. cbn [zseq]. rewrite app_nil_r. f_equal. lia.
    + rewrite Z.min_r by lia. replace (lo + c - 1 - lo + 1) with c by lia.
      replace (Z.to_nat (n - lo)) with (Z.to_nat c + Z.to_nat (n - (lo + c)))%nat by lia. rewrite zseq_app. f_equal. f_equal. lia.
Qed.
Lemma chunks_In n c r : 1 <= c -> In r (chunks n c) -> 0 <= fst r <= snd r /\ snd r < n /\ len r <= c.
Proof. apply chunk_loop_In. Qed.
Lemma chunk_loop_one {A} fuel : forall lo n c i (X : list A), 1 <= c -> (Z.to_nat (n - lo) <= fuel)%nat -> lo <= i < n ->
  flat_map (fun r => if (fst r <=? i) && (i <=? snd r) then X else []) (chunk_loop fuel lo n c) = X.
Proof.
  assert (N : forall fuel lo n c i (X : list A), 1 <= c -> i < lo ->
    flat_map (fun r => if (fst r <=? i) && (i <=? snd r) then X else []) (chunk_loop fuel lo n c) = []).
  { induction fuel0 as [|f IH]; intros lo n c i X Hc Hi; cbn [chunk_loop]; [reflexivity|].
    destruct (lo <? n); [|reflexivity]. cbn [flat_map fst snd]. rewrite IH by lia.
    destruct (Z.leb_spec lo i); [lia|]. reflexivity. }
  induction fuel as [|f IH]; intros lo n c i X Hc Hf Hi; cbn [chunk_loop]; [lia|].
  destruct (Z.ltb_spec lo n); [|lia]. cbn [flat_map fst snd].
  destruct (Z.leb_spec lo i); [|lia]. destruct (Z.leb_spec i (Z.min (n - 1) (lo + c - 1))); cbn [andb].
  - rewrite N by lia. apply app_nil_r.
  - apply IH; lia.
Qed.
Lemma chunks_one {A} n c i (X : list A) : 1 <= c -> 0 <= i < n ->
  flat_map (fun r => if (fst r <=? i) && (i <=? snd r) then X else []) (chunks n c) = X.
Proof. intros Hc Hi. apply chunk_loop_one; lia. Qed.

(** ---- sums ---- *)
Section Sums.
Context {V : Type} (radd rmul : V -> V -> V) (zero : V).
Hypothesis SR : semiring radd rmul zero.
Lemma fold_radd l : forall v, fold_left radd l v = radd v (fold_left radd l zero).
Proof.
  destruct SR as (A & C & Z & _). induction l as [|x l IH]; intros v; cbn [fold_left]; [now rewrite C, Z|].
  rewrite IH, (IH (radd zero x)), Z. now rewrite A.
Qed.
Lemma fold_app l l' : fold_left radd (l ++ l') zero = radd (fold_left radd l zero) (fold_left radd l' zero).
Proof. rewrite fold_left_app. apply fold_radd. Qed.
Lemma fold_flat {A B} (g : B -> V) (h : A -> list B) l :
  fold_left radd (map g (flat_map h l)) zero = fold_left radd (map (fun a => fold_left radd (map g (h a)) zero) l) zero.
Proof.
  induction l as [|a l IH]; [reflexivity|]. cbn [flat_map map fold_left]. rewrite map_app, fold_app, IH.
  rewrite (fold_radd _ (radd zero _)). destruct SR as (_ & _ & Z & _). now rewrite Z.
Qed.
Lemma fold_rmul a l : fold_left radd (map (rmul a) l) zero = rmul a (fold_left radd l zero).
Proof.
  destruct SR as (A & C & Z & D & Z2 & _). induction l as [|x l IH]; cbn [map fold_left]; [now rewrite Z2|].
  rewrite (fold_radd _ (radd zero _)), (fold_radd l (radd zero x)), IH, !Z. now rewrite D.
Qed.
(** The sum over all is the sum over the chunks of the sums over the chunks. *)
Lemma sum_chunks n c g : 1 <= c ->
  fold_left radd (map (fun r => sum radd zero (len r) (fun l => g (fst r + l))) (chunks n c)) zero = sum radd zero n g.
Proof.
  intros Hc. unfold sum. rewrite !counts_zseq. replace (Z.to_nat n) with (Z.to_nat (n - 0)) by lia.
  rewrite <- (chunk_loop_zseq (Z.to_nat n) 0 n c) by lia. rewrite fold_flat. f_equal. apply map_ext. intros r.
  unfold counts. rewrite zseq_seq, !map_map. reflexivity.
Qed.
Lemma radd_swap : forall a b c, radd (radd a b) c = radd (radd a c) b.
Proof. destruct SR as (A & C & _). intros a b c. rewrite <- !A. f_equal. apply C. Qed.
End Sums.

(** ---- a part of an operand ---- *)
Lemma region_lin i0 j0 i1 ld i l : lin ((i1 - i0 + 1) :: ld) (vsub [i0 + i; j0 + l] [i0; j0]) = i + l * (i1 - i0 + 1).
Proof. cbn [vsub lin]. lia. Qed.
Lemma plane_region2 l h d i0 i1 j0 j1 : length l = 2%nat -> length h = 2%nat ->
  plane_region (Plane l h d 0 1) i0 i1 j0 j1 = Some ([i0; j0], [i1; j1], [i1 - i0 + 1; j1 - j0 + 1]).
Proof.
  destruct l as [|l0 [|l1 [|]]]; try discriminate. destruct h as [|h0 [|h1 [|]]]; try discriminate. reflexivity.
Qed.

Section Fetch.
Context {V : Type} (conj : V -> V) (junk : V).
Variables (guess : Z -> Z -> Z -> Z) (wn : Z) (smp : Z -> bool) (a : garray) (placed : list Z -> place -> Prop) (shape : list Z -> Prop).
Variables (d1 d2 : Z) (m : heap V) (A : list Z -> V).
Hypothesis HG : good_guess guess.
Hypothesis HL : any_layout a wn placed shape.
Hypothesis HS : small_local a shape.
Hypothesis HD : dims (ga_desc a) = [d1; d2].
Hypothesis HA : allocated placed m.
Hypothesis HM : holds [d1; d2] placed m A.

Lemma get_region rnd i0 i1 j0 j1 ld size : (forall k, 0 <= rnd k) -> 1 <= i0 <= i1 -> i1 <= d1 -> 1 <= j0 <= j1 -> j1 <= d2 ->
  (i1 - i0 + 1) * (j1 - j0 + 1) <= size -> ga_elemsize a * ((i1 - i0 + 1) * (j1 - j0 + 1)) <= int_max ->
  exists buf n, (forall fuel, (n <= fuel)%nat ->
      (do ts <- transfers fuel guess rnd wn smp a [i0; j0] [i1; j1] (i1 - i0 + 1 :: ld); run_elems (get_elem m) (fresh junk size) ts) = Some buf) /\
    forall i l, 0 <= i <= i1 - i0 -> 0 <= l <= j1 - j0 -> buf (i + l * (i1 - i0 + 1)) = Some (A [i0 + i; j0 + l]).
Proof.
  intros HR H1 H2 H3 H4 HZ HB.
  destruct (any_transfers guess rnd wn smp a [i0; j0] [i1; j1] (i1 - i0 + 1 :: ld) [i1 - i0 + 1; j1 - j0 + 1] placed shape)
    as (ts & (n & E) & R); auto.
  { rewrite HD. cbn. lia. } { rewrite HD. cbn. lia. }
  { constructor; [lia|]. constructor; [lia|constructor]. }
  { cbn. constructor; [lia|]. constructor; [lia|constructor]. }
  { cbn [zprod fold_right]. unfold zprod. cbn. rewrite Z.mul_1_r. exact HB. }
  destruct (any_storage _ _ _ _ HL) as (al & S1 & S2 & S3 & _).
  destruct (region_get placed [i0; j0] [i1; j1] (i1 - i0 + 1 :: ld) eq_refl S2 ts (fresh junk size) m) as (buf & RG & [EG _]); auto.
  { cbn. split; [lia|exact I]. }
  { intros x Hx. destruct x as [|x [|y [|]]]; cbn in Hx; try tauto. unfold buf_at.
    replace [x; y] with [i0 + (x - i0); j0 + (y - j0)] by (f_equal; [lia|f_equal; lia]). rewrite region_lin. unfold fresh.
    assert (0 <= (x - i0) + (y - j0) * (i1 - i0 + 1) < size).
    { assert ((y - j0) * (i1 - i0 + 1) <= (j1 - j0) * (i1 - i0 + 1)) by (apply Z.mul_le_mono_nonneg_r; lia).
      assert (0 <= (y - j0) * (i1 - i0 + 1)) by (apply Z.mul_nonneg_nonneg; lia). lia. }
    rewrite (proj2 (Z.leb_le 0 _)), (proj2 (Z.ltb_lt _ size)) by lia. discriminate. }
  exists buf, n. split.
  - intros fuel Hf. rewrite E by exact Hf. exact RG.
  - intros i l Hi Hl. rewrite <- (region_lin i0 j0 i1 ld i l).
    assert (IA : in_array [d1; d2] [i0 + i; j0 + l]) by (cbn; lia).
    rewrite <- HD in IA. destruct (S1 _ IA) as (q & Hq). rewrite HD in IA.
    pose proof (EG [i0 + i; j0 + l] q ltac:(cbn; lia) Hq) as X. unfold buf_at in X. rewrite X. apply HM; auto.
Qed.

(** rows [r] and columns [s] of op(A) *)
Lemma fetch_ok rnd o ilo ihi jlo jhi size r s : (forall k, 0 <= rnd k) -> op_patch o [d1; d2] [ilo; jlo] [ihi; jhi] ->
  0 <= fst r <= snd r -> ilo + snd r <= ihi -> 0 <= fst s <= snd s -> jlo + snd s <= jhi ->
  len r * len s <= size -> ga_elemsize a * (len r * len s) <= int_max ->
  exists buf n, (forall fuel, (n <= fuel)%nat ->
      fetch junk fuel guess rnd wn smp o a (Plane [ilo; jlo] [ihi; jhi] [d1; d2] 0 1) m size r s = Some (buf, if is_n o then len r else len s)) /\
    forall i l, 0 <= i < len r -> 0 <= l < len s ->
      exists v, buf (if is_n o then i + l * len r else l + i * len s) = Some v /\ cj conj o v = op_at conj o A ilo jlo (fst r + i) (fst s + l).
Proof.
  intros HR HP Hr Hr2 Hs Hs2 HZ HB. unfold len in *. destruct o; cbn [is_n op_patch] in *.
  - destruct HP as (P1 & P2 & _). cbn in P1, P2.
    destruct (get_region rnd (ilo + fst r) (ilo + snd r) (jlo + fst s) (jlo + snd s) [jlo + snd s - (jlo + fst s) + 1] size) as (buf & n & E & X); auto; try lia.
    exists buf, n. split.
    + intros fuel Hf. unfold fetch, plane_box. cbn [pl_lo pl_hi pl_i pl_j]. change (zget [ilo; jlo] 0) with (Some ilo).
      change (zget [ilo; jlo] 1) with (Some jlo). change (zget [ihi; jhi] 0) with (Some ihi). change (zget [ihi; jhi] 1) with (Some jhi). cbn [is_n].
      rewrite plane_region2 by reflexivity. specialize (E fuel Hf).
      destruct (transfers _ _ _ _ _ _ _ _ _); [|discriminate]. rewrite E. reflexivity.
    + intros i l Hi Hl. exists (A [ilo + (fst r + i); jlo + (fst s + l)]). split; [|reflexivity].
      replace (snd r - fst r + 1) with (ilo + snd r - (ilo + fst r) + 1) by lia. rewrite X by lia. f_equal. f_equal. f_equal; [lia|f_equal; lia].
  - destruct HP as (P1 & P2 & _). cbn in P1, P2.
    destruct (get_region rnd (jlo + fst s) (jlo + snd s) (ilo + fst r) (ilo + snd r) [ilo + snd r - (ilo + fst r) + 1] size) as (buf & n & E & X); auto; try lia.
    exists buf, n. split.
    + intros fuel Hf. unfold fetch, plane_box. cbn [pl_lo pl_hi pl_i pl_j]. change (zget [ilo; jlo] 0) with (Some ilo).
      change (zget [ilo; jlo] 1) with (Some jlo). change (zget [ihi; jhi] 0) with (Some ihi). change (zget [ihi; jhi] 1) with (Some jhi). cbn [is_n].
      rewrite plane_region2 by reflexivity. specialize (E fuel Hf).
      destruct (transfers _ _ _ _ _ _ _ _ _); [|discriminate]. rewrite E. reflexivity.
    + intros i l Hi Hl. exists (A [jlo + (fst s + l); ilo + (fst r + i)]). split; [|reflexivity].
      replace (snd s - fst s + 1) with (jlo + snd s - (jlo + fst s) + 1) by lia. rewrite X by lia. f_equal. f_equal. f_equal; [lia|f_equal; lia].
  - destruct HP as (P1 & P2 & _). cbn in P1, P2.
    destruct (get_region rnd (jlo + fst s) (jlo + snd s) (ilo + fst r) (ilo + snd r) [ilo + snd r - (ilo + fst r) + 1] size) as (buf & n & E & X); auto; try lia.
    exists buf, n. split.
    + intros fuel Hf. unfold fetch, plane_box. cbn [pl_lo pl_hi pl_i pl_j]. change (zget [ilo; jlo] 0) with (Some ilo).
      change (zget [ilo; jlo] 1) with (Some jlo). change (zget [ihi; jhi] 0) with (Some ihi). change (zget [ihi; jhi] 1) with (Some jhi). cbn [is_n].
      rewrite plane_region2 by reflexivity. specialize (E fuel Hf).
      destruct (transfers _ _ _ _ _ _ _ _ _); [|discriminate]. rewrite E. reflexivity.
    + intros i l Hi Hl. exists (A [jlo + (fst s + l); ilo + (fst r + i)]). split; [|cbn [cj op_at]; reflexivity].
      replace (snd s - fst s + 1) with (jlo + snd s - (jlo + fst s) + 1) by lia. rewrite X by lia. f_equal. f_equal. f_equal; [lia|f_equal; lia].
Qed.
End Fetch.

(** ---- the product of two parts ---- *)
Lemma mapM_some {A B} (f : A -> option B) g l : (forall x, In x l -> f x = Some (g x)) -> mapM f l = Some (map g l).
Proof.
  induction l as [|x l IH]; intros H; [reflexivity|]. cbn [mapM map]. rewrite (H x (or_introl eq_refl)). cbn.
  rewrite IH; [reflexivity|]. intros y Hy. apply H. now right.
Qed.
Section Gemm.
Context {V : Type} (radd rmul : V -> V -> V) (zero : V) (conj : V -> V).
Lemma gemm_buf_ok oa ob alpha (a b : buffer V) I J K (fa fb : Z -> Z -> V) i j :
  (forall i l, 0 <= i < I -> 0 <= l < K -> exists v, a (if is_n oa then i + l * I else l + i * K) = Some v /\ cj conj oa v = fa i l) ->
  (forall l j, 0 <= l < K -> 0 <= j < J -> exists v, b (if is_n ob then l + j * K else j + l * J) = Some v /\ cj conj ob v = fb l j) ->
  0 <= i < I -> 0 <= j < J ->
  gemm_buf radd rmul zero conj oa ob alpha I J K a (if is_n oa then I else K) b (if is_n ob then K else J) (i + j * I) =
  Some (rmul alpha (sum radd zero K (fun l => rmul (fa i l) (fb l j)))).
Proof.
  intros HA HB Hi Hj. unfold gemm_buf.
  assert (E1 : (i + j * I) mod I = i) by (rewrite Z.mod_add by lia; apply Z.mod_small; lia).
  assert (E2 : (i + j * I) / I = j) by (rewrite Z.div_add by lia; rewrite Z.div_small by lia; lia).
  rewrite E1, E2. assert (0 <= i + j * I < I * J) by nia.
  rewrite (proj2 (Z.leb_le 0 _)), (proj2 (Z.ltb_lt _ (I * J))) by lia. cbn [andb].
  unfold gemm_at. rewrite (mapM_some _ (fun l => rmul (fa i l) (fb l j))); [reflexivity|].
  intros l Hl. apply counts_In in Hl. destruct (HA i l Hi Hl) as (v & Ev & <-). destruct (HB l j Hl Hj) as (w & Ew & <-).
  destruct (is_n oa), (is_n ob); rewrite Ev; cbn; rewrite Ew; reflexivity.
Qed.
Lemma gemm_ok oa ob alpha (a b : buffer V) I J K (fa fb : Z -> Z -> V) i j :
  (forall i l, 0 <= i < I -> 0 <= l < K -> exists v, a (if is_n oa then i + l * I else l + i * K) = Some v /\ cj conj oa v = fa i l) ->
  (forall l j, 0 <= l < K -> 0 <= j < J -> exists v, b (if is_n ob then l + j * K else j + l * J) = Some v /\ cj conj ob v = fb l j) ->
  0 <= i < I -> 0 <= j < J ->
  gemm radd rmul zero conj oa ob alpha I J K a (if is_n oa then I else K) b (if is_n ob then K else J) (i + j * I) =
  Some (radd zero (rmul alpha (sum radd zero K (fun l => rmul (fa i l) (fb l j))))).
Proof. intros HA HB Hi Hj. unfold gemm. rewrite (gemm_buf_ok oa ob alpha a b I J K fa fb) by auto. reflexivity. Qed.
End Gemm.

(** ---- the tasks ---- *)
Definition tasks (is ks js : list (Z * Z)) : list ((Z * Z) * (Z * Z) * (Z * Z)) :=
  flat_map (fun jc => flat_map (fun kc => map (fun ic => (jc, kc, ic)) is) ks) js.
(** those of process [me], from number [ijk] on *)
Fixpoint mine {T} (nproc me ijk : Z) (l : list T) : list T :=
  match l with
  | [] => []
  | t :: l' => if ijk mod nproc =? me then t :: mine nproc me (ijk + 1) l' else mine nproc me (ijk + 1) l'
  end.
Lemma mine_app {T} nproc me (l : list T) : forall ijk l', mine nproc me ijk (l ++ l') = mine nproc me ijk l ++ mine nproc me (ijk + Z.of_nat (length l)) l'.
Proof.
  induction l as [|t l IH]; intros ijk l'; cbn [app mine length]; [now rewrite Z.add_0_r|].
  rewrite IH. replace (ijk + 1 + Z.of_nat (length l)) with (ijk + Z.of_nat (S (length l))) by lia.
  destruct (ijk mod nproc =? me); reflexivity.
Qed.
Lemma one_more {T} (c : Z) (t : T) (X : Z -> list T) L : NoDup L -> In c L ->
  Permutation (flat_map (fun me => if c =? me then t :: X me else X me) L) (t :: flat_map X L).
Proof.
  induction L as [|a L IH]; intros ND HI; [destruct HI|]. inversion ND as [|? ? NI ND']; subst. cbn [flat_map].
  destruct (Z.eqb_spec c a) as [->|Hne].
  - cbn [app]. constructor. apply Permutation_app_head. clear IH HI ND ND'.
    induction L as [|b L IH]; [constructor|]. cbn [flat_map]. destruct (Z.eqb_spec a b) as [->|]; [exfalso; apply NI; now left|].
    apply Permutation_app_head, IH. intros X0. apply NI. now right.
  - destruct HI as [->|HI]; [congruence|]. eapply perm_trans; [apply Permutation_app_head, IH; auto|].
    apply Permutation_sym, Permutation_middle.
Qed.
Lemma mine_all {T} nproc (l : list T) : 1 <= nproc -> forall ijk, Permutation (flat_map (fun me => mine nproc me ijk l) (zseq 0 (Z.to_nat nproc))) l.
Proof.
  intros Hn. induction l as [|t l IH]; intros ijk; cbn [mine].
  - induction (zseq 0 (Z.to_nat nproc)); [constructor|exact IHl].
  - eapply perm_trans; [apply one_more; [apply zseq_NoDup|]|].
    + apply zseq_In. pose proof (Z.mod_pos_bound ijk nproc). lia.
    + constructor. apply IH.
Qed.
Lemma fuel_list {A B} (P : A -> B -> nat -> Prop) (Q : A -> B -> Prop) l :
  (forall x, In x l -> exists y n, Q x y /\ forall fuel, (n <= fuel)%nat -> P x y fuel) ->
  exists ys n, Forall2 Q l ys /\ forall fuel, (n <= fuel)%nat -> Forall2 (fun x y => P x y fuel) l ys.
Proof.
  induction l as [|x l IH]; intros H; [exists [], O; split; [constructor|intros; constructor]|].
  destruct (H x (or_introl eq_refl)) as (y & n & HQ & HP). destruct IH as (ys & n' & HQs & HPs); [intros; apply H; now right|].
  exists (y :: ys), (Nat.max n n'). split; [constructor; auto|]. intros fuel Hf. constructor; [apply HP; lia|apply HPs; lia].
Qed.

Lemma mul_le2 x y x' y' : 0 <= x <= x' -> 0 <= y <= y' -> x * y <= x' * y'.
Proof. intros. apply Z.mul_le_mono_nonneg; lia. Qed.
Section Tasks.
Context {V : Type} (radd rmul : V -> V -> V) (zero : V) (conj : V -> V) (junk : V).
Variables (guess : Z -> Z -> Z -> Z) (wn : Z) (smp : Z -> bool) (rnda rndb rndc : Z -> Z -> Z).
Variables (oa ob : mop) (alpha : V) (a b c : garray) (pa pb pc : list Z -> place -> Prop) (sha shb shc : list Z -> Prop).
Variables (da1 da2 db1 db2 dc1 dc2 : Z) (ma mb : heap V) (A B : list Z -> V).
Variables (ailo aihi ajlo ajhi bilo bihi bjlo bjhi cilo cihi cjlo cjhi nproc me sa sb I J K : Z).
Hypothesis HG : good_guess guess.
Hypothesis (RA : forall t k, 0 <= rnda t k) (RB : forall t k, 0 <= rndb t k) (RC : forall t k, 0 <= rndc t k).
Hypothesis (LA : any_layout a wn pa sha) (LB : any_layout b wn pb shb) (LC : any_layout c wn pc shc).
Hypothesis (SA : small_local a sha) (SB : small_local b shb) (SC : small_local c shc).
Hypothesis (DA : dims (ga_desc a) = [da1; da2]) (DB : dims (ga_desc b) = [db1; db2]) (DC : dims (ga_desc c) = [dc1; dc2]).
Hypothesis (AA : allocated pa ma) (AB : allocated pb mb) (HA : holds [da1; da2] pa ma A) (HB : holds [db1; db2] pb mb B).
Hypothesis (PA : op_patch oa [da1; da2] [ailo; ajlo] [aihi; ajhi]) (PB : op_patch ob [db1; db2] [bilo; bjlo] [bihi; bjhi])
  (PC : op_patch opN [dc1; dc2] [cilo; cjlo] [cihi; cjhi]).
Hypothesis (E1 : cihi - cilo = aihi - ailo) (E2 : ajhi - ajlo = bihi - bilo) (E3 : bjhi - bjlo = cjhi - cjlo).
Hypothesis (Ia : ga_elemsize a * (I * K) <= int_max) (Ib : ga_elemsize b * (K * J) <= int_max) (Ic : ga_elemsize c * (I * J) <= int_max).
Hypothesis (Sa : I * K <= sa) (Sb : K * J <= sb).
Let planeA := Plane [ailo; ajlo] [aihi; ajhi] [da1; da2] 0 1.
Let planeB := Plane [bilo; bjlo] [bihi; bjhi] [db1; db2] 0 1.
Let planeC := Plane [cilo; cjlo] [cihi; cjhi] [dc1; dc2] 0 1.

(** A chunk of a range of [n] numbers. *)
Definition chunk_of (n c : Z) (r : Z * Z) : Prop := 0 <= fst r <= snd r /\ snd r < n /\ len r <= c.
Definition task_value (t : (Z * Z) * (Z * Z) * (Z * Z)) (i j : Z) : V :=
  let '(jc, kc, ic) := t in
  radd zero (rmul alpha (sum radd zero (len kc) (fun l => rmul (op_at conj oa A ailo ajlo i (fst kc + l)) (op_at conj ob B bilo bjlo (fst kc + l) j)))).
Definition task_ok (t : (Z * Z) * (Z * Z) * (Z * Z)) (ot : region_op V * list (place * Z)) : Prop :=
  let '(jc, kc, ic) := t in
  o_lo (fst ot) = [cilo + fst ic; cjlo + fst jc] /\ o_hi (fst ot) = [cilo + snd ic; cjlo + snd jc] /\
  region_transfers pc (o_lo (fst ot)) (o_hi (fst ot)) (o_ld (fst ot)) (snd ot) /\
  forall i j, fst ic <= i <= snd ic -> fst jc <= j <= snd jc ->
    buf_at (o_buf (fst ot)) (o_lo (fst ot)) (o_ld (fst ot)) [cilo + i; cjlo + j] = Some (task_value t i j).

Definition b_ok (kc jc : Z * Z) (bb : option (buffer V * Z)) : Prop :=
  match bb with
  | None => True
  | Some (buf, d) => d = (if is_n ob then len kc else len jc) /\
      forall l j, 0 <= l < len kc -> 0 <= j < len jc ->
        exists v, buf (if is_n ob then l + j * len kc else j + l * len jc) = Some v /\ cj conj ob v = op_at conj ob B bilo bjlo (fst kc + l) (fst jc + j)
  end.

Lemma c_region ijk ic jc : chunk_of (cihi - cilo + 1) I ic -> chunk_of (cjhi - cjlo + 1) J jc ->
  exists ts n, (forall fuel, (n <= fuel)%nat -> c_transfers fuel guess wn smp rndc c planeC ijk ic jc = Some ts) /\
    region_transfers pc [cilo + fst ic; cjlo + fst jc] [cilo + snd ic; cjlo + snd jc]
      [cilo + snd ic - (cilo + fst ic) + 1; cjlo + snd jc - (cjlo + fst jc) + 1] ts.
Proof.
  intros (H1 & H2 & H3) (H4 & H5 & H6). destruct PC as (P1 & P2 & _). cbn in P1, P2. unfold len in *.
  destruct (any_transfers guess (rndc ijk) wn smp c [cilo + fst ic; cjlo + fst jc] [cilo + snd ic; cjlo + snd jc]
      [cilo + snd ic - (cilo + fst ic) + 1; cjlo + snd jc - (cjlo + fst jc) + 1]
      [cilo + snd ic - (cilo + fst ic) + 1; cjlo + snd jc - (cjlo + fst jc) + 1] pc shc) as (ts & (n & E) & R); auto.
  { rewrite DC. cbn. lia. } { rewrite DC. cbn. lia. }
  { constructor; [lia|]. constructor; [lia|constructor]. }
  { cbn. constructor; [lia|]. constructor; [lia|constructor]. }
  { unfold zprod. cbn [fold_right]. rewrite Z.mul_1_r. destruct SC as [Q1 _]. eapply Z.le_trans; [|exact Ic].
    apply Z.mul_le_mono_nonneg_l; [lia|]. apply mul_le2; lia. }
  exists ts, n. split; [|exact R]. intros fuel Hf. unfold c_transfers, plane_box, planeC. cbn [pl_lo pl_hi pl_i pl_j].
  change (zget [cilo; cjlo] 0) with (Some cilo). change (zget [cilo; cjlo] 1) with (Some cjlo).
  change (zget [cihi; cjhi] 0) with (Some cihi). change (zget [cihi; cjhi] 1) with (Some cjhi).
  cbv iota beta. rewrite plane_region2 by reflexivity. apply E, Hf.
Qed.

Lemma row_loop_ok jc kc : chunk_of (bjhi - bjlo + 1) J jc -> chunk_of (ajhi - ajlo + 1) K kc ->
  forall is ijk bb, (forall ic, In ic is -> chunk_of (aihi - ailo + 1) I ic) -> b_ok kc jc bb ->
  exists ots n, Forall2 task_ok (mine nproc me ijk (map (fun ic => (jc, kc, ic)) is)) ots /\
    forall fuel, (n <= fuel)%nat ->
      row_loop radd rmul zero conj junk fuel guess wn smp rnda rndb rndc oa ob alpha a b c planeA planeB planeC ma mb nproc me sa sb is jc kc ijk bb
      = Some (op_events ots).
Proof.
  intros HJ HK. induction is as [|ic is IH]; intros ijk bb HI Hbb.
  { exists [], O. split; [constructor|]. intros. reflexivity. }
  cbn [row_loop map mine]. destruct (ijk mod nproc =? me).
  2:{ apply IH; auto. intros; apply HI; now right. }
  pose proof (HI ic (or_introl eq_refl)) as HIc. pose proof HIc as (H1 & H2 & H3). pose proof HJ as (H4 & H5 & H6). pose proof HK as (H7 & H8 & H9).
  destruct (fetch_ok conj junk guess wn smp a pa sha da1 da2 ma A HG LA SA DA AA HA (rnda ijk) oa ailo aihi ajlo ajhi sa ic kc) as (ab & na & Ea & Xa); auto; try lia.
  { eapply Z.le_trans; [|exact Sa]. apply mul_le2; unfold len in *; lia. }
  { eapply Z.le_trans; [|exact Ia]. apply Z.mul_le_mono_nonneg_l; [destruct SA; lia|]. apply mul_le2; unfold len in *; lia. }
  assert (HBB : exists b' nb, b_ok kc jc (Some b') /\ forall fuel, (nb <= fuel)%nat ->
     match bb with Some x => Some x | None => fetch junk fuel guess (rndb ijk) wn smp ob b planeB mb sb kc jc end = Some b').
  { destruct bb as [x|]; [exists x, O; split; auto|].
    destruct (fetch_ok conj junk guess wn smp b pb shb db1 db2 mb B HG LB SB DB AB HB (rndb ijk) ob bilo bihi bjlo bjhi sb kc jc) as (buf & nb & Eb & Xb); auto; try lia.
    { eapply Z.le_trans; [|exact Sb]. apply mul_le2; unfold len in *; lia. }
    { eapply Z.le_trans; [|exact Ib]. apply Z.mul_le_mono_nonneg_l; [destruct SB; lia|]. apply mul_le2; unfold len in *; lia. }
    exists (buf, if is_n ob then len kc else len jc), nb. split; [|exact Eb]. split; [reflexivity|]. exact Xb. }
  destruct HBB as (b' & nb & Hb' & Eb).
  destruct (c_region ijk ic jc) as (ts & nc & Ec & Rc).
  { unfold chunk_of in *. rewrite E1. tauto. } { unfold chunk_of in *. rewrite <- E3. tauto. }
  destruct (IH (ijk + 1) (Some b')) as (ots & n & F & E); [intros; apply HI; now right|exact Hb'|].
  destruct b' as [bufb db]. destruct Hb' as [-> Xb].
  set (cb := gemm radd rmul zero conj oa ob alpha (len ic) (len jc) (len kc) ab (if is_n oa then len ic else len kc) bufb (if is_n ob then len kc else len jc)).
  exists ((RegionOp [cilo + fst ic; cjlo + fst jc] [cilo + snd ic; cjlo + snd jc]
      [cilo + snd ic - (cilo + fst ic) + 1; cjlo + snd jc - (cjlo + fst jc) + 1] cb, ts) :: ots), (Nat.max (Nat.max na nb) (Nat.max nc n)).
  split.
  - constructor; [|exact F]. cbn [task_ok fst snd o_lo o_hi o_ld o_buf]. split; [reflexivity|]. split; [reflexivity|]. split; [exact Rc|].
    intros i j Hi Hj. unfold buf_at.
    replace [cilo + i; cjlo + j] with [cilo + fst ic + (i - fst ic); cjlo + fst jc + (j - fst jc)] by (f_equal; [lia|f_equal; lia]).
    rewrite region_lin. replace (cilo + snd ic - (cilo + fst ic) + 1) with (len ic) by (unfold len; lia). unfold cb.
    rewrite (gemm_ok radd rmul zero conj oa ob alpha ab bufb (len ic) (len jc) (len kc)
      (fun i l => op_at conj oa A ailo ajlo (fst ic + i) (fst kc + l)) (fun l j => op_at conj ob B bilo bjlo (fst kc + l) (fst jc + j))); auto.
    + cbn [task_value]. replace (fst ic + (i - fst ic)) with i by lia. replace (fst jc + (j - fst jc)) with j by lia. reflexivity.
    + unfold len. lia.
    + unfold len. lia.
  - intros fuel Hf. rewrite Ea by lia. cbn [fst snd]. rewrite Eb by lia. rewrite Ec by lia. rewrite E by lia. reflexivity.
Qed.

Lemma op_events_app (l l' : list (region_op V * list (place * Z))) : op_events (l ++ l') = op_events l ++ op_events l'.
Proof. unfold op_events. apply flat_map_app. Qed.
Lemma inner_loop_ok is jc : (forall ic, In ic is -> chunk_of (aihi - ailo + 1) I ic) -> chunk_of (bjhi - bjlo + 1) J jc ->
  forall ks ijk, (forall kc, In kc ks -> chunk_of (ajhi - ajlo + 1) K kc) ->
  exists ots n, Forall2 task_ok (mine nproc me ijk (flat_map (fun kc => map (fun ic => (jc, kc, ic)) is) ks)) ots /\
    forall fuel, (n <= fuel)%nat ->
      inner_loop radd rmul zero conj junk fuel guess wn smp rnda rndb rndc oa ob alpha a b c planeA planeB planeC ma mb nproc me sa sb is ks jc ijk
      = Some (op_events ots).
Proof.
  intros HI HJ. induction ks as [|kc ks IH]; intros ijk HK; cbn [inner_loop flat_map].
  { exists [], O. split; [constructor|reflexivity]. }
  destruct (row_loop_ok jc kc HJ (HK _ (or_introl eq_refl)) is ijk None HI Logic.I) as (o1 & n1 & F1 & X1).
  destruct (IH (ijk + Z.of_nat (length is))) as (o2 & n2 & F2 & X2); [intros; apply HK; now right|].
  exists (o1 ++ o2), (Nat.max n1 n2). split.
  - rewrite mine_app, map_length. apply Forall2_app; auto.
  - intros fuel Hf. rewrite X1, X2 by lia. now rewrite op_events_app.
Qed.
Lemma col_loop_ok is ks : (forall ic, In ic is -> chunk_of (aihi - ailo + 1) I ic) -> (forall kc, In kc ks -> chunk_of (ajhi - ajlo + 1) K kc) ->
  forall js ijk, (forall jc, In jc js -> chunk_of (bjhi - bjlo + 1) J jc) ->
  exists ots n, Forall2 task_ok (mine nproc me ijk (tasks is ks js)) ots /\
    forall fuel, (n <= fuel)%nat ->
      col_loop radd rmul zero conj junk fuel guess wn smp rnda rndb rndc oa ob alpha a b c planeA planeB planeC ma mb nproc me sa sb is ks js ijk
      = Some (op_events ots).
Proof.
  intros HI HK. induction js as [|jc js IH]; intros ijk HJ; cbn [col_loop tasks flat_map].
  { exists [], O. split; [constructor|reflexivity]. }
  destruct (inner_loop_ok is jc HI (HJ _ (or_introl eq_refl)) ks ijk HK) as (o1 & n1 & F1 & X1).
  destruct (IH (ijk + Z.of_nat (length is * length ks))) as (o2 & n2 & F2 & X2); [intros; apply HJ; now right|].
  exists (o1 ++ o2), (Nat.max n1 n2). split.
  - rewrite mine_app. apply Forall2_app; [exact F1|].
    replace (length (flat_map (fun kc => map (fun ic => (jc, kc, ic)) is) ks)) with (length is * length ks)%nat; [exact F2|].
    clear. induction ks as [|k ks IH]; [cbn; lia|]. cbn [flat_map length]. rewrite app_length, map_length, <- IH, Nat.mul_succ_r. lia.
  - intros fuel Hf. rewrite X1, X2 by lia. now rewrite op_events_app.
Qed.
End Tasks.

(** ---- what reaches an element ---- *)
Lemma in_boxb2 a b c d x y : in_boxb [a; b] [c; d] [x; y] = ((a <=? x) && (x <=? c)) && ((b <=? y) && (y <=? d)).
Proof. cbn [in_boxb]. rewrite andb_true_r. reflexivity. Qed.
Lemma shift_leb u x y : (u + x <=? u + y) = (x <=? y).
Proof. destruct (Z.leb_spec (u + x) (u + y)), (Z.leb_spec x y); lia. Qed.
Lemma flat_map_flat {A B C} (f : B -> list C) (g : A -> list B) l : flat_map f (flat_map g l) = flat_map (fun a => flat_map f (g a)) l.
Proof. induction l as [|a l IH]; [reflexivity|]. cbn [flat_map]. now rewrite flat_map_app, IH. Qed.
Lemma flat_map_map {A B C} (f : B -> list C) (g : A -> B) l : flat_map f (map g l) = flat_map (fun a => f (g a)) l.
Proof. induction l as [|a l IH]; [reflexivity|]. cbn [map flat_map]. now rewrite IH. Qed.
Lemma flat_map_nil {A B} (f : A -> list B) l : (forall x, In x l -> f x = []) -> flat_map f l = [].
Proof. induction l as [|x l IH]; intros H; [reflexivity|]. cbn [flat_map]. rewrite H by now left. apply IH. intros; apply H; now right. Qed.

Section Contrib.
Context {V : Type} (radd rmul : V -> V -> V) (zero : V) (conj : V -> V).
Variables (oa ob : mop) (alpha : V) (pc : list Z -> place -> Prop) (A B : list Z -> V).
Variables (ailo ajlo bilo bjlo cilo cjlo : Z).
Let tok := task_ok radd rmul zero conj oa ob alpha pc A B ailo ajlo bilo bjlo cilo cjlo.
Let tval := task_value radd rmul zero conj oa ob alpha A B ailo ajlo bilo bjlo.

Lemma contributions_tasks i j l ots : Forall2 tok l ots ->
  contributions (map fst ots) [cilo + i; cjlo + j] =
  flat_map (fun t => let '(jc, kc, ic) := t in
     if ((fst ic <=? i) && (i <=? snd ic)) && ((fst jc <=? j) && (j <=? snd jc)) then [tval t i j] else []) l.
Proof.
  induction 1 as [|t ot l ots H F IH]; [reflexivity|]. cbn [map contributions flat_map]. fold (contributions (map fst ots) [cilo + i; cjlo + j]).
  rewrite IH. f_equal. destruct t as [[jc kc] ic]. destruct H as (-> & -> & _ & X).
  rewrite in_boxb2, !shift_leb. destruct (_ && _) eqn:EB; [|reflexivity].
  apply andb_prop in EB as [B1 B2]. apply andb_prop in B1 as [B1 B3]. apply andb_prop in B2 as [B2 B4].
  apply Z.leb_le in B1, B2, B3, B4. destruct ot as [o ts]. cbn [fst snd] in *.
  specialize (X i j ltac:(lia) ltac:(lia)).
  rewrite X. reflexivity.
Qed.
Lemma task_values i j m n k I J K : 1 <= I -> 1 <= J -> 0 <= i < m -> 0 <= j < n ->
  flat_map (fun t => let '(jc, kc, ic) := t in
     if ((fst ic <=? i) && (i <=? snd ic)) && ((fst jc <=? j) && (j <=? snd jc)) then [tval t i j] else [])
    (tasks (chunks m I) (chunks k K) (chunks n J)) = map (fun kc => tval ((0, 0), kc, (0, 0)) i j) (chunks k K).
Proof.
  intros HI HJ Hi Hj. unfold tasks. rewrite flat_map_flat.
  rewrite (flat_map_ext _ (fun jc => if (fst jc <=? j) && (j <=? snd jc) then map (fun kc => tval ((0, 0), kc, (0, 0)) i j) (chunks k K) else [])).
  { apply chunks_one; auto. }
  intros jc. destruct ((fst jc <=? j) && (j <=? snd jc)) eqn:EJ.
  - rewrite flat_map_flat. induction (chunks k K) as [|kc ks IH]; [reflexivity|]. cbn [flat_map map]. rewrite IH. rewrite flat_map_map.
    rewrite (flat_map_ext _ (fun ic => if (fst ic <=? i) && (i <=? snd ic) then [tval ((0, 0), kc, (0, 0)) i j] else [])).
    { rewrite chunks_one by auto. reflexivity. }
    intros ic. rewrite EJ, andb_true_r. reflexivity.
  - apply flat_map_nil. intros [[jc' kc'] ic'] Ht. apply in_flat_map in Ht as (kc & _ & Ht). apply in_map_iff in Ht as (ic & E & _).
    injection E as <- <- <-. rewrite EJ, andb_false_r. reflexivity.
Qed.
End Contrib.

(** ---- all processes ---- *)
Lemma in_flat_Forall2 {A B} (R : A -> B -> Prop) (f : Z -> list A) l : forall lss, Forall2 (fun x ls => Forall2 R (f x) ls) l lss ->
  Forall2 R (flat_map f l) (concat lss).
Proof. induction 1; [constructor|]. cbn. apply Forall2_app; auto. Qed.
Lemma op_events_concat {V} (lss : list (list (region_op V * list (place * Z)))) : op_events (concat lss) = concat (map op_events lss).
Proof. induction lss as [|l lss IH]; [reflexivity|]. cbn [concat map]. now rewrite op_events_app, IH. Qed.
Lemma op_events_perm {V} (l l' : list (region_op V * list (place * Z))) : Permutation l l' -> Permutation (op_events l) (op_events l').
Proof. apply flat_map_Permutation. Qed.
Lemma combine_Forall2 {A B} (R : A -> B -> Prop) l l' : Forall2 R l l' -> forall y, In y l' -> exists x, In x l /\ R x y.
Proof.
  induction 1 as [|x y l l' H F IH]; intros z Hz; [destruct Hz|]. destruct Hz as [<-|Hz]; [exists x; split; [now left|auto]|].
  destruct (IH z Hz) as (x' & Hx & Hr). exists x'. split; [now right|auto].
Qed.

Section Phase.
Context {V : Type} (radd rmul : V -> V -> V) (zero : V) (conj : V -> V).
Variables (oa ob : mop) (alpha : V) (c : garray) (wn : Z) (pc : list Z -> place -> Prop) (shc : list Z -> Prop) (A B : list Z -> V).
Variables (ailo ajlo bilo bjlo cilo cihi cjlo cjhi k I J K : Z).
Hypothesis SR : semiring radd rmul zero.
Hypothesis LC : any_layout c wn pc shc.
Hypothesis (HI : 1 <= I) (HJ : 1 <= J) (HK : 1 <= K).
Hypothesis (HC1 : cilo <= cihi) (HC2 : cjlo <= cjhi).
Let ts := tasks (chunks (cihi - cilo + 1) I) (chunks k K) (chunks (cjhi - cjlo + 1) J).
Let tok := task_ok radd rmul zero conj oa ob alpha pc A B ailo ajlo bilo bjlo cilo cjlo.

Lemma phase_acc ots es (m : heap V) : Forall2 tok ts ots -> Permutation es (op_events ots) -> allocated pc m ->
  exists m', run_elems (acc_event radd) m es = Some m' /\
    (forall i j q v, in_box [cilo; cjlo] [cihi; cjhi] [i; j] -> pc [i; j] q -> hget m q = Some v ->
       hget m' q = Some (radd v (rmul alpha (product radd rmul zero conj oa ob A B ailo ajlo bilo bjlo k (i - cilo) (j - cjlo))))) /\
    (forall q, (forall x, in_box [cilo; cjlo] [cihi; cjhi] x -> ~ pc x q) -> hget m' q = hget m q).
Proof.
  intros F P AL. destruct (any_storage _ _ _ _ LC) as (al & _ & S2 & S3 & _).
  assert (TIN : forall jc kc ic, In (jc, kc, ic) ts -> (0 <= fst ic <= snd ic /\ snd ic < cihi - cilo + 1) /\ (0 <= fst jc <= snd jc /\ snd jc < cjhi - cjlo + 1)).
  { intros jc kc ic H. unfold ts, tasks in H. apply in_flat_map in H as (jc' & H1 & H). apply in_flat_map in H as (kc' & H2 & H).
    apply in_map_iff in H as (ic' & E & H3). injection E as -> -> ->. apply chunks_In in H1, H3; auto. tauto. }
  destruct (concurrent_acc pc S2 S3 V ots) with (m := m) (f := radd) (es := es) as (m' & R & X1 & X2); auto.
  { intros o t Hin. destruct (combine_Forall2 _ _ _ F _ Hin) as ([[jc kc] ic] & Ht & (E1 & E2 & E3 & E4)). cbn [fst snd] in *.
    split; [rewrite E1, E2; reflexivity|]. split; [exact E3|].
    intros x Hx. rewrite E1, E2 in Hx. destruct x as [|x [|y [|]]]; cbn in Hx; try tauto.
    replace [x; y] with [cilo + (x - cilo); cjlo + (y - cjlo)] by (f_equal; [lia|f_equal; lia]). rewrite E4 by lia. discriminate. }
  { intros. apply (radd_swap radd rmul zero SR). }
  exists m'. split; [exact R|]. split.
  - intros i j q v Hb Hq Hv. rewrite (X1 _ _ _ Hq Hv). f_equal. cbn in Hb.
    replace [i; j] with [cilo + (i - cilo); cjlo + (j - cjlo)] by (f_equal; [lia|f_equal; lia]).
    rewrite (contributions_tasks radd rmul zero conj oa ob alpha pc A B ailo ajlo bilo bjlo cilo cjlo _ _ _ _ F). unfold ts.
    rewrite task_values by (auto; lia). rewrite (fold_radd radd rmul zero SR). f_equal.
    unfold product. rewrite <- (sum_chunks radd rmul zero SR k K) by exact HK. rewrite <- (fold_rmul radd rmul zero SR).
    f_equal. rewrite map_map. apply map_ext. intros kc. cbn [task_value]. destruct SR as (_ & _ & Z0 & _). apply Z0.
  - intros q Hq. apply X2. intros x o t Hin Hx. destruct (combine_Forall2 _ _ _ F _ Hin) as ([[jc kc] ic] & Ht & (E1 & E2 & _)). cbn [fst] in *.
    apply Hq. rewrite E1, E2 in Hx. destruct (TIN _ _ _ Ht) as [T1 T2]. destruct x as [|x [|y [|]]]; cbn in Hx |- *; try tauto. lia.
Qed.
End Phase.

(** ---- the call ---- *)
Lemma setup_2d_two n l0 l1 h0 h1 : l0 <= h0 -> l1 <= h1 -> setup_2d n [l0; l1] [h0; h1] = Some (0, 1, -1).
Proof.
  intros H0 H1. unfold setup_2d. change (counts (Z.of_nat (length [l0; l1]))) with [0; 1]. cbn [combine filter fst snd].
  destruct (Z.ltb_spec l0 h0), (Z.ltb_spec l1 h1), n; reflexivity.
Qed.
Lemma plane_box_two l0 l1 h0 h1 d : plane_box (Plane [l0; l1] [h0; h1] d 0 1) = Some (l0, h0, l1, h1).
Proof. reflexivity. Qed.
Lemma le_two l0 l1 h0 h1 : Forall2 Z.le [l0; l1] [h0; h1] -> l0 <= h0 /\ l1 <= h1.
Proof. intros H. inversion H as [|? ? ? ? H1 H2]; subst. inversion H2; subst. auto. Qed.
Lemma op_patch_le o ds l0 l1 h0 h1 : op_patch o ds [l0; l1] [h0; h1] -> l0 <= h0 /\ l1 <= h1.
Proof. destruct o; intros (_ & _ & H); apply le_two, H. Qed.
Lemma plane_range_two o d1 d2 l0 l1 h0 h1 : op_patch o [d1; d2] [l0; l1] [h0; h1] ->
  plane_range o (Plane [l0; l1] [h0; h1] [d1; d2] 0 1) = Some true.
Proof.
  intros H. unfold plane_range. rewrite plane_box_two. change (zget [d1; d2] 0) with (Some d1). change (zget [d1; d2] 1) with (Some d2).
  assert (X : exists e1 e2, (if is_n o then (d1, d2) else (d2, d1)) = (e1, e2) /\ 1 <= l0 <= h0 /\ h0 <= e1 /\ 1 <= l1 <= h1 /\ h1 <= e2).
  { pose proof (op_patch_le _ _ _ _ _ _ H). destruct o; destruct H as (H1 & H2 & _); cbn in H1, H2; eexists _, _; (split; [reflexivity|]); lia. }
  destruct X as (e1 & e2 & E & X). cbn [pl_i pl_j pl_dims]. change (zget [d1; d2] 0) with (Some d1). change (zget [d1; d2] 1) with (Some d2).
  cbv beta iota. rewrite E.
  rewrite (proj2 (Z.leb_gt l0 0)), (proj2 (Z.ltb_ge e1 h0)), (proj2 (Z.leb_gt l1 0)), (proj2 (Z.ltb_ge e2 h1)) by lia. reflexivity.
Qed.
Lemma patch_chunks_ok cube root t bytes avail m n k nproc : elt_bytes t = Some bytes -> 1 <= m -> 1 <= n -> 1 <= k -> 64 <= avail ->
  (forall x, 1 <= x -> 1 <= root x /\ root x * root x <= x) -> (t = E_flt -> cube (k * (m * n)) (10 * nproc) <= 256) ->
  exists I J K el, patch_chunks cube root bytes avail m n k nproc = Some (I, J, K, el) /\ buffers_fit bytes I J K el = true /\
    let c := Z.max 256 (cube (k * (m * n)) (10 * nproc)) in 1 <= I <= c /\ 1 <= J <= c /\ 1 <= K <= c.
Proof.
  intros HT Hm Hn Hk Ha HR HF. unfold patch_chunks. destruct (Z.ltb_spec 256 (Z.max 32 (cube (k * (m * n)) (10 * nproc)))).
  - rewrite (proj2 (Z.ltb_ge avail 64)) by lia. cbn zeta. eexists _, _, _, _. split; [reflexivity|].
    assert (H57 : 57 <= avail * 9 / 10) by (apply Z.div_le_lower_bound; lia). set (el := avail * 9 / 10) in *.
    assert (H1 : 1 <= (el - 4) / 3) by (apply Z.div_le_lower_bound; lia). destruct (HR _ H1) as [R1 R2].
    assert (H3 : 3 * ((el - 4) / 3) <= el - 4) by (apply Z.mul_div_le; lia).
    set (s := root ((el - 4) / 3)) in *. set (mc := Z.min (Z.max 32 (cube (k * (m * n)) (10 * nproc))) s).
    assert (MC : 1 <= mc <= s) by (unfold mc; lia).
    split; [|cbn zeta; lia].
    assert (SQ : 3 * (s * s) <= el - 4) by lia.
    assert (B1 : 0 <= Z.min m mc * Z.min k mc <= s * s) by (split; [apply Z.mul_nonneg_nonneg; lia|apply Z.mul_le_mono_nonneg; lia]).
    assert (B2 : 0 <= Z.min k mc * Z.min n mc <= s * s) by (split; [apply Z.mul_nonneg_nonneg; lia|apply Z.mul_le_mono_nonneg; lia]).
    assert (B3 : 0 <= Z.min m mc * Z.min n mc <= s * s) by (split; [apply Z.mul_nonneg_nonneg; lia|apply Z.mul_le_mono_nonneg; lia]).
    unfold buffers_fit. cbn zeta.
    set (u := Z.min m mc * Z.min k mc) in *. set (v := Z.min k mc * Z.min n mc) in *. set (w := Z.min m mc * Z.min n mc) in *.
    set (ss := s * s) in *. clearbody u v w ss el. clear - HT SQ B1 B2 B3 HF H.
    destruct t; try discriminate; cbn in HT; injection HT as <-.
    + specialize (HF eq_refl). lia.
    + change (16 / 8) with 2. assert (X : 2 * (u / 2) <= u < 2 * (u / 2) + 2) by (pose proof (Z.mul_div_le u 2); pose proof (Z.mul_succ_div_gt u 2); lia).
      assert (Y : 2 * (v / 2) <= v < 2 * (v / 2) + 2) by (pose proof (Z.mul_div_le v 2); pose proof (Z.mul_succ_div_gt v 2); lia).
      rewrite !andb_true_iff, !Z.leb_le. lia.
    + change (16 / 16) with 1. rewrite !Z.div_1_r. rewrite !andb_true_iff, !Z.leb_le. lia.
    + change (16 / 8) with 2. assert (X : 2 * (u / 2) <= u < 2 * (u / 2) + 2) by (pose proof (Z.mul_div_le u 2); pose proof (Z.mul_succ_div_gt u 2); lia).
      assert (Y : 2 * (v / 2) <= v < 2 * (v / 2) + 2) by (pose proof (Z.mul_div_le v 2); pose proof (Z.mul_succ_div_gt v 2); lia).
      rewrite !andb_true_iff, !Z.leb_le. lia.
  - eexists _, _, _, _. split; [reflexivity|]. split; [|cbn zeta; lia]. destruct t; try discriminate; cbn in HT; injection HT as <-; reflexivity.
Qed.

Theorem matmul_patch_ok {V} (radd rmul : V -> V -> V) zero conj junk guess near wn smp rnda rndb rndc cube root avail t bytes oa ob alpha a b c
    da1 da2 db1 db2 dc1 dc2 ma mb (A B : list Z -> V) ailo aihi ajlo ajhi bilo bihi bjlo bjhi cilo cihi cjlo cjhi :
  good_guess guess -> (forall me t k, 0 <= rnda me t k) -> (forall me t k, 0 <= rndb me t k) -> (forall me t k, 0 <= rndc me t k) ->
  wf_array a -> wf_array b -> wf_array c -> 1 <= wn -> ga_nproc c = wn -> ga_group c = None -> (forall me, near me me = true) ->
  small_local a (reg_shape a) -> small_local b (reg_shape b) -> small_local c (reg_shape c) ->
  dims (ga_desc a) = [da1; da2] -> dims (ga_desc b) = [db1; db2] -> dims (ga_desc c) = [dc1; dc2] ->
  allocated (reg_place a) ma -> allocated (reg_place b) mb -> holds [da1; da2] (reg_place a) ma A -> holds [db1; db2] (reg_place b) mb B ->
  op_patch oa [da1; da2] [ailo; ajlo] [aihi; ajhi] -> op_patch ob [db1; db2] [bilo; bjlo] [bihi; bjhi] ->
  op_patch opN [dc1; dc2] [cilo; cjlo] [cihi; cjhi] ->
  cihi - cilo = aihi - ailo -> ajhi - ajlo = bihi - bilo -> bjhi - bjlo = cjhi - cjlo ->
  elt_bytes t = Some bytes -> 64 <= avail -> (forall x, 1 <= x -> 1 <= root x /\ root x * root x <= x) ->
  (let q := cube ((ajhi - ajlo + 1) * ((aihi - ailo + 1) * (bjhi - bjlo + 1))) (10 * wn) in
   (t = E_flt -> q <= 256) /\
   forall x, In x [a; b; c] -> ga_elemsize x * (Z.max 256 q * Z.max 256 q) <= int_max) ->
  exists I J K cells otss n, 1 <= I /\ 1 <= J /\ 1 <= K /\
    Forall2 (fun me ce => forall fuel, (n <= fuel)%nat -> patch_cells fuel guess (near me) wn c me [cilo; cjlo] [cihi; cjhi] = Some ce)
      (zseq 0 (Z.to_nat wn)) cells /\
    Forall2 (fun me ots => Forall2 (task_ok radd rmul zero conj oa ob alpha (reg_place c) A B ailo ajlo bilo bjlo cilo cjlo)
        (mine wn me 0 (tasks (chunks (cihi - cilo + 1) I) (chunks (ajhi - ajlo + 1) K) (chunks (cjhi - cjlo + 1) J))) ots)
      (zseq 0 (Z.to_nat wn)) otss /\
    Forall2 (fun me pr => forall fuel, (n <= fuel)%nat ->
        matmul_patch radd rmul zero conj junk fuel guess (near me) wn smp (rnda me) (rndb me) (rndc me) cube root avail wn t oa ob alpha a b c ma mb
          [ailo; ajlo] [aihi; ajhi] [bilo; bjlo] [bihi; bjhi] [cilo; cjlo] [cihi; cjhi] me = Some pr)
      (zseq 0 (Z.to_nat wn)) (combine cells (map op_events otss)).
Proof.
  intros HG RA RB RC WA WB WC Hw NC GC HN SA SB SC DA DB DC AA AB HA HB PA PB PC E1 E2 E3 HT Hav HR [HF HI].
  pose proof (op_patch_le _ _ _ _ _ _ PA) as [A1 A2]. pose proof (op_patch_le _ _ _ _ _ _ PB) as [B1 B2]. pose proof (op_patch_le _ _ _ _ _ _ PC) as [C1 C2].
  destruct (patch_chunks_ok cube root t bytes avail (aihi - ailo + 1) (bjhi - bjlo + 1) (ajhi - ajlo + 1) wn) as (I & J & K & el & EC & EF & L); auto; try lia.
  cbv zeta in L. set (q := cube ((ajhi - ajlo + 1) * ((aihi - ailo + 1) * (bjhi - bjlo + 1))) (10 * wn)) in *. set (M := Z.max 256 q) in *.
  assert (LAY : forall x, wf_array x -> any_layout x wn (reg_place x) (reg_shape x)) by (intros x Wx; left; auto).
  assert (WL : walk_layout c wn (reg_place c) (reg_shape c)).
  { split; [auto|]. intros T. destruct WC as ((R & _) & _). congruence. }
  destruct (patch_cells_spec guess near wn c [cilo; cjlo] [cihi; cjhi] (reg_place c) (reg_shape c) HG WL) as (cells & nc & Fc & _).
  { intros me w. unfold abs_rank. rewrite GC. intros E. injection E as <-. apply HN. }
  { rewrite DC. reflexivity. } { reflexivity. } rewrite NC in Fc.
  assert (IN : forall x, In x [a; b; c] -> 1 <= ga_elemsize x -> forall u v, 0 <= u <= M -> 0 <= v <= M -> ga_elemsize x * (u * v) <= int_max).
  { intros x Hx Hp u v Hu Hv. eapply Z.le_trans; [|apply (HI x Hx)]. apply Z.mul_le_mono_nonneg_l; [lia|]. apply mul_le2; lia. }
  destruct (fuel_list
    (fun me ots fuel => col_loop radd rmul zero conj junk fuel guess wn smp (rnda me) (rndb me) (rndc me) oa ob alpha a b c
        (Plane [ailo; ajlo] [aihi; ajhi] [da1; da2] 0 1) (Plane [bilo; bjlo] [bihi; bjhi] [db1; db2] 0 1) (Plane [cilo; cjlo] [cihi; cjhi] [dc1; dc2] 0 1)
        ma mb wn me (I * K) (K * J) (chunks (aihi - ailo + 1) I) (chunks (ajhi - ajlo + 1) K) (chunks (bjhi - bjlo + 1) J) 0 = Some (op_events ots))
    (fun me ots => Forall2 (task_ok radd rmul zero conj oa ob alpha (reg_place c) A B ailo ajlo bilo bjlo cilo cjlo)
        (mine wn me 0 (tasks (chunks (aihi - ailo + 1) I) (chunks (ajhi - ajlo + 1) K) (chunks (bjhi - bjlo + 1) J))) ots)
    (zseq 0 (Z.to_nat wn))) as (otss & no & FT & FE).
  { intros me _. apply (col_loop_ok radd rmul zero conj junk guess wn smp (rnda me) (rndb me) (rndc me) oa ob alpha a b c
      (reg_place a) (reg_place b) (reg_place c) (reg_shape a) (reg_shape b) (reg_shape c) da1 da2 db1 db2 dc1 dc2 ma mb A B
      ailo aihi ajlo ajhi bilo bihi bjlo bjhi cilo cihi cjlo cjhi wn me (I * K) (K * J) I J K); auto; try lia.
    - apply IN; [now left|destruct SA; lia|lia|lia].
    - apply IN; [right; now left|destruct SB; lia|lia|lia].
    - apply IN; [right; right; now left|destruct SC; lia|lia|lia].
    - intros r Hr. apply chunks_In in Hr; [exact Hr|lia].
    - intros r Hr. apply chunks_In in Hr; [exact Hr|lia].
    - intros r Hr. apply chunks_In in Hr; [exact Hr|lia]. }
  exists I, J, K, cells, otss, (Nat.max nc no). split; [lia|]. split; [lia|]. split; [lia|].
  split. { eapply Forall2_weaken; [|exact Fc]. intros me ce H fuel Hf. apply H. lia. }
  split. { rewrite E1, <- E3. exact FT. }
  assert (RG : forall x, wf_array x -> distr_type (ga_desc x) = REGULAR) by (intros x ((X & _) & _); exact X).
  assert (FIN : forall me ce ots, (forall fuel, (Nat.max nc no <= fuel)%nat -> patch_cells fuel guess (near me) wn c me [cilo; cjlo] [cihi; cjhi] = Some ce) ->
    (forall fuel, (Nat.max nc no <= fuel)%nat -> col_loop radd rmul zero conj junk fuel guess wn smp (rnda me) (rndb me) (rndc me) oa ob alpha a b c
        (Plane [ailo; ajlo] [aihi; ajhi] [da1; da2] 0 1) (Plane [bilo; bjlo] [bihi; bjhi] [db1; db2] 0 1) (Plane [cilo; cjlo] [cihi; cjhi] [dc1; dc2] 0 1)
        ma mb wn me (I * K) (K * J) (chunks (aihi - ailo + 1) I) (chunks (ajhi - ajlo + 1) K) (chunks (bjhi - bjlo + 1) J) 0 = Some (op_events ots)) ->
    forall fuel, (Nat.max nc no <= fuel)%nat ->
      matmul_patch radd rmul zero conj junk fuel guess (near me) wn smp (rnda me) (rndb me) (rndc me) cube root avail wn t oa ob alpha a b c ma mb
          [ailo; ajlo] [aihi; ajhi] [bilo; bjlo] [bihi; bjhi] [cilo; cjlo] [cihi; cjhi] me = Some (ce, op_events ots)).
  { intros me ce ots HC HE fuel Hf. unfold matmul_patch. rewrite !RG by auto. cbn [negb andb]. rewrite DA, DB, DC. cbn [length Nat.leb andb negb].
    rewrite HT. rewrite !setup_2d_two by lia. rewrite !plane_range_two by auto. cbn [negb andb].
    unfold match_planes. rewrite !plane_box_two. cbn [fst snd rows cols].
    unfold rows, cols. cbn [fst snd].
    rewrite (proj2 (Z.eqb_eq (aihi - ailo + 1) (cihi - cilo + 1))), (proj2 (Z.eqb_eq (ajhi - ajlo + 1) (bihi - bilo + 1))), (proj2 (Z.eqb_eq (bjhi - bjlo + 1) (cjhi - cjlo + 1))) by lia.
    cbn [andb fst snd]. rewrite !plane_box_two. cbn [fst snd].
    rewrite (proj2 (Z.eqb_eq (aihi - ailo + 1) (cihi - cilo + 1))), (proj2 (Z.eqb_eq (ajhi - ajlo + 1) (bihi - bilo + 1))), (proj2 (Z.eqb_eq (bjhi - bjlo + 1) (cjhi - cjlo + 1))) by lia.
    cbn [andb fst snd]. rewrite !plane_box_two. cbn [fst snd]. rewrite EC, EF. cbn [negb]. rewrite HC, HE by lia. reflexivity. }
  clear - Fc FE FIN.
  assert (GO : forall l cells otss, Forall2 (fun me ce => forall fuel, (nc <= fuel)%nat -> patch_cells fuel guess (near me) wn c me [cilo; cjlo] [cihi; cjhi] = Some ce) l cells ->
    (forall fuel, (no <= fuel)%nat -> Forall2 (fun me ots => col_loop radd rmul zero conj junk fuel guess wn smp (rnda me) (rndb me) (rndc me) oa ob alpha a b c
        (Plane [ailo; ajlo] [aihi; ajhi] [da1; da2] 0 1) (Plane [bilo; bjlo] [bihi; bjhi] [db1; db2] 0 1) (Plane [cilo; cjlo] [cihi; cjhi] [dc1; dc2] 0 1)
        ma mb wn me (I * K) (K * J) (chunks (aihi - ailo + 1) I) (chunks (ajhi - ajlo + 1) K) (chunks (bjhi - bjlo + 1) J) 0 = Some (op_events ots)) l otss) ->
    Forall2 (fun me pr => forall fuel, (Nat.max nc no <= fuel)%nat ->
      matmul_patch radd rmul zero conj junk fuel guess (near me) wn smp (rnda me) (rndb me) (rndc me) cube root avail wn t oa ob alpha a b c ma mb
          [ailo; ajlo] [aihi; ajhi] [bilo; bjlo] [bihi; bjhi] [cilo; cjlo] [cihi; cjhi] me = Some pr) l (combine cells (map op_events otss))).
  { induction l as [|me l IH]; intros ces ots F1 F2; inversion F1; subst.
    - constructor.
    - pose proof (F2 no (Nat.le_refl _)) as F0. inversion F0; subst. cbn [map combine]. constructor.
      + apply FIN; [intros; apply H1; lia|]. intros fuel Hf. specialize (F2 fuel ltac:(lia)). inversion F2; subst. assumption.
      + apply IH; [assumption|]. intros fuel Hf. specialize (F2 fuel Hf). inversion F2; subst. assumption. }
  apply GO; assumption.
Qed.
