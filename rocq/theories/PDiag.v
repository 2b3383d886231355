(** Property theorems: the diagonal, the rows and the columns of a matrix (C84, C85). *)
From Verif Require Import LRadix LXfer LXfer2 LStore LLoc LGcopy LGcopy2 LGcopy3 LGcopy4 LGcopy5 LCpatch2 LCpatch4 LAdd4 LDiag PDist PIter PIterBlk PXfer PLoc PGat PGcopy PCpatch PAdd.
Open Scope Z_scope.

Lemma listed_ok t : t <> E_longlong -> listed t = true.
Proof. destruct t; cbn; congruence. Qed.
Lemma elt_eqb_refl t : elt_eqb t t = true.
Proof. destruct t; reflexivity. Qed.

Section Matrix.
Variables (guess : Z -> Z -> Z -> Z) (near : Z -> Z -> bool) (wn : Z) (a : garray) (pa : list Z -> place -> Prop) (sa : list Z -> Prop) (d0 d1 : Z) (t : elt).
Hypotheses (HG : good_guess guess) (LA : walk_layout a wn pa sa) (SA : small_local a sa) (EA : dims (ga_desc a) = [d0; d1])
  (HNear : forall me w, abs_rank a me = Some w -> near me w = true) (HT : t <> E_longlong).

(** What is known of a block of the walk. *)
Lemma piece_facts w ps q : local_cover pa (dims (ga_desc a)) w ps -> In q ps -> ld_shape sa (lp_lo q) (lp_hi q) (lp_ld q) ->
  exists l0 l1 h0 h1 ld ldt, lp_lo q = [l0; l1] /\ lp_hi q = [h0; h1] /\ lp_ld q = ld :: ldt /\ lp_seg q = w /\
    (forall x, in_box (lp_lo q) (lp_hi q) x -> pa x (w, lp_off q + lin (lp_ld q) (vsub x (lp_lo q)))) /\
    1 <= l0 <= h0 /\ 1 <= l1 <= h1 /\ h0 <= d0 /\ h1 <= d1 /\
    forall m, m <= h0 - l0 + 1 \/ m <= h1 - l1 + 1 -> ga_elemsize a * m <= int_max.
Proof.
  intros C Hq HS. destruct (piece2 a pa sa w ps q ltac:(rewrite EA; reflexivity) C Hq HS) as (l0 & l1 & h0 & h1 & ld & ldt & s0 & s1 & E1 & E2 & E3 & S1 & B0 & B1).
  destruct (piece_in_array _ _ _ _ _ C Hq) as (QL & I1 & I2). rewrite EA, E1 in I1. rewrite EA, E2 in I2. cbn in I1, I2.
  destruct (proj2 C q Hq) as (_ & ES & HP). exists l0, l1, h0, h1, ld, ldt. do 4 (split; [assumption|]). split; [exact HP|].
  split; [lia|]. split; [lia|]. split; [lia|]. split; [lia|]. intros m Hm. destruct SA as [S2 S3]. specialize (S3 _ S1).
  replace (zprod [s0; s1]) with (s0 * s1) in S3 by (cbn [zprod fold_right]; ring).
  assert (m <= s0 * s1) by (destruct Hm; nia). nia.
Qed.

Lemma diag_dom x : in_array (dims (ga_desc a)) x /\ on_diag x <-> diagonal (dims (ga_desc a)) x.
Proof. reflexivity. Qed.

Lemma layout_funs : (forall x q q', pa x q -> pa x q' -> q = q') /\ (forall x y q, pa x q -> pa y q -> x = y).
Proof. destruct (any_storage _ _ _ _ (proj1 LA)) as (alloc & _ & S2 & S3 & _). split; [exact S2|exact S3]. Qed.

Lemma shift_marked : exists ess n,
  Forall2 (fun me es => forall fuel, (n <= fuel)%nat -> shift_diag fuel guess (near me) wn t a me = Some es) (zseq 0 (Z.to_nat (ga_nproc a))) ess /\
  marked pa (diagonal (dims (ga_desc a))) (concat ess).
Proof.
  destruct (walk_spec pa guess near wn a pa sa on_diag (fun _ _ q => shift_block t q) HG LA HNear) as (ess & n & F & M).
  - intros me w ps q Hm EW C Hq HS _. destruct (piece_facts w ps q C Hq HS) as (l0 & l1 & h0 & h1 & ld & ldt & E1 & E2 & E3 & ES & HP & B0 & B1 & _).
    destruct (shift_block_marked pa pa w q l0 l1 h0 h1 ld ldt E1 E2 E3 ES HP B0 t (listed_ok t HT)) as (r & E & M).
    exists r, 0%nat. split; [intros; exact E|exact M].
  - exists ess, n. split; [|exact M]. eapply Forall2_weaken; [|exact F]. intros me es X fuel Hf. unfold shift_diag. rewrite EA. apply X, Hf.
Qed.

(** Every block with elements of the diagonal begins on the diagonal. *)
Definition square_blocks : Prop := forall me fuel ps q l0 l1 h0 h1, 0 <= me < ga_nproc a ->
  local_iterate fuel guess (near me) wn a me = Some ps -> In q ps -> lp_lo q = [l0; l1] -> lp_hi q = [h0; h1] ->
  Z.max l0 l1 <= Z.min h0 h1 -> l0 = l1.
Lemma zero_marked : square_blocks -> exists ess n,
  Forall2 (fun me es => forall fuel, (n <= fuel)%nat -> zero_diag fuel guess (near me) wn t a me = Some es) (zseq 0 (Z.to_nat (ga_nproc a))) ess /\
  marked pa (diagonal (dims (ga_desc a))) (concat ess).
Proof.
  intros SQ. destruct (walk_spec pa guess near wn a pa sa on_diag (fun _ _ q => zero_block t q) HG LA HNear) as (ess & n & F & M).
  - intros me w ps q Hm EW C Hq HS (f0 & EI). destruct (piece_facts w ps q C Hq HS) as (l0 & l1 & h0 & h1 & ld & ldt & E1 & E2 & E3 & ES & HP & B0 & B1 & _).
    destruct (shift_block_marked pa pa w q l0 l1 h0 h1 ld ldt E1 E2 E3 ES HP B0 t (listed_ok t HT)) as (r & E & M).
    exists r, 0%nat. split; [intros|exact M].
    rewrite (zero_block_marked pa pa w q l0 l1 h0 h1 ld ldt E1 E2 E3 HP B0 t (listed_ok t HT)); [exact E|].
    exact (SQ me f0 ps q l0 l1 h0 h1 Hm (EI f0 (le_n f0)) Hq E1 E2).
  - exists ess, n. split; [|exact M]. eapply Forall2_weaken; [|exact F]. intros me es X fuel Hf. unfold zero_diag. rewrite EA. apply X, Hf.
Qed.

Section Vector.
Variables (rnd : Z -> lpiece -> Z -> Z) (smp : Z -> Z -> bool) (v : garray) (pv : list Z -> place -> Prop) (sv : list Z -> Prop) (n : Z).
Hypotheses (HR : forall me q k, 0 <= rnd me q k) (LV : any_layout v wn pv sv) (SV : small_local v sv) (EV : dims (ga_desc v) = [n]) (EE : ga_elemsize a = ga_elemsize v).

Lemma with_marked : n = Z.min d0 d1 -> exists ess m,
  Forall2 (fun me es => forall fuel, (m <= fuel)%nat -> with_diag fuel guess (near me) wn (rnd me) (smp me) t t a v me = Some es) (zseq 0 (Z.to_nat (ga_nproc a))) ess /\
  marked (use_at pa pv row_of) (diagonal (dims (ga_desc a))) (concat ess).
Proof.
  intros Hn. destruct (walk_spec (use_at pa pv row_of) guess near wn a pa sa on_diag (fun fuel me q => diag_block fuel guess (rnd me q) wn (smp me) t v q) HG LA HNear) as (ess & m & F & M).
  - intros me w ps q Hm EW C Hq HS _. destruct (piece_facts w ps q C Hq HS) as (l0 & l1 & h0 & h1 & ld & ldt & E1 & E2 & E3 & ES & HP & B0 & B1 & B2 & B3 & HB).
    rewrite EE in HB.
    exact (diag_block_marked pa pv v w q l0 l1 h0 h1 ld ldt E1 E2 E3 ES HP B0 B1 guess (rnd me q) wn (smp me) sv n t HG (HR me q) LV SV EV HB (listed_ok t HT) ltac:(lia)).
  - exists ess, m. split; [|exact M]. eapply Forall2_weaken; [|exact F]. intros me es X fuel Hf. unfold with_diag, diag_checks.
    rewrite EA, EV, Hn, Z.eqb_refl, elt_eqb_refl. apply X, Hf.
Qed.
Lemma get_marked : n = Z.min d0 d1 -> exists ess m,
  Forall2 (fun me es => forall fuel, (m <= fuel)%nat -> get_diag fuel guess (near me) wn (rnd me) (smp me) t t a v me = Some es) (zseq 0 (Z.to_nat (ga_nproc a))) ess /\
  marked (fun x e => pv [row_of x] (fst e) /\ pa x (snd e)) (diagonal (dims (ga_desc a))) (concat ess).
Proof.
  intros Hn. destruct (walk_spec (fun x e => pv [row_of x] (fst e) /\ pa x (snd e)) guess near wn a pa sa on_diag (fun fuel me q => get_block fuel guess (rnd me q) wn (smp me) t v q) HG LA HNear) as (ess & m & F & M).
  - intros me w ps q Hm EW C Hq HS _. destruct (piece_facts w ps q C Hq HS) as (l0 & l1 & h0 & h1 & ld & ldt & E1 & E2 & E3 & ES & HP & B0 & B1 & B2 & B3 & HB).
    rewrite EE in HB.
    exact (get_block_labelled pa pv v w q l0 l1 h0 h1 ld ldt E1 E2 E3 ES HP B0 B1 guess (rnd me q) wn (smp me) sv n t HG (HR me q) LV SV EV HB (listed_ok t HT) ltac:(lia)).
  - exists ess, m. split; [|exact M]. eapply Forall2_weaken; [|exact F]. intros me es X fuel Hf. unfold get_diag, diag_checks.
    rewrite EA, EV, Hn, Z.eqb_refl, elt_eqb_refl. apply X, Hf.
Qed.
Lemma rows_marked : n = d0 -> exists ess m,
  Forall2 (fun me es => forall fuel, (m <= fuel)%nat -> scale_rows fuel guess (near me) wn (rnd me) (smp me) t t a v me = Some es) (zseq 0 (Z.to_nat (ga_nproc a))) ess /\
  marked (use_at pa pv row_of) (in_array (dims (ga_desc a))) (concat ess).
Proof.
  intros Hn. destruct (walk_spec (use_at pa pv row_of) guess near wn a pa sa (fun _ => True) (fun fuel me q => row_block fuel guess (rnd me q) wn (smp me) t v q) HG LA HNear) as (ess & m & F & M).
  - intros me w ps q Hm EW C Hq HS _. destruct (piece_facts w ps q C Hq HS) as (l0 & l1 & h0 & h1 & ld & ldt & E1 & E2 & E3 & ES & HP & B0 & B1 & B2 & B3 & HB).
    rewrite EE in HB.
    destruct (row_block_marked pa pv v w q l0 l1 h0 h1 ld ldt E1 E2 E3 ES HP B0 guess (rnd me q) wn (smp me) sv n t HG (HR me q) LV SV EV HB (listed_ok t HT) ltac:(lia)) as (r & f0 & E & M).
    exists r, f0. split; [exact E|]. eapply marked_ext; [|exact M]. tauto.
  - exists ess, m. split; [|eapply marked_ext; [|exact M]; cbv beta; tauto]. eapply Forall2_weaken; [|exact F]. intros me es X fuel Hf. unfold scale_rows.
    rewrite EA, EV, Hn, Z.eqb_refl, elt_eqb_refl. apply X, Hf.
Qed.
Lemma cols_marked : n = d1 -> exists ess m,
  Forall2 (fun me es => forall fuel, (m <= fuel)%nat -> scale_cols fuel guess (near me) wn (rnd me) (smp me) t t a v me = Some es) (zseq 0 (Z.to_nat (ga_nproc a))) ess /\
  marked (use_at pa pv col_of) (in_array (dims (ga_desc a))) (concat ess).
Proof.
  intros Hn. destruct (walk_spec (use_at pa pv col_of) guess near wn a pa sa (fun _ => True) (fun fuel me q => col_block fuel guess (rnd me q) wn (smp me) t v q) HG LA HNear) as (ess & m & F & M).
  - intros me w ps q Hm EW C Hq HS _. destruct (piece_facts w ps q C Hq HS) as (l0 & l1 & h0 & h1 & ld & ldt & E1 & E2 & E3 & ES & HP & B0 & B1 & B2 & B3 & HB).
    rewrite EE in HB.
    destruct (col_block_marked pa pv v w q l0 l1 h0 h1 ld ldt E1 E2 E3 ES HP B0 B1 guess (rnd me q) wn (smp me) sv n t HG (HR me q) LV SV EV HB (listed_ok t HT) ltac:(lia)) as (r & f0 & E & M).
    exists r, f0. split; [exact E|]. eapply marked_ext; [|exact M]. tauto.
  - exists ess, m. split; [|eapply marked_ext; [|exact M]; cbv beta; tauto]. eapply Forall2_weaken; [|exact F]. intros me es X fuel Hf. unfold scale_cols.
    rewrite EA, EV, Hn, Z.eqb_refl, elt_eqb_refl. apply X, Hf.
Qed.
End Vector.
End Matrix.

Lemma combined_ext {V} (D : list Z -> Prop) g (f f' : V -> V -> V) pa pv mv ma ma' :
  (forall qa qv u v, hget ma qa = Some u -> hget mv qv = Some v -> f u v = f' u v) ->
  combined D g f pa pv mv ma ma' -> combined D g f' pa pv mv ma ma'.
Proof.
  intros HE [H1 H2]. split; [|exact H2]. intros x qa qv Hx Ha Hv. destruct (H1 x qa qv Hx Ha Hv) as (u & v & E1 & E2 & E3).
  exists u, v. split; [exact E1|]. split; [exact E2|]. rewrite <- (HE _ _ _ _ E1 E2). exact E3.
Qed.
Lemma updated_ext {V} (D : list Z -> Prop) (f f' : V -> V) pa ma ma' :
  (forall q u, hget ma q = Some u -> f u = f' u) -> updated D f pa ma ma' -> updated D f' pa ma ma'.
Proof.
  intros HE [H1 H2]. split; [|exact H2]. intros x q Hx Hq. destruct (H1 x q Hx Hq) as (u & E1 & E2).
  exists u. split; [exact E1|]. rewrite <- (HE _ _ E1). exact E2.
Qed.

(** GA_Get_diag. *)
Theorem C84_get_partial : forall V guess near wn rnd smp t a v pa pv sa sv d0 d1 (ma mv : heap V),
  good_guess guess -> (forall me q k, 0 <= rnd me q k) -> (forall me w, abs_rank a me = Some w -> near me w = true) ->
  walk_layout a wn pa sa -> any_layout v wn pv sv -> small_local a sa -> small_local v sv ->
  dims (ga_desc a) = [d0; d1] -> dims (ga_desc v) = [Z.min d0 d1] -> ga_elemsize a = ga_elemsize v -> t <> E_longlong ->
  allocated pa ma -> allocated pv mv ->
  exists ess n,
    Forall2 (fun me es => forall fuel, (n <= fuel)%nat -> get_diag fuel guess (near me) wn (rnd me) (smp me) t t a v me = Some es)
      (zseq 0 (Z.to_nat (ga_nproc a))) ess /\
    forall es, Permutation (concat ess) es ->
      exists mv', run_elems (MGcopy.copy_elem ma) mv es = Some mv' /\
        copied (diagonal (dims (ga_desc a))) (fun x => [hd 0 x]) pa pv ma mv mv'.
Proof.
  intros V guess near wn rnd smp t a v pa pv sa sv d0 d1 ma mv HG HR HN LA LV SA SV EA EV EE HT AA AV.
  destruct (get_marked guess near wn a pa sa d0 d1 t HG LA SA EA HN HT rnd smp v pv sv (Z.min d0 d1) HR LV SV EV EE eq_refl) as (ess & n & F & M).
  exists ess, n. split; [exact F|]. intros es PT. apply (marked_perm _ _ _ _ PT) in M.
  destruct (any_storage _ _ _ _ (proj1 LA)) as (alloc & _ & F1 & I1 & _). destruct (any_storage _ _ _ _ LV) as (alloc' & _ & F2 & I2 & _).
  apply (labelled_copied (fun x => [hd 0 x]) pa pv); auto.
  intros x y [_ (k & ->)] [_ (k' & ->)] E. cbn in E. congruence.
Qed.
Print Assumptions C84_get_partial.

(** GA_Set_diagonal. *)
Theorem C84_set_partial : forall R guess near wn rnd smp t a v pa pv sa sv d0 d1 (ma mv : heap (val R)),
  good_guess guess -> (forall me q k, 0 <= rnd me q k) -> (forall me w, abs_rank a me = Some w -> near me w = true) ->
  walk_layout a wn pa sa -> any_layout v wn pv sv -> small_local a sa -> small_local v sv ->
  dims (ga_desc a) = [d0; d1] -> dims (ga_desc v) = [Z.min d0 d1] -> ga_elemsize a = ga_elemsize v -> t <> E_longlong ->
  allocated pa ma -> allocated pv mv ->
  exists ess n,
    Forall2 (fun me es => forall fuel, (n <= fuel)%nat -> with_diag fuel guess (near me) wn (rnd me) (smp me) t t a v me = Some es)
      (zseq 0 (Z.to_nat (ga_nproc a))) ess /\
    forall es, Permutation (concat ess) es ->
      exists ma', run_elems (use_elem code_set mv) ma es = Some ma' /\
        combined (diagonal (dims (ga_desc a))) (fun x => [hd 0 x]) (fun _ v => v) pa pv mv ma ma'.
Proof.
  intros R guess near wn rnd smp t a v pa pv sa sv d0 d1 ma mv HG HR HN LA LV SA SV EA EV EE HT AA AV.
  destruct (with_marked guess near wn a pa sa d0 d1 t HG LA SA EA HN HT rnd smp v pv sv (Z.min d0 d1) HR LV SV EV EE eq_refl) as (ess & n & F & M).
  exists ess, n. split; [exact F|]. intros es PT. apply (marked_perm _ _ _ _ PT) in M.
  destruct (any_storage _ _ _ _ (proj1 LA)) as (alloc & _ & F1 & I1 & _). destruct (any_storage _ _ _ _ LV) as (alloc' & _ & F2 & I2 & _).
  exact (marked_combined pa pv _ row_of (@code_set R) mv ma es F1 I1 F2 AA AV M).
Qed.
Print Assumptions C84_set_partial.

(** GA_Add_diagonal. *)
Theorem C84_add_partial : forall R (radd : R -> R -> R) guess near wn rnd smp t a v pa pv sa sv d0 d1 (ma mv : heap (val R)),
  good_guess guess -> (forall me q k, 0 <= rnd me q k) -> (forall me w, abs_rank a me = Some w -> near me w = true) ->
  walk_layout a wn pa sa -> any_layout v wn pv sv -> small_local a sa -> small_local v sv ->
  dims (ga_desc a) = [d0; d1] -> dims (ga_desc v) = [Z.min d0 d1] -> ga_elemsize a = ga_elemsize v -> t <> E_longlong ->
  allocated pa ma -> allocated pv mv -> typed t ma -> typed t mv ->
  exists ess n,
    Forall2 (fun me es => forall fuel, (n <= fuel)%nat -> with_diag fuel guess (near me) wn (rnd me) (smp me) t t a v me = Some es)
      (zseq 0 (Z.to_nat (ga_nproc a))) ess /\
    forall es, Permutation (concat ess) es ->
      exists ma', run_elems (use_elem (code_add radd) mv) ma es = Some ma' /\
        combined (diagonal (dims (ga_desc a))) (fun x => [hd 0 x]) (sum_of radd) pa pv mv ma ma'.
Proof.
  intros R radd guess near wn rnd smp t a v pa pv sa sv d0 d1 ma mv HG HR HN LA LV SA SV EA EV EE HT AA AV TA TV.
  destruct (with_marked guess near wn a pa sa d0 d1 t HG LA SA EA HN HT rnd smp v pv sv (Z.min d0 d1) HR LV SV EV EE eq_refl) as (ess & n & F & M).
  exists ess, n. split; [exact F|]. intros es PT. apply (marked_perm _ _ _ _ PT) in M.
  destruct (any_storage _ _ _ _ (proj1 LA)) as (alloc & _ & F1 & I1 & _). destruct (any_storage _ _ _ _ LV) as (alloc' & _ & F2 & I2 & _).
  destruct (marked_combined pa pv _ row_of (code_add radd) mv ma es F1 I1 F2 AA AV M) as (ma' & E & C).
  exists ma'. split; [exact E|]. eapply combined_ext; [|exact C]. intros qa qv x y Ex Ey. apply TA in Ex. apply TV in Ey.
  destruct x, y; cbn; try reflexivity; congruence.
Qed.
Print Assumptions C84_add_partial.

(** GA_Shift_diagonal by [c]. *)
Theorem C84_shift_partial : forall R (radd : R -> R -> R) guess near wn t a pa sa d0 d1 (c : val R) (ma : heap (val R)),
  good_guess guess -> (forall me w, abs_rank a me = Some w -> near me w = true) ->
  walk_layout a wn pa sa -> small_local a sa -> dims (ga_desc a) = [d0; d1] -> t <> E_longlong ->
  allocated pa ma -> typed t ma -> match c with Re _ => complex_type t = false | Cx _ _ => complex_type t = true end ->
  exists ess n,
    Forall2 (fun me es => forall fuel, (n <= fuel)%nat -> shift_diag fuel guess (near me) wn t a me = Some es)
      (zseq 0 (Z.to_nat (ga_nproc a))) ess /\
    forall es, Permutation (concat ess) es ->
      exists ma', run_elems (upd_elem (fun u => code_add radd u c)) ma es = Some ma' /\
        updated (diagonal (dims (ga_desc a))) (fun u => sum_of radd u c) pa ma ma'.
Proof.
  intros R radd guess near wn t a pa sa d0 d1 c ma HG HN LA SA EA HT AA TA TC.
  destruct (shift_marked guess near wn a pa sa d0 d1 t HG LA SA EA HN HT) as (ess & n & F & M).
  exists ess, n. split; [exact F|]. intros es PT. apply (marked_perm _ _ _ _ PT) in M.
  destruct (any_storage _ _ _ _ (proj1 LA)) as (alloc & _ & F1 & I1 & _).
  destruct (marked_updated pa _ (fun u => code_add radd u c) ma es F1 I1 AA M) as (ma' & E & U).
  exists ma'. split; [exact E|]. eapply updated_ext; [|exact U]. intros q u Eu. apply TA in Eu. destruct u, c; cbn; try reflexivity; congruence.
Qed.
Print Assumptions C84_shift_partial.

(** GA_Zero_diagonal, if every block with elements of the diagonal begins on it. *)
Theorem C84_zero_partial : forall R (zero : R) guess near wn t a pa sa d0 d1 (ma : heap (val R)),
  good_guess guess -> (forall me w, abs_rank a me = Some w -> near me w = true) ->
  walk_layout a wn pa sa -> small_local a sa -> dims (ga_desc a) = [d0; d1] -> t <> E_longlong ->
  square_blocks guess near wn a -> allocated pa ma ->
  exists ess n,
    Forall2 (fun me es => forall fuel, (n <= fuel)%nat -> zero_diag fuel guess (near me) wn t a me = Some es)
      (zseq 0 (Z.to_nat (ga_nproc a))) ess /\
    forall es, Permutation (concat ess) es ->
      exists ma', run_elems (upd_elem (code_zero zero)) ma es = Some ma' /\
        updated (diagonal (dims (ga_desc a))) (fun u => match u with Re _ => Re zero | Cx _ _ => Cx zero zero end) pa ma ma'.
Proof.
  intros R zero guess near wn t a pa sa d0 d1 ma HG HN LA SA EA HT SQ AA.
  destruct (zero_marked guess near wn a pa sa d0 d1 t HG LA SA EA HN HT SQ) as (ess & n & F & M).
  exists ess, n. split; [exact F|]. intros es PT. apply (marked_perm _ _ _ _ PT) in M.
  destruct (any_storage _ _ _ _ (proj1 LA)) as (alloc & _ & F1 & I1 & _).
  exact (marked_updated pa _ (code_zero zero) ma es F1 I1 AA M).
Qed.
Print Assumptions C84_zero_partial.

(** GA_Scale_rows and GA_Scale_cols for real types. *)
Theorem C85_rows_partial : forall R (radd rsub rmul : R -> R -> R) guess near wn rnd smp t a v pa pv sa sv d0 d1 (ma mv : heap (val R)),
  good_guess guess -> (forall me q k, 0 <= rnd me q k) -> (forall me w, abs_rank a me = Some w -> near me w = true) ->
  walk_layout a wn pa sa -> any_layout v wn pv sv -> small_local a sa -> small_local v sv ->
  dims (ga_desc a) = [d0; d1] -> dims (ga_desc v) = [d0] -> ga_elemsize a = ga_elemsize v -> t <> E_longlong -> complex_type t = false ->
  allocated pa ma -> allocated pv mv -> typed t ma -> typed t mv ->
  exists ess n,
    Forall2 (fun me es => forall fuel, (n <= fuel)%nat -> scale_rows fuel guess (near me) wn (rnd me) (smp me) t t a v me = Some es)
      (zseq 0 (Z.to_nat (ga_nproc a))) ess /\
    forall es, Permutation (concat ess) es ->
      exists ma', run_elems (use_elem (code_mul rmul) mv) ma es = Some ma' /\
        combined (in_array (dims (ga_desc a))) (fun x => [hd 0 x]) (product_of radd rsub rmul) pa pv mv ma ma'.
Proof.
  intros R radd rsub rmul guess near wn rnd smp t a v pa pv sa sv d0 d1 ma mv HG HR HN LA LV SA SV EA EV EE HT HC AA AV TA TV.
  destruct (rows_marked guess near wn a pa sa d0 d1 t HG LA SA EA HN HT rnd smp v pv sv d0 HR LV SV EV EE eq_refl) as (ess & n & F & M).
  exists ess, n. split; [exact F|]. intros es PT. apply (marked_perm _ _ _ _ PT) in M.
  destruct (any_storage _ _ _ _ (proj1 LA)) as (alloc & _ & F1 & I1 & _). destruct (any_storage _ _ _ _ LV) as (alloc' & _ & F2 & I2 & _).
  destruct (marked_combined pa pv _ row_of (code_mul rmul) mv ma es F1 I1 F2 AA AV M) as (ma' & E & C).
  exists ma'. split; [exact E|]. eapply combined_ext; [|exact C]. intros qa qv x y Ex Ey. apply TA in Ex. apply TV in Ey.
  destruct x, y; cbn; try reflexivity; congruence.
Qed.
Print Assumptions C85_rows_partial.
Theorem C85_cols_partial : forall R (radd rsub rmul : R -> R -> R) guess near wn rnd smp t a v pa pv sa sv d0 d1 (ma mv : heap (val R)),
  good_guess guess -> (forall me q k, 0 <= rnd me q k) -> (forall me w, abs_rank a me = Some w -> near me w = true) ->
  walk_layout a wn pa sa -> any_layout v wn pv sv -> small_local a sa -> small_local v sv ->
  dims (ga_desc a) = [d0; d1] -> dims (ga_desc v) = [d1] -> ga_elemsize a = ga_elemsize v -> t <> E_longlong -> complex_type t = false ->
  allocated pa ma -> allocated pv mv -> typed t ma -> typed t mv ->
  exists ess n,
    Forall2 (fun me es => forall fuel, (n <= fuel)%nat -> scale_cols fuel guess (near me) wn (rnd me) (smp me) t t a v me = Some es)
      (zseq 0 (Z.to_nat (ga_nproc a))) ess /\
    forall es, Permutation (concat ess) es ->
      exists ma', run_elems (use_elem (code_mul rmul) mv) ma es = Some ma' /\
        combined (in_array (dims (ga_desc a))) (fun x => [hd 0 (tl x)]) (product_of radd rsub rmul) pa pv mv ma ma'.
Proof.
  intros R radd rsub rmul guess near wn rnd smp t a v pa pv sa sv d0 d1 ma mv HG HR HN LA LV SA SV EA EV EE HT HC AA AV TA TV.
  destruct (cols_marked guess near wn a pa sa d0 d1 t HG LA SA EA HN HT rnd smp v pv sv d1 HR LV SV EV EE eq_refl) as (ess & n & F & M).
  exists ess, n. split; [exact F|]. intros es PT. apply (marked_perm _ _ _ _ PT) in M.
  destruct (any_storage _ _ _ _ (proj1 LA)) as (alloc & _ & F1 & I1 & _). destruct (any_storage _ _ _ _ LV) as (alloc' & _ & F2 & I2 & _).
  destruct (marked_combined pa pv _ col_of (code_mul rmul) mv ma es F1 I1 F2 AA AV M) as (ma' & E & C).
  exists ma'. split; [exact E|]. eapply combined_ext; [|exact C]. intros qa qv x y Ex Ey. apply TA in Ex. apply TV in Ey.
  destruct x, y; cbn; try reflexivity; congruence.
Qed.
Print Assumptions C85_cols_partial.

(** ** Examples: a 4x5 matrix in rows on two processes, with ghost cells, and
    vectors of 4 and 5 elements. *)
Definition ex_M := ex_arr [4; 5] [2; 1] [1; 3; 1] [1; 0] None 2.
Definition ex_V4 := ex_arr [4] [2] [1; 2] [0] None 2.
Definition ex_V5 := ex_arr [5] [2] [1; 4] [0] None 2.
Lemma ex_M_wf : wf_array ex_M.
Proof. solve_arr. cbn [valid_maps ex_M ex_arr ga_desc dims nblock mapc]. change (skipn (Z.to_nat 2) [1; 3; 1]) with [1]. split; [solve_map|]. split; [solve_map|exact I]. Qed.
Lemma ex_V4_wf : wf_array ex_V4.
Proof. solve_arr. split; [solve_map|exact I]. Qed.
Lemma ex_V5_wf : wf_array ex_V5.
Proof. solve_arr. split; [solve_map|exact I]. Qed.
(** A holds the place, V a hundred times the place. *)
Definition ex_ma : heap (val Z) := fun p o => if (0 <=? o) && (o <? 30) then Some (Re (50 * p + o)) else None.
Definition ex_mv : heap (val Z) := fun p o => if (0 <=? o) && (o <? 10) then Some (Re (100 * (10 * p + o))) else None.
Lemma ex_typed : typed E_dbl ex_ma /\ typed E_int ex_mv.
Proof. split; intros q v; unfold hget, ex_ma, ex_mv; destruct (_ && _); intros H; inversion H; reflexivity. Qed.
Definition ex_two {E} (f : Z -> option (list E)) : option (list E) := do x <- f 0; do y <- f 1; Some (x ++ y).
(** The diagonal element (3,3) of M is at (1,9), element 3 of V4 at (1,1). *)
Example C84_ex :
  wf_array ex_M /\ wf_array ex_V4 /\ typed E_dbl ex_ma /\ ex_at ex_M [3; 3] = Some (1, 9) /\ ex_at ex_V4 [3] = Some (1, 1) /\
  (do es <- ex_two (fun me => get_diag 9 ex_guess (fun w => w =? me) 2 (fun _ i => i) (fun _ => true) E_dbl E_dbl ex_M ex_V4 me);
   do m <- run_elems (MGcopy.copy_elem ex_ma) ex_mv es; hget m (1, 1)) = Some (Re 59) /\
  (do es <- ex_two (fun me => with_diag 9 ex_guess (fun w => w =? me) 2 (fun _ i => i) (fun _ => true) E_dbl E_dbl ex_M ex_V4 me);
   do m <- run_elems (use_elem (code_add Z.add) ex_mv) ex_ma es; hget m (1, 9)) = Some (Re (59 + 1100)) /\
  (do es <- ex_two (fun me => shift_diag 9 ex_guess (fun w => w =? me) 2 E_dbl ex_M me);
   do m <- run_elems (upd_elem (fun u => code_add Z.add u (Re 7))) ex_ma es; hget m (1, 9)) = Some (Re (59 + 7)).
Proof. split; [exact ex_M_wf|]. split; [exact ex_V4_wf|]. split; [apply ex_typed|]. repeat split; vm_compute; reflexivity. Qed.
(** A 2x2 array of square blocks: GA_Zero_diagonal is right. *)
Definition ex_SQ := ex_arr [5; 5] [2; 2] [1; 4; 1; 4] [0; 0] None 4.
Example C84_ex_square : wf_array ex_SQ /\ square_blocks ex_guess (fun me w => w =? me) 4 ex_SQ /\
  (do l <- mapM (fun me => zero_diag 9 ex_guess (fun w => w =? me) 4 E_dbl ex_SQ me) [0; 1; 2; 3]; Some (concat l)) =
    Some [(0, 0); (0, 4); (0, 8); (3, 0); (3, 3)].
Proof.
  split. { solve_arr. cbn [valid_maps ex_SQ ex_arr ga_desc dims nblock mapc]. change (skipn (Z.to_nat 2) [1; 4; 1; 4]) with [1; 4]. split; [solve_map|]. split; [solve_map|exact I]. }
  split; [|vm_compute; reflexivity].
  intros me fuel ps q l0 l1 h0 h1 Hm E Hq E1 E2 H.
  assert (O : me = 0 \/ me = 1 \/ me = 2 \/ me = 3) by (cbn in Hm; lia).
  destruct O as [-> | [-> | [-> | ->]]]; destruct fuel as [|[|fuel]]; vm_compute in E; try discriminate E; injection E as <-;
    (destruct Hq as [<-|[]] || destruct Hq); cbn in E1, E2; inversion E1; inversion E2; subst; try reflexivity; cbn in H; lia.
Qed.
Example C85_ex :
  wf_array ex_V5 /\ typed E_dbl ex_ma /\ ex_at ex_M [3; 4] = Some (1, 13) /\ ex_at ex_V5 [4] = Some (1, 0) /\
  (do es <- ex_two (fun me => scale_rows 9 ex_guess (fun w => w =? me) 2 (fun _ i => i) (fun _ => true) E_dbl E_dbl ex_M ex_V4 me);
   do m <- run_elems (use_elem (code_mul Z.mul) ex_mv) ex_ma es; Some (hget m (1, 13), hget m (1, 12))) = Some (Some (Re (63 * 1100)), Some (Re 62)) /\
  (do es <- ex_two (fun me => scale_cols 9 ex_guess (fun w => w =? me) 2 (fun _ i => i) (fun _ => true) E_dbl E_dbl ex_M ex_V5 me);
   do m <- run_elems (use_elem (code_mul Z.mul) ex_mv) ex_ma es; Some (hget m (1, 13), hget m (1, 12))) = Some (Some (Re (63 * 1000)), Some (Re 62)).
Proof. split; [exact ex_V5_wf|]. split; [apply ex_typed|]. repeat split; vm_compute; reflexivity. Qed.

(** GA_Zero_diagonal of a 4x4 matrix in rows: process 1 sets (3,1) and (4,2) to 0
    instead of (3,3) and (4,4). *)
Definition ex_ones : heap (val Z) := fun p o => if (0 <=? p) && (p <? 2) && (0 <=? o) && (o <? 20) then Some (Re 1) else None.
Theorem C84_zero_refuted : exists a ess ma', wf_array a /\ dims (ga_desc a) = [4; 4] /\ allocated (reg_place a) ex_ones /\ typed E_dbl ex_ones /\
  Forall2 (fun me es => forall fuel near, (2 <= fuel)%nat -> near me me = true -> zero_diag fuel ex_guess (near me) 2 E_dbl a me = Some es) [0; 1] ess /\
  run_elems (upd_elem (code_zero 0)) ex_ones (concat ess) = Some ma' /\
  reg_place a [3; 3] (1, 4) /\ hget ma' (1, 4) = Some (Re 1) /\ reg_place a [3; 1] (1, 0) /\ hget ma' (1, 0) = Some (Re 0).
Proof.
  exists (ex_arr [4; 4] [2; 1] [1; 3; 1] [0; 0] None 2), [[(0, 0); (0, 3)]; [(1, 0); (1, 3)]].
  assert (W : wf_array (ex_arr [4; 4] [2; 1] [1; 3; 1] [0; 0] None 2)).
  { solve_arr. cbn [valid_maps ex_arr ga_desc dims nblock mapc]. change (skipn (Z.to_nat 2) [1; 3; 1]) with [1]. split; [solve_map|]. split; [solve_map|exact I]. }
  eexists. split; [exact W|]. split; [reflexivity|].
  split.
  { intros x [p o] (p' & lo & hi & Hp & HD & HB & HA & HO). unfold hget, ex_ones. cbn [fst snd] in *. assert (O : p' = 0 \/ p' = 1) by (cbn in Hp; lia).
    destruct O as [-> | ->]; vm_compute in HD; inversion HD; subst lo hi; vm_compute in HA; inversion HA; subst p;
      destruct x as [|x0 [|x1 [|]]]; cbn in HB; try tauto; cbn [ga_width ex_arr padded vsub vadd lin] in HO;
      destruct (Z.leb_spec 0 o); destruct (Z.ltb_spec o 20); cbn; try discriminate; exfalso; lia. }
  split. { intros q v. unfold hget, ex_ones. destruct (_ && _); intros H; inversion H; reflexivity. }
  split. { constructor; [|constructor; [|constructor]]; intros [|[|fuel]] near Hf HN; try lia; vm_compute in HN |- *; rewrite HN; reflexivity. }
  split; [vm_compute; reflexivity|].
  split. { exists 1, [3; 1], [4; 4]. split; [cbn; lia|]. split; [reflexivity|]. split; [cbn; lia|]. split; reflexivity. }
  split; [reflexivity|].
  split. { exists 1, [3; 1], [4; 4]. split; [cbn; lia|]. split; [reflexivity|]. split; [cbn; lia|]. split; reflexivity. }
  reflexivity.
Qed.
Print Assumptions C84_zero_refuted.

(** The operations fail for arrays of type C_LONGLONG, whatever the number of steps. *)
Lemma M_walk0 fuel near : near 0 = true ->
  local_iterate fuel ex_guess near 2 ex_M 0 = None \/ local_iterate fuel ex_guess near 2 ex_M 0 = Some [{| lp_lo := [1; 1]; lp_hi := [2; 5]; lp_seg := 0; lp_off := 1; lp_ld := [4] |}].
Proof. intros HN. destruct fuel as [|[|fuel]]; [left; reflexivity|left; vm_compute in HN |- *; try rewrite HN; reflexivity|right; vm_compute in HN |- *; rewrite HN; reflexivity]. Qed.
Lemma none_bind {A B} (x : option A) : (do y <- x; @None B) = None.
Proof. destruct x; reflexivity. Qed.
Theorem C84_longlong_refuted : wf_array ex_M /\ wf_array ex_V4 /\
  forall fuel near rnd smp, near 0 = true ->
  shift_diag fuel ex_guess near 2 E_longlong ex_M 0 = None /\ zero_diag fuel ex_guess near 2 E_longlong ex_M 0 = None /\
  get_diag fuel ex_guess near 2 rnd smp E_longlong E_longlong ex_M ex_V4 0 = None /\
  with_diag fuel ex_guess near 2 rnd smp E_longlong E_longlong ex_M ex_V4 0 = None.
Proof.
  split; [exact ex_M_wf|]. split; [exact ex_V4_wf|]. intros fuel near rnd smp HN.
  unfold shift_diag, zero_diag, get_diag, with_diag, walk. cbn [ex_M ex_V4 ex_arr ga_desc dims length Nat.eqb diag_checks elt_eqb].
  change (4 =? Z.min 4 5) with true. cbn [andb]. fold ex_M.
  change (ex_arr [4; 5] [2; 1] [1; 3; 1] [1; 0] None 2) with ex_M.
  destruct (M_walk0 fuel near HN) as [-> | ->]; [repeat split; reflexivity|]. cbn [mapM]. split; [reflexivity|]. split; [reflexivity|]. split; [reflexivity|].
  unfold diag_block. cbn [diag_range lp_lo lp_hi]. change (0 <? 1) with true. change (Z.max 1 1 <=? Z.min 2 5) with true. cbv iota. cbn [listed]. rewrite none_bind. reflexivity.
Qed.
Print Assumptions C84_longlong_refuted.
Theorem C85_longlong_refuted : wf_array ex_M /\ wf_array ex_V4 /\ wf_array ex_V5 /\
  forall fuel near rnd smp, near 0 = true ->
  scale_rows fuel ex_guess near 2 rnd smp E_longlong E_longlong ex_M ex_V4 0 = None /\
  scale_cols fuel ex_guess near 2 rnd smp E_longlong E_longlong ex_M ex_V5 0 = None.
Proof.
  split; [exact ex_M_wf|]. split; [exact ex_V4_wf|]. split; [exact ex_V5_wf|]. intros fuel near rnd smp HN.
  unfold scale_rows, scale_cols, walk. cbn [ex_M ex_V4 ex_V5 ex_arr ga_desc dims elt_eqb].
  rewrite !Z.eqb_refl. cbn [andb].
  change (ex_arr [4; 5] [2; 1] [1; 3; 1] [1; 0] None 2) with ex_M.
  destruct (M_walk0 fuel near HN) as [-> | ->]; [split; reflexivity|]. cbn [mapM]. 
  unfold row_block, col_block. cbn [lp_lo lp_hi lp_ld]. change ((0 <? 1) && (1 <=? 2)) with true. cbv iota. cbn [listed]. rewrite !none_bind. split; reflexivity.
Qed.
Print Assumptions C85_longlong_refuted.

(** Complex numbers: every element of A and V is i; the product is -1, the code
    stores 0 + 1i = i. *)
Definition ex_i (n : Z) : heap (val Z) := fun p o => if (0 <=? p) && (p <? 2) && (0 <=? o) && (o <? n) then Some (Cx 0 1) else None.
Theorem C85_complex_refuted : exists es ma', wf_array ex_M /\ wf_array ex_V4 /\ typed E_dcpl (ex_i 30) /\ typed E_dcpl (ex_i 10) /\
  (do x <- scale_rows 9 ex_guess (fun w => w =? 0) 2 (fun _ i => i) (fun _ => true) E_dcpl E_dcpl ex_M ex_V4 0;
   do y <- scale_rows 9 ex_guess (fun w => w =? 1) 2 (fun _ i => i) (fun _ => true) E_dcpl E_dcpl ex_M ex_V4 1; Some (x ++ y)) = Some es /\
  run_elems (use_elem (code_mul Z.mul) (ex_i 10)) (ex_i 30) es = Some ma' /\
  ex_at ex_M [3; 4] = Some (1, 13) /\ hget ma' (1, 13) = Some (Cx 0 1) /\ product_of Z.add Z.sub Z.mul (Cx 0 1) (Cx 0 1) = Cx (-1) 0.
Proof.
  eexists. eexists. split; [exact ex_M_wf|]. split; [exact ex_V4_wf|].
  split. { intros q v. unfold hget, ex_i. destruct (_ && _); intros H; inversion H; reflexivity. }
  split. { intros q v. unfold hget, ex_i. destruct (_ && _); intros H; inversion H; reflexivity. }
  split; [vm_compute; reflexivity|]. split; [vm_compute; reflexivity|]. repeat split; vm_compute; reflexivity.
Qed.
Print Assumptions C85_complex_refuted.
