(** Lemmas: GA_Copy_patch as a whole. *)
From Verif Require Import LRadix LXfer LXfer2 LStore LGat LLoc LAccess LSelect LSelect2.
From Verif Require Export LCpatch3.
Open Scope Z_scope.

Definition shape_equal (alo ahi blo bhi : list Z) : Prop := extents alo ahi = extents blo bhi.

Lemma shape_equal_shift ds ds' alo ahi blo bhi : patch_of ds alo ahi -> patch_of ds' blo bhi -> shape_equal alo ahi blo bhi ->
  length blo = length alo /\ shift alo blo ahi = bhi /\ test_shape alo ahi blo bhi = true.
Proof.
  intros PA PB E. destruct (patch_lens _ _ _ PA) as [A1 A2]. destruct (patch_lens _ _ _ PB) as [B1 B2].
  assert (LL : length blo = length alo /\ shift alo blo ahi = bhi).
  { unfold shape_equal in E. assert (H1 : length ahi = length alo) by lia. assert (H2 : length bhi = length blo) by lia.
    clear - E H1 H2. revert ahi blo bhi E H1 H2. induction alo as [|l alo IH]; intros [|h ahi] [|c blo] [|k bhi] E H1 H2; try discriminate.
    - split; reflexivity.
    - cbn [extents] in E. injection E as E1 E2. destruct (IH ahi blo bhi E2) as [I1 I2]; try (cbn in *; lia).
      split; [cbn; lia|]. unfold shift. cbn [vsub vadd]. fold (shift alo blo ahi). rewrite I2. f_equal. lia. }
  split; [apply LL|]. split; [apply LL|]. apply test_shape_shift; [lia|lia|exact LL].
Qed.

Lemma patch_checks same a b alo ahi blo bhi : passes same alo ahi blo bhi ->
  patch_of (dims (ga_desc a)) alo ahi -> patch_of (dims (ga_desc b)) blo bhi -> ga_elemsize a = ga_elemsize b ->
  zprod (extents alo ahi) = zprod (extents blo bhi) ->
  forall A (x y z : A),
  (if same && (same_vec alo blo && same_vec ahi bhi) then x
   else if same && match patch_intersect alo ahi blo bhi with Some _ => true | None => false end then y
   else if negb (ga_elemsize a =? ga_elemsize b) || negb (patch_inside (dims (ga_desc a)) alo ahi)
          || negb (patch_inside (dims (ga_desc b)) blo bhi)
          || negb (zprod (extents alo ahi) =? zprod (extents blo bhi)) then y else z) = z.
Proof.
  intros HS PA PB EE EZ A x y z. destruct (passes_checks same _ alo ahi blo bhi HS PA) as [-> ->]; [apply PB|].
  rewrite EE, Z.eqb_refl, (patch_inside_ok _ _ _ PA), (patch_inside_ok _ _ _ PB), EZ, Z.eqb_refl. reflexivity.
Qed.

Theorem straight_put_spec guess near wn wr pre rnd smp base same a b (pa pb : list Z -> place -> Prop) sa sb alo ahi blo bhi :
  good_guess guess -> (forall me q k, 0 <= rnd me q k) -> walk_layout a wn pa sa -> any_layout b wn pb sb ->
  small_local a sa -> small_local b sb -> ga_elemsize a = ga_elemsize b -> ga_nproc a <= ga_nproc b ->
  (forall me w, abs_rank a me = Some w -> near me w = true) ->
  patch_of (dims (ga_desc a)) alo ahi -> patch_of (dims (ga_desc b)) blo bhi -> shape_equal alo ahi blo bhi ->
  passes same alo ahi blo bhi -> (base = true \/ distr_type (ga_desc a) = REGULAR) ->
  forall meb, exists ess n,
    Forall2 (fun me es => forall fuel, (n <= fuel)%nat ->
        copy_patch fuel guess (near me) wn (wr me) (pre me) (rnd me) (smp me) base false same a b me (meb me) alo ahi blo bhi = Some es)
      (zseq 0 (Z.to_nat (ga_nproc a))) ess /\
    labelled (target false alo ahi blo bhi) pa pb (in_box alo ahi) (concat ess).
Proof.
  intros HG HR LA LB SA SB EE HN HNear PA PB SE HS HB meb.
  destruct (shape_equal_shift _ _ _ _ _ _ PA PB SE) as (S1 & S2 & S3).
  destruct (procs_fuel (fun fuel me => copy_patch fuel guess (near me) wn (wr me) (pre me) (rnd me) (smp me) base false same a b me (meb me) alo ahi blo bhi)
     (fun me es => exists w, abs_rank a me = Some w /\
        labelled (target false alo ahi blo bhi) pa pb (fun x => in_box alo ahi x /\ exists ad, pa x (w, ad)) es)
     (zseq 0 (Z.to_nat (ga_nproc a)))) as (ess & n & E & F).
  - intros me Hme. apply zseq_In in Hme. assert (Hm : 0 <= me < ga_nproc a) by lia.
    destruct (abs_rank_total a me (layout_group _ _ _ _ (proj1 LA)) Hm) as (w & EW).
    destruct (straight_proc guess (near me) wn (rnd me) (smp me) base a b pa pb sa sb me w alo ahi blo bhi false HG (HR me) LA LB SA SB EE PA PB
        S1 S2 Hm EW (HNear _ _ EW) HB) as (es & n & E & L).
    exists es, n. split.
    + intros fuel Hf. unfold copy_patch. rewrite patch_checks; auto; [|rewrite SE; reflexivity]. rewrite S3. cbn [negb andb]. rewrite andb_false_r.
      destruct (Z.leb_spec (ga_nproc a) (ga_nproc b)); [|lia]. apply E, Hf.
    + exists w. split; [exact EW|]. destruct L as (l & L1 & L2 & L3 & L4). exists l. split; [exact L1|]. split; [exact L2|]. split; [exact L3|].
      intros e x Hin. destruct (L4 e x Hin) as [X Y]. assert (Hx : in_box alo ahi x) by (apply L3, (in_map snd _ _ Hin)).
      rewrite (target_shift alo ahi blo bhi x S1 S2 Hx). auto.
  - exists ess, n. split; [exact E|]. eapply whole_patch; eauto.
Qed.

Theorem straight_get_spec guess near wn wr pre rnd smp base same a b (pa pb : list Z -> place -> Prop) sa sb alo ahi blo bhi :
  good_guess guess -> (forall me q k, 0 <= rnd me q k) -> any_layout a wn pa sa -> walk_layout b wn pb sb ->
  small_local a sa -> small_local b sb -> ga_elemsize a = ga_elemsize b -> ga_nproc b < ga_nproc a ->
  (forall me w, abs_rank b me = Some w -> near me w = true) ->
  patch_of (dims (ga_desc a)) alo ahi -> patch_of (dims (ga_desc b)) blo bhi -> shape_equal alo ahi blo bhi ->
  passes same alo ahi blo bhi -> (base = true \/ distr_type (ga_desc b) = REGULAR) ->
  forall mea, exists ess n,
    Forall2 (fun me es => forall fuel, (n <= fuel)%nat ->
        copy_patch fuel guess (near me) wn (wr me) (pre me) (rnd me) (smp me) base false same a b (mea me) me alo ahi blo bhi = Some es)
      (zseq 0 (Z.to_nat (ga_nproc b))) ess /\
    labelled (target false alo ahi blo bhi) pa pb (in_box alo ahi) (concat ess).
Proof.
  intros HG HR LA LB SA SB EE HN HNear PA PB SE HS HB mea.
  destruct (shape_equal_shift _ _ _ _ _ _ PA PB SE) as (S1 & S2 & S3).
  destruct (shape_equal_shift _ _ _ _ _ _ PB PA (eq_sym SE)) as (R1 & R2 & _).
  set (fl := fun e : place * place => (snd e, fst e)).
  destruct (procs_fuel (fun fuel me => copy_patch fuel guess (near me) wn (wr me) (pre me) (rnd me) (smp me) base false same a b (mea me) me alo ahi blo bhi)
     (fun me r => exists es, r = map fl es /\ exists w, abs_rank b me = Some w /\
        labelled (shift blo alo) pb pa (fun y => in_box blo bhi y /\ exists ad, pb y (w, ad)) es)
     (zseq 0 (Z.to_nat (ga_nproc b)))) as (rs & n & E & F).
  - intros me Hme. apply zseq_In in Hme. assert (Hm : 0 <= me < ga_nproc b) by lia.
    destruct (abs_rank_total b me (layout_group _ _ _ _ (proj1 LB)) Hm) as (w & EW).
    destruct (straight_proc guess (near me) wn (rnd me) (smp me) base b a pb pa sb sa me w blo bhi alo ahi true HG (HR me) LB LA SB SA (eq_sym EE) PB PA
        R1 R2 Hm EW (HNear _ _ EW) HB) as (es & n & E & L).
    exists (map fl es), n. split.
    + intros fuel Hf. unfold copy_patch. rewrite patch_checks; auto; [|rewrite SE; reflexivity]. rewrite S3. cbn [negb andb]. rewrite andb_false_r.
      destruct (Z.leb_spec (ga_nproc a) (ga_nproc b)); [lia|]. apply E, Hf.
    + exists es. split; [reflexivity|]. exists w. auto.
  - assert (FE : exists ess, rs = map (map fl) ess /\ Forall2 (fun me es => exists w, abs_rank b me = Some w /\
        labelled (shift blo alo) pb pa (fun y => in_box blo bhi y /\ exists ad, pb y (w, ad)) es) (zseq 0 (Z.to_nat (ga_nproc b))) ess).
    { clear - F. induction F as [|q r ps rs (es & -> & L) F (ess & -> & G)]; [exists []; split; constructor|].
      exists (es :: ess). split; [reflexivity|constructor; auto]. }
    destruct FE as (ess & -> & FL). exists (map (map fl) ess), n. split; [exact E|]. rewrite <- concat_map.
    assert (L : labelled (shift blo alo) pb pa (in_box blo bhi) (concat ess)) by (eapply whole_patch; eauto).
    destruct (patch_lens _ _ _ PA) as [A1 A2]. destruct (patch_lens _ _ _ PB) as [B1 B2].
    assert (BK : forall y, in_box blo bhi y -> in_box alo ahi (shift blo alo y) /\ shift alo blo (shift blo alo y) = y).
    { intros y Hy. destruct (in_box_len _ _ _ Hy). split; [rewrite <- R2; apply shift_box; auto|apply shift_inv; lia]. }
    assert (FW : forall x, in_box alo ahi x -> in_box blo bhi (shift alo blo x) /\ shift blo alo (shift alo blo x) = x).
    { intros x Hx. destruct (in_box_len _ _ _ Hx). split; [rewrite <- S2; apply shift_box; auto|apply shift_inv; lia]. }
    apply (labelled_flip (target false alo ahi blo bhi) (shift blo alo) pa pb (in_box blo bhi)); [| |exact L].
    + intros x. split.
      * intros Hx. exists (shift alo blo x). apply FW, Hx.
      * intros (y & Hy & <-). apply BK, Hy.
    + intros y Hy. rewrite target_shift; auto; apply BK, Hy.
Qed.

Theorem reshape_put_spec guess near wn wr pre rnd smp trans same a b (pa pb : list Z -> place -> Prop) sa alo ahi blo bhi :
  good_guess guess -> walk_layout a wn pa sa ->
  distr_type (ga_desc a) = REGULAR -> distr_type (ga_desc b) = REGULAR ->
  ga_elemsize a = ga_elemsize b -> ga_nproc a <= ga_nproc b ->
  (forall me w, abs_rank a me = Some w -> near me w = true /\ wr me = w) ->
  patch_of (dims (ga_desc a)) alo ahi -> patch_of (dims (ga_desc b)) blo bhi -> zprod (extents alo ahi) = zprod (extents blo bhi) ->
  (trans = true \/ ~ shape_equal alo ahi blo bhi) ->
  passes same alo ahi blo bhi ->
  (forall me w ys, 0 <= me < ga_nproc a -> abs_rank a me = Some w ->
     Forall (in_array (dims (ga_desc b))) ys -> Z.of_nat (length ys) <= zprod (extents alo ahi) ->
     exists ts, gatscat guess wn w (pre me) b ys = Some ts /\ list_transfers pb ys ts) ->
  forall meb, exists ess,
    Forall2 (fun me es => forall fuel,
        copy_patch fuel guess (near me) wn (wr me) (pre me) (rnd me) (smp me) true trans same a b me (meb me) alo ahi blo bhi = Some es)
      (zseq 0 (Z.to_nat (ga_nproc a))) ess /\
    labelled (target trans alo ahi blo bhi) pa pb (in_box alo ahi) (concat ess).
Proof.
  intros HG LA TA TB EE HN HNear PA PB EZ HTR HS HGS meb.
  assert (PL : negb trans && test_shape alo ahi blo bhi = false).
  { destruct HTR as [->|HTR]; [reflexivity|]. destruct trans; [reflexivity|]. cbn [negb andb].
    destruct (test_shape alo ahi blo bhi) eqn:E; [|reflexivity]. exfalso. apply HTR.
    destruct (patch_lens _ _ _ PA) as [A1 A2]. destruct (patch_lens _ _ _ PB) as [B1 B2].
    apply test_shape_shift in E as [E1 <-]; try lia. unfold shape_equal. rewrite extents_shift by lia. reflexivity. }
  destruct (procs_fuel (fun fuel me => copy_patch fuel guess (near me) wn (wr me) (pre me) (rnd me) (smp me) true trans same a b me (meb me) alo ahi blo bhi)
     (fun me es => (forall fuel, copy_patch fuel guess (near me) wn (wr me) (pre me) (rnd me) (smp me) true trans same a b me (meb me) alo ahi blo bhi = Some es) /\
        exists w, abs_rank a me = Some w /\
        labelled (target trans alo ahi blo bhi) pa pb (fun x => in_box alo ahi x /\ exists ad, pa x (w, ad)) es)
     (zseq 0 (Z.to_nat (ga_nproc a)))) as (ess & n & E & F).
  - intros me Hme. apply zseq_In in Hme. assert (Hm : 0 <= me < ga_nproc a) by lia.
    destruct (abs_rank_total a me (layout_group _ _ _ _ (proj1 LA)) Hm) as (w & EW). destruct (HNear _ _ EW) as [HNr HW].
    destruct (reshape_proc guess (near me) wn (pre me) trans a b pa pb sa me w alo ahi blo bhi HG LA TA PA PB EZ Hm EW HNr) as (es & E & L).
    { intros ys. apply HGS; auto. }
    assert (EQ : forall fuel, copy_patch fuel guess (near me) wn (wr me) (pre me) (rnd me) (smp me) true trans same a b me (meb me) alo ahi blo bhi = Some es).
    { intros fuel. unfold copy_patch. rewrite patch_checks; auto. cbv zeta. rewrite PL, TA, TB, HW. cbn [orb andb].
      destruct (Z.leb_spec (ga_nproc a) (ga_nproc b)); [|lia]. apply E. }
    exists es, 0%nat. split; [intros; apply EQ|]. split; [exact EQ|]. eauto.
  - exists ess. split.
    + clear - F. induction F as [|? ? ? ? [X _]]; constructor; auto.
    + eapply whole_patch; eauto. clear - F. induction F as [|? ? ? ? [_ X]]; constructor; auto.
Qed.

(** ---- within one array ---- *)
Lemma self_run {V} (m0 : heap V) es : forall m,
  (forall e e', In e es -> In e' es -> fst e <> snd e') ->
  (forall e, In e es -> hget m (snd e) = hget m0 (snd e)) ->
  run_elems self_elem m es = run_elems (copy_elem m0) m es.
Proof.
  induction es as [|e es IH]; intros m HD HE; [reflexivity|]. cbn [run_elems]. unfold self_elem at 1. unfold copy_elem at 1 2.
  rewrite (HE e (or_introl eq_refl)). destruct (hget m0 (snd e)) as [v|]; [|reflexivity]. destruct (hget m (fst e)); [|reflexivity].
  apply IH; [intros; apply HD; now right|]. intros e' He'. rewrite hget_hset_other; [apply HE; now right|].
  apply HD; [now left|now right].
Qed.
Lemma labelled_self {V} trans alo ahi blo bhi (pa : list Z -> place -> Prop) (m : heap V) es :
  (forall x y q, pa x q -> pa y q -> x = y) -> Forall2 Z.le blo bhi -> zprod (extents alo ahi) = zprod (extents blo bhi) ->
  (forall x, in_box alo ahi x -> in_box blo bhi x -> False) ->
  labelled (target trans alo ahi blo bhi) pa pa (in_box alo ahi) es ->
  run_elems self_elem m es = run_elems (copy_elem m) m es.
Proof.
  intros IA HB EZ HX (l & -> & N & I & J). apply self_run; [|reflexivity].
  intros e e' He He' E. apply in_map_iff in He as ((d & x) & <- & Hin). apply in_map_iff in He' as ((d' & x') & <- & Hin'). cbn [fst] in E.
  destruct (J _ _ Hin) as [A _]. destruct (J _ _ Hin') as [_ B]. rewrite E in A. pose proof (IA _ _ _ A B) as Eq.
  assert (X1 : in_box alo ahi x) by (apply I, (in_map snd _ _ Hin)). assert (X2 : in_box alo ahi x') by (apply I, (in_map snd _ _ Hin')).
  apply (HX x' X2). rewrite <- Eq. apply target_in; auto.
Qed.
