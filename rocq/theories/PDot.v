(** Property theorems: GA_Dot and GA_Dot_patch (C83). *)
From Verif Require Import LRadix LDist2 LXfer2 LGcopy LGcopy2 LGcopy4 LGcopy5 LGat LCpatch4 LAdd4 LPw2 LDot PDist PIter PIterBlk PXfer PLoc PGat PGcopy PCpatch PAdd.
Open Scope Z_scope.

(** The patch of B can be copied to the patch of A: by put if the shapes are
    equal and nothing is transposed, else by scatter. *)
Definition joins (trans : bool) wn (pre : Z -> option Z) (a : garray) (alo ahi blo bhi : list Z) : Prop :=
  (trans = false /\ extents blo bhi = extents alo ahi) \/
  (zprod (extents blo bhi) = zprod (extents alo ahi) /\ forall me, 0 <= me < wn -> gat_caller wn me (pre me) a (zprod (extents blo bhi))).

(** All processes find their contribution, whatever the order of the copies, and
    the contributions add up in any order to the product. *)
Definition dot_done {V} (add : V -> V -> V) zero mul trans pa pb alo ahi blo bhi (ma mb mt : heap V) (progs : list dotp) : Prop :=
  forall es, Permutation (dot_copies progs) es ->
    exists vs, dot_parts add zero mul ma mb mt progs es = Some vs /\
      forall vs', Permutation vs vs' -> dot_value add zero mul trans pa pb alo ahi blo bhi ma mb (fold_right add zero vs').

Lemma joins_copyable guess near wn pre rnd smp trans a b alo ahi blo bhi :
  good_guess guess -> (forall me q k, 0 <= rnd me q k) -> (forall me, near me me = true) -> ga_group a = None -> ga_group b = None ->
  wf_array a -> wf_array b -> small_local a (reg_shape a) -> small_local b (reg_shape b) ->
  ga_elemsize a = ga_elemsize b -> ga_nproc a = wn -> ga_nproc b = wn ->
  patch_of (dims (ga_desc a)) alo ahi -> patch_of (dims (ga_desc b)) blo bhi -> joins trans wn pre a alo ahi blo bhi ->
  exists ess n,
    Forall2 (fun me es => forall fuel, (n <= fuel)%nat ->
        copy_patch fuel guess (near me) wn me (pre me) (rnd me) (smp me) true trans false b a me me blo bhi alo ahi = Some es)
      (zseq 0 (Z.to_nat wn)) ess /\
    labelled (target trans blo bhi alo ahi) (reg_place b) (reg_place a) (in_box blo bhi) (concat ess).
Proof.
  intros HG HR HN GA GB WA WB SA SB EE NA NB PA PB HJ. destruct trans.
  - destruct HJ as [[X _]|[EZ HC]]; [discriminate|].
    destruct (reshape_put_spec guess near wn (fun me => me) pre rnd smp true false b a (reg_place b) (reg_place a) (reg_shape b) blo bhi alo ahi HG
       (ex_reg_walk b wn WB) (proj1 (proj1 WB)) (proj1 (proj1 WA)) (eq_sym EE) ltac:(lia)) with (meb := fun me : Z => me) as (ess & F & L); auto.
    { intros me w E. rewrite (world_rank b me GB) in E. injection E as <-. auto. }
    { now left. }
    { intros me w ys Hm EW HY HL. rewrite (world_rank b me GB) in EW. injection EW as <-. eapply scatter_ready; eauto. apply HC. lia. }
    exists ess, 0%nat. rewrite NB in F. split; [eapply Forall2_weaken; [|exact F]; auto|exact L].
  - destruct (regular_copyable guess near wn pre rnd smp false b a blo bhi alo ahi) as (ess & n & F & L); auto.
    { destruct HJ as [[_ X]|X]; [now left|now right]. }
    { now left. }
    exists ess, n. rewrite NA in F. auto.
Qed.

Definition with_copy (e : list (place * place)) (l : list (place * place)) : dotp := {| dp_copy := Some e; dp_pairs := l |}.
Definition no_copy (l : list (place * place)) : dotp := {| dp_copy := None; dp_pairs := l |}.
Fixpoint zipd (es ls : list (list (place * place))) : list dotp :=
  match es, ls with e :: es', l :: ls' => with_copy e l :: zipd es' ls' | _, _ => [] end.
Lemma zipd_F2 {A} (R S : A -> list (place * place) -> Prop) ms : forall es ls, Forall2 R ms es -> Forall2 S ms ls ->
  Forall2 (fun m p => exists e l, p = with_copy e l /\ R m e /\ S m l) ms (zipd es ls).
Proof. induction ms as [|m ms IH]; intros es ls H1 H2; inversion H1; inversion H2; subst; cbn; constructor; eauto. Qed.
Lemma zipd_copies es : forall ls, length ls = length es -> dot_copies (zipd es ls) = concat es.
Proof. induction es as [|e es IH]; intros [|l ls] H; try discriminate; cbn; auto. rewrite <- (IH ls) by (cbn in H; lia). reflexivity. Qed.
Lemma zipd_parts {V} (F : heap V -> list (place * place) -> option V) (mb m2 : heap V) es : forall ls, length ls = length es ->
  mapM (fun p => F (dot_second mb m2 p) (dp_pairs p)) (zipd es ls) = mapM (F m2) ls.
Proof.
  induction es as [|e es IH]; intros [|l ls] H; try discriminate; [reflexivity|]. cbn [zipd mapM]. rewrite IH by (cbn in H; lia). reflexivity.
Qed.
Lemma plain_copies ls : dot_copies (map no_copy ls) = [].
Proof. induction ls; auto. Qed.
Lemma plain_parts {V} (F : heap V -> list (place * place) -> option V) (mb m2 : heap V) ls :
  mapM (fun p => F (dot_second mb m2 p) (dp_pairs p)) (map no_copy ls) = mapM (F mb) ls.
Proof. induction ls as [|l ls IH]; [reflexivity|]. cbn [map mapM]. rewrite IH. reflexivity. Qed.

(** A copy of B laid out like A. *)
Lemma copied_done {V} (add : V -> V -> V) zero mul trans (pa pb : list Z -> place -> Prop) alo ahi blo bhi (ma mb mt : heap V) ess ls :
  sums_freely add zero ->
  (forall x q q', pa x q -> pa x q' -> q = q') -> (forall x y q, pa x q -> pa y q -> x = y) -> (forall x q q', pb x q -> pb x q' -> q = q') ->
  (forall y, in_box blo bhi y -> exists q, pb y q) ->
  allocated pa ma -> allocated pb mb -> allocated pa mt -> Forall2 Z.le alo ahi -> Forall2 Z.le blo bhi -> zprod (extents blo bhi) = zprod (extents alo ahi) ->
  labelled (target trans blo bhi alo ahi) pb pa (in_box blo bhi) (concat ess) ->
  marked (pairs pa pa) (in_box alo ahi) (concat ls) -> length ls = length ess ->
  dot_done add zero mul trans pa pb alo ahi blo bhi ma mb mt (zipd ess ls).
Proof.
  intros HM FA IA FB TB AA AB AT LA LB EZ HL HP EL es PE. rewrite zipd_copies in PE by exact EL.
  destruct (labelled_patch (V := V) trans blo bhi alo ahi pb pa mb mt es) as (m2 & E & C1 & C2); auto; [eapply labelled_perm; eauto|].
  assert (A2 : allocated pa m2).
  { intros x q Hq. assert (K : forall es (m m' : heap V), run_elems (MGcopy.copy_elem mb) m es = Some m' -> forall q, hget m q <> None -> hget m' q <> None).
    { clear. induction es as [|e es IH]; intros m m' H q Hq; cbn [run_elems] in H; [injection H as <-; exact Hq|].
      destruct (MGcopy.copy_elem mb m e) as [m1|] eqn:E; [|discriminate]. apply (IH m1 m' H). unfold MGcopy.copy_elem in E.
      destruct (hget mb (snd e)) as [v|]; [|discriminate]. destruct (hget m (fst e)); [|discriminate]. injection E as <-.
      destruct (place_dec (fst e) q) as [<-|Hd]; [rewrite hget_hset_same; discriminate|rewrite hget_hset_other by congruence; exact Hq]. }
    apply (K _ _ _ E), (AT x q Hq). }
  destruct (dot_sum add zero mul HM trans pa pb pa alo ahi blo bhi ma mb m2 ls) as (vs & EV & HV); auto.
  { intros x y qb q' R Hb Hq. apply (C1 y x qb q' R Hb Hq). }
  exists vs. split; [|exact HV]. unfold dot_parts. rewrite E. rewrite (zipd_parts (fun m => dot_loop add mul ma m zero)) by exact EL. exact EV.
Qed.
(** B itself. *)
Lemma direct_done {V} (add : V -> V -> V) zero mul (pa pb : list Z -> place -> Prop) lo hi (ma mb mt : heap V) ls :
  sums_freely add zero ->
  (forall x q q', pa x q -> pa x q' -> q = q') -> (forall x q q', pb x q -> pb x q' -> q = q') -> (forall y, in_box lo hi y -> exists q, pb y q) ->
  allocated pa ma -> allocated pb mb -> Forall2 Z.le lo hi ->
  marked (pairs pa pb) (in_box lo hi) (concat ls) ->
  dot_done add zero mul false pa pb lo hi lo hi ma mb mt (map no_copy ls).
Proof.
  intros HM FA FB TB AA AB LE HP es PE. rewrite plain_copies in PE. apply Permutation_nil in PE. subst es.
  destruct (dot_sum add zero mul HM false pa pb pb lo hi lo hi ma mb mb ls) as (vs & EV & HV); auto.
  { intros x y qb q' R Hb Hq. apply corresponds_self in R as ->; auto. now rewrite (FB _ _ _ Hb Hq). }
  exists vs. split; [|exact HV]. unfold dot_parts. cbn [run_elems]. rewrite (plain_parts (fun m => dot_loop add mul ma m zero)). exact EV.
Qed.

Lemma dot_checks a b alo ahi blo bhi : ga_group a = ga_group b -> ga_elemsize a = ga_elemsize b ->
  patch_of (dims (ga_desc a)) alo ahi -> patch_of (dims (ga_desc b)) blo bhi -> zprod (extents alo ahi) = zprod (extents blo bhi) ->
  negb (same_group a b) || negb (ga_elemsize a =? ga_elemsize b)
     || negb (patch_inside (dims (ga_desc a)) alo ahi) || negb (patch_inside (dims (ga_desc b)) blo bhi)
     || negb (zprod (extents alo ahi) =? zprod (extents blo bhi)) = false.
Proof.
  intros G E PA PB EZ. rewrite E, EZ, !Z.eqb_refl, !inside_true by auto.
  replace (same_group a b) with true; [reflexivity|]. unfold same_group. rewrite G. destruct (ga_group b); [symmetry; apply same_vec_true|]; reflexivity.
Qed.

(** GA_Dot_patch on map-distributed arrays of the world group. *)
Theorem C83_dot_patch_partial : forall {V} (add : V -> V -> V) zero mul guess near wn pre rnd smp (tra trb : bool) a b alo ahi blo bhi (ma mb mt : heap V),
  sums_freely add zero -> good_guess guess -> (forall me, near me me = true) -> (forall me q k, 0 <= rnd me q k) ->
  wf_array a -> wf_array b -> ga_group a = None -> ga_group b = None -> ga_nproc a = wn -> ga_nproc b = wn -> 1 <= wn ->
  ga_elemsize a = ga_elemsize b -> small_local a (reg_shape a) -> small_local b (reg_shape b) ->
  patch_of (dims (ga_desc a)) alo ahi -> patch_of (dims (ga_desc b)) blo bhi ->
  let trans := negb (Bool.eqb tra trb) in
  joins trans wn pre a alo ahi blo bhi ->
  (length (dims (ga_desc a)) = length (dims (ga_desc b)) \/ differ alo ahi blo bhi \/ trans = true) ->
  (aligned a b alo ahi blo bhi -> trans = false -> ga_width a = ga_width b) ->
  allocated (reg_place a) ma -> allocated (reg_place b) mb -> allocated (reg_place a) mt ->
  exists progs n,
    Forall2 (fun me pr => forall fuel, (n <= fuel)%nat ->
        dot_patch fuel guess (near me) wn me (pre me) (rnd me) (smp me) tra trb a b me alo ahi blo bhi = Some pr)
      (zseq 0 (Z.to_nat wn)) progs /\
    dot_done add zero mul trans (reg_place a) (reg_place b) alo ahi blo bhi ma mb mt progs.
Proof.
  intros V add zero mul guess near wn pre rnd smp tra trb a b alo ahi blo bhi ma mb mt HM HG HN HR WA WB GA GB NA NB Hw EE SA SB PA PB trans HJ RK WD AA AB AT.
  destruct (reg_funs a WA) as (FA & IA & XA). destruct (reg_funs b WB) as (FB & IB & XB).
  assert (EZ : zprod (extents blo bhi) = zprod (extents alo ahi)) by (destruct HJ as [[_ E]|[E _]]; congruence).
  pose proof (dot_checks a b alo ahi blo bhi ltac:(congruence) EE PA PB (eq_sym EZ)) as CK.
  assert (TA : is_regular a = true) by (unfold is_regular; rewrite (proj1 (proj1 WA)); reflexivity).
  assert (TB : is_regular b = true) by (unfold is_regular; rewrite (proj1 (proj1 WB)); reflexivity).
  destruct (compat_total wn a b alo ahi blo bhi WA WB NA NB) as (c & EC & _).
  assert (SB' : forall y, in_box blo bhi y -> exists q, reg_place b y q) by (intros y Hy; apply XB; eapply patch_in; eauto).
  destruct (c && negb trans) eqn:EB.
  - apply andb_prop in EB as [-> ET]. apply negb_true_iff in ET. assert (ET' := ET).
    destruct (compat_aligned wn a b alo ahi blo bhi WA WB NA NB Hw PA PB) as [LE AL]; auto.
    { destruct RK as [X|[X|X]]; auto. congruence. }
    pose proof (WD AL ET) as EWd. pose proof AL as (E1 & E2 & DD). rewrite <- E1, <- E2 in *.
    destruct (dot_local_all guess near a b alo ahi) as (ls & F & M); auto; [lia| |].
    { intros p Hp. symmetry. apply DD. lia. }
    exists (map no_copy ls), 0%nat. split.
    + rewrite NA in F. eapply Forall2_weaken; [|apply (Forall2_map_with _ no_copy _ _ F)]. intros me pr (l & -> & El) fuel _.
      unfold dot_patch. rewrite CK, TA, TB. cbn [andb]. cbv zeta. rewrite EC. fold trans. rewrite ET, El. reflexivity.
    + rewrite ET. apply direct_done; auto. apply PA.
  - destruct (joins_copyable guess near wn pre rnd smp trans a b alo ahi blo bhi) as (ess & n & FE & L); auto.
    destruct (dot_local_all guess near a a alo ahi) as (ls & F & M); auto. rewrite NA in F.
    exists (zipd ess ls), n. split.
    + eapply Forall2_weaken; [|apply (zipd_F2 _ _ _ _ _ FE F)]. cbn beta. intros me pr (e & l & -> & Ee & El) fuel Hf.
      unfold dot_patch. rewrite CK, TA, TB. cbn [andb]. cbv zeta. rewrite EC. fold trans. rewrite EB, (Ee fuel Hf), El. reflexivity.
    + apply copied_done; auto; [apply PA|apply PB|]. apply Forall2_len' in FE, F. lia.
Qed.
Print Assumptions C83_dot_patch_partial.

(** GA_Dot_patch if one of the arrays is not map-distributed. *)
Theorem C83_dot_patch_blocked_partial : forall {V} (add : V -> V -> V) zero mul guess near wn pre rnd smp a b pa pb sha shb alo ahi blo bhi (ma mb mt : heap V),
  sums_freely add zero -> good_guess guess -> (forall me, near me me = true) -> (forall me q k, 0 <= rnd me q k) ->
  walk_layout a wn pa sha -> walk_layout b wn pb shb -> ~ (distr_type (ga_desc a) = REGULAR /\ distr_type (ga_desc b) = REGULAR) ->
  ga_group a = None -> ga_group b = None -> ga_nproc a = wn -> ga_nproc b = wn ->
  ga_elemsize a = ga_elemsize b -> small_local a sha -> small_local b shb ->
  patch_of (dims (ga_desc a)) alo ahi -> patch_of (dims (ga_desc b)) blo bhi -> extents blo bhi = extents alo ahi ->
  allocated pa ma -> allocated pb mb -> allocated pa mt ->
  exists progs n,
    Forall2 (fun me pr => forall fuel, (n <= fuel)%nat ->
        dot_patch fuel guess (near me) wn me (pre me) (rnd me) (smp me) false false a b me alo ahi blo bhi = Some pr)
      (zseq 0 (Z.to_nat wn)) progs /\
    dot_done add zero mul false pa pb alo ahi blo bhi ma mb mt progs.
Proof.
  intros V add zero mul guess near wn pre rnd smp a b pa pb sha shb alo ahi blo bhi ma mb mt HM HG HN HR LA LB NR GA GB NA NB EE SA SB PA PB XE AA AB AT.
  destruct (any_storage_wn a wn pa sha (proj1 LA)) as (Sa1 & Sa2 & Sa3 & _). destruct (any_storage_wn b wn pb shb (proj1 LB)) as (Sb1 & Sb2 & Sb3 & _).
  assert (EZ : zprod (extents blo bhi) = zprod (extents alo ahi)) by congruence.
  pose proof (dot_checks a b alo ahi blo bhi ltac:(congruence) EE PA PB (eq_sym EZ)) as CK.
  assert (TR : is_regular a && is_regular b = false).
  { apply not_true_is_false. intros X. apply NR. unfold is_regular in X. apply andb_prop in X as [X1 X2].
    destruct (distr_type (ga_desc a)), (distr_type (ga_desc b)); try discriminate; auto. }
  destruct (straight_copyable guess near wn pre rnd smp false b a pb pa shb sha blo bhi alo ahi) as (ess & n & FE & L); auto; [apply LA|lia|now left|].
  destruct (dot_blocks_all guess near wn a alo ahi pa sha HG) as (ls & n' & F & M); auto.
  { intros me w E. rewrite (world_rank a me GA) in E. injection E as <-. apply HN. }
  exists (zipd ess ls), (Nat.max n n'). split.
  - rewrite <- NA. eapply Forall2_weaken; [|apply (zipd_F2 _ _ _ _ _ FE F)]. cbn beta. intros me pr (e & l & -> & Ee & El) fuel Hf.
    unfold dot_patch. rewrite CK, TR. cbn [orb]. cbv zeta. cbn [Bool.eqb negb]. rewrite NA, (Ee fuel), (El fuel) by lia. reflexivity.
  - apply copied_done; auto; [|apply PA|apply PB|].
    + intros y Hy. apply Sb1. eapply patch_in; eauto.
    + apply Forall2_len' in FE, F. lia.
Qed.
Print Assumptions C83_dot_patch_blocked_partial.

(** GA_Dot on arrays of one group that have the same distribution and no ghost cells. *)
Theorem C83_dot_same_partial : forall {V} (add : V -> V -> V) zero mul guess near wn wr pre rnd smp ha hb a b (ma mb mt : heap V),
  sums_freely add zero -> good_guess guess -> (forall me w, abs_rank a me = Some w -> near me w = true) ->
  wf_array a -> wf_array b -> wf_strict_regular (ga_nproc a) (ga_desc a) -> wf_strict_regular (ga_nproc a) (ga_desc b) ->
  no_empty_block a -> ga_group b = ga_group a -> ga_nproc b = ga_nproc a -> ga_elemsize a = ga_elemsize b ->
  compare_distr (ga_desc a) (ga_desc b) = true -> has_ghosts a = false -> has_ghosts b = false -> (ha = hb -> a = b) ->
  allocated (reg_place a) ma -> allocated (reg_place b) mb ->
  let ds := dims (ga_desc a) in let ones := repeat 1 (length ds) in
  dims (ga_desc b) = ds /\
  exists progs,
    Forall2 (fun me pr => forall fuel, ga_dot fuel guess (near me) wn (wr me) (pre me) (rnd me) (smp me) ha hb a b me = Some pr)
      (zseq 0 (Z.to_nat (ga_nproc a))) progs /\
    dot_done add zero mul false (reg_place a) (reg_place b) ones ds ones ds ma mb mt progs.
Proof.
  intros V add zero mul guess near wn wr pre rnd smp ha hb a b ma mb mt HM HG HNear WA WB SRA SRB NE GB NB EE CAB GhA GhB SAB AA AB ds ones.
  assert (DAB : dims (ga_desc a) = dims (ga_desc b)).
  { pose proof CAB as C. unfold compare_distr in C. rewrite !andb_true_iff in C. apply same_list_eq, C. }
  split; [symmetry; exact DAB|].
  assert (XAB := compare_distr_sound _ _ _ SRA SRB CAB).
  destruct (dot_same_all guess near ha hb a b) as (ls & F & M); auto.
  { intros p Hp. symmetry. apply XAB, Hp. }
  exists (map no_copy ls). split.
  - eapply Forall2_weaken; [|apply (Forall2_map_with _ no_copy _ _ F)]. intros me pr (l & -> & El) fuel. unfold ga_dot.
    assert (SG : same_group a b = true) by (unfold same_group; rewrite GB; destruct (ga_group a); [apply same_vec_true|]; reflexivity).
    assert (TR : is_regular a && is_regular b = true) by (unfold is_regular; rewrite (proj1 (proj1 WA)), (proj1 (proj1 WB)); reflexivity).
    rewrite SG, TR, CAB, GhA, GhB. cbn [negb orb]. rewrite El. reflexivity.
  - destruct (reg_funs a WA) as (FA & _). destruct (reg_funs b WB) as (FB & _ & XB).
    pose proof (whole_patch a 0 _ _ (or_introl (conj WA (conj eq_refl eq_refl)))) as PA. fold ds ones in PA.
    apply direct_done; auto; [|apply PA|].
    + intros y Hy. apply XB. rewrite <- DAB. apply whole_box, Hy.
    + eapply marked_ext; [|exact M]. intros x. symmetry. apply whole_box.
Qed.
Print Assumptions C83_dot_same_partial.

(** GA_Dot on arrays of the world group, map-distributed. *)
Theorem C83_dot_partial : forall {V} (add : V -> V -> V) zero mul guess near wn pre rnd smp ha hb a b (ma mb mt : heap V),
  sums_freely add zero -> good_guess guess -> (forall me, near me me = true) -> (forall me q k, 0 <= rnd me q k) ->
  wf_array a -> wf_array b -> wf_strict_regular wn (ga_desc a) -> wf_strict_regular wn (ga_desc b) ->
  no_empty_block a -> ga_group a = None -> ga_group b = None -> ga_nproc a = wn -> ga_nproc b = wn -> 1 <= wn -> ga_elemsize a = ga_elemsize b ->
  small_local a (reg_shape a) -> small_local b (reg_shape b) -> (ha = hb -> a = b) ->
  let da := dims (ga_desc a) in let db := dims (ga_desc b) in let oa := repeat 1 (length da) in let ob := repeat 1 (length db) in
  joins false wn pre a oa da ob db -> (length da = length db \/ differ oa da ob db) ->
  (aligned a b oa da ob db -> ga_width a = ga_width b) ->
  allocated (reg_place a) ma -> allocated (reg_place b) mb -> allocated (reg_place a) mt ->
  exists progs n,
    Forall2 (fun me pr => forall fuel, (n <= fuel)%nat -> ga_dot fuel guess (near me) wn me (pre me) (rnd me) (smp me) ha hb a b me = Some pr)
      (zseq 0 (Z.to_nat wn)) progs /\
    dot_done add zero mul false (reg_place a) (reg_place b) oa da ob db ma mb mt progs.
Proof.
  intros V add zero mul guess near wn pre rnd smp ha hb a b ma mb mt HM HG HN HR WA WB SRA SRB NE GA GB NA NB Hw EE SA SB SAB da db oa ob HJ RK WD AA AB AT.
  assert (SG : same_group a b = true) by (unfold same_group; rewrite GA, GB; reflexivity).
  destruct (negb (is_regular a && is_regular b) || negb (compare_distr (ga_desc a) (ga_desc b)) || has_ghosts a || has_ghosts b) eqn:X.
  - pose proof (whole_patch a wn _ _ (or_introl (conj WA (conj eq_refl eq_refl)))) as PA.
    pose proof (whole_patch b wn _ _ (or_introl (conj WB (conj eq_refl eq_refl)))) as PB.
    destruct (C83_dot_patch_partial add zero mul guess near wn pre rnd smp false false a b oa da ob db ma mb mt) as (progs & n & F & D); auto.
    { destruct RK; auto. }
    exists progs, n. split; [|exact D]. eapply Forall2_weaken; [|exact F]. cbn beta. intros me pr E fuel Hf.
    unfold ga_dot. rewrite SG, X. cbn [negb]. apply E, Hf.
  - rewrite !orb_false_iff, !negb_false_iff in X. destruct X as (((X1 & X2) & X3) & X4).
    destruct (C83_dot_same_partial add zero mul guess near wn (fun me => me) pre rnd smp ha hb a b ma mb mt) as (ED & progs & F & D); auto; try congruence.
    { intros me w E. rewrite (world_rank a me GA) in E. injection E as <-. apply HN. }
    exists progs, 0%nat. rewrite NA in F. split; [eapply Forall2_weaken; [|exact F]; auto|]. unfold ob, db. rewrite ED. exact D.
Qed.
Print Assumptions C83_dot_partial.

(** GA_Dot if one of the arrays is not map-distributed. *)
Theorem C83_dot_blocked_partial : forall {V} (add : V -> V -> V) zero mul guess near wn pre rnd smp ha hb a b pa pb sha shb (ma mb mt : heap V),
  sums_freely add zero -> good_guess guess -> (forall me, near me me = true) -> (forall me q k, 0 <= rnd me q k) ->
  walk_layout a wn pa sha -> walk_layout b wn pb shb -> ~ (distr_type (ga_desc a) = REGULAR /\ distr_type (ga_desc b) = REGULAR) ->
  ga_group a = None -> ga_group b = None -> ga_nproc a = wn -> ga_nproc b = wn ->
  ga_elemsize a = ga_elemsize b -> small_local a sha -> small_local b shb -> dims (ga_desc b) = dims (ga_desc a) ->
  allocated pa ma -> allocated pb mb -> allocated pa mt ->
  let ds := dims (ga_desc a) in let ones := repeat 1 (length ds) in
  exists progs n,
    Forall2 (fun me pr => forall fuel, (n <= fuel)%nat -> ga_dot fuel guess (near me) wn me (pre me) (rnd me) (smp me) ha hb a b me = Some pr)
      (zseq 0 (Z.to_nat wn)) progs /\
    dot_done add zero mul false pa pb ones ds ones ds ma mb mt progs.
Proof.
  intros V add zero mul guess near wn pre rnd smp ha hb a b pa pb sha shb ma mb mt HM HG HN HR LA LB NR GA GB NA NB EE SA SB DD AA AB AT ds ones.
  pose proof (whole_patch a wn _ _ (proj1 LA)) as PA. pose proof (whole_patch b wn _ _ (proj1 LB)) as PB. rewrite DD in PB. fold ds ones in PA, PB.
  destruct (C83_dot_patch_blocked_partial add zero mul guess near wn pre rnd smp a b pa pb sha shb ones ds ones ds ma mb mt) as (progs & n & F & D); auto.
  { rewrite DD. exact PB. }
  exists progs, n. split; [|exact D]. eapply Forall2_weaken; [|exact F]. cbn beta. intros me pr E fuel Hf.
  assert (SG : same_group a b = true) by (unfold same_group; rewrite GA, GB; reflexivity).
  assert (TR : is_regular a && is_regular b = false).
  { apply not_true_is_false. intros X. apply NR. unfold is_regular in X. apply andb_prop in X as [X1 X2].
    destruct (distr_type (ga_desc a)), (distr_type (ga_desc b)); try discriminate; auto. }
  unfold ga_dot. rewrite SG, TR, DD. cbn [negb orb]. apply E, Hf.
Qed.
Print Assumptions C83_dot_blocked_partial.

(** ** Examples *)
(** Rows 1..3, columns 1..2 of A (4x3 in rows) against rows 3..5, columns 2..3 of
    B (5x3 in columns), on two processes. *)
Definition ex_run (progs : list (option dotp)) (ma mb mt : heap Z) : option (list Z) :=
  do ps <- mapM (fun r => r) progs; dot_parts Z.add 0 Z.mul ma mb mt ps (dot_copies ps).
Lemma Z_sums : sums_freely Z.add 0.
Proof. split; [exact Z.add_assoc|]. split; [exact Z.add_comm|exact Z.add_0_l]. Qed.
Definition ex_two (a : garray) (u v : list Z) : heap Z := fun p o =>
  if (0 <=? o) && (o <? 30) then
    match ex_at a u, ex_at a v with
    | Some q, Some q' => Some (if (p =? fst q) && (o =? snd q) then 7 else if (p =? fst q') && (o =? snd q') then 100 else 0)
    | _, _ => Some 0
    end
  else None.
(** Elements (1,1), (3,2) of A are 7, 100; (3,2), (5,3) of B as well: 49 + 10000,
    one product by each process. *)
Example C83_ex_patch :
  wf_array ex_A /\ wf_array ex_B /\ patch_of [4; 3] [1; 1] [3; 2] /\ patch_of [5; 3] [3; 2] [5; 3] /\
  joins false 2 (fun _ => None) ex_A [1; 1] [3; 2] [3; 2] [5; 3] /\ differ [1; 1] [3; 2] [3; 2] [5; 3] /\ ~ aligned ex_A ex_B [1; 1] [3; 2] [3; 2] [5; 3] /\
  ex_run (map (fun me => dot_patch 9 ex_guess (fun w => w =? me) 2 me None (fun _ i => i) (fun _ => true) false false ex_A ex_B me [1; 1] [3; 2] [3; 2] [5; 3]) [0; 1])
    (ex_two ex_A [1; 1] [3; 2]) (ex_two ex_B [3; 2] [5; 3]) (ex_two ex_A [] []) = Some [49; 10000].
Proof.
  split; [exact ex_A_wf|]. split; [exact ex_B_wf|]. split; [repeat constructor; cbn; lia|]. split; [repeat constructor; cbn; lia|].
  split; [left; split; reflexivity|]. split; [exists 0%nat; cbn; repeat split; auto; lia|]. split; [intros (X & _); discriminate|]. vm_compute. reflexivity.
Qed.
(** A 2x3 patch of A against a 3x2 patch of B, transposed: (1,2) of A meets
    (4,2) of B, (2,3) of A meets (5,3). *)
Example C83_ex_trans :
  patch_of [4; 3] [1; 1] [2; 3] /\ patch_of [5; 3] [3; 2] [5; 3] /\ corresponds true [3; 2] [5; 3] [1; 1] [2; 3] [4; 2] [1; 2] /\
  joins true 2 (fun _ => None) ex_A [1; 1] [2; 3] [3; 2] [5; 3] /\
  ex_run (map (fun me => dot_patch 9 ex_guess (fun w => w =? me) 2 me None (fun _ i => i) (fun _ => true) true false ex_A ex_B me [1; 1] [2; 3] [3; 2] [5; 3]) [0; 1])
    (ex_two ex_A [1; 2] [2; 3]) (ex_two ex_B [4; 2] [5; 3]) (ex_two ex_A [] []) = Some [10049; 0].
Proof.
  split; [repeat constructor; cbn; lia|]. split; [repeat constructor; cbn; lia|]. split; [split; [cbn; lia|]; split; [cbn; lia|reflexivity]|].
  split; [|vm_compute; reflexivity]. right. split; [reflexivity|]. intros me Hme. cbn. first [lia|left; lia|right; lia|auto].
Qed.
(** A block-cyclic array against a map-distributed one, 9 elements on two
    processes. *)
Example C83_ex_blocked :
  let a := ex_bc1 9 2 None in let b := ex_arr [9] [2] [1; 6] [0] None 2 in
  walk_layout a 2 (block_place a) (block_shape a) /\ dims (ga_desc b) = dims (ga_desc a) /\
  (do h <- gat_home ex_guess 2 a [7]; do q <- gat_ptr ex_guess 2 a h [7];
   do vs <- ex_run (map (fun me => ga_dot 9 ex_guess (fun w => w =? me) 2 me None (fun _ i => i) (fun _ => true) 0 1 a b me) [0; 1])
    (hset (fun p o => if (0 <=? o) && (o <? 9) then Some 0 else None) q 5) (ex_two b [7] [1]) (fun p o => if (0 <=? o) && (o <? 9) then Some 0 else None);
   Some (q, vs)) = Some ((1, 2), [0; 35]).
Proof.
  cbv zeta. split; [|split; [reflexivity|vm_compute; reflexivity]]. split; [right|discriminate].
  split; [reflexivity|]. left. split; [reflexivity|]. split; [apply ex_bc1_wf; lia|]. split; [reflexivity|].
  split; [vm_compute; split; discriminate|auto].
Qed.
(** Identical distributions on the group [5; 2; 7; 0]. *)
Example C83_ex_same :
  wf_array ex_same /\ has_ghosts ex_same = false /\ compare_distr (ga_desc ex_same) (ga_desc ex_same) = true /\
  ex_run (map (fun me => ga_dot 0 ex_guess (fun w => w =? nth (Z.to_nat me) [5; 2; 7; 0] 0) 8 (nth (Z.to_nat me) [5; 2; 7; 0] 0) None (fun _ i => i) (fun _ => true)
                       0 1 ex_same ex_same me) [0; 1; 2; 3]) (ex_two ex_same [7; 2] [1; 1]) (ex_two ex_same [7; 2] [1; 2]) (fun _ _ => None) = Some [0; 49; 0; 0].
Proof. split; [exact ex_same_wf|]. split; [reflexivity|]. split; [reflexivity|]. vm_compute. reflexivity. Qed.

(** ** Where it fails *)
(** B has ghost cells, A does not, and the blocks are the same: the leading
    dimension of A is used for both, ghost cells of B take part and the value
    is wrong. *)
Theorem C83_ghost_refuted : exists a b (ma mb : heap Z) v,
  wf_array a /\ wf_array b /\ ga_nproc a = 1 /\ aligned a b [1; 1] [2; 2] [1; 1] [2; 2] /\
  allocated (reg_place a) ma /\ allocated (reg_place b) mb /\
  (forall fuel pre rnd smp, exists pr,
     ga_dot fuel ex_guess (fun _ => true) 1 0 pre rnd smp 0 1 a b 0 = Some pr /\ dot_copies [pr] = [] /\
     forall mt, dot_parts Z.add 0 Z.mul ma mb mt [pr] [] = Some [v]) /\
  ~ dot_value Z.add 0 Z.mul false (reg_place a) (reg_place b) [1; 1] [2; 2] [1; 1] [2; 2] ma mb v.
Proof.
  set (a := ex_arr [2; 2] [1; 1] [1; 1] [0; 0] None 1). set (b := ex_arr [2; 2] [1; 1] [1; 1] [1; 1] None 1).
  assert (WA : wf_array a).
  { solve_arr. cbn [valid_maps a ex_arr ga_desc dims nblock mapc]. change (skipn (Z.to_nat 1) [1; 1]) with [1]. split; [solve_map|]. split; [solve_map|exact I]. }
  assert (WB : wf_array b).
  { solve_arr. cbn [valid_maps b ex_arr ga_desc dims nblock mapc]. change (skipn (Z.to_nat 1) [1; 1]) with [1]. split; [solve_map|]. split; [solve_map|exact I]. }
  exists a, b, (fun p o => if (p =? 0) && (0 <=? o) && (o <? 4) then Some 1 else None),
    (fun p o => if (p =? 0) && (0 <=? o) && (o <? 16) then Some (if (o =? 5) || (o =? 6) || (o =? 9) || (o =? 10) then 1 else 0) else None), 2.
  assert (ALL : forall d n (f : Z -> Z), wf_array d -> alloc_elems 1 0 0 d = Some n -> ga_nproc d = 1 -> ga_group d = None ->
     allocated (reg_place d) (fun p o => if (p =? 0) && (0 <=? o) && (o <? n) then Some (f o) else None)).
  { intros d n f WD EN NP GP x [w o] Hx. destruct (regular_storage d 1 WD) as (_ & _ & _ & S4).
    destruct (S4 x (w, o) Hx) as (r & m & R1 & R2 & R3 & R4). cbn [fst snd] in *. assert (r = 0) as -> by lia.
    unfold abs_rank in R2. rewrite GP in R2. injection R2 as <-. rewrite EN in R3. injection R3 as <-.
    unfold hget. cbn [fst snd]. destruct (Z.leb_spec 0 o), (Z.ltb_spec o n); try lia. discriminate. }
  split; [exact WA|]. split; [exact WB|]. split; [reflexivity|].
  split. { split; [reflexivity|]. split; [reflexivity|]. intros p Hp. cbn in Hp. assert (p = 0) as -> by lia. reflexivity. }
  split; [apply (ALL a 4 (fun _ => 1) WA); reflexivity|].
  split; [apply (ALL b 16 (fun o => if (o =? 5) || (o =? 6) || (o =? 9) || (o =? 10) then 1 else 0) WB); reflexivity|].
  split. { intros. eexists. split; [vm_compute; reflexivity|]. split; [reflexivity|]. intros. vm_compute. reflexivity. }
  intros HV. destruct (HV [[1; 1]; [2; 1]; [1; 2]; [2; 2]]) as (ts & F & E).
  { repeat constructor; cbn; intuition discriminate. }
  { intros x. split.
    - intros [<-|[<-|[<-|[<-|[]]]]]; cbn; lia.
    - intros Hx. destruct x as [|i [|j [|k x]]]; cbn in Hx; try tauto.
      assert (i = 1 \/ i = 2) as [-> | ->] by lia; assert (j = 1 \/ j = 2) as [-> | ->] by lia; cbn; auto. }
  assert (ONE : forall x t, in_box [1; 1] [2; 2] x -> product_at Z.mul false (reg_place a) (reg_place b) [1; 1] [2; 2] [1; 1] [2; 2]
     (fun p o => if (p =? 0) && (0 <=? o) && (o <? 4) then Some 1 else None)
     (fun p o => if (p =? 0) && (0 <=? o) && (o <? 16) then Some (if (o =? 5) || (o =? 6) || (o =? 9) || (o =? 10) then 1 else 0) else None) x t -> t = 1).
  { intros x t Hx (y & qa & qb & va & vb & R & Pa & Pb & Ea & Eb & ->).
    apply corresponds_self in R as ->; [|repeat constructor; lia].
    unfold hget in Ea. destruct ((fst qa =? 0) && (0 <=? snd qa) && (snd qa <? 4)); [|discriminate]. injection Ea as <-.
    assert (Q : qb = (0, lin [4; 4] (vsub x [0; 0]))).
    { destruct (reg_funs b WB) as (FB & _). apply (FB x); [exact Pb|]. destruct x as [|i [|j [|k x]]]; cbn in Hx; try tauto.
      exists 0, [1; 1], [2; 2]. split; [cbn; lia|]. split; [reflexivity|]. split; [cbn; lia|]. split; [reflexivity|].
      assert (i = 1 \/ i = 2) as [-> | ->] by lia; assert (j = 1 \/ j = 2) as [-> | ->] by lia; reflexivity. }
    rewrite Q in Eb. destruct x as [|i [|j [|k x]]]; cbn in Hx; try tauto.
    assert (i = 1 \/ i = 2) as [-> | ->] by lia; assert (j = 1 \/ j = 2) as [-> | ->] by lia; vm_compute in Eb; injection Eb as <-; reflexivity. }
  inversion F as [|x1 t1 l1 k1 P1 F1]; subst. inversion F1 as [|x2 t2 l2 k2 P2 F2]; subst. inversion F2 as [|x3 t3 l3 k3 P3 F3]; subst.
  inversion F3 as [|x4 t4 l4 k4 P4 F4]; subst. inversion F4; subst.
  apply ONE in P1, P2, P3, P4; try (cbn; lia). subst. cbn in E. lia.
Qed.
Print Assumptions C83_ghost_refuted.

(** B has a third dimension of extent 1: the patches count as equal and the
    third subscript of the block of B is never set. *)
Theorem C83_rank_refuted : exists a b, wf_array a /\ wf_array b /\ ga_group a = None /\ ga_group b = None /\ ga_nproc a = 1 /\
  ga_width a = [0; 0] /\ ga_width b = [0; 0; 0] /\ patch_of (dims (ga_desc a)) [1; 1] [2; 2] /\ patch_of (dims (ga_desc b)) [1; 1; 1] [2; 2; 1] /\
  zprod (extents [1; 1; 1] [2; 2; 1]) = zprod (extents [1; 1] [2; 2]) /\
  forall fuel near pre rnd smp, dot_patch fuel ex_guess near 1 0 pre rnd smp false false a b 0 [1; 1] [2; 2] [1; 1; 1] [2; 2; 1] = None.
Proof.
  exists (ex_arr [2; 2] [1; 1] [1; 1] [0; 0] None 1), (ex_arr [2; 2; 1] [1; 1; 1] [1; 1; 1] [0; 0; 0] None 1).
  split. { solve_arr. cbn [valid_maps ex_arr ga_desc dims nblock mapc]. change (skipn (Z.to_nat 1) [1; 1]) with [1]. split; [solve_map|]. split; [solve_map|exact I]. }
  split. { solve_arr. cbn [valid_maps ex_arr ga_desc dims nblock mapc]. change (skipn (Z.to_nat 1) [1; 1; 1]) with [1; 1].
    change (skipn (Z.to_nat 1) [1; 1]) with [1]. split; [solve_map|]. split; [solve_map|]. split; [solve_map|exact I]. }
  do 5 (split; [reflexivity|]). split; [repeat constructor; cbn; lia|]. split; [repeat constructor; cbn; lia|]. split; [reflexivity|].
  intros fuel near pre rnd smp. vm_compute. destruct (near 0); reflexivity.
Qed.
Print Assumptions C83_rank_refuted.

(** Arrays on a group that does not have all processes: the synchronisation with
    all processes never ends if only the group calls. *)
Theorem C83_group_refuted : exists a wn, wf_array a /\
  ~ syncs_end (group_list a) (fun p => if existsb (Z.eqb p) (group_list a) then dot_syncs wn a a else []).
Proof.
  exists ex_ga, 8. split; [exact ex_ga_wf|].
  apply (stuck_syncs _ _ 5 (counts 8) [counts 8; group_list ex_ga]).
  - left. reflexivity.
  - reflexivity.
  - exists 1. split; [vm_compute; tauto|reflexivity].
Qed.
Print Assumptions C83_group_refuted.
