(** Property theorems: GA_Add and GA_Add_patch (C82). *)
From Verif Require Import LRadix LDist2 LXfer2 LGcopy LGcopy2 LGcopy4 LGcopy5 LGat LCpatch4 LAdd4 PDist PIter PIterBlk PXfer PLoc PGat PGcopy PCpatch.
Open Scope Z_scope.

(** The patch of an operand can be copied to the patch of C: by put if the shapes
    are equal, else by scatter. *)
Definition fits wn (pre : Z -> option Z) (c : garray) (alo ahi clo chi : list Z) : Prop :=
  extents alo ahi = extents clo chi \/
  (zprod (extents alo ahi) = zprod (extents clo chi) /\ forall me, 0 <= me < wn -> gat_caller wn me (pre me) c (zprod (extents alo ahi))).

Lemma straight_copyable guess near wn pre rnd smp same a c pa pc sa sc alo ahi clo chi :
  good_guess guess -> (forall me q k, 0 <= rnd me q k) -> (forall me, near me me = true) -> ga_group a = None ->
  walk_layout a wn pa sa -> any_layout c wn pc sc -> small_local a sa -> small_local c sc ->
  ga_elemsize a = ga_elemsize c -> ga_nproc a = ga_nproc c ->
  patch_of (dims (ga_desc a)) alo ahi -> patch_of (dims (ga_desc c)) clo chi -> extents alo ahi = extents clo chi ->
  passes same alo ahi clo chi -> copyable guess near wn pre rnd smp same a c pa pc alo ahi clo chi.
Proof.
  intros HG HR HN GA LA LC SA SC EE NE PA PC SE HS.
  destruct (straight_put_spec guess near wn (fun me => me) pre rnd smp true same a c pa pc sa sc alo ahi clo chi HG HR LA LC SA SC EE ltac:(lia)) with (meb := fun me : Z => me)
    as (ess & n & F & L); auto.
  { intros me w E. rewrite (world_rank a me GA) in E. injection E as <-. apply HN. }
  exists ess, n. rewrite <- NE. split; [exact F|exact L].
Qed.
Lemma regular_copyable guess near wn pre rnd smp same a c alo ahi clo chi :
  good_guess guess -> (forall me q k, 0 <= rnd me q k) -> (forall me, near me me = true) -> ga_group a = None -> ga_group c = None ->
  wf_array a -> wf_array c -> small_local a (reg_shape a) -> small_local c (reg_shape c) ->
  ga_elemsize a = ga_elemsize c -> ga_nproc a = wn -> ga_nproc c = wn ->
  patch_of (dims (ga_desc a)) alo ahi -> patch_of (dims (ga_desc c)) clo chi -> fits wn pre c alo ahi clo chi ->
  passes same alo ahi clo chi -> copyable guess near wn pre rnd smp same a c (reg_place a) (reg_place c) alo ahi clo chi.
Proof.
  intros HG HR HN GA GC WA WC SA SC EE NA NC PA PC [SE|[EZ HC]] HS.
  { eapply straight_copyable; eauto; [apply ex_reg_walk, WA|left; auto|lia]. }
  destruct (list_eq_dec Z.eq_dec (extents alo ahi) (extents clo chi)) as [SE|SE].
  { eapply straight_copyable; eauto; [apply ex_reg_walk, WA|left; auto|lia]. }
  destruct (reshape_put_spec guess near wn (fun me => me) pre rnd smp false same a c (reg_place a) (reg_place c) (reg_shape a) alo ahi clo chi HG
     (ex_reg_walk a wn WA) (proj1 (proj1 WA)) (proj1 (proj1 WC)) EE ltac:(lia)) with (meb := fun me : Z => me) as (ess & F & L); auto.
  { intros me w E. rewrite (world_rank a me GA) in E. injection E as <-. auto. }
  { intros me w ys Hm EW HY HL. rewrite (world_rank a me GA) in EW. injection EW as <-. eapply scatter_ready; eauto. apply HC. lia. }
  exists ess, 0%nat. rewrite NC. rewrite NA in F. split; [eapply Forall2_weaken; [|exact F]; auto|exact L].
Qed.

(** GA_Add_patch on map-distributed arrays of the world group. *)
Theorem C82_add_patch_partial : forall {V} (sa : V -> V) (acc : V -> V -> V) guess near wn pre rnda rndb smp ta tb ha hb hc a b c
    alo ahi blo bhi clo chi (st : store V),
  good_guess guess -> (forall me, near me me = true) -> (forall me q k, 0 <= rnda me q k) -> (forall me q k, 0 <= rndb me q k) ->
  wf_array a -> wf_array b -> wf_array c -> ga_group a = None -> ga_group b = None -> ga_group c = None ->
  ga_nproc a = wn -> ga_nproc b = wn -> ga_nproc c = wn -> 1 <= wn ->
  ga_elemsize a = ga_elemsize b -> ga_elemsize a = ga_elemsize c ->
  small_local a (reg_shape a) -> small_local b (reg_shape b) -> small_local c (reg_shape c) ->
  patch_of (dims (ga_desc a)) alo ahi -> patch_of (dims (ga_desc b)) blo bhi -> patch_of (dims (ga_desc c)) clo chi ->
  fits wn pre c alo ahi clo chi -> fits wn pre c blo bhi clo chi ->
  (length (dims (ga_desc a)) = length (dims (ga_desc c)) \/ differ alo ahi clo chi) ->
  (length (dims (ga_desc b)) = length (dims (ga_desc c)) \/ differ blo bhi clo chi) ->
  (aligned a c alo ahi clo chi -> ga_width a = ga_width c) -> (aligned b c blo bhi clo chi -> ga_width b = ga_width c) ->
  ta <> tb -> ta <> ha /\ ta <> hb /\ ta <> hc -> tb <> ha /\ tb <> hb /\ tb <> hc ->
  (ha = hc -> a = c /\ ((alo = clo /\ ahi = chi) \/ forall x, in_box alo ahi x -> in_box clo chi x -> False)) ->
  (hb = hc -> b = c) ->
  allocated (reg_place a) (st ha) -> allocated (reg_place b) (st hb) -> allocated (reg_place c) (st hc) ->
  allocated (reg_place c) (st ta) -> allocated (reg_place c) (st tb) ->
  exists progs k n,
    Forall2 (fun me pr => length pr = k /\ forall fuel, (n <= fuel)%nat ->
        add_patch fuel guess (near me) wn me (pre me) (rnda me) (rndb me) (smp me) ta tb ha hb hc a b c me me me alo ahi blo bhi clo chi = Some pr)
      (zseq 0 (Z.to_nat wn)) progs /\
    all_runs (gstep sa acc) st (phases_of k progs) (fun st' =>
      added sa acc (reg_place a) (reg_place b) (reg_place c) alo ahi blo bhi clo chi (st ha) (st hb) (st hc) (st' hc) /\
      forall k, k <> hc -> k <> ta -> k <> tb -> st' k = st k).
Proof.
  intros V sa acc guess near wn pre rnda rndb smp ta tb ha hb hc a b c alo ahi blo bhi clo chi st HG HN HRa HRb WA WB WC GA GB GC NA NB NC Hw EAB EAC
    SA SB SC PA PB PC FA FB RA RB WDA WDB T1 T2 T3 HAC HBC AA AB AC ATa ATb.
  assert (ZA : zprod (extents alo ahi) = zprod (extents clo chi)) by (destruct FA as [E|[E _]]; congruence).
  assert (ZB : zprod (extents blo bhi) = zprod (extents clo chi)) by (destruct FB as [E|[E _]]; congruence).
  apply (add_regular sa acc guess near wn pre rnda rndb smp ta tb ha hb hc a b c alo ahi blo bhi clo chi); auto.
  - intros E. apply HAC, E.
  - intros E. apply HAC, E.
  - apply regular_copyable; auto. now left.
  - intros E HD. apply regular_copyable; auto. right. split; [|exact HD]. destruct (HAC E) as [-> _].
    destruct (patch_lens _ _ _ PA) as [A1 A2]. destruct (patch_lens _ _ _ PC) as [C1 C2]. lia.
  - apply regular_copyable; auto; [congruence|now left].
Qed.
Print Assumptions C82_add_patch_partial.

(** GA_Add_patch if one of the arrays is not map-distributed. *)
Theorem C82_add_patch_blocked_partial : forall {V} (sa : V -> V) (acc : V -> V -> V) guess near wn pre rnda rndb smp ta tb ha hb hc a b c
    pa pb pc sha shb shc alo ahi blo bhi clo chi (st : store V),
  good_guess guess -> (forall me, near me me = true) -> (forall me q k, 0 <= rnda me q k) -> (forall me q k, 0 <= rndb me q k) ->
  walk_layout a wn pa sha -> walk_layout b wn pb shb -> walk_layout c wn pc shc ->
  ~ (distr_type (ga_desc a) = REGULAR /\ distr_type (ga_desc b) = REGULAR /\ distr_type (ga_desc c) = REGULAR) ->
  ga_group a = None -> ga_group b = None -> ga_group c = None ->
  ga_nproc a = wn -> ga_nproc b = wn -> ga_nproc c = wn -> 1 <= wn ->
  ga_elemsize a = ga_elemsize b -> ga_elemsize a = ga_elemsize c ->
  small_local a sha -> small_local b shb -> small_local c shc ->
  patch_of (dims (ga_desc a)) alo ahi -> patch_of (dims (ga_desc b)) blo bhi -> patch_of (dims (ga_desc c)) clo chi ->
  extents alo ahi = extents clo chi -> extents blo bhi = extents clo chi ->
  ta <> tb -> ta <> ha /\ ta <> hb /\ ta <> hc -> tb <> ha /\ tb <> hb /\ tb <> hc ->
  allocated pa (st ha) -> allocated pb (st hb) -> allocated pc (st hc) -> allocated pc (st ta) -> allocated pc (st tb) ->
  exists progs k n,
    Forall2 (fun me pr => length pr = k /\ forall fuel, (n <= fuel)%nat ->
        add_patch fuel guess (near me) wn me (pre me) (rnda me) (rndb me) (smp me) ta tb ha hb hc a b c me me me alo ahi blo bhi clo chi = Some pr)
      (zseq 0 (Z.to_nat wn)) progs /\
    all_runs (gstep sa acc) st (phases_of k progs) (fun st' =>
      added sa acc pa pb pc alo ahi blo bhi clo chi (st ha) (st hb) (st hc) (st' hc) /\
      forall k, k <> hc -> k <> ta -> k <> tb -> st' k = st k).
Proof.
  intros V sa acc guess near wn pre rnda rndb smp ta tb ha hb hc a b c pa pb pc sha shb shc alo ahi blo bhi clo chi st HG HN HRa HRb LA LB LC NR GA GB GC
    NA NB NC Hw EAB EAC SA SB SC PA PB PC XA XB T1 T2 T3 AA AB AC ATa ATb.
  apply (add_blocked sa acc guess near wn pre rnda rndb smp ta tb ha hb hc a b c alo ahi blo bhi clo chi)
    with (sha := sha) (shb := shb) (shc := shc); auto; try congruence; try apply LA; try apply LB.
  - apply not_true_is_false. intros X. apply NR. unfold is_regular in X. apply andb_prop in X as [X X3]. apply andb_prop in X as [X1 X2].
    destruct (distr_type (ga_desc a)), (distr_type (ga_desc b)), (distr_type (ga_desc c)); try discriminate; auto.
  - eapply straight_copyable; eauto; [apply LC|lia|now left].
  - eapply straight_copyable; eauto; [apply LC|congruence|lia|now left].
Qed.
Print Assumptions C82_add_patch_blocked_partial.

(** GA_Add on arrays of one group that have the same distribution and no ghost cells. *)
Theorem C82_add_same_partial : forall {V} (sa : V -> V) (acc : V -> V -> V) guess near wn wr pre rnda rndb smp ta tb ha hb hc a b c (st : store V),
  good_guess guess -> (forall me w, abs_rank c me = Some w -> near me w = true) ->
  wf_array a -> wf_array b -> wf_array c ->
  wf_strict_regular (ga_nproc c) (ga_desc a) -> wf_strict_regular (ga_nproc c) (ga_desc b) -> wf_strict_regular (ga_nproc c) (ga_desc c) ->
  no_empty_block c -> ga_group a = ga_group c -> ga_group b = ga_group c -> ga_nproc a = ga_nproc c -> ga_nproc b = ga_nproc c ->
  ga_elemsize a = ga_elemsize c -> ga_elemsize b = ga_elemsize c ->
  compare_distr (ga_desc a) (ga_desc b) = true -> compare_distr (ga_desc a) (ga_desc c) = true ->
  has_ghosts a = false -> has_ghosts b = false -> has_ghosts c = false ->
  (ha = hc -> a = c) -> (hb = hc -> b = c) -> ~ (ha = hc /\ hb = hc) ->
  allocated (reg_place a) (st ha) -> allocated (reg_place b) (st hb) -> allocated (reg_place c) (st hc) ->
  let ds := dims (ga_desc c) in let ones := repeat 1 (length ds) in
  dims (ga_desc a) = ds /\ dims (ga_desc b) = ds /\
  exists progs,
    Forall2 (fun me pr => length pr = 1%nat /\ forall fuel,
        ga_add fuel guess (near me) wn (wr me) (pre me) (rnda me) (rndb me) (smp me) ta tb ha hb hc a b c me = Some pr)
      (zseq 0 (Z.to_nat (ga_nproc c))) progs /\
    all_runs (gstep sa acc) st (phases_of 1 progs) (fun st' =>
      added sa acc (reg_place a) (reg_place b) (reg_place c) ones ds ones ds ones ds (st ha) (st hb) (st hc) (st' hc) /\
      forall k, k <> hc -> st' k = st k).
Proof.
  intros V sa acc guess near wn wr pre rnda rndb smp ta tb ha hb hc a b c st HG HNear WA WB WC SRA SRB SRC NE GA GB NA NB EA EB CAB CAC GhA GhB GhC
    SAC SBC NS AA AB AC ds ones.
  assert (DAB : dims (ga_desc a) = dims (ga_desc b)).
  { unfold compare_distr in CAB. rewrite !andb_true_iff in CAB. apply same_list_eq, CAB. }
  assert (DAC : dims (ga_desc a) = dims (ga_desc c)).
  { unfold compare_distr in CAC. rewrite !andb_true_iff in CAC. apply same_list_eq, CAC. }
  split; [exact DAC|]. split; [rewrite <- DAB; exact DAC|].
  assert (XAC := compare_distr_sound _ _ _ SRA SRC CAC). assert (XAB := compare_distr_sound _ _ _ SRA SRB CAB).
  destruct (add_same_all sa acc guess near ha hb hc a b c) as (ls & E & M); auto.
  { intros p Hp. rewrite <- XAB by exact Hp. apply XAC, Hp. }
  assert (TR : is_regular a && is_regular b && is_regular c = true).
  { unfold is_regular. rewrite (proj1 (proj1 WA)), (proj1 (proj1 WB)), (proj1 (proj1 WC)). reflexivity. }
  assert (SG : forall x y, ga_group x = ga_group y -> same_group x y = true).
  { intros x y Exy. unfold same_group. rewrite Exy. destruct (ga_group y); [apply same_vec_true|]; reflexivity. }
  exists (map (fun x => [x]) ls). split.
  - eapply Forall2_weaken; [|apply one_Forall2; exact E]. intros me pr (l & -> & El). split; [reflexivity|]. intros fuel. unfold ga_add.
    rewrite (SG a b), (SG b c), CAB, CAC, GhA, GhB, GhC, TR by congruence. cbn [negb orb]. rewrite El. reflexivity.
  - rewrite phases_one. destruct (reg_funs a WA) as (FA & _). destruct (reg_funs b WB) as (FB & _). destruct (reg_funs c WC) as (FC & IC & _).
    pose proof (whole_patch c 0 _ _ (or_introl (conj WC (conj eq_refl eq_refl)))) as PC. fold ds ones in PC. pose proof (proj2 (proj2 PC)) as LEC.
    eapply all_runs_imp; [|apply (finish_sums sa acc (fun u v => acc (sa u) v) (fun v => v) ha hb hc hc hc (reg_place a) (reg_place b) (reg_place c)
        (reg_place a) (reg_place b) (st ha) (st hb) (st hc) st ones ds ones ds ones ds)]; auto.
    + intros st' [H1 H2]. split; [exact H1|auto].
    + intros Eh. now rewrite (SAC Eh).
    + intros Eh. now rewrite (SBC Eh).
    + eapply marked_ext; [|exact M]. intros x. symmetry. apply whole_box.
    + intros x y qa qc R Ha Hc. apply corresponds_self in R as ->; auto. exists qa. pose proof (AA x qa Ha). destruct (hget (st ha) qa) as [v|]; [eauto|congruence].
    + intros x y qb qc R Hb Hc. apply corresponds_self in R as ->; auto. exists qb. pose proof (AB x qb Hb). destruct (hget (st hb) qb) as [v|]; [eauto|congruence].
Qed.
Print Assumptions C82_add_same_partial.

Lemma ga_add_slow fuel guess near wn w pre rnda rndb smp ta tb ha hb hc a b c me :
  ga_group a = None -> ga_group b = None -> ga_group c = None -> dims (ga_desc b) = dims (ga_desc c) ->
  negb (compare_distr (ga_desc a) (ga_desc b)) || negb (compare_distr (ga_desc a) (ga_desc c))
          || has_ghosts a || has_ghosts b || has_ghosts c || negb (is_regular a && is_regular b && is_regular c) = true ->
  ga_add fuel guess near wn w pre rnda rndb smp ta tb ha hb hc a b c me =
  add_patch fuel guess near wn w pre rnda rndb smp ta tb ha hb hc a b c me me me
    (repeat 1 (length (dims (ga_desc a)))) (dims (ga_desc a)) (repeat 1 (length (dims (ga_desc b)))) (dims (ga_desc b))
    (repeat 1 (length (dims (ga_desc c)))) (dims (ga_desc c)).
Proof.
  intros GA GB GC EB X. unfold ga_add. unfold same_group. rewrite GA, GB, GC. cbn [negb orb]. rewrite X. cbv zeta. rewrite EB.
  rewrite Nat.ltb_irrefl, firstn_all. reflexivity.
Qed.

(** GA_Add on map-distributed arrays of the world group. *)
Theorem C82_add_partial : forall {V} (sa : V -> V) (acc : V -> V -> V) guess near wn pre rnda rndb smp ta tb ha hb hc a b c (st : store V),
  good_guess guess -> (forall me, near me me = true) -> (forall me q k, 0 <= rnda me q k) -> (forall me q k, 0 <= rndb me q k) ->
  wf_array a -> wf_array b -> wf_array c ->
  wf_strict_regular wn (ga_desc a) -> wf_strict_regular wn (ga_desc b) -> wf_strict_regular wn (ga_desc c) -> no_empty_block c ->
  ga_group a = None -> ga_group b = None -> ga_group c = None ->
  ga_nproc a = wn -> ga_nproc b = wn -> ga_nproc c = wn -> 1 <= wn ->
  ga_elemsize a = ga_elemsize b -> ga_elemsize a = ga_elemsize c ->
  small_local a (reg_shape a) -> small_local b (reg_shape b) -> small_local c (reg_shape c) ->
  let ds := dims (ga_desc c) in let ones := repeat 1 (length ds) in
  dims (ga_desc a) = ds -> dims (ga_desc b) = ds ->
  (aligned a c ones ds ones ds -> ga_width a = ga_width c) -> (aligned b c ones ds ones ds -> ga_width b = ga_width c) ->
  ta <> tb -> ta <> ha /\ ta <> hb /\ ta <> hc -> tb <> ha /\ tb <> hb /\ tb <> hc ->
  (ha = hc -> a = c) -> (hb = hc -> b = c) -> ~ (ha = hc /\ hb = hc) ->
  allocated (reg_place a) (st ha) -> allocated (reg_place b) (st hb) -> allocated (reg_place c) (st hc) ->
  allocated (reg_place c) (st ta) -> allocated (reg_place c) (st tb) ->
  exists progs k n,
    Forall2 (fun me pr => length pr = k /\ forall fuel, (n <= fuel)%nat ->
        ga_add fuel guess (near me) wn me (pre me) (rnda me) (rndb me) (smp me) ta tb ha hb hc a b c me = Some pr)
      (zseq 0 (Z.to_nat wn)) progs /\
    all_runs (gstep sa acc) st (phases_of k progs) (fun st' =>
      added sa acc (reg_place a) (reg_place b) (reg_place c) ones ds ones ds ones ds (st ha) (st hb) (st hc) (st' hc) /\
      forall k, k <> hc -> k <> ta -> k <> tb -> st' k = st k).
Proof.
  intros V sa acc guess near wn pre rnda rndb smp ta tb ha hb hc a b c st HG HN HRa HRb WA WB WC SRA SRB SRC NE GA GB GC NA NB NC Hw EAB EAC
    SA SB SC ds ones EDA EDB WDA WDB T1 T2 T3 SAC SBC NS AA AB AC ATa ATb.
  destruct (negb (compare_distr (ga_desc a) (ga_desc b)) || negb (compare_distr (ga_desc a) (ga_desc c))
          || has_ghosts a || has_ghosts b || has_ghosts c || negb (is_regular a && is_regular b && is_regular c)) eqn:X.
  - pose proof (whole_patch a wn _ _ (or_introl (conj WA (conj eq_refl eq_refl)))) as PA.
    pose proof (whole_patch b wn _ _ (or_introl (conj WB (conj eq_refl eq_refl)))) as PB.
    pose proof (whole_patch c wn _ _ (or_introl (conj WC (conj eq_refl eq_refl)))) as PC.
    rewrite EDA in PA. rewrite EDB in PB. fold ds in PC. fold ones in PA, PB, PC.
    destruct (C82_add_patch_partial sa acc guess near wn pre rnda rndb smp ta tb ha hb hc a b c ones ds ones ds ones ds st) as (progs & k & n & F & R); auto;
      try (rewrite EDA; exact PA); try (rewrite EDB; exact PB); try (now left); try (left; rewrite ?EDA, ?EDB; reflexivity).
    exists progs, k, n. split; [|exact R]. eapply Forall2_weaken; [|exact F]. cbn beta. intros me pr [L E]. split; [exact L|]. intros fuel Hf.
    rewrite ga_add_slow by auto. rewrite EDA, EDB. apply E, Hf.
  - rewrite !orb_false_iff, !negb_false_iff in X. destruct X as (((((X1 & X2) & X3) & X4) & X5) & X6).
    destruct (C82_add_same_partial sa acc guess near wn (fun me => me) pre rnda rndb smp ta tb ha hb hc a b c st) as (_ & _ & progs & F & R); auto; try congruence.
    { intros me w E. rewrite (world_rank c me GC) in E. injection E as <-. apply HN. }
    exists progs, 1%nat, 0%nat. rewrite NC in F. split.
    + eapply Forall2_weaken; [|exact F]. cbn beta. intros me pr [L E]. split; [exact L|]. intros fuel _. apply E.
    + eapply all_runs_imp; [|exact R]. intros st' [H1 H2]. split; [exact H1|auto].
Qed.
Print Assumptions C82_add_partial.

(** GA_Add if one of the arrays is not map-distributed. *)
Theorem C82_add_blocked_partial : forall {V} (sa : V -> V) (acc : V -> V -> V) guess near wn pre rnda rndb smp ta tb ha hb hc a b c
    pa pb pc sha shb shc (st : store V),
  good_guess guess -> (forall me, near me me = true) -> (forall me q k, 0 <= rnda me q k) -> (forall me q k, 0 <= rndb me q k) ->
  walk_layout a wn pa sha -> walk_layout b wn pb shb -> walk_layout c wn pc shc ->
  ~ (distr_type (ga_desc a) = REGULAR /\ distr_type (ga_desc b) = REGULAR /\ distr_type (ga_desc c) = REGULAR) ->
  ga_group a = None -> ga_group b = None -> ga_group c = None ->
  ga_nproc a = wn -> ga_nproc b = wn -> ga_nproc c = wn -> 1 <= wn ->
  ga_elemsize a = ga_elemsize b -> ga_elemsize a = ga_elemsize c ->
  small_local a sha -> small_local b shb -> small_local c shc ->
  let ds := dims (ga_desc c) in let ones := repeat 1 (length ds) in
  dims (ga_desc a) = ds -> dims (ga_desc b) = ds ->
  ta <> tb -> ta <> ha /\ ta <> hb /\ ta <> hc -> tb <> ha /\ tb <> hb /\ tb <> hc ->
  allocated pa (st ha) -> allocated pb (st hb) -> allocated pc (st hc) -> allocated pc (st ta) -> allocated pc (st tb) ->
  exists progs k n,
    Forall2 (fun me pr => length pr = k /\ forall fuel, (n <= fuel)%nat ->
        ga_add fuel guess (near me) wn me (pre me) (rnda me) (rndb me) (smp me) ta tb ha hb hc a b c me = Some pr)
      (zseq 0 (Z.to_nat wn)) progs /\
    all_runs (gstep sa acc) st (phases_of k progs) (fun st' =>
      added sa acc pa pb pc ones ds ones ds ones ds (st ha) (st hb) (st hc) (st' hc) /\
      forall k, k <> hc -> k <> ta -> k <> tb -> st' k = st k).
Proof.
  intros V sa acc guess near wn pre rnda rndb smp ta tb ha hb hc a b c pa pb pc sha shb shc st HG HN HRa HRb LA LB LC NR GA GB GC NA NB NC Hw EAB EAC
    SA SB SC ds ones EDA EDB T1 T2 T3 AA AB AC ATa ATb.
  pose proof (whole_patch a wn _ _ (proj1 LA)) as PA. pose proof (whole_patch b wn _ _ (proj1 LB)) as PB. pose proof (whole_patch c wn _ _ (proj1 LC)) as PC.
  rewrite EDA in PA. rewrite EDB in PB. fold ds in PC. fold ones in PA, PB, PC.
  destruct (C82_add_patch_blocked_partial sa acc guess near wn pre rnda rndb smp ta tb ha hb hc a b c pa pb pc sha shb shc ones ds ones ds ones ds st)
    as (progs & k & n & F & R); auto; try (rewrite EDA; exact PA); try (rewrite EDB; exact PB).
  exists progs, k, n. split; [|exact R]. eapply Forall2_weaken; [|exact F]. cbn beta. intros me pr [L E]. split; [exact L|]. intros fuel Hf.
  rewrite ga_add_slow; auto.
  - rewrite EDA, EDB. apply E, Hf.
  - assert (X : is_regular a && is_regular b && is_regular c = false); [|rewrite X, !orb_true_r; reflexivity].
    apply not_true_is_false. intros X. apply NR. unfold is_regular in X. apply andb_prop in X as [X X3]. apply andb_prop in X as [X1 X2].
    destruct (distr_type (ga_desc a)), (distr_type (ga_desc b)), (distr_type (ga_desc c)); try discriminate; auto.
Qed.
Print Assumptions C82_add_blocked_partial.

(** ** Examples *)
Definition ex_arr (ds nb mc w : list Z) (grp : option (list Z)) (n : Z) : garray :=
  {| ga_desc := {| distr_type := REGULAR; dims := ds; nblock := nb; mapc := mc;
                   block_dims := []; num_blocks := []; rstrctd_list := []; rank_rstrctd := [] |};
     ga_width := w; ga_group := grp; ga_nproc := n; ga_elemsize := 8 |}.
Fixpoint ex_phases {V} (sa : V -> V) acc (st : store V) (phs : list (list gop)) : option (store V) :=
  match phs with [] => Some st | ph :: rest => do st' <- run_elems (gstep sa acc) st ph; ex_phases sa acc st' rest end.
Definition ex_all {V} (sa : V -> V) acc (st : store V) k (progs : list (option (list (list gop)))) : option (store V) :=
  do ps <- mapM (fun r => r) progs; ex_phases sa acc st (phases_of k ps).
(** Array 0 holds the place, array 1 a hundred times the place, all others -1. *)
Definition ex_st : store Z := fun h p o =>
  if (0 <=? o) && (o <? 30) then Some (if h =? 0 then 10 * p + o else if h =? 1 then 100 * (10 * p + o) else -1) else None.
(** A 4x3 in rows, B 5x3 in columns, C 4x4 in rows with ghost cells, on two processes. *)
Definition ex_A := ex_arr [4; 3] [2; 1] [1; 3; 1] [0; 0] None 2.
Definition ex_B := ex_arr [5; 3] [1; 2] [1; 1; 3] [0; 0] None 2.
Definition ex_C := ex_arr [4; 4] [2; 1] [1; 3; 1] [1; 0] None 2.
Ltac solve_arr :=
  split; [|split; [reflexivity|split; [repeat constructor; lia|split; [exact I|cbn; lia]]]];
  split; [reflexivity|]; split; [discriminate|]; split; [|left; split; [reflexivity|cbn; lia]].
Lemma ex_A_wf : wf_array ex_A.
Proof. solve_arr. cbn [valid_maps ex_A ex_arr ga_desc dims nblock mapc]. change (skipn (Z.to_nat 2) [1; 3; 1]) with [1]. split; [solve_map|]. split; [solve_map|exact I]. Qed.
Lemma ex_B_wf : wf_array ex_B.
Proof. solve_arr. cbn [valid_maps ex_B ex_arr ga_desc dims nblock mapc]. change (skipn (Z.to_nat 1) [1; 1; 3]) with [1; 3]. split; [solve_map|]. split; [solve_map|exact I]. Qed.
Lemma ex_C_wf : wf_array ex_C.
Proof. solve_arr. cbn [valid_maps ex_C ex_arr ga_desc dims nblock mapc]. change (skipn (Z.to_nat 2) [1; 3; 1]) with [1]. split; [solve_map|]. split; [solve_map|exact I]. Qed.

(** Rows 1..3, columns 1..2 of A and rows 3..5, columns 2..3 of B to rows 2..4,
    columns 3..4 of C, twice A and three times B: (3,4) of C, the first row of
    the block of process 1, receives 2 A(2,2) + 3 B(4,3). *)
Example C82_ex_patch :
  wf_array ex_A /\ wf_array ex_B /\ wf_array ex_C /\
  patch_of [4; 3] [1; 1] [3; 2] /\ patch_of [5; 3] [3; 2] [5; 3] /\ patch_of [4; 4] [2; 3] [4; 4] /\
  fits 2 (fun _ => None) ex_C [1; 1] [3; 2] [2; 3] [4; 4] /\ fits 2 (fun _ => None) ex_C [3; 2] [5; 3] [2; 3] [4; 4] /\
  ~ aligned ex_A ex_C [1; 1] [3; 2] [2; 3] [4; 4] /\
  ex_at ex_A [2; 2] = Some (0, 3) /\ ex_at ex_B [4; 3] = Some (1, 3) /\ ex_at ex_C [3; 4] = Some (1, 13) /\
  (do st' <- ex_all (fun v => 2 * v) (fun u v => u + 3 * v) ex_st 4
     (map (fun me => add_patch 9 ex_guess (fun w => w =? me) 2 me None (fun _ i => i) (fun _ i => 2 * i) (fun _ => true) 7 8 0 1 2 ex_A ex_B ex_C me me me
                       [1; 1] [3; 2] [3; 2] [5; 3] [2; 3] [4; 4]) [0; 1]);
   Some (hget (st' 2) (1, 13), hget (st' 2) (1, 9), hget (st' 2) (1, 12))) = Some (Some (2 * 3 + 3 * 1300), Some (2 * 1 + 3 * 800), Some (-1)).
Proof.
  split; [exact ex_A_wf|]. split; [exact ex_B_wf|]. split; [exact ex_C_wf|].
  split; [repeat constructor; cbn; lia|]. split; [repeat constructor; cbn; lia|]. split; [repeat constructor; cbn; lia|].
  split; [left; reflexivity|]. split; [left; reflexivity|]. split; [intros (X & _); discriminate|].
  split; [reflexivity|]. split; [reflexivity|]. split; [reflexivity|]. vm_compute. reflexivity.
Qed.
(** GA_Add of a block-cyclic array and a map-distributed one, 9 elements on two
    processes: the seventh element, the first of the fourth block. *)
Example C82_ex_blocked :
  let c := ex_bc1 9 2 None in let a := ex_arr [9] [2] [1; 6] [0] None 2 in
  walk_layout c 2 (block_place c) (block_shape c) /\ dims (ga_desc a) = dims (ga_desc c) /\
  (do st' <- ex_all (fun v => 2 * v) (fun u v => u + 3 * v) ex_st 3
     (map (fun me => ga_add 9 ex_guess (fun w => w =? me) 2 me None (fun _ i => i) (fun _ i => 2 * i) (fun _ => true) 7 8 0 1 2 a a c me) [0; 1]);
   do q <- ex_at a [7]; do h <- gat_home ex_guess 2 c [7]; do q' <- gat_ptr ex_guess 2 c h [7]; Some (q, q', hget (st' 2) q')) = Some ((1, 1), (1, 2), Some (2 * 11 + 3 * 1100)).
Proof.
  cbv zeta. split; [|split; [reflexivity|vm_compute; reflexivity]]. split; [right|discriminate].
  split; [reflexivity|]. left. split; [reflexivity|]. split; [apply ex_bc1_wf; lia|]. split; [reflexivity|].
  split; [vm_compute; split; discriminate|auto].
Qed.
(** Identical distributions on the group [5; 2; 7; 0]. *)
Definition ex_same : garray := {| ga_desc := ex_reg; ga_width := [0; 0]; ga_group := Some [5; 2; 7; 0]; ga_nproc := 4; ga_elemsize := 8 |}.
Lemma ex_same_wf : wf_array ex_same.
Proof.
  split; [exact ex_reg_wf|]. split; [reflexivity|]. split; [repeat constructor; lia|].
  split; [|cbn; lia]. split; [|reflexivity]. repeat constructor; cbn; lia.
Qed.
Example C82_ex_same :
  wf_array ex_same /\ no_empty_block ex_same /\ has_ghosts ex_same = false /\ compare_distr (ga_desc ex_same) (ga_desc ex_same) = true /\
  (do st' <- ex_all (fun v => 2 * v) (fun u v => u + 3 * v) ex_st 1
     (map (fun me => ga_add 0 ex_guess (fun w => w =? nth (Z.to_nat me) [5; 2; 7; 0] 0) 8 (nth (Z.to_nat me) [5; 2; 7; 0] 0) None (fun _ i => i) (fun _ i => 2 * i)
                       (fun _ => true) 7 8 0 1 0 ex_same ex_same ex_same me) [0; 1; 2; 3]);
   do q <- ex_at ex_same [7; 2]; Some (q, hget (st' 0) q)) = Some ((2, 6), Some (2 * 26 + 3 * 2600)).
Proof.
  split; [exact ex_same_wf|]. split.
  { intros p lo hi Hp ED H0. cbn in Hp. assert (p = 0 \/ p = 1 \/ p = 2 \/ p = 3) as [-> |[-> |[-> | ->]]] by lia;
      vm_compute in ED; injection ED as <- <-; repeat constructor; lia. }
  split; [reflexivity|]. split; [reflexivity|]. vm_compute. reflexivity.
Qed.

(** ** Where it fails *)
(** C has ghost cells, A and B do not, and the blocks are the same: the leading
    dimension of C is used for all three and memory outside A is read. *)
Theorem C82_ghost_refuted : exists a b c (st : store Z),
  wf_array a /\ wf_array b /\ wf_array c /\ ga_nproc c = 1 /\ aligned a c [1; 1] [2; 2] [1; 1] [2; 2] /\ aligned b c [1; 1] [2; 2] [1; 1] [2; 2] /\
  allocated (reg_place a) (st 0) /\ allocated (reg_place b) (st 1) /\ allocated (reg_place c) (st 2) /\
  (forall p o, hget (st 0) (p, o) <> None <-> p = 0 /\ 0 <= o < 4) /\ alloc_elems 1 0 0 a = Some 4 /\
  forall fuel pre rnda rndb smp ta tb, exists ph,
    ga_add fuel ex_guess (fun _ => true) 1 0 pre rnda rndb smp ta tb 0 1 2 a b c 0 = Some [ph] /\
    run_elems (gstep (fun v => v) Z.add) st ph = None.
Proof.
  set (a := ex_arr [2; 2] [1; 1] [1; 1] [0; 0] None 1). set (c := ex_arr [2; 2] [1; 1] [1; 1] [1; 1] None 1).
  assert (WA : wf_array a).
  { solve_arr. cbn [valid_maps a ex_arr ga_desc dims nblock mapc]. change (skipn (Z.to_nat 1) [1; 1]) with [1]. split; [solve_map|]. split; [solve_map|exact I]. }
  assert (WC : wf_array c).
  { solve_arr. cbn [valid_maps c ex_arr ga_desc dims nblock mapc]. change (skipn (Z.to_nat 1) [1; 1]) with [1]. split; [solve_map|]. split; [solve_map|exact I]. }
  exists a, a, c, (fun h p o => if (p =? 0) && (0 <=? o) && (o <? if h =? 2 then 16 else 4) then Some 0 else None).
  assert (ALL : forall d n h, wf_array d -> alloc_elems 1 0 0 d = Some n -> ga_nproc d = 1 -> ga_group d = None -> (if h =? 2 then 16 else 4) = n ->
     allocated (reg_place d) (fun p o => if (p =? 0) && (0 <=? o) && (o <? if h =? 2 then 16 else 4) then Some 0 else None)).
  { intros d n h WD EN NP GP Eh x [w o] Hx. destruct (regular_storage d 1 WD) as (_ & _ & _ & S4).
    destruct (S4 x (w, o) Hx) as (r & m & R1 & R2 & R3 & R4). cbn [fst snd] in *. assert (r = 0) as -> by lia.
    unfold abs_rank in R2. rewrite GP in R2. injection R2 as <-. rewrite EN in R3. injection R3 as <-.
    unfold hget. cbn [fst snd]. rewrite Eh. destruct (Z.leb_spec 0 o), (Z.ltb_spec o n); try lia. discriminate. }
  assert (AL : aligned a c [1; 1] [2; 2] [1; 1] [2; 2]).
  { split; [reflexivity|]. split; [reflexivity|]. intros p Hp. cbn in Hp. assert (p = 0) as -> by lia. reflexivity. }
  split; [exact WA|]. split; [exact WA|]. split; [exact WC|]. split; [reflexivity|]. split; [exact AL|]. split; [exact AL|].
  split; [apply (ALL a 4 0 WA); reflexivity|]. split; [apply (ALL a 4 1 WA); reflexivity|]. split; [apply (ALL c 16 2 WC); reflexivity|].
  split; [|split; [reflexivity|]].
  - intros p o. unfold hget. cbn [fst snd]. change (0 =? 2) with false. cbv iota.
    destruct (Z.eqb_spec p 0), (Z.leb_spec 0 o), (Z.ltb_spec o 4); cbn [andb]; split; intros X; try lia; try congruence; discriminate.
  - intros fuel pre rnda rndb smp ta tb. eexists. split; vm_compute; reflexivity.
Qed.
Print Assumptions C82_ghost_refuted.

(** Arrays on the group [1; 0]: the block with the number of the caller in the
    world is accessed, which belongs to another process. *)
Theorem C82_group_refuted : exists a, wf_array a /\ ga_group a = Some [1; 0] /\ ga_nproc a = 2 /\
  forall fuel pre rnda rndb smp ta tb hb hc,
    add_patch fuel ex_guess (fun w => w =? 1) 2 1 pre rnda rndb smp ta tb 0 hb hc a a a 0 0 0 [1] [4] [1] [4] [1] [4] = None.
Proof.
  exists (ex_arr [4] [2] [1; 3] [0] (Some [1; 0]) 2). split.
  - split; [|split; [reflexivity|split; [repeat constructor; lia|split; [split; [repeat constructor; cbn; intuition discriminate|reflexivity]|cbn; lia]]]].
    split; [reflexivity|]. split; [discriminate|]. split; [|left; split; [reflexivity|cbn; lia]]. split; [solve_map|exact I].
  - split; [reflexivity|]. split; [reflexivity|]. intros. vm_compute. reflexivity.
Qed.
Print Assumptions C82_group_refuted.

(** A has a third dimension of extent 1: the patches count as equal and the
    third subscript of the block of A is never set. *)
Theorem C82_rank_refuted : exists a b, wf_array a /\ wf_array b /\ ga_group a = None /\ ga_nproc a = 1 /\
  ga_width a = [0; 0; 0] /\ ga_width b = [0; 0] /\ patch_of (dims (ga_desc a)) [1; 1; 1] [2; 2; 1] /\ patch_of (dims (ga_desc b)) [1; 1] [2; 2] /\
  zprod (extents [1; 1; 1] [2; 2; 1]) = zprod (extents [1; 1] [2; 2]) /\
  forall fuel near pre rnda rndb smp ta tb ha hb hc,
    add_patch fuel ex_guess near 1 0 pre rnda rndb smp ta tb ha hb hc a b b 0 0 0 [1; 1; 1] [2; 2; 1] [1; 1] [2; 2] [1; 1] [2; 2] = None.
Proof.
  exists (ex_arr [2; 2; 1] [1; 1; 1] [1; 1; 1] [0; 0; 0] None 1), (ex_arr [2; 2] [1; 1] [1; 1] [0; 0] None 1).
  split. { solve_arr. cbn [valid_maps ex_arr ga_desc dims nblock mapc]. change (skipn (Z.to_nat 1) [1; 1; 1]) with [1; 1].
    change (skipn (Z.to_nat 1) [1; 1]) with [1]. split; [solve_map|]. split; [solve_map|]. split; [solve_map|exact I]. }
  split. { solve_arr. cbn [valid_maps ex_arr ga_desc dims nblock mapc]. change (skipn (Z.to_nat 1) [1; 1]) with [1]. split; [solve_map|]. split; [solve_map|exact I]. }
  do 4 (split; [reflexivity|]). split; [repeat constructor; cbn; lia|]. split; [repeat constructor; cbn; lia|]. split; [reflexivity|].
  intros. vm_compute. reflexivity.
Qed.
Print Assumptions C82_rank_refuted.

(** GA_Add(alpha, A, beta, A, A): the type is never set. *)
Theorem C82_same_refuted : exists a, wf_array a /\ ga_group a = None /\ ga_nproc a = 1 /\ has_ghosts a = false /\
  forall fuel pre rnda rndb smp ta tb h, ga_add fuel ex_guess (fun _ => true) 1 0 pre rnda rndb smp ta tb h h h a a a 0 = None.
Proof.
  exists (ex_arr [4] [1] [1] [0] None 1). split; [solve_arr; split; [solve_map|exact I]|]. do 3 (split; [reflexivity|]).
  intros. unfold ga_add, add_same. rewrite Z.eqb_refl. vm_compute. reflexivity.
Qed.
Print Assumptions C82_same_refuted.

(** C is larger than A and B: no error, and the rest of C is left alone. *)
Theorem C82_shape_refuted : exists a c fuel, wf_array a /\ wf_array c /\ dims (ga_desc a) = [2; 2] /\ dims (ga_desc c) = [3; 2] /\
  exists progs st', ga_add fuel ex_guess (fun _ => true) 1 0 None (fun _ i => i) (fun _ i => i) (fun _ => true) 7 8 0 1 2 a a c 0 = Some progs /\
    ex_phases (fun v => v) Z.add ex_st (phases_of (length progs) [progs]) = Some st' /\
    reg_place c [3; 1] (0, 2) /\ hget (st' 2) (0, 2) = hget (ex_st 2) (0, 2).
Proof.
  exists (ex_arr [2; 2] [1; 1] [1; 1] [0; 0] None 1), (ex_arr [3; 2] [1; 1] [1; 1] [0; 0] None 1), 9%nat.
  split. { solve_arr. cbn [valid_maps ex_arr ga_desc dims nblock mapc]. change (skipn (Z.to_nat 1) [1; 1]) with [1]. split; [solve_map|]. split; [solve_map|exact I]. }
  split. { solve_arr. cbn [valid_maps ex_arr ga_desc dims nblock mapc]. change (skipn (Z.to_nat 1) [1; 1]) with [1]. split; [solve_map|]. split; [solve_map|exact I]. }
  split; [reflexivity|]. split; [reflexivity|].
  eexists. eexists. split; [vm_compute; reflexivity|]. split; [cbv - [Z.add]; reflexivity|]. split; [|vm_compute; reflexivity].
  exists 0, [1; 1], [3; 2]. repeat split; cbn; try lia; reflexivity.
Qed.
Print Assumptions C82_shape_refuted.
