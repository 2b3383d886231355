(** Property theorems: the median of three arrays (C88). *)
From Verif Require Import LRadix LDist2 LXfer2 LGcopy LGcopy2 LGcopy4 LGcopy5 LGat LCpatch4 LAdd4 LZip4 PDist PIter PIterBlk PXfer PLoc PGat PGcopy PCpatch PAdd PElem.
Open Scope Z_scope.

(** What the code computes from three elements; it reads them before it writes. *)
Definition plain3 {V} (g : V -> V -> V -> V) (al : list bool) (vs : list V) : option V :=
  match vs with [u; v; w] => Some (g u v w) | _ => None end.

(** NGA_Median_patch on map-distributed arrays of the world group, if each of A,
    B and C has the block of M on some process. *)
Theorem C88_median_patch_partial : forall {V} (g : V -> V -> V -> V) guess near wn pre rnda rndb rndc smp t ta tb tc ha hb hc hm a b c m
    alo ahi blo bhi clo chi mlo mhi (st : store V),
  good_guess guess -> (forall me, near me me = true) ->
  (forall me q k, 0 <= rnda me q k) -> (forall me q k, 0 <= rndb me q k) -> (forall me q k, 0 <= rndc me q k) -> t <> E_longlong ->
  wf_array a -> wf_array b -> wf_array c -> wf_array m ->
  ga_group a = None -> ga_group b = None -> ga_group c = None -> ga_group m = None ->
  ga_nproc a = wn -> ga_nproc b = wn -> ga_nproc c = wn -> ga_nproc m = wn -> 1 <= wn ->
  ga_elemsize m = ga_elemsize a -> ga_elemsize m = ga_elemsize b -> ga_elemsize m = ga_elemsize c ->
  small_local a (reg_shape a) -> small_local b (reg_shape b) -> small_local c (reg_shape c) -> small_local m (reg_shape m) ->
  patch_of (dims (ga_desc a)) alo ahi -> patch_of (dims (ga_desc b)) blo bhi -> patch_of (dims (ga_desc c)) clo chi -> patch_of (dims (ga_desc m)) mlo mhi ->
  fits wn pre m alo ahi mlo mhi -> fits wn pre m blo bhi mlo mhi -> fits wn pre m clo chi mlo mhi ->
  shares_block wn a m -> shares_block wn b m -> shares_block wn c m ->
  ta <> tb /\ ta <> tc /\ tb <> tc ->
  ta <> ha /\ ta <> hb /\ ta <> hc /\ ta <> hm -> tb <> ha /\ tb <> hb /\ tb <> hc /\ tb <> hm -> tc <> ha /\ tc <> hb /\ tc <> hc /\ tc <> hm ->
  allocated (reg_place a) (st ha) -> allocated (reg_place b) (st hb) -> allocated (reg_place c) (st hc) -> allocated (reg_place m) (st hm) ->
  allocated (reg_place m) (st ta) -> allocated (reg_place m) (st tb) -> allocated (reg_place m) (st tc) ->
  exists progs k n,
    Forall2 (fun me pr => length pr = k /\ forall fuel, (n <= fuel)%nat ->
        median_patch fuel guess (near me) wn me (pre me) (rnda me) (rndb me) (rndc me) (smp me) t ta tb tc ha hb hc hm a b c m me me me me
          alo ahi blo bhi clo chi mlo mhi = Some pr)
      (zseq 0 (Z.to_nat wn)) progs /\
    every_run (zstep (plain3 g)) st (phases_of k progs) (fun r => exists st', r = Some st' /\
      zipped3 (fun u v w => Some (g u v w)) (reg_place a) (reg_place b) (reg_place c) (reg_place m) alo ahi blo bhi clo chi mlo mhi
        (st ha) (st hb) (st hc) (st hm) (st' hm) /\
      forall k, k <> hm -> k <> ta -> k <> tb -> k <> tc -> st' k = st k).
Proof.
  intros V g guess near wn pre rnda rndb rndc smp t ta tb tc ha hb hc hm a b c m alo ahi blo bhi clo chi mlo mhi st HG HN HRa HRb HRc Ht
    WA WB WC WM GA GB GC GM NA NB NC NM Hw EA EB EC SA SB SC SM PA PB PC PM FA FB FC KA KB KC TT T1 T2 T3 AA AB AC AM ATa ATb ATc.
  assert (Z0 : forall xlo xhi, fits wn pre m xlo xhi mlo mhi -> zprod (extents mlo mhi) = zprod (extents xlo xhi)) by (intros xlo xhi [E|[E _]]; congruence).
  apply (median_regular (plain3 g) (fun u v w => Some (g u v w)) guess near wn pre rnda rndb rndc smp t ta tb tc ha hb hc hm a b c m); auto;
    try discriminate; try (apply regular_copyable; auto; try congruence; now left).
  destruct t; auto; congruence.
Qed.
Print Assumptions C88_median_patch_partial.

(** GA_Median if one of the arrays is not map-distributed. *)
Theorem C88_median_blocked_partial : forall {V} (g : V -> V -> V -> V) guess near wn pre rnda rndb rndc smp t ta tb tc ha hb hc hm a b c m
    pa pb pc pm sha shb shc shm (st : store V),
  good_guess guess -> (forall me, near me me = true) ->
  (forall me q k, 0 <= rnda me q k) -> (forall me q k, 0 <= rndb me q k) -> (forall me q k, 0 <= rndc me q k) -> t <> E_longlong ->
  walk_layout a wn pa sha -> walk_layout b wn pb shb -> walk_layout c wn pc shc -> walk_layout m wn pm shm ->
  ~ (distr_type (ga_desc a) = REGULAR /\ distr_type (ga_desc b) = REGULAR /\ distr_type (ga_desc c) = REGULAR /\ distr_type (ga_desc m) = REGULAR) ->
  ga_group a = None -> ga_group b = None -> ga_group c = None -> ga_group m = None ->
  ga_nproc a = wn -> ga_nproc b = wn -> ga_nproc c = wn -> ga_nproc m = wn -> 1 <= wn ->
  ga_elemsize m = ga_elemsize a -> ga_elemsize m = ga_elemsize b -> ga_elemsize m = ga_elemsize c ->
  small_local a sha -> small_local b shb -> small_local c shc -> small_local m shm ->
  let ds := dims (ga_desc m) in let ones := repeat 1 (length ds) in
  dims (ga_desc a) = ds -> dims (ga_desc b) = ds -> dims (ga_desc c) = ds ->
  ta <> tb /\ ta <> tc /\ tb <> tc ->
  ta <> ha /\ ta <> hb /\ ta <> hc /\ ta <> hm -> tb <> ha /\ tb <> hb /\ tb <> hc /\ tb <> hm -> tc <> ha /\ tc <> hb /\ tc <> hc /\ tc <> hm ->
  allocated pa (st ha) -> allocated pb (st hb) -> allocated pc (st hc) -> allocated pm (st hm) ->
  allocated pm (st ta) -> allocated pm (st tb) -> allocated pm (st tc) ->
  exists progs k n,
    Forall2 (fun me pr => length pr = k /\ forall fuel, (n <= fuel)%nat ->
        median fuel guess (near me) wn me (pre me) (rnda me) (rndb me) (rndc me) (smp me) t ta tb tc ha hb hc hm a b c m me = Some pr)
      (zseq 0 (Z.to_nat wn)) progs /\
    every_run (zstep (plain3 g)) st (phases_of k progs) (fun r => exists st', r = Some st' /\
      zipped3 (fun u v w => Some (g u v w)) pa pb pc pm ones ds ones ds ones ds ones ds (st ha) (st hb) (st hc) (st hm) (st' hm) /\
      forall k, k <> hm -> k <> ta -> k <> tb -> k <> tc -> st' k = st k).
Proof.
  intros V g guess near wn pre rnda rndb rndc smp t ta tb tc ha hb hc hm a b c m pa pb pc pm sha shb shc shm st HG HN HRa HRb HRc Ht
    LA LB LC LM NR GA GB GC GM NA NB NC NM Hw EA EB EC SA SB SC SM ds ones DA DB DC TT T1 T2 T3 AA AB AC AM ATa ATb ATc.
  pose proof (LAdd4.whole_patch a wn _ _ (proj1 LA)) as PA. pose proof (LAdd4.whole_patch b wn _ _ (proj1 LB)) as PB.
  pose proof (LAdd4.whole_patch c wn _ _ (proj1 LC)) as PC. pose proof (LAdd4.whole_patch m wn _ _ (proj1 LM)) as PM.
  assert (X : mresult (plain3 g) (fun u v w => Some (g u v w)) guess near wn pre rnda rndb rndc smp t ta tb tc ha hb hc hm a b c m ones ds ones ds ones ds ones ds pa pb pc pm st).
  { rewrite DA in PA. rewrite DB in PB. rewrite DC in PC. fold ds in PM. fold ones in PA, PB, PC, PM.
    apply (median_whole (plain3 g) (fun u v w => Some (g u v w)) guess near wn pre rnda rndb rndc smp t ta tb tc ha hb hc hm a b c m) with (sha := sha) (shb := shb) (shc := shc) (shm := shm); auto;
      try discriminate; try (rewrite ?DA, ?DB, ?DC; assumption); try apply LA; try apply LB; try apply LC.
    - destruct t; auto; congruence.
    - apply not_true_is_false. intros X. apply NR. unfold is_regular in X. apply andb_prop in X as [X X4]. apply andb_prop in X as [X X3]. apply andb_prop in X as [X1 X2].
      destruct (distr_type (ga_desc a)), (distr_type (ga_desc b)), (distr_type (ga_desc c)), (distr_type (ga_desc m)); try discriminate; auto.
    - eapply straight_copyable; eauto; try apply LM; try congruence; try (rewrite DA; assumption); now left.
    - eapply straight_copyable; eauto; try apply LM; try congruence; try (rewrite DB; assumption); now left.
    - eapply straight_copyable; eauto; try apply LM; try congruence; try (rewrite DC; assumption); now left. }
  destruct X as (progs & k & n & F & R). exists progs, k, n. split; [|exact R]. eapply Forall2_weaken; [|exact F]. cbn beta. intros me pr [L E].
  split; [exact L|]. intros fuel Hf. unfold median. cbv zeta. rewrite DA, DB, DC. apply E, Hf.
Qed.
Print Assumptions C88_median_blocked_partial.

(** What is computed is a median, for any total order of the keys (the elements
    themselves, or the absolute values of complex elements). *)
Theorem C88_median_value : forall {K V} (le : K -> K -> Prop) (eqb ltb leb : K -> K -> bool) (key : V -> K),
  (forall x y, le x y \/ le y x) ->
  (forall x y, eqb x y = true <-> le x y /\ le y x) -> (forall x y, leb x y = true <-> le x y) -> (forall x y, ltb x y = true <-> ~ le y x) ->
  forall a b c, is_median le key a b c (code_median eqb ltb leb key a b c).
Proof.
  intros K V le eqb ltb leb key HT HE HL HS a b c.
  assert (DEC : forall x y, ltb x y = false -> le y x).
  { intros x y H. destruct (leb y x) eqn:E; [apply HL, E|]. assert (X : ltb x y = true); [|congruence]. apply HS. intros Y. apply HL in Y. congruence. }
  assert (LT : forall x y, ~ le y x -> le x y) by (intros x y H; destruct (HT x y); tauto).
  assert (AUX : forall x y, ~ le (key y) (key x) ->
     (aux_median ltb leb key x y c = x /\ le (key c) (key x)) \/
     (aux_median ltb leb key x y c = c /\ le (key x) (key c) /\ le (key c) (key y)) \/
     (aux_median ltb leb key x y c = y /\ le (key y) (key c))).
  { intros x y Hxy. unfold aux_median. destruct (ltb (key c) (key x)) eqn:E1; cbn [andb].
    - rewrite (proj2 (HS (key x) (key y)) Hxy). left. split; [reflexivity|]. apply HS in E1. apply LT, E1.
    - pose proof (DEC _ _ E1) as X. rewrite (proj2 (HL _ _) X). cbn [andb]. destruct (leb (key c) (key y)) eqn:E2.
      + right. left. apply HL in E2. auto.
      + right. right. split; [reflexivity|]. destruct (HT (key y) (key c)) as [Y|Y]; [exact Y|]. apply HL in Y. congruence. }
  unfold code_median, is_median. destruct (eqb (key a) (key b)) eqn:E.
  - apply HE in E. split; [auto|]. left. split; [destruct (HT (key a) (key a)); auto|apply E].
  - destruct (ltb (key a) (key b)) eqn:E1.
    + apply HS in E1. pose proof (LT _ _ E1). destruct (AUX a b E1) as [(-> & X)|[(-> & X & Y)|(-> & X)]]; (split; [auto|]); intuition auto.
    + apply DEC in E1. assert (NL : ~ le (key a) (key b)) by (intros Y; rewrite (proj2 (HE _ _) (conj Y E1)) in E; discriminate).
      destruct (AUX b a NL) as [(-> & Y)|[(-> & Y & Y')|(-> & Y)]]; (split; [auto|]); intuition auto.
Qed.
Print Assumptions C88_median_value.

(** ** Examples *)
Definition zmed := code_median Z.eqb Z.ltb Z.leb (fun v : Z => v).
(** Array 0 rises with the place, array 1 falls, array 2 has 15 everywhere, the others -1. *)
Definition md_st : store Z := fun h p o =>
  if (0 <=? o) && (o <? 30) then Some (if h =? 0 then 10 * p + o else if h =? 1 then 40 - (10 * p + o) else if h =? 2 then 15 else -1) else None.
(** Arrays of 4x3 in rows on two processes, M with ghost cells. *)
Definition md_A := ex_arr [4; 3] [2; 1] [1; 3; 1] [0; 0] None 2.
Definition md_M := ex_arr [4; 3] [2; 1] [1; 3; 1] [1; 0] None 2.
Lemma md_A_wf : wf_array md_A.
Proof. exact ex_A_wf. Qed.
Lemma md_M_wf : wf_array md_M.
Proof. solve_arr. cbn [valid_maps md_M ex_arr ga_desc dims nblock mapc]. change (skipn (Z.to_nat 2) [1; 3; 1]) with [1]. split; [solve_map|]. split; [solve_map|exact I]. Qed.
Example C88_ex_patch :
  wf_array md_A /\ wf_array md_M /\ shares_block 2 md_A md_M /\ patch_of [4; 3] [1; 1] [3; 2] /\ patch_of [4; 3] [2; 2] [4; 3] /\
  fits 2 (fun _ => None) md_M [1; 1] [3; 2] [2; 2] [4; 3] /\
  reg_place md_A [3; 2] (1, 2) /\ reg_place md_A [4; 3] (1, 5) /\ reg_place md_M [4; 3] (1, 10) /\
  (do st' <- zx_all (plain3 zmed) md_st 4
     (map (fun me => median_patch 9 ex_guess (fun w => w =? me) 2 me None (fun _ i => i) (fun _ i => 2 * i) (fun _ i => i) (fun _ => true) E_long 7 8 9 0 1 2 3 md_A md_A md_A md_M me me me me
                       [1; 1] [3; 2] [2; 2] [4; 3] [2; 2] [4; 3] [2; 2] [4; 3]) [0; 1]);
   Some (hget (st' 3) (1, 10), hget (st' 3) (1, 2))) = Some (Some (zmed 12 25 15), Some (-1)) /\ zmed 12 25 15 = 15.
Proof.
  split; [exact md_A_wf|]. split; [exact md_M_wf|]. split; [exists 0; split; [lia|reflexivity]|].
  split; [repeat constructor; cbn; lia|]. split; [repeat constructor; cbn; lia|]. split; [left; reflexivity|].
  split; [exists 1, [3; 1], [4; 3]; repeat split; cbn; try lia; reflexivity|].
  split; [exists 1, [3; 1], [4; 3]; repeat split; cbn; try lia; reflexivity|].
  split; [exists 1, [3; 1], [4; 3]; repeat split; cbn; try lia; reflexivity|]. split; vm_compute; reflexivity.
Qed.
(** The median of two map-distributed arrays and a block-cyclic one. *)
Example C88_ex_blocked :
  let m := ex_bc1 9 2 None in let a := ex_arr [9] [2] [1; 6] [0] None 2 in
  walk_layout m 2 (block_place m) (block_shape m) /\ dims (ga_desc a) = dims (ga_desc m) /\
  (do st' <- zx_all (plain3 zmed) md_st 4
     (map (fun me => median 9 ex_guess (fun w => w =? me) 2 me None (fun _ i => i) (fun _ i => 2 * i) (fun _ i => i) (fun _ => true) E_long 7 8 9 0 1 2 3 a a m m me) [0; 1]);
   do h <- gat_home ex_guess 2 m [7]; do q' <- gat_ptr ex_guess 2 m h [7]; hget (st' 3) q') = Some (zmed 11 29 15).
Proof.
  cbv zeta. split; [|split; [reflexivity|vm_compute; reflexivity]]. split; [right|discriminate].
  split; [reflexivity|]. left. split; [reflexivity|]. split; [apply ex_bc1_wf; lia|]. split; [reflexivity|].
  split; [vm_compute; split; discriminate|auto].
Qed.

(** ** Where it fails *)
(** A is cut otherwise than M on every process: the test of the distributions is
    negated, A is used as it is, and the operation ends in an error. *)
Theorem C88_compatible_refuted : exists a m, wf_array a /\ wf_array m /\ ga_group a = None /\ ga_group m = None /\ ga_nproc a = 2 /\ ga_nproc m = 2 /\
  dims (ga_desc a) = dims (ga_desc m) /\ ga_width a = [0] /\ ga_width m = [0] /\
  forall fuel near me pre rnda rndb rndc smp t ta tb tc ha hb hc hm, 0 <= me < 2 ->
    median fuel ex_guess near 2 me pre rnda rndb rndc smp t ta tb tc ha hb hc hm a a a m me = None.
Proof.
  exists (ex_arr [4] [2] [1; 2] [0] None 2), (ex_arr [4] [2] [1; 3] [0] None 2).
  split; [solve_arr; split; [solve_map|exact I]|]. split; [solve_arr; split; [solve_map|exact I]|]. do 7 (split; [reflexivity|]).
  intros fuel near me pre rnda rndb rndc smp t ta tb tc ha hb hc hm Hme. assert (me = 0 \/ me = 1) as [-> | ->] by lia; vm_compute; reflexivity.
Qed.
Print Assumptions C88_compatible_refuted.
(** The patch 1..2 of a block-cyclic array M: element 5 changes too. *)
Theorem C88_patch_refuted : exists m (st : store Z) fuel, walk_layout m 1 (block_place m) (block_shape m) /\ ga_group m = None /\ ga_nproc m = 1 /\
  patch_of (dims (ga_desc m)) [1] [2] /\ ~ in_box [1] [2] [5] /\
  (do h <- gat_home ex_guess 1 m [5]; gat_ptr ex_guess 1 m h [5]) = Some (0, 4) /\ hget (st 3) (0, 4) = Some (-1) /\
  (do st' <- zx_all (plain3 zmed) st 4
     [median_patch fuel ex_guess (fun _ => true) 1 0 None (fun _ i => i) (fun _ i => i) (fun _ i => i) (fun _ => true) E_long 7 8 9 0 1 2 3 m m m m 0 0 0 0 [1] [2] [1] [2] [1] [2] [1] [2]];
   hget (st' 3) (0, 4)) = Some 99.
Proof.
  exists (ex_bc1 9 1 None), (fun h p o => if (0 <=? o) && (o <? 30) then Some (if h =? 3 then -1 else if 6 <? h then 99 else o) else None), 9%nat.
  split.
  { split; [right|discriminate]. split; [reflexivity|]. left. split; [reflexivity|]. split; [apply ex_bc1_wf; lia|]. split; [reflexivity|].
    split; [vm_compute; split; discriminate|auto]. }
  split; [reflexivity|]. split; [reflexivity|]. split; [repeat constructor; cbn; lia|].
  split; [intros X; unfold in_box in X; cbn in X; inversion X; subst; lia|]. split; [vm_compute; reflexivity|]. split; vm_compute; reflexivity.
Qed.
Print Assumptions C88_patch_refuted.
(** Arrays of long long: an error. *)
Theorem C88_longlong_refuted : exists a, wf_array a /\ ga_group a = None /\ ga_nproc a = 1 /\ ga_width a = [0] /\
  forall ta tb tc ha hb hc hm, median 9 ex_guess (fun _ => true) 1 0 None (fun _ i => i) (fun _ i => i) (fun _ i => i) (fun _ => true) E_longlong ta tb tc ha hb hc hm a a a a 0 = None.
Proof.
  exists (ex_arr [4] [1] [1] [0] None 1). split; [solve_arr; split; [solve_map|exact I]|]. do 3 (split; [reflexivity|]).
  intros. vm_compute. reflexivity.
Qed.
Print Assumptions C88_longlong_refuted.
