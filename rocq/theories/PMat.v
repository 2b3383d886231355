(** C92: GA_Matmul_patch. *)
From Verif Require Import SpecDiag MNb MHandle MGroup LRadix LDist LStore LXfer LXfer2 LGcopy2 LPw LPw2 LStep MPw PIter PDist PXfer PCpatch PAdd PSym PPw LGcopy4 LMat LMat2 MMat.
Open Scope Z_scope.

(** ** Map-distributed arrays *)
(** A and B on any group; patches of op(A) and op(B) are given after the
    operation.  Missing: more than two dimensions, C on another group, A or B the
    same array as C, a part of the operands over 2 GB. *)
Theorem C92_patch_partial : forall {V} (radd rmul : V -> V -> V) zero conj junk is_zero guess near wn smp rnda rndb rndc cube root avail t bytes oa ob alpha beta a b c
    da1 da2 db1 db2 dc1 dc2 ma mb mc (A B C : list Z -> V) ailo aihi ajlo ajhi bilo bihi bjlo bjhi cilo cihi cjlo cjhi,
  semiring radd rmul zero -> (forall v, is_zero v = true -> v = zero) ->
  good_guess guess -> (forall me t k, 0 <= rnda me t k) -> (forall me t k, 0 <= rndb me t k) -> (forall me t k, 0 <= rndc me t k) ->
  wf_array a -> wf_array b -> wf_array c -> 1 <= wn -> ga_nproc c = wn -> ga_group c = None -> (forall me, near me me = true) ->
  small_local a (reg_shape a) -> small_local b (reg_shape b) -> small_local c (reg_shape c) ->
  dims (ga_desc a) = [da1; da2] -> dims (ga_desc b) = [db1; db2] -> dims (ga_desc c) = [dc1; dc2] ->
  allocated (reg_place a) ma -> allocated (reg_place b) mb -> allocated (reg_place c) mc ->
  holds [da1; da2] (reg_place a) ma A -> holds [db1; db2] (reg_place b) mb B -> holds [dc1; dc2] (reg_place c) mc C ->
  op_patch oa [da1; da2] [ailo; ajlo] [aihi; ajhi] -> op_patch ob [db1; db2] [bilo; bjlo] [bihi; bjhi] ->
  op_patch opN [dc1; dc2] [cilo; cjlo] [cihi; cjhi] ->
  cihi - cilo = aihi - ailo -> ajhi - ajlo = bihi - bilo -> bjhi - bjlo = cjhi - cjlo ->
  elt_bytes t = Some bytes -> 64 <= avail -> (forall x, 1 <= x -> 1 <= root x /\ root x * root x <= x) ->
  (let q := cube ((ajhi - ajlo + 1) * ((aihi - ailo + 1) * (bjhi - bjlo + 1))) (10 * wn) in
   (t = E_flt -> q <= 256) /\
   forall x, In x [a; b; c] -> ga_elemsize x * (Z.max 256 q * Z.max 256 q) <= int_max) ->
  exists progs n,
    Forall2 (fun me pr => forall fuel, (n <= fuel)%nat ->
        matmul_patch radd rmul zero conj junk fuel guess (near me) wn smp (rnda me) (rndb me) (rndc me) cube root avail wn t oa ob alpha a b c ma mb
          [ailo; ajlo] [aihi; ajhi] [bilo; bjlo] [bihi; bjhi] [cilo; cjlo] [cihi; cjhi] me = Some pr)
      (zseq 0 (Z.to_nat wn)) progs /\
    forall cells es, Permutation (concat (map fst progs)) cells -> Permutation (concat (map snd progs)) es ->
      exists m1 m2, run_elems (upd_elem (code_beta rmul is_zero beta)) mc cells = Some m1 /\ run_elems (acc_event radd) m1 es = Some m2 /\
        multiplied radd rmul zero conj oa ob alpha beta A B C ailo ajlo bilo bjlo [cilo; cjlo] [cihi; cjhi] (ajhi - ajlo + 1) (reg_place c) mc m2.
Proof.
  intros V radd rmul zero conj junk is_zero guess near wn smp rnda rndb rndc cube root avail t bytes oa ob alpha beta a b c
    da1 da2 db1 db2 dc1 dc2 ma mb mc A B C ailo aihi ajlo ajhi bilo bihi bjlo bjhi cilo cihi cjlo cjhi
    SR HZ HG RA RB RC WA WB WC Hw NC GC HN SA SB SC DA DB DC AA AB AC HA HB HC PA PB PC E1 E2 E3 HT Hav HR HQ.
  destruct (matmul_patch_ok radd rmul zero conj junk guess near wn smp rnda rndb rndc cube root avail t bytes oa ob alpha a b c
    da1 da2 db1 db2 dc1 dc2 ma mb A B ailo aihi ajlo ajhi bilo bihi bjlo bjhi cilo cihi cjlo cjhi)
    as (I & J & K & cells & otss & n & HI & HJ & HK & FC & FT & FP); auto.
  exists (combine cells (map op_events otss)), n. split; [exact FP|].
  assert (LEN : length cells = length (map op_events otss)).
  { rewrite map_length, <- (Forall2_len _ _ _ FC), <- (Forall2_len _ _ _ FT). reflexivity. }
  assert (M1 : map fst (combine cells (map op_events otss)) = cells).
  { clear - LEN. revert LEN. generalize (map op_events otss). induction cells as [|x l IH]; intros [|y l'] L; try discriminate; [reflexivity|].
    cbn. f_equal. apply IH. now injection L. }
  assert (M2 : map snd (combine cells (map op_events otss)) = map op_events otss).
  { clear - LEN. revert LEN. generalize (map op_events otss). induction cells as [|x l IH]; intros [|y l'] L; try discriminate; [reflexivity|].
    cbn. f_equal. apply IH. now injection L. }
  rewrite M1, M2. intros cl es P1 P2.
  assert (LC : any_layout c wn (reg_place c) (reg_shape c)) by (left; auto).
  assert (WL : walk_layout c wn (reg_place c) (reg_shape c)).
  { split; [exact LC|]. intros T. destruct WC as ((R & _) & _). congruence. }
  destruct (C80_patch_partial guess near wn c (reg_place c) (reg_shape c) [cilo; cjlo] [cihi; cjhi] (code_beta rmul is_zero beta) mc HG WL) as (cells' & n' & FC' & X); auto.
  { intros me w. unfold abs_rank. rewrite GC. intros E. injection E as <-. apply HN. }
  { rewrite DC. reflexivity. } { rewrite DC. reflexivity. } rewrite NC in FC'.
  assert (EQ : cells' = cells).
  { clear - FC FC'. revert cells cells' FC FC'. induction (zseq 0 (Z.to_nat wn)) as [|me l IH]; intros cs cs' F F'; inversion F; inversion F'; subst; [reflexivity|].
    f_equal; [|eauto]. specialize (H1 (Nat.max n n') ltac:(lia)). specialize (H6 (Nat.max n n') ltac:(lia)). rewrite H1 in H6. now injection H6. }
  subst cells'. destruct (X cl P1) as (m1 & R1 & [U1 U2]).
  assert (AL : allocated (reg_place c) m1).
  { intros x q Hq HN0. destruct (in_box_or [cilo; cjlo] [cihi; cjhi] x) as [Hb|Hb].
    - destruct (U1 x q) as (v & _ & Y); [|exact Hq|congruence]. split; [|exact Hb]. destruct PC as (P3 & P4 & _). rewrite DC. destruct x as [|x [|y [|]]]; cbn in *; try tauto; lia.
    - rewrite U2 in HN0; [exact (AC x q Hq HN0)|]. intros y [_ Hy] Hp. destruct (any_storage _ _ _ _ LC) as (al & _ & _ & S3 & _).
      apply Hb. rewrite (S3 _ _ _ Hq Hp). exact Hy. }
  pose proof (in_flat_Forall2 _ _ _ _ FT) as FF.
  destruct (Permutation_Forall2 (mine_all wn _ Hw 0) FF) as (ots & PO & FO).
  destruct (phase_acc radd rmul zero conj oa ob alpha c wn (reg_place c) (reg_shape c) A B ailo ajlo bilo bjlo cilo cihi cjlo cjhi (ajhi - ajlo + 1) I J K
    SR LC HI HJ HK ots es m1) as (m2 & R2 & W1 & W2); auto.
  { eapply perm_trans; [apply Permutation_sym, P2|]. rewrite <- op_events_concat. apply op_events_perm, PO. }
  exists m1, m2. split; [exact R1|]. split; [exact R2|]. split.
  - intros i j q Hb Hq. assert (IA : in_array (dims (ga_desc c)) [i; j]) by (destruct PC as (P3 & P4 & _); rewrite DC; cbn in *; lia).
    destruct (U1 [i; j] q (Logic.conj IA Hb) Hq) as (v & V1 & V2). rewrite DC in IA. rewrite (HC _ _ IA Hq) in V1. injection V1 as <-.
    cbn [nth]. rewrite (W1 i j q _ Hb Hq V2). f_equal. f_equal. unfold code_beta. destruct (is_zero beta) eqn:EZ; [|reflexivity].
    rewrite (HZ _ EZ). destruct SR as (_ & _ & _ & _ & _ & Z1). symmetry. apply Z1.
  - intros q Hq. rewrite W2 by exact Hq. apply U2. intros x [_ Hb]. apply Hq, Hb.
Qed.
Print Assumptions C92_patch_partial.

(** ** Examples *)
Definition ex_root (x : Z) : Z := if 4 <=? x then 2 else 1.
Definition ex_mm oa ob cubes t (a b c : garray) (ma mb : heap Z) alo ahi blo bhi clo chi me :=
  matmul_patch Z.add Z.mul 0 (fun v => v) 77 9 ex_guess (fun w => w =? me) 2 (fun _ => true) (fun _ i => i) (fun _ i => i) (fun _ i => i)
    (fun _ _ => cubes) ex_root 64 2 t oa ob 7 a b c ma mb alo ahi blo bhi clo chi me.
Definition ex_mm_run beta (mc : heap Z) (rs : list (option (list place * list (buffer Z * (place * Z))))) : option (heap Z) :=
  do l <- mapM (fun r => r) rs;
  do m1 <- run_elems (upd_elem (code_beta Z.mul (fun v => v =? 0) beta)) mc (concat (map fst l));
  run_elems (acc_event Z.add) m1 (rev (concat (map snd l))).
(** C(2:4,2:4) of a 4x4 array with ghost cells becomes 7 A(1:3,1:2) B'(2:3,3:5) +
    3 C(2:4,2:4), where B' is the transpose of the 5x3 array B, in chunks of 2. *)
Example C92_ex_patch :
  wf_array ex_A /\ wf_array ex_B /\ wf_array ex_C /\
  op_patch opN [4; 3] [1; 1] [3; 2] /\ op_patch opT [5; 3] [2; 3] [3; 5] /\ op_patch opN [4; 4] [2; 2] [4; 4] /\
  (forall x, 1 <= x -> 1 <= ex_root x /\ ex_root x * ex_root x <= x) /\
  ex_at ex_A [2; 1] = Some (0, 1) /\ ex_at ex_A [2; 2] = Some (0, 3) /\ ex_at ex_B [5; 2] = Some (0, 9) /\ ex_at ex_B [5; 3] = Some (1, 4) /\
  ex_at ex_C [3; 4] = Some (1, 13) /\ ex_at ex_C [3; 1] = Some (1, 1) /\
  map (fun me => match ex_mm opN opT 300 E_dbl ex_A ex_B ex_C (ex_st 0) (ex_st 1) [1; 1] [3; 2] [2; 3] [3; 5] [2; 2] [4; 4] me with Some r => length (snd r) | None => O end)
    [0; 1] = [6; 3]%nat /\
  (do m' <- ex_mm_run 3 (ex_st 2) (map (ex_mm opN opT 300 E_dbl ex_A ex_B ex_C (ex_st 0) (ex_st 1) [1; 1] [3; 2] [2; 3] [3; 5] [2; 2] [4; 4]) [0; 1]);
   Some (hget m' (1, 13), hget m' (1, 1))) = Some (Some (3 * -1 + 7 * (1 * 900 + 3 * 1400)), Some (-1)).
Proof.
  split; [exact ex_A_wf|]. split; [exact ex_B_wf|]. split; [exact ex_C_wf|].
  split; [repeat constructor; cbn; lia|]. split; [repeat constructor; cbn; lia|]. split; [repeat constructor; cbn; lia|].
  split; [intros x Hx; unfold ex_root; destruct (Z.leb_spec 4 x); lia|].
  do 6 (split; [reflexivity|]). split; vm_compute; reflexivity.
Qed.
(** The laws hold of the integers. *)
Lemma Z_semiring : semiring Z.add Z.mul 0.
Proof. repeat split; intros; lia. Qed.

(** ** Block-distributed arrays *)
(** The whole of C, distributed in any way the blocks of which direct access
    finds, with A and B in any distribution.  Missing: transposed operands, other
    patches of C, blocks of C with fewer columns than rows, the last of which fail
    (below). *)
Theorem C92_blocked_partial : forall {V} (radd rmul : V -> V -> V) zero conj junk guess near wn smp rnda rndb alpha beta a b c pa pb pc sha shb shc
    da1 da2 db1 db2 m n ma mb mc (A B C : list Z -> V) a1 b0 k,
  semiring radd rmul zero -> good_guess guess -> (forall me t u i, 0 <= rnda me t u i) -> (forall me t u i, 0 <= rndb me t u i) ->
  any_layout a wn pa sha -> any_layout b wn pb shb -> walk_layout c wn pc shc -> (forall me w, abs_rank c me = Some w -> near me w = true) ->
  small_local a sha -> small_local b shb -> small_local c shc -> ga_elemsize a = ga_elemsize c -> ga_elemsize b = ga_elemsize c ->
  dims (ga_desc a) = [da1; da2] -> dims (ga_desc b) = [db1; db2] -> dims (ga_desc c) = [m; n] ->
  allocated pa ma -> allocated pb mb -> allocated pc mc ->
  holds [da1; da2] pa ma A -> holds [db1; db2] pb mb B -> holds [m; n] pc mc C ->
  1 <= m -> 1 <= n -> 1 <= k -> 1 <= a1 -> a1 + k - 1 <= da2 -> m <= da1 -> 1 <= b0 -> b0 + k - 1 <= db1 -> n <= db2 ->
  (forall me fuel ps q, local_iterate fuel guess (near me) wn c me = Some ps -> In q ps ->
     forall l0 l1 h0 h1, lp_lo q = [l0; l1] -> lp_hi q = [h0; h1] -> h0 - l0 <= h1 - l1 \/ k <= h1 - l1 + 1) ->
  exists progs f0,
    Forall2 (fun me pr => forall fuel, (f0 <= fuel)%nat ->
        matmul_basic radd rmul zero conj junk fuel guess (near me) wn smp (rnda me) (rndb me) opN opN alpha a b c ma mb
          [1; a1] [m; a1 + k - 1] [b0; 1] [b0 + k - 1; n] [1; 1] [m; n] me = Some pr)
      (zseq 0 (Z.to_nat (ga_nproc c))) progs /\
    forall cells es, Permutation (concat (map fst progs)) cells -> Permutation (concat (map snd progs)) es ->
      exists m1 m2, run_elems (upd_elem (rmul beta)) mc cells = Some m1 /\ run_elems (acc_event radd) m1 es = Some m2 /\
        multiplied radd rmul zero conj opN opN alpha beta A B C 1 a1 b0 1 [1; 1] [m; n] k pc mc m2.
Proof.
  intros V radd rmul zero conj junk guess near wn smp rnda rndb alpha beta a b c pa pb pc sha shb shc
    da1 da2 db1 db2 m n ma mb mc A B C a1 b0 k SR HG RA RB LA LB LC HN SA SB SC EA EB DA DB DC AA AB AC HA HB HC Hm Hn Hk A1 A2 A3 B1 B2 B3 HQ.
  destruct (C80_patch_partial guess near wn c pc shc [1; 1] [m; n] (rmul beta) mc HG LC) as (cells & n1 & FC & X); auto.
  { rewrite DC. reflexivity. } { rewrite DC. reflexivity. }
  destruct (procs_fuel (fun fuel me =>
      do ps' <- local_iterate fuel guess (near me) wn c me;
      do ls <- mapM (basic_block radd rmul zero conj junk fuel guess wn smp (rnda me) (rndb me) opN opN alpha a b ma mb [1; a1] [m; a1 + k - 1] [b0; 1] [b0 + k - 1; n] [1; 1]) ps';
      Some (concat ls))
    (fun me es => exists otss, es = op_events (concat otss) /\ proc_ok radd rmul zero conj alpha c pc A B a1 b0 k me otss)
    (zseq 0 (Z.to_nat (ga_nproc c)))) as (ess & n2 & FE & FO).
  { intros me Hme. apply zseq_In in Hme. assert (Hme' : 0 <= me < ga_nproc c) by lia.
    destruct (abs_rank_total c me (layout_group _ _ _ _ (proj1 LC)) Hme') as (w & EW).
    destruct (basic_pieces radd rmul zero conj junk guess wn smp (rnda me) (rndb me) alpha a b c pa pb pc sha shb shc da1 da2 db1 db2 m n ma mb A B a1 b0 k)
      with (near := near me) (me := me) (w := w) as (ps & otss & f & CV & FP & E); auto.
    { intros fuel ps q E Hq l0 l1 h0 h1 E1 E2. eapply HQ; eauto. }
    exists (op_events (concat otss)), f. split; [exact E|]. exists otss. split; [reflexivity|]. exists w, ps. auto. }
  assert (X1 : exists osss, ess = map (fun o => op_events (concat o)) osss /\ Forall2 (proc_ok radd rmul zero conj alpha c pc A B a1 b0 k) (zseq 0 (Z.to_nat (ga_nproc c))) osss).
  { clear - FO. induction FO as [|me es l ess (o & -> & P) F IH]; [exists []; split; [reflexivity|constructor]|].
    destruct IH as (os & -> & FF). exists (o :: os). split; [reflexivity|constructor; auto]. }
  destruct X1 as (osss & -> & FP).
  assert (LEN : length cells = length (map (fun o => op_events (concat o)) osss)).
  { rewrite <- (Forall2_len _ _ _ FC), <- (Forall2_len _ _ _ FE). reflexivity. }
  exists (combine cells (map (fun o => op_events (concat o)) osss)), (Nat.max n1 n2). split.
  { clear - FC FE DA DB DC Hm Hn Hk A1 A2 A3 B1 B2 B3. revert cells FC FE. generalize (map (fun o : list (list (region_op V * list (place * Z))) => op_events (concat o)) osss).
    induction (zseq 0 (Z.to_nat (ga_nproc c))) as [|me l IH]; intros es cells FC FE; inversion FC; inversion FE; subst; [constructor|].
    cbn [combine]. constructor; [|apply IH; auto]. intros fuel Hf. unfold matmul_basic. cbn [is_t orb]. rewrite DA, DB, DC. cbn [length Nat.eqb andb negb].
    replace (basic_checks [da1; da2] [db1; db2] [m; n] [1; a1] [m; a1 + k - 1] [b0; 1] [b0 + k - 1; n] [1; 1] [m; n]) with true.
    2:{ symmetry. unfold basic_checks. cbn [combine forallb fst snd nth]. repeat (apply andb_true_intro; split);
        first [reflexivity|apply Z.ltb_lt; lia|apply Z.leb_le; lia|apply Z.eqb_eq; lia]. }
    cbn [negb]. match goal with H : forall fuel, _ -> patch_cells _ _ _ _ _ _ _ _ = _ |- _ => rewrite H by lia end.
    match goal with H : forall fuel, _ -> match local_iterate _ _ _ _ _ _ with Some _ => _ | None => _ end = _ |- _ => specialize (H fuel ltac:(lia)); revert H end.
    destruct (local_iterate _ _ _ _ _ _) as [ps|]; [|discriminate]. destruct (mapM _ ps) as [ls|]; [|discriminate]. intros H. injection H as <-. reflexivity. }
  assert (M1 : map fst (combine cells (map (fun o => op_events (concat o)) osss)) = cells).
  { clear - LEN. revert LEN. generalize (map (fun o : list (list (region_op V * list (place * Z))) => op_events (concat o)) osss). induction cells as [|x l IH]; intros [|y l'] L; try discriminate; [reflexivity|].
    cbn. f_equal. apply IH. now injection L. }
  assert (M2 : map snd (combine cells (map (fun o => op_events (concat o)) osss)) = map (fun o => op_events (concat o)) osss).
  { clear - LEN. revert LEN. generalize (map (fun o : list (list (region_op V * list (place * Z))) => op_events (concat o)) osss). induction cells as [|x l IH]; intros [|y l'] L; try discriminate; [reflexivity|].
    cbn. f_equal. apply IH. now injection L. }
  rewrite M1, M2. intros cl es P1 P2. destruct (X cl P1) as (m1 & R1 & [U1 U2]).
  assert (BX : forall x, in_array [m; n] x <-> in_box [1; 1] [m; n] x).
  { intros [|x [|y [|]]]; cbn; lia. }
  assert (AL : allocated pc m1).
  { intros x q Hq HN0. destruct (in_box_or [1; 1] [m; n] x) as [Hb|Hb].
    - destruct (U1 x q) as (v & _ & Y); [|exact Hq|congruence]. split; [|exact Hb]. rewrite DC. apply BX, Hb.
    - rewrite U2 in HN0; [exact (AC x q Hq HN0)|]. intros y [_ Hy] Hp. destruct (any_storage _ _ _ _ (proj1 LC)) as (al & _ & _ & S3 & _).
      apply Hb. rewrite (S3 _ _ _ Hq Hp). exact Hy. }
  destruct (basic_phase radd rmul zero conj wn smp (rnda 0) (rndb 0) alpha c pc shc da1 da2 db1 db2 m n A B a1 b0 k (RA 0) (RB 0)
    (Logic.conj A1 (Logic.conj A2 A3)) (Logic.conj B1 (Logic.conj B2 B3)) SR LC DC osss es m1) as (m2 & R2 & W1 & W2); auto.
  { eapply perm_trans; [apply Permutation_sym, P2|]. rewrite concat2, op_events_concat, map_map. apply Permutation_refl. }
  exists m1, m2. split; [exact R1|]. split; [exact R2|]. split.
  - intros i j q Hb Hq. assert (IA : in_array [m; n] [i; j]) by (apply BX, Hb).
    destruct (U1 [i; j] q) as (v & V1 & V2); [split; [rewrite DC; exact IA|exact Hb]|exact Hq|]. rewrite (HC _ _ IA Hq) in V1. injection V1 as <-.
    cbn [nth]. exact (W1 i j q _ IA Hq V2).
  - intros q Hq. rewrite W2; [apply U2; intros x [_ Hb]; apply Hq, Hb|]. intros x Hx. apply Hq, BX, Hx.
Qed.
Print Assumptions C92_blocked_partial.

(** A 4x4 array in blocks of 2x2 on one process. *)
Definition ex_mm_bc : garray :=
  {| ga_desc := {| distr_type := BLOCK_CYCLIC; dims := [4; 4]; nblock := [1; 1]; mapc := []; block_dims := [2; 2]; num_blocks := [2; 2];
                   rstrctd_list := []; rank_rstrctd := [] |};
     ga_width := [0; 0]; ga_group := None; ga_nproc := 1; ga_elemsize := 8 |}.
Lemma ex_mm_bc_walk : walk_layout ex_mm_bc 1 (block_place ex_mm_bc) (block_shape ex_mm_bc).
Proof.
  split; [right|discriminate]. split; [reflexivity|]. left. split; [reflexivity|]. split; [|split; [reflexivity|split; [vm_compute; split; discriminate|auto]]].
  split; [left; reflexivity|]. split; [discriminate|]. split; [cbn; lia|]. split; [cbn; lia|reflexivity].
Qed.
Definition ex_basic oa ob (a b c : garray) (ma mb : heap Z) wn alo ahi blo bhi clo chi fuel me :=
  matmul_basic Z.add Z.mul 0 (fun v => v) 77 fuel ex_guess (fun w => w =? me) wn (fun _ => true) (fun _ _ i => i) (fun _ _ i => i)
    oa ob 7 a b c ma mb alo ahi blo bhi clo chi me.
Definition ex_basic_run beta (mc : heap Z) (rs : list (option (list place * list (buffer Z * (place * Z))))) : option (heap Z) :=
  do l <- mapM (fun r => r) rs;
  do m1 <- run_elems (upd_elem (Z.mul beta)) mc (concat (map fst l));
  run_elems (acc_event Z.add) m1 (rev (concat (map snd l))).
(** C becomes 7 A(1:4,2:4) B(1:3,1:4) + 3 C. *)
Example C92_ex_blocked :
  walk_layout ex_mm_bc 1 (block_place ex_mm_bc) (block_shape ex_mm_bc) /\
  ex_bc_at ex_mm_bc 1 [3; 2] = Some (0, 6) /\ ex_bc_at ex_mm_bc 1 [3; 3] = Some (0, 12) /\ ex_bc_at ex_mm_bc 1 [3; 4] = Some (0, 14) /\
  ex_bc_at ex_mm_bc 1 [1; 1] = Some (0, 0) /\ ex_bc_at ex_mm_bc 1 [2; 1] = Some (0, 1) /\ ex_bc_at ex_mm_bc 1 [3; 1] = Some (0, 4) /\
  (do ps <- local_iterate 9 ex_guess (fun w => w =? 0) 1 ex_mm_bc 0; Some (map (fun q => (lp_lo q, lp_hi q)) ps))
    = Some [([1; 1], [2; 2]); ([3; 1], [4; 2]); ([1; 3], [2; 4]); ([3; 3], [4; 4])] /\
  (do m' <- ex_basic_run 3 (ex_st 2) [ex_basic opN opN ex_mm_bc ex_mm_bc ex_mm_bc (ex_st 0) (ex_st 1) 1 [1; 2] [4; 4] [1; 1] [3; 4] [1; 1] [4; 4] 9 0];
   Some (hget m' (0, 4))) = Some (Some (3 * -1 + 7 * (6 * 0 + 12 * 100 + 14 * 400))).
Proof. split; [exact ex_mm_bc_walk|]. do 7 (split; [reflexivity|]). vm_compute. reflexivity. Qed.

(** ** Where it fails *)
(** Single precision and a chunk over 256: the third part of the buffer ends
    past its end (2201-2228), whatever the rest. *)
Theorem C92_float_refuted : exists a avail,
  wf_array a /\ dims (ga_desc a) = [800; 800] /\ ga_nproc a = 1 /\ ga_elemsize a = 4 /\ 64 <= avail /\
  371 * 371 * 371 * 10 <= 800 * (800 * 800) < 372 * 372 * 372 * 10 /\
  forall (V : Type) (radd rmul : V -> V -> V) zero conj junk fuel guess near smp rnda rndb rndc cube alpha ma mb,
    cube (800 * (800 * 800)) (10 * 1) = 371 ->
    matmul_patch radd rmul zero conj junk fuel guess near 1 smp rnda rndb rndc cube Z.sqrt avail 1 E_flt opN opN alpha a a a ma mb
      [1; 1] [800; 800] [1; 1] [800; 800] [1; 1] [800; 800] 0 = None.
Proof.
  set (a := {| ga_desc := {| distr_type := REGULAR; dims := [800; 800]; nblock := [1; 1]; mapc := [1; 1];
                   block_dims := []; num_blocks := []; rstrctd_list := []; rank_rstrctd := [] |};
     ga_width := [0; 0]; ga_group := None; ga_nproc := 1; ga_elemsize := 4 |}).
  exists a, 300005. split.
  { solve_arr. cbn [valid_maps a ga_desc dims nblock mapc]. change (skipn (Z.to_nat 1) [1; 1]) with [1]. split; [solve_map|]. split; [solve_map|exact I]. }
  do 3 (split; [reflexivity|]). split; [lia|]. split; [lia|]. intros V radd rmul zero conj junk fuel guess near smp rnda rndb rndc cube alpha ma mb HC.
  unfold matmul_patch. cbn [distr_type ga_desc a dims length negb andb Nat.leb elt_bytes].
  change (setup_2d (is_n opN) [1; 1] [800; 800]) with (Some (0, 1, -1)). change (setup_2d true [1; 1] [800; 800]) with (Some (0, 1, -1)). cbv beta iota.
  change (plane_range opN (Plane [1; 1] [800; 800] [800; 800] 0 1)) with (Some true). cbn [andb negb]. cbv beta iota.
  change (match_planes (Plane [1; 1] [800; 800] [800; 800] 0 1) (Plane [1; 1] [800; 800] [800; 800] 0 1) (Plane [1; 1] [800; 800] [800; 800] 0 1) (-1) (-1) (-1))
    with (Some (Plane [1; 1] [800; 800] [800; 800] 0 1, Plane [1; 1] [800; 800] [800; 800] 0 1, Plane [1; 1] [800; 800] [800; 800] 0 1)). cbv beta iota.
  change (plane_box (Plane [1; 1] [800; 800] [800; 800] 0 1)) with (Some (1, 800, 1, 800)). cbv beta iota.
  change (rows (1, 800, 1, 800)) with 800. change (cols (1, 800, 1, 800)) with 800.
  unfold patch_chunks. rewrite HC. reflexivity.
Qed.
Print Assumptions C92_float_refuted.

(** Block-distributed arrays: the block of C is intersected with itself (2680),
    so elements outside the patch change. *)
Theorem C92_block_outside_refuted : exists a (m : heap Z) q v v',
  walk_layout a 1 (block_place a) (block_shape a) /\ dims (ga_desc a) = [4; 4] /\ block_place a [3; 1] q /\ ~ in_box [1; 1] [2; 2] [3; 1] /\
  hget m q = Some v /\ v' <> v /\
  forall f, (do m' <- ex_basic_run 1 m [ex_basic opN opN a a a m m 1 [1; 1] [2; 2] [1; 1] [2; 2] [1; 1] [2; 2] (20 + f) 0]; hget m' q) = Some v'.
Proof.
  exists ex_mm_bc, (fun p o => if (p =? 0) && (0 <=? o) && (o <? 16) then Some (o + 1) else None), (0, 4), 5, (5 + 7 * (5 * 1 + 7 * 2)).
  split; [exact ex_mm_bc_walk|]. split; [reflexivity|]. split; [exists 1, [3; 1], [4; 2]; repeat split; cbn; lia|]. split; [cbn; lia|].
  split; [reflexivity|]. split; [lia|]. intros f. vm_compute. reflexivity.
Qed.
Print Assumptions C92_block_outside_refuted.
(** The buffers have the size of the block of C, but the part of A is a square:
    the whole of three 3x3 arrays in blocks of 2x2 on two processes. *)
Theorem C92_block_overflow_refuted : exists a,
  walk_layout a 2 (block_place a) (block_shape a) /\ dims (ga_desc a) = [3; 3] /\
  forall fuel, ex_basic opN opN a a a (ex_st 0) (ex_st 1) 2 [1; 1] [3; 3] [1; 1] [3; 3] [1; 1] [3; 3] fuel 0 = None.
Proof.
  exists ex_sym_bc. split; [exact ex_sym_bc_walk|]. split; [reflexivity|].
  intros fuel. do 20 (destruct fuel as [|fuel]; [vm_compute; reflexivity|]). vm_compute. reflexivity.
Qed.
Print Assumptions C92_block_overflow_refuted.
(** 't' is refused (2597-2599). *)
Theorem C92_block_trans_refuted : forall {V} (radd rmul : V -> V -> V) zero conj junk fuel guess near wn smp rnda rndb oa ob alpha a b c ma mb alo ahi blo bhi clo chi me,
  oa = opT \/ ob = opT ->
  matmul_basic radd rmul zero conj junk fuel guess near wn smp rnda rndb oa ob alpha a b c ma mb alo ahi blo bhi clo chi me = None.
Proof. intros. unfold matmul_basic. destruct H as [-> | ->]; [reflexivity|]. destruct (is_t oa); reflexivity. Qed.
(** 'c' is not: the blocks of A are fetched as if untransposed and transposed one
    by one.  Element (3,1) of the product of the whole arrays. *)
Theorem C92_block_conj_refuted : exists a (m : heap Z) q v v',
  walk_layout a 1 (block_place a) (block_shape a) /\ dims (ga_desc a) = [4; 4] /\ block_place a [3; 1] q /\
  (forall f, (do m' <- ex_basic_run 0 m [ex_basic opC opN a a a m m 1 [1; 1] [4; 4] [1; 1] [4; 4] [1; 1] [4; 4] (20 + f) 0]; hget m' q) = Some v) /\
  v' = 7 * product Z.add Z.mul 0 (fun v => v) opC opN (fun x => match ex_bc_at a 1 x with Some p => match hget m p with Some u => u | None => 0 end | None => 0 end)
         (fun x => match ex_bc_at a 1 x with Some p => match hget m p with Some u => u | None => 0 end | None => 0 end) 1 1 1 1 4 2 0 /\ v' <> v.
Proof.
  set (m := (fun p o => if (p =? 0) && (0 <=? o) && (o <? 16) then Some (o + 1) else None) : heap Z).
  set (r := (do m' <- ex_basic_run 0 m [ex_basic opC opN ex_mm_bc ex_mm_bc ex_mm_bc m m 1 [1; 1] [4; 4] [1; 1] [4; 4] [1; 1] [4; 4] 20 0]; hget m' (0, 4))).
  let v := eval vm_compute in r in match v with Some ?w => exists ex_mm_bc, m, (0, 4), w end. eexists.
  split; [exact ex_mm_bc_walk|]. split; [reflexivity|]. split; [exists 1, [3; 1], [4; 2]; repeat split; cbn; lia|].
  split; [intros f; vm_compute; reflexivity|]. split; [reflexivity|]. vm_compute. discriminate.
Qed.
Print Assumptions C92_block_conj_refuted.
