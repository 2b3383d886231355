(** C93: GA_Dgemm. *)
From Verif Require Import SpecDiag SpecDgemm MNb MHandle MGroup LRadix LDist LStore LXfer LXfer2 LGcopy2 LPw LPw2 LStep MPw PIter PDist PXfer PCpatch PAdd PSym PPw LGcopy4 LGcopy5 LSelect2 LCpatch2 LMat LMat2 LDgemm LDgemm2 LDgemm4 PMat MDgemm.
Open Scope Z_scope.

Lemma dgemm_checks_ok oa ob da1 da2 db1 db2 dc1 dc2 ailo aihi ajlo ajhi bilo bihi bjlo bjhi cilo cihi cjlo cjhi :
  op_patch oa [da1; da2] [ailo; ajlo] [aihi; ajhi] -> op_patch ob [db1; db2] [bilo; bjlo] [bihi; bjhi] -> op_patch opN [dc1; dc2] [cilo; cjlo] [cihi; cjhi] ->
  cihi - cilo = aihi - ailo -> ajhi - ajlo = bihi - bilo -> bjhi - bjlo = cjhi - cjlo ->
  dgemm_checks oa ob [da1; da2] [db1; db2] [dc1; dc2] (ailo, aihi, ajlo, ajhi) (bilo, bihi, bjlo, bjhi) (cilo, cihi, cjlo, cjhi) = Some true.
Proof.
  intros PA PB PC E1 E2 E3. unfold dgemm_checks. cbn [length Nat.eqb andb negb]. unfold rows, cols. cbn [fst snd].
  assert (X : forall o d1 d2 l0 l1 h0 h1, op_patch o [d1; d2] [l0; l1] [h0; h1] -> dgemm_range o [d1; d2] (l0, h0, l1, h1) = Some true).
  { intros o d1 d2 l0 l1 h0 h1 HP. unfold dgemm_range. change (zget [d1; d2] 0) with (Some d1). change (zget [d1; d2] 1) with (Some d2). cbn match. destruct o; cbn in HP; cbn [is_n]; (f_equal; apply negb_true_iff; repeat (apply orb_false_intro); first [apply Z.leb_gt; lia|apply Z.ltb_ge; lia]). }
  rewrite (X oa da1 da2 ailo ajlo aihi ajhi PA), (X ob db1 db2 bilo bjlo bihi bjhi PB), (X opN dc1 dc2 cilo cjlo cihi cjhi PC).
  f_equal. repeat (apply andb_true_intro; split); first [reflexivity|apply Z.eqb_eq; lia].
Qed.
Lemma combine_fst {X Y} (l : list X) (l' : list Y) : length l = length l' -> map fst (combine l l') = l.
Proof. revert l'. induction l as [|x l IH]; intros [|y l'] L; try discriminate; [reflexivity|]. cbn. f_equal. apply IH. now injection L. Qed.
Lemma combine_snd {X Y} (l : list X) (l' : list Y) : length l = length l' -> map snd (combine l l') = l'.
Proof. revert l'. induction l as [|x l IH]; intros [|y l'] L; try discriminate; [reflexivity|]. cbn. f_equal. apply IH. now injection L. Qed.
Lemma scaled_allocated {V} (c : garray) wn (f : V -> V) m mc m1 n (C : list Z -> V) : any_layout c wn (reg_place c) (reg_shape c) -> dims (ga_desc c) = [m; n] ->
  forall clo chi, in_array [m; n] clo -> in_array [m; n] chi -> allocated (reg_place c) mc ->
  updated (fun x => in_array (dims (ga_desc c)) x /\ in_box clo chi x) f (reg_place c) mc m1 -> allocated (reg_place c) m1.
Proof.
  intros LC DC clo chi H1 H2 AC [U1 U2] x q Hq HN0. destruct (in_box_or clo chi x) as [Hb|Hb].
  - destruct (U1 x q) as (v & _ & Y); [|exact Hq|congruence]. split; [|exact Hb]. rewrite DC.
    destruct clo as [|? [|? [|]]], chi as [|? [|? [|]]], x as [|? [|? [|]]]; cbn in *; try tauto; lia.
  - rewrite U2 in HN0; [exact (AC x q Hq HN0)|]. intros y [_ Hy] Hp. destruct (any_storage _ _ _ _ LC) as (al & _ & _ & S3 & _).
    apply Hb. rewrite (S3 _ _ _ Hq Hp). exact Hy.
Qed.

(** ** The irregular algorithm *)
(** C on the world group, A and B in any distribution, and any chunk sizes.  The accumulates of the
    processes may come in any order.  Missing: arrays on other groups (below), A
    or B the same array as C, a chunk over 2 GB. *)
Theorem C93_irreg_partial : forall {V} (radd rmul : V -> V -> V) zero conj junk is_zero guess near wn smp rnda rndb rndc I J K oa ob alpha beta a b c pa pb sha shb
    da1 da2 db1 db2 dc1 dc2 ma mb mc (A B C : list Z -> V) ailo aihi ajlo ajhi bilo bihi bjlo bjhi cilo cihi cjlo cjhi,
  semiring radd rmul zero -> (forall v, is_zero v = true -> v = zero) ->
  good_guess guess -> (forall me t k, 0 <= rnda me t k) -> (forall me t k, 0 <= rndb me t k) -> (forall me t k, 0 <= rndc me t k) ->
  1 <= I -> 1 <= J -> 1 <= K ->
  any_layout a wn pa sha -> any_layout b wn pb shb -> wf_array c -> 1 <= wn -> ga_nproc c = wn ->
  ga_group a = None -> ga_group b = None -> ga_group c = None -> (forall me, near me me = true) ->
  small_local a sha -> small_local b shb -> small_local c (reg_shape c) ->
  dims (ga_desc a) = [da1; da2] -> dims (ga_desc b) = [db1; db2] -> dims (ga_desc c) = [dc1; dc2] ->
  allocated pa ma -> allocated pb mb -> allocated (reg_place c) mc ->
  holds [da1; da2] pa ma A -> holds [db1; db2] pb mb B -> holds [dc1; dc2] (reg_place c) mc C ->
  op_patch oa [da1; da2] [ailo; ajlo] [aihi; ajhi] -> op_patch ob [db1; db2] [bilo; bjlo] [bihi; bjhi] ->
  op_patch opN [dc1; dc2] [cilo; cjlo] [cihi; cjhi] ->
  cihi - cilo = aihi - ailo -> ajhi - ajlo = bihi - bilo -> bjhi - bjlo = cjhi - cjlo ->
  ga_elemsize a * (I * K) <= int_max -> ga_elemsize b * (K * J) <= int_max -> ga_elemsize c * (I * J) <= int_max ->
  exists progs n,
    Forall2 (fun me pr => forall fuel, (n <= fuel)%nat ->
        dgemm_irreg radd rmul zero conj junk fuel guess (near me) wn smp (rnda me) (rndb me) (rndc me) wn I J K oa ob alpha a b c ma mb
          (ailo, aihi, ajlo, ajhi) (bilo, bihi, bjlo, bjhi) (cilo, cihi, cjlo, cjhi) me = Some pr)
      (zseq 0 (Z.to_nat wn)) progs /\
    forall cells es, Permutation (concat (map fst progs)) cells -> Permutation (concat (map snd progs)) es ->
      exists m1 m2, run_elems (upd_elem (code_beta rmul is_zero beta)) mc cells = Some m1 /\ run_elems (acc_event radd) m1 es = Some m2 /\
        multiplied radd rmul zero conj oa ob alpha beta A B C ailo ajlo bilo bjlo [cilo; cjlo] [cihi; cjhi] (ajhi - ajlo + 1) (reg_place c) mc m2.
Proof.
  intros V radd rmul zero conj junk is_zero guess near wn smp rnda rndb rndc I J K oa ob alpha beta a b c pa pb sha shb
    da1 da2 db1 db2 dc1 dc2 ma mb mc A B C ailo aihi ajlo ajhi bilo bihi bjlo bjhi cilo cihi cjlo cjhi
    SR HZ HG RA RB RC HI HJ HK LA LB WC Hw NC GA GB GC HN SA SB SC DA DB DC AA AB AC HA HB HC PA PB PC E1 E2 E3 Ia Ib Ic.
  assert (LC : any_layout c wn (reg_place c) (reg_shape c)) by (left; auto).
  assert (WL : walk_layout c wn (reg_place c) (reg_shape c)).
  { split; [exact LC|]. intros T. destruct WC as ((R & _) & _). congruence. }
  destruct (C80_patch_partial guess near wn c (reg_place c) (reg_shape c) [cilo; cjlo] [cihi; cjhi] (code_beta rmul is_zero beta) mc HG WL) as (cells & n1 & FC & X); auto.
  { intros me w. unfold abs_rank. rewrite GC. intros E. injection E as <-. apply HN. }
  { rewrite DC. reflexivity. } { rewrite DC. reflexivity. } rewrite NC in FC.
  set (is := chunks (aihi - ailo + 1) I). set (ks := chunks (ajhi - ajlo + 1) K). set (js := chunks (bjhi - bjlo + 1) J).
  destruct (procs_fuel (fun fuel me => irreg_loop radd rmul zero conj junk fuel guess wn smp (rnda me) (rndb me) (rndc me) oa ob alpha a b c
      (Plane [ailo; ajlo] [aihi; ajhi] [da1; da2] 0 1) (Plane [bilo; bjlo] [bihi; bjhi] [db1; db2] 0 1) (Plane [cilo; cjlo] [cihi; cjhi] [dc1; dc2] 0 1) ma mb wn me (I * K) (K * J) is ks js)
    (fun me es => exists ots, es = op_events ots /\ Forall2 (task_ok radd rmul zero conj oa ob alpha (reg_place c) A B ailo ajlo bilo bjlo cilo cjlo) (mine wn me 0 (tasks is ks js)) ots)
    (zseq 0 (Z.to_nat wn))) as (ess & n2 & FE & FO).
  { intros me _. destruct (irreg_loop_ok radd rmul zero conj junk guess wn smp (rnda me) (rndb me) (rndc me) oa ob alpha a b c pa pb (reg_place c) sha shb (reg_shape c)
      da1 da2 db1 db2 dc1 dc2 ma mb A B ailo aihi ajlo ajhi bilo bihi bjlo bjhi cilo cihi cjlo cjhi wn me (I * K) (K * J) I J K) with (is := is) (ks := ks) (js := js) as (ots & n & F & E); auto; try lia.
    - intros ic H. apply chunks_In in H; [exact H|assumption].
    - intros kc H. apply chunks_In in H; [exact H|assumption].
    - intros jc H. apply chunks_In in H; [exact H|assumption].
    - exists (op_events ots), n. split; [exact E|]. exists ots. auto. }
  assert (X1 : exists otss, ess = map op_events otss /\ Forall2 (fun me ots => Forall2 (task_ok radd rmul zero conj oa ob alpha (reg_place c) A B ailo ajlo bilo bjlo cilo cjlo) (mine wn me 0 (tasks is ks js)) ots) (zseq 0 (Z.to_nat wn)) otss).
  { clear - FO. induction FO as [|me es l ess (o & -> & P) F IH]; [exists []; split; [reflexivity|constructor]|].
    destruct IH as (os & -> & FF). exists (o :: os). split; [reflexivity|constructor; auto]. }
  destruct X1 as (otss & -> & FT).
  assert (LEN : length cells = length (map op_events otss)) by (rewrite <- (Forall2_len _ _ _ FC), <- (Forall2_len _ _ _ FE); reflexivity).
  exists (combine cells (map op_events otss)), (Nat.max n1 n2). split.
  { clear - FC FE DA DB DC GA GB GC PA PB PC E1 E2 E3. revert cells FC FE. generalize (map op_events otss).
    induction (zseq 0 (Z.to_nat wn)) as [|me l IH]; intros es cells FC FE; inversion FC; inversion FE; subst; [constructor|].
    cbn [combine]. constructor; [|apply IH; auto]. intros fuel Hf. unfold dgemm_irreg. rewrite DA, DB, DC, dgemm_checks_ok by auto.
    unfold same_group. rewrite GA, GB, GC. cbn [andb negb pl_lo pl_hi]. unfold rows, cols. cbn [fst snd].
    match goal with H : forall fuel, _ -> patch_cells _ _ _ _ _ _ _ _ = _ |- _ => rewrite H by lia end.
    match goal with H : forall fuel, _ -> irreg_loop _ _ _ _ _ _ _ _ _ _ _ _ _ _ _ _ _ _ _ _ _ _ _ _ _ _ _ _ _ _ = _ |- _ => rewrite H by lia end. reflexivity. }
  rewrite combine_fst, combine_snd by exact LEN. intros cl es P1 P2. destruct (X cl P1) as (m1 & R1 & UU). pose proof UU as [U1 U2].
  assert (AL : allocated (reg_place c) m1).
  { destruct PC as (P3 & P4 & _). exact (scaled_allocated c wn _ _ _ _ _ C LC DC _ _ P3 P4 AC UU). }
  pose proof (in_flat_Forall2 _ _ _ _ FT) as FF.
  destruct (Permutation_Forall2 (mine_all wn _ Hw 0) FF) as (ots & PO & FO').
  destruct (phase_acc radd rmul zero conj oa ob alpha c wn (reg_place c) (reg_shape c) A B ailo ajlo bilo bjlo cilo cihi cjlo cjhi (ajhi - ajlo + 1) I J K
    SR LC HI HJ HK ots es m1) as (m2 & R2 & W1 & W2); auto.
  { unfold is, ks, js in FO'. rewrite E1, <- E3. exact FO'. }
  { eapply perm_trans; [apply Permutation_sym, P2|]. rewrite <- op_events_concat. apply op_events_perm, PO. }
  exists m1, m2. split; [exact R1|]. split; [exact R2|]. split.
  - intros i j q Hb Hq. assert (IA : in_array (dims (ga_desc c)) [i; j]) by (destruct PC as (P3 & P4 & _); rewrite DC; cbn in *; lia).
    destruct (U1 [i; j] q (Logic.conj IA Hb) Hq) as (v & V1 & V2). rewrite DC in IA. rewrite (HC _ _ IA Hq) in V1. injection V1 as <-.
    cbn [nth]. rewrite (W1 i j q _ Hb Hq V2). f_equal. f_equal. unfold code_beta. destruct (is_zero beta) eqn:EZ; [|reflexivity].
    rewrite (HZ _ EZ). destruct SR as (_ & _ & _ & _ & _ & Z1). symmetry. apply Z1.
  - intros q Hq. rewrite W2 by exact Hq. apply U2. intros x [_ Hb]. apply Hq, Hb.
Qed.
Print Assumptions C93_irreg_partial.

(** ** The shared memory algorithm *)
Section Nil.
Context {V : Type} (radd rmul : V -> V -> V) (zero : V) (conj : V -> V) (junk : V).
Variables (fuel : nat) (guess : Z -> Z -> Z -> Z) (wn : Z) (smp : Z -> bool) (rnda rndb rndc : Z -> Z -> Z).
Variables (oa ob : mop) (alpha : V) (a b c : garray) (pa pb pc : plane) (ma mb : heap V) (sa sb : Z).
Lemma shm_inner_nil ks jc : forall p t, shm_inner radd rmul zero conj junk fuel guess wn smp rnda rndb rndc oa ob alpha a b c pa pb pc ma mb sa sb p [] ks jc t = Some [].
Proof. induction ks as [|kc ks IH]; intros p t; [reflexivity|]. cbn [shm_inner shm_rows]. rewrite IH. reflexivity. Qed.
Lemma shm_cols_nil p ks js : forall t, shm_cols radd rmul zero conj junk fuel guess wn smp rnda rndb rndc oa ob alpha a b c pa pb pc ma mb sa sb p [] ks js t = Some [].
Proof. induction js as [|jc js IH]; intros t; [reflexivity|]. cbn [shm_cols]. rewrite shm_inner_nil, IH. reflexivity. Qed.
End Nil.
Lemma inner_tags_nil ks jc : forall p, inner_tags p [] ks jc = [].
Proof. induction ks as [|kc ks IH]; intros p; [reflexivity|]. cbn [inner_tags rows_tags map app]. apply IH. Qed.
Lemma cols_tags_nil p ks js : cols_tags p [] ks js = [].
Proof. unfold cols_tags. induction js as [|jc js IH]; [reflexivity|]. cbn [flat_map]. now rewrite inner_tags_nil. Qed.
Lemma chunks_empty l h c : h < l -> chunks_from l h c = [].
Proof. intros H. unfold chunks_from, chunks. replace (Z.to_nat (h - l + 1)) with O by lia. reflexivity. Qed.

(** The phases of both algorithms: C is scaled, and then every process does its tasks. *)
Lemma tasks_phase : forall {V} (radd rmul : V -> V -> V) zero conj is_zero guess near wn (prog : nat -> Z -> option (list (tagged (V := V)))) I J K oa ob alpha beta c
    m n k mc (A B C : list Z -> V) ailo ajlo bilo bjlo,
  semiring radd rmul zero -> (forall v, is_zero v = true -> v = zero) -> good_guess guess ->
  (forall me, 1 <= I me) -> (forall me, 1 <= J me) -> (forall me, 1 <= K me) -> 1 <= k -> 1 <= m -> 1 <= n ->
  wf_array c -> ga_nproc c = wn -> ga_group c = None -> (forall me, near me me = true) -> dims (ga_desc c) = [m; n] ->
  allocated (reg_place c) mc -> holds [m; n] (reg_place c) mc C ->
  (forall me l0 l1 h0 h1, 0 <= me < wn -> distribution (ga_desc c) me = Some ([l0; l1], [h0; h1]) -> (l0 <= h0 -> l1 <= h1 -> 1 <= l0 /\ 1 <= l1 /\ h0 <= m /\ h1 <= n) ->
     exists xs n', (forall fuel, (n' <= fuel)%nat -> prog fuel me = Some (tag_ops xs)) /\
       Forall2 (ttok radd rmul zero conj oa ob alpha (reg_place c) A B ailo ajlo bilo bjlo 1 1)
         (cols_tags (is_zero beta) (chunks_from (l0 - 1) (h0 - 1) (I me)) (chunks k (K me)) (chunks_from (l1 - 1) (h1 - 1) (J me))) xs) ->
  exists progs f0,
    Forall2 (fun me pr => forall fuel, (f0 <= fuel)%nat ->
        (do cells <- (if is_zero beta then Some [] else patch_cells fuel guess (near me) wn c me [1; 1] [m; n]); do es <- prog fuel me; Some (cells, es)) = Some pr)
      (zseq 0 (Z.to_nat wn)) progs /\
    forall cells es, Permutation (concat (map fst progs)) cells -> interleaved tcell (map snd progs) es ->
      exists m1 m2, run_elems (upd_elem (rmul beta)) mc cells = Some m1 /\ run_elems (tag_event radd) m1 es = Some m2 /\
        multiplied radd rmul zero conj oa ob alpha beta A B C ailo ajlo bilo bjlo [1; 1] [m; n] k (reg_place c) mc m2.
Proof.
  intros V radd rmul zero conj is_zero guess near wn prog I J K oa ob alpha beta c m n k mc A B C ailo ajlo bilo bjlo
    SR HZ HG HI HJ HK Hk Hm Hn WC NC GC HN DC AC HC HP.
  assert (PC : op_patch opN [m; n] [1; 1] [m; n]).
  { cbn. split; [lia|]. split; [lia|]. repeat constructor; lia. }
  assert (LC : any_layout c wn (reg_place c) (reg_shape c)) by (left; auto).
  assert (WL : walk_layout c wn (reg_place c) (reg_shape c)).
  { split; [exact LC|]. intros T. destruct WC as ((R & _) & _). congruence. }
  destruct (C80_patch_partial guess near wn c (reg_place c) (reg_shape c) [1; 1] [m; n] (rmul beta) mc HG WL) as (cells & n1 & FC & X); auto.
  { intros me w. unfold abs_rank. rewrite GC. intros E. injection E as <-. apply HN. }
  { rewrite DC. reflexivity. } { rewrite DC. reflexivity. } rewrite NC in FC.
  set (zb := is_zero beta) in *.
  destruct (procs_fuel prog
    (fun me es => exists xs, es = tag_ops xs /\ shm_proc radd rmul zero conj oa ob alpha c A B ailo ajlo bilo bjlo k I J K zb me xs)
    (zseq 0 (Z.to_nat wn))) as (ess & n2 & FE & FO).
  { intros me Hme. apply zseq_In in Hme.
    destruct (regular_blocks_inside wn (ga_desc c) me) as (lo & hi & ED & IN); [rewrite <- NC; apply WC|lia|].
    assert (LL : exists l0 l1 h0 h1, lo = [l0; l1] /\ hi = [h0; h1]).
    { pose proof (dist_len _ _ _ _ (proj1 (proj1 WC)) ED) as D2. pose proof (dist_len_dims _ _ _ _ (proj1 (proj1 WC)) ED) as D1. rewrite DC in D1. cbn in D1. rewrite D1 in D2.
      destruct lo as [|l0 [|l1 [|]]], hi as [|h0 [|h1 [|]]]; try discriminate. exists l0, l1, h0, h1. auto. }
    destruct LL as (l0 & l1 & h0 & h1 & -> & ->).
    destruct (HP me l0 l1 h0 h1) as (xs & n' & E & F); auto; try lia.
    { intros H0 H1. assert (I1 : in_array (dims (ga_desc c)) [l0; l1]) by (apply IN; cbn; lia). assert (I2 : in_array (dims (ga_desc c)) [h0; h1]) by (apply IN; cbn; lia).
      rewrite DC in I1, I2. cbn in I1, I2. lia. }
    exists (tag_ops xs), n'. split; [exact E|]. exists xs. split; [reflexivity|]. exists l0, l1, h0, h1. split; [exact ED|exact F]. }
  assert (X1 : exists xss, ess = map tag_ops xss /\ Forall2 (shm_proc radd rmul zero conj oa ob alpha c A B ailo ajlo bilo bjlo k I J K zb) (zseq 0 (Z.to_nat wn)) xss).
  { clear - FO. induction FO as [|me es l ess (o & -> & P) F IH]; [exists []; split; [reflexivity|constructor]|].
    destruct IH as (os & -> & FF). exists (o :: os). split; [reflexivity|constructor; auto]. }
  destruct X1 as (xss & -> & FT).
  set (cells' := map (fun x => if zb then [] else x) cells).
  assert (LEN : length cells' = length (map tag_ops xss)) by (unfold cells'; rewrite map_length, <- (Forall2_len _ _ _ FC), <- (Forall2_len _ _ _ FE); reflexivity).
  exists (combine cells' (map tag_ops xss)), (Nat.max n1 n2). split.
  { clear - FC FE zb. unfold cells'. clear cells'. revert cells FC FE. generalize (map tag_ops xss).
    induction (zseq 0 (Z.to_nat wn)) as [|me l IH]; intros es cells FC FE; inversion FC; inversion FE; subst; [constructor|].
    cbn [combine map]. constructor; [|apply IH; auto]. intros fuel Hf.
    match goal with H : forall fuel, _ -> patch_cells _ _ _ _ _ _ _ _ = _ |- _ => rewrite H by lia end.
    match goal with H : forall fuel, _ -> prog _ _ = _ |- _ => rewrite H by lia end. destruct zb; reflexivity. }
  rewrite combine_fst, combine_snd by exact LEN. intros cl es P1 P2.
  assert (M1 : exists m1, run_elems (upd_elem (rmul beta)) mc cl = Some m1 /\ allocated (reg_place c) m1 /\
     (forall i j q, in_box [1; 1] [m; n] [i; j] -> reg_place c [i; j] q -> exists v, hget m1 q = Some v /\ (if zb then zero else v) = rmul beta (C [i; j])) /\
     (forall q, (forall x, in_box [1; 1] [m; n] x -> ~ reg_place c x q) -> hget m1 q = hget mc q)).
  { unfold cells', zb in *. destruct (is_zero beta) eqn:EZ.
    - assert (cl = []) as ->.
      { replace (concat (map (fun _ : list place => []) cells)) with (@nil place) in P1; [now apply Permutation_nil|]. clear. induction cells; auto. }
      exists mc. split; [reflexivity|]. split; [exact AC|]. split; [|reflexivity]. intros i j q Hb Hq.
      exists (C [i; j]). split; [apply HC; [cbn in *; lia|exact Hq]|]. rewrite (HZ _ EZ). destruct SR as (_ & _ & _ & _ & _ & Z1). symmetry. apply Z1.
    - rewrite map_id in P1. destruct (X cl P1) as (m1 & R1 & UU). pose proof UU as [U1 U2]. exists m1. split; [exact R1|]. split.
      { destruct PC as (P3 & P4 & _). exact (scaled_allocated c wn _ _ _ _ _ C LC DC _ _ P3 P4 AC UU). }
      split.
      + intros i j q Hb Hq. assert (IA : in_array (dims (ga_desc c)) [i; j]) by (rewrite DC; cbn in *; lia).
        destruct (U1 [i; j] q (Logic.conj IA Hb) Hq) as (v & V1 & V2). rewrite DC in IA. rewrite (HC _ _ IA Hq) in V1. injection V1 as <-. eauto.
      + intros q Hq. apply U2. intros x [_ Hb]. apply Hq, Hb. }
  destruct M1 as (m1 & R1 & AL & W3 & W4). rewrite <- NC in FT.
  destruct (shm_phase radd rmul zero conj oa ob alpha c A B ailo ajlo bilo bjlo m n k I J K zb SR wn LC WC DC HI HJ HK Hk xss es m1 FT P2 AL) as (m2 & R2 & W1 & W2).
  exists m1, m2. split; [exact R1|]. split; [exact R2|]. split.
  - intros i j q Hb Hq. destruct (W3 i j q Hb Hq) as (v & V1 & V2). rewrite (W1 i j q v Hb Hq V1), V2. reflexivity.
  - intros q Hq. rewrite W2 by exact Hq. apply W4, Hq.
Qed.

(** C on the world group, A and B in any distribution, any chunk sizes of each process; the patch of C is
    the whole array.  Each process computes its block of C; the updates of the
    processes may be interleaved in any way that keeps, for each process, the
    order of its updates of one place.  Missing: arrays on other groups (below),
    A or B the same array as C, a chunk over 2 GB. *)
Theorem C93_shmem_partial : forall {V} (radd rmul : V -> V -> V) zero conj junk is_zero guess near wn smp rnda rndb rndc I J K oa ob alpha beta a b c pa pb sha shb
    da1 da2 db1 db2 m n ma mb mc (A B C : list Z -> V) ailo aihi ajlo ajhi bilo bihi bjlo bjhi,
  semiring radd rmul zero -> (forall v, is_zero v = true -> v = zero) ->
  good_guess guess -> (forall me t k, 0 <= rnda me t k) -> (forall me t k, 0 <= rndb me t k) -> (forall me t k, 0 <= rndc me t k) ->
  (forall me, 1 <= I me) -> (forall me, 1 <= J me) -> (forall me, 1 <= K me) ->
  any_layout a wn pa sha -> any_layout b wn pb shb -> wf_array c -> ga_nproc c = wn ->
  ga_group a = None -> ga_group b = None -> ga_group c = None -> (forall me, near me me = true) ->
  small_local a sha -> small_local b shb -> small_local c (reg_shape c) ->
  dims (ga_desc a) = [da1; da2] -> dims (ga_desc b) = [db1; db2] -> dims (ga_desc c) = [m; n] ->
  allocated pa ma -> allocated pb mb -> allocated (reg_place c) mc ->
  holds [da1; da2] pa ma A -> holds [db1; db2] pb mb B -> holds [m; n] (reg_place c) mc C ->
  op_patch oa [da1; da2] [ailo; ajlo] [aihi; ajhi] -> op_patch ob [db1; db2] [bilo; bjlo] [bihi; bjhi] ->
  m = aihi - ailo + 1 -> ajhi - ajlo = bihi - bilo -> n = bjhi - bjlo + 1 ->
  (forall me, ga_elemsize a * (I me * K me) <= int_max) -> (forall me, ga_elemsize b * (K me * J me) <= int_max) -> (forall me, ga_elemsize c * (I me * J me) <= int_max) ->
  exists progs f0,
    Forall2 (fun me pr => forall fuel, (f0 <= fuel)%nat ->
        dgemm_shmem radd rmul zero conj junk fuel guess (near me) wn smp (rnda me) (rndb me) (rndc me) (I me) (J me) (K me) oa ob alpha (is_zero beta) a b c ma mb
          (ailo, aihi, ajlo, ajhi) (bilo, bihi, bjlo, bjhi) (1, m, 1, n) me = Some pr)
      (zseq 0 (Z.to_nat wn)) progs /\
    forall cells es, Permutation (concat (map fst progs)) cells -> interleaved tcell (map snd progs) es ->
      exists m1 m2, run_elems (upd_elem (rmul beta)) mc cells = Some m1 /\ run_elems (tag_event radd) m1 es = Some m2 /\
        multiplied radd rmul zero conj oa ob alpha beta A B C ailo ajlo bilo bjlo [1; 1] [m; n] (ajhi - ajlo + 1) (reg_place c) mc m2.
Proof.
  intros V radd rmul zero conj junk is_zero guess near wn smp rnda rndb rndc I J K oa ob alpha beta a b c pa pb sha shb
    da1 da2 db1 db2 m n ma mb mc A B C ailo aihi ajlo ajhi bilo bihi bjlo bjhi
    SR HZ HG RA RB RC HI HJ HK LA LB WC NC GA GB GC HN SA SB SC DA DB DC AA AB AC HA HB HC PA PB E1 E2 E3 Ia Ib Ic.
  assert (QA : ailo <= aihi /\ ajlo <= ajhi).
  { destruct oa; cbn in PA; destruct PA as (_ & _ & F); inversion F as [|? ? ? ? Q1 F2]; subst; inversion F2; subst; lia. }
  assert (QB : bjlo <= bjhi).
  { destruct ob; cbn in PB; destruct PB as (_ & _ & F); inversion F as [|? ? ? ? Q1 F2]; subst; inversion F2; subst; lia. }
  assert (PC : op_patch opN [m; n] [1; 1] [m; n]).
  { cbn. split; [lia|]. split; [lia|]. repeat constructor; lia. }
  assert (LC : any_layout c wn (reg_place c) (reg_shape c)) by (left; auto).
  set (plA := Plane [ailo; ajlo] [aihi; ajhi] [da1; da2] 0 1). set (plB := Plane [bilo; bjlo] [bihi; bjhi] [db1; db2] 0 1). set (plC := Plane [1; 1] [m; n] [m; n] 0 1).
  destruct (tasks_phase radd rmul zero conj is_zero guess near wn (fun fuel me =>
      do d <- distribution (ga_desc c) me;
      do l0 <- zget (fst d) 0; do l1 <- zget (fst d) 1; do h0 <- zget (snd d) 0; do h1 <- zget (snd d) 1;
      shm_cols radd rmul zero conj junk fuel guess wn smp (rnda me) (rndb me) (rndc me) oa ob alpha a b c plA plB plC ma mb (I me * K me) (K me * J me)
        (is_zero beta) (chunks_from (l0 - 1) (h0 - 1) (I me)) (chunks (ajhi - ajlo + 1) (K me)) (chunks_from (l1 - 1) (h1 - 1) (J me)) 0)
    I J K oa ob alpha beta c m n (ajhi - ajlo + 1) mc A B C ailo ajlo bilo bjlo) as (progs & f0 & F & R); auto; try lia.
  { intros me l0 l1 h0 h1 Hme ED IN. rewrite ED. cbn [fst snd].
    change (zget [l0; l1] 0) with (Some l0). change (zget [l0; l1] 1) with (Some l1). change (zget [h0; h1] 0) with (Some h0). change (zget [h0; h1] 1) with (Some h1). cbv beta iota.
    destruct (Z_le_gt_dec l0 h0) as [H0|H0]; [|].
    2:{ exists [], O. split; [intros; rewrite (chunks_empty (l0 - 1) (h0 - 1)) by lia; apply shm_cols_nil|]. rewrite (chunks_empty (l0 - 1) (h0 - 1)) by lia. rewrite cols_tags_nil. constructor. }
    destruct (Z_le_gt_dec l1 h1) as [H1|H1]; [|].
    2:{ exists [], O. split; [intros; rewrite (chunks_empty (l1 - 1) (h1 - 1)) by lia; reflexivity|]. rewrite (chunks_empty (l1 - 1) (h1 - 1)) by lia. constructor. }
    specialize (IN H0 H1).
    destruct (shm_cols_ok radd rmul zero conj junk guess wn smp (rnda me) (rndb me) (rndc me) oa ob alpha a b c pa pb (reg_place c) sha shb (reg_shape c)
      da1 da2 db1 db2 m n ma mb A B ailo aihi ajlo ajhi bilo bihi bjlo bjhi 1 m 1 n (I me * K me) (K me * J me) (I me) (J me) (K me))
      with (is := chunks_from (l0 - 1) (h0 - 1) (I me)) (ks := chunks (ajhi - ajlo + 1) (K me)) (js := chunks_from (l1 - 1) (h1 - 1) (J me)) (p := is_zero beta) (t := 0) as (xs & n' & F & E); auto; try lia.
    - intros ic H. apply chunks_from_In in H; [|apply HI]. unfold chunk_of. lia.
    - intros kc H. apply chunks_In in H; [exact H|auto].
    - intros jc H. apply chunks_from_In in H; [|apply HJ]. unfold chunk_of. lia.
    - exists xs, n'. split; [exact E|exact F]. }
  exists progs, f0. split; [|exact R]. clear - F DA DB DC GA GB GC PA PB PC E1 E2 E3. induction F as [|me pr l progs H F IH]; constructor; [|exact IH].
  intros fuel Hf. rewrite <- (H fuel Hf). unfold dgemm_shmem. rewrite DA, DB, DC, dgemm_checks_ok by (auto; lia).
  unfold same_group. rewrite GA, GB, GC. cbn [andb negb pl_lo pl_hi]. unfold cols. cbn [fst snd]. fold plA plB plC.
  destruct (if is_zero beta then _ else _); [|reflexivity]. destruct (distribution _ _) as [d|]; [|reflexivity]. destruct (zget (fst d) 0); [|reflexivity]. destruct (zget (fst d) 1); [|reflexivity].
  destruct (zget (snd d) 0); [|reflexivity]. destruct (zget (snd d) 1); reflexivity.
Qed.
Print Assumptions C93_shmem_partial.

(** ** The algorithm for regular distributions *)
(** The local iterator of a map-distributed array. *)
Lemma own_block_iterate guess near wn a me l0 l1 h0 h1 w : good_guess guess -> wf_array a -> 0 <= me < ga_nproc a -> abs_rank a me = Some w -> near w = true ->
  distribution (ga_desc a) me = Some ([l0; l1], [h0; h1]) ->
  exists ps, (forall fuel, (2 <= fuel)%nat -> local_iterate fuel guess near wn a me = Some ps) /\
    ((ps = [] /\ ~ (l0 <= h0 /\ l1 <= h1)) \/ (l0 <= h0 /\ l1 <= h1 /\ exists off ld, ps = [LPiece [l0; l1] [h0; h1] w off ld])).
Proof.
  intros HG WA Hme EW HN ED. pose proof WA as (WR & _). pose proof WR as (HT & _). destruct (le_all [l0; l1] [h0; h1]) eqn:LE.
  - pose proof (proj1 (le_all_true [l0; l1] [h0; h1] eq_refl) LE) as Hle. inversion Hle as [|? ? ? ? H0 Hle']; subst. inversion Hle' as [|? ? ? ? H1]; subst.
    destruct (access_ptr_spec guess near a [l0; l1] [h0; h1] me [l0; l1] [h0; h1] w HG WA Hme ED (lo_in_box _ _ Hle)) as (off & ld & EA & _); auto.
    { cbn. lia. }
    exists [LPiece [l0; l1] [h0; h1] w off ld]. split; [|right; eauto].
    intros [|[|f]] Hf; try lia. unfold local_iterate, loc_init. rewrite HT. cbn [loc_drain]. unfold loc_next. rewrite HT, ED. cbn [fst snd]. rewrite LE, EA. reflexivity.
  - exists []. split.
    + intros [|f] Hf; [lia|]. unfold local_iterate, loc_init. rewrite HT. cbn [loc_drain]. unfold loc_next. rewrite HT, ED. cbn [fst snd]. rewrite LE. reflexivity.
    + left. split; [reflexivity|]. intros [H0 H1]. assert (le_all [l0; l1] [h0; h1] = true); [apply le_all_true; [reflexivity|]; repeat constructor; assumption|congruence].
Qed.
Lemma chunk_loop_len f : forall lo n c, 1 <= c -> n - lo <= Z.of_nat f -> Z.of_nat (length (chunk_loop f lo n c)) < 1024 <-> n - lo <= 1023 * c.
Proof.
  assert (X : forall lo n c, 1 <= c -> n - lo <= Z.of_nat f -> forall k, 0 <= k -> Z.of_nat (length (chunk_loop f lo n c)) <= k <-> n - lo <= k * c).
  { induction f as [|f IH]; intros lo n c Hc Hf k Hk; [cbn; nia|]. cbn [chunk_loop]. destruct (Z.ltb_spec lo n); [|cbn [length]; nia].
    cbn [length]. destruct (Z.eq_dec k 0) as [-> |N]; [split; intros; nia|]. specialize (IH (lo + c) n c Hc ltac:(lia) (k - 1) ltac:(lia)). split; intros; nia. }
  intros lo n c Hc Hf. rewrite <- (X lo n c Hc Hf 1023 ltac:(lia)). lia.
Qed.
Lemma chunks_from_len s l c : 1 <= c -> Z.of_nat (length (chunks_from s l c)) < 1024 <-> l - s + 1 <= 1023 * c.
Proof. intros Hc. unfold chunks_from, chunks. rewrite map_length. rewrite chunk_loop_len by lia. rewrite Z.sub_0_r. reflexivity. Qed.

(** The algorithm for regular distributions.  As above; further missing: a block of C that has as many
    or more chunks of rows as the task list has entries (below). *)
Theorem C93_regular_partial : forall {V} (radd rmul : V -> V -> V) zero conj junk is_zero guess near wn smp rnda rndb rndc I J K oa ob alpha beta a b c pa pb sha shb
    da1 da2 db1 db2 m n ma mb mc (A B C : list Z -> V) ailo aihi ajlo ajhi bilo bihi bjlo bjhi,
  semiring radd rmul zero -> (forall v, is_zero v = true -> v = zero) ->
  good_guess guess -> (forall me t k, 0 <= rnda me t k) -> (forall me t k, 0 <= rndb me t k) -> (forall me t k, 0 <= rndc me t k) ->
  (forall me, 1 <= I me) -> (forall me, 1 <= J me) -> (forall me, 1 <= K me) ->
  any_layout a wn pa sha -> any_layout b wn pb shb -> wf_array c -> ga_nproc c = wn ->
  ga_group a = None -> ga_group b = None -> ga_group c = None -> (forall me, near me me = true) ->
  small_local a sha -> small_local b shb -> small_local c (reg_shape c) ->
  dims (ga_desc a) = [da1; da2] -> dims (ga_desc b) = [db1; db2] -> dims (ga_desc c) = [m; n] ->
  allocated pa ma -> allocated pb mb -> allocated (reg_place c) mc ->
  holds [da1; da2] pa ma A -> holds [db1; db2] pb mb B -> holds [m; n] (reg_place c) mc C ->
  op_patch oa [da1; da2] [ailo; ajlo] [aihi; ajhi] -> op_patch ob [db1; db2] [bilo; bjlo] [bihi; bjhi] ->
  m = aihi - ailo + 1 -> ajhi - ajlo = bihi - bilo -> n = bjhi - bjlo + 1 ->
  (forall me, ga_elemsize a * (I me * K me) <= int_max) -> (forall me, ga_elemsize b * (K me * J me) <= int_max) -> (forall me, ga_elemsize c * (I me * J me) <= int_max) ->
  (forall me l0 l1 h0 h1, 0 <= me < wn -> distribution (ga_desc c) me = Some ([l0; l1], [h0; h1]) -> h0 - l0 + 1 <= 1023 * I me) ->
  exists progs f0,
    Forall2 (fun me pr => forall fuel, (f0 <= fuel)%nat ->
        dgemm_regular radd rmul zero conj junk fuel guess (near me) wn smp (rnda me) (rndb me) (rndc me) (I me) (J me) (K me) oa ob alpha (is_zero beta) a b c ma mb
          (ailo, aihi, ajlo, ajhi) (bilo, bihi, bjlo, bjhi) (1, m, 1, n) me = Some pr)
      (zseq 0 (Z.to_nat wn)) progs /\
    forall cells es, Permutation (concat (map fst progs)) cells -> interleaved tcell (map snd progs) es ->
      exists m1 m2, run_elems (upd_elem (rmul beta)) mc cells = Some m1 /\ run_elems (tag_event radd) m1 es = Some m2 /\
        multiplied radd rmul zero conj oa ob alpha beta A B C ailo ajlo bilo bjlo [1; 1] [m; n] (ajhi - ajlo + 1) (reg_place c) mc m2.
Proof.
  intros V radd rmul zero conj junk is_zero guess near wn smp rnda rndb rndc I J K oa ob alpha beta a b c pa pb sha shb
    da1 da2 db1 db2 m n ma mb mc A B C ailo aihi ajlo ajhi bilo bihi bjlo bjhi
    SR HZ HG RA RB RC HI HJ HK LA LB WC NC GA GB GC HN SA SB SC DA DB DC AA AB AC HA HB HC PA PB E1 E2 E3 Ia Ib Ic HR.
  assert (QA : ailo <= aihi /\ ajlo <= ajhi).
  { destruct oa; cbn in PA; destruct PA as (_ & _ & F); inversion F as [|? ? ? ? Q1 F2]; subst; inversion F2; subst; lia. }
  assert (QB : bjlo <= bjhi).
  { destruct ob; cbn in PB; destruct PB as (_ & _ & F); inversion F as [|? ? ? ? Q1 F2]; subst; inversion F2; subst; lia. }
  assert (PC : op_patch opN [m; n] [1; 1] [m; n]).
  { cbn. split; [lia|]. split; [lia|]. repeat constructor; lia. }
  assert (LC : any_layout c wn (reg_place c) (reg_shape c)) by (left; auto).
  set (plA := Plane [ailo; ajlo] [aihi; ajhi] [da1; da2] 0 1). set (plB := Plane [bilo; bjlo] [bihi; bjhi] [db1; db2] 0 1). set (plC := Plane [1; 1] [m; n] [m; n] 0 1).
  set (blk := fun fuel me l0 l1 h0 h1 => reg_block radd rmul zero conj junk fuel guess wn smp (rnda me) (rndb me) (rndc me) oa ob alpha a b c plA plB plC ma mb (I me * K me) (K me * J me)
        (is_zero beta) (chunks_from (l0 - 1) (h0 - 1) (I me)) (chunks (ajhi - ajlo + 1) (K me)) (chunks_from (l1 - 1) (h1 - 1) (J me))).
  destruct (tasks_phase radd rmul zero conj is_zero guess near wn (fun fuel me =>
      do ps <- local_iterate fuel guess (near me) wn c me;
      match ps with
      | [] => Some []
      | [q] => match patch_intersect [1; 1] [m; n] (lp_lo q) (lp_hi q) with
               | None => Some []
               | Some d => do l0 <- zget (fst d) 0; do l1 <- zget (fst d) 1; do h0 <- zget (snd d) 0; do h1 <- zget (snd d) 1; blk fuel me l0 l1 h0 h1
               end
      | _ => None
      end)
    I J K oa ob alpha beta c m n (ajhi - ajlo + 1) mc A B C ailo ajlo bilo bjlo) as (progs & f0 & F & R); auto; try lia.
  { intros me l0 l1 h0 h1 Hme ED IN.
    destruct (own_block_iterate guess (near me) wn c me l0 l1 h0 h1 me) as (ps & EI & CASE); auto.
    { rewrite NC. exact Hme. } { unfold abs_rank. rewrite GC. reflexivity. }
    destruct CASE as [(-> & EM)|(H0 & H1 & off & ld & ->)].
    { exists [], 2%nat. split; [intros fuel Hf; rewrite EI by exact Hf; reflexivity|].
      assert (h0 < l0 \/ h1 < l1) as [H|H] by lia.
      - rewrite (chunks_empty (l0 - 1) (h0 - 1)) by lia. rewrite cols_tags_nil. constructor.
      - rewrite (chunks_empty (l1 - 1) (h1 - 1)) by lia. constructor. }
    specialize (IN H0 H1).
    assert (EP : patch_intersect [1; 1] [m; n] [l0; l1] [h0; h1] = Some ([l0; l1], [h0; h1])).
    { unfold patch_intersect. cbn [le_some zip_max zip_min].
      replace (1 <=? m) with true by lia. replace (1 <=? n) with true by lia. replace (l0 <=? h0) with true by lia. replace (l1 <=? h1) with true by lia.
      replace (l0 <=? m) with true by lia. replace (l1 <=? n) with true by lia. replace (1 <=? h0) with true by lia. replace (1 <=? h1) with true by lia. cbn [andb].
      repeat f_equal.
      - destruct (Z.ltb_spec l0 1); lia.
      - destruct (Z.ltb_spec l1 1); lia.
      - destruct (Z.ltb_spec m h0); lia.
      - destruct (Z.ltb_spec n h1); lia. }
    destruct (reg_block_ok radd rmul zero conj junk guess wn smp (rnda me) (rndb me) (rndc me) oa ob alpha a b c pa pb (reg_place c) sha shb (reg_shape c)
      da1 da2 db1 db2 m n ma mb A B ailo aihi ajlo ajhi bilo bihi bjlo bjhi 1 m 1 n (I me * K me) (K me * J me) (I me) (J me) (K me))
      with (is := chunks_from (l0 - 1) (h0 - 1) (I me)) (ks := chunks (ajhi - ajlo + 1) (K me)) (js := chunks_from (l1 - 1) (h1 - 1) (J me)) (p := is_zero beta) as (xs & n' & F & E); auto; try lia.
    - intros ic H. apply chunks_from_In in H; [|apply HI]. unfold chunk_of. lia.
    - intros kc H. apply chunks_In in H; [exact H|auto].
    - intros jc H. apply chunks_from_In in H; [|apply HJ]. unfold chunk_of. lia.
    - specialize (HR me l0 l1 h0 h1 Hme ED). rewrite chunks_from_len by auto. replace (h0 - 1 - (l0 - 1) + 1) with (h0 - l0 + 1) by lia. exact HR.
    - exists xs, (Nat.max 2 n'). split; [|exact F]. intros fuel Hf. rewrite EI by lia. cbn [lp_lo lp_hi]. rewrite EP. cbn [fst snd].
      change (zget [l0; l1] 0) with (Some l0). change (zget [l0; l1] 1) with (Some l1). change (zget [h0; h1] 0) with (Some h0). change (zget [h0; h1] 1) with (Some h1). cbv beta iota. apply E. lia. }
  exists progs, f0. split; [|exact R]. clear - F DA DB DC GA GB GC PA PB PC E1 E2 E3. induction F as [|me pr l progs H F IH]; constructor; [|exact IH].
  intros fuel Hf. rewrite <- (H fuel Hf). unfold dgemm_regular. rewrite DA, DB, DC, dgemm_checks_ok by (auto; lia).
  unfold same_group. rewrite GA, GB, GC. cbn [andb negb pl_lo pl_hi]. unfold cols. cbn [fst snd]. fold plA plB plC.
  destruct (if is_zero beta then _ else _) as [cells|]; [|reflexivity]. destruct (local_iterate _ _ _ _ _ _) as [[|q [|]]|]; try reflexivity.
  destruct (patch_intersect _ _ _ _) as [d|]; [|reflexivity]. destruct (zget (fst d) 0); [|reflexivity]. destruct (zget (fst d) 1); [|reflexivity].
  destruct (zget (snd d) 0); [|reflexivity]. destruct (zget (snd d) 1); reflexivity.
Qed.
Print Assumptions C93_regular_partial.


(** ** The buffer *)
(** The parts of the buffer do not overlap, and end in it if it comes from
    pnga_malloc. *)
Theorem C93_malloc_partial : forall nbuf bytes I J K, nbuf = 1 \/ nbuf = 2 -> In bytes [4; 8; 16] -> 0 <= I -> 0 <= J -> 0 <= K ->
  part_a bytes I K 0 = 0 /\
  (forall i, 0 <= i < nbuf -> part_a bytes I K i + bytes * (I * K) <= part_a bytes I K (i + 1)) /\
  part_a bytes I K nbuf = part_b nbuf bytes I J K 0 /\
  (forall i, 0 <= i < nbuf -> part_b nbuf bytes I J K i + bytes * (K * J) <= part_b nbuf bytes I J K (i + 1)) /\
  part_b nbuf bytes I J K nbuf = part_c nbuf bytes I J K /\
  part_c nbuf bytes I J K + bytes * (I * J) <= bytes * malloc_elems nbuf bytes I J K.
Proof.
  intros nbuf bytes I J K Hn Hb HI HJ HK. unfold part_c, part_b, part_a, malloc_elems.
  assert (H1 : 0 <= I * K) by (apply Z.mul_nonneg_nonneg; auto). assert (H2 : 0 <= K * J) by (apply Z.mul_nonneg_nonneg; auto).
  remember (I * K) as u. remember (K * J) as v. remember (I * J) as w.
  assert (Q : forall x, 0 <= x -> bytes * x <= 16 * (x / (16 / bytes) + 1) /\ 16 * (x / (16 / bytes)) <= bytes * x).
  { intros x Hx. destruct Hb as [<-|[<-|[<-|[]]]].
    - change (16 / 4) with 4. pose proof (Z.div_mod x 4 ltac:(lia)). pose proof (Z.mod_pos_bound x 4 ltac:(lia)). lia.
    - change (16 / 8) with 2. pose proof (Z.div_mod x 2 ltac:(lia)). pose proof (Z.mod_pos_bound x 2 ltac:(lia)). lia.
    - change (16 / 16) with 1. rewrite Z.div_1_r. lia. }
  destruct (Q u H1) as [Q1 Q2]. destruct (Q v H2) as [Q3 Q4]. remember (u / (16 / bytes)) as u'. remember (v / (16 / bytes)) as v'.
  split; [lia|]. split; [intros i Hi; nia|]. split; [lia|]. split; [intros i Hi; nia|]. split; [reflexivity|].
  destruct Hn as [-> | ->]; destruct Hb as [<-|[<-|[<-|[]]]];
    [change (1 * 3 * 16 / 4) with 12|change (1 * 3 * 16 / 8) with 6|change (1 * 3 * 16 / 16) with 3|
     change (2 * 3 * 16 / 4) with 24|change (2 * 3 * 16 / 8) with 12|change (2 * 3 * 16 / 16) with 6]; lia.
Qed.
Print Assumptions C93_malloc_partial.
(** Memory from ARMCI is of one size, which includes the space for rounding; whether
    it is enough is tested without that.  Doubles, C of 965 x 959, inner range
    30526, two processes: the last 56 bytes of the part for C are outside. *)
Theorem C93_armci_refuted : exists cube root avail m n k nproc I J K elems,
  (let q := cube (k * (m * n)) (10 * nproc) in q * q * q * (10 * nproc) <= k * (m * n) < (q + 1) * (q + 1) * (q + 1) * (10 * nproc)) /\
  (forall x, 0 <= x -> 0 <= root x /\ root x * root x <= x < (root x + 1) * (root x + 1)) /\
  irreg_chunks cube root avail m n k nproc = Some (I, J, K) /\ armci_elems 2 8 I J K = Some elems /\
  8 * elems < part_c 2 8 I J K + 8 * (I * J).
Proof.
  exists (fun _ _ => 1122), Z.sqrt, 100000000, 965, 959, 30526, 2, 965, 959, 1122. eexists.
  split; [cbn; lia|]. split; [intros x Hx; split; [apply Z.sqrt_nonneg|]; pose proof (Z.sqrt_spec x Hx); cbn zeta in *; lia|].
  split; [vm_compute; reflexivity|]. split; [vm_compute; reflexivity|]. vm_compute. reflexivity.
Qed.
Print Assumptions C93_armci_refuted.

(** ** Examples *)
Definition ex_ir grp oa ob nproc I J K wn a b c (ma mb : heap Z) ax bx cx fuel me :=
  dgemm_irreg Z.add Z.mul 0 (fun v => v) 77 fuel ex_guess (fun w => w =? (if grp : bool then 0 else me)) wn (fun _ => true) (fun _ i => i) (fun _ i => i) (fun _ i => i)
    nproc I J K oa ob 7 a b c ma mb ax bx cx me.
Definition ex_sh oa ob I J K wn zb a b c (ma mb : heap Z) ax bx cx fuel me :=
  dgemm_shmem Z.add Z.mul 0 (fun v => v) 77 fuel ex_guess (fun w => w =? me) wn (fun _ => true) (fun _ i => i) (fun _ i => i) (fun _ i => i)
    I J K oa ob 7 zb a b c ma mb ax bx cx me.
Definition ex_sh_run beta (mc : heap Z) (rs : list (option (list place * list (tagged (V := Z))))) : option (heap Z) :=
  do l <- mapM (fun r => r) rs;
  do m1 <- run_elems (upd_elem (Z.mul beta)) mc (concat (map fst l));
  run_elems (tag_event Z.add) m1 (concat (rev (map snd l))).
(** The product of [PMat.C92_ex_patch], in chunks of 2x2x1. *)
Example C93_ex_irreg :
  wf_array ex_A /\ wf_array ex_B /\ wf_array ex_C /\
  op_patch opN [4; 3] [1; 1] [3; 2] /\ op_patch opT [5; 3] [2; 3] [3; 5] /\ op_patch opN [4; 4] [2; 2] [4; 4] /\
  map (fun me => match ex_ir false opN opT 2 2 2 1 2 ex_A ex_B ex_C (ex_st 0) (ex_st 1) (1, 3, 1, 2) (2, 3, 3, 5) (2, 4, 2, 4) 9 me with Some r => length (snd r) | None => O end)
    [0; 1] = [12; 6]%nat /\
  (do m' <- ex_mm_run 3 (ex_st 2) (map (ex_ir false opN opT 2 2 2 1 2 ex_A ex_B ex_C (ex_st 0) (ex_st 1) (1, 3, 1, 2) (2, 3, 3, 5) (2, 4, 2, 4) 9) [0; 1]);
   Some (hget m' (1, 13), hget m' (1, 1))) = Some (Some (3 * -1 + 7 * (1 * 900 + 3 * 1400)), Some (-1)).
Proof.
  split; [exact ex_A_wf|]. split; [exact ex_B_wf|]. split; [exact ex_C_wf|].
  split; [repeat constructor; cbn; lia|]. split; [repeat constructor; cbn; lia|]. split; [repeat constructor; cbn; lia|].
  split; vm_compute; reflexivity.
Qed.
(** The whole of C, beta 0: the first chunk of the inner range is put. *)
Example C93_ex_shmem :
  op_patch opN [4; 3] [1; 1] [4; 2] /\ op_patch opT [5; 3] [2; 2] [3; 5] /\
  (do m' <- ex_sh_run 0 (ex_st 2) (map (ex_sh opN opT 2 3 1 2 true ex_A ex_B ex_C (ex_st 0) (ex_st 1) (1, 4, 1, 2) (2, 3, 2, 5) (1, 4, 1, 4) 9) [0; 1]);
   Some (hget m' (1, 13))) = Some (Some (7 * (10 * 900 + 12 * 1400))) /\
  (do m' <- ex_sh_run 3 (ex_st 2) (map (ex_sh opN opT 2 3 1 2 false ex_A ex_B ex_C (ex_st 0) (ex_st 1) (1, 4, 1, 2) (2, 3, 2, 5) (1, 4, 1, 4) 9) [0; 1]);
   Some (hget m' (1, 13))) = Some (Some (3 * -1 + 7 * (10 * 900 + 12 * 1400))).
Proof.
  split; [repeat constructor; cbn; lia|]. split; [repeat constructor; cbn; lia|].
  split; vm_compute; reflexivity.
Qed.

(** ** Arrays on other groups *)
(** The tasks are shared among as many processes as the world has (841), but the number of
    the process is that in the group (869).  A group of process 0 in a world of
    two, A of 1x512, B of 512x1, all elements 1: the second half of the sum is lost. *)
Ltac solve_grp :=
  split; [|split; [reflexivity|split; [repeat constructor; lia|split; [split; [repeat constructor; cbn; lia|reflexivity]|cbn; lia]]]];
  split; [reflexivity|]; split; [discriminate|]; split; [|left; split; [reflexivity|cbn; lia]].
Definition ones : heap Z := fun p o => if (0 <=? o) && (o <? 512) then Some 1 else None.
Theorem C93_irreg_group_refuted : exists a b c I J K v v',
  wf_array a /\ wf_array b /\ wf_array c /\ ga_group a = Some [0] /\ ga_group b = Some [0] /\ ga_group c = Some [0] /\
  dims (ga_desc a) = [1; 512] /\ dims (ga_desc b) = [512; 1] /\ dims (ga_desc c) = [1; 1] /\
  (forall cube, cube (512 * (1 * 1)) (10 * 2) = 2 -> irreg_chunks cube Z.sqrt 1000000 1 1 512 2 = Some (I, J, K)) /\
  reg_place c [1; 1] (0, 0) /\
  v = 7 * product Z.add Z.mul 0 (fun v => v) opN opN (fun _ => 1) (fun _ => 1) 1 1 1 1 512 0 0 /\ v' <> v /\
  forall f, (do m' <- ex_mm_run 0 ones [ex_ir true opN opN 2 I J K 2 a b c ones ones (1, 1, 1, 512) (1, 512, 1, 1) (1, 1, 1, 1) (600 + f) 0]; hget m' (0, 0)) = Some v'.
Proof.
  exists (ex_arr [1; 512] [1; 1] [1; 1] [0; 0] (Some [0]) 1), (ex_arr [512; 1] [1; 1] [1; 1] [0; 0] (Some [0]) 1), (ex_arr [1; 1] [1; 1] [1; 1] [0; 0] (Some [0]) 1).
  exists 1, 1, 256, (7 * 512), (7 * 256).
  split.
  { solve_grp. cbn [valid_maps ex_arr ga_desc dims nblock mapc]. change (skipn (Z.to_nat 1) [1; 1]) with [1]. split; [solve_map|]. split; [solve_map|exact I]. }
  split.
  { solve_grp. cbn [valid_maps ex_arr ga_desc dims nblock mapc]. change (skipn (Z.to_nat 1) [1; 1]) with [1]. split; [solve_map|]. split; [solve_map|exact I]. }
  split.
  { solve_grp. cbn [valid_maps ex_arr ga_desc dims nblock mapc]. change (skipn (Z.to_nat 1) [1; 1]) with [1]. split; [solve_map|]. split; [solve_map|exact I]. }
  do 6 (split; [reflexivity|]). split.
  { intros cube HC. unfold irreg_chunks. rewrite HC. vm_compute. reflexivity. }
  split; [exists 0, [1; 1], [1; 1]; repeat split; cbn; lia|]. split; [vm_compute; reflexivity|]. split; [lia|].
  intros f. vm_compute. reflexivity.
Qed.
Print Assumptions C93_irreg_group_refuted.
(** The block of C is asked for with the number of the process in the world (361). A group of
    process 1: there is no second block, so nothing is computed. *)
Theorem C93_shmem_group_refuted : exists a (m : heap Z) v v',
  wf_array a /\ ga_group a = Some [1] /\ dims (ga_desc a) = [2; 2] /\ reg_place a [1; 1] (1, 0) /\
  v = 7 * product Z.add Z.mul 0 (fun v => v) opN opN (fun _ => 1) (fun _ => 1) 1 1 1 1 2 0 0 /\ v' <> v /\ hget m (1, 0) = Some v' /\
  forall f, (do m' <- ex_sh_run 0 m [ex_sh opN opN 2 2 2 2 true a a a ones ones (1, 2, 1, 2) (1, 2, 1, 2) (1, 2, 1, 2) (20 + f) 1]; hget m' (1, 0)) = Some v'.
Proof.
  exists (ex_arr [2; 2] [1; 1] [1; 1] [0; 0] (Some [1]) 1), (fun _ _ => Some 5), (7 * 2), 5.
  split.
  { solve_grp. cbn [valid_maps ex_arr ga_desc dims nblock mapc]. change (skipn (Z.to_nat 1) [1; 1]) with [1]. split; [solve_map|]. split; [solve_map|exact I]. }
  do 2 (split; [reflexivity|]).
  split; [exists 0, [1; 1], [2; 2]; repeat split; cbn; lia|]. split; [vm_compute; reflexivity|]. split; [lia|]. split; [reflexivity|].
  intros f. vm_compute. reflexivity.
Qed.
Print Assumptions C93_shmem_group_refuted.

(** The other two algorithms are only used if the patch of C is the whole array. *)
Theorem C93_whole : forall irr aspect nodes oa ob da db dc ax bx cx alg,
  dgemm_checks oa ob da db dc ax bx cx = Some true -> dgemm_algorithm irr aspect nodes (rows ax) (cols bx) dc = Some alg -> alg <> A_irreg ->
  irr = false /\ exists m n, dc = [m; n] /\ cx = (1, m, 1, n).
Proof.
  intros irr aspect nodes oa ob da db dc ax bx cx alg HC HA NI. unfold dgemm_checks in HC.
  destruct (negb _) eqn:EL in HC; [discriminate|]. apply negb_false_iff in EL. apply andb_true_iff in EL. destruct EL as [_ EL]. apply Nat.eqb_eq in EL.
  destruct dc as [|d1 [|d2 [|]]]; try discriminate EL. unfold dgemm_algorithm in HA. change (zget [d1; d2] 0) with (Some d1) in HA. change (zget [d1; d2] 1) with (Some d2) in HA.
  destruct (dgemm_range oa da ax) as [ra|]; [|discriminate]. destruct (dgemm_range ob db bx) as [rb|]; [|discriminate].
  unfold dgemm_range in HC. change (zget [d1; d2] 0) with (Some d1) in HC. change (zget [d1; d2] 1) with (Some d2) in HC.
  destruct cx as [[[il ih] jl] jh]. cbn [is_n] in HC. cbv beta iota in HC, HA. unfold rows, cols in *. destruct ax as [[[a1 a2] a3] a4]. destruct bx as [[[b1 b2] b3] b4].
  destruct irr; [injection HA as <-; congruence|]. injection HC as HC. repeat (apply andb_true_iff in HC; destruct HC as [HC ?]). 
  destruct (negb (d1 =? _)) eqn:E1 in HA; [injection HA as <-; congruence|]. destruct (negb (d2 =? _)) eqn:E2 in HA; [injection HA as <-; congruence|]. clear HA. apply negb_false_iff in E1, E2.
  repeat match goal with H : negb _ = true |- _ => apply negb_true_iff in H end.
  repeat match goal with H : (_ || _) = false |- _ => apply orb_false_iff in H; destruct H end.
  rewrite ?Z.eqb_eq, ?Z.leb_gt, ?Z.ltb_ge in *. cbn [fst snd] in *. split; [reflexivity|]. exists d1, d2. split; [reflexivity|]. repeat f_equal; lia.
Qed.
Print Assumptions C93_whole.

(** As many chunks of rows as the task list has entries: no round takes a task, and
    [do { } while(chunks_left)] (656-814) does not end. *)
Lemma reg_rounds_none {V} (radd rmul : V -> V -> V) zero conj junk fuel guess wn smp rnda rndb rndc oa ob alpha a b c pa pb pc ma mb sa sb is gs :
  1024 <= Z.of_nat (length is) -> gs <> [] -> forall n no,
  reg_rounds radd rmul zero conj junk fuel guess wn smp rnda rndb rndc oa ob alpha a b c pa pb pc ma mb sa sb n is gs no = None.
Proof.
  intros HL HG. induction n as [|n IH]; intros no; [reflexivity|]. cbn [reg_rounds]. rewrite task_list_full by exact HL. cbn [fst snd reg_round].
  destruct gs as [|g gs]; [congruence|]. rewrite IH. reflexivity.
Qed.
Definition ex_rg oa ob I J K wn zb a b c (ma mb : heap Z) ax bx cx fuel me :=
  dgemm_regular Z.add Z.mul 0 (fun v => v) 77 fuel ex_guess (fun w => w =? me) wn (fun _ => true) (fun _ i => i) (fun _ i => i) (fun _ i => i)
    I J K oa ob 7 zb a b c ma mb ax bx cx me.
(** The products of [C93_ex_shmem]. *)
Example C93_ex_regular :
  (do m' <- ex_sh_run 0 (ex_st 2) (map (ex_rg opN opT 1 3 1 2 true ex_A ex_B ex_C (ex_st 0) (ex_st 1) (1, 4, 1, 2) (2, 3, 2, 5) (1, 4, 1, 4) 9) [0; 1]);
   Some (hget m' (1, 13))) = Some (Some (7 * (10 * 900 + 12 * 1400))) /\
  (do m' <- ex_sh_run 3 (ex_st 2) (map (ex_rg opN opT 1 3 1 2 false ex_A ex_B ex_C (ex_st 0) (ex_st 1) (1, 4, 1, 2) (2, 3, 2, 5) (1, 4, 1, 4) 9) [0; 1]);
   Some (hget m' (1, 13))) = Some (Some (3 * -1 + 7 * (10 * 900 + 12 * 1400))) /\
  length (fst (task_list (chunks 1000 1) (groups true (chunks 4 2) (chunks 9 3)) 0 0)) = 1000%nat /\
  length (snd (task_list (chunks 1000 1) (groups true (chunks 4 2) (chunks 9 3)) 0 0)) = 5%nat.
Proof. split; [vm_compute; reflexivity|]. split; [vm_compute; reflexivity|]. split; vm_compute; reflexivity. Qed.
(** Two processes on two nodes, A of 1024x257 in rows 1..1023 and 1024, B of 257x257 in rows
    1..256 and 257, C of 1024x257 in columns 1..256 and 257.  The blocks are not too
    long on any process (1448-1459), so this algorithm is used, with chunks of 1x1 on
    process 1, whose block of C has 1024 rows. *)
Theorem C93_regular_refuted : exists a b c I J K,
  wf_array a /\ wf_array b /\ wf_array c /\ dims (ga_desc a) = [1024; 257] /\ dims (ga_desc b) = [257; 257] /\ dims (ga_desc c) = [1024; 257] /\
  map (fun me => match block_chunks a b c me with Some (_, irreg) => irreg | None => true end) [0; 1] = [false; false] /\
  dgemm_algorithm false false 2 1024 257 [1024; 257] = Some A_regular /\
  (do x <- block_chunks a b c 1; let '(i, j, k, _) := x in small_chunks i j k) = Some (I, J, K) /\
  forall fuel ma mb zb, ex_rg opN opN I J K 2 zb a b c ma mb (1, 1024, 1, 257) (1, 257, 1, 257) (1, 1024, 1, 257) fuel 1 = None.
Proof.
  exists (ex_arr [1024; 257] [2; 1] [1; 1024; 1] [0; 0] None 2), (ex_arr [257; 257] [2; 1] [1; 257; 1] [0; 0] None 2), (ex_arr [1024; 257] [1; 2] [1; 1; 257] [0; 0] None 2), 1, 1, 1.
  split.
  { solve_arr. cbn [valid_maps ex_arr ga_desc dims nblock mapc]. change (skipn (Z.to_nat 2) [1; 1024; 1]) with [1]. split; [solve_map|]. split; [solve_map|exact I]. }
  split.
  { solve_arr. cbn [valid_maps ex_arr ga_desc dims nblock mapc]. change (skipn (Z.to_nat 2) [1; 257; 1]) with [1]. split; [solve_map|]. split; [solve_map|exact I]. }
  split.
  { solve_arr. cbn [valid_maps ex_arr ga_desc dims nblock mapc]. change (skipn (Z.to_nat 1) [1; 1; 257]) with [1; 257]. split; [solve_map|]. split; [solve_map|exact I]. }
  do 3 (split; [reflexivity|]). split; [vm_compute; reflexivity|]. split; [reflexivity|]. split; [vm_compute; reflexivity|].
  intros fuel ma mb zb. unfold ex_rg, dgemm_regular.
  destruct (dgemm_checks _ _ _ _ _ _ _ _) as [ok|]; [|reflexivity]. destruct (negb _); [reflexivity|].
  destruct (if zb then _ else _) as [cells|]; [|reflexivity].
  destruct fuel as [|[|fuel]]; [reflexivity|reflexivity|].
  match goal with |- context [local_iterate ?f ?g ?h ?w ?c ?m] => replace (local_iterate f g h w c m) with (Some [LPiece [1; 257] [1024; 257] 1 0 [1024]]) end.
  2:{ vm_compute. reflexivity. }
  cbn [lp_lo lp_hi pl_lo pl_hi]. change (patch_intersect [1; 1] [1024; 257] [1; 257] [1024; 257]) with (Some ([1; 257], [1024; 257])). cbn [fst snd].
  change (zget [1; 257] 0) with (Some 1). change (zget [1; 257] 1) with (Some 257). change (zget [1024; 257] 0) with (Some 1024). change (zget [1024; 257] 1) with (Some 257). cbv beta iota.
  unfold reg_block. destruct (1024 <? _); [reflexivity|]. rewrite reg_rounds_none; [reflexivity| |].
  - vm_compute. discriminate.
  - vm_compute. discriminate.
Qed.
Print Assumptions C93_regular_refuted.
