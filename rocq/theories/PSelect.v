(** C70: the selection of an extreme element. *)
From Verif Require Import MNb MHandle MGroup LSelect2 PDist PIter PIterBlk PAccess PLoc.
From Coq Require Import List ZArith Lia. Import ListNotations. Local Open Scope Z_scope.

(** Every process walks over one or two packed blocks that hold its part of the
    array [A]; the processes hold all of it between them. *)
Theorem C70_select_partial : forall {V} (key : V -> Z) mn cplx (A : list Z -> V) a placed (mem : Z -> Z -> option V)
    fuel guess near wn pss,
  1 <= wn -> dims (ga_desc a) <> [] ->
  (forall p, 0 <= p < wn -> local_iterate fuel guess (near p) wn a p = Some (pss p) /\
     local_cover placed (dims (ga_desc a)) p (pss p) /\ (1 <= length (pss p) <= 2)%nat /\
     forall q, In q (pss p) -> packed (extents (lp_lo q) (lp_hi q)) (lp_ld q)) ->
  (forall x p ad, placed x (p, ad) -> mem p ad = Some (A x)) ->
  (forall x, in_array (dims (ga_desc a)) x -> exists p ad, 0 <= p < wn /\ placed x (p, ad)) ->
  exists i, select_elem key mn cplx fuel guess near wn a mem = Done i /\
    selects key mn cplx A (in_array (dims (ga_desc a))) i.
Proof.
  intros V key mn cplx A a placed mem fuel guess near wn pss Hwn Hd HP HM HA.
  assert (HB : forall p q, 0 <= p < wn -> In q (pss p) -> block_holds A (mem p) q).
  { intros p q Hp Hq. destruct (HP p Hp) as (_ & [[T1 _] C] & _ & PK).
    destruct (C q Hq) as (LE & _ & PL). split; [|split; [exact LE|split; [exact (PK q Hq)|]]].
    - intros E. destruct (In_nth_error _ _ Hq) as (k & Ek). specialize (T1 k q Ek (lp_lo q)). cbn [fst snd] in T1.
      destruct (T1 (lo_in_box _ _ LE)) as [IA _]. apply in_array_length in IA. rewrite E in IA.
      destruct (dims (ga_desc a)); [congruence|discriminate].
    - intros x Hx. apply (HM x), PL, Hx. }
  assert (HL : forall p, 0 <= p < wn -> exists i, sel_local key mn cplx (mem p) (pss p) = Done (Some i) /\
            selects key mn cplx A (fun x => exists q, In q (pss p) /\ block_of q x) i).
  { intros p Hp. apply sel_local_spec; [apply HP, Hp|]. intros q Hq. apply HB; auto. }
  set (inf := fun p => match sel_local key mn cplx (mem p) (pss p) with Done i => i | _ => None end).
  unfold select_elem. rewrite (out_map_spec _ inf).
  2: { intros p Hp. apply zseq_In in Hp. assert (R : 0 <= p < wn) by lia. destruct (HP p R) as (-> & _).
       unfold inf. destruct (HL p R) as (i & -> & _). reflexivity. }
  destruct (sel_scope_spec key mn cplx A (map inf (zseq 0 (Z.to_nat wn)))) with
    (Ss := map (fun p x => exists q, In q (pss p) /\ block_of q x) (zseq 0 (Z.to_nat wn))) as (i & E & X1 & X2 & X3).
  { replace (Z.to_nat wn) with (S (Z.to_nat (wn - 1))) by lia. discriminate. }
  { assert (HI : forall p, In p (zseq 0 (Z.to_nat wn)) -> 0 <= p < wn) by (intros p Hp; apply zseq_In in Hp; lia).
    induction (zseq 0 (Z.to_nat wn)) as [|p l IH]; cbn [map]; constructor.
    - assert (R : 0 <= p < wn) by (apply HI; now left). destruct (HL p R) as (i & Ei & Si).
      exists i. unfold inf. rewrite Ei. auto.
    - apply IH. intros; apply HI; now right. }
  cbv beta iota. exists i. split; [exact E|]. split; [|split; [|exact X3]].
  - intros x Hx. apply X1. destruct (HA x Hx) as (p & ad & Hp & PL).
    destruct (HP p Hp) as (_ & [[_ T2] _] & _). destruct (T2 x (conj Hx (ex_intro _ ad PL))) as (k & q & Ek & Hq & _).
    eexists. split; [apply in_map_iff; exists p; split; [reflexivity|apply zseq_In; lia]|].
    exists q. split; [eapply nth_error_In; eauto|exact Hq].
  - destruct X2 as (S & HS & HX). apply in_map_iff in HS as (p & <- & Hp). apply zseq_In in Hp.
    destruct HX as (q & Hq & HX). destruct (HP p ltac:(lia)) as (_ & [[T1 _] _] & _).
    destruct (In_nth_error _ _ Hq) as (k & Ek). apply (T1 k q Ek _ HX).
Qed.
Print Assumptions C70_select_partial.

(** Map-distributed arrays without ghost cells, when every process owns a block. *)
Theorem C70_regular_partial : forall {V} (key : V -> Z) mn cplx (A : list Z -> V) a (mem : Z -> Z -> option V) guess near fuel,
  good_guess guess -> wf_array a -> ga_group a = None -> Forall (fun w => w = 0) (ga_width a) ->
  (forall p, near p p = true) -> (2 <= fuel)%nat -> 1 <= ga_nproc a ->
  (forall p, 0 <= p < ga_nproc a -> exists lo hi, distribution (ga_desc a) p = Some (lo, hi) /\ Forall2 Z.le lo hi) ->
  (forall x p ad, reg_place a x (p, ad) -> mem p ad = Some (A x)) ->
  exists i, select_elem key mn cplx fuel guess near (ga_nproc a) a mem = Done i /\
    selects key mn cplx A (in_array (dims (ga_desc a))) i.
Proof.
  intros V key mn cplx A a mem guess near fuel HG WA HGr HZ HN Hf Hn HD HM.
  pose proof WA as (WR & _ & _ & WGr & _).
  assert (EA : forall p, abs_rank a p = Some p) by (intros; unfold abs_rank; rewrite HGr; reflexivity).
  apply (C70_select_partial key mn cplx A a (reg_place a) mem fuel guess near (ga_nproc a)
    (fun p => match local_iterate fuel guess (near p) (ga_nproc a) a p with Some ps => ps | None => [] end)); auto.
  - destruct WR as (_ & H & _). exact H.
  - intros p Hp. destruct (C69_regular guess (near p) (ga_nproc a) a p p HG WA Hp (EA p) (HN p)) as (ps & E & C).
    rewrite (E fuel Hf). split; [reflexivity|]. split; [exact C|].
    destruct (regular_packed guess (near p) (ga_nproc a) a p p ps fuel HG WA HZ Hp (EA p) (HN p) Hf (E fuel Hf)) as [L PK].
    split; [|exact PK]. split; [|lia]. destruct ps; [|cbn; lia]. exfalso.
    destruct (HD p Hp) as (lo & hi & ED & LE). destruct C as [[_ T2] _].
    destruct (regular_blocks_inside _ _ _ WR Hp) as (lo' & hi' & ED' & HI). rewrite ED in ED'. injection ED' as <- <-.
    destruct (T2 lo) as (k & q & Ek & _); [|destruct k; discriminate].
    split; [apply HI, lo_in_box, LE|]. eexists. exists p, lo, hi. split; [exact Hp|]. split; [exact ED|].
    split; [apply lo_in_box, LE|]. split; [apply EA|reflexivity].
  - intros x Hx. destruct (regular_unique_owner _ _ _ WR Hx) as (p & Hp & (lo & hi & ED & HB) & _).
    exists p. eexists. split; [exact Hp|]. exists p, lo, hi. split; [exact Hp|]. split; [exact ED|].
    split; [exact HB|]. split; [apply EA|reflexivity].
Qed.
Print Assumptions C70_regular_partial.

(** Simple block-cyclic arrays with one or two blocks per process. *)
Theorem C70_block_cyclic_partial : forall {V} (key : V -> Z) mn cplx (A : list Z -> V) a (mem : Z -> Z -> option V) guess near,
  distr_type (ga_desc a) = BLOCK_CYCLIC -> wf_blocked (ga_desc a) -> ga_group a = None -> 1 <= ga_nproc a ->
  ga_nproc a <= zprod (num_blocks (ga_desc a)) <= 2 * ga_nproc a ->
  (forall x p ad, block_place a x (p, ad) -> mem p ad = Some (A x)) ->
  exists n, forall fuel, (n <= fuel)%nat -> exists i,
    select_elem key mn cplx fuel guess near (ga_nproc a) a mem = Done i /\
    selects key mn cplx A (in_array (dims (ga_desc a))) i.
Proof.
  intros V key mn cplx A a mem guess near HT W HG HN HB HM. pose proof (or_introl W : wf_blocks (ga_desc a)) as WB.
  set (pss := fun p => map (pc_of a (access_block_ptr (ga_nproc a) a)) (column a p)).
  assert (HF : exists n, forall p, 0 <= p < ga_nproc a -> forall fuel, (n <= fuel)%nat ->
            local_iterate fuel guess (near p) (ga_nproc a) a p = Some (pss p)).
  { assert (X : forall m, (m <= Z.to_nat (ga_nproc a))%nat -> exists n, forall p, 0 <= p < Z.of_nat m -> forall fuel, (n <= fuel)%nat ->
            local_iterate fuel guess (near p) (ga_nproc a) a p = Some (pss p)).
    { induction m as [|m IH]; intros Hm; [exists 0%nat; intros; lia|]. destruct IH as (n1 & H1); [lia|].
      destruct (bc_pieces guess (near (Z.of_nat m)) a (Z.of_nat m) HT W HG ltac:(lia)) as (n2 & H2).
      exists (Nat.max n1 n2). intros p Hp fuel Hf. destruct (Z.eq_dec p (Z.of_nat m)) as [->|]; [apply H2; lia|apply H1; lia]. }
    destruct (X (Z.to_nat (ga_nproc a)) ltac:(lia)) as (n & H). exists n. intros p Hp. apply H. lia. }
  assert (HAC := fun k Hk => block_access_bx (block_place a) (ga_nproc a) a k WB Hk (access_bc a k HT W HG HN Hk)).
  destruct HF as (n & HF). exists n. intros fuel Hf.
  apply (C70_select_partial key mn cplx A a (block_place a) mem fuel guess near (ga_nproc a) pss); auto.
  - destruct W as (_ & H & _). exact H.
  - intros p Hp. split; [apply HF; auto|]. split.
    { apply column_cover; auto. intros x q q'. apply block_place_fun, WB. }
    split; [unfold pss; rewrite map_length; apply bc_two; auto|].
    intros q Hq. apply in_map_iff in Hq as (k & <- & Hk). apply column_In in Hk as [Kr _].
    destruct (HAC k Kr) as (p' & off & ld & E & _). unfold pc_of. rewrite E. cbn [lpiece_of lp_lo lp_hi lp_ld fst snd].
    rewrite (bc_ld _ _ _ _ _ _ HT W Kr E). apply packed_init.
  - intros x Hx. destruct (bx_cover (ga_desc a) x WB Hx) as (k & Kr & Kb).
    destruct (HAC k Kr) as (p & off & ld & _ & Hh & HP). exists p. eexists. split; [|apply HP, Kb].
    unfold block_home in Hh. rewrite HT in Hh. unfold cmod in Hh. destruct (Z.eqb_spec (ga_nproc a) 0); [lia|].
    injection Hh as <-. rewrite Z.rem_mod_nonneg by lia. apply Z.mod_pos_bound. lia.
Qed.
Print Assumptions C70_block_cyclic_partial.

(** Six numbers in blocks of two on one or two processes. *)
Definition sel_line (n : Z) : garray :=
  {| ga_desc := {| distr_type := BLOCK_CYCLIC; dims := [6]; nblock := [n]; mapc := []; block_dims := [2];
                   num_blocks := [3]; rstrctd_list := []; rank_rstrctd := [] |};
     ga_width := [0]; ga_group := None; ga_nproc := n; ga_elemsize := 8 |}.
Lemma sel_line_wf n : wf_blocked (ga_desc (sel_line n)).
Proof. split; [cbn; tauto|]. split; [discriminate|]. split; [cbn; lia|]. split; [cbn; lia|reflexivity]. Qed.
Definition sel_A (x : list Z) : Z := match x with [j] => nth (Z.to_nat (j - 1)) [5; 5; 1; 2; 9; 0] 0 | _ => 0 end.
Definition sel_mem (n p ad : Z) : option Z :=
  if n =? 1 then zget [5; 5; 1; 2; 9; 0] ad
  else if p =? 0 then zget [5; 5; 9; 0] ad else if p =? 1 then zget [1; 2] ad else None.
Lemma sel_line_mem n : n = 1 \/ n = 2 -> forall x p ad, block_place (sel_line n) x (p, ad) -> sel_mem n p ad = Some (sel_A x).
Proof.
  intros Hn x p ad (k & lo & hi & Hk & ED & HB & HH & EO). cbn [fst snd] in *.
  assert (K : k = 0 \/ k = 1 \/ k = 2) by (cbn in Hk; lia).
  destruct Hn as [-> | ->]; destruct K as [-> |[-> | ->]];
    vm_compute in ED; injection ED as <- <-; vm_compute in HH; injection HH as <-;
    destruct x as [|j [|? ?]]; cbn in HB; try tauto; destruct HB as [HB _];
    match type of HB with ?l <= _ <= ?h => assert (j = l \/ j = h) as [-> | ->] by lia end; subst ad; vm_compute; reflexivity.
Qed.

Example C70_ex_two : wf_blocked (ga_desc (sel_line 2)) /\
  (forall x p ad, block_place (sel_line 2) x (p, ad) -> sel_mem 2 p ad = Some (sel_A x)) /\
  ga_nproc (sel_line 2) <= zprod (num_blocks (ga_desc (sel_line 2))) <= 2 * ga_nproc (sel_line 2) /\
  select_elem (fun v => v) false false 4 ex_guess (fun _ _ => true) 2 (sel_line 2) (sel_mem 2) = Done (EInfo 9 [5] None) /\
  select_elem (fun v => v) true true 4 ex_guess (fun _ _ => true) 2 (sel_line 2) (sel_mem 2) = Done (EInfo 0 [6] (Some 0)).
Proof.
  split; [apply sel_line_wf|]. split; [apply sel_line_mem; auto|]. split; [cbn; lia|]. split; vm_compute; reflexivity.
Qed.

(** With three blocks on one process the subscript can be wrong: the second
    block leaves its position behind, and the third block, whose largest element
    is the first one, takes it over. *)
Theorem C70_subscript_refuted : exists (A : list Z -> Z) a mem fuel i,
  distr_type (ga_desc a) = BLOCK_CYCLIC /\ wf_blocked (ga_desc a) /\ ga_group a = None /\
  ga_nproc a <= zprod (num_blocks (ga_desc a)) /\
  (forall x p ad, block_place a x (p, ad) -> mem p ad = Some (A x)) /\
  (forall guess near, select_elem (fun v => v) false false fuel guess near (ga_nproc a) a mem = Done i) /\
  ei_key i = 9 /\ A (ei_sub i) = 0.
Proof.
  exists sel_A, (sel_line 1), (sel_mem 1), 4%nat, (EInfo 9 [6] None).
  split; [reflexivity|]. split; [apply sel_line_wf|]. split; [reflexivity|]. split; [cbn; lia|].
  split; [apply sel_line_mem; auto|]. split; [intros; vm_compute; reflexivity|]. split; reflexivity.
Qed.
Print Assumptions C70_subscript_refuted.

(** A process that owns nothing takes part with whatever its [info] contains. *)
Theorem C70_empty_refuted : exists (A : list Z -> Z) a mem fuel guess near,
  good_guess guess /\ wf_array a /\ ga_group a = None /\ Forall (fun w => w = 0) (ga_width a) /\
  (forall p, near p p = true) /\ (2 <= fuel)%nat /\
  (forall x p ad, reg_place a x (p, ad) -> mem p ad = Some (A x)) /\
  select_elem (fun v => v) false false fuel guess near (ga_nproc a) a mem = Undef.
Proof.
  set (a := {| ga_desc := {| distr_type := REGULAR; dims := [1]; nblock := [1]; mapc := [1]; block_dims := [];
                   num_blocks := []; rstrctd_list := []; rank_rstrctd := [] |};
               ga_width := [0]; ga_group := None; ga_nproc := 2; ga_elemsize := 8 |}).
  exists (fun _ => 7), a, (fun _ _ => Some 7), 3%nat, ex_guess, (fun _ _ => true).
  split; [exact ex_guess_good|]. split.
  { split; [|split; [reflexivity|split; [repeat constructor; lia|split; [exact I|cbn; lia]]]].
    split; [reflexivity|]. split; [discriminate|]. split; [|left; split; [reflexivity|cbn; lia]].
    split; [|exact I]. split; [lia|]. split; [lia|]. split; [cbn; lia|]. split; [reflexivity|]. split; [|vm_compute; discriminate].
    intros i Hi. change (Z.to_nat 1) with 1%nat in Hi. lia. }
  split; [reflexivity|]. split; [repeat constructor|]. split; [reflexivity|]. split; [lia|].
  split; [intros; reflexivity|]. vm_compute. reflexivity.
Qed.
Print Assumptions C70_empty_refuted.

(** ScaLAPACK blocks are not packed when a process holds more than one block
    row, and the call stops. *)
Theorem C70_layout_refuted : exists a, 
  distr_type (ga_desc a) = SCALAPACK /\ wf_blocked (ga_desc a) /\ wf_grid (ga_nproc a) (ga_desc a) /\ ga_group a = None /\
  forall (mem : Z -> Z -> option Z) mn guess near fuel,
    (9 <= fuel)%nat -> select_elem (fun v => v) mn false fuel guess near (ga_nproc a) a mem = Abort.
Proof.
  exists (ex_grid SCALAPACK). destruct (ex_grid_wf SCALAPACK) as [W1 W2]; [tauto|].
  split; [reflexivity|]. split; [exact W1|]. split; [exact W2|]. split; [reflexivity|].
  intros mem mn guess near fuel Hf. do 9 (destruct fuel as [|fuel]; [lia|]). reflexivity.
Qed.
Print Assumptions C70_layout_refuted.
