(** Property theorems: the memory of sparse arrays (C105). *)
From Verif Require Import MBase MNb MHandle MGroup MSparse LNb LRadix LStore LIterBlk LSprs MSprs8 LSprs14.
From Coq Require Import Permutation.
Open Scope Z_scope.

(** The states that a program reaches by allowed calls. *)
Inductive reach (size : Z) : list call -> arrays -> spa -> Prop :=
  | reach_init : reach size [] (fun _ => None) init
  | reach_step : forall cs v s c s' r, reach size cs v s -> allowed v c -> step size s c = Done (s', r) -> reach size (cs ++ [c]) (after v c r) s'.
Definition copies (cs : list call) : list call := filter (fun c => match c with Duplicate _ => true | _ => false end) cs.

Lemma step_ok size v s lost c : good size v s lost -> allowed v c -> (makes c <> None -> exists h, 0 <= h < size /\ v h = None) ->
  exists s' r lost', step size s c = Done (s', r) /\ good size (after v c r) s' lost' /\ (makes c <> None -> 0 <= r < size /\ v r = None) /\
    (length lost' = length lost + 3 * length (copies [c]))%nat.
Proof.
  intros G A F. pose proof G as (_ & _ & G3). assert (IT : forall h x, v h <> None -> in_table size h x = x) by (intros h x H; unfold in_table; pose proof (G3 h H); replace ((0 <=? h) && (h <? size)) with true by lia; reflexivity).
  destruct c as [|h|h nv nb|h|a b nv nb|h]; cbn [step allowed makes after copies filter length] in *.
  - destruct (create_ok size v s lost G (F ltac:(discriminate))) as (s' & r & E & G' & Rr & Vr & _). exists s', r, lost. split; [exact E|]. split; [exact G'|]. split; [intros _; split; assumption|lia].
  - rewrite IT by congruence. destruct (add_ok size v s lost h G A) as (s' & E & G'). exists s', 0, lost. split; [exact E|]. split; [exact G'|]. split; [congruence|lia].
  - destruct A as (A & NV & NB). rewrite IT by congruence. destruct (assemble_mem_ok size v s lost h nv nb G A NV NB) as (s' & E & G'). exists s', 1, lost. split; [exact E|]. split; [exact G'|]. split; [congruence|lia].
  - rewrite IT by congruence. destruct (duplicate_ok size v s lost h G (F ltac:(discriminate)) A) as (s' & r & b & E & G' & Rr & Vr & (x & y & z & -> & _)). exists s', r. eexists. split; [exact E|]. split; [exact G'|]. split; [intros _; split; assumption|]. cbn. lia.
  - destruct A as (A & B & NV & NB). rewrite !IT by congruence. destruct (matmat_mem_ok size v s lost nv nb G (F ltac:(discriminate)) NV NB) as (s' & r & E & G' & Rr & Vr). exists s', r, lost. split; [exact E|]. split; [exact G'|]. split; [intros _; split; assumption|lia].
  - rewrite IT by exact A. destruct (destroy_ok size v s lost h G A) as (s' & E & G'). exists s', 1, lost. split; [exact E|]. split; [exact G'|]. split; [congruence|lia].
Qed.
Lemma full_undef size v s lost c : good size v s lost -> allowed v c -> makes c <> None -> ~ (exists h, 0 <= h < size /\ v h = None) -> step size s c = Undef.
Proof.
  intros G A M N. pose proof G as (_ & G2 & G3). assert (F : first_free size (tab s) = None).
  { unfold first_free. destruct (find _ _) as [r|] eqn:F; [exfalso|reflexivity]. apply find_some in F. destruct F as [I B]. apply zseq_In in I. apply N. exists r. split; [lia|]. pose proof (G2 r) as E. destruct (v r) as [[|]|]; [| |reflexivity]; destruct E as (E & _); rewrite E in B; discriminate. }
  assert (C : create size s = Undef) by (unfold create; rewrite F; reflexivity).
  assert (IT : forall h x, v h <> None -> in_table size h x = x) by (intros h x H; unfold in_table; pose proof (G3 h H); replace ((0 <=? h) && (h <? size)) with true by lia; reflexivity).
  destruct c as [|h|h nv nb|h|a b nv nb|h]; cbn [step allowed makes] in *; try congruence.
  - rewrite IT by congruence. unfold duplicate. pose proof (G2 h) as E. rewrite A in E. destruct E as (_ & E & _). rewrite E. cbn [negb]. rewrite C. reflexivity.
  - destruct A as (A & B & _). rewrite !IT by congruence. unfold matmat_mem. rewrite C. reflexivity.
Qed.
Lemma reach_good size cs v s : reach size cs v s -> exists lost, good size v s lost /\ (length lost = 3 * length (copies cs))%nat.
Proof.
  induction 1 as [|cs v s c s' r RE IH A E]; [exists []; split; [apply good_init|reflexivity]|]. destruct IH as (lost & G & L).
  assert (F : makes c <> None -> exists h, 0 <= h < size /\ v h = None).
  { intros M. destruct (find (fun h => match v h with None => true | _ => false end) (zseq 0 (Z.to_nat size))) as [h|] eqn:FD.
    - apply find_some in FD. destruct FD as [I B]. apply zseq_In in I. exists h. split; [lia|]. destruct (v h); [discriminate|reflexivity].
    - exfalso. rewrite (full_undef size v s lost c G A M) in E; [discriminate|]. intros (h & H & Vh). pose proof (find_none _ _ FD h) as B. cbn beta in B. rewrite Vh in B. discriminate B. apply zseq_In. lia. }
  destruct (step_ok size v s lost c G A F) as (s2 & r2 & lost' & E2 & G2 & _ & L2). rewrite E in E2. injection E2 as <- <-. exists lost'. split; [exact G2|]. unfold copies. rewrite filter_app, app_length. fold (copies cs) (copies [c]). lia.
Qed.

(** * C105: the memory of sparse arrays *)
(** While there is a free entry, no allowed call uses memory that it does not have or ends
    the program, and new arrays get a handle that is not in use. *)
Theorem C105_safe_partial : forall size cs v s c, reach size cs v s -> allowed v c -> (makes c <> None -> exists h, 0 <= h < size /\ v h = None) ->
  exists s' r, step size s c = Done (s', r) /\ (makes c <> None -> 0 <= r < size /\ v r = None).
Proof. intros size cs v s c RE A F. destruct (reach_good size cs v s RE) as (lost & G & _). destruct (step_ok size v s lost c G A F) as (s' & r & lost' & E & _ & H & _). exists s', r. split; [exact E|exact H]. Qed.
(** Elements can only be added before an array is assembled: otherwise the call ends the
    program; destroying an array that does not exist does nothing. *)
Theorem C105_refused : forall size cs v s h, reach size cs v s -> 0 <= h < size ->
  (v h <> Some false -> step size s (Add h) = Abort) /\ (v h = None -> step size s (Destroy h) = Done (s, 1)).
Proof.
  intros size cs v s h RE H. destruct (reach_good size cs v s RE) as (lost & (_ & G & _) & _). specialize (G h). cbn [step]. unfold in_table. replace ((0 <=? h) && (h <? size)) with true by lia. unfold add_element, destroy.
  destruct (v h) as [[|]|]; destruct G as (A & R & _); rewrite A, R; cbn [negb]; repeat split; intros; congruence.
Qed.
(** GA_Terminate frees everything that was not freed, and nothing twice, unless an array was
    copied; and three pieces of memory stay for each copy. *)
Theorem C105_terminate_partial : forall size cs v s, reach size cs v s -> exists m, terminate_all size s = Done m /\ (length (live m) = 3 * length (copies cs))%nat.
Proof.
  intros size cs v s RE. destruct (reach_good size cs v s RE) as (lost & (O & _) & L). destruct (terminate_ok (tab s) lost _ _ O) as (m & E & (P & _)). exists m. split; [exact E|]. rewrite (Permutation_length P). exact L.
Qed.
(** When all arrays are destroyed, there is no memory left, unless an array was copied. *)
Theorem C105_destroyed_partial : forall size cs v s, reach size cs v s -> copies cs = [] -> (forall h, v h = None) -> live (heap s) = [].
Proof.
  intros size cs v s RE C N. destruct (reach_good size cs v s RE) as (lost & (O & G2 & _) & L). rewrite C in L. destruct lost; [|discriminate]. rewrite app_nil_r in O. destruct O as (P & _).
  assert (E : all_ptrs size (tab s) = []).
  { unfold all_ptrs. induction (zseq 0 (Z.to_nat size)) as [|h l IH]; [reflexivity|]. cbn [flat_map]. rewrite IH. pose proof (G2 h) as E. rewrite N in E. destruct E as (_ & _ & E3 & E4). unfold ptrs. rewrite E3, E4. reflexivity. }
  rewrite E in P. apply Permutation_nil, Permutation_sym. exact P.
Qed.
(** Without a free entry the handle that is returned was never set. *)
Theorem C105_full : forall size cs v s c, reach size cs v s -> allowed v c -> makes c <> None -> (forall h, 0 <= h < size -> v h <> None) -> step size s c = Undef.
Proof. intros size cs v s c RE A M N. destruct (reach_good size cs v s RE) as (lost & G & _). apply (full_undef size v s lost c G A M). intros (h & H & Vh). exact (N h H Vh). Qed.

(** An array is filled, assembled and multiplied by itself; both are destroyed and the first
    entry is used again. *)
Definition ex_calls : list call := [Create; Add 0; Add 0; Assemble 0 2 2; Matmat 0 0 1 1; Destroy 0; Create].
Lemma ex_reach : exists v s, reach 8 ex_calls v s /\ v 0 = Some false /\ v 1 = Some true /\ v 2 = None /\ length (live (heap s)) = 6%nat.
Proof.
  eexists. eexists. split.
  - change ex_calls with (((((([] ++ [Create]) ++ [Add 0]) ++ [Add 0]) ++ [Assemble 0 2 2]) ++ [Matmat 0 0 1 1]) ++ [Destroy 0] ++ [Create]). rewrite app_assoc.
    eapply reach_step with (r := 0); [eapply reach_step with (r := 1); [eapply reach_step with (r := 1); [eapply reach_step with (r := 1); [eapply reach_step with (r := 0); [eapply reach_step with (r := 0); [eapply reach_step with (r := 0); [apply reach_init| |]| |]| |]| |]| |]| |]| |].
    all: first [exact I|vm_compute; reflexivity|vm_compute; discriminate|cbn; repeat split; lia].
  - repeat split; vm_compute; reflexivity.
Qed.
Example C105_ex : exists v s, reach 8 ex_calls v s /\ copies ex_calls = [] /\ allowed v (Matmat 1 1 5 2) /\ allowed v (Add 0) /\ (exists h, 0 <= h < 8 /\ v h = None).
Proof. destruct ex_reach as (v & s & RE & A & B & C & _). exists v, s. split; [exact RE|]. split; [reflexivity|]. cbn. split; [repeat split; try assumption; lia|]. split; [exact A|]. exists 2. split; [lia|exact C]. Qed.
(** The buffers grow. *)
Example C105_ex_grow : exists s, Nat.iter 1025 (fun x => try (s, _) <- x; add_element s 0) (create 8 init) = Done (s, 0) /\ maxval (tab s 0) = 2048 /\ nval (tab s 0) = 1025 /\ length (live (heap s)) = 3%nat.
Proof. eexists. split; [vm_compute; reflexivity|]. repeat split; vm_compute; reflexivity. Qed.
(** A copy leaves memory behind that nothing frees. *)
Theorem C105_copy_refuted : exists cs v s, reach 8 cs v s /\ (forall h, v h = None) /\ length (live (heap s)) = 3%nat /\ exists m, terminate_all 8 s = Done m /\ live m = live (heap s).
Proof.
  exists ([Create] ++ [Assemble 0 1 1] ++ [Duplicate 0] ++ [Destroy 0] ++ [Destroy 1]). eexists. eexists. split; [|split; [|split]].
  - change ([Create] ++ [Assemble 0 1 1] ++ [Duplicate 0] ++ [Destroy 0] ++ [Destroy 1]) with ((((([] ++ [Create]) ++ [Assemble 0 1 1]) ++ [Duplicate 0]) ++ [Destroy 0]) ++ [Destroy 1]).
    eapply reach_step with (r := 1); [eapply reach_step with (r := 1); [eapply reach_step with (r := 1); [eapply reach_step with (r := 1); [eapply reach_step with (r := 0); [apply reach_init| |]| |]| |]| |]| |].
    all: first [exact I|vm_compute; reflexivity|vm_compute; discriminate|cbn; repeat split; lia].
  - intros h. cbn. unfold put. destruct (Z.eqb_spec h 1); [reflexivity|]. destruct (Z.eqb_spec h 0); reflexivity.
  - vm_compute. reflexivity.
  - eexists. split; [vm_compute; reflexivity|]. vm_compute. reflexivity.
Qed.
Theorem C105_full_refuted : exists cs v s, reach 1 cs v s /\ allowed v Create /\ step 1 s Create = Undef.
Proof. exists ([] ++ [Create]). eexists. eexists. split; [eapply reach_step with (r := 0); [apply reach_init|exact I|vm_compute; reflexivity]|]. split; [exact I|vm_compute; reflexivity]. Qed.

Print Assumptions C105_safe_partial.
Print Assumptions C105_refused.
Print Assumptions C105_terminate_partial.
Print Assumptions C105_destroyed_partial.
Print Assumptions C105_full.
Print Assumptions C105_copy_refuted.
Print Assumptions C105_full_refuted.
