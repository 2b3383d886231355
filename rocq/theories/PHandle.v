(** C37, C38, C39: handles of arrays, memory accounting and memory limits. *)
From Coq Require Import ZArith List Lia Bool.
From Verif Require Import LHandle3.
Import ListNotations.
Open Scope Z_scope.

(** The default group of the process exists. *)
Definition default_ok (max : Z) (w : self) (groups : Z -> bool) : Prop :=
  -1 <= s_dflt w <= 0 \/ (0 < s_dflt w < max /\ groups (s_dflt w) = true).

(** C37.  After any history of allowed calls, an allowed call ends normally and
    has the effect that [book_step] describes: a new handle is one that no known
    array has, whatever slot it is in.  Missing: the calls that [allowed] leaves
    out, for which see the refutations. *)
Theorem C37_calls_do_as_specified_partial w max limit groups cs l s b c :
  default_ok max w groups -> ga_run w (ga_init max limit groups) cs = Done (s, l) ->
  book_run max (s_dflt w) (book0 limit groups) cs l b -> allowed max (s_dflt w) b c ->
  exists s' a b', ga_step w s c = Done (s', a) /\ book_step max (s_dflt w) b c a b'.
Proof.
  intros D R B A. destruct (run_sim w max cs _ _ _ _ _ (sim_init w max limit groups D) ltac:(intros g e; discriminate) R B) as [S N].
  destruct (allowed_sim w max s b c S N A) as (s' & a & b' & H1 & H2 & _). eauto.
Qed.
(** The table agrees with what the program knows, at every handle: whether there
    is an allocated array, and its descriptor.  So a call on one handle changes
    no other array.  Storage of different arrays is different, and allocated. *)
Theorem C37_descriptors_partial w max limit groups cs l s b :
  default_ok max w groups -> ga_run w (ga_init max limit groups) cs = Done (s, l) ->
  book_run max (s_dflt w) (book0 limit groups) cs l b ->
  (forall g, verify_handle s g = match b_arr b g with Some e => match e_alloc e with Some _ => true | None => false end | None => false end) /\
  (forall g e, b_arr b g = Some e -> let x := h_tab s (g + GA_OFFSET) in
     ndim x = Some (e_nd e) /\ grp x = e_grp e /\ content x = e_desc e /\
     (forall n, e_alloc e = Some n -> size x = n /\ exists k, ptr x (rank_in w (grp x)) = Blk k /\ In k (h_blocks s))) /\
  (forall g1 g2 e1 e2 n1 n2 k, g1 <> g2 -> b_arr b g1 = Some e1 -> e_alloc e1 = Some n1 -> b_arr b g2 = Some e2 -> e_alloc e2 = Some n2 ->
     let x1 := h_tab s (g1 + GA_OFFSET) in let x2 := h_tab s (g2 + GA_OFFSET) in
     ptr x1 (rank_in w (grp x1)) = Blk k -> ptr x2 (rank_in w (grp x2)) <> Blk k).
Proof.
  intros D R B. destruct (run_sim w max cs _ _ _ _ _ (sim_init w max limit groups D) ltac:(intros g e; discriminate) R B) as [S N].
  unfold GA_OFFSET. split; [|split].
  - intros g. unfold verify_handle, GA_OFFSET. rewrite (si_max _ _ _ _ S). destruct (b_arr b g) as [e|] eqn:E.
    + destruct (slot_of _ _ _ _ _ _ S E) as [Hg (_ & _ & _ & _ & _ & _ & _ & H)]. unfold handle_ok in Hg.
      destruct (Z.leb_spec 0 (g + 1000)), (Z.ltb_spec (g + 1000) max); try lia. cbn [andb]. destruct (e_alloc e); [apply H|exact H].
    + pose proof (si_slot _ _ _ _ S g) as H. rewrite E in H. destruct H as (_ & _ & ->). apply andb_false_r.
  - intros g e E. destruct (slot_of _ _ _ _ _ _ S E) as [Hg (_ & _ & H1 & H2 & H3 & _ & _ & H)]. split; [exact H1|]. split; [exact H2|]. split; [exact H3|].
    intros n A. rewrite A in H. destruct H as (Ha & H & _). split; [exact H|]. destruct (si_arr _ _ _ _ S _ Ha) as (k & K). exists k. split; [exact K|].
    eapply (ow_in _ _ _ (si_own _ _ _ _ S) (OArr (g + 1000))). cbn [own_of]. rewrite Ha, K. reflexivity.
  - intros g1 g2 e1 e2 n1 n2 k NE E1 A1 E2 A2 K1 K2.
    destruct (slot_of _ _ _ _ _ _ S E1) as [_ (_ & _ & _ & _ & _ & _ & _ & H1)]. rewrite A1 in H1. destruct H1 as (H1 & _).
    destruct (slot_of _ _ _ _ _ _ S E2) as [_ (_ & _ & _ & _ & _ & _ & _ & H2)]. rewrite A2 in H2. destruct H2 as (H2 & _).
    assert (Q : OArr (g1 + 1000) = OArr (g2 + 1000)).
    { eapply (ow_inj _ _ _ (si_own _ _ _ _ S) _ _ k); cbn [own_of]; unfold aptr; [rewrite H1, K1|rewrite H2, K2]; reflexivity. }
    injection Q. lia.
Qed.
(** The table overflows only if every handle belongs to a known array; the
    handle of a destroyed array is available again. *)
Theorem C37_capacity_partial w max limit groups cs l s b :
  default_ok max w groups -> ga_run w (ga_init max limit groups) cs = Done (s, l) ->
  book_run max (s_dflt w) (book0 limit groups) cs l b ->
  (ga_step w s CCreate = Abort <-> forall h, handle_ok max h -> b_arr b h <> None) /\
  (forall g s' , allowed max (s_dflt w) b (CDestroy g) -> ga_step w s (CDestroy g) = Done (s', AStatus true) -> ga_step w s' CCreate <> Abort).
Proof.
  intros D R B. destruct (run_sim w max cs _ _ _ _ _ (sim_init w max limit groups D) ltac:(intros g e; discriminate) R B) as [S N].
  assert (X : forall s b, sim w max s b -> ga_step w s CCreate = Abort <-> ~ room max b).
  { clear. intros s b S. cbn [ga_step]. unfold create_handle. pose proof (first_free_sim w max s b S) as F. destruct (first_free _ _ _) as [i|]; split; try tauto; try discriminate.
    intros Q. exfalso. apply Q. eexists. exact F. }
  split.
  - rewrite (X s b S). split; [intros Q h Hh E; apply Q; exists h; auto|]. intros Q (h & Hh & E). exact (Q h Hh E).
  - intros g s' Al E. destruct (allowed_sim w max s b _ S N Al) as (s2 & a & b' & E2 & St & S2). rewrite E in E2. injection E2 as <- <-. rewrite (X _ _ S2). intros Q. apply Q.
    inversion St; subst. exists g. split; [|cbn [set_entry b_arr]; apply put_same]. destruct Al as (e2 & n & E3 & _). eapply (si_range _ _ _ _ S). congruence.
Qed.

(** C38.  With the limit [lim] in force the memory available is the limit minus
    the bytes in live arrays and in blocks from GA_Getmem; the memory reported as
    used is that of the live arrays. *)
Theorem C38_memory_accounting_partial w max limit groups cs l s b :
  default_ok max w groups -> ga_run w (ga_init max limit groups) cs = Done (s, l) ->
  book_run max (s_dflt w) (book0 limit groups) cs l b ->
  inquire_memory s = in_arrays max b /\ (forall lim, b_limit b = Some lim -> memory_avail s = lim - in_use max b).
Proof.
  intros D R B. destruct (run_sim w max cs _ _ _ _ _ (sim_init w max limit groups D) ltac:(intros g e; discriminate) R B) as [S N]. split.
  - unfold inquire_memory, in_arrays. rewrite (si_max _ _ _ _ S). change 0 with (-1000 + 1000) at 1. rewrite sum_sizes_eq. apply sum_over_ext. intros g _.
    pose proof (si_slot _ _ _ _ S g) as H. destruct (b_arr b g) as [e|]; cbn [bytes_of].
    + destruct H as (_ & _ & _ & _ & _ & _ & _ & H). destruct (e_alloc e); [destruct H as (-> & -> & _); reflexivity|rewrite H; reflexivity].
    + destruct H as (_ & _ & ->). reflexivity.
  - intros lim L. pose proof (si_mem _ _ _ _ S) as M. rewrite L in M. apply M.
Qed.
(** What a call does to the memory available while a limit is in force. *)
Theorem C38_failed_allocation_charges_nothing_partial w max limit groups cs l s b g n o s' :
  default_ok max w groups -> ga_run w (ga_init max limit groups) cs = Done (s, l) ->
  book_run max (s_dflt w) (book0 limit groups) cs l b -> allowed max (s_dflt w) b (CAllocate g n o) -> b_limit b <> None ->
  (ga_step w s (CAllocate g n o) = Done (s', AStatus false) -> memory_avail s' = memory_avail s) /\
  (ga_step w s (CAllocate g n o) = Done (s', AStatus true) -> memory_avail s' = memory_avail s - n /\
     forall s'', ga_step w s' (CDestroy g) = Done (s'', AStatus true) -> memory_avail s'' = memory_avail s).
Proof.
  intros D R B Al Lim. destruct (run_sim w max cs _ _ _ _ _ (sim_init w max limit groups D) ltac:(intros ? ?; discriminate) R B) as [S N].
  assert (M : forall s b, sim w max s b -> forall lim, b_limit b = Some lim -> memory_avail s = lim - in_use max b).
  { clear. intros s b S lim L. pose proof (si_mem _ _ _ _ S) as M. rewrite L in M. apply M. }
  destruct (b_limit b) as [lim|] eqn:L; [clear Lim|now destruct Lim].
  destruct Al as (e & E & A & ND & Hn). destruct (allocate_sim w max s b g n o e S E A ND Hn) as (s1 & E1 & _ & S1). cbn [ga_step]. rewrite E1.
  assert (NR : e_prop e <> ReadOnly) by (intros Q; destruct (si_ro _ _ _ _ S g e E Q) as (k & Y & _); congruence).
  destruct (slot_of _ _ _ _ _ _ S E) as [Hg _]. split; intros Q; injection Q as <- Q; rewrite Q in *.
  - rewrite (M _ _ S1 lim L), (M _ _ S lim L), in_use_change by exact Hg. rewrite E. cbn. rewrite A. lia.
  - split; [rewrite (M _ _ S1 lim L), (M _ _ S lim L), in_use_change by exact Hg; rewrite E; cbn; rewrite A; lia|].
    intros s''. cbn [ga_step]. destruct (destroy_sim w max s1 _ g _ n S1 (put_same _ _ _) eq_refl NR) as (s2 & -> & _ & S2). intros [= <-].
    rewrite (M _ _ S2 lim L), (M _ _ S lim L), !in_use_change by exact Hg. rewrite E. cbn. rewrite put_same. cbn. rewrite A. lia.
Qed.

(** C39.  Setting a limit, when the limit in force is still the one that it
    started with, or when there is none and no memory is in use: afterwards the
    memory available is the new limit minus the memory in use. *)
Theorem C39_limit_change_partial w max limit groups cs l s b m :
  default_ok max w groups -> ga_run w (ga_init max limit groups) cs = Done (s, l) ->
  book_run max (s_dflt w) (book0 limit groups) cs l b -> 0 <= m ->
  b_limit b = Some (b_first b) \/ (b_limit b = None /\ in_use max b = 0) ->
  memory_avail (set_memory_limit s m) = m - in_use max b.
Proof.
  intros D R B Hm H. destruct (run_sim w max cs _ _ _ _ _ (sim_init w max limit groups D) ltac:(intros ? ?; discriminate) R B) as [S N].
  pose proof (limit_sim w max s b m S (or_intror H)) as S'. pose proof (si_mem _ _ _ _ S') as M. cbn [set_limit b_limit] in M.
  destruct (Z.ltb_spec m 0); [lia|]. destruct M as (_ & M & _). exact M.
Qed.

(** ---- examples: the hypotheses are met by a history with arrays, a limit,
    duplicates and destruction ---- *)
Lemma by_run (r : out (gas * list answer)) l P : match r with Done (s, l') => l' = l /\ P s | _ => False end -> exists s, r = Done (s, l) /\ P s.
Proof. destruct r as [[s l']| |]; [|intros []|intros []]. intros [-> H]. exists s. auto. Qed.
Lemma by_step (r : out (gas * answer)) a P : match r with Done (s, a') => a' = a /\ P s | _ => False end -> exists s, r = Done (s, a) /\ P s.
Proof. destruct r as [[s a']| |]; [|intros []|intros []]. intros [-> H]. exists s. auto. Qed.
Definition w0 : self := Self 0 (fun _ => 0) (-1).
Definition no_groups : Z -> bool := fun _ => false.
Definition start (max limit : Z) : gas := ga_init max limit no_groups.
Definition history : list call :=
  [CCreate; CSetData (-1000) 2 [7; 7]; CAllocate (-1000) 40 true; CDuplicate (-1000) [8] true; CLimit 200; CDestroy (-1000); CCreate].
Definition history_answers : list answer := [AHandle (-1000); AUnit; AStatus true; ADup (-999) true; AUnit; AStatus true; AHandle (-1000)].
Example ex_history_runs : exists s, ga_run w0 (start 3 100) history = Done (s, history_answers) /\ memory_avail s = 160.
Proof. apply by_run. vm_compute. auto. Qed.
Example ex_history_allowed : exists b, book_run 3 (-1) (book0 100 no_groups) history history_answers b.
Proof.
  eexists. unfold history, history_answers.
  eapply R_cons; [exists (-1000); split; [unfold handle_ok; lia|reflexivity]|eapply S_create; [unfold handle_ok; lia|reflexivity]|].
  eapply R_cons; [eexists; split; [reflexivity|]; split; [reflexivity|lia]|eapply S_data; reflexivity|].
  eapply R_cons; [eexists; split; [reflexivity|]; split; [reflexivity|]; split; [cbn; lia|lia]|eapply S_allocate; reflexivity|].
  eapply R_cons; [split; [exists (-999); split; [unfold handle_ok; lia|reflexivity]|eexists; eexists; split; [reflexivity|]; split; reflexivity]
    |eapply S_duplicate; try reflexivity; unfold handle_ok; lia|].
  eapply R_cons; [right; left; reflexivity|apply S_limit|].
  eapply R_cons; [eexists; eexists; split; [reflexivity|]; split; [reflexivity|discriminate]|eapply S_destroy; reflexivity|].
  eapply R_cons; [exists (-1000); split; [unfold handle_ok; lia|reflexivity]|eapply S_create; [unfold handle_ok; lia|reflexivity]|].
  apply R_nil.
Qed.
(** A read-only array and back again, with cached reads on another. *)
Definition history2 : list call :=
  [CCreate; CSetData (-1000) 2 []; CAllocate (-1000) 40 true; CCreate; CSetData (-999) 1 []; CReadCache (-999); CAllocate (-999) 8 true; CRead (-999);
   CReadOnly (-1000) 1 40 20 true true; CUnset (-1000) 20 40 true true; CGetmem 10 true; CDeallocate (-999); CFreemem 7; CDestroy (-1000)].
Example ex_history2_runs : match ga_run w0 (start 3 100) history2 with Done (s, _) => memory_avail s = 100 /\ inquire_memory s = 0 | _ => False end.
Proof. vm_compute. auto. Qed.

(** ---- what the code does with the calls left out ---- *)

(** C37.  Destroying a handle that was created but not allocated (or was
    deallocated) answers FALSE and keeps the slot for ever. *)
Theorem C37_unallocated_destroy_refuted : exists s, ga_run w0 (start 1 (-1)) [CCreate; CDestroy (-1000)] = Done (s, [AHandle (-1000); AStatus false]) /\
  ga_step w0 s CCreate = Abort.
Proof. apply by_run. vm_compute. auto. Qed.
Theorem C37_deallocated_destroy_refuted : exists s,
  ga_run w0 (start 1 (-1)) [CCreate; CSetData (-1000) 1 []; CAllocate (-1000) 8 true; CDeallocate (-1000); CDestroy (-1000)]
    = Done (s, [AHandle (-1000); AUnit; AStatus true; AStatus true; AStatus false]) /\ ga_step w0 s CCreate = Abort.
Proof. apply by_run. vm_compute. auto. Qed.
(** Allocating a destroyed handle succeeds and makes a live array whose handle is
    then given to somebody else. *)
Theorem C37_live_handle_given_again_refuted : exists s,
  ga_run w0 (start 3 (-1)) [CCreate; CSetData (-1000) 1 []; CAllocate (-1000) 8 true; CDestroy (-1000); CAllocate (-1000) 8 true]
    = Done (s, [AHandle (-1000); AUnit; AStatus true; AStatus true; AStatus true]) /\
  verify_handle s (-1000) = true /\ exists s', ga_step w0 s CCreate = Done (s', AHandle (-1000)).
Proof. apply by_run. vm_compute. split; [auto|]. split; [auto|]. eexists. reflexivity. Qed.
(** A duplicate of an array with cached reads shares its list: destroying the
    copy frees the list that the original goes on to use. *)
Theorem C37_copy_shares_cache_refuted : exists s,
  ga_run w0 (start 3 (-1)) [CCreate; CSetData (-1000) 1 []; CAllocate (-1000) 8 true; CReadCache (-1000); CRead (-1000);
                            CDuplicate (-1000) [] true; CDestroy (-999)]
    = Done (s, [AHandle (-1000); AUnit; AStatus true; AUnit; AUnit; ADup (-999) true; AStatus true]) /\
  verify_handle s (-1000) = true /\ ga_step w0 s (CRead (-1000)) = Undef /\ ga_step w0 s (CDestroy (-1000)) = Undef.
Proof. apply by_run. vm_compute. auto. Qed.
(** Even a duplicate that fails for lack of memory does so. *)
Theorem C37_failed_copy_frees_cache_refuted : exists s,
  ga_run w0 (start 3 10) [CCreate; CSetData (-1000) 1 []; CAllocate (-1000) 8 true; CReadCache (-1000); CRead (-1000); CDuplicate (-1000) [] true]
    = Done (s, [AHandle (-1000); AUnit; AStatus true; AUnit; AUnit; ADup (-999) false]) /\
  verify_handle s (-1000) = true /\ ga_step w0 s (CRead (-1000)) = Undef.
Proof. apply by_run. vm_compute. auto. Qed.
(** Destroying a read-only array uses its group after freeing it; with a copy
    of the array alive it ends the program. *)
Theorem C37_destroy_read_only_refuted : exists s,
  ga_run w0 (start 4 (-1)) [CCreate; CSetData (-1000) 1 []; CAllocate (-1000) 8 true; CReadOnly (-1000) 1 8 8 true true]
    = Done (s, [AHandle (-1000); AUnit; AStatus true; AUnit]) /\
  ga_step w0 s (CDestroy (-1000)) = Undef /\
  exists s', ga_step w0 s (CDuplicate (-1000) [] true) = Done (s', ADup (-999) true) /\ ga_step w0 s' (CDestroy (-999)) = Abort.
Proof.
  apply by_run.
  match goal with |- context [ga_run ?a ?b ?c] => set (r := ga_run a b c); vm_compute in r end. cbv beta iota zeta delta [r].
  split; [reflexivity|]. split; [vm_compute; reflexivity|]. apply by_step. vm_compute. auto.
Qed.
(** A handle outside the table is used as an index before it is checked. *)
Theorem C37_bad_handle_refuted max limit g : ~ handle_ok max g -> ga_step w0 (start max limit) (CDestroy g) = Undef /\ ga_step w0 (start max limit) (CDeallocate g) = Undef.
Proof.
  intros H. unfold ga_step, destroy, deallocate, index, GA_OFFSET. cbn [start ga_init h_max]. unfold handle_ok in H.
  destruct (Z.leb_spec 0 (g + 1000)), (Z.ltb_spec (g + 1000) max); try lia; split; reflexivity.
Qed.

(** C38.  Allocating twice charges twice; destroy returns the memory once. *)
Theorem C38_allocate_twice_refuted : exists s,
  ga_run w0 (start 3 100) [CCreate; CSetData (-1000) 1 []; CAllocate (-1000) 8 true; CAllocate (-1000) 8 true; CDestroy (-1000)]
    = Done (s, [AHandle (-1000); AUnit; AStatus true; AStatus true; AStatus true]) /\
  memory_avail s = 92 /\ inquire_memory s = 0 /\ h_blocks s <> [].
Proof. apply by_run. vm_compute. split; [auto|]. split; [auto|]. split; [auto|]. discriminate. Qed.
(** A copy of an array that lies in another array's memory is charged and never
    credited. *)
Theorem C38_copy_of_overlay_refuted : exists s,
  ga_run w0 (start 4 100) [CCreate; CSetData (-1000) 1 []; CAllocate (-1000) 8 true; CCreate; CSetData (-999) 1 []; COverlay (-999) (-1000) 8 true;
                           CDuplicate (-999) [] true; CDestroy (-998); CDestroy (-999); CDestroy (-1000)]
    = Done (s, [AHandle (-1000); AUnit; AStatus true; AHandle (-999); AUnit; AStatus true; ADup (-998) true; AStatus true; AStatus true; AStatus true]) /\
  memory_avail s = 92 /\ inquire_memory s = 0.
Proof. apply by_run. vm_compute. auto. Qed.
(** An overlay that does not fit frees memory that was never allocated, or was
    freed before. *)
Theorem C38_failed_overlay_refuted : exists s,
  ga_run w0 (start 4 100) [CCreate; CSetData (-1000) 1 []; CAllocate (-1000) 8 true; CCreate; CSetData (-999) 1 []]
    = Done (s, [AHandle (-1000); AUnit; AStatus true; AHandle (-999); AUnit]) /\
  ga_step w0 s (COverlay (-999) (-1000) 16 true) = Undef /\
  exists s', ga_run w0 s [CAllocate (-999) 8 true; CDestroy (-999); CCreate; CSetData (-999) 1 []] = Done (s', [AStatus true; AStatus true; AHandle (-999); AUnit]) /\
  ga_step w0 s' (COverlay (-999) (-1000) 16 true) = Undef.
Proof.
  apply by_run.
  match goal with |- context [ga_run ?a ?b ?c] => set (r := ga_run a b c); vm_compute in r end. cbv beta iota zeta delta [r].
  split; [reflexivity|]. split; [vm_compute; reflexivity|]. apply by_run. vm_compute. auto.
Qed.
(** GA_Getmem beyond the limit is served, not charged, and credited when freed. *)
Theorem C38_getmem_refuted : exists s, ga_run w0 (start 3 10) [CGetmem 100 true] = Done (s, [ABlock 0]) /\ memory_avail s = 10 /\
  exists s', ga_step w0 s (CFreemem 0) = Done (s', AUnit) /\ memory_avail s' = 110.
Proof.
  apply by_run.
  match goal with |- context [ga_run ?a ?b ?c] => set (r := ga_run a b c); vm_compute in r end. cbv beta iota zeta delta [r].
  split; [reflexivity|]. split; [vm_compute; reflexivity|]. apply by_step. vm_compute. auto.
Qed.
(** The statistics (GAstat.curmem) lose an array that was read-only for a while. *)
Theorem C38_statistics_refuted : exists s,
  ga_run w0 (start 4 (-1)) [CCreate; CSetData (-1000) 1 []; CAllocate (-1000) 8 true; CReadOnly (-1000) 1 8 8 true true; CUnset (-1000) 8 8 true true]
    = Done (s, [AHandle (-1000); AUnit; AStatus true; AUnit; AUnit]) /\ inquire_memory s = 8 /\ h_cur s = 0.
Proof. apply by_run. vm_compute. auto. Qed.

(** C39.  The limits 100, 200 and 300 in turn leave 400; a limit imposed while
    80 of 100 bytes are in use leaves 100. *)
Theorem C39_third_limit_refuted : exists s, ga_run w0 (start 3 100) [CLimit 200; CLimit 300] = Done (s, [AUnit; AUnit]) /\ memory_avail s = 400.
Proof. apply by_run. vm_compute. auto. Qed.
Theorem C39_same_limit_refuted m : 100 < m -> forall k, exists s l, ga_run w0 (start 3 100) (repeat (CLimit m) k) = Done (s, l) /\ memory_avail s = 100 + Z.of_nat k * (m - 100).
Proof.
  intros Hm. assert (G : forall k t, exists s l, ga_run w0 (set_total (start 3 100) t) (repeat (CLimit m) k) = Done (s, l) /\ memory_avail s = t + Z.of_nat k * (m - 100)).
  { induction k as [|k IH]; intros t; cbn [repeat ga_run]; [eexists; eexists; split; [reflexivity|]; cbn; lia|].
    cbn [ga_step]. destruct (IH (t + (m - 100))) as (s & l & E & M).
    assert (Q : set_memory_limit (set_total (start 3 100) t) m = set_total (start 3 100) (t + (m - 100))).
    { unfold set_memory_limit. cbn [set_total start ga_init h_limited h_total h_limit Z.leb Z.compare]. destruct (Z.leb_spec 0 m); [reflexivity|lia]. }
    rewrite Q, E. eexists. eexists. split; [reflexivity|]. rewrite M. lia. }
  intros k. apply (G k 100).
Qed.
Theorem C39_limit_while_in_use_refuted : exists s, 
  ga_run w0 (start 3 (-1)) [CCreate; CSetData (-1000) 1 []; CAllocate (-1000) 80 true; CLimit 100] = Done (s, [AHandle (-1000); AUnit; AStatus true; AUnit]) /\
  memory_avail s = 100 /\ inquire_memory s = 80.
Proof. apply by_run. vm_compute. auto. Qed.

Print Assumptions C37_calls_do_as_specified_partial.
Print Assumptions C37_descriptors_partial.
Print Assumptions C37_capacity_partial.
Print Assumptions C38_memory_accounting_partial.
Print Assumptions C38_failed_allocation_charges_nothing_partial.
Print Assumptions C39_limit_change_partial.
Print Assumptions C37_unallocated_destroy_refuted.
Print Assumptions C37_deallocated_destroy_refuted.
Print Assumptions C37_live_handle_given_again_refuted.
Print Assumptions C37_copy_shares_cache_refuted.
Print Assumptions C37_failed_copy_frees_cache_refuted.
Print Assumptions C37_destroy_read_only_refuted.
Print Assumptions C37_bad_handle_refuted.
Print Assumptions C38_allocate_twice_refuted.
Print Assumptions C38_copy_of_overlay_refuted.
Print Assumptions C38_failed_overlay_refuted.
Print Assumptions C38_getmem_refuted.
Print Assumptions C38_statistics_refuted.
Print Assumptions C39_third_limit_refuted.
Print Assumptions C39_same_limit_refuted.
Print Assumptions C39_limit_while_in_use_refuted.
