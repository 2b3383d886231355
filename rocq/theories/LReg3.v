(** Lemmas on the registration cache: runs. *)
From Verif Require Import SpecReg SpecRanks MBase MHandle MGroup MRanks MReg LNb LDist LRanks LRanks2 LRanks3 LReg LReg2.
From Coq Require Import Permutation.

Lemma flat_map_ext_in {A B} (f g : A -> list B) l : (forall x, In x l -> f x = g x) -> flat_map f l = flat_map g l.
Proof.
  induction l as [|a l IH]; intros H; cbn [flat_map]; [reflexivity|]. rewrite (H a), IH; auto; [intros; apply H; right; assumption|left; reflexivity].
Qed.
Lemma filter_filter {A} (f g : A -> bool) l : filter f (filter g l) = filter (fun x => g x && f x) l.
Proof. induction l as [|a l IH]; cbn [filter]; [reflexivity|]. destruct (g a); cbn [filter andb]; [destruct (f a)|]; rewrite IH; reflexivity. Qed.

Section node.
Variables (hs ms ss : list Z) (k : Z) (packed : bool).
Let n := nranks hs.
Let M := at_rank ms.
Hypothesis (PG : progress n k (hostof hs) M).

Section call.
Variable a : galloc.
Let g := al_group a.
Hypotheses (US : usable hs ms ss k packed g) (SZ : forall i, 0 <= al_size a i)
  (AD : forall r, In r g -> if 0 <? al_size a r then 0 < al_addr a r else al_addr a r = 0).
Let gm := group_master hs ss k packed g.

(** Allocation. *)
Definition minc (r : Z) : list Z := mine ms (al_size a) g r.
Lemma minc_In r i : In r g -> (In i (minc r) /\ al_addr a i <> 0 <-> In i g /\ 0 < al_size a i /\ M i = M r).
Proof.
  intros R. unfold minc, mine. rewrite filter_In, andb_true_iff, Z.eqb_eq, Z.ltb_lt. fold M. split; [tauto|].
  intros (I & S & E). split; [tauto|]. specialize (AD i I). destruct (Z.ltb_spec 0 (al_size a i)); lia.
Qed.
Lemma minc_NoDup r : NoDup (minc r).
Proof. apply NoDup_filter. exact (no_nodup _ _ _ _ _ _ (proj1 US)). Qed.
Definition munit (p : Z) : list (Z * Z) := own a p ++ others a minc p.
Lemma munit_both : both a minc munit.
Proof. intros p _. apply Permutation_refl. Qed.
Lemma member_unit p : In p g -> member_tasks a (p, minc p) = munit p.
Proof.
  intros P. unfold member_tasks, munit, own, others. rewrite (addr_iff hs ss k packed a SZ AD p P). 
  f_equal; [destruct (0 <? al_size a p); reflexivity|]. f_equal. rewrite filter_filter. apply filter_ext_in.
  intros i I. unfold minc, mine in I. rewrite filter_In, andb_true_iff in I. destruct I as (I1 & I2 & I3).
  rewrite (addr_iff hs ss k packed a SZ AD i I1), I3. cbn [negb]. rewrite andb_true_r. reflexivity.
Qed.
Lemma serve_unit r : In r g ->
  flat_map (serve_tasks hs) (if r =? gm r then [(r, M r, minc r)] else []) = forsrv hs ms ss k packed a minc r.
Proof.
  intros R. unfold forsrv. fold g. fold gm. destruct (r =? gm r); [|reflexivity]. cbn [flat_map serve_tasks]. rewrite app_nil_r. f_equal.
  rewrite filter_filter. apply filter_ext_in. intros i I. unfold minc, mine in I. rewrite filter_In, andb_true_iff in I. destruct I as (I1 & I2 & I3).
  rewrite (addr_iff hs ss k packed a SZ AD i I1), I3. cbn [negb]. rewrite andb_true_r.
  fold M. destruct (Z.eqb_spec (M r) i) as [X|X]; [|reflexivity]. exfalso.
  apply (g_worker hs ms ss k packed a US i I1). fold M. rewrite <- X. apply (g_server hs ms ss k packed PG a US r R).
Qed.
Lemma run_malloc_tasks c : run_malloc hs ms ss k packed c a = ins_all c a (all_tasks hs ms ss k packed a minc munit).
Proof.
  unfold run_malloc. rewrite (malloc_all_ok hs ms ss k packed (al_size a) g SZ (proj1 US)) by auto.
  rewrite enter_members_ins. unfold all_tasks. rewrite ins_all_app. rewrite flat_map_map.
  fold g. rewrite (flat_map_ext_in (fun x => member_tasks a (x, mine ms (al_size a) g x)) munit g) by apply member_unit.
  destruct (ins_all c a (flat_map munit g)); [|reflexivity|reflexivity].
  rewrite serve_mallocs_ins, flat_map_flat_map. f_equal. apply flat_map_ext_in. intros r R. apply (serve_unit r R).
Qed.
Lemma malloc_step c : (forall p i, seen ms p i a = true -> rc_insert (c p i) (ent_of a i) = Done (c p i ++ [ent_of a i])) ->
  exists c', run_malloc hs ms ss k packed c a = Done c' /\ forall p i, c' p i = if seen ms p i a then c p i ++ [ent_of a i] else c p i.
Proof.
  intros H. rewrite run_malloc_tasks.
  pose proof (fun p i => tasks_In hs ms ss k packed PG a US SZ AD minc minc_In minc_NoDup munit p i munit_both) as TI.
  destruct (ins_all_ok a (all_tasks hs ms ss k packed a minc munit)) with (c := c) as (c' & E & C').
  - apply (tasks_NoDup hs ms ss k packed PG a US SZ AD); [exact minc_In|exact minc_NoDup|exact munit_both].
  - intros p i I. apply H. apply TI. exact I.
  - exists c'. split; [exact E|]. intros p i. rewrite C'.
    assert (pmem (all_tasks hs ms ss k packed a minc munit) p i = seen ms p i a) as ->; [|reflexivity].
    apply eq_true_iff_eq. rewrite pmem_In. apply TI.
Qed.

(** Release. *)
Definition finc (r : Z) : list Z := filter (fun i => (i =? r) || (negb (al_addr a i =? 0) && (M i =? M r))) g.
Lemma finc_In r i : In r g -> (In i (finc r) /\ al_addr a i <> 0 <-> In i g /\ 0 < al_size a i /\ M i = M r).
Proof.
  intros R. unfold finc. rewrite filter_In, orb_true_iff, andb_true_iff, negb_true_iff, Z.eqb_neq, !Z.eqb_eq. split.
  - intros ((I & H) & NZ). split; [exact I|]. specialize (AD i I). destruct (Z.ltb_spec 0 (al_size a i)); [|lia].
    split; [assumption|]. destruct H as [->|[_ H]]; auto.
  - intros (I & S & E). specialize (AD i I). destruct (Z.ltb_spec 0 (al_size a i)); [|lia]. split; [|lia]. split; [exact I|]. right. split; [lia|exact E].
Qed.
Lemma finc_NoDup r : NoDup (finc r).
Proof. apply NoDup_filter. exact (no_nodup _ _ _ _ _ _ (proj1 US)). Qed.
Definition funit (p : Z) : list (Z * Z) := others a finc p ++ own a p.
Lemma funit_both : both a finc funit.
Proof. intros p _. apply Permutation_app_comm. Qed.

Lemma free_entries_ok r l : In r g -> (forall i, In i l -> In i g) ->
  free_entries ms a r (gm r) l = Done (filter (fun i => (i =? r) || (negb (al_addr a i =? 0) && (M i =? M r))) l).
Proof.
  intros R. destruct (gm_ok hs ms ss k packed a US r R) as [I E].
  assert (zget ms (gm r) = Some (M r)) as Z1.
  { pose proof (g_range hs ms ss k packed a US _ I) as B. pose proof (no_len _ _ _ _ _ _ (proj1 US)) as LM. unfold nranks in B.
    unfold gm, M. rewrite <- E. fold g. unfold zget, at_rank. destruct (Z.ltb_spec (group_master hs ss k packed g r) 0) as [X|X]; [fold g in B; lia|].
    apply nth_error_nth'. fold g in B. lia. }
  induction l as [|i l IH]; intros H; cbn [free_entries filter]; [reflexivity|].
  rewrite IH by (intros; apply H; right; assumption). rewrite Z1. fold M.
  destruct (Z.eqb_spec i r) as [->|]; cbn [orb]; [reflexivity|].
  destruct (al_addr a i =? 0); cbn [negb andb]; [reflexivity|]. destruct (_ =? _); reflexivity.
Qed.
Lemma finc_fits r : In r g -> Z.of_nat (length (finc r)) <= node_size ss r.
Proof.
  intros R. rewrite (no_size _ _ _ _ _ _ (proj1 US)) by exact R. unfold count. apply inj_le. apply NoDup_incl_length; [apply finc_NoDup|].
  intros i. unfold finc. rewrite !filter_In, zseq0_In, orb_true_iff, andb_true_iff. intros [I E].
  split; [apply (no_range _ _ _ _ _ _ (proj1 US)); exact I|]. destruct E as [E|[_ E]]; [apply Z.eqb_eq in E; subst; apply Z.eqb_refl|exact E].
Qed.
Lemma leave_del c p es : leave c p a es = del_all c a (map (pair p) (filter (fun i => negb (al_addr a i =? 0)) es)).
Proof.
  revert c. induction es as [|i es IH]; intros c; cbn [leave filter map del_all]; [reflexivity|].
  destruct (al_addr a i =? 0) eqn:Z0; cbn [negb map del_all]; [apply IH|].
  unfold rc_delete. rewrite Z0. destruct (rc_find (c p i) (al_addr a i) 0) as [[f|]| |]; try reflexivity.
  destruct (rc_remove (c p i) (al_addr a i)); [apply IH|reflexivity].
Qed.
Lemma leave_own_del c p c' : del_all c a (own a p) = Done c' -> leave_own c p a = Done c'.
Proof.
  unfold own, leave_own. destruct (al_addr a p =? 0) eqn:Z0; cbn [del_all]; [auto|].
  unfold rc_delete. rewrite Z0. destruct (rc_find (c p p) (al_addr a p) 0) as [[f|]| |]; try discriminate.
  destruct (rc_remove (c p p) (al_addr a p)); [auto|discriminate].
Qed.
Definition fmsg (r : Z) : list (Z * Z * list Z) := if r =? gm r then [(r, M r, finc r)] else [].
Lemma free_member_ok c p c' : In p g -> del_all c a (funit p) = Done c' ->
  free_member hs ms ss k packed a c p = Done (c', fmsg p).
Proof.
  intros P. unfold funit. rewrite del_all_app. intros E. unfold free_member. fold g. fold (gm p).
  rewrite (free_entries_ok p g P) by auto. fold (finc p). rewrite leave_del. fold (others a finc p).
  destruct (del_all c a (others a finc p)) as [c1| |]; try discriminate. unfold is_notifier, fmsg. fold g. fold (gm p).
  rewrite (leave_own_del _ _ _ E). destruct (p =? gm p); [|reflexivity].
  pose proof (finc_fits p P). destruct (Z.leb_spec (Z.of_nat (length (finc p))) (node_size ss p)); [reflexivity|lia].
Qed.
Lemma free_members_ok ps : (forall p, In p ps -> In p g) -> forall c c', del_all c a (flat_map funit ps) = Done c' ->
  free_members hs ms ss k packed a c ps = Done (c', flat_map fmsg ps).
Proof.
  induction ps as [|p ps IH]; intros H c c'; cbn [flat_map free_members]; [cbn [del_all]; congruence|].
  rewrite del_all_app. intros E. destruct (del_all c a (funit p)) as [c1| |] eqn:E1; try discriminate.
  rewrite (free_member_ok c p c1); auto; [|apply H; left; reflexivity]. rewrite (IH (fun q Q => H q (or_intror Q)) c1 c' E). reflexivity.
Qed.
Definition fserve (m : Z * Z * list Z) : list (Z * Z) :=
  let '(_, q, es) := m in map (pair q) (filter (fun i => negb (al_addr a i =? 0)) (filter (fun i => negb (q =? i) && same_host hs q i) es)).
Lemma serve_frees_del c msgs : serve_frees hs c a msgs = del_all c a (flat_map fserve msgs).
Proof.
  revert c. induction msgs as [|[[s q] es] msgs IH]; intros c; cbn [serve_frees flat_map]; [reflexivity|].
  rewrite del_all_app. unfold serve_free, fserve. rewrite leave_del. destruct (del_all c a _); [apply IH|reflexivity|reflexivity].
Qed.
Lemma free_step c (R : Z -> Z -> list rent) : (forall p i, seen ms p i a = true -> rc_delete (c p i) (al_addr a i) = Done (R p i)) ->
  exists c', run_free hs ms ss k packed c a = Done c' /\ forall p i, c' p i = if seen ms p i a then R p i else c p i.
Proof.
  intros H.
  pose proof (fun p i => tasks_In hs ms ss k packed PG a US SZ AD finc finc_In finc_NoDup funit p i funit_both) as TI.
  destruct (del_all_ok a (all_tasks hs ms ss k packed a finc funit) R) with (c := c) as (c' & E & C').
  - apply (tasks_NoDup hs ms ss k packed PG a US SZ AD); [exact finc_In|exact finc_NoDup|exact funit_both].
  - intros p i I. apply H. apply TI. exact I.
  - exists c'. split.
    + unfold all_tasks in E. rewrite del_all_app in E. unfold run_free. fold g in E |- *.
      destruct (del_all c a (flat_map funit g)) as [c1| |] eqn:E1; try discriminate.
      rewrite (free_members_ok g (fun p P => P) c c1 E1). rewrite serve_frees_del, flat_map_flat_map.
      rewrite <- E. f_equal. apply flat_map_ext_in. intros r _. unfold fmsg, forsrv. fold g. fold gm. fold M.
      destruct (r =? gm r); [|reflexivity]. cbn [flat_map fserve]. apply app_nil_r.
    + intros p i. rewrite C'.
      assert (pmem (all_tasks hs ms ss k packed a finc funit) p i = seen ms p i a) as ->; [|reflexivity].
      apply eq_true_iff_eq. rewrite pmem_In. apply TI.
Qed.
End call.

(** Whole programs. *)
Definition view (p i : Z) (live : list galloc) : list rent := flat_map (fun a => if seen ms p i a then [ent_of a i] else []) live.
Definition has (i : Z) (a : galloc) : bool := existsb (Z.eqb i) (al_group a) && (0 <? al_size a i).
Definition memory (i : Z) (live : list galloc) : list rent := flat_map (fun a => if has i a then [ent_of a i] else []) live.
Lemma memory_segments i live : map seg_of (memory i live) = segments i live.
Proof.
  unfold memory, segments. induction live as [|a live IH]; cbn [flat_map]; [reflexivity|]. rewrite map_app, IH. f_equal.
  unfold segm_of. fold (has i a). destruct (has i a); reflexivity.
Qed.
Lemma view_incl p i live e : In e (view p i live) -> In e (memory i live).
Proof.
  unfold view, memory. rewrite !in_flat_map. intros (a & A & H). exists a. split; [exact A|].
  destruct (seen ms p i a) eqn:S; [|destruct H]. assert (has i a = true) as ->; [|exact H].
  unfold seen in S. apply andb_true_iff in S. apply S.
Qed.
Lemma view_sane p i live : sane (memory i live) -> sane (view p i live).
Proof.
  intros [F P]. split.
  - rewrite Forall_forall in *. intros e E. apply F. apply (view_incl p). exact E.
  - clear F. induction live as [|a live IH]; [constructor|].
    assert (view p i (a :: live) = (if seen ms p i a then [ent_of a i] else []) ++ view p i live) as -> by reflexivity.
    change (memory i (a :: live)) with ((if has i a then [ent_of a i] else []) ++ memory i live) in P.
    destruct (seen ms p i a) eqn:S.
    + assert (has i a = true) as HA. { unfold seen in S. apply andb_true_iff in S. apply S. }
      rewrite HA in P. inversion P as [|? ? P1 P2]; subst. cbn [app]. constructor; auto.
      rewrite Forall_forall in *. intros e E. apply P1. apply (view_incl p). exact E.
    + apply IH. destruct (has i a); [inversion P; assumption|exact P].
Qed.

Definition good (live : list galloc) : Prop :=
  Forall (fun a => usable hs ms ss k packed (al_group a) /\ (forall i, 0 <= al_size a i) /\
    (forall r, In r (al_group a) -> if 0 <? al_size a r then 0 < al_addr a r else al_addr a r = 0)) live /\
  forall i, sane (memory i live).
Definition agree (c : caches) (live : list galloc) : Prop := forall p i, c p i = view p i live.

Lemma sane_snoc l e : sane l -> 0 < re_buf e -> 0 < re_len e -> (forall f, In f l -> apart (seg_of f) (seg_of e)) -> sane (l ++ [e]).
Proof.
  intros [F P] E1 E2 A. split; [apply Forall_app; auto|]. clear F.
  induction l as [|x l IH]; cbn [app]; [repeat constructor|]. inversion P as [|? ? P1 P2]; subst. constructor.
  - apply Forall_app. split; [exact P1|]. constructor; [|constructor]. apply A. left. reflexivity.
  - apply IH; auto. intros f Hf. apply A. right. exact Hf.
Qed.
Lemma memory_app i l1 l2 : memory i (l1 ++ l2) = memory i l1 ++ memory i l2.
Proof. apply flat_map_app. Qed.
Lemma view_app p i l1 l2 : view p i (l1 ++ l2) = view p i l1 ++ view p i l2.
Proof. apply flat_map_app. Qed.

Lemma malloc_good c live a : agree c live -> good live -> alloc_ok (usable hs ms ss k packed) live a ->
  exists c', run_malloc hs ms ss k packed c a = Done c' /\ agree c' (live ++ [a]) /\ good (live ++ [a]).
Proof.
  intros A [G1 G2] [O1 O2 O3 O4 O5].
  assert (forall i, has i a = true -> 0 < re_buf (ent_of a i) /\ 0 < re_len (ent_of a i) /\
     forall f, In f (memory i live) -> apart (seg_of f) (seg_of (ent_of a i))) as NEW.
  { intros i H. unfold has in H. apply andb_true_iff in H. destruct H as [H1 H2]. apply inb in H1. specialize (O4 i H1). rewrite H2 in O4.
    split; [exact O4|]. split; [apply Z.ltb_lt; exact H2|]. intros f Hf. apply (O5 i).
    - rewrite <- memory_segments. apply in_map. exact Hf.
    - unfold segm_of. apply inb in H1. rewrite H1, H2. left. reflexivity. }
  assert (forall p i, seen ms p i a = true -> has i a = true) as SH by (intros p i S; unfold seen in S; apply andb_true_iff in S; apply S).
  destruct (malloc_step a O2 O3 O4 c) as (c' & E & C').
  { intros p i S. destruct (NEW i (SH p i S)) as (N1 & N2 & N3). rewrite (A p i). apply insert_ok; auto.
    - apply view_sane. apply G2.
    - intros f Hf. apply N3. apply (view_incl p). exact Hf. }
  exists c'. split; [exact E|]. split.
  - intros p i. rewrite C', view_app, (A p i). assert (view p i [a] = if seen ms p i a then [ent_of a i] else []) as -> by (apply app_nil_r). destruct (seen ms p i a); [reflexivity|symmetry; apply app_nil_r].
  - split.
    + apply Forall_app. split; [exact G1|]. constructor; [|constructor]. split; [exact O2|]. split; [exact O3|exact O4].
    + intros i. rewrite memory_app. unfold memory at 2. cbn [flat_map]. rewrite app_nil_r. destruct (has i a) eqn:H; [|rewrite app_nil_r; apply G2].
      destruct (NEW i H) as (N1 & N2 & N3). apply sane_snoc; auto.
Qed.

Lemma drop_split {A} (l : list A) i : 0 <= i < Z.of_nat (length l) -> exists x l1 l2, zget l i = Some x /\ l = l1 ++ x :: l2 /\ drop_at i l = l1 ++ l2.
Proof.
  intros I. destruct (nth_error l (Z.to_nat i)) as [x|] eqn:E; [|apply nth_error_None in E; lia].
  destruct (nth_error_split _ _ E) as (l1 & l2 & -> & L). exists x, l1, l2. split; [|split; [reflexivity|]].
  - unfold zget. destruct (Z.ltb_spec i 0); [lia|exact E].
  - unfold drop_at. rewrite <- L, firstn_app, Nat.sub_diag, firstn_all, firstn_O, app_nil_r. f_equal.
    change (S (length l1)) with (1 + length l1)%nat. rewrite Nat.add_comm. rewrite skipn_app.
    rewrite skipn_all2 by lia. replace (length l1 + 1 - length l1)%nat with 1%nat by lia. reflexivity.
Qed.
Lemma free_good c l1 a l2 : agree c (l1 ++ a :: l2) -> good (l1 ++ a :: l2) ->
  exists c', run_free hs ms ss k packed c a = Done c' /\ agree c' (l1 ++ l2) /\ good (l1 ++ l2).
Proof.
  intros A [G1 G2]. rewrite Forall_app in G1. destruct G1 as [F1 F2]. inversion F2 as [|? ? (U & SZ & AD) F3]; subst.
  destruct (free_step a U SZ AD c (fun p i => view p i (l1 ++ l2))) as (c' & E & C').
  { intros p i S. rewrite (A p i). rewrite !view_app. 
    change (view p i (a :: l2)) with ((if seen ms p i a then [ent_of a i] else []) ++ view p i l2). rewrite S. cbn [app].
    apply (delete_ok (view p i l1) (ent_of a i) (view p i l2)).
    pose proof (view_sane p i (l1 ++ a :: l2) (G2 i)) as V. rewrite view_app in V.
    change (view p i (a :: l2)) with ((if seen ms p i a then [ent_of a i] else []) ++ view p i l2) in V. rewrite S in V. exact V. }
  exists c'. split; [exact E|]. split.
  - intros p i. rewrite C', (A p i). destruct (seen ms p i a) eqn:S; [reflexivity|]. rewrite !view_app.
    change (view p i (a :: l2)) with ((if seen ms p i a then [ent_of a i] else []) ++ view p i l2). rewrite S. reflexivity.
  - split; [apply Forall_app; auto|]. intros i. specialize (G2 i). rewrite memory_app in *.
    change (memory i (a :: l2)) with ((if has i a then [ent_of a i] else []) ++ memory i l2) in G2.
    destruct (has i a); [|exact G2]. apply sane_app_inv in G2. tauto.
Qed.

Lemma run_good cs : forall c live, agree c live -> good live -> calls_ok (usable hs ms ss k packed) live cs ->
  exists c', reg_run hs ms ss k packed c live cs = Done (c', fold_left live_step cs live) /\
    agree c' (fold_left live_step cs live) /\ good (fold_left live_step cs live).
Proof.
  induction cs as [|cl cs IH]; intros c live A G O; cbn [reg_run fold_left].
  - exists c. auto.
  - inversion O as [|? a ? AO O2|? i ? I O2]; subst; cbn [live_step].
    + destruct (malloc_good c live a A G AO) as (c1 & -> & A1 & G1). apply IH; auto.
    + destruct (drop_split live i I) as (a & l1 & l2 & Z1 & -> & D). rewrite Z1. cbn [need].
      destruct (free_good c l1 a l2 A G) as (c1 & -> & A1 & G1). rewrite D in *. apply IH; auto.
Qed.
End node.
