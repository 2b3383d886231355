(** C73: the messages of the ghost update. *)
From Coq Require Import ZArith List Lia Bool.
From Verif Require Import SpecBox SpecStore SpecPeri SpecGhost MBase SpecCopy MXfer MOdo MGhost MNet LRadix LAxis LGhost LGhost4 LGhost5 LGhost6 LGhost7 LNet LNet2 PDist PIter PGhost.

(** * C73: with each process running on its own, the update of the ghost cells
    cannot block, even if no message is ever buffered, it ends, and all runs
    end with the cells filled. *)
Theorem C73_no_deadlock_partial : forall V guess a seg flag (m : Z -> pmem V),
  good_guess guess -> ghost_array a -> ghosts_allocated a seg m ->
  exists tabs s0 m', set_corner_flag guess a seg flag = Some tabs /\ net_start a tabs m s0 /\
    ghosts_updated flag a seg m m' /\
    forall s, net_runs (ga_elemsize a) (net_procs tabs) s0 s ->
      Acc (fun s2 s1 => exists b, net_step (ga_elemsize a) (net_procs tabs) b s1 s2) s /\
      ((net_done (net_procs tabs) s /\ forall p, 0 <= p < ga_nproc a -> p_mem (fst s p) = m' p) \/
       exists s', net_step (ga_elemsize a) (net_procs tabs) false s s').
Proof.
  intros V guess a seg flag m Hg HA HM.
  destruct (update_ok guess a seg Hg HA flag m HM) as (tabs & m' & E1 & E2 & E3).
  pose proof (tables_ok guess a seg Hg HA flag) as E4. rewrite E1 in E4. injection E4 as ->.
  set (ps := zseq 0 (Z.to_nat (ga_nproc a))) in *. set (n := length (dims (ga_desc a))) in *.
  assert (N1 : 1 <= ga_nproc a). { rewrite <- (ga_np a HA). apply zprod_pos, nb_pos, HA. }
  assert (EX : exchange (KK a) true (ga_elemsize a) (map (fun p => (p, (bufn a p, msgs a seg flag 0 n p))) ps) m = Some m').
  { unfold update_ghosts in E2. destruct ps as [|p ps'] eqn:EP.
    - exfalso. assert (I : In 0 ps) by (apply (ps_In a seg); lia). rewrite EP in I. destruct I.
    - cbn [map] in E2 |- *. cbn [fst snd] in E2. unfold n in *. rewrite (msgs_length a seg flag p) in E2. exact E2. }
  assert (PR : net_procs (map (fun p => (p, (bufn a p, msgs a seg flag 0 n p))) ps) = pairs a) by (unfold net_procs, pairs; rewrite map_map; reflexivity).
  assert (ST : forall p, 0 <= p < ga_nproc a -> exists P, enter (ga_elemsize a) (bufn a p) p 0 (todo (KK a) (ek a seg flag) 0 p) (m p) = Some P).
  { intros p Hp. unfold enter, todo. rewrite Nat.sub_0_r. destruct (KK a) as [|k] eqn:EK; [eexists; reflexivity|]. cbn [seq map].
    set (d0 := gs_msg (ek a seg flag 0 0)).
    destruct (mems_spec (ga_elemsize a) ps (bufn a) d0 (S k) true (msgs a seg flag 0 n) m m') as (M0 & _ & MS); [intros q _; rewrite <- EK; apply msgs_length|exact EX|].
    specialize (MS O ltac:(lia)). rewrite M0 in MS. change (xorb true (Nat.odd 0)) with true in MS.
    destruct (phase_inv _ _ _ _ (fun p => nth 0 (msgs a seg flag 0 n p) d0) _ _ MS p) as (P1 & _); [now apply (ps_In a seg)|].
    cbn beta in P1. unfold n in P1. rewrite (msgs_nth a seg flag p 0 d0) in P1 by (rewrite EK; lia). rewrite P1. eexists; reflexivity. }
  set (st := fun p => odflt (Proc (m p) 0 [] [] [] None) (enter (ga_elemsize a) (bufn a p) p 0 (todo (KK a) (ek a seg flag) 0 p) (m p))).
  assert (HS : forall p, 0 <= p < ga_nproc a -> enter (ga_elemsize a) (bufn a p) p 0 (todo (KK a) (ek a seg flag) 0 p) (m p) = Some (st p)).
  { intros p Hp. unfold st. destruct (ST p Hp) as (P & ->). reflexivity. }
  exists (map (fun p => (p, (bufn a p, msgs a seg flag 0 n p))) ps), (st, []), m'. split; [exact E1|]. split.
  { split; [reflexivity|]. intros p k l I. apply in_map_iff in I as (q & EQ & I). injection EQ as -> <- <-. apply (ps_In a seg) in I.
    exists (decode (nblock (ga_desc a)) p), (todo (KK a) (ek a seg flag) 0 p). split; [apply topology_decode; [apply nb_pos, HA|lia]|]. split; [apply (plan_ok a seg flag HA)|]. now apply HS. }
  split; [exact E3|]. rewrite PR. intros s R. split; [apply net_finite|]. exact (net_ghost a seg flag HA m m' st EX HS s R).
Qed.
Print Assumptions C73_no_deadlock_partial.

(** ** A case that meets the hypotheses: the array of C71. *)
Example C73_ex : exists tabs s0 m', set_corner_flag ex_guess ex_ghost ex_seg true = Some tabs /\ net_start ex_ghost tabs ex_mem s0 /\
  ghosts_updated true ex_ghost ex_seg ex_mem m' /\
  forall s, net_runs 8 (net_procs tabs) s0 s -> Acc (fun s2 s1 => exists b, net_step 8 (net_procs tabs) b s1 s2) s /\
    ((net_done (net_procs tabs) s /\ forall p, 0 <= p < 4 -> p_mem (fst s p) = m' p) \/ exists s', net_step 8 (net_procs tabs) false s s').
Proof. exact (C73_no_deadlock_partial Z ex_guess ex_ghost ex_seg true ex_mem ex_guess_good ex_ghost_ok ex_mem_allocated). Qed.
(** The processes do start, and have four messages each. *)
Example C73_ex_start : (do tabs <- ghost_tables ex_guess ex_ghost ex_seg true;
    mapM (fun t => do ix <- proc_topology (nblock (ga_desc ex_ghost)) (fst t); do td <- plan (nblock (ga_desc ex_ghost)) ix (ga_width ex_ghost) (snd (snd t));
                   do P <- enter 8 (fst (snd t)) (fst t) 0 td (ex_mem (fst t)); Some (fst t, map (comm (fst t)) (p_todo P))) tabs)
  = Some [(0, [[false; true]; [false; true]; [false; true]; [false; true]]); (1, [[true; false]; [true; false]; [false; true]; [false; true]]);
          (2, [[false; true]; [false; true]; [true; false]; [true; false]]); (3, [[true; false]; [true; false]; [true; false]; [true; false]])].
Proof. vm_compute. reflexivity. Qed.

(** ** Beyond the hypotheses: the array of C71_width_refuted passes the check of
    the library, and no run of its update ends. *)
Definition stuck1 (s : net Z) (e1 : gstep) (t2 : list gstep) : Prop :=
  (exists t, p_todo (fst s 1) = e1 :: t) /\ In false (p_ops (fst s 1)) /\
  (exists j, p_todo (fst s 2) = skipn j t2) /\ Forall (fun k => k_src k = 2 -> k_dst k <> 1) (snd s).
Lemma skipn_S {A} j (l : list A) x t : skipn j l = x :: t -> t = skipn (S j) l.
Proof. revert l. induction j as [|j IH]; intros [|y l] E; try discriminate; [cbn in *; congruence|]. cbn in E. rewrite (IH l E). reflexivity. Qed.
Lemma stuck_step es ps b s s' e1 t2 : g_from (gs_msg e1) = 2 -> Forall (fun e => g_to (gs_msg e) <> 1) t2 ->
  stuck1 s e1 t2 -> net_step es ps b s s' -> stuck1 s' e1 t2.
Proof.
  intros H1 H2 ((t & T1) & O1 & (j & T2) & F) St.
  assert (SE : forall e, In e (skipn j t2) -> g_to (gs_msg e) <> 1).
  { intros e I. rewrite Forall_forall in H2. apply H2. rewrite <- (firstn_skipn j t2). apply in_or_app. now right. }
  inversion St as [p n st fl P' Hp L E|p q np nq st fl tag vs P' Q' Hp Hq N Sd Rc E|p np st fl q tag vs P' Hp Sd E|q nq st fl1 fl2 src tag vs Q' Hq Rc E]; subst s s' b; cbn [fst snd] in *.
  - unfold leave in L. destruct (p_todo (st p)) as [|e td] eqn:ET; [discriminate|]. destruct (p_ops (st p)) eqn:EO; [|discriminate].
    apply bind_inv in L as (vs & _ & L). apply bind_inv in L as (mm & _ & L).
    assert (TP : p_todo P' = td). { unfold enter in L. destruct td as [|e' td']; [injection L as <-; reflexivity|]. destruct (pack_msg _ _ _ _); [|discriminate]. injection L as <-. reflexivity. }
    unfold stuck1, put. cbn [fst snd]. destruct (Z.eqb_spec 1 p) as [X|X]; [subst p; rewrite EO in O1; destruct O1|]. split; [now exists t|]. split; [exact O1|]. split; [|exact F].
    destruct (Z.eqb_spec 2 p) as [Y|Y]; [|now exists j]. subst p. rewrite T2 in ET. exists (S j). rewrite TP. now apply skipn_S in ET.
  - unfold sends in Sd. destruct (p_todo (st p)) as [|e td] eqn:ET; [discriminate|]. destruct (p_ops (st p)) as [|[|] ops] eqn:EO; try discriminate. destruct (_ =? _); [|discriminate]. injection Sd as <- <- <- <-.
    unfold receives in Rc. set (q := g_to (gs_msg e)) in *. destruct (p_todo (st q)) as [|e' td'] eqn:ET'; [discriminate|]. destruct (p_ops (st q)) as [|[|] ops'] eqn:EO'; try discriminate.
    destruct (_ && _) eqn:B; [|discriminate]. injection Rc as <-. apply andb_prop in B as [B _]. apply andb_prop in B as [B _]. apply Z.eqb_eq in B.
    unfold stuck1, put. cbn [fst snd]. destruct (Z.eqb_spec 1 q) as [X|X].
    { exfalso. rewrite <- X in ET', EO'. assert (p = 2) as -> by congruence. rewrite T2 in ET. apply (SE e); [rewrite ET; now left|]. symmetry. exact X. }
    clear B. destruct (Z.eqb_spec 1 p) as [Y|Y]; [subst p|]; cbn [p_todo p_ops].
    + split; [rewrite ET in T1; injection T1 as -> ->; now exists t|]. split; [rewrite EO in O1; destruct O1 as [O1|O1]; [discriminate|exact O1]|]. split; [|exact F].
      destruct (Z.eqb_spec 2 q) as [Z1|Z1]; [cbn [p_todo]; exists j; congruence|]. cbn. now exists j.
    + split; [now exists t|]. split; [exact O1|]. split; [|exact F].
      destruct (Z.eqb_spec 2 q) as [Z1|Z1]; [cbn [p_todo]; exists j; congruence|]. destruct (Z.eqb_spec 2 p) as [Z2|Z2]; [cbn [p_todo]; exists j; congruence|]. now exists j.
  - unfold sends in Sd. destruct (p_todo (st p)) as [|e td] eqn:ET; [discriminate|]. destruct (p_ops (st p)) as [|[|] ops] eqn:EO; try discriminate. destruct (_ =? _); [|discriminate]. injection Sd as <- <- <- <-.
    unfold stuck1, put. cbn [fst snd]. destruct (Z.eqb_spec 1 p) as [Y|Y]; [subst p|]; cbn [p_todo p_ops].
    + split; [rewrite ET in T1; injection T1 as -> ->; now exists t|]. split; [rewrite EO in O1; destruct O1 as [O1|O1]; [discriminate|exact O1]|]. split; [cbn; now exists j|]. constructor; [cbn; intros; lia|exact F].
    + split; [now exists t|]. split; [exact O1|]. split; [destruct (Z.eqb_spec 2 p) as [Z2|Z2]; [cbn [p_todo]; exists j; congruence|now exists j]|].
      constructor; [|exact F]. cbn [k_src k_dst]. intros ->. apply SE. rewrite <- T2, ET. now left.
  - unfold receives in Rc. destruct (p_todo (st q)) as [|e' td'] eqn:ET'; [discriminate|]. destruct (p_ops (st q)) as [|[|] ops'] eqn:EO'; try discriminate.
    destruct (_ && _) eqn:B; [|discriminate]. injection Rc as <-. apply andb_prop in B as [B _]. apply andb_prop in B as [B _]. apply Z.eqb_eq in B.
    apply Forall_app in F as [F1 F2]. apply Forall_cons_iff in F2 as [F0 F2]. cbn [k_src k_dst] in F0.
    unfold stuck1, put. cbn [fst snd]. destruct (Z.eqb_spec 1 q) as [X|X].
    { exfalso. subst q. apply F0; [congruence|reflexivity]. }
    split; [now exists t|]. split; [exact O1|]. split; [|apply Forall_app; now split].
    destruct (Z.eqb_spec 2 q) as [Z1|Z1]; [cbn [p_todo]; exists j; congruence|]. now exists j.
Qed.
Definition thin_tabs : list (Z * (Z * list gmsg)) := odflt [] (allocate_ghosts ex_guess ex_thin ex_seg None).
Definition thin_todo (p : Z) (l : list gmsg) : list gstep := odflt [] (plan (nblock (ga_desc ex_thin)) [p] (ga_width ex_thin) l).
Definition thin_mem (p s o : Z) : option Z := Some 0.
Definition thin_start (p : Z) : proc Z := odflt (Proc (thin_mem p) 0 [] [] [] None) (do t <- alook p thin_tabs; enter 8 (fst t) p 0 (thin_todo p (snd t)) (thin_mem p)).
Definition isS {A} (o : option A) : bool := match o with Some _ => true | None => false end.
Lemma thin_enter : forallb (fun t => isS (alook (fst t) thin_tabs) && isS (proc_topology (nblock (ga_desc ex_thin)) (fst t)) && isS (plan (nblock (ga_desc ex_thin)) [fst t] (ga_width ex_thin) (snd (snd t)))
  && isS (enter 8 (fst (snd t)) (fst t) 0 (thin_todo (fst t) (snd (snd t))) (thin_mem (fst t)))) thin_tabs = true.
Proof. vm_compute. reflexivity. Qed.
Definition thin_e1 : gstep := Eval vm_compute in hd (GStep (GMsg 0 0 0 0 0 [] [] 0 []) true 0 0) (p_todo (thin_start 1)).
Definition thin_t1 : list gstep := Eval vm_compute in tl (p_todo (thin_start 1)).
Definition thin_t2 : list gstep := Eval vm_compute in p_todo (thin_start 2).
Lemma thin_1 : p_todo (thin_start 1) = thin_e1 :: thin_t1.
Proof. vm_compute. reflexivity. Qed.
Lemma thin_1o : p_ops (thin_start 1) = [true; false].
Proof. vm_compute. reflexivity. Qed.
Lemma thin_2 : p_todo (thin_start 2) = thin_t2.
Proof. vm_compute. reflexivity. Qed.
Theorem C73_width_refuted : exists a seg tabs (m : Z -> pmem Z) s0,
  wf_array a /\ ga_group a = None /\ zprod (nblock (ga_desc a)) = ga_nproc a /\
  check_ghost_distr (dims (ga_desc a)) (nblock (ga_desc a)) (mapc (ga_desc a)) (ga_width a) = Some true /\
  ghosts_allocated a seg m /\ allocate_ghosts ex_guess a seg None = Some tabs /\ net_start a tabs m s0 /\
  forall s, net_runs (ga_elemsize a) (net_procs tabs) s0 s -> ~ net_done (net_procs tabs) s.
Proof.
  exists ex_thin, ex_seg, thin_tabs, thin_mem, (thin_start, []). split.
  { split; [|split; [reflexivity|split; [repeat constructor; lia|split; [exact I|cbn; lia]]]].
    split; [reflexivity|]. split; [discriminate|]. split; [|left; split; [reflexivity|cbn; lia]].
    cbn [valid_maps ex_thin ga_desc dims nblock mapc]. split; [solve_map|exact I]. }
  split; [reflexivity|]. split; [reflexivity|]. split; [reflexivity|]. split; [discriminate|]. split; [vm_compute; reflexivity|]. split.
  - split; [reflexivity|]. intros p n l I. pose proof thin_enter as TE. rewrite forallb_forall in TE. specialize (TE _ I). cbn [fst snd] in TE. apply andb_prop in TE as [TE T4]. apply andb_prop in TE as [TE T3]. apply andb_prop in TE as [T1 T2].
    assert (LK : alook p thin_tabs = Some (n, l) /\ proc_topology (nblock (ga_desc ex_thin)) p = Some [p]).
    { vm_compute in I. destruct I as [I|[I|[I|[]]]]; injection I as <- <- <-; split; vm_compute; reflexivity. }
    destruct LK as (L1 & L2). exists [p], (thin_todo p l). split; [exact L2|]. split; [unfold thin_todo; destruct (plan _ _ _ l); [reflexivity|discriminate]|].
    cbn [fst]. unfold thin_start. rewrite L1. cbn [fst snd]. change (ga_elemsize ex_thin) with 8. destruct (enter 8 n p 0 (thin_todo p l) (thin_mem p)); [reflexivity|discriminate].
  - assert (SI : stuck1 (thin_start, []) thin_e1 thin_t2).
    { split; [exists thin_t1; exact thin_1|]. cbn [fst snd]. rewrite thin_1o, thin_2. split; [right; left; reflexivity|]. split; [exists O; reflexivity|constructor]. }
    intros s R. assert (X : stuck1 s thin_e1 thin_t2).
    { remember (thin_start, []) as s0 eqn:ES. induction R as [s|s s1 s2 b R IH S1]; [exact SI|]. eapply stuck_step; [| |exact (IH ES SI)|exact S1]; [reflexivity|]. unfold thin_t2. repeat constructor; cbn [g_to gs_msg]; discriminate. }
    destruct X as ((t & X) & _). intros [_ D]. rewrite (D 1 2) in X; [discriminate|]. right. left. vm_compute. reflexivity.
Qed.
Print Assumptions C73_width_refuted.
