(** Lemmas: sums of arrays, phase by phase. *)
From Verif Require Import LRadix LDist LStrided LStrided2 LIterReg LIterReg3 LIterSca LStore LXfer LXfer2 LLoc LAccess LSelect LSelect2 LOdo LGcopy5.
From Verif Require Export LAdd2.
Open Scope Z_scope.

Definition copyable guess (near : Z -> Z -> bool) wn (pre : Z -> _) rnd (smp : Z -> _) (same : bool) (a c : garray)
           (pa pc : list Z -> place -> Prop) (alo ahi clo chi : list Z) : Prop :=
  exists ess n,
    Forall2 (fun me es => forall fuel, (n <= fuel)%nat ->
        copy_patch fuel guess (near me) wn me (pre me) (rnd me) (smp me) true false same a c me me alo ahi clo chi = Some es)
      (zseq 0 (Z.to_nat (ga_nproc c))) ess /\
    labelled (target false alo ahi clo chi) pa pc (in_box alo ahi) (concat ess).

Lemma corresponds_self lo hi x y : Forall2 Z.le lo hi -> corresponds false lo hi lo hi y x -> y = x.
Proof.
  intros HL HC. assert (Hy : in_box lo hi y) by apply HC. apply target_corresponds in HC; auto. subst x.
  destruct (in_box_len _ _ _ Hy). pose proof (Forall2_len _ _ _ HL).
  assert (SH : forall u, length u = length lo -> shift lo lo u = u).
  { intros u Hu. clear - Hu. revert u Hu. induction lo as [|l lo IH]; intros [|a u] Hu; try discriminate; [reflexivity|]. cbn.
    f_equal; [lia|]. apply IH. cbn in Hu. lia. }
  rewrite target_shift; auto; symmetry; apply SH; lia.
Qed.

Section Phases.
Context {V : Type} (sa : V -> V) (acc : V -> V -> V).
Notation gs := (gstep sa acc).

Lemma run_keeps es : forall (st st' : store V), run_elems gs st es = Some st' -> forall h q, hget (st h) q <> None -> hget (st' h) q <> None.
Proof.
  assert (SK : forall (st : store V) k p v h q, hget (st h) q <> None -> hget (sset st k p v h) q <> None).
  { intros st k p v h q H. destruct (Z.eq_dec h k) as [->|Hk]; [|rewrite sset_other by exact Hk; exact H].
    rewrite sset_same. destruct (place_dec p q) as [<-|Hd]; [rewrite hget_hset_same; discriminate|rewrite hget_hset_other by congruence; exact H]. }
  induction es as [|e es IH]; intros st st' H h q Hq; cbn [run_elems] in H; [injection H as <-; exact Hq|].
  destruct (gs st e) as [st1|] eqn:E; [|discriminate]. apply (IH st1 st' H). clear IH H. destruct e; cbn [gstep] in E.
  - destruct (hget (st hs) ps); [|discriminate]. destruct (hget (st hd) pd); [|discriminate]. injection E as <-. auto.
  - destruct (hget (st h0) p); [|discriminate]. injection E as <-. auto.
  - destruct (hget (st ha) pa); [|discriminate]. destruct (hget (st hb) pb); [|discriminate]. destruct (hget (st hc) pc); [|discriminate]. injection E as <-. auto.
  - destruct (hget (st hb) pb); [|discriminate]. destruct (hget (st hc) pc); [|discriminate]. injection E as <-. auto.
Qed.

Definition copy_done (hd hs : Z) (R : list Z -> list Z -> Prop) (pa pc : list Z -> place -> Prop) (st st' : store V) : Prop :=
  copied_rel R pa pc (st hs) (st hd) (st' hd) /\ (forall k, k <> hd -> st' k = st k) /\
  (forall h q, hget (st h) q <> None -> hget (st' h) q <> None).

Lemma copy_phase (hd hs : Z) (pa pc : list Z -> place -> Prop) alo ahi clo chi ess (st : store V) :
  (forall x q q', pa x q -> pa x q' -> q = q') -> (forall x q q', pc x q -> pc x q' -> q = q') -> (forall x y q, pc x q -> pc y q -> x = y) ->
  allocated pa (st hs) -> allocated pc (st hd) -> Forall2 Z.le clo chi -> zprod (extents alo ahi) = zprod (extents clo chi) ->
  hd <> hs \/ (pa = pc /\ forall x, in_box alo ahi x -> in_box clo chi x -> False) ->
  labelled (target false alo ahi clo chi) pa pc (in_box alo ahi) (concat ess) ->
  forall es, Permutation (concat (map (copy_ops hd hs) ess)) es ->
    exists st', run_elems gs st es = Some st' /\ copy_done hd hs (corresponds false alo ahi clo chi) pa pc st st'.
Proof.
  intros FA FC IC AA AC HC EZ HS HL es HP.
  assert (CM : concat (map (copy_ops hd hs) ess) = copy_ops hd hs (concat ess)) by (unfold copy_ops; rewrite concat_map; reflexivity).
  rewrite CM in HP. unfold copy_ops in HP. apply Permutation_sym, Permutation_map_inv in HP as (es' & -> & HP).
  assert (L' : labelled (target false alo ahi clo chi) pa pc (in_box alo ahi) es') by (eapply labelled_perm; eauto).
  destruct (labelled_patch (V := V) false alo ahi clo chi pa pc (st hs) (st hd) es') as (m' & E & C); auto.
  destruct HS as [HS|[-> HS]].
  - destruct (copies_run sa acc hd hs es' HS st m' E) as (st' & E1 & E2 & E3). exists st'. split; [exact E1|].
    split; [rewrite E2; exact C|]. split; [exact E3|]. apply (run_keeps _ _ _ E1).
  - destruct (Z.eq_dec hd hs) as [->|Hne].
    + rewrite <- (labelled_self false alo ahi clo chi pc (st hs) es') in E by auto.
      destruct (copies_self sa acc hs es' st m' E) as (st' & E1 & E2 & E3). exists st'. split; [exact E1|].
      split; [rewrite E2; exact C|]. split; [exact E3|]. apply (run_keeps _ _ _ E1).
    + destruct (copies_run sa acc hd hs es' Hne st m' E) as (st' & E1 & E2 & E3). exists st'. split; [exact E1|].
      split; [rewrite E2; exact C|]. split; [exact E3|]. apply (run_keeps _ _ _ E1).
Qed.

(** The last phase. *)
Lemma finish_sums g u ha' hb' hc ta tb (pa' pb' pc : list Z -> place -> Prop) (pa pb : list Z -> place -> Prop)
      (ma mb mc : heap V) (st0 : store V) alo ahi blo bhi clo chi ph (st1 : store V) :
  (forall v w, g (u v) w = acc (sa v) w) ->
  (forall x q q', pa' x q -> pa' x q' -> q = q') -> (forall x q q', pb' x q -> pb' x q' -> q = q') -> (forall x q q', pc x q -> pc x q' -> q = q') ->
  (forall x y q, pc x q -> pc y q -> x = y) -> (ha' = hc -> pa' = pc) -> (hb' = hc -> pb' = pc) ->
  allocated pa' (st1 ha') -> allocated pb' (st1 hb') -> allocated pc (st1 hc) ->
  marked (sums sa acc g ha' hb' hc pa' pb' pc) (in_box clo chi) ph ->
  (forall x y qa qc, corresponds false alo ahi clo chi y x -> pa y qa -> pc x qc ->
     exists qa' va, pa' x qa' /\ hget ma qa = Some va /\ hget (st1 ha') qa' = Some (u va)) ->
  (forall x y qb qc, corresponds false blo bhi clo chi y x -> pb y qb -> pc x qc ->
     exists qb' vb, pb' x qb' /\ hget mb qb = Some vb /\ hget (st1 hb') qb' = Some vb) ->
  (forall q, (forall x, in_box clo chi x -> ~ pc x q) -> hget (st1 hc) q = hget mc q) ->
  (forall k, k <> hc -> k <> ta -> k <> tb -> st1 k = st0 k) ->
  all_runs gs st1 [ph] (fun st' => added sa acc pa pb pc alo ahi blo bhi clo chi ma mb mc (st' hc) /\
                                   forall k, k <> hc -> k <> ta -> k <> tb -> st' k = st0 k).
Proof.
  intros HU FA FB FC IC EA EB AA AB AC HM HA HB HC HO es HP.
  destruct (sums_run sa acc g ha' hb' hc pa' pb' pc (in_box clo chi) es st1 FA FB FC IC EA EB AA AB AC) as (st' & E & R1 & R2 & R3).
  { eapply marked_perm; eauto. }
  exists st'. split; [exact E|]. cbn [all_runs]. split; [split|].
  - intros x y z qa qb qc C1 C2 Ha Hb Hc.
    destruct (HA x y qa qc C1 Ha Hc) as (qa' & va & Pa & Va & Ua). destruct (HB x z qb qc C2 Hb Hc) as (qb' & vb & Pb & Vb & Ub).
    destruct (R1 x qa' qb' qc) as (v & w & X1 & X2 & X3); auto; [apply C1|].
    exists va, vb. split; [exact Va|]. split; [exact Vb|]. rewrite X3. assert (v = u va) by congruence. assert (w = vb) by congruence. subst. rewrite HU. reflexivity.
  - intros q Hq. rewrite R2 by exact Hq. apply HC, Hq.
  - intros k K1 K2 K3. rewrite R3 by exact K1. auto.
Qed.
End Phases.

(** ---- GA_Add_patch ---- *)
Section Patch.
Context {V : Type} (sa : V -> V) (acc : V -> V -> V).
Notation gs := (gstep sa acc).
Variables (guess : Z -> Z -> Z -> Z) (near : Z -> Z -> bool) (wn : Z) (pre : Z -> option Z)
          (rnda rndb : Z -> lpiece -> Z -> Z) (smp : Z -> Z -> bool) (ta tb ha hb hc : Z) (a b c : garray)
          (alo ahi blo bhi clo chi : list Z).
Hypotheses (HG : good_guess guess) (HNear : forall me, near me me = true)
  (EAB : ga_elemsize a = ga_elemsize b) (EAC : ga_elemsize a = ga_elemsize c)
  (GA : ga_group a = None) (GB : ga_group b = None) (GC : ga_group c = None)
  (NA : ga_nproc a = wn) (NB : ga_nproc b = wn) (NC : ga_nproc c = wn) (Hw : 1 <= wn)
  (PA : patch_of (dims (ga_desc a)) alo ahi) (PB : patch_of (dims (ga_desc b)) blo bhi) (PC : patch_of (dims (ga_desc c)) clo chi)
  (ZA : zprod (extents alo ahi) = zprod (extents clo chi)) (ZB : zprod (extents blo bhi) = zprod (extents clo chi))
  (T1 : ta <> tb) (T2 : ta <> ha /\ ta <> hb /\ ta <> hc) (T3 : tb <> ha /\ tb <> hb /\ tb <> hc)
  (SAC : ha = hc -> a = c) (SBC : hb = hc -> b = c).

Definition run_of (me : Z) fuel :=
  add_patch fuel guess (near me) wn me (pre me) (rnda me) (rndb me) (smp me) ta tb ha hb hc a b c me me me alo ahi blo bhi clo chi.
Definition post (pa pb pc : list Z -> place -> Prop) (st st' : store V) : Prop :=
  added sa acc pa pb pc alo ahi blo bhi clo chi (st ha) (st hb) (st hc) (st' hc) /\
  forall k, k <> hc -> k <> ta -> k <> tb -> st' k = st k.
Definition result (pa pb pc : list Z -> place -> Prop) (st : store V) : Prop :=
  exists progs k n,
    Forall2 (fun me pr => length pr = k /\ forall fuel, (n <= fuel)%nat -> run_of me fuel = Some pr) (zseq 0 (Z.to_nat wn)) progs /\
    all_runs gs st (phases_of k progs) (post pa pb pc st).

Lemma inside_true ds lo hi : patch_of ds lo hi -> patch_inside ds lo hi = true.
Proof.
  intros (H1 & H2 & H3). unfold patch_inside. rewrite (in_array_length _ _ H1), (in_array_length _ _ H2), !Nat.eqb_refl, !andb_true_r.
  apply andb_true_iff. split.
  - apply forallb_forall. intros l Hl. apply Z.ltb_lt. clear - H1 Hl. revert ds H1. induction lo as [|x lo IH]; intros [|d ds] H; cbn in H; try tauto; [destruct Hl|].
    destruct Hl as [<-|Hl]; [lia|]. apply (IH Hl ds), H.
  - clear - H2. revert ds H2. induction hi as [|x hi IH]; intros [|d ds] H; cbn in *; try tauto. apply andb_true_iff. split; [apply Z.leb_le; lia|apply IH, H].
Qed.
Lemma checks_pass : negb (ga_elemsize a =? ga_elemsize b) || negb (ga_elemsize a =? ga_elemsize c)
     || negb (patch_inside (dims (ga_desc a)) alo ahi) || negb (patch_inside (dims (ga_desc b)) blo bhi)
     || negb (patch_inside (dims (ga_desc c)) clo chi)
     || negb (zprod (extents alo ahi) =? zprod (extents clo chi)) || negb (zprod (extents blo bhi) =? zprod (extents clo chi)) = false.
Proof.
  rewrite EAB, ZA, ZB, !Z.eqb_refl. rewrite <- EAB, EAC, Z.eqb_refl. rewrite !inside_true by auto. reflexivity.
Qed.
Lemma Forall2_map_r {A B C} (R : A -> C -> Prop) (f : B -> C) l l' : Forall2 (fun x y => R x (f y)) l l' -> Forall2 R l (map f l').
Proof. induction 1; constructor; auto. Qed.
Lemma Forall2_map_with {A B C} (R : A -> B -> Prop) (f : B -> C) l l' : Forall2 R l l' -> Forall2 (fun x z => exists y, z = f y /\ R x y) l (map f l').
Proof. intros H. apply Forall2_map_r. induction H; constructor; eauto. Qed.
Lemma Forall2_len' {A B} (R : A -> B -> Prop) l l' : Forall2 R l l' -> length l' = length l.
Proof. induction 1; cbn; auto. Qed.

Lemma world_rank d me : ga_group d = None -> abs_rank d me = Some me.
Proof. intros H. unfold abs_rank. rewrite H. reflexivity. Qed.

(** The last phase of all processes. *)
Lemma add_local_all (WC : wf_array c) g ha' av hb' bv :
  (forall me, 0 <= me < wn -> exists l, add_local guess (near me) me ha' av hb' bv hc c clo chi = Some l /\
     marked (sums sa acc g ha' hb' hc (reg_place av) (reg_place bv) (reg_place c))
      (fun x => in_box clo chi x /\ exists ad, reg_place c x (me, ad)) l) ->
  exists ls, Forall2 (fun me l => add_local guess (near me) me ha' av hb' bv hc c clo chi = Some l) (zseq 0 (Z.to_nat wn)) ls /\
    marked (sums sa acc g ha' hb' hc (reg_place av) (reg_place bv) (reg_place c)) (in_box clo chi) (concat ls).
Proof.
  intros H. set (Q := sums sa acc g ha' hb' hc (reg_place av) (reg_place bv) (reg_place c)) in *.
  destruct (procs_fuel (fun _ me => add_local guess (near me) me ha' av hb' bv hc c clo chi)
     (fun me l => exists w, abs_rank c me = Some w /\ marked Q (fun x => in_box clo chi x /\ exists ad, reg_place c x (w, ad)) l)
     (zseq 0 (Z.to_nat wn))) as (ls & n & E & F).
  { intros me Hme. apply zseq_In in Hme. destruct (H me ltac:(lia)) as (l & E & M). exists l, 0%nat. split; [auto|].
    exists me. split; [apply world_rank, GC|exact M]. }
  exists ls. split; [eapply Forall2_weaken; [|exact E]; intros me es X; exact (X n (le_n n))|].
  apply (whole_marked Q c wn (reg_place c) (reg_shape c)); [left; auto| |rewrite NC; exact F].
  intros x Hx. eapply patch_in; eauto.
Qed.

Section Regular.
Hypotheses (WA : wf_array a) (WB : wf_array b) (WC : wf_array c)
  (RA : length (dims (ga_desc a)) = length (dims (ga_desc c)) \/ differ alo ahi clo chi)
  (RB : length (dims (ga_desc b)) = length (dims (ga_desc c)) \/ differ blo bhi clo chi)
  (WDA : aligned a c alo ahi clo chi -> ga_width a = ga_width c)
  (WDB : aligned b c blo bhi clo chi -> ga_width b = ga_width c)
  (OV : ha = hc -> (alo = clo /\ ahi = chi) \/ forall x, in_box alo ahi x -> in_box clo chi x -> False)
  (CA : copyable guess near wn pre rnda smp false a c (reg_place a) (reg_place c) alo ahi clo chi)
  (CA' : ha = hc -> (forall x, in_box alo ahi x -> in_box clo chi x -> False) ->
         copyable guess near wn pre rnda smp true a c (reg_place a) (reg_place c) alo ahi clo chi)
  (CB : copyable guess near wn pre rndb smp false b c (reg_place b) (reg_place c) blo bhi clo chi).

Lemma reg_funs d : wf_array d -> (forall x q q', reg_place d x q -> reg_place d x q' -> q = q') /\ (forall x y q, reg_place d x q -> reg_place d y q -> x = y) /\
  (forall x, in_array (dims (ga_desc d)) x -> exists q, reg_place d x q).
Proof. intros WD. destruct (regular_storage d 0 WD) as (S1 & S2 & S3 & _). auto. Qed.

Lemma compat_true d dlo dhi : wf_array d -> ga_nproc d = wn -> ga_group d = None -> patch_of (dims (ga_desc d)) dlo dhi ->
  (length (dims (ga_desc d)) = length (dims (ga_desc c)) \/ differ dlo dhi clo chi) ->
  compat wn d c dlo dhi clo chi = Some true ->
  length (dims (ga_desc d)) = length (dims (ga_desc c)) /\ aligned d c dlo dhi clo chi.
Proof. intros. eapply compat_aligned; eauto. Qed.
Lemma compat_refl : compat wn c c clo chi clo chi = Some true.
Proof.
  destruct (compat_total wn c c clo chi clo chi WC WC NC NC) as ([] & E & _); [exact E|exfalso].
  unfold compat in E. destruct (patch_lens _ _ _ PC) as [C1 C2].
  assert (X : mapM (fun p => do da <- distribution (ga_desc c) p; do dc <- distribution (ga_desc c) p;
       Some (comp_patch (fst da) (snd da) (fst dc) (snd dc) && comp_patch clo chi clo chi)) (counts wn) = Some (map (fun _ => true) (counts wn))).
  { apply LGcopy5.mapM_total. intros p Hp. apply counts_In in Hp. destruct (regular_blocks_inside _ _ p (proj1 WC)) as (l & h & Ed & _); [lia|].
    rewrite Ed. cbn [fst snd]. pose proof (dist_len _ _ _ _ (proj1 (proj1 WC)) Ed). rewrite !comp_patch_refl by lia. reflexivity. }
  rewrite X in E. injection E as E. assert (Y : all_true (map (fun _ => true) (counts wn)) = true); [|congruence].
  clear. induction (counts wn); cbn; auto.
Qed.

(** What a copy to an array like C leaves there. *)
Lemma copied_at hd hs (pd : list Z -> place -> Prop) dlo dhi (st st1 : store V) :
  copy_done hd hs (corresponds false dlo dhi clo chi) pd (reg_place c) st st1 -> allocated pd (st hs) ->
  forall x y qd qc, corresponds false dlo dhi clo chi y x -> pd y qd -> reg_place c x qc ->
    exists v, hget (st hs) qd = Some v /\ hget (st1 hd) qc = Some v.
Proof.
  intros ((C1 & _) & _) AD x y qd qc R Hd Hc. pose proof (AD y qd Hd) as D. destruct (hget (st hs) qd) as [v|] eqn:E; [|congruence].
  exists v. split; [reflexivity|]. rewrite (C1 y x qd qc R Hd Hc). exact E.
Qed.
Lemma copied_off hd hs (pd : list Z -> place -> Prop) dlo dhi (st st1 : store V) :
  copy_done hd hs (corresponds false dlo dhi clo chi) pd (reg_place c) st st1 ->
  forall q, (forall x, in_box clo chi x -> ~ reg_place c x q) -> hget (st1 hd) q = hget (st hd) q.
Proof. intros ((_ & C2) & _) q Hq. apply C2. intros x y R. apply Hq, R. Qed.

Theorem add_regular (st : store V) :
  allocated (reg_place a) (st ha) -> allocated (reg_place b) (st hb) -> allocated (reg_place c) (st hc) ->
  allocated (reg_place c) (st ta) -> allocated (reg_place c) (st tb) ->
  result (reg_place a) (reg_place b) (reg_place c) st.
Proof.
  intros AA AB AC ATa ATb. pose proof compat_refl as CREFL.
  destruct (reg_funs a WA) as (FA & IA & SA). destruct (reg_funs b WB) as (FB & IB & SB). destruct (reg_funs c WC) as (FC & IC & SC).
  destruct (patch_lens _ _ _ PC) as [C1 C2]. pose proof (proj2 (proj2 PC)) as LEC.
  assert (TA : is_regular a = true) by (unfold is_regular; rewrite (proj1 (proj1 WA)); reflexivity).
  assert (TB : is_regular b = true) by (unfold is_regular; rewrite (proj1 (proj1 WB)); reflexivity).
  assert (TC : is_regular c = true) by (unfold is_regular; rewrite (proj1 (proj1 WC)); reflexivity).
  destruct (compat_total wn a c alo ahi clo chi WA WC NA NC) as (ca & ECA & _).
  destruct (compat_total wn b c blo bhi clo chi WB WC NB NC) as (cb & ECB & _).
  pose proof checks_pass as CK.
  assert (OPEN : forall me fuel pr, (match ca, cb with
      | true, true => do l <- add_local guess (near me) me ha a hb b hc c clo chi; Some [l]
      | false, true =>
          if hb =? hc then
            do e <- copy_patch fuel guess (near me) wn me (pre me) (rnda me) (smp me) true false false a c me me alo ahi clo chi;
            do l <- add_local guess (near me) me ta c hb b hc c clo chi; Some [copy_ops ta ha e; l]
          else
            do e <- copy_patch fuel guess (near me) wn me (pre me) (rnda me) (smp me) true false (ha =? hc) a c me me alo ahi clo chi;
            do l <- add_local guess (near me) me hc c hb b hc c clo chi; Some [copy_ops hc ha e; l]
      | true, false =>
          do e <- copy_patch fuel guess (near me) wn me (pre me) (rndb me) (smp me) true false false b c me me blo bhi clo chi;
          do l <- add_local guess (near me) me ha a tb c hc c clo chi; Some [copy_ops tb hb e; l]
      | false, false =>
          do e <- copy_patch fuel guess (near me) wn me (pre me) (rndb me) (smp me) true false false b c me me blo bhi clo chi;
          do e' <- copy_patch fuel guess (near me) wn me (pre me) (rnda me) (smp me) true false (ha =? hc) a c me me alo ahi clo chi;
          do cs <- patch_cells fuel guess (near me) wn c me clo chi;
          do l <- acc_local guess (near me) me tb c hc c clo chi;
          Some [copy_ops tb hb e; copy_ops hc ha e'; map (GScale hc) cs; l]
      end) = Some pr -> run_of me fuel = Some pr).
  { intros me fuel pr H. unfold run_of, add_patch. rewrite CK, TA, TB, TC. cbn [andb]. cbv zeta. rewrite ECA, ECB. exact H. }
  assert (LMA : ca = true -> length (dims (ga_desc a)) = length (dims (ga_desc c)) /\ aligned a c alo ahi clo chi)
    by (intros ->; apply (compat_true a alo ahi WA NA GA PA RA ECA)).
  assert (LMB : cb = true -> length (dims (ga_desc b)) = length (dims (ga_desc c)) /\ aligned b c blo bhi clo chi)
    by (intros ->; apply (compat_true b blo bhi WB NB GB PB RB ECB)).
  assert (CAX : ca = false -> (hc <> ha \/ (reg_place a = reg_place c /\ forall x, in_box alo ahi x -> in_box clo chi x -> False)) /\
              copyable guess near wn pre rnda smp (ha =? hc) a c (reg_place a) (reg_place c) alo ahi clo chi).
  { intros Eca. destruct (Z.eqb_spec ha hc) as [Eh|Eh].
    - destruct (OV Eh) as [[-> ->]|X].
      + exfalso. rewrite (SAC Eh) in ECA. congruence.
      + split; [right; split; [now rewrite (SAC Eh)|exact X]|apply CA'; auto].
    - split; [left; congruence|exact CA]. }
  set (g := fun u v => acc (sa u) v).
  assert (ALG : forall av bv ha' hb', wf_array av -> wf_array bv -> ga_group av = None -> ga_group bv = None -> ga_nproc av = wn -> ga_nproc bv = wn ->
     length (dims (ga_desc av)) = length (dims (ga_desc c)) -> length (dims (ga_desc bv)) = length (dims (ga_desc c)) ->
     ga_width av = ga_width c -> ga_width bv = ga_width c ->
     (forall p, 0 <= p < wn -> distribution (ga_desc av) p = distribution (ga_desc c) p) ->
     (forall p, 0 <= p < wn -> distribution (ga_desc bv) p = distribution (ga_desc c) p) ->
     exists ls, Forall2 (fun me l => add_local guess (near me) me ha' av hb' bv hc c clo chi = Some l) (zseq 0 (Z.to_nat wn)) ls /\
       marked (sums sa acc g ha' hb' hc (reg_place av) (reg_place bv) (reg_place c)) (in_box clo chi) (concat ls)).
  { intros av bv ha' hb' WAv WBv GAv GBv NAv NBv LAv LBv WdA WdB DA DB. apply (add_local_all WC). intros me Hme.
    unfold g. apply (add_local_marked sa acc); auto; lia. }
  assert (AL : forall d dlo dhi, aligned d c dlo dhi clo chi -> forall p, 0 <= p < wn -> distribution (ga_desc d) p = distribution (ga_desc c) p).
  { intros d dlo dhi (_ & _ & X) p Hp. apply X. lia. }
  assert (KEEP : forall (p : list Z -> place -> Prop) (m m' : heap V), allocated p m -> (forall q, hget m q <> None -> hget m' q <> None) -> allocated p m').
  { intros p m m' X Y x q Hq. apply Y, (X x q Hq). }
  unfold result. destruct ca, cb.
  - (* both fit *)
    destruct (LMA eq_refl) as [LA AL']. pose proof AL' as (EA1 & EA2 & DA). destruct (LMB eq_refl) as [LB BL']. pose proof BL' as (EB1 & EB2 & DB).
    assert (WdA : ga_width a = ga_width c) by (apply WDA, AL').
    assert (WdB : ga_width b = ga_width c) by (apply WDB, BL').
    rewrite NC in DA, DB.
    destruct (ALG a b ha hb) as (ls & E & M); auto.
    exists (map (fun x => [x]) ls), 1%nat, 0%nat. split.
    + eapply Forall2_weaken; [|apply one_Forall2; exact E]. intros me pr (l & -> & El). split; [reflexivity|]. intros fuel _. apply OPEN. rewrite El. reflexivity.
    + rewrite phases_one. apply (finish_sums sa acc g (fun v => v) ha hb hc ta tb (reg_place a) (reg_place b) (reg_place c) (reg_place a) (reg_place b)); auto.
      * intros Eh. now rewrite (SAC Eh).
      * intros Eh. now rewrite (SBC Eh).
      * intros x y qa qc R Ha Hc. rewrite EA1, EA2 in R. apply corresponds_self in R as ->; auto. exists qa. pose proof (AA x qa Ha). destruct (hget (st ha) qa) as [v|]; [eauto|congruence].
      * intros x y qb qc R Hb Hc. rewrite EB1, EB2 in R. apply corresponds_self in R as ->; auto. exists qb. pose proof (AB x qb Hb). destruct (hget (st hb) qb) as [v|]; [eauto|congruence].
  - (* only A fits *)
    destruct (LMA eq_refl) as [LA AL']. pose proof AL' as (EA1 & EA2 & DA). pose proof (WDA AL') as WdA. rewrite NC in DA.
    destruct (ALG a c ha tb) as (ls & E & M); auto. destruct CB as (ess & n & E1 & L1). rewrite NC in E1.
    exists (zipc (map (copy_ops tb hb) ess) (map (fun x => [x]) ls)), 2%nat, n.
    assert (LEN : length (map (copy_ops tb hb) ess) = length (map (fun x : list gop => [x]) ls)).
    { rewrite !map_length. apply Forall2_len' in E1, E. lia. }
    split.
    + eapply Forall2_weaken; [|apply (zipc_Forall2 _ _ _ _ _ (Forall2_map_with _ (copy_ops tb hb) _ _ E1) (one_Forall2 _ _ _ E))].
      intros me pr (es & rest & -> & (e & -> & Ee) & (l & -> & El)). split; [reflexivity|]. intros fuel Hf. apply OPEN. rewrite (Ee fuel Hf), El. reflexivity.
    + rewrite phases_zipc by exact LEN. rewrite phases_one.
      eapply all_runs_cons; [intros es HP; apply (copy_phase sa acc tb hb (reg_place b) (reg_place c) blo bhi clo chi ess st); auto; left; intuition congruence|].
      intros st1 CD. pose proof CD as (_ & O1 & K1).
      apply (finish_sums sa acc g (fun v => v) ha tb hc ta tb (reg_place a) (reg_place c) (reg_place c) (reg_place a) (reg_place b)); auto.
      * intros Eh. now rewrite (SAC Eh).
      * eapply KEEP; [exact AA|apply K1].
      * eapply KEEP; [exact ATb|apply K1].
      * eapply KEEP; [exact AC|apply K1].
      * intros x y qa qc R Ha Hc. rewrite EA1, EA2 in R. apply corresponds_self in R as ->; auto. exists qa. pose proof (AA x qa Ha). rewrite O1 by (intuition congruence).
        destruct (hget (st ha) qa) as [v|]; [eauto|congruence].
      * intros x y qb qc R Hb Hc. destruct (copied_at _ _ _ _ _ _ _ CD AB x y qb qc R Hb Hc) as (v & X & Y). exists qc, v. auto.
      * intros q Hq. rewrite O1 by (intuition congruence). reflexivity.
  - (* only B fits *)
    destruct (LMB eq_refl) as [LB BL']. pose proof BL' as (EB1 & EB2 & DB). pose proof (WDB BL') as WdB. rewrite NC in DB.
    destruct (Z.eqb_spec hb hc) as [Eh|Eh].
    + destruct (ALG c b ta hb) as (ls & E & M); auto. destruct CA as (ess & n & E1 & L1). rewrite NC in E1.
      exists (zipc (map (copy_ops ta ha) ess) (map (fun x => [x]) ls)), 2%nat, n.
      assert (LEN : length (map (copy_ops ta ha) ess) = length (map (fun x : list gop => [x]) ls)).
      { rewrite !map_length. apply Forall2_len' in E1, E. lia. }
      split.
      * eapply Forall2_weaken; [|apply (zipc_Forall2 _ _ _ _ _ (Forall2_map_with _ (copy_ops ta ha) _ _ E1) (one_Forall2 _ _ _ E))].
        intros me pr (es & rest & -> & (e & -> & Ee) & (l & -> & El)). split; [reflexivity|]. intros fuel Hf. apply OPEN. rewrite (Ee fuel Hf), El. reflexivity.
      * rewrite phases_zipc by exact LEN. rewrite phases_one.
        eapply all_runs_cons; [intros es HP; apply (copy_phase sa acc ta ha (reg_place a) (reg_place c) alo ahi clo chi ess st); auto; left; intuition congruence|].
        intros st1 CD. pose proof CD as (_ & O1 & K1).
        apply (finish_sums sa acc g (fun v => v) ta hb hc ta tb (reg_place c) (reg_place b) (reg_place c) (reg_place a) (reg_place b)); auto.
        -- intros _. now rewrite (SBC Eh).
        -- eapply KEEP; [exact ATa|apply K1].
        -- eapply KEEP; [exact AB|apply K1].
        -- eapply KEEP; [exact AC|apply K1].
        -- intros x y qa qc R Ha Hc. destruct (copied_at _ _ _ _ _ _ _ CD AA x y qa qc R Ha Hc) as (v & X & Y). exists qc, v. auto.
        -- intros x y qb qc R Hb Hc. rewrite EB1, EB2 in R. apply corresponds_self in R as ->; auto. exists qb. pose proof (AB x qb Hb). rewrite O1 by (intuition congruence).
           destruct (hget (st hb) qb) as [v|]; [eauto|congruence].
        -- intros q Hq. rewrite O1 by (intuition congruence). reflexivity.
    + destruct (CAX eq_refl) as [HS (ess & n & E1 & L1)]. destruct (ALG c b hc hb) as (ls & E & M); auto. rewrite NC in E1.
      exists (zipc (map (copy_ops hc ha) ess) (map (fun x => [x]) ls)), 2%nat, n.
      assert (LEN : length (map (copy_ops hc ha) ess) = length (map (fun x : list gop => [x]) ls)).
      { rewrite !map_length. apply Forall2_len' in E1, E. lia. }
      split.
      * eapply Forall2_weaken; [|apply (zipc_Forall2 _ _ _ _ _ (Forall2_map_with _ (copy_ops hc ha) _ _ E1) (one_Forall2 _ _ _ E))].
        intros me pr (es & rest & -> & (e & -> & Ee) & (l & -> & El)). split; [reflexivity|]. intros fuel Hf. apply OPEN. rewrite (Ee fuel Hf), El. reflexivity.
      * rewrite phases_zipc by exact LEN. rewrite phases_one.
        eapply all_runs_cons; [intros es HP; apply (copy_phase sa acc hc ha (reg_place a) (reg_place c) alo ahi clo chi ess st); auto|].
        intros st1 CD. pose proof CD as (_ & O1 & K1).
        apply (finish_sums sa acc g (fun v => v) hc hb hc ta tb (reg_place c) (reg_place b) (reg_place c) (reg_place a) (reg_place b)); auto.
        -- intros X. congruence.
        -- eapply KEEP; [exact AC|apply K1].
        -- eapply KEEP; [exact AB|apply K1].
        -- eapply KEEP; [exact AC|apply K1].
        -- intros x y qa qc R Ha Hc. destruct (copied_at _ _ _ _ _ _ _ CD AA x y qa qc R Ha Hc) as (v & X & Y). exists qc, v. auto.
        -- intros x y qb qc R Hb Hc. rewrite EB1, EB2 in R. apply corresponds_self in R as ->; auto. exists qb. pose proof (AB x qb Hb). rewrite O1 by congruence.
           destruct (hget (st hb) qb) as [v|]; [eauto|congruence].
        -- apply (copied_off _ _ _ _ _ _ _ CD).
  - (* neither fits *)
    destruct (CAX eq_refl) as [HS (ess & n & E1 & L1)]. rewrite NC in E1. destruct CB as (essb & nb & E2 & L2). rewrite NC in E2.
    destruct (patch_cells_spec guess near wn c clo chi (reg_place c) (reg_shape c)) as (css & nc & E3 & M3); auto.
    { split; [left; auto|]. intros X. rewrite (proj1 (proj1 WC)) in X. discriminate. }
    { intros me w X. rewrite (world_rank c me GC) in X. injection X as <-. apply HNear. }
    { lia. }
    rewrite NC in E3.
    destruct (procs_fuel (fun _ me => acc_local guess (near me) me tb c hc c clo chi)
     (fun me l => exists w, abs_rank c me = Some w /\ marked (sums sa acc acc hc tb hc (reg_place c) (reg_place c) (reg_place c)) (fun x => in_box clo chi x /\ exists ad, reg_place c x (w, ad)) l)
     (zseq 0 (Z.to_nat wn))) as (ls & nl & E4 & F4).
    { intros me Hme. apply zseq_In in Hme. destruct (acc_local_marked sa acc guess (near me) me tb hc c clo chi) as (l & X & Y); auto; try lia.
      exists l, 0%nat. split; [auto|]. exists me. split; [apply world_rank, GC|exact Y]. }
    assert (M4 : marked (sums sa acc acc hc tb hc (reg_place c) (reg_place c) (reg_place c)) (in_box clo chi) (concat ls)).
    { apply (whole_marked _ c wn (reg_place c) (reg_shape c)); [left; auto| |rewrite NC; exact F4]. intros x Hx. eapply patch_in; eauto. }
    set (pr3 := map (fun x : list gop => [x]) ls). set (pr2 := zipc (map (map (GScale hc)) css) pr3). set (pr1 := zipc (map (copy_ops hc ha) ess) pr2).
    assert (N3 : length (map (map (GScale hc)) css) = length pr3) by (unfold pr3; rewrite !map_length; apply Forall2_len' in E3, E4; lia).
    assert (N2 : length (map (copy_ops hc ha) ess) = length pr2).
    { unfold pr2. rewrite zipc_length by exact N3. rewrite <- N3, !map_length. apply Forall2_len' in E3, E1. lia. }
    assert (N1 : length (map (copy_ops tb hb) essb) = length pr1).
    { unfold pr1. rewrite zipc_length by exact N2. rewrite <- N2, !map_length. apply Forall2_len' in E2, E1. lia. }
    exists (zipc (map (copy_ops tb hb) essb) pr1), 4%nat, (Nat.max (Nat.max n nb) (Nat.max nc nl)). split.
    + eapply Forall2_weaken; [|apply (zipc_Forall2 _ _ _ _ _ (Forall2_map_with _ (copy_ops tb hb) _ _ E2)
           (zipc_Forall2 _ _ _ _ _ (Forall2_map_with _ (copy_ops hc ha) _ _ E1)
             (zipc_Forall2 _ _ _ _ _ (Forall2_map_with _ (map (GScale hc)) _ _ E3) (one_Forall2 _ _ _ E4))))].
      intros me pr (es & rest & -> & (e & -> & Ee) & (es' & rest' & -> & (e' & -> & Ee') & (es3 & rest3 & -> & (cs & -> & Ec) & (l & -> & El)))).
      split; [reflexivity|]. intros fuel Hf. apply OPEN. rewrite (Ee fuel), (Ee' fuel), (Ec fuel), (El fuel) by lia. reflexivity.
    + rewrite phases_zipc by exact N1. unfold pr1. rewrite phases_zipc by exact N2. unfold pr2. rewrite phases_zipc by exact N3. unfold pr3. rewrite phases_one.
      eapply all_runs_cons; [intros es HP; apply (copy_phase sa acc tb hb (reg_place b) (reg_place c) blo bhi clo chi essb st); auto; left; intuition congruence|].
      intros st1 CD1. pose proof CD1 as (_ & O1 & K1).
      eapply all_runs_cons; [intros es HP; apply (copy_phase sa acc hc ha (reg_place a) (reg_place c) alo ahi clo chi ess st1); auto|].
      { eapply KEEP; [exact AA|apply K1]. }
      { eapply KEEP; [exact AC|apply K1]. }
      intros st2 CD2. pose proof CD2 as (_ & O2 & K2).
      assert (AC2 : allocated (reg_place c) (st2 hc)) by (eapply KEEP; [exact AC|intros q X; apply K2, K1, X]).
      eapply (all_runs_cons _ _ _ _ (fun st3 => updated (fun x => in_array (dims (ga_desc c)) x /\ in_box clo chi x) sa (reg_place c) (st2 hc) (st3 hc) /\
                 (forall k, k <> hc -> st3 k = st2 k) /\ forall h q, hget (st2 h) q <> None -> hget (st3 h) q <> None)).
      { intros es HP. rewrite <- concat_map in HP. apply Permutation_sym, Permutation_map_inv in HP as (cs & -> & HP).
        destruct (marked_updated (reg_place c) (fun x => in_array (dims (ga_desc c)) x /\ in_box clo chi x) sa (st2 hc) cs FC IC AC2) as (m' & X & Y).
        { eapply marked_perm; eauto. }
        destruct (scales_run sa acc hc cs st2 m' X) as (st3 & Z1 & Z2 & Z3). exists st3. split; [exact Z1|]. split; [rewrite Z2; exact Y|]. split; [exact Z3|].
        apply (run_keeps sa acc _ _ _ Z1). }
      intros st3 ((U1 & U2) & O3 & K3).
      apply (finish_sums sa acc acc sa hc tb hc ta tb (reg_place c) (reg_place c) (reg_place c) (reg_place a) (reg_place b)); auto.
      * eapply KEEP; [exact AC2|apply K3].
      * eapply KEEP; [exact ATb|intros q X; apply K3, K2, K1, X].
      * eapply KEEP; [exact AC2|apply K3].
      * intros x y qa qc R Ha Hc. destruct (copied_at _ _ _ _ _ _ _ CD2) with (x := x) (y := y) (qd := qa) (qc := qc) as (v & X & Y); auto.
        { eapply KEEP; [exact AA|apply K1]. }
        exists qc, v. split; [exact Hc|]. rewrite O1 in X by (intuition congruence). split; [exact X|].
        destruct (U1 x qc) as (v' & X' & Y'); auto; [|congruence]. split; [eapply patch_in; [exact PC|apply R]|apply R].
      * intros x y qb qc R Hb Hc. destruct (copied_at _ _ _ _ _ _ _ CD1 AB x y qb qc R Hb Hc) as (v & X & Y). exists qc, v. split; [exact Hc|]. split; [exact X|].
        rewrite O3, O2 by (intuition congruence). exact Y.
      * intros q Hq. rewrite U2 by (intros x [_ Hx]; apply Hq, Hx). rewrite (copied_off _ _ _ _ _ _ _ CD2 q Hq). rewrite O1 by (intuition congruence). reflexivity.
      * intros k K K' K''. rewrite O3, O2, O1 by auto. reflexivity.
Qed.
End Regular.

Section Blocked.
Variables (pa pb pc : list Z -> place -> Prop) (sha shb shc : list Z -> Prop).
Hypotheses (LA : any_layout a wn pa sha) (LB : any_layout b wn pb shb) (LC : walk_layout c wn pc shc)
  (NR : is_regular a && is_regular b && is_regular c = false)
  (CA : copyable guess near wn pre rnda smp false a c pa pc alo ahi clo chi)
  (CB : copyable guess near wn pre rndb smp false b c pb pc blo bhi clo chi).

Theorem add_blocked (st : store V) :
  allocated pa (st ha) -> allocated pb (st hb) -> allocated pc (st hc) -> allocated pc (st ta) -> allocated pc (st tb) ->
  result pa pb pc st.
Proof.
  intros AA AB AC ATa ATb.
  destruct (any_storage _ _ _ _ LA) as (al & _ & FA & _). destruct (any_storage _ _ _ _ LB) as (bl & _ & FB & _). destruct (any_storage _ _ _ _ (proj1 LC)) as (cl & _ & FC & IC & _).
  pose proof (proj2 (proj2 PC)) as LEC. pose proof checks_pass as CK.
  destruct CA as (ess & n & E1 & L1). rewrite NC in E1. destruct CB as (essb & nb & E2 & L2). rewrite NC in E2.
  set (g := fun u v => acc (sa u) v).
  destruct (procs_fuel (fun fuel me => add_blocks fuel guess (near me) wn ta tb hc c me clo chi)
     (fun me l => exists w, abs_rank c me = Some w /\ marked (sums sa acc g ta tb hc pc pc pc) (fun x => in_box clo chi x /\ exists ad, pc x (w, ad)) l)
     (zseq 0 (Z.to_nat wn))) as (ls & nl & E4 & F4).
  { intros me Hme. apply zseq_In in Hme. destruct (add_blocks_proc sa acc guess (near me) wn ta tb hc c me me clo chi pc shc) as (l & k & X & Y); auto; try lia.
    { apply world_rank, GC. }
    exists l, k. split; [exact X|]. exists me. split; [apply world_rank, GC|exact Y]. }
  assert (M4 : marked (sums sa acc g ta tb hc pc pc pc) (in_box clo chi) (concat ls)).
  { apply (whole_marked _ c wn pc shc); [apply LC| |rewrite NC; exact F4]. intros x Hx. eapply patch_in; eauto. }
  set (pr2 := map (fun x : list gop => [x]) ls). set (pr1 := zipc (map (copy_ops tb hb) essb) pr2).
  assert (N2 : length (map (copy_ops tb hb) essb) = length pr2) by (unfold pr2; rewrite !map_length; apply Forall2_len' in E2, E4; lia).
  assert (N1 : length (map (copy_ops ta ha) ess) = length pr1).
  { unfold pr1. rewrite zipc_length by exact N2. rewrite <- N2, !map_length. apply Forall2_len' in E2, E1. lia. }
  assert (KEEP : forall (p : list Z -> place -> Prop) (m m' : heap V), allocated p m -> (forall q, hget m q <> None -> hget m' q <> None) -> allocated p m').
  { intros p m m' X Y x q Hq. apply Y, (X x q Hq). }
  exists (zipc (map (copy_ops ta ha) ess) pr1), 3%nat, (Nat.max n (Nat.max nb nl)). split.
  - eapply Forall2_weaken; [|apply (zipc_Forall2 _ _ _ _ _ (Forall2_map_with _ (copy_ops ta ha) _ _ E1)
           (zipc_Forall2 _ _ _ _ _ (Forall2_map_with _ (copy_ops tb hb) _ _ E2) (one_Forall2 _ _ _ E4)))].
    intros me pr (es & rest & -> & (e & -> & Ee) & (es' & rest' & -> & (e' & -> & Ee') & (l & -> & El))).
    split; [reflexivity|]. intros fuel Hf. unfold run_of, add_patch. rewrite CK, NR. cbv zeta. rewrite (Ee fuel), (Ee' fuel), (El fuel) by lia. reflexivity.
  - rewrite phases_zipc by exact N1. unfold pr1. rewrite phases_zipc by exact N2. unfold pr2. rewrite phases_one.
    eapply all_runs_cons; [intros es HP; apply (copy_phase sa acc ta ha pa pc alo ahi clo chi ess st); auto; left; intuition congruence|].
    intros st1 CD1. pose proof CD1 as ((R1 & _) & O1 & K1).
    eapply all_runs_cons; [intros es HP; apply (copy_phase sa acc tb hb pb pc blo bhi clo chi essb st1); auto|].
    { eapply KEEP; [exact AB|apply K1]. }
    { eapply KEEP; [exact ATb|apply K1]. }
    { left; intuition congruence. }
    intros st2 CD2. pose proof CD2 as ((R2 & _) & O2 & K2).
    apply (finish_sums sa acc g (fun v => v) ta tb hc ta tb pc pc pc pa pb); auto.
    + eapply KEEP; [exact ATa|intros q X; apply K2, K1, X].
    + eapply KEEP; [exact ATb|intros q X; apply K2, K1, X].
    + eapply KEEP; [exact AC|intros q X; apply K2, K1, X].
    + intros x y qa qc R Ha Hc. pose proof (AA y qa Ha) as D. destruct (hget (st ha) qa) as [v|] eqn:E; [|congruence]. exists qc, v.
      split; [exact Hc|]. split; [reflexivity|]. rewrite O2 by congruence. rewrite (R1 y x qa qc R Ha Hc). exact E.
    + intros x y qb qc R Hb Hc. pose proof (AB y qb Hb) as D. destruct (hget (st hb) qb) as [v|] eqn:E; [|congruence]. exists qc, v.
      split; [exact Hc|]. split; [reflexivity|]. rewrite (R2 y x qb qc R Hb Hc). rewrite O1 by (intuition congruence). exact E.
    + intros q _. rewrite O2, O1 by (intuition congruence). reflexivity.
    + intros k K K' K''. rewrite O2, O1 by auto. reflexivity.
Qed.
End Blocked.
End Patch.
