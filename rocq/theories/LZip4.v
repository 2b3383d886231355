(** Lemmas: the median of three arrays. *)
From Verif Require Import LRadix LDist LStrided LStrided2 LIterReg LIterReg3 LIterSca LStore LXfer LXfer2 LLoc LAccess LSelect LSelect2 LOdo LGcopy5 LAdd4.
From Verif Require Export LZip3.
Open Scope Z_scope.

(** Some process has the same block of both arrays. *)
Definition shares_block (wn : Z) (a m : garray) : Prop := exists p, 0 <= p < wn /\ distribution (ga_desc a) p = distribution (ga_desc m) p.

Lemma shares_not_all wn a m : wf_array a -> wf_array m -> ga_nproc a = wn -> ga_nproc m = wn -> shares_block wn a m -> all_differ wn a m = Some false.
Proof.
  intros WA WM NA NM (p & Hp & E). unfold all_differ.
  set (F := fun p => match distribution (ga_desc a) p, distribution (ga_desc m) p with
     | Some da, Some dm => negb (comp_patch (fst da) (snd da) (fst dm) (snd dm)) | _, _ => false end).
  rewrite (LGcopy5.mapM_total _ F).
  2:{ intros x Hx. apply counts_In in Hx. unfold F.
      destruct (regular_blocks_inside _ _ x (proj1 WA)) as (l & h & Ed & _); [lia|]. destruct (regular_blocks_inside _ _ x (proj1 WM)) as (l' & h' & Ed' & _); [lia|].
      rewrite Ed, Ed'. reflexivity. }
  f_equal. assert (FP : F p = false).
  { unfold F. rewrite E. destruct (regular_blocks_inside _ _ p (proj1 WM)) as (l & h & Ed & _); [lia|]. rewrite Ed. cbn [fst snd].
    rewrite comp_patch_refl; [reflexivity|]. pose proof (dist_len _ _ _ _ (proj1 (proj1 WM)) Ed). lia. }
  assert (IN : In p (counts wn)) by (apply counts_In; lia).
  apply not_true_is_false. intros X. assert (Y : forall l, all_true (map F l) = true -> In p l -> F p = true).
  { clear. induction l as [|x l IH]; cbn; [tauto|]. intros H. apply andb_prop in H as [H1 H2]. intros [<-|Hl]; auto. }
  rewrite (Y _ X IN) in FP. discriminate.
Qed.

Section Patch3.
Context {V : Type} (f : list bool -> list V -> option V) (g : V -> V -> V -> option V).
Variables (guess : Z -> Z -> Z -> Z) (near : Z -> Z -> bool) (wn : Z) (pre : Z -> option Z)
          (rnda rndb rndc : Z -> lpiece -> Z -> Z) (smp : Z -> Z -> bool) (t : elt) (ta tb tc ha hb hc hm : Z) (a b c m : garray)
          (alo ahi blo bhi clo chi mlo mhi : list Z).
Hypotheses (HG : good_guess guess) (HNear : forall me, near me me = true) (Ht : listed_type t = true)
  (EA : ga_elemsize m = ga_elemsize a) (EB : ga_elemsize m = ga_elemsize b) (EC : ga_elemsize m = ga_elemsize c)
  (GM : ga_group m = None) (NA : ga_nproc a = wn) (NB : ga_nproc b = wn) (NC : ga_nproc c = wn) (NM : ga_nproc m = wn) (Hw : 1 <= wn)
  (PA : patch_of (dims (ga_desc a)) alo ahi) (PB : patch_of (dims (ga_desc b)) blo bhi) (PC : patch_of (dims (ga_desc c)) clo chi)
  (PM : patch_of (dims (ga_desc m)) mlo mhi)
  (ZA : zprod (extents mlo mhi) = zprod (extents alo ahi)) (ZB : zprod (extents mlo mhi) = zprod (extents blo bhi)) (ZC : zprod (extents mlo mhi) = zprod (extents clo chi))
  (TT : ta <> tb /\ ta <> tc /\ tb <> tc)
  (T1 : ta <> ha /\ ta <> hb /\ ta <> hc /\ ta <> hm) (T2 : tb <> ha /\ tb <> hb /\ tb <> hc /\ tb <> hm) (T3 : tc <> ha /\ tc <> hb /\ tc <> hc /\ tc <> hm)
  (HF : forall u v w, f [false; false; false] [u; v; w] = g u v w) (HT : forall u v w, g u v w <> None).
Variables (pa pb pc pm : list Z -> place -> Prop) (sha shb shc shm : list Z -> Prop).
Hypotheses (LA : any_layout a wn pa sha) (LB : any_layout b wn pb shb) (LC : any_layout c wn pc shc) (LM : any_layout m wn pm shm)
  (CA : copyable guess near wn pre rnda smp false a m pa pm alo ahi mlo mhi)
  (CB : copyable guess near wn pre rndb smp false b m pb pm blo bhi mlo mhi)
  (CC : copyable guess near wn pre rndc smp false c m pc pm clo chi mlo mhi).

Definition mrun (me : Z) fuel :=
  median_patch fuel guess (near me) wn me (pre me) (rnda me) (rndb me) (rndc me) (smp me) t ta tb tc ha hb hc hm a b c m me me me me alo ahi blo bhi clo chi mlo mhi.
Definition mresult (st : store V) : Prop :=
  exists progs k n,
    Forall2 (fun me pr => length pr = k /\ forall fuel, (n <= fuel)%nat -> mrun me fuel = Some pr) (zseq 0 (Z.to_nat wn)) progs /\
    every_run (zstep f) st (phases_of k progs) (fun r => exists st', r = Some st' /\
      zipped3 g pa pb pc pm alo ahi blo bhi clo chi mlo mhi (st ha) (st hb) (st hc) (st hm) (st' hm) /\
      forall k, k <> hm -> k <> ta -> k <> tb -> k <> tc -> st' k = st k).
Lemma mchecks : negb (ga_elemsize m =? ga_elemsize a) || negb (ga_elemsize m =? ga_elemsize b) || negb (ga_elemsize m =? ga_elemsize c)
     || negb (patch_inside (dims (ga_desc a)) alo ahi) || negb (patch_inside (dims (ga_desc b)) blo bhi)
     || negb (patch_inside (dims (ga_desc c)) clo chi) || negb (patch_inside (dims (ga_desc m)) mlo mhi)
     || negb (zprod (extents mlo mhi) =? zprod (extents alo ahi)) || negb (zprod (extents mlo mhi) =? zprod (extents blo bhi)) || negb (zprod (extents mlo mhi) =? zprod (extents clo chi)) = false.
Proof. rewrite <- EA, <- EB, <- EC, <- ZA, <- ZB, <- ZC, !Z.eqb_refl. rewrite !inside_true by auto. reflexivity. Qed.

(** The operation itself: process [me] yields [last me]. *)
Lemma median_runs (st : store V) (last : Z -> nat -> option (list zop)) ls nl :
  Forall2 (fun me l => forall fuel, (nl <= fuel)%nat -> last me fuel = Some l) (zseq 0 (Z.to_nat wn)) ls ->
  marked (zips (map (all_at pm) [ta; tb; tc]) hm pm) (in_box mlo mhi) (concat ls) ->
  (forall me fuel e e' e'' l, 
     copy_patch fuel guess (near me) wn me (pre me) (rnda me) (smp me) true false false a m me me alo ahi mlo mhi = Some e ->
     copy_patch fuel guess (near me) wn me (pre me) (rndb me) (smp me) true false false b m me me blo bhi mlo mhi = Some e' ->
     copy_patch fuel guess (near me) wn me (pre me) (rndc me) (smp me) true false false c m me me clo chi mlo mhi = Some e'' ->
     last me fuel = Some l -> mrun me fuel = Some [zcopies ta ha e; zcopies tb hb e'; zcopies tc hc e''; l]) ->
  allocated pa (st ha) -> allocated pb (st hb) -> allocated pc (st hc) -> allocated pm (st hm) ->
  allocated pm (st ta) -> allocated pm (st tb) -> allocated pm (st tc) ->
  mresult st.
Proof.
  intros EL ML HL AA AB AC AM ATa ATb ATc. destruct (any_storage _ _ _ _ LM) as (cl & _ & FM & IM & _).
  destruct CA as (ea & n1 & E1 & L1). destruct CB as (eb & n2 & E2 & L2). destruct CC as (ec & n3 & E3 & L3). rewrite NM in E1, E2, E3.
  set (oa := Operand ha pa alo ahi ta pm (Some ea)). set (ob := Operand hb pb blo bhi tb pm (Some eb)). set (oc := Operand hc pc clo chi tc pm (Some ec)).
  assert (UA : usable mlo mhi pm st oa) by (eapply any_usable; eauto; intuition congruence).
  assert (UB : usable mlo mhi pm st ob) by (eapply any_usable; eauto; intuition congruence).
  assert (UC : usable mlo mhi pm st oc) by (eapply any_usable; eauto; intuition congruence).
  destruct (zip_all f mlo mhi hm pm (zseq 0 (Z.to_nat wn))
     [(oa, fun me es => forall fuel, (n1 <= fuel)%nat -> copy_patch fuel guess (near me) wn me (pre me) (rnda me) (smp me) true false false a m me me alo ahi mlo mhi = Some es);
      (ob, fun me es => forall fuel, (n2 <= fuel)%nat -> copy_patch fuel guess (near me) wn me (pre me) (rndb me) (smp me) true false false b m me me blo bhi mlo mhi = Some es);
      (oc, fun me es => forall fuel, (n3 <= fuel)%nat -> copy_patch fuel guess (near me) wn me (pre me) (rndc me) (smp me) true false false c m me me clo chi mlo mhi = Some es)]
     (fun me l => forall fuel, (nl <= fuel)%nat -> last me fuel = Some l) ls
     (fun vs => f [false; false; false] vs) st) as (progs & k & FP & ER); auto.
  - apply PM.
  - intros o [<-|[<-|[<-|[]]]]; auto.
  - cbn [map fst]. repeat (constructor; try (unfold apart, oa, ob, oc; cbn; intuition congruence)).
  - intros o [<-|[<-|[<-|[]]]]; reflexivity.
  - intros vs. cbn [map fst o_h' oa ob oc]. destruct (Z.eqb_spec ta hm), (Z.eqb_spec tb hm), (Z.eqb_spec tc hm); try (intuition congruence).
  - intros o ess' [<-|[<-|[<-|[]]]] Eo; cbn [fst snd o_copy oa ob oc] in *; injection Eo as <-; assumption.
  - exists progs, k, (Nat.max nl (Nat.max n1 (Nat.max n2 n3))). split.
    + eapply Forall2_weaken; [|exact FP]. intros me pr [HK HP]. split; [exact HK|]. intros fuel Hf.
      cbn [prog_is fst snd o_copy o_h o_h' oa ob oc] in HP. destruct HP as (e & r1 & -> & Ha & e' & r2 & -> & Hb & e'' & r3 & -> & Hc & l & -> & Hl).
      assert (HX : (n1 <= fuel)%nat /\ (n2 <= fuel)%nat /\ (n3 <= fuel)%nat /\ (nl <= fuel)%nat) by (clear - Hf; lia). destruct HX as (X1 & X2 & X3 & X4).
      exact (HL me fuel e e' e'' l (Ha fuel X1) (Hb fuel X2) (Hc fuel X3) (Hl fuel X4)).
    + eapply every_run_imp; [|exact ER]. intros r HR. cbn [map fst] in HR. apply (outcome_zipped3 g) in HR; auto.
      cbn [o_h o_p o_lo o_hi o_h' o_copy oa ob oc] in HR. destruct HR as (st' & -> & H1 & H2). exists st'. split; [reflexivity|]. split; [exact H1|]. auto.
Qed.
End Patch3.

Section Use.
Context {V : Type} (f : list bool -> list V -> option V) (g : V -> V -> V -> option V).
Variables (guess : Z -> Z -> Z -> Z) (near : Z -> Z -> bool) (wn : Z) (pre : Z -> option Z)
          (rnda rndb rndc : Z -> lpiece -> Z -> Z) (smp : Z -> Z -> bool) (t : elt) (ta tb tc ha hb hc hm : Z) (a b c m : garray)
          (alo ahi blo bhi clo chi mlo mhi : list Z).
Hypotheses (HG : good_guess guess) (HNear : forall me, near me me = true) (Ht : listed_type t = true)
  (EA : ga_elemsize m = ga_elemsize a) (EB : ga_elemsize m = ga_elemsize b) (EC : ga_elemsize m = ga_elemsize c)
  (GM : ga_group m = None) (NA : ga_nproc a = wn) (NB : ga_nproc b = wn) (NC : ga_nproc c = wn) (NM : ga_nproc m = wn) (Hw : 1 <= wn)
  (PA : patch_of (dims (ga_desc a)) alo ahi) (PB : patch_of (dims (ga_desc b)) blo bhi) (PC : patch_of (dims (ga_desc c)) clo chi)
  (PM : patch_of (dims (ga_desc m)) mlo mhi)
  (ZA : zprod (extents mlo mhi) = zprod (extents alo ahi)) (ZB : zprod (extents mlo mhi) = zprod (extents blo bhi)) (ZC : zprod (extents mlo mhi) = zprod (extents clo chi))
  (TT : ta <> tb /\ ta <> tc /\ tb <> tc)
  (T1 : ta <> ha /\ ta <> hb /\ ta <> hc /\ ta <> hm) (T2 : tb <> ha /\ tb <> hb /\ tb <> hc /\ tb <> hm) (T3 : tc <> ha /\ tc <> hb /\ tc <> hc /\ tc <> hm)
  (HF : forall u v w, f [false; false; false] [u; v; w] = g u v w) (HT : forall u v w, g u v w <> None).

Theorem median_regular (st : store V) : wf_array a -> wf_array b -> wf_array c -> wf_array m ->
  shares_block wn a m -> shares_block wn b m -> shares_block wn c m ->
  copyable guess near wn pre rnda smp false a m (reg_place a) (reg_place m) alo ahi mlo mhi ->
  copyable guess near wn pre rndb smp false b m (reg_place b) (reg_place m) blo bhi mlo mhi ->
  copyable guess near wn pre rndc smp false c m (reg_place c) (reg_place m) clo chi mlo mhi ->
  allocated (reg_place a) (st ha) -> allocated (reg_place b) (st hb) -> allocated (reg_place c) (st hc) -> allocated (reg_place m) (st hm) ->
  allocated (reg_place m) (st ta) -> allocated (reg_place m) (st tb) -> allocated (reg_place m) (st tc) ->
  mresult f g guess near wn pre rnda rndb rndc smp t ta tb tc ha hb hc hm a b c m alo ahi blo bhi clo chi mlo mhi
    (reg_place a) (reg_place b) (reg_place c) (reg_place m) st.
Proof.
  intros WA WB WC WM SA SB SC CA CB CC AA AB AC AM ATa ATb ATc. destruct (patch_lens _ _ _ PM) as [M1 M2].
  destruct (procs_fuel (fun _ me => median_local guess (near me) me t [(ta, m); (tb, m); (tc, m)] hm m mlo mhi)
     (fun me l => exists w, abs_rank m me = Some w /\ marked (zips (map placed_at [(ta, m); (tb, m); (tc, m)]) hm (reg_place m)) (fun x => in_box mlo mhi x /\ exists ad, reg_place m x (w, ad)) l)
     (zseq 0 (Z.to_nat wn))) as (ls & nl & EL & FL).
  { intros me Hme. apply zseq_In in Hme. assert (Hm : 0 <= me < ga_nproc m) by (clear - Hme NM Hw; lia). assert (ML' : length mhi = length mlo) by (clear - M1 M2; lia).
    destruct (median_local_marked guess (near me) me hm m mlo mhi HG WM GM (HNear me) Hm M1 ML' t [(ta, m); (tb, m); (tc, m)] Ht) as (l & X & Y).
    { do 3 (apply Forall_cons; [apply twin_refl; auto|]). apply Forall_nil. }
    exists l, 0%nat. split; [auto|]. exists me. split; [apply world_rank, GM|exact Y]. }
  assert (ML : marked (zips (map (all_at (reg_place m)) [ta; tb; tc]) hm (reg_place m)) (in_box mlo mhi) (concat ls)).
  { apply (whole_marked _ m wn (reg_place m) (reg_shape m)); [left; auto| |rewrite NM; exact FL]. intros x Hx. eapply patch_in; eauto. }
  eapply (median_runs f g guess near wn pre rnda rndb rndc smp t ta tb tc ha hb hc hm a b c m alo ahi blo bhi clo chi mlo mhi) with (ls := ls) (nl := nl)
    (last := fun me _ => median_local guess (near me) me t [(ta, m); (tb, m); (tc, m)] hm m mlo mhi)
    (sha := reg_shape a) (shb := reg_shape b) (shc := reg_shape c) (shm := reg_shape m); eauto; try (left; auto; fail).
  intros me fuel e e' e'' l E1 E2 E3 E4. unfold mrun, median_patch. cbv zeta. rewrite mchecks by auto.
  assert (TA : is_regular a = true) by (unfold is_regular; rewrite (proj1 (proj1 WA)); reflexivity).
  assert (TB : is_regular b = true) by (unfold is_regular; rewrite (proj1 (proj1 WB)); reflexivity).
  assert (TC : is_regular c = true) by (unfold is_regular; rewrite (proj1 (proj1 WC)); reflexivity).
  assert (TM : is_regular m = true) by (unfold is_regular; rewrite (proj1 (proj1 WM)); reflexivity).
  rewrite TA, TB, TC, TM. cbn [andb]. rewrite !shares_not_all by auto. rewrite E1, E2, E3. cbn [fst snd]. rewrite E4. reflexivity.
Qed.

Theorem median_whole (st : store V) (pa pb pc pm : list Z -> place -> Prop) (sha shb shc shm : list Z -> Prop) :
  any_layout a wn pa sha -> any_layout b wn pb shb -> any_layout c wn pc shc -> walk_layout m wn pm shm ->
  is_regular a && is_regular b && is_regular c && is_regular m = false ->
  mlo = repeat 1 (length (dims (ga_desc m))) -> mhi = dims (ga_desc m) ->
  copyable guess near wn pre rnda smp false a m pa pm alo ahi mlo mhi ->
  copyable guess near wn pre rndb smp false b m pb pm blo bhi mlo mhi ->
  copyable guess near wn pre rndc smp false c m pc pm clo chi mlo mhi ->
  allocated pa (st ha) -> allocated pb (st hb) -> allocated pc (st hc) -> allocated pm (st hm) ->
  allocated pm (st ta) -> allocated pm (st tb) -> allocated pm (st tc) ->
  mresult f g guess near wn pre rnda rndb rndc smp t ta tb tc ha hb hc hm a b c m alo ahi blo bhi clo chi mlo mhi pa pb pc pm st.
Proof.
  intros LA LB LC LM NR E1 E2 CA CB CC AA AB AC AM ATa ATb ATc.
  destruct (procs_fuel (fun fuel me => median_blocks fuel guess (near me) wn t [ta; tb; tc] hm m me)
     (fun me l => exists w, abs_rank m me = Some w /\ marked (zips (map (all_at pm) [ta; tb; tc]) hm pm) (fun x => in_box mlo mhi x /\ exists ad, pm x (w, ad)) l)
     (zseq 0 (Z.to_nat wn))) as (ls & nl & EL & FL).
  { intros me Hme. apply zseq_In in Hme. assert (Hm : 0 <= me < ga_nproc m) by (clear - Hme NM Hw; lia).
    destruct (median_blocks_proc guess (near me) wn t [ta; tb; tc] hm m me me pm shm Ht) as (l & k & X & Y); auto.
    { apply world_rank, GM. }
    exists l, k. split; [exact X|]. exists me. split; [apply world_rank, GM|]. eapply marked_ext; [|exact Y].
    intros x. rewrite E1, E2. rewrite whole_box. tauto. }
  assert (ML : marked (zips (map (all_at pm) [ta; tb; tc]) hm pm) (in_box mlo mhi) (concat ls)).
  { apply (whole_marked _ m wn pm shm); [apply LM| |rewrite NM; exact FL]. intros x Hx. eapply patch_in; eauto. }
  eapply (median_runs f g guess near wn pre rnda rndb rndc smp t ta tb tc ha hb hc hm a b c m alo ahi blo bhi clo chi mlo mhi) with (ls := ls) (nl := nl)
    (last := fun me fuel => median_blocks fuel guess (near me) wn t [ta; tb; tc] hm m me); eauto; try apply LM.
  intros me fuel e e' e'' l X1 X2 X3 X4. unfold mrun, median_patch. cbv zeta. rewrite mchecks by auto. rewrite NR, X1, X2, X3, X4. reflexivity.
Qed.
End Use.
