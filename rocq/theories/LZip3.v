(** Lemmas: the elementwise operations on two arrays, phase by phase. *)
From Verif Require Import LRadix LDist LStrided LStrided2 LIterReg LIterReg3 LIterSca LStore LXfer LXfer2 LLoc LAccess LSelect LSelect2 LOdo LGcopy5.
From Verif Require Export LZip2.
Open Scope Z_scope.

Section Patch.
Context {V : Type} (f : list bool -> list V -> option V) (g : V -> V -> option V).
Variables (guess : Z -> Z -> Z -> Z) (near : Z -> Z -> bool) (wn : Z) (pre : Z -> option Z)
          (rnda rndb : Z -> lpiece -> Z -> Z) (smp : Z -> Z -> bool) (t : elt) (ta tb ha hb hc : Z) (a b c : garray)
          (alo ahi blo bhi clo chi : list Z).
Hypotheses (HG : good_guess guess) (HNear : forall me, near me me = true) (Ht : listed_type t = true)
  (EAB : ga_elemsize a = ga_elemsize b) (EAC : ga_elemsize a = ga_elemsize c)
  (GA : ga_group a = None) (GB : ga_group b = None) (GC : ga_group c = None)
  (NA : ga_nproc a = wn) (NB : ga_nproc b = wn) (NC : ga_nproc c = wn) (Hw : 1 <= wn)
  (PA : patch_of (dims (ga_desc a)) alo ahi) (PB : patch_of (dims (ga_desc b)) blo bhi) (PC : patch_of (dims (ga_desc c)) clo chi)
  (ZA : zprod (extents alo ahi) = zprod (extents clo chi)) (ZB : zprod (extents blo bhi) = zprod (extents clo chi))
  (T1 : ta <> tb) (T2 : ta <> ha /\ ta <> hb /\ ta <> hc) (T3 : tb <> ha /\ tb <> hb /\ tb <> hc).

Definition erun (me : Z) fuel :=
  elem2_patch fuel guess (near me) wn me (pre me) (rnda me) (rndb me) (smp me) t ta tb ha hb hc a b c me me me alo ahi blo bhi clo chi.
Definition epost (pa pb pc : list Z -> place -> Prop) (st : store V) (r : option (store V)) : Prop :=
  match r with
  | Some st' => zipped2 g pa pb pc alo ahi blo bhi clo chi (st ha) (st hb) (st hc) (st' hc) /\ forall k, k <> hc -> k <> ta -> k <> tb -> st' k = st k
  | None => undefined2 g pa pb alo ahi blo bhi clo chi (st ha) (st hb)
  end.
Definition eresult (pa pb pc : list Z -> place -> Prop) (st : store V) : Prop :=
  exists progs k n,
    Forall2 (fun me pr => length pr = k /\ forall fuel, (n <= fuel)%nat -> erun me fuel = Some pr) (zseq 0 (Z.to_nat wn)) progs /\
    every_run (zstep f) st (phases_of k progs) (epost pa pb pc st).
Lemma echecks : negb (ga_elemsize a =? ga_elemsize b) || negb (ga_elemsize a =? ga_elemsize c)
     || negb (patch_inside (dims (ga_desc a)) alo ahi) || negb (patch_inside (dims (ga_desc b)) blo bhi)
     || negb (patch_inside (dims (ga_desc c)) clo chi)
     || negb (zprod (extents alo ahi) =? zprod (extents clo chi)) || negb (zprod (extents blo bhi) =? zprod (extents clo chi)) = false.
Proof.
  rewrite EAB, ZA, ZB, !Z.eqb_refl. rewrite <- EAB, EAC, Z.eqb_refl. rewrite !inside_true by auto. reflexivity.
Qed.

Section Regular.
Hypotheses (WA : wf_array a) (WB : wf_array b) (WC : wf_array c)
  (RA : length (dims (ga_desc a)) = length (dims (ga_desc c)) \/ differ alo ahi clo chi)
  (RB : length (dims (ga_desc b)) = length (dims (ga_desc c)) \/ differ blo bhi clo chi)
  (WDA : aligned a c alo ahi clo chi -> ga_width a = ga_width c)
  (WDB : aligned b c blo bhi clo chi -> ga_width b = ga_width c)
  (SAC : ha = hc -> a = c) (SBC : hb = hc -> b = c)
  (OV : ha = hc -> (alo = clo /\ ahi = chi) \/ forall x, in_box alo ahi x -> in_box clo chi x -> False)
  (CA : copyable guess near wn pre rnda smp false a c (reg_place a) (reg_place c) alo ahi clo chi)
  (CA' : ha = hc -> (forall x, in_box alo ahi x -> in_box clo chi x -> False) ->
         copyable guess near wn pre rnda smp true a c (reg_place a) (reg_place c) alo ahi clo chi)
  (CB : copyable guess near wn pre rndb smp false b c (reg_place b) (reg_place c) blo bhi clo chi).
(** The operation may depend on whether an operand is the destination: the cases
    that occur. *)
Hypothesis HF : forall al bl u v,
  (al = true -> ha = hc \/ (hb <> hc /\ ~ aligned a c alo ahi clo chi)) -> (bl = true -> hb = hc) -> f [al; bl] [u; v] = g u v.

Lemma compat_iff d dlo dhi : wf_array d -> ga_nproc d = wn -> patch_of (dims (ga_desc d)) dlo dhi ->
  (length (dims (ga_desc d)) = length (dims (ga_desc c)) \/ differ dlo dhi clo chi) ->
  exists b, compat wn d c dlo dhi clo chi = Some b /\
    (b = true -> length (dims (ga_desc d)) = length (dims (ga_desc c)) /\ aligned d c dlo dhi clo chi) /\
    (b = false -> ~ aligned d c dlo dhi clo chi).
Proof.
  intros WD ND PD RD. destruct (compat_total wn d c dlo dhi clo chi WD WC ND NC) as (b0 & E & X). exists b0. split; [exact E|]. split.
  - intros ->. eapply compat_aligned; eauto.
  - intros -> (E1 & E2 & HD). unfold compat in E.
    destruct (patch_lens _ _ _ PD) as [D1 D2]. destruct (patch_lens _ _ _ PC) as [C1 C2].
    assert (Y : mapM (fun p => do da <- distribution (ga_desc d) p; do dc <- distribution (ga_desc c) p;
       Some (comp_patch (fst da) (snd da) (fst dc) (snd dc) && comp_patch dlo dhi clo chi)) (counts wn) = Some (map (fun _ => true) (counts wn))).
    { apply LGcopy5.mapM_total. intros p Hp. apply counts_In in Hp. rewrite HD by lia. destruct (regular_blocks_inside _ _ p (proj1 WC)) as (l & h & Ed & _); [lia|].
      rewrite Ed. cbn [fst snd]. pose proof (dist_len _ _ _ _ (proj1 (proj1 WC)) Ed). rewrite E1, E2, !comp_patch_refl by lia. reflexivity. }
    rewrite Y in E. injection E as E. assert (Z0 : all_true (map (fun _ => true) (counts wn)) = true); [|congruence].
    clear. induction (counts wn); cbn; auto.
Qed.
Lemma reg_usable d h dlo dhi h' (p' : list Z -> place -> Prop) cp (st : store V) : wf_array d -> patch_of (dims (ga_desc d)) dlo dhi ->
  zprod (extents dlo dhi) = zprod (extents clo chi) -> allocated (reg_place d) (st h) ->
  match cp with
  | Some ess => p' = reg_place c /\ allocated (reg_place c) (st h') /\
      (h' <> h \/ (reg_place d = reg_place c /\ forall x, in_box dlo dhi x -> in_box clo chi x -> False)) /\
      labelled (target false dlo dhi clo chi) (reg_place d) (reg_place c) (in_box dlo dhi) (concat ess)
  | None => p' = reg_place d /\ h' = h /\ dlo = clo /\ dhi = chi
  end -> usable clo chi (reg_place c) st (Operand h (reg_place d) dlo dhi h' p' cp).
Proof.
  intros WD PD ZD AD HC. destruct (reg_funs d WD) as (FD & _ & SD). unfold usable. cbn [o_h o_p o_lo o_hi o_h' o_p' o_copy].
  split; [exact FD|]. split; [exact AD|]. split; [exact ZD|]. split; [apply PD|]. split; [|exact HC]. intros y Hy. apply SD. eapply patch_in; eauto.
Qed.
Lemma aligned_twin d dlo dhi : wf_array d -> ga_group d = None -> ga_nproc d = wn -> length (dims (ga_desc d)) = length (dims (ga_desc c)) ->
  aligned d c dlo dhi clo chi -> ga_width d = ga_width c -> twin c d.
Proof. intros WD GD ND LD (_ & _ & X) WW. split; [exact WD|]. split; [exact GD|]. split; [lia|]. auto. Qed.

Lemma stage_a (st : store V) : allocated (reg_place a) (st ha) -> allocated (reg_place c) (st hc) -> allocated (reg_place c) (st ta) ->
  exists ca oa av n, compat wn a c alo ahi clo chi = Some ca /\
    o_h oa = ha /\ o_p oa = reg_place a /\ o_lo oa = alo /\ o_hi oa = ahi /\ o_p' oa = reg_place av /\ twin c av /\
    (o_copy oa = None -> o_h' oa = ha) /\ (o_copy oa <> None -> (o_h' oa = ta \/ o_h' oa = hc /\ hb <> hc)) /\
    (o_h' oa = hc -> ha = hc \/ (hb <> hc /\ ~ aligned a c alo ahi clo chi)) /\ (o_h' oa = hc -> o_p' oa = reg_place c) /\
    usable clo chi (reg_place c) st oa /\
    match o_copy oa with
    | None => forall me fuel, (if ca then Some ([], ha, a)
                else if hb =? hc then do e <- copy_patch fuel guess (near me) wn me (pre me) (rnda me) (smp me) true false false a c me me alo ahi clo chi; Some ([zcopies ta ha e], ta, c)
                else do e <- copy_patch fuel guess (near me) wn me (pre me) (rnda me) (smp me) true false (ha =? hc) a c me me alo ahi clo chi; Some ([zcopies hc ha e], hc, c))
                = Some ([], o_h' oa, av)
    | Some ess => Forall2 (fun me e => forall fuel, (n <= fuel)%nat -> (if ca then Some ([], ha, a)
                else if hb =? hc then do e <- copy_patch fuel guess (near me) wn me (pre me) (rnda me) (smp me) true false false a c me me alo ahi clo chi; Some ([zcopies ta ha e], ta, c)
                else do e <- copy_patch fuel guess (near me) wn me (pre me) (rnda me) (smp me) true false (ha =? hc) a c me me alo ahi clo chi; Some ([zcopies hc ha e], hc, c))
                = Some ([zcopies (o_h' oa) ha e], o_h' oa, av)) (zseq 0 (Z.to_nat wn)) ess
    end.
Proof.
  intros AA AC ATa. destruct (compat_iff a alo ahi WA NA PA RA) as (ca & EC & H1 & H2). exists ca. destruct ca.
  - destruct (H1 eq_refl) as [LA AL]. pose proof AL as (E1 & E2 & _).
    exists (Operand ha (reg_place a) alo ahi ha (reg_place a) None), a, 0%nat. cbn [o_h o_p o_lo o_hi o_h' o_p' o_copy].
    do 10 (split; [reflexivity || assumption || (apply (aligned_twin a alo ahi); auto) || congruence || (intros; auto; congruence)|]).
    split; [intros E; now rewrite (SAC E)|]. split; [|reflexivity]. apply reg_usable; auto.
  - specialize (H2 eq_refl). destruct (Z.eqb_spec hb hc) as [Eb|Eb].
    + destruct CA as (ess & n & E & L). rewrite NC in E.
      exists (Operand ha (reg_place a) alo ahi ta (reg_place c) (Some ess)), c, n. cbn [o_h o_p o_lo o_hi o_h' o_p' o_copy].
      do 11 (split; [reflexivity || assumption || (apply twin_refl; auto) || congruence || (intros; auto; (congruence || intuition congruence))|]).
      split; [apply reg_usable; try assumption; split; [reflexivity|]; split; [exact ATa|]; split; [left; apply T2|exact L]|].
      eapply Forall2_weaken; [|exact E]. intros me e X fuel Hf. rewrite (X fuel Hf). reflexivity.
    + assert (CAX : (hc <> ha \/ (reg_place a = reg_place c /\ forall x, in_box alo ahi x -> in_box clo chi x -> False)) /\
              copyable guess near wn pre rnda smp (ha =? hc) a c (reg_place a) (reg_place c) alo ahi clo chi).
      { destruct (Z.eqb_spec ha hc) as [Eh|Eh].
        - destruct (OV Eh) as [[X1 X2]|X].
          + exfalso. apply H2. split; [exact X1|]. split; [exact X2|]. intros p _. rewrite (SAC Eh). reflexivity.
          + split; [right; split; [now rewrite (SAC Eh)|exact X]|apply CA'; auto].
        - split; [left; congruence|exact CA]. }
      destruct CAX as [HS (ess & n & E & L)]. rewrite NC in E.
      exists (Operand ha (reg_place a) alo ahi hc (reg_place c) (Some ess)), c, n. cbn [o_h o_p o_lo o_hi o_h' o_p' o_copy].
      do 11 (split; [reflexivity || assumption || (apply twin_refl; auto) || congruence || (intros; auto; (congruence || intuition congruence))|]).
      split; [apply reg_usable; try assumption; split; [reflexivity|]; split; [exact AC|]; split; [exact HS|exact L]|].
      eapply Forall2_weaken; [|exact E]. intros me e X fuel Hf. rewrite (X fuel Hf). reflexivity.
Qed.
Lemma stage_b (st : store V) : allocated (reg_place b) (st hb) -> allocated (reg_place c) (st tb) ->
  exists cb ob bv n, compat wn b c blo bhi clo chi = Some cb /\
    o_h ob = hb /\ o_p ob = reg_place b /\ o_lo ob = blo /\ o_hi ob = bhi /\ o_p' ob = reg_place bv /\ twin c bv /\
    (o_copy ob = None -> o_h' ob = hb) /\ (o_copy ob <> None -> o_h' ob = tb) /\ (o_h' ob = hc -> hb = hc /\ o_p' ob = reg_place c) /\
    usable clo chi (reg_place c) st ob /\
    match o_copy ob with
    | None => forall me fuel, (if cb then Some ([], hb, b) else do e <- copy_patch fuel guess (near me) wn me (pre me) (rndb me) (smp me) true false false b c me me blo bhi clo chi; Some ([zcopies tb hb e], tb, c))
                = Some ([], o_h' ob, bv)
    | Some ess => Forall2 (fun me e => forall fuel, (n <= fuel)%nat ->
        (if cb then Some ([], hb, b) else do e <- copy_patch fuel guess (near me) wn me (pre me) (rndb me) (smp me) true false false b c me me blo bhi clo chi; Some ([zcopies tb hb e], tb, c))
                = Some ([zcopies (o_h' ob) hb e], o_h' ob, bv)) (zseq 0 (Z.to_nat wn)) ess
    end.
Proof.
  intros AB ATb. destruct (compat_iff b blo bhi WB NB PB RB) as (cb & EC & H1 & H2). exists cb. destruct cb.
  - destruct (H1 eq_refl) as [LB AL]. pose proof AL as (E1 & E2 & _).
    exists (Operand hb (reg_place b) blo bhi hb (reg_place b) None), b, 0%nat. cbn [o_h o_p o_lo o_hi o_h' o_p' o_copy].
    do 9 (split; [reflexivity || assumption || (apply (aligned_twin b blo bhi); auto) || congruence || (intros; auto; congruence)|]).
    split; [intros E; split; [exact E|now rewrite (SBC E)]|]. split; [|reflexivity]. apply reg_usable; auto.
  - destruct CB as (ess & n & E & L). rewrite NC in E.
    exists (Operand hb (reg_place b) blo bhi tb (reg_place c) (Some ess)), c, n. cbn [o_h o_p o_lo o_hi o_h' o_p' o_copy].
    do 10 (split; [reflexivity || assumption || (apply twin_refl; auto) || congruence || (intros; auto; (congruence || intuition congruence))|]).
    split; [apply reg_usable; try assumption; split; [reflexivity|]; split; [exact ATb|]; split; [left; apply T3|exact L]|].
    eapply Forall2_weaken; [|exact E]. intros me e X fuel Hf. rewrite (X fuel Hf). reflexivity.
Qed.

Theorem elem2_regular (st : store V) :
  allocated (reg_place a) (st ha) -> allocated (reg_place b) (st hb) -> allocated (reg_place c) (st hc) ->
  allocated (reg_place c) (st ta) -> allocated (reg_place c) (st tb) ->
  eresult (reg_place a) (reg_place b) (reg_place c) st.
Proof.
  intros AA AB AC ATa ATb. destruct (reg_funs c WC) as (FC & IC & SC). destruct (patch_lens _ _ _ PC) as [C1 C2].
  assert (TA : is_regular a = true) by (unfold is_regular; rewrite (proj1 (proj1 WA)); reflexivity).
  assert (TB : is_regular b = true) by (unfold is_regular; rewrite (proj1 (proj1 WB)); reflexivity).
  assert (TC : is_regular c = true) by (unfold is_regular; rewrite (proj1 (proj1 WC)); reflexivity).
  destruct (stage_a st AA AC ATa) as (ca & oa & av & na & ECA & A1 & A2 & A3 & A4 & A5 & A6 & A7 & A8 & A9 & A10 & A11 & A12).
  destruct (stage_b st AB ATb) as (cb & ob & bv & nb & ECB & B1 & B2 & B3 & B4 & B5 & B6 & B7 & B8 & B9 & B10 & B11).
  destruct (procs_fuel (fun _ me => elem2_local guess (near me) me t (o_h' oa) av (o_h' ob) bv hc c clo chi)
     (fun me l => exists w, abs_rank c me = Some w /\ marked (zips (map placed_at [(o_h' oa, av); (o_h' ob, bv)]) hc (reg_place c)) (fun x => in_box clo chi x /\ exists ad, reg_place c x (w, ad)) l)
     (zseq 0 (Z.to_nat wn))) as (ls & nl & EL & FL).
  { intros me Hme. apply zseq_In in Hme. destruct (elem2_local_marked guess (near me) me hc c clo chi HG WC GC (HNear me) ltac:(lia) C1 ltac:(lia) t (o_h' oa) av (o_h' ob) bv Ht A6 B6) as (l & X & Y).
    exists l, 0%nat. split; [auto|]. exists me. split; [apply world_rank, GC|exact Y]. }
  assert (ML : marked (zips (map placed_at [(o_h' oa, av); (o_h' ob, bv)]) hc (reg_place c)) (in_box clo chi) (concat ls)).
  { apply (whole_marked _ c wn (reg_place c) (reg_shape c)); [left; auto| |rewrite NC; exact FL]. intros x Hx. eapply patch_in; eauto. }
  set (Ra := fun me e => forall fuel, (na <= fuel)%nat -> (if ca then Some ([], ha, a)
                else if hb =? hc then do e <- copy_patch fuel guess (near me) wn me (pre me) (rnda me) (smp me) true false false a c me me alo ahi clo chi; Some ([zcopies ta ha e], ta, c)
                else do e <- copy_patch fuel guess (near me) wn me (pre me) (rnda me) (smp me) true false (ha =? hc) a c me me alo ahi clo chi; Some ([zcopies hc ha e], hc, c))
                = Some ([zcopies (o_h' oa) ha e], o_h' oa, av)).
  set (Rb := fun me e => forall fuel, (nb <= fuel)%nat -> (if cb then Some ([], hb, b) else do e <- copy_patch fuel guess (near me) wn me (pre me) (rndb me) (smp me) true false false b c me me blo bhi clo chi; Some ([zcopies tb hb e], tb, c))
                = Some ([zcopies (o_h' ob) hb e], o_h' ob, bv)).
  destruct (zip_all f clo chi hc (reg_place c) (zseq 0 (Z.to_nat wn)) [(oa, Ra); (ob, Rb)]
     (fun me l => forall fuel, (nl <= fuel)%nat -> elem2_local guess (near me) me t (o_h' oa) av (o_h' ob) bv hc c clo chi = Some l) ls
     (fun vs => f [o_h' oa =? hc; o_h' ob =? hc] vs) st) as (progs & k & FP & ER); auto.
  - apply PC.
  - intros o [<-|[<-|[]]]; auto.
  - cbn [map fst]. constructor; [|constructor; [constructor|constructor]]. constructor; [|constructor]. split.
    + intros X. destruct (A8 X) as [E|[E E']]; rewrite E, B1.
      * split; [apply T2|]. destruct (o_copy ob) eqn:Eo; [rewrite B8 by congruence; exact T1|rewrite B7 by reflexivity; apply T2].
      * split; [congruence|]. destruct (o_copy ob) eqn:Eo; [rewrite B8 by congruence; intuition congruence|rewrite B7 by reflexivity; congruence].
    + intros X. rewrite B8 by exact X. destruct (o_copy oa) eqn:Eo; [destruct A8 as [E|[E _]]; [congruence| |]; rewrite E; intuition congruence|rewrite A7 by reflexivity; apply T3].
  - intros o [<-|[<-|[]]]; cbn [fst]; [exact A10|]. intros X. apply B9, X.
  - intros o ess [<-|[<-|[]]] Eo; cbn [fst snd] in *; [rewrite Eo in A12; exact A12|rewrite Eo in B11; exact B11].
  - cbn [map fst snd used placed_at] in *. unfold used. rewrite A5, B5. exact ML.
  - exists progs, k, (Nat.max nl (Nat.max na nb)). split.
    + eapply Forall2_weaken; [|exact FP]. intros me pr [HK HP]. split; [exact HK|]. intros fuel Hf.
      unfold erun, elem2_patch. rewrite echecks, TA, TB, TC. cbn [andb]. cbv zeta. rewrite ECA, ECB.
      cbn [prog_is fst snd] in HP. rewrite A1, B1 in HP. destruct (o_copy oa) as [cpa|], (o_copy ob) as [cpb|].
      * destruct HP as (e & rest & -> & Ha & e' & rest' & -> & Hb & l & -> & Hl). unfold Ra in Ha. unfold Rb in Hb. rewrite (Ha fuel) by lia. cbn [fst snd]. rewrite (Hb fuel) by lia. cbn [fst snd]. rewrite (Hl fuel) by lia. reflexivity.
      * destruct HP as (e & rest & -> & Ha & l & -> & Hl). unfold Ra in Ha. rewrite (Ha fuel) by lia. cbn [fst snd]. rewrite (B11 me fuel). cbn [fst snd]. rewrite (Hl fuel) by lia. reflexivity.
      * destruct HP as (e' & rest' & -> & Hb & l & -> & Hl). unfold Rb in Hb. rewrite (A12 me fuel). cbn [fst snd]. rewrite (Hb fuel) by lia. cbn [fst snd]. rewrite (Hl fuel) by lia. reflexivity.
      * destruct HP as (l & -> & Hl). rewrite (A12 me fuel). cbn [fst snd]. rewrite (B11 me fuel). cbn [fst snd]. rewrite (Hl fuel) by lia. reflexivity.
    + eapply every_run_imp; [|exact ER]. intros r HR. cbn [map fst] in HR.
      apply (outcome_zipped2 g) in HR; auto.
      * rewrite A1, A2, A3, A4, B1, B2, B3, B4 in HR. destruct r as [st'|]; [|exact HR]. destruct HR as [H1 H2]. split; [exact H1|].
        intros k' K1 K2 K3. apply H2; [exact K1| |].
        -- intros X. destruct (A8 X) as [E|[E _]]; congruence.
        -- intros X. rewrite B8 by exact X. exact K3.
      * intros u v. apply HF.
        -- intros X. apply Z.eqb_eq in X. apply A9, X.
        -- intros X. apply Z.eqb_eq in X. apply B9, X.
Qed.
End Regular.

Section Blocked.
Variables (pa pb pc : list Z -> place -> Prop) (sha shb shc : list Z -> Prop).
Hypotheses (LA : any_layout a wn pa sha) (LB : any_layout b wn pb shb) (LC : walk_layout c wn pc shc)
  (NR : is_regular a && is_regular b && is_regular c = false)
  (CA : copyable guess near wn pre rnda smp false a c pa pc alo ahi clo chi)
  (CB : copyable guess near wn pre rndb smp false b c pb pc blo bhi clo chi)
  (HF : forall u v, f [false; false] [u; v] = g u v).

Lemma any_usable d h dlo dhi h' (pd : list Z -> place -> Prop) sd ess (st : store V) : any_layout d wn pd sd -> patch_of (dims (ga_desc d)) dlo dhi ->
  zprod (extents dlo dhi) = zprod (extents clo chi) -> allocated pd (st h) -> allocated pc (st h') -> h' <> h ->
  labelled (target false dlo dhi clo chi) pd pc (in_box dlo dhi) (concat ess) ->
  usable clo chi pc st (Operand h pd dlo dhi h' pc (Some ess)).
Proof.
  intros LD PD ZD AD AC HN HL. destruct (any_storage _ _ _ _ LD) as (al & SD & FD & _). unfold usable. cbn [o_h o_p o_lo o_hi o_h' o_p' o_copy].
  split; [exact FD|]. split; [exact AD|]. split; [exact ZD|]. split; [apply PD|]. split; [intros y Hy; apply SD; eapply patch_in; eauto|]. auto.
Qed.

Theorem elem2_blocked (st : store V) :
  allocated pa (st ha) -> allocated pb (st hb) -> allocated pc (st hc) -> allocated pc (st ta) -> allocated pc (st tb) ->
  eresult pa pb pc st.
Proof.
  intros AA AB AC ATa ATb. destruct (any_storage _ _ _ _ (proj1 LC)) as (cl & _ & FC & IC & _).
  destruct CA as (ess & n & E1 & L1). rewrite NC in E1. destruct CB as (essb & nb & E2 & L2). rewrite NC in E2.
  destruct (procs_fuel (fun fuel me => elem2_blocks fuel guess (near me) wn t ta tb hc c me clo chi)
     (fun me l => exists w, abs_rank c me = Some w /\ marked (zips (map (all_at pc) [ta; tb]) hc pc) (fun x => in_box clo chi x /\ exists ad, pc x (w, ad)) l)
     (zseq 0 (Z.to_nat wn))) as (ls & nl & EL & FL).
  { intros me Hme. apply zseq_In in Hme. destruct (elem2_blocks_proc guess (near me) wn t ta tb hc c me me clo chi pc shc Ht) as (l & k & X & Y); auto; try lia.
    { apply world_rank, GC. }
    exists l, k. split; [exact X|]. exists me. split; [apply world_rank, GC|exact Y]. }
  assert (ML : marked (zips (map (all_at pc) [ta; tb]) hc pc) (in_box clo chi) (concat ls)).
  { apply (whole_marked _ c wn pc shc); [apply LC| |rewrite NC; exact FL]. intros x Hx. eapply patch_in; eauto. }
  set (oa := Operand ha pa alo ahi ta pc (Some ess)). set (ob := Operand hb pb blo bhi tb pc (Some essb)).
  assert (UA : usable clo chi pc st oa) by (eapply any_usable; eauto; apply T2).
  assert (UB : usable clo chi pc st ob) by (eapply any_usable; eauto; apply T3).
  destruct (zip_all f clo chi hc pc (zseq 0 (Z.to_nat wn))
     [(oa, fun me es => forall fuel, (n <= fuel)%nat -> copy_patch fuel guess (near me) wn me (pre me) (rnda me) (smp me) true false false a c me me alo ahi clo chi = Some es);
      (ob, fun me es => forall fuel, (nb <= fuel)%nat -> copy_patch fuel guess (near me) wn me (pre me) (rndb me) (smp me) true false false b c me me blo bhi clo chi = Some es)]
     (fun me l => forall fuel, (nl <= fuel)%nat -> elem2_blocks fuel guess (near me) wn t ta tb hc c me clo chi = Some l) ls
     (fun vs => f [false; false] vs) st) as (progs & k & FP & ER); auto.
  - apply PC.
  - intros o [<-|[<-|[]]]; auto.
  - cbn [map fst]. constructor; [|constructor; [constructor|constructor]]. constructor; [|constructor]. unfold apart, oa, ob. cbn. intuition congruence.
  - intros o [<-|[<-|[]]]; reflexivity.
  - intros vs. cbn [map fst o_h' oa ob]. destruct (Z.eqb_spec ta hc), (Z.eqb_spec tb hc); try (intuition congruence).
  - intros o ess' [<-|[<-|[]]] Eo; cbn [fst snd o_copy oa ob] in *; injection Eo as <-; assumption.
  - exists progs, k, (Nat.max nl (Nat.max n nb)). split.
    + eapply Forall2_weaken; [|exact FP]. intros me pr [HK HP]. split; [exact HK|]. intros fuel Hf.
      unfold erun, elem2_patch. rewrite echecks, NR. cbv zeta.
      cbn [prog_is fst snd o_copy o_h o_h' oa ob] in HP. destruct HP as (e & rest & -> & Ha & e' & rest' & -> & Hb & l & -> & Hl).
      rewrite (Ha fuel), (Hb fuel), (Hl fuel) by lia. reflexivity.
    + eapply every_run_imp; [|exact ER]. intros r HR. cbn [map fst] in HR. apply (outcome_zipped2 g) in HR; auto.
      cbn [o_h o_p o_lo o_hi o_h' o_copy oa ob] in HR. destruct r as [st'|]; [|exact HR]. destruct HR as [H1 H2]. split; [exact H1|]. auto.
Qed.
End Blocked.
End Patch.
