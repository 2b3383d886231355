(** Lemmas: operations on the corresponding elements of several arrays. *)
From Verif Require Import LRadix LDist LStrided LStrided2 LStore LXfer LXfer2 LAccess LGcopy5.
From Verif Require Export LAdd3 MZip.
Open Scope Z_scope.

(** ---- runs ---- *)
Lemma every_run_cons {S E} (step : S -> E -> option S) s ph rest (P : S -> Prop) (Q : option S -> Prop) :
  (forall es, Permutation ph es -> exists s', run_elems step s es = Some s' /\ P s') ->
  (forall s', P s' -> every_run step s' rest Q) -> every_run step s (ph :: rest) Q.
Proof. intros H1 H2 es HP. destruct (H1 es HP) as (s' & E1 & X). rewrite E1. auto. Qed.
Lemma every_run_imp {S E} (step : S -> E -> option S) phs : forall s (P Q : option S -> Prop),
  (forall r, P r -> Q r) -> every_run step s phs P -> every_run step s phs Q.
Proof.
  induction phs as [|ph phs IH]; intros s P Q H HR; cbn in *; [auto|]. intros es HP. specialize (HR es HP).
  destruct (run_elems step s es); [|auto]. eapply IH; eauto.
Qed.

Lemma place_eqb_refl q : place_eqb q q = true.
Proof. unfold place_eqb. rewrite !Z.eqb_refl. reflexivity. Qed.

Section Run.
Context {V : Type} (f : list bool -> list V -> option V).
Notation zs := (zstep f).
Notation "'placing'" := (list Z -> place -> Prop) (only parsing).

(** ---- copies ---- *)
Lemma zcopies_run hd hs es : hd <> hs -> forall (st : store V) m', run_elems (MGcopy.copy_elem (st hs)) (st hd) es = Some m' ->
  exists st', run_elems zs st (zcopies hd hs es) = Some st' /\ st' hd = m' /\ forall k, k <> hd -> st' k = st k.
Proof.
  intros HN. induction es as [|e es IH]; intros st m' H.
  { injection H as <-. exists st. auto. }
  cbn [run_elems zcopies map zstep] in *. unfold MGcopy.copy_elem at 1 in H.
  destruct (hget (st hs) (snd e)) as [v|]; [|discriminate]. destruct (hget (st hd) (fst e)) as [u|]; [|discriminate].
  destruct (IH (sset st hd (fst e) v) m') as (st' & E1 & E2 & E3).
  { rewrite sset_same, sset_other by congruence. exact H. }
  exists st'. split; [exact E1|]. split; [exact E2|]. intros k Hk. rewrite E3 by exact Hk. apply sset_other, Hk.
Qed.
Lemma zcopies_self h es : forall (st : store V) m', run_elems self_elem (st h) es = Some m' ->
  exists st', run_elems zs st (zcopies h h es) = Some st' /\ st' h = m' /\ forall k, k <> h -> st' k = st k.
Proof.
  induction es as [|e es IH]; intros st m' H.
  { injection H as <-. exists st. auto. }
  cbn [run_elems zcopies map zstep] in *. unfold self_elem at 1, MGcopy.copy_elem at 1 in H.
  destruct (hget (st h) (snd e)) as [v|]; [|discriminate]. destruct (hget (st h) (fst e)) as [u|]; [|discriminate].
  destruct (IH (sset st h (fst e) v) m') as (st' & E1 & E2 & E3).
  { rewrite sset_same. exact H. }
  exists st'. split; [exact E1|]. split; [exact E2|]. intros k Hk. rewrite E3 by exact Hk. apply sset_other, Hk.
Qed.
Lemma sset_keeps (st : store V) k p v h q : hget (st h) q <> None -> hget (sset st k p v h) q <> None.
Proof.
  intros H. destruct (Z.eq_dec h k) as [->|Hk]; [|rewrite sset_other by exact Hk; exact H].
  rewrite sset_same. destruct (place_dec p q) as [<-|Hd]; [rewrite hget_hset_same; discriminate|rewrite hget_hset_other by congruence; exact H].
Qed.
Lemma zrun_keeps es : forall (st st' : store V), run_elems zs st es = Some st' -> forall h q, hget (st h) q <> None -> hget (st' h) q <> None.
Proof.
  induction es as [|e es IH]; intros st st' H h q Hq; cbn [run_elems] in H; [injection H as <-; exact Hq|].
  destruct (zs st e) as [st1|] eqn:E; [|discriminate]. apply (IH st1 st' H). clear IH H. destruct e; cbn [zstep] in E.
  - destruct (hget (st hs) ps); [|discriminate]. destruct (hget (st hd) pd); [|discriminate]. injection E as <-. now apply sset_keeps.
  - destruct (mapM _ ss); [|discriminate]. destruct (hget (st hc) pc); [|discriminate]. destruct (f _ _); [|discriminate]. injection E as <-. now apply sset_keeps.
Qed.
Lemma zcopy_phase (hd hs : Z) (pa pc : placing) alo ahi clo chi ess (st : store V) :
  (forall x q q', pa x q -> pa x q' -> q = q') -> (forall x q q', pc x q -> pc x q' -> q = q') -> (forall x y q, pc x q -> pc y q -> x = y) ->
  allocated pa (st hs) -> allocated pc (st hd) -> Forall2 Z.le clo chi -> zprod (extents alo ahi) = zprod (extents clo chi) ->
  hd <> hs \/ (pa = pc /\ forall x, in_box alo ahi x -> in_box clo chi x -> False) ->
  labelled (target false alo ahi clo chi) pa pc (in_box alo ahi) (concat ess) ->
  forall es, Permutation (concat (map (zcopies hd hs) ess)) es ->
    exists st', run_elems zs st es = Some st' /\ copy_done hd hs (corresponds false alo ahi clo chi) pa pc st st'.
Proof.
  intros FA FC IC AA AC HC EZ HS HL es HP.
  assert (CM : concat (map (zcopies hd hs) ess) = zcopies hd hs (concat ess)) by (unfold zcopies; rewrite concat_map; reflexivity).
  rewrite CM in HP. unfold zcopies in HP. apply Permutation_sym, Permutation_map_inv in HP as (es' & -> & HP).
  assert (L' : labelled (target false alo ahi clo chi) pa pc (in_box alo ahi) es') by (eapply labelled_perm; eauto).
  destruct (labelled_patch (V := V) false alo ahi clo chi pa pc (st hs) (st hd) es') as (m' & E & C); auto.
  destruct HS as [HS|[-> HS]].
  - destruct (zcopies_run hd hs es' HS st m' E) as (st' & E1 & E2 & E3). exists st'. split; [exact E1|].
    split; [rewrite E2; exact C|]. split; [exact E3|]. apply (zrun_keeps _ _ _ E1).
  - destruct (Z.eq_dec hd hs) as [->|Hne].
    + rewrite <- (labelled_self false alo ahi clo chi pc (st hs) es') in E by auto.
      destruct (zcopies_self hs es' st m' E) as (st' & E1 & E2 & E3). exists st'. split; [exact E1|].
      split; [rewrite E2; exact C|]. split; [exact E3|]. apply (zrun_keeps _ _ _ E1).
    + destruct (zcopies_run hd hs es' Hne st m' E) as (st' & E1 & E2 & E3). exists st'. split; [exact E1|].
      split; [rewrite E2; exact C|]. split; [exact E3|]. apply (zrun_keeps _ _ _ E1).
Qed.

(** ---- the combinations ---- *)
Definition ops := list (Z * placing).
Definition zips (ss : ops) (hc : Z) (pc : placing) (x : list Z) (e : zop) : Prop :=
  exists qs qc, Forall2 (fun (s : Z * placing) q => snd s x q) ss qs /\ pc x qc /\ e = ZOp hc qc (combine (map fst ss) qs).
Definition holds (st : store V) (x : list Z) (s : Z * placing) (v : V) : Prop := exists q, snd s x q /\ hget (st (fst s)) q = Some v.
Definition alias (ss : ops) (hc : Z) : list bool := map (fun s => fst s =? hc) ss.

Lemma holds_fetch (st : store V) x (ss : ops) : (forall s, In s ss -> allocated (snd s) (st (fst s))) ->
  forall qs, Forall2 (fun (s : Z * placing) q => snd s x q) ss qs ->
  exists vs, mapM (fun s => hget (st (fst s)) (snd s)) (combine (map fst ss) qs) = Some vs /\ Forall2 (holds st x) ss vs.
Proof.
  intros HA qs H. induction H as [|s q ss qs Hq F IH]; [exists []; split; [reflexivity|constructor]|].
  destruct (IH (fun s H => HA s (or_intror H))) as (vs & E & F'). pose proof (HA s (or_introl eq_refl) x q Hq) as D.
  cbn [map combine mapM fst snd]. destruct (hget (st (fst s)) q) as [v|] eqn:Ev; [|congruence]. rewrite E.
  exists (v :: vs). split; [reflexivity|]. constructor; [exists q; auto|exact F'].
Qed.
Lemma alias_ok (hc : Z) (pc : placing) x qc (ss : ops) : (forall x q q', pc x q -> pc x q' -> q = q') -> pc x qc ->
  (forall s, In s ss -> fst s = hc -> snd s = pc) ->
  forall qs, Forall2 (fun (s : Z * placing) q => snd s x q) ss qs ->
  map (fun s => (fst s =? hc) && place_eqb (snd s) qc) (combine (map fst ss) qs) = alias ss hc.
Proof.
  intros FC Hc HS qs H. unfold alias. induction H as [|s q ss qs Hq F IH]; [reflexivity|]. cbn [map combine fst snd]. f_equal.
  - destruct (Z.eqb_spec (fst s) hc) as [E|E]; [|reflexivity]. rewrite (HS s (or_introl eq_refl) E) in Hq. rewrite (FC _ _ _ Hq Hc).
    rewrite place_eqb_refl. reflexivity.
  - apply IH. intros s' Hs'. apply HS. now right.
Qed.

Lemma zips_run (ss : ops) hc (pc : placing) (D : list Z -> Prop) es (st : store V) :
  (forall x q q', pc x q -> pc x q' -> q = q') -> (forall x y q, pc x q -> pc y q -> x = y) ->
  (forall s, In s ss -> fst s = hc -> snd s = pc) ->
  (forall s, In s ss -> allocated (snd s) (st (fst s))) -> allocated pc (st hc) -> marked (zips ss hc pc) D es ->
  match run_elems zs st es with
  | Some st' =>
      (forall x qc, D x -> pc x qc -> exists vs v, Forall2 (holds st x) ss vs /\ f (alias ss hc) vs = Some v /\ hget (st' hc) qc = Some v) /\
      (forall q, (forall x, D x -> ~ pc x q) -> hget (st' hc) q = hget (st hc) q) /\ (forall k, k <> hc -> st' k = st k)
  | None => exists x vs, D x /\ Forall2 (holds st x) ss vs /\ f (alias ss hc) vs = None
  end.
Proof.
  intros FC IC SS AS AC (l & -> & N & I & J).
  assert (X : match run_elems zs st (map fst l) with
  | Some st' =>
      (forall x qc, In x (map snd l) -> pc x qc -> exists vs v, Forall2 (holds st x) ss vs /\ f (alias ss hc) vs = Some v /\ hget (st' hc) qc = Some v) /\
      (forall q, (forall x, In x (map snd l) -> ~ pc x q) -> hget (st' hc) q = hget (st hc) q) /\ (forall k, k <> hc -> st' k = st k)
  | None => exists x vs, In x (map snd l) /\ Forall2 (holds st x) ss vs /\ f (alias ss hc) vs = None
  end).
  2:{ destruct (run_elems zs st (map fst l)) as [st'|].
      - destruct X as (E2 & E3 & E4). split; [|split; [|exact E4]].
        + intros x qc Hx. apply E2. apply I, Hx.
        + intros q Hq. apply E3. intros x Hx. apply Hq, I, Hx.
      - destruct X as (x & vs & Hx & X). exists x, vs. split; [apply I, Hx|exact X]. }
  clear I. revert st AS AC. induction l as [|[e x] l IH]; intros st AS AC.
  { cbn. split; [intros ? ? []|]. split; reflexivity. }
  cbn [map fst snd] in *. apply NoDup_cons_iff in N as [Hn N].
  destruct (J e x (or_introl eq_refl)) as (qs & qc & Hq & Hc & ->). cbn [run_elems zstep].
  destruct (holds_fetch st x ss AS qs Hq) as (vs & Ev & Hv). rewrite Ev. pose proof (AC x qc Hc) as DC.
  destruct (hget (st hc) qc) as [u|] eqn:Vc; [|congruence]. rewrite (alias_ok hc pc x qc ss FC Hc SS qs Hq).
  destruct (f (alias ss hc) vs) as [v|] eqn:Ef.
  2:{ exists x, vs. split; [now left|]. auto. }
  set (st1 := sset st hc qc v).
  assert (KEEP : forall y s w, In s ss -> y <> x -> holds st1 y s w -> holds st y s w).
  { intros y s w Hs Hy (q & Hq' & Hw). exists q. split; [exact Hq'|]. rewrite <- Hw. unfold st1. destruct (Z.eq_dec (fst s) hc) as [Es|Es].
    - rewrite Es, sset_same. symmetry. apply hget_hset_other. intros ->. apply Hy. rewrite (SS s Hs Es) in Hq'. eapply IC; eauto.
    - rewrite sset_other by exact Es. reflexivity. }
  assert (KEEPS : forall y ws, y <> x -> Forall2 (holds st1 y) ss ws -> Forall2 (holds st y) ss ws).
  { intros y ws Hy. clear - KEEP Hy. revert ws. induction ss as [|s ss' IH']; intros ws H; inversion H; subst; constructor.
    - apply KEEP; auto. now left.
    - apply IH'; auto. intros y' s' w' Hs'. apply KEEP. now right. }
  assert (ALL : forall h (p : placing), allocated p (st h) -> allocated p (st1 h)).
  { intros h p A y q Hp. apply sset_keeps, (A y q Hp). }
  specialize (IH N (fun e x H => J e x (or_intror H)) st1 (fun s H => ALL _ _ (AS s H)) (ALL _ _ AC)).
  destruct (run_elems zs st1 (map fst l)) as [st'|].
  - destruct IH as (E2 & E3 & E4). split; [|split].
    + intros y yc [<-|Hy] Hyc.
      * exists vs, v. split; [exact Hv|]. split; [exact Ef|]. rewrite (FC _ _ _ Hyc Hc).
        rewrite E3 by (intros z Hz Hzq; apply Hn; rewrite (IC _ _ _ Hc Hzq); exact Hz). unfold st1. rewrite sset_same. apply hget_hset_same.
      * assert (NE : y <> x) by (intros ->; auto). destruct (E2 y yc Hy Hyc) as (ws & w & X1 & X2 & X3). exists ws, w. auto.
    + intros q Hq'. rewrite E3 by (intros y Hy; apply Hq'; now right). unfold st1. rewrite sset_same. apply hget_hset_other.
      intros ->. apply (Hq' x); [now left|exact Hc].
    + intros k Hk. rewrite E4 by exact Hk. apply sset_other, Hk.
  - destruct IH as (y & ws & Hy & X1 & X2). exists y, ws. split; [now right|]. split; [|exact X2]. apply KEEPS; [intros ->; auto|exact X1].
Qed.
End Run.
Arguments holds {V}.

(** ---- all phases ---- *)
(** An operand as given ([o_h], [o_p], [o_lo], [o_hi]) and as used ([o_h'],
    [o_p']); [o_copy]: the elements copied from the one to the other. *)
Record operand := Operand { o_h : Z; o_p : list Z -> place -> Prop; o_lo : list Z; o_hi : list Z;
  o_h' : Z; o_p' : list Z -> place -> Prop; o_copy : option (list (list (place * place))) }.
Definition used (o : operand) : Z * (list Z -> place -> Prop) := (o_h' o, o_p' o).
(** The value of an operand for the element [x] of C. *)
Definition reads {V} (clo chi : list Z) (st : store V) (x : list Z) (o : operand) (v : V) : Prop :=
  exists y q, corresponds false (o_lo o) (o_hi o) clo chi y x /\ o_p o y q /\ hget (st (o_h o)) q = Some v.
Definition copy_phases (os : list operand) : list (list zop) :=
  flat_map (fun o => match o_copy o with Some ess => [concat (map (zcopies (o_h' o) (o_h o)) ess)] | None => [] end) os.

Section Zip.
Context {V : Type} (f : list bool -> list V -> option V).
Variables (clo chi : list Z) (hc : Z) (pc : list Z -> place -> Prop).
Hypotheses (FC : forall x q q', pc x q -> pc x q' -> q = q') (IC : forall x y q, pc x q -> pc y q -> x = y) (LE : Forall2 Z.le clo chi).

(** An operand in a state. *)
Definition usable (st : store V) (o : operand) : Prop :=
  (forall x q q', o_p o x q -> o_p o x q' -> q = q') /\ allocated (o_p o) (st (o_h o)) /\
  zprod (extents (o_lo o) (o_hi o)) = zprod (extents clo chi) /\ Forall2 Z.le (o_lo o) (o_hi o) /\
  (forall y, in_box (o_lo o) (o_hi o) y -> exists q, o_p o y q) /\
  match o_copy o with
  | Some ess => o_p' o = pc /\ allocated pc (st (o_h' o)) /\
      (o_h' o <> o_h o \/ (o_p o = pc /\ forall x, in_box (o_lo o) (o_hi o) x -> in_box clo chi x -> False)) /\
      labelled (target false (o_lo o) (o_hi o) clo chi) (o_p o) pc (in_box (o_lo o) (o_hi o)) (concat ess)
  | None => o_p' o = o_p o /\ o_h' o = o_h o /\ o_lo o = clo /\ o_hi o = chi
  end.
(** Copying [o] does not disturb an operand that is copied before or after it. *)
Definition apart (o : operand) (later : operand) : Prop :=
  (o_copy o <> None -> o_h' o <> o_h later /\ o_h' o <> o_h' later) /\ (o_copy later <> None -> o_h' later <> o_h' o).
Definition ready (st st1 : store V) (o : operand) : Prop :=
  forall x q, in_box clo chi x -> o_p' o x q -> exists v, hget (st1 (o_h' o)) q = Some v /\ reads clo chi st x o v.

Lemma source_of alo ahi x : Forall2 Z.le alo ahi -> zprod (extents alo ahi) = zprod (extents clo chi) -> in_box clo chi x ->
  exists y, corresponds false alo ahi clo chi y x.
Proof.
  intros HA EZ Hx. exists (target false clo chi alo ahi x).
  assert (C : corresponds false clo chi alo ahi x (target false clo chi alo ahi x)) by (apply target_corresponds; auto).
  destruct C as (A & B & C). split; [exact B|]. split; [exact A|]. symmetry. exact C.
Qed.

Definition off_kept (st st1 : store V) : Prop :=
  forall q, (forall x, in_box clo chi x -> ~ pc x q) -> hget (st1 hc) q = hget (st hc) q.
Definition others_kept (os : list operand) (st st1 : store V) : Prop :=
  forall k, (forall o, In o os -> o_copy o <> None -> k <> o_h' o) -> st1 k = st k.

Lemma copies_ready (os : list operand) : forall (st : store V) rest (Q : option (store V) -> Prop),
  (forall o, In o os -> usable st o) -> ForallOrdPairs apart os ->
  (forall st1, (forall o, In o os -> ready st st1 o) -> off_kept st st1 -> others_kept os st st1 ->
     (forall h q, hget (st h) q <> None -> hget (st1 h) q <> None) -> every_run (zstep f) st1 rest Q) ->
  every_run (zstep f) st (copy_phases os ++ rest) Q.
Proof.
  induction os as [|o os IH]; intros st rest Q HU HO H.
  { cbn. apply H; [intros ? []|intros q _; reflexivity|intros k _; reflexivity|auto]. }
  inversion HO as [|? ? HF HO']; subst. rewrite Forall_forall in HF.
  pose proof (HU o (or_introl eq_refl)) as (FO & AO & EZ & LO & TO & HCo). cbn [copy_phases flat_map]. fold (copy_phases os).
  destruct (o_copy o) as [ess|] eqn:EC.
  - destruct HCo as (P' & AC & HS & HL). cbn [app].
    eapply every_run_cons; [intros es HP; eapply (zcopy_phase f (o_h' o) (o_h o) (o_p o) pc (o_lo o) (o_hi o) clo chi ess st); eauto|].
    intros st1 CD. pose proof CD as ((R1 & R2) & O1 & K1).
    apply IH; [|exact HO'|].
    + intros o' Ho'. destruct (HU o' (or_intror Ho')) as (F' & A' & Z' & L' & T' & C'). destruct (HF o' Ho') as [AP1 AP2]. destruct AP1 as [AP1 AP1']; [congruence|].
      split; [exact F'|]. split; [rewrite O1 by congruence; exact A'|]. split; [exact Z'|]. split; [exact L'|]. split; [exact T'|].
      destruct (o_copy o'); [|exact C']. destruct C' as (C1 & C2 & C3). split; [exact C1|]. split; [|exact C3]. intros x q Hq. apply K1, (C2 x q Hq).
    + intros st2 RD OF OT K2. apply H.
      * intros o' [<-|Ho'].
        -- intros x q Hx Hq. rewrite P' in Hq. destruct (source_of (o_lo o) (o_hi o) x LO EZ Hx) as (y & Hy).
           destruct (TO y) as (qy & Hqy); [apply Hy|]. pose proof (AO y qy Hqy). destruct (hget (st (o_h o)) qy) as [v|] eqn:Ev; [|congruence]. exists v. split.
           ++ rewrite OT; [rewrite (R1 y x qy q Hy Hqy Hq); exact Ev|]. intros o' Ho' Hc'. destruct (HF o' Ho') as [_ AP2]. specialize (AP2 Hc'). congruence.
           ++ exists y, qy. auto.
        -- intros x q Hx Hq. destruct (RD o' Ho' x q Hx Hq) as (v & Ev & (y & qy & X1 & X2 & X3)). exists v. split; [exact Ev|]. exists y, qy.
           split; [exact X1|]. split; [exact X2|]. destruct (HF o' Ho') as [AP1 _]. destruct AP1 as [AP1 _]; [congruence|]. rewrite O1 in X3 by congruence. exact X3.
      * intros q Hq. rewrite OF by exact Hq. destruct (Z.eq_dec hc (o_h' o)) as [Eh|Eh]; [|rewrite O1 by exact Eh; reflexivity].
        rewrite Eh. apply R2. intros x y Rxy. apply Hq, Rxy.
      * intros k Hk. rewrite OT by (intros o' Ho'; apply Hk; now right). apply O1. apply Hk; [now left|congruence].
      * auto.
  - destruct HCo as (P1 & P2 & P3 & P4). cbn [app]. apply IH; [intros o' Ho'; apply HU; now right|exact HO'|].
    intros st1 RD OF OT K. apply H; auto.
    + intros o' [<-|Ho']; [|auto]. intros x q Hx Hq. rewrite P1 in Hq.
      pose proof (AO x q Hq). destruct (hget (st (o_h o)) q) as [v|] eqn:Ev; [|congruence]. exists v. split.
      * rewrite OT; [rewrite P2; exact Ev|]. intros o' Ho' Hc'. destruct (HF o' Ho') as [_ AP2]. specialize (AP2 Hc'). congruence.
      * exists x, q. rewrite P3, P4. split; [|auto]. split; [exact Hx|]. split; [exact Hx|reflexivity].
    + intros k Hk. apply OT. intros o' Ho'. apply Hk. now right.
Qed.

(** The operation on all processes. *)
Definition outcome (os : list operand) (F : list V -> option V) (st : store V) (r : option (store V)) : Prop :=
  match r with
  | Some st' =>
      (forall x qc, in_box clo chi x -> pc x qc -> exists vs v, Forall2 (reads clo chi st x) os vs /\ F vs = Some v /\ hget (st' hc) qc = Some v) /\
      off_kept st st' /\ (forall k, k <> hc -> (forall o, In o os -> o_copy o <> None -> k <> o_h' o) -> st' k = st k)
  | None => exists x vs, in_box clo chi x /\ Forall2 (reads clo chi st x) os vs /\ F vs = None
  end.
Lemma copied_alloc (st st1 : store V) o : usable st o -> (forall h q, hget (st h) q <> None -> hget (st1 h) q <> None) -> allocated (o_p' o) (st1 (o_h' o)).
Proof.
  intros (_ & A & _ & _ & _ & C) K x q Hq. apply K. destruct (o_copy o).
  - destruct C as (E & C & _). rewrite E in Hq. apply (C x q Hq).
  - destruct C as (E & -> & _). rewrite E in Hq. apply (A x q Hq).
Qed.
Theorem zip_runs (os : list operand) (F : list V -> option V) (st : store V) ph :
  (forall o, In o os -> usable st o) -> ForallOrdPairs apart os -> (forall o, In o os -> o_h' o = hc -> o_p' o = pc) ->
  allocated pc (st hc) -> (forall vs, f (map (fun o => o_h' o =? hc) os) vs = F vs) ->
  marked (zips (map used os) hc pc) (in_box clo chi) ph ->
  every_run (zstep f) st (copy_phases os ++ [ph]) (outcome os F st).
Proof.
  intros HU HO HS AC HF HM. apply copies_ready; auto. intros st1 RD OF OT K es HP.
  assert (KEEP : forall (p : list Z -> place -> Prop) h, allocated p (st h) -> allocated p (st1 h)) by (intros p h X x q Hq; apply K, (X x q Hq)).
  assert (RDS : forall x vs, in_box clo chi x -> Forall2 (holds st1 x) (map used os) vs -> Forall2 (reads clo chi st x) os vs).
  { intros x vs Hx. clear - RD Hx. revert vs. induction os as [|o os IH]; intros vs H; inversion H as [|? v ? vs' (q & Hq & Hv) H']; subst; constructor.
    - destruct (RD o (or_introl eq_refl) x q Hx Hq) as (v' & E & R). cbn [used fst] in Hv. congruence.
    - apply IH; auto. intros o' Ho'. apply RD. now right. }
  assert (AL : alias (map used os) hc = map (fun o => o_h' o =? hc) os) by (unfold alias; rewrite map_map; reflexivity).
  pose proof (zips_run f (map used os) hc pc (in_box clo chi) es st1) as X.
  destruct (run_elems (zstep f) st1 es) as [st'|].
  - destruct X as (X1 & X2 & X3); auto.
    + intros s Hs. apply in_map_iff in Hs as (o & <- & Ho). apply HS, Ho.
    + intros s Hs. apply in_map_iff in Hs as (o & <- & Ho). eapply copied_alloc; eauto.
    + eapply marked_perm; eauto.
    + cbn [every_run outcome]. split; [|split].
      * intros x qc Hx Hq. destruct (X1 x qc Hx Hq) as (vs & v & Y1 & Y2 & Y3). exists vs, v. rewrite AL, HF in Y2. auto.
      * intros q Hq. rewrite X2 by exact Hq. apply OF, Hq.
      * intros k Hk Hk'. rewrite X3 by exact Hk. apply OT, Hk'.
  - destruct X as (x & vs & Hx & Y1 & Y2); auto.
    + intros s Hs. apply in_map_iff in Hs as (o & <- & Ho). apply HS, Ho.
    + intros s Hs. apply in_map_iff in Hs as (o & <- & Ho). eapply copied_alloc; eauto.
    + eapply marked_perm; eauto.
    + cbn [outcome]. exists x, vs. rewrite AL, HF in Y2. auto.
Qed.
End Zip.

(** ---- the programs of the processes ---- *)
Definition copy_progs (os : list operand) (ls : list (list zop)) : list (list (list zop)) :=
  fold_right (fun o progs => match o_copy o with Some ess => zipc (map (zcopies (o_h' o) (o_h o)) ess) progs | None => progs end) (map (fun x => [x]) ls) os.
Lemma copy_progs_phases os ls : (forall o ess, In o os -> o_copy o = Some ess -> length ess = length ls) ->
  length (copy_progs os ls) = length ls /\ phases_of (S (length (copy_phases os))) (copy_progs os ls) = copy_phases os ++ [concat ls].
Proof.
  induction os as [|o os IH]; intros H.
  { cbn [copy_progs fold_right copy_phases flat_map length app]. split; [apply map_length|apply phases_one]. }
  destruct IH as [IH1 IH2]; [intros; eapply H; eauto; now right|]. cbn [copy_progs fold_right copy_phases flat_map]. fold (copy_progs os ls) (copy_phases os).
  destruct (o_copy o) as [ess|] eqn:E; [|split; assumption].
  assert (L : length (map (zcopies (o_h' o) (o_h o)) ess) = length (copy_progs os ls)) by (rewrite map_length, IH1; eapply H; eauto; now left).
  split; [rewrite zipc_length by exact L; exact IH1|]. cbn [app length]. rewrite phases_zipc by exact L. rewrite IH2. reflexivity.
Qed.
(** What process [j] does; each operand comes with what is known of its copy. *)
Fixpoint prog_is {J} (j : J) (L : list zop -> Prop) (os : list (operand * (J -> list (place * place) -> Prop))) (pr : list (list zop)) : Prop :=
  match os with
  | [] => exists l, pr = [l] /\ L l
  | o :: os' => match o_copy (fst o) with
                | Some _ => exists e rest, pr = zcopies (o_h' (fst o)) (o_h (fst o)) e :: rest /\ snd o j e /\ prog_is j L os' rest
                | None => prog_is j L os' pr
                end
  end.
Lemma prog_is_length {J} (j : J) L os : forall pr, prog_is j L os pr -> length pr = S (length (copy_phases (map fst os))).
Proof.
  induction os as [|o os IH]; intros pr H; cbn [prog_is] in H.
  { destruct H as (l & -> & _). reflexivity. }
  cbn [map copy_phases flat_map]. fold (copy_phases (map fst os)). destruct (o_copy (fst o)); [|apply IH, H].
  destruct H as (e & rest & -> & _ & H). cbn [length app]. f_equal. apply IH, H.
Qed.
Lemma copy_progs_each {J} (js : list J) (L : J -> list zop -> Prop) (os : list (operand * (J -> list (place * place) -> Prop))) ls :
  (forall o ess, In o os -> o_copy (fst o) = Some ess -> Forall2 (snd o) js ess) -> Forall2 L js ls ->
  Forall2 (fun j pr => prog_is j (L j) os pr) js (copy_progs (map fst os) ls).
Proof.
  intros H HL. induction os as [|o os IH].
  { cbn [map copy_progs fold_right prog_is]. apply one_Forall2, HL. }
  cbn [map copy_progs fold_right prog_is]. fold (copy_progs (map fst os) ls). specialize (IH (fun o' ess Ho => H o' ess (or_intror Ho))).
  destruct (o_copy (fst o)) as [ess|] eqn:E; [|exact IH].
  pose proof (zipc_Forall2 _ _ _ _ _ (Forall2_map_with _ (zcopies (o_h' (fst o)) (o_h (fst o))) _ _ (H o ess (or_introl eq_refl) E)) IH) as X.
  eapply Forall2_weaken; [|exact X]. intros j pr (es & rest & -> & (e & -> & He) & HR). exists e, rest. auto.
Qed.

(** The operation as a whole. *)
Theorem zip_all {V J} (f : list bool -> list V -> option V) clo chi hc (pc : list Z -> place -> Prop) (js : list J)
    (os : list (operand * (J -> list (place * place) -> Prop))) (L : J -> list zop -> Prop) ls (F : list V -> option V) (st : store V) :
  (forall x q q', pc x q -> pc x q' -> q = q') -> (forall x y q, pc x q -> pc y q -> x = y) -> Forall2 Z.le clo chi ->
  (forall o, In o os -> usable clo chi pc st (fst o)) -> ForallOrdPairs apart (map fst os) ->
  (forall o, In o os -> o_h' (fst o) = hc -> o_p' (fst o) = pc) -> allocated pc (st hc) ->
  (forall vs, f (map (fun o => o_h' (fst o) =? hc) os) vs = F vs) ->
  (forall o ess, In o os -> o_copy (fst o) = Some ess -> Forall2 (snd o) js ess) -> Forall2 L js ls ->
  marked (zips (map (fun o => used (fst o)) os) hc pc) (in_box clo chi) (concat ls) ->
  exists progs k, Forall2 (fun j pr => length pr = k /\ prog_is j (L j) os pr) js progs /\
    every_run (zstep f) st (phases_of k progs) (outcome clo chi hc pc (map fst os) F st).
Proof.
  intros FC IC LE HU HO HS AC HF HR HL HM. exists (copy_progs (map fst os) ls), (S (length (copy_phases (map fst os)))). split.
  - eapply Forall2_weaken; [|apply (copy_progs_each js L os ls HR HL)]. intros j pr X. split; [eapply prog_is_length; exact X|exact X].
  - rewrite (proj2 (copy_progs_phases (map fst os) ls ltac:(intros o ess Ho Ec; apply in_map_iff in Ho as (o' & <- & Ho'); rewrite (Forall2_len' _ _ _ (HR o' ess Ho' Ec)), (Forall2_len' _ _ _ HL); reflexivity))).
    apply zip_runs; auto.
    + intros o Ho. apply in_map_iff in Ho as (o' & <- & Ho'). auto.
    + intros o Ho. apply in_map_iff in Ho as (o' & <- & Ho'). auto.
    + intros vs. rewrite map_map. apply HF.
    + rewrite map_map. exact HM.
Qed.

Lemma corresponds_inj alo ahi clo chi x y y' : Forall2 Z.le alo ahi -> zprod (extents alo ahi) = zprod (extents clo chi) ->
  corresponds false alo ahi clo chi y x -> corresponds false alo ahi clo chi y' x -> y = y'.
Proof.
  intros HA EZ (A & B & C) (A' & B' & C').
  assert (X : corresponds false clo chi alo ahi x y) by (split; [exact B|split; [exact A|symmetry; exact C]]).
  assert (X' : corresponds false clo chi alo ahi x y') by (split; [exact B|split; [exact A'|symmetry; exact C']]).
  apply target_corresponds in X; auto. apply target_corresponds in X'; auto. congruence.
Qed.
(** What the user sees. *)
Lemma outcome_zipped2 {V} (g : V -> V -> option V) (F : list V -> option V) clo chi hc (pc : list Z -> place -> Prop) oa ob (st : store V) r :
  usable clo chi pc st oa -> usable clo chi pc st ob -> (forall u v, F [u; v] = g u v) ->
  outcome clo chi hc pc [oa; ob] F st r ->
  match r with
  | Some st' => zipped2 g (o_p oa) (o_p ob) pc (o_lo oa) (o_hi oa) (o_lo ob) (o_hi ob) clo chi (st (o_h oa)) (st (o_h ob)) (st hc) (st' hc) /\
      forall k, k <> hc -> (o_copy oa <> None -> k <> o_h' oa) -> (o_copy ob <> None -> k <> o_h' ob) -> st' k = st k
  | None => undefined2 g (o_p oa) (o_p ob) (o_lo oa) (o_hi oa) (o_lo ob) (o_hi ob) clo chi (st (o_h oa)) (st (o_h ob))
  end.
Proof.
  intros (FA & _ & ZA & LA & _) (FB & _ & ZB & LB & _) HF. destruct r as [st'|]; cbn [outcome].
  - intros (H1 & H2 & H3). split; [split; [|exact H2]|].
    + intros x y z qa qb qc Ca Cb Pa Pb Pc. destruct (H1 x qc) as (vs & v & R & E & G); [apply Ca|exact Pc|].
      inversion R as [|? va ? vs1 (y' & qa' & Y1 & Y2 & Y3) R1]; subst. inversion R1 as [|? vb ? vs2 (z' & qb' & Z1 & Z2 & Z3) R2]; subst. inversion R2; subst.
      rewrite <- (corresponds_inj _ _ _ _ _ _ _ LA ZA Ca Y1) in Y2. rewrite (FA _ _ _ Y2 Pa) in Y3.
      rewrite <- (corresponds_inj _ _ _ _ _ _ _ LB ZB Cb Z1) in Z2. rewrite (FB _ _ _ Z2 Pb) in Z3.
      exists va, vb, v. rewrite HF in E. auto.
    + intros k K K1 K2. apply H3; [exact K|]. intros o [<-|[<-|[]]]; auto.
  - intros (x & vs & Hx & R & E).
    inversion R as [|? va ? vs1 (y' & qa' & Y1 & Y2 & Y3) R1]; subst. inversion R1 as [|? vb ? vs2 (z' & qb' & Z1 & Z2 & Z3) R2]; subst. inversion R2; subst.
    rewrite HF in E. exists x, y', z', qa', qb', va, vb. auto 10.
Qed.
Lemma outcome_zipped3 {V} (g : V -> V -> V -> option V) (F : list V -> option V) clo chi hc (pc : list Z -> place -> Prop) oa ob oc (st : store V) r :
  usable clo chi pc st oa -> usable clo chi pc st ob -> usable clo chi pc st oc -> (forall u v w, F [u; v; w] = g u v w) -> (forall u v w, g u v w <> None) ->
  outcome clo chi hc pc [oa; ob; oc] F st r ->
  exists st', r = Some st' /\
    zipped3 g (o_p oa) (o_p ob) (o_p oc) pc (o_lo oa) (o_hi oa) (o_lo ob) (o_hi ob) (o_lo oc) (o_hi oc) clo chi
      (st (o_h oa)) (st (o_h ob)) (st (o_h oc)) (st hc) (st' hc) /\
    forall k, k <> hc -> (o_copy oa <> None -> k <> o_h' oa) -> (o_copy ob <> None -> k <> o_h' ob) -> (o_copy oc <> None -> k <> o_h' oc) -> st' k = st k.
Proof.
  intros (FA & _ & ZA & LA & _) (FB & _ & ZB & LB & _) (FD & _ & ZD & LD & _) HF HG. destruct r as [st'|]; cbn [outcome].
  - intros (H1 & H2 & H3). exists st'. split; [reflexivity|]. split; [split; [|exact H2]|].
    + intros x y z u qa qb qd qc Ca Cb Cd Pa Pb Pd Pc. destruct (H1 x qc) as (vs & v & R & E & G); [apply Ca|exact Pc|].
      inversion R as [|? va ? vs1 (y' & qa' & Y1 & Y2 & Y3) R1]; subst. inversion R1 as [|? vb ? vs2 (z' & qb' & Z1 & Z2 & Z3) R2]; subst.
      inversion R2 as [|? vd ? vs3 (u' & qd' & U1 & U2 & U3) R3]; subst. inversion R3; subst.
      rewrite <- (corresponds_inj _ _ _ _ _ _ _ LA ZA Ca Y1) in Y2. rewrite (FA _ _ _ Y2 Pa) in Y3.
      rewrite <- (corresponds_inj _ _ _ _ _ _ _ LB ZB Cb Z1) in Z2. rewrite (FB _ _ _ Z2 Pb) in Z3.
      rewrite <- (corresponds_inj _ _ _ _ _ _ _ LD ZD Cd U1) in U2. rewrite (FD _ _ _ U2 Pd) in U3.
      exists va, vb, vd, v. rewrite HF in E. auto.
    + intros k K K1 K2 K3. apply H3; [exact K|]. intros o [<-|[<-|[<-|[]]]]; auto.
  - intros (x & vs & Hx & R & E). exfalso.
    inversion R as [|? va ? vs1 _ R1]; subst. inversion R1 as [|? vb ? vs2 _ R2]; subst.
    inversion R2 as [|? vd ? vs3 _ R3]; subst. inversion R3; subst. rewrite HF in E. exact (HG _ _ _ E).
Qed.
