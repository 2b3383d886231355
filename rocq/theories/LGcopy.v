(** Lemmas: copies between arrays as labelled lists of element copies. *)
From Verif Require Import LXfer2 LLoc LAccess LSelect2.
From Verif Require Export SpecGcopy MGcopy.
Open Scope Z_scope.

(** ---- running element copies ---- *)
Lemma copy_run {V} (ma : heap V) es : forall mb,
  NoDup (map fst es) ->
  (forall e, In e es -> hget ma (snd e) <> None /\ hget mb (fst e) <> None) ->
  exists mb', run_elems (copy_elem ma) mb es = Some mb' /\
    (forall e, In e es -> hget mb' (fst e) = hget ma (snd e)) /\
    (forall q, ~ In q (map fst es) -> hget mb' q = hget mb q).
Proof.
  induction es as [|e es IH]; intros mb ND HD.
  { exists mb. split; [reflexivity|]. split; [intros ? []|reflexivity]. }
  cbn [map] in ND. apply NoDup_cons_iff in ND as [Hn ND].
  destruct (HD e (or_introl eq_refl)) as [D1 D2].
  destruct (hget ma (snd e)) as [v|] eqn:Ev; [|congruence]. destruct (hget mb (fst e)) as [w|] eqn:Ew; [|congruence].
  destruct (IH (hset mb (fst e) v) ND) as (mb' & E & P1 & P2).
  { intros e' He. destruct (HD e' (or_intror He)) as [A B]. split; [exact A|].
    rewrite hget_hset_other; [exact B|]. intros Eq. apply Hn. rewrite Eq. apply in_map, He. }
  exists mb'. split.
  { cbn [run_elems]. unfold copy_elem at 1. rewrite Ev, Ew. exact E. }
  split.
  - intros e' [<-|He]; [|apply P1, He]. rewrite (P2 _ Hn), hget_hset_same. symmetry. exact Ev.
  - intros q Hq. cbn [map] in Hq. rewrite P2 by (intros X; apply Hq; now right).
    apply hget_hset_other. intros Eq. apply Hq. now left.
Qed.

(** ---- labelled copies ---- *)
Section Lab.
Variables (f : list Z -> list Z) (pa pb : list Z -> place -> Prop).
Definition labelled (P : list Z -> Prop) (es : list (place * place)) : Prop :=
  exists l : list ((place * place) * list Z),
    es = map fst l /\ NoDup (map snd l) /\ (forall x, In x (map snd l) <-> P x) /\
    forall e x, In (e, x) l -> pb (f x) (fst e) /\ pa x (snd e).

Lemma labelled_ext P Q es : (forall x, P x <-> Q x) -> labelled P es -> labelled Q es.
Proof.
  intros H (l & E & N & I & J). exists l. split; [exact E|]. split; [exact N|]. split; [|exact J].
  intros x. rewrite I. apply H.
Qed.
Lemma labelled_nil : labelled (fun _ => False) [].
Proof. exists []. cbn. split; [reflexivity|]. split; [constructor|]. split; [intros; tauto|intros ? ? []]. Qed.
Lemma labelled_app (P Q : list Z -> Prop) es es' : (forall x, P x -> Q x -> False) ->
  labelled P es -> labelled Q es' -> labelled (fun x => P x \/ Q x) (es ++ es').
Proof.
  intros H (l & -> & N & I & J) (l' & -> & N' & I' & J'). exists (l ++ l').
  split; [now rewrite map_app|]. rewrite map_app. split.
  { apply NoDup_app_intro; auto. intros x Hx Hx'. apply (H x); [apply I, Hx|apply I', Hx']. }
  split.
  - intros x. rewrite in_app_iff, I, I'. reflexivity.
  - intros e x Hin. apply in_app_iff in Hin as [Hin|Hin]; auto.
Qed.
Lemma labelled_perm P es es' : Permutation es es' -> labelled P es -> labelled P es'.
Proof.
  intros PT (l & -> & N & I & J). apply Permutation_sym, Permutation_map_inv in PT as (l' & -> & PL).
  exists l'. split; [reflexivity|]. split; [eapply Permutation_NoDup; [apply Permutation_map; exact PL|exact N]|]. split.
  - intros x. rewrite <- I. split; apply Permutation_in; [apply Permutation_sym|]; apply Permutation_map; exact PL.
  - intros e x Hin. apply J. eapply Permutation_in; [apply Permutation_sym; exact PL|exact Hin].
Qed.

Lemma labelled_concat {J} (P : J -> list Z -> Prop) js ess :
  Forall2 (fun j es => labelled (P j) es) js ess ->
  (forall i i' j j' x, nth_error js i = Some j -> nth_error js i' = Some j' -> P j x -> P j' x -> i = i') ->
  labelled (fun x => exists j, In j js /\ P j x) (concat ess).
Proof.
  induction 1 as [|j es js ess H F IH]; intros HD.
  - eapply labelled_ext; [|exact labelled_nil]. cbn. intros x. split; [tauto|]. intros (? & [] & _).
  - cbn [concat]. eapply labelled_ext; [|apply labelled_app; [|exact H|apply IH]].
    + intros x. cbn. split.
      * intros [X|(j' & Hj & X)]; [exists j; auto|exists j'; auto].
      * intros (j' & [<-|Hj] & X); [now left|right; exists j'; auto].
    + intros x X (j' & Hj & X'). apply In_nth_error in Hj as (i & Hi).
      specialize (HD 0%nat (S i) j j' x eq_refl Hi X X'). discriminate.
    + intros i i' j1 j2 x H1 H2 X1 X2. specialize (HD (S i) (S i') j1 j2 x H1 H2 X1 X2). lia.
Qed.

Hypothesis fun_a : forall x q q', pa x q -> pa x q' -> q = q'.
Hypothesis fun_b : forall x q q', pb x q -> pb x q' -> q = q'.
Hypothesis inj_b : forall x y q, pb x q -> pb y q -> x = y.

Theorem labelled_copied {V} (D : list Z -> Prop) (ma mb : heap V) es :
  (forall x y, D x -> D y -> f x = f y -> x = y) ->
  allocated pa ma -> allocated pb mb -> labelled D es ->
  exists mb', run_elems (copy_elem ma) mb es = Some mb' /\ copied D f pa pb ma mb mb'.
Proof.
  intros HF HA HB (l & -> & N & I & J).
  assert (HD : forall e x, In (e, x) l -> D x) by (intros e x H; apply I, (in_map snd _ _ H)).
  destruct (copy_run ma (map fst l) mb) as (mb' & E & P1 & P2).
  - rewrite map_map. clear I. induction l as [|[e x] l IH]; [constructor|]. cbn [map snd] in N. apply NoDup_cons_iff in N as [Hn N].
    cbn [map fst]. constructor; [|apply IH; [exact N|intros; apply J; now right|intros e0 x0 H0; apply (HD e0); now right]].
    intros Hin. apply in_map_iff in Hin as ((e' & x') & Eq & Hin). cbn [fst] in Eq. apply Hn.
    destruct (J e x (or_introl eq_refl)) as [B1 _]. destruct (J e' x' (or_intror Hin)) as [B2 _].
    rewrite Eq in B2. assert (x = x') as ->; [|apply (in_map snd _ _ Hin)].
    apply HF; [apply (HD e); now left|apply (HD e'); now right|]. eapply inj_b; eauto.
  - intros e He. apply in_map_iff in He as ((e' & x) & <- & Hin). cbn [fst]. destruct (J _ _ Hin) as [B A].
    split; [eapply HA; eauto|eapply HB; eauto].
  - exists mb'. split; [exact E|]. split.
    + intros x qa qb Hx Ha Hb. apply I in Hx. apply in_map_iff in Hx as ((e & x') & <- & Hin). cbn [snd] in *.
      destruct (J _ _ Hin) as [B A]. rewrite (fun_a _ _ _ Ha A), (fun_b _ _ _ Hb B). apply P1. apply (in_map fst _ _ Hin).
    + intros q Hq. apply P2. intros Hin. apply in_map_iff in Hin as (e & <- & Hin).
      apply in_map_iff in Hin as ((e' & x) & <- & Hin). cbn [fst] in *. apply (Hq x); [eapply HD; eauto|]. apply (J _ _ Hin).
Qed.
End Lab.

(** ---- pieces of a process ---- *)
Lemma tiles_once {A} (ps : list A) bx S i i' p p' x : tiles ps bx S ->
  nth_error ps i = Some p -> nth_error ps i' = Some p' ->
  in_box (fst (bx p)) (snd (bx p)) x -> in_box (fst (bx p')) (snd (bx p')) x -> i = i'.
Proof.
  intros [T1 T2] E E' H H'. destruct (T2 x (T1 _ _ E _ H)) as (k & q & _ & _ & U).
  rewrite (U _ _ E H), (U _ _ E' H'). reflexivity.
Qed.

Lemma tiles_labelled f pa pb (P : list Z -> Prop) ps ess :
  tiles ps (fun q => (lp_lo q, lp_hi q)) P ->
  Forall2 (fun q es => labelled f pa pb (in_box (lp_lo q) (lp_hi q)) es) ps ess ->
  labelled f pa pb P (concat ess).
Proof.
  intros T F. eapply labelled_ext; [|apply (labelled_concat f pa pb (fun q => in_box (lp_lo q) (lp_hi q)) ps ess F)].
  - intros x. split.
    + intros (q & Hq & X). apply In_nth_error in Hq as (i & Hi). exact (proj1 T i q Hi x X).
    + intros X. destruct (proj2 T x X) as (k & q & E & B & _). exists q. split; [eapply nth_error_In; eauto|exact B].
  - intros i i' q q' x E E' B B'. exact (tiles_once ps _ _ i i' q q' x T E E' B B').
Qed.

Lemma cover_labelled f pa pb (placed : list Z -> place -> Prop) ds w ps ess :
  local_cover placed ds w ps ->
  Forall2 (fun q es => labelled f pa pb (in_box (lp_lo q) (lp_hi q)) es) ps ess ->
  labelled f pa pb (fun x => in_array ds x /\ exists ad, placed x (w, ad)) (concat ess).
Proof. intros [T _]. apply tiles_labelled, T. Qed.

(** The processes [0..n) of the group, each with the elements it holds. *)
Lemma procs_labelled f pa pb (placed : list Z -> place -> Prop) (D : list Z -> Prop) (rank : Z -> option Z) n ess :
  (forall x q q', placed x q -> placed x q' -> q = q') ->
  (forall x, D x -> exists q, placed x q) ->
  (forall x q, placed x q -> exists p, 0 <= p < n /\ rank p = Some (fst q)) ->
  (forall p p' w, rank p = Some w -> rank p' = Some w -> p = p') ->
  Forall2 (fun p es => exists w, rank p = Some w /\
             labelled f pa pb (fun x => D x /\ exists ad, placed x (w, ad)) es) (zseq 0 (Z.to_nat n)) ess ->
  labelled f pa pb D (concat ess).
Proof.
  intros HF HE HR HI F.
  set (P := fun p x => D x /\ exists w ad, rank p = Some w /\ placed x (w, ad)).
  eapply labelled_ext; [|apply (labelled_concat f pa pb P (zseq 0 (Z.to_nat n)) ess)].
  - intros x. unfold P. split.
    + intros (p & _ & H & _). exact H.
    + intros Hx. destruct (HE x Hx) as (q & Hq). destruct (HR x q Hq) as (p & Hp & Er). exists p.
      split; [apply zseq_In; lia|]. split; [exact Hx|]. exists (fst q), (snd q). split; [exact Er|]. now destruct q.
  - eapply Forall2_weaken; [|exact F]. intros p es (w & Er & H). eapply labelled_ext; [|exact H].
    intros x. unfold P. split; intros [H1 H2]; split; auto.
    + destruct H2 as (ad & H2). eauto.
    + destruct H2 as (w' & ad & Er' & H2). exists ad. congruence.
  - intros i i' p p' x E E' (_ & w & ad & Er & H) (_ & w' & ad' & Er' & H').
    pose proof (HF _ _ _ H H') as Q. injection Q as <- _. pose proof (HI _ _ _ Er Er') as <-.
    assert (ND : NoDup (zseq 0 (Z.to_nat n))) by apply zseq_NoDup.
    apply (proj1 (NoDup_nth_error _) ND); [apply nth_error_Some; congruence|congruence].
Qed.
