(** Lemmas: lists of element operations, each marked with the subscripts it
    works on. *)
From Verif Require Import LXfer2 LLoc LAccess LSelect2 LRadix.
From Verif Require Export LGcopy.
Open Scope Z_scope.

Section Mark.
Context {E : Type} (Q : list Z -> E -> Prop).
Definition marked (P : list Z -> Prop) (es : list E) : Prop :=
  exists l : list (E * list Z),
    es = map fst l /\ NoDup (map snd l) /\ (forall x, In x (map snd l) <-> P x) /\ forall e x, In (e, x) l -> Q x e.

Lemma marked_ext P R es : (forall x, P x <-> R x) -> marked P es -> marked R es.
Proof.
  intros H (l & E1 & N & I & J). exists l. split; [exact E1|]. split; [exact N|]. split; [|exact J].
  intros x. rewrite I. apply H.
Qed.
Lemma marked_nil (P : list Z -> Prop) : (forall x, ~ P x) -> marked P [].
Proof. intros H. exists []. cbn. split; [reflexivity|]. split; [constructor|]. split; [split; [intros []|apply H]|intros ? ? []]. Qed.
Lemma marked_app (P R : list Z -> Prop) es es' : (forall x, P x -> R x -> False) ->
  marked P es -> marked R es' -> marked (fun x => P x \/ R x) (es ++ es').
Proof.
  intros H (l & -> & N & I & J) (l' & -> & N' & I' & J'). exists (l ++ l').
  split; [now rewrite map_app|]. rewrite map_app. split.
  { apply NoDup_app_intro; auto. intros x Hx Hx'. apply (H x); [apply I, Hx|apply I', Hx']. }
  split.
  - intros x. rewrite in_app_iff, I, I'. reflexivity.
  - intros e x Hin. apply in_app_iff in Hin as [Hin|Hin]; auto.
Qed.
Lemma marked_perm P es es' : Permutation es es' -> marked P es -> marked P es'.
Proof.
  intros PT (l & -> & N & I & J). apply Permutation_sym, Permutation_map_inv in PT as (l' & -> & PL).
  exists l'. split; [reflexivity|]. split; [eapply Permutation_NoDup; [apply Permutation_map; exact PL|exact N]|]. split.
  - intros x. rewrite <- I. split; apply Permutation_in; [apply Permutation_sym|]; apply Permutation_map; exact PL.
  - intros e x Hin. apply J. eapply Permutation_in; [apply Permutation_sym; exact PL|exact Hin].
Qed.

Lemma marked_concat {J} (P : J -> list Z -> Prop) js ess :
  Forall2 (fun j es => marked (P j) es) js ess ->
  (forall i i' j j' x, nth_error js i = Some j -> nth_error js i' = Some j' -> P j x -> P j' x -> i = i') ->
  marked (fun x => exists j, In j js /\ P j x) (concat ess).
Proof.
  induction 1 as [|j es js ess H F IH]; intros HD.
  - apply marked_nil. intros x (j & [] & _).
  - cbn [concat]. eapply marked_ext; [|apply marked_app; [|exact H|apply IH]].
    + intros x. cbn. split.
      * intros [X|(j' & Hj & X)]; [exists j; auto|exists j'; auto].
      * intros (j' & [<-|Hj] & X); [now left|right; exists j'; auto].
    + intros x X (j' & Hj & X'). apply In_nth_error in Hj as (i & Hi).
      specialize (HD 0%nat (S i) j j' x eq_refl Hi X X'). discriminate.
    + intros i i' j1 j2 x H1 H2 X1 X2. specialize (HD (S i) (S i') j1 j2 x H1 H2 X1 X2). lia.
Qed.

(** The pieces of a walk, cut down to [D]. *)
Lemma marked_tiles {A} (ps : list A) (bx : A -> list Z * list Z) (S0 D : list Z -> Prop) ess :
  tiles ps bx S0 ->
  Forall2 (fun q es => marked (fun x => in_box (fst (bx q)) (snd (bx q)) x /\ D x) es) ps ess ->
  marked (fun x => S0 x /\ D x) (concat ess).
Proof.
  intros T F. eapply marked_ext; [|apply (marked_concat (fun q x => in_box (fst (bx q)) (snd (bx q)) x /\ D x) ps ess F)].
  - intros x. split.
    + intros (q & Hq & X & Y). apply In_nth_error in Hq as (i & Hi). split; [exact (proj1 T i q Hi x X)|exact Y].
    + intros [X Y]. destruct (proj2 T x X) as (k & q & E1 & B & _). exists q. split; [eapply nth_error_In; eauto|auto].
  - intros i i' q q' x E1 E2 [B _] [B' _]. exact (tiles_once ps _ _ i i' q q' x T E1 E2 B B').
Qed.

(** The processes [0..n) of the group, each with the elements it holds. *)
Lemma marked_procs (placed : list Z -> place -> Prop) (D : list Z -> Prop) (rank : Z -> option Z) n ess :
  (forall x q q', placed x q -> placed x q' -> q = q') ->
  (forall x, D x -> exists q, placed x q) ->
  (forall x q, placed x q -> exists p, 0 <= p < n /\ rank p = Some (fst q)) ->
  (forall p p' w, rank p = Some w -> rank p' = Some w -> p = p') ->
  Forall2 (fun p es => exists w, rank p = Some w /\ marked (fun x => D x /\ exists ad, placed x (w, ad)) es) (zseq 0 (Z.to_nat n)) ess ->
  marked D (concat ess).
Proof.
  intros HF HE HR HI F.
  set (P := fun p x => D x /\ exists w ad, rank p = Some w /\ placed x (w, ad)).
  eapply marked_ext; [|apply (marked_concat P (zseq 0 (Z.to_nat n)) ess)].
  - intros x. unfold P. split.
    + intros (p & _ & H & _). exact H.
    + intros Hx. destruct (HE x Hx) as (q & Hq). destruct (HR x q Hq) as (p & Hp & Er). exists p.
      split; [apply zseq_In; lia|]. split; [exact Hx|]. exists (fst q), (snd q). split; [exact Er|]. now destruct q.
  - eapply Forall2_weaken; [|exact F]. intros p es (w & Er & H). eapply marked_ext; [|exact H].
    intros x. unfold P. split; intros [H1 H2]; split; auto.
    + destruct H2 as (ad & H2). eauto.
    + destruct H2 as (w' & ad & Er' & H2). exists ad. congruence.
  - intros i i' p p' x E1 E2 (_ & w & ad & Er & H) (_ & w' & ad' & Er' & H').
    pose proof (HF _ _ _ H H') as Q1. injection Q1 as <- _. pose proof (HI _ _ _ Er Er') as <-.
    assert (ND : NoDup (zseq 0 (Z.to_nat n))) by apply zseq_NoDup.
    apply (proj1 (NoDup_nth_error _) ND); [apply nth_error_Some; congruence|congruence].
Qed.
End Mark.

Lemma marked_imp {E} (Q R : list Z -> E -> Prop) (P : list Z -> Prop) es : (forall x e, P x -> Q x e -> R x e) -> marked Q P es -> marked R P es.
Proof.
  intros H (l & E1 & N & I & J). exists l. split; [exact E1|]. split; [exact N|]. split; [exact I|].
  intros e x Hin. apply H; [apply I, (in_map snd _ _ Hin)|apply J, Hin].
Qed.
Lemma marked_map {E F} (Q : list Z -> E -> Prop) (R : list Z -> F -> Prop) (h : E -> F) (P : list Z -> Prop) es :
  (forall x e, P x -> Q x e -> R x (h e)) -> marked Q P es -> marked R P (map h es).
Proof.
  intros H (l & -> & N & I & J). exists (map (fun ex => (h (fst ex), snd ex)) l). rewrite !map_map. cbn [fst snd].
  split; [reflexivity|]. split; [exact N|]. split; [exact I|].
  intros e x Hin. apply in_map_iff in Hin as ((e' & x') & Eq & Hin). cbn [fst snd] in Eq. injection Eq as <- <-.
  apply H; [apply I, (in_map snd _ _ Hin)|apply J, Hin].
Qed.
(** Distinct elements work on distinct cells. *)
Lemma marked_NoDup {E} (Q : list Z -> E -> Prop) (P : list Z -> Prop) es : (forall x y e, Q x e -> Q y e -> x = y) -> marked Q P es -> NoDup es.
Proof.
  intros HI (l & -> & N & _ & J). induction l as [|[e x] l IH]; [constructor|]. cbn [map fst snd] in *.
  apply NoDup_cons_iff in N as [Hn N]. constructor; [|apply IH; [exact N|intros; apply J; now right]].
  intros Hin. apply in_map_iff in Hin as ((e' & x') & Eq & Hin). cbn [fst] in Eq. subst e'. apply Hn.
  rewrite (HI x x' e); [apply (in_map snd _ _ Hin)|apply J; now left|apply J; now right].
Qed.
