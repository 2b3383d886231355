(** Lemmas on the registration cache: collective calls. *)
From Verif Require Import SpecReg SpecRanks MBase MHandle MGroup MRanks MReg LNb LDist LRanks LRanks2 LRanks3 LReg.
From Coq Require Import Permutation.

Lemma NoDup_app2 {A} (p q : list A) : NoDup p -> NoDup q -> (forall z, In z p -> ~ In z q) -> NoDup (p ++ q).
Proof.
  induction p as [|z p IHp]; intros Np Nq Dq; cbn [app]; auto. inversion_clear Np as [|? ? Np1 Np2]. constructor.
  - rewrite in_app_iff. intros [X|X]; [auto|]. apply (Dq z); [left; reflexivity|exact X].
  - apply IHp; auto. intros w Hw. apply Dq. right. exact Hw.
Qed.
Lemma NoDup_pair (p : Z) (l : list Z) : NoDup l -> NoDup (map (pair p) l).
Proof. intros N. apply FinFun.Injective_map_NoDup; auto. intros x y E. congruence. Qed.
Lemma flat_map_flat_map {A B C} (f : B -> list C) (g : A -> list B) l : flat_map f (flat_map g l) = flat_map (fun x => flat_map f (g x)) l.
Proof. induction l as [|a l IH]; cbn [flat_map]; [reflexivity|]. rewrite flat_map_app, IH. reflexivity. Qed.
Lemma flat_map_map {A B C} (f : B -> list C) (g : A -> B) l : flat_map f (map g l) = flat_map (fun x => f (g x)) l.
Proof. induction l as [|a l IH]; cbn [flat_map map]; [reflexivity|]. rewrite IH. reflexivity. Qed.
Lemma inb l (x : Z) : existsb (Z.eqb x) l = true <-> In x l.
Proof.
  rewrite existsb_exists. split; [intros (y & I & E); apply Z.eqb_eq in E; subst; exact I|]. intros I. exists x. split; [exact I|apply Z.eqb_refl].
Qed.

Section node.
Variables (hs ms ss : list Z) (k : Z) (packed : bool).
Let n := nranks hs.
Let M := at_rank ms.
Hypothesis (PG : progress n k (hostof hs) M).

(** Groups that work. *)
Definition usable (g : list Z) : Prop := notify_ok hs ms ss k packed g /\ forall r, In r g -> In r (workers ms).
(** Process [p] is to know the memory that [a] gave [i]. *)
Definition seen (p i : Z) (a : galloc) : bool :=
  existsb (Z.eqb i) (al_group a) && (0 <? al_size a i) &&
  ((p =? M i) || (existsb (Z.eqb p) (al_group a) && (M p =? M i))).
Lemma seen_In p i a : seen p i a = true <->
  In i (al_group a) /\ 0 < al_size a i /\ (p = M i \/ (In p (al_group a) /\ M p = M i)).
Proof. unfold seen. rewrite !andb_true_iff, orb_true_iff, andb_true_iff, !inb, Z.ltb_lt, !Z.eqb_eq. tauto. Qed.

Section call.
Variable a : galloc.
Let g := al_group a.
Hypotheses (US : usable g) (SZ : forall i, 0 <= al_size a i)
  (AD : forall r, In r g -> if 0 <? al_size a r then 0 < al_addr a r else al_addr a r = 0).
Let gm := group_master hs ss k packed g.

Lemma g_range r : In r g -> 0 <= r < n.
Proof. exact (no_range _ _ _ _ _ _ (proj1 US) r). Qed.
Lemma g_worker r : In r g -> M r <> r.
Proof. intros R. apply (proj2 US) in R. apply workers_In in R. tauto. Qed.
Lemma g_server r : In r g -> M (M r) = M r /\ hostof hs (M r) = hostof hs r.
Proof. intros R. apply g_range in R. destruct PG as [P1 P2 _ _]. split; [apply P2; exact R|apply P1; exact R]. Qed.
Lemma gm_ok r : In r g -> In (gm r) g /\ M (gm r) = M r.
Proof. exact (no_speak _ _ _ _ _ _ (proj1 US) r). Qed.
Lemma gm_same r r' : In r g -> In r' g -> M r = M r' -> gm r = gm r'.
Proof. exact (no_same _ _ _ _ _ _ (proj1 US) r r'). Qed.
Lemma gm_self r : In r g -> gm (gm r) = gm r.
Proof. intros R. destruct (gm_ok r R). apply gm_same; auto. Qed.
Lemma addr_iff i : In i g -> (al_addr a i =? 0) = negb (0 <? al_size a i).
Proof. intros I. specialize (AD i I). destruct (0 <? al_size a i); cbn [negb]; [apply Z.eqb_neq; lia|apply Z.eqb_eq; exact AD]. Qed.

Section tasks.
(** [inc r]: the processes that the member [r] has in its list. *)
Variable inc : Z -> list Z.
Hypothesis INC : forall r i, In r g -> (In i (inc r) /\ al_addr a i <> 0 <-> In i g /\ 0 < al_size a i /\ M i = M r).
Hypothesis IND : forall r, NoDup (inc r).
Definition own (p : Z) : list (Z * Z) := if al_addr a p =? 0 then [] else [(p, p)].
Definition others (p : Z) : list (Z * Z) := map (pair p) (filter (fun i => negb (al_addr a i =? 0)) (filter (fun i => negb (i =? p)) (inc p))).
Definition forsrv (r : Z) : list (Z * Z) :=
  if r =? gm r then map (pair (M r)) (filter (fun i => negb (al_addr a i =? 0)) (filter (fun i => negb (M r =? i) && same_host hs (M r) i) (inc r))) else [].

Lemma others_In p i x : In p g -> (In (x, i) (others p) <-> x = p /\ i <> p /\ In i g /\ 0 < al_size a i /\ M i = M p).
Proof.
  intros P. unfold others. rewrite in_map_iff. split.
  - intros (j & E & J). injection E as <- <-. rewrite !filter_In, !negb_true_iff, !Z.eqb_neq in J. destruct J as ((J1 & J2) & J3).
    split; [reflexivity|]. split; [exact J2|]. apply INC; auto.
  - intros (-> & NI & I). apply INC in I; auto. exists i. split; [reflexivity|]. rewrite !filter_In, !negb_true_iff, !Z.eqb_neq. tauto.
Qed.
Lemma own_In p i x : In p g -> (In (x, i) (own p) <-> x = p /\ i = p /\ 0 < al_size a i).
Proof.
  intros P. unfold own. rewrite addr_iff by exact P. destruct (Z.ltb_spec 0 (al_size a p)); cbn [negb In]; split.
  - intros [E|[]]. injection E as <- <-. auto.
  - intros (-> & -> & _). auto.
  - intros [].
  - intros (-> & -> & X). lia.
Qed.
Lemma forsrv_In r i x : In r g -> (In (x, i) (forsrv r) <-> r = gm r /\ x = M r /\ In i g /\ 0 < al_size a i /\ M i = M r).
Proof.
  intros R. unfold forsrv. destruct (Z.eqb_spec r (gm r)) as [E|NE]; [|split; [intros []|intros (X & _); contradiction]].
  rewrite in_map_iff. split.
  - intros (j & EJ & J). injection EJ as <- <-. rewrite !filter_In, negb_true_iff, Z.eqb_neq in J. destruct J as ((J1 & J2) & J3).
    split; [exact E|]. split; [reflexivity|]. apply INC; auto.
  - intros (_ & -> & I). exists i. split; [reflexivity|]. destruct I as (I1 & I2 & I3). 
    destruct (proj2 (INC r i R) (conj I1 (conj I2 I3))) as [J1 J2].
    rewrite !filter_In, andb_true_iff, !negb_true_iff, !Z.eqb_neq. split; [|exact J2]. split; [exact J1|]. split.
    + intros X. destruct (g_server r R) as [SR _]. apply (g_worker i I1). rewrite <- X. exact SR.
    + unfold same_host. apply Z.eqb_eq. rewrite <- I3. symmetry. apply g_server. exact I1.
Qed.

Definition all_tasks (u : Z -> list (Z * Z)) : list (Z * Z) := flat_map u g ++ flat_map forsrv g.
(** [u] has own memory and that of the others, in either order. *)
Definition both (u : Z -> list (Z * Z)) : Prop := forall p, In p g -> Permutation (u p) (own p ++ others p).
Lemma tasks_In u p i : both u -> (In (p, i) (all_tasks u) <-> seen p i a = true).
Proof.
  intros B. unfold all_tasks. rewrite in_app_iff, !in_flat_map, seen_In. fold g. split.
  - intros [(r & R & H)|(r & R & H)].
    + apply (Permutation_in _ (B r R)) in H. apply in_app_or in H. destruct H as [H|H].
      * apply own_In in H; auto. destruct H as (-> & -> & X). split; [exact R|]. split; [exact X|]. right. auto.
      * apply others_In in H; auto. destruct H as (-> & _ & X1 & X2 & X3). split; [exact X1|]. split; [exact X2|]. right. auto.
    + apply forsrv_In in H; auto. destruct H as (_ & -> & X1 & X2 & X3). split; [exact X1|]. split; [exact X2|]. left. auto.
  - intros (I & S & [->|[P E]]).
    + right. exists (gm i). destruct (gm_ok i I) as [G1 G2]. split; [exact G1|]. apply forsrv_In; auto. rewrite gm_self by exact I.
      split; [reflexivity|]. split; [auto|]. split; [exact I|]. split; [exact S|]. auto.
    + left. exists p. split; [exact P|]. apply (Permutation_in _ (Permutation_sym (B p P))). apply in_or_app.
      destruct (Z.eq_dec i p) as [->|NE]; [left; apply own_In; auto|right; apply others_In; auto].
Qed.
Lemma tasks_NoDup u : both u -> NoDup (all_tasks u).
Proof.
  intros B. pose proof (no_nodup _ _ _ _ _ _ (proj1 US)) as ND. apply NoDup_app2.
  - apply NoDup_flat_map; auto.
    + intros p P. apply (Permutation_NoDup (Permutation_sym (B p P))). apply NoDup_app2.
      * unfold own. destruct (_ =? _); repeat constructor. intros [].
      * apply NoDup_pair, NoDup_filter, NoDup_filter, IND.
      * intros [x i] H1 H2. apply own_In in H1; auto. apply others_In in H2; auto. destruct H1 as (_ & -> & _). destruct H2 as (_ & X & _). congruence.
    + assert (forall p x i, In p g -> In (x, i) (u p) -> x = p) as F.
      { intros p x i P H. apply (Permutation_in _ (B p P)) in H. apply in_app_or in H. destruct H as [H|H]; [apply own_In in H|apply others_In in H]; auto; tauto. }
      intros p q [x i] P Q H1 H2. apply F in H1; auto. apply F in H2; auto. congruence.
  - apply NoDup_flat_map; auto.
    + intros r R. unfold forsrv. destruct (_ =? _); [|constructor]. apply NoDup_pair, NoDup_filter, NoDup_filter, IND.
    + intros p q [x i] P Q H1 H2. apply forsrv_In in H1; auto. apply forsrv_In in H2; auto.
      destruct H1 as (E1 & -> & _). destruct H2 as (E2 & X & _). rewrite E1, E2. apply gm_same; auto.
  - intros [x i] H1 H2. apply in_flat_map in H1. apply in_flat_map in H2. destruct H1 as (p & P & H1). destruct H2 as (r & R & H2).
    apply (Permutation_in _ (B p P)) in H1. apply forsrv_In in H2; auto. destruct H2 as (_ & -> & _).
    assert (M r = p) as E. { apply in_app_or in H1. destruct H1 as [H1|H1]; [apply own_In in H1|apply others_In in H1]; auto; tauto. }
    apply (g_worker p P). rewrite <- E. apply g_server. exact R.
Qed.
End tasks.
End call.
End node.
