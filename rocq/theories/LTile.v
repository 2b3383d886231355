(** Tilings as permutations of the enumerated box; scan machines. *)
From Verif Require Export LDist2 MIter.
From Coq Require Export Permutation.

Lemma NoDup_app_intro {A} (l l' : list A) :
  NoDup l -> NoDup l' -> (forall x, In x l -> ~ In x l') -> NoDup (l ++ l').
Proof.
  induction l as [|a l IH]; cbn; intros H1 H2 H; [exact H2|].
  inversion H1; subst. constructor.
  - rewrite in_app_iff. intros [X|X]; [contradiction|]. exact (H a (or_introl eq_refl) X).
  - apply IH; auto.
Qed.

Lemma NoDup_app_inv {A} (l l' : list A) :
  NoDup (l ++ l') -> NoDup l /\ NoDup l' /\ forall x, In x l -> ~ In x l'.
Proof.
  induction l as [|a l IH]; cbn; intros H.
  - split; [constructor|]. split; [exact H|tauto].
  - inversion H; subst. destruct (IH H3) as (H4 & H5 & H6).
    rewrite in_app_iff in H2. split; [constructor; tauto|]. split; [exact H5|].
    intros x [->|Hx]; [tauto|auto].
Qed.

Lemma NoDup_flat_map_nth {A B} (f : A -> list B) l :
  (forall a, In a l -> NoDup (f a)) ->
  (forall k k' a a' y, nth_error l k = Some a -> nth_error l k' = Some a' ->
     In y (f a) -> In y (f a') -> k = k') ->
  NoDup (flat_map f l).
Proof.
  induction l as [|a l IH]; intros H1 H2; cbn; [constructor|].
  apply NoDup_app_intro.
  - apply H1. now left.
  - apply IH; [intros; apply H1; now right|].
    intros k k' b b' y Hk Hk' Hy Hy'.
    specialize (H2 (S k) (S k') b b' y Hk Hk' Hy Hy'). lia.
  - intros x Hx Hx'. apply in_flat_map in Hx' as (b & Hb & Hxb).
    apply In_nth_error in Hb as (k & Hk).
    specialize (H2 O (S k) a b x eq_refl Hk Hx Hxb). discriminate.
Qed.

Lemma NoDup_flat_map_inv {A B} (f : A -> list B) l :
  NoDup (flat_map f l) ->
  forall k k' a a' y, nth_error l k = Some a -> nth_error l k' = Some a' ->
     In y (f a) -> In y (f a') -> k = k'.
Proof.
  induction l as [|c l IH]; intros H k k' a a' y Hk Hk' Hy Hy'.
  - destruct k; discriminate.
  - cbn in H. apply NoDup_app_inv in H as (H1 & H2 & H3).
    destruct k as [|k], k' as [|k']; cbn in Hk, Hk'.
    + reflexivity.
    + injection Hk as <-. exfalso. apply (H3 y Hy). apply in_flat_map.
      exists a'. split; [eapply nth_error_In; eauto|exact Hy'].
    + injection Hk' as <-. exfalso. apply (H3 y Hy'). apply in_flat_map.
      exists a. split; [eapply nth_error_In; eauto|exact Hy].
    + f_equal. eapply IH; eauto.
Qed.

Lemma NoDup_flat_map_each {A B} (f : A -> list B) l a :
  NoDup (flat_map f l) -> In a l -> NoDup (f a).
Proof.
  induction l as [|c l IH]; cbn; intros H Ha; [contradiction|].
  apply NoDup_app_inv in H as (H1 & H2 & H3).
  destruct Ha as [->|Ha]; auto.
Qed.

(** Elements of a box attached to a piece. *)
Definition box_of {A} (bx : A -> list Z * list Z) (p : A) : list (list Z) :=
  box_list (fst (bx p)) (snd (bx p)).

Definition square {A} (bx : A -> list Z * list Z) (ps : list A) : Prop :=
  forall p, In p ps -> length (fst (bx p)) = length (snd (bx p)).

Lemma tiles_perm {A} (ps : list A) bx lo hi :
  square bx ps -> length lo = length hi ->
  (tiles ps bx (in_box lo hi) <-> Permutation (flat_map (box_of bx) ps) (box_list lo hi)).
Proof.
  intros Hsq Hl. split.
  - intros [T1 T2]. apply NoDup_Permutation.
    + apply NoDup_flat_map_nth.
      * intros a _. apply box_list_NoDup.
      * intros k k' a a' y Hk Hk' Hy Hy'.
        apply box_list_In in Hy; [|apply Hsq; eapply nth_error_In; eauto].
        apply box_list_In in Hy'; [|apply Hsq; eapply nth_error_In; eauto].
        destruct (T2 y (T1 _ _ Hk _ Hy)) as (k0 & p & _ & _ & U).
        rewrite (U _ _ Hk Hy). symmetry. apply (U _ _ Hk' Hy').
    + apply box_list_NoDup.
    + intros x. rewrite in_flat_map, box_list_In by exact Hl. split.
      * intros (p & Hp & Hx). apply box_list_In in Hx; [|auto].
        apply In_nth_error in Hp as (k & Hk). eapply T1; eauto.
      * intros Hx. destruct (T2 x Hx) as (k & p & Hk & Hin & _).
        exists p. split; [eapply nth_error_In; eauto|].
        apply box_list_In; [apply Hsq; eapply nth_error_In; eauto|exact Hin].
  - intros HP.
    assert (HI : forall x, In x (flat_map (box_of bx) ps) <-> in_box lo hi x).
    { intros x. rewrite <- box_list_In by exact Hl. split; apply Permutation_in; auto.
      now apply Permutation_sym. }
    assert (HN : NoDup (flat_map (box_of bx) ps)).
    { eapply Permutation_NoDup; [apply Permutation_sym; exact HP|apply box_list_NoDup]. }
    split.
    + intros k p Hk x Hx. apply HI. apply in_flat_map. exists p.
      split; [eapply nth_error_In; eauto|].
      apply box_list_In; [apply Hsq; eapply nth_error_In; eauto|exact Hx].
    + intros x Hx. apply HI in Hx. apply in_flat_map in Hx as (p & Hp & Hx).
      apply In_nth_error in Hp as (k & Hk).
      exists k, p. split; [exact Hk|]. split.
      { apply box_list_In; [apply Hsq; eapply nth_error_In; eauto|exact Hx]. }
      intros k' p' Hk' Hx'. symmetry.
      eapply NoDup_flat_map_inv with (y := x); [exact HN|exact Hk|exact Hk'|exact Hx|].
      apply box_list_In; [apply Hsq; eapply nth_error_In; eauto|exact Hx'].
Qed.

Lemma flat_map_Permutation {A B} (f : A -> list B) l l' :
  Permutation l l' -> Permutation (flat_map f l) (flat_map f l').
Proof.
  intros H. induction H; cbn.
  - constructor.
  - apply Permutation_app_head. exact IHPermutation.
  - rewrite !app_assoc. apply Permutation_app_tail. apply Permutation_app_comm.
  - eapply perm_trans; eauto.
Qed.

Lemma flat_map_pointwise {A B} (f g : A -> list B) l :
  (forall a, In a l -> Permutation (f a) (g a)) ->
  Permutation (flat_map f l) (flat_map g l).
Proof.
  induction l as [|a l IH]; cbn; intros H; [constructor|].
  apply Permutation_app; [apply H; now left|apply IH; intros; apply H; now right].
Qed.

Lemma flat_map_flat_map {A B C} (f : B -> list C) (g : A -> list B) l :
  flat_map f (flat_map g l) = flat_map (fun a => flat_map f (g a)) l.
Proof.
  induction l as [|a l IH]; cbn; [reflexivity|]. rewrite flat_map_app, IH. reflexivity.
Qed.

(** ---- scan machines ---- *)
Section Scan.
Context {S P : Type}.
Variable visit : S -> option (option P * S).
Variable done : S -> bool.
Variable norm : S -> S.

Fixpoint scan_loop (fuel : nat) (st : S) : option (option (P * S)) :=
  match fuel with
  | O => None
  | Datatypes.S f =>
      match visit st with
      | None => None
      | Some (Some p, st') => Some (Some (p, st'))
      | Some (None, st') => if done st' then Some None else scan_loop f st'
      end
  end.
Definition scan_next (fuel : nat) (st : S) : option (option (P * S)) :=
  if done st then Some None else scan_loop fuel (norm st).

Inductive run : nat -> S -> list P -> Prop :=
| run_done st : done st = true -> run 0 st []
| run_step n st o st' l :
    done st = false -> norm st = st -> visit st = Some (o, st') -> run n st' l ->
    run (Datatypes.S n) st (match o with Some p => p :: l | None => l end).

Lemma run_loop n st l : run n st l -> done st = false ->
  forall fuel, (n <= fuel)%nat ->
  (l = [] /\ scan_loop fuel st = Some None) \/
  exists p l' st' n', l = p :: l' /\ scan_loop fuel st = Some (Some (p, st')) /\
    run n' st' l' /\ (n' < n)%nat.
Proof.
  induction 1 as [st Hd|n st o st' l Hd Hn Hv Hr IH]; intros Hnd fuel Hf; [congruence|].
  destruct fuel as [|fuel]; [lia|]. cbn. rewrite Hv. destruct o as [p|].
  - right. exists p, l, st', n. auto.
  - destruct (done st') eqn:E.
    + left. inversion Hr; subst; [split; reflexivity|congruence].
    + destruct (IH eq_refl fuel ltac:(lia)) as [[-> H]|(p & l' & st2 & n' & -> & H & Hr' & Hlt)].
      * left. auto.
      * right. exists p, l', st2, n'. repeat split; auto.
Qed.

Lemma run_norm n st l : run n st l -> done st = false -> norm st = st.
Proof. intros H. inversion H; subst; congruence. Qed.
End Scan.

Lemma run_drain {S} (visit : S -> option (option ipiece * S)) done norm n st l :
  run visit done norm n st l ->
  forall fuel' fuel, (n <= fuel')%nat -> (n < fuel)%nat ->
  drain (scan_next visit done norm fuel') fuel st = Some l.
Proof.
  revert st l. induction n as [n IH] using lt_wf_ind. intros st l H fuel' fuel Hf' Hf.
  destruct fuel as [|fuel]; [lia|]. cbn. unfold scan_next at 1.
  destruct (done st) eqn:E.
  - inversion H; subst; [reflexivity|congruence].
  - rewrite (run_norm _ _ _ _ _ _ H E).
    destruct (run_loop _ _ _ _ _ _ H E fuel' Hf') as
      [[-> Hs]|(p & l' & st' & n' & -> & Hs & Hr & Hlt)]; rewrite Hs; [reflexivity|].
    rewrite (IH n' Hlt st' l' Hr fuel' fuel) by lia. reflexivity.
Qed.

Lemma drain_ext {S} (f g : S -> option (option (ipiece * S))) fuel st :
  (forall st, f st = g st) -> drain f fuel st = drain g fuel st.
Proof.
  intros H. revert st. induction fuel as [|fuel IH]; intros st; cbn; [reflexivity|].
  rewrite H. destruct (g st) as [[[p st']|]|]; auto. now rewrite IH.
Qed.
