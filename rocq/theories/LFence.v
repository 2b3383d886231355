(** Lemmas for the completion of stores. *)
From Coq Require Import ZArith List Lia Bool.
From Verif Require Import MBase MFence.
Import ListNotations.
Open Scope Z_scope.

Lemma set_same {A} (f : Z -> A) i x : set_at f i x i = x.
Proof. unfold set_at. rewrite Z.eqb_refl. reflexivity. Qed.
Lemma set_other {A} (f : Z -> A) i j x : j <> i -> set_at f i x j = f j.
Proof. unfold set_at. intros H. replace (j =? i) with false by lia. reflexivity. Qed.

Section Fence.
Variable k : fcfg.
Definition inr (p : Z) : Prop := 0 <= p < k_n k.
Hypothesis masters : forall p, inr p -> inr (k_master k p) /\ k_master k (k_master k p) = k_master k p.

(** Stores to [p] that have not arrived; all stores to [p]. *)
Definition todo (s : fstate) (p : Z) : list Z := map snd (filter (fun x => fst x =? p) (x_queue s (k_master k p))).
Definition sent (s : fstate) (p : Z) : list Z := x_done s p ++ todo s p.
Definition binv (s : fstate) : Prop :=
  (forall q, x_queue s q <> [] -> x_mark s q = true) /\
  (forall q, x_mark s q = true -> inr q /\ k_master k q = q) /\
  (forall q p i, In (p, i) (x_queue s q) -> k_master k p = q).

Lemma serve_ok s q : binv s -> binv (serve s q) /\ (forall p, sent (serve s q) p = sent s p) /\
  x_mark (serve s q) = x_mark s /\ f_mark (serve s q) = f_mark s /\ f_set (serve s q) = f_set s /\
  x_queue (serve s q) q = tl (x_queue s q) /\ (forall r, r <> q -> x_queue (serve s q) r = x_queue s r).
Proof.
  intros (B1 & B3 & B2). unfold serve. destruct (x_queue s q) as [|[p i] l] eqn:E.
  - rewrite E. split; [exact (conj B1 (conj B3 B2))|auto 10].
  - cbn [x_queue x_mark f_mark f_set]. assert (MP : k_master k p = q) by (apply (B2 q p i); rewrite E; left; reflexivity).
    split; [|split; [|split; [reflexivity|split; [reflexivity|split; [reflexivity|split; [apply set_same|intros; apply set_other; assumption]]]]]].
    + split; [|split; [exact B3|]]; cbn [x_queue x_mark].
      * intros r Hr. destruct (Z.eq_dec r q) as [->|N]; [apply B1; rewrite E; discriminate|]. rewrite set_other in Hr by exact N. apply B1. exact Hr.
      * intros r p' i' HI. destruct (Z.eq_dec r q) as [->|N]; [rewrite set_same in HI; apply (B2 q p' i'); rewrite E; right; exact HI|].
        rewrite set_other in HI by exact N. apply (B2 r p' i' HI).
    + intros p'. unfold sent, todo. cbn [x_queue x_done]. destruct (Z.eq_dec (k_master k p') q) as [EM|N].
      * rewrite EM, set_same, E. cbn [filter fst]. destruct (Z.eq_dec p' p) as [->|N'].
        -- rewrite set_same, Z.eqb_refl. cbn [map snd]. rewrite <- app_assoc. reflexivity.
        -- rewrite set_other by exact N'. replace (p =? p') with false by lia. reflexivity.
      * rewrite (set_other (x_queue s)) by exact N. rewrite set_other; [reflexivity|]. intros ->. congruence.
Qed.

Lemma serve_n_ok n : forall s q, binv s -> binv (serve_n n s q) /\ (forall p, sent (serve_n n s q) p = sent s p) /\
  x_mark (serve_n n s q) = x_mark s /\ f_mark (serve_n n s q) = f_mark s /\ f_set (serve_n n s q) = f_set s /\
  x_queue (serve_n n s q) q = skipn n (x_queue s q) /\ (forall r, r <> q -> x_queue (serve_n n s q) r = x_queue s r).
Proof.
  induction n as [|n IH]; intros s q B; cbn [serve_n]; [auto 10|].
  destruct (serve_ok s q B) as (B1 & S1 & X1 & F1 & G1 & Q1 & R1). destruct (IH (serve s q) q B1) as (B2 & S2 & X2 & F2 & G2 & Q2 & R2).
  split; [exact B2|]. split; [intros p; rewrite S2; apply S1|]. split; [congruence|]. split; [congruence|]. split; [congruence|].
  split; [rewrite Q2, Q1; destruct (x_queue s q); [destruct n; reflexivity|reflexivity]|]. intros r Hr. rewrite R2, R1 by exact Hr. reflexivity.
Qed.

Lemma drain_ok s q : binv s -> binv (drain s q) /\ (forall p, sent (drain s q) p = sent s p) /\
  x_mark (drain s q) = x_mark s /\ f_mark (drain s q) = f_mark s /\ f_set (drain s q) = f_set s /\
  x_queue (drain s q) q = [] /\ (forall r, r <> q -> x_queue (drain s q) r = x_queue s r).
Proof.
  intros B. unfold drain. destruct (serve_n_ok (length (x_queue s q)) s q B) as (H1 & H2 & H3 & H4 & H5 & H6 & H7). rewrite skipn_all in H6. auto 10.
Qed.

(** States in which more has arrived. *)
Definition later (s s' : fstate) : Prop :=
  binv s' /\ (forall p, sent s' p = sent s p) /\ f_mark s' = f_mark s /\ f_set s' = f_set s /\ (forall r, incl (x_queue s' r) (x_queue s r)).
Lemma incl_nil_r {A} (l m : list A) : incl l m -> m = [] -> l = [].
Proof. intros H ->. destruct l as [|x l]; [reflexivity|]. destruct (H x). left; reflexivity. Qed.
Lemma later_refl s : binv s -> later s s.
Proof. intros B. split; [exact B|]. split; [reflexivity|]. split; [reflexivity|]. split; [reflexivity|]. intros r. apply incl_refl. Qed.
Lemma later_trans s1 s2 s3 : later s1 s2 -> later s2 s3 -> later s1 s3.
Proof. intros (A1 & A2 & A3 & A4 & A5) (B1 & B2 & B3 & B4 & B5). split; [exact B1|]. split; [intros p; rewrite B2; apply A2|]. split; [congruence|]. split; [congruence|]. intros r. eapply incl_tran; [apply B5|apply A5]. Qed.
Lemma serve_later s q : binv s -> later s (serve s q).
Proof.
  intros B. destruct (serve_ok s q B) as (B1 & S1 & X1 & F1 & G1 & Q1 & R1). split; [exact B1|]. split; [exact S1|]. split; [exact F1|]. split; [exact G1|].
  intros r. destruct (Z.eq_dec r q) as [->|N]; [rewrite Q1; destruct (x_queue s q); [apply incl_refl|apply incl_tl, incl_refl]|rewrite R1 by assumption; apply incl_refl].
Qed.
Lemma drain_later s q : binv s -> later s (drain s q) /\ x_queue (drain s q) q = [].
Proof.
  intros B. destruct (drain_ok s q B) as (B1 & S1 & X1 & F1 & G1 & Q1 & R1). split; [|exact Q1]. split; [exact B1|]. split; [exact S1|]. split; [exact F1|]. split; [exact G1|].
  intros r. destruct (Z.eq_dec r q) as [->|N]; [rewrite Q1; apply incl_nil_l|rewrite R1 by assumption; apply incl_refl].
Qed.
Lemma unmark_drain s q : binv s -> later s (unmark (drain s q) q) /\ x_queue (unmark (drain s q) q) q = [].
Proof.
  intros B. destruct (drain_later s q B) as ((B1 & S1 & F1 & G1 & R1) & Q1). split; [|exact Q1].
  split; [|split; [exact S1|split; [exact F1|split; [exact G1|exact R1]]]].
  destruct B1 as (B1 & B3 & B2). split; [|split; [|exact B2]]; cbn.
  - intros r Hr. rewrite set_other; [exact (B1 r Hr)|]. intros ->. exact (Hr Q1).
  - intros r Hr. destruct (Z.eq_dec r q) as [->|N]; [rewrite set_same in Hr; discriminate|]. rewrite set_other in Hr by exact N. auto.
Qed.
Lemma fence_master_ok s q : binv s -> later s (fence_master s q) /\ x_queue (fence_master s q) q = [].
Proof.
  intros B. unfold fence_master. destruct (x_mark s q) eqn:E; [apply unmark_drain; exact B|]. split; [apply later_refl; exact B|].
  destruct (x_queue s q) eqn:Q; [reflexivity|]. destruct B as (B1 & _). rewrite (B1 q) in E; [discriminate|rewrite Q; discriminate].
Qed.
Lemma all_arrived s p : x_queue s (k_master k p) = [] -> x_done s p = sent s p.
Proof. intros E. unfold sent, todo. rewrite E. cbn. rewrite app_nil_r. reflexivity. Qed.

Lemma fence_all_ok ps : forall s, binv s ->
  exists s', fence_all k ps s = Some s' /\ later s s' /\ forall p, In p ps -> x_queue s' p = [].
Proof.
  induction ps as [|p ps IH]; intros s B; cbn [fence_all]; [exists s; split; [reflexivity|split; [apply later_refl; exact B|intros ? []]]|].
  destruct (x_mark s p) eqn:E.
  - destruct (proj1 (proj2 B) p E) as (_ & EM). rewrite EM, Z.eqb_refl. destruct (unmark_drain s p B) as (L & Q). 
    destruct (IH (unmark (drain s p) p) (proj1 L)) as (s' & E' & L' & Q').
    exists s'. split; [exact E'|]. split; [eapply later_trans; eauto|]. intros r [->|HI]; [|apply Q'; exact HI]. destruct L' as (_ & _ & _ & _ & R). apply (incl_nil_r _ _ (R _)). exact Q.
  - destruct (IH s B) as (s' & E' & L' & Q'). exists s'. split; [exact E'|]. split; [exact L'|].
    intros r [->|HI]; [|apply Q'; exact HI]. destruct L' as (_ & _ & _ & _ & R). apply (incl_nil_r _ _ (R _)).
    destruct (x_queue s r) eqn:Q; [reflexivity|]. destruct B as (B1 & _). rewrite (B1 r) in E; [discriminate|rewrite Q; discriminate].
Qed.

Lemma fence_members_ok ps : forall s, binv s -> later s (fence_members k ps s) /\ forall p, In p ps -> x_queue (fence_members k ps s) (k_master k p) = [].
Proof.
  induction ps as [|p ps IH]; intros s B; cbn [fence_members]; [split; [apply later_refl; exact B|intros ? []]|].
  destruct (fence_master_ok s (k_master k p) B) as (L & Q). fold (fence_proc k s p) in L, Q. destruct (IH _ (proj1 L)) as (L' & Q'). split; [eapply later_trans; eauto|].
  intros r [->|HI]; [|apply Q'; exact HI]. destruct L' as (_ & _ & _ & _ & R). apply (incl_nil_r _ _ (R _)). exact Q.
Qed.
Lemma fence_marked_ok ps : forall s, binv s -> later s (fence_marked k ps s) /\ forall p, In p ps -> f_mark s p = true -> x_queue (fence_marked k ps s) (k_master k p) = [].
Proof.
  induction ps as [|p ps IH]; intros s B; cbn [fence_marked]; [split; [apply later_refl; exact B|intros ? []]|].
  destruct (f_mark s p) eqn:E.
  - destruct (fence_master_ok s (k_master k p) B) as (L & Q). fold (fence_proc k s p) in L, Q. destruct (IH _ (proj1 L)) as (L' & Q'). split; [eapply later_trans; eauto|].
    intros r [->|HI] HR; [destruct L' as (_ & _ & _ & _ & R); apply (incl_nil_r _ _ (R _)); exact Q|]. apply Q'; [exact HI|]. destruct L as (_ & _ & F & _). rewrite F. exact HR.
  - destruct (IH s B) as (L' & Q'). split; [exact L'|]. intros r [->|HI] HR; [congruence|auto].
Qed.

Lemma send_store_ok s p d i : binv s -> inr p ->
  let s' := send_store k s p d i in
  binv s' /\ (forall r, sent s' r = sent s r ++ (if r =? p then [i] else [])) /\ f_mark s' = f_mark s /\ f_set s' = f_set s /\
  (forall r x, In x (x_queue s' r) -> In x (x_queue s r) \/ fst x = p).
Proof.
  intros B HP. cbv zeta. unfold send_store. destruct d.
  - destruct (fence_master_ok s (k_master k p) B) as ((B1 & S1 & F1 & G1 & R1) & Q1). set (s1 := fence_master s (k_master k p)) in *.
    split; [exact B1|]. split; [|split; [exact F1|split; [exact G1|intros r x HI; left; apply (R1 r); exact HI]]].
    intros r. unfold sent, todo in *. cbn [x_done x_queue]. destruct (Z.eq_dec r p) as [->|N].
    + rewrite set_same, Z.eqb_refl, <- S1, Q1. cbn. rewrite !app_nil_r. reflexivity.
    + rewrite set_other by exact N. replace (r =? p) with false by lia. rewrite app_nil_r. apply S1.
  - destruct B as (B1 & B3 & B2). destruct (masters p HP) as (MI & MM). split; [split; [|split]; cbn [x_queue x_mark]|split; [|split; [reflexivity|split; [reflexivity|]]]].
    + intros r Hr. destruct (Z.eq_dec r (k_master k p)) as [->|N]; [apply set_same|]. rewrite set_other in Hr by exact N. rewrite set_other by exact N. auto.
    + intros r Hr. destruct (Z.eq_dec r (k_master k p)) as [->|N]; [auto|]. rewrite set_other in Hr by exact N. auto.
    + intros r p' i' HI. destruct (Z.eq_dec r (k_master k p)) as [->|N]; [|rewrite set_other in HI by exact N; eauto].
      rewrite set_same in HI. apply in_app_iff in HI as [HI|[HI|[]]]; [eauto|]. injection HI as <- <-. reflexivity.
    + intros r. unfold sent, todo. cbn [x_done x_queue]. rewrite <- app_assoc. f_equal. destruct (Z.eq_dec (k_master k r) (k_master k p)) as [E|N].
      * rewrite E, set_same, filter_app, map_app. f_equal. cbn [filter fst]. rewrite Z.eqb_sym. destruct (r =? p); reflexivity.
      * rewrite set_other by exact N. assert (r <> p) by congruence. replace (r =? p) with false by lia. rewrite app_nil_r. reflexivity.
    + intros r x HI. cbn [x_queue] in HI. destruct (Z.eq_dec r (k_master k p)) as [->|N]; [|rewrite set_other in HI by exact N; auto].
      rewrite set_same in HI. apply in_app_iff in HI as [HI|[<-|[]]]; auto.
Qed.

(** ---- histories ---- *)
Definition good_piece (x : fpiece) : Prop := inr (g_to x) /\ match g_mark x with Some r => inr r | None => True end.
Definition good_fevent (e : fevent) : Prop :=
  match e with
  | FStore i l => Forall good_piece l
  | FGet p _ => inr p
  | FGroupSync ps => Forall inr ps
  | _ => True
  end.
Definition to_p (p i : Z) (l : list fpiece) : list Z := map (fun _ => i) (filter (fun x => g_to x =? p) l).
Definition issued1 (p : Z) (e : fevent) : list Z := match e with FStore i l => to_p p i l | _ => [] end.
Definition issued (p : Z) (h : list fevent) : list Z := flat_map (issued1 p) h.
Definition marked_piece (x : fpiece) : Prop := g_mark x = Some (g_to x).

Lemma store_pieces_ok i l : forall s, binv s -> Forall good_piece l ->
  exists s', store_pieces k i s l = Some s' /\ binv s' /\ (forall p, sent s' p = sent s p ++ to_p p i l) /\ f_set s' = f_set s /\
    (forall p, f_mark s p = true -> f_mark s' p = true) /\
    (f_set s <> 0 -> forall x, In x l -> marked_piece x -> f_mark s' (g_to x) = true) /\
    (forall r x, In x (x_queue s' r) -> In x (x_queue s r) \/ In (fst x) (map g_to l)).
Proof.
  induction l as [|x l IH]; intros s B G; cbn [store_pieces].
  - exists s. split; [reflexivity|]. split; [exact B|]. split; [intros; cbn; rewrite app_nil_r; reflexivity|]. split; [reflexivity|]. split; [auto|]. split; [intros ? ? []|auto].
  - inversion G as [|? ? (G1 & G2) G3]; subst.
    assert (M : exists s1, (match g_mark x with
           | Some r => if f_set s =? 0 then Some s else if (0 <=? r) && (r <? k_n k) then Some (FState (f_set s) (set_at (f_mark s) r true) (x_mark s) (x_queue s) (x_done s)) else None
           | None => Some s end) = Some s1 /\ binv s1 /\ (forall p, sent s1 p = sent s p) /\ f_set s1 = f_set s /\ (forall p, f_mark s p = true -> f_mark s1 p = true) /\
           (f_set s <> 0 -> marked_piece x -> f_mark s1 (g_to x) = true) /\ x_queue s1 = x_queue s).
    { unfold marked_piece. destruct (g_mark x) as [r|]; [|exists s; split; [reflexivity|]; split; [exact B|]; split; [reflexivity|]; split; [reflexivity|]; split; [auto|]; split; [intros _ [=]|reflexivity]].
      destruct (f_set s =? 0) eqn:E; [exists s; split; [reflexivity|]; split; [exact B|]; split; [reflexivity|]; split; [reflexivity|]; split; [auto|]; split; [intros; lia|reflexivity]|]. unfold inr in G2. replace ((0 <=? r) && (r <? k_n k)) with true by lia.
      eexists. split; [reflexivity|]. split; [exact B|]. split; [reflexivity|]. split; [reflexivity|]. split; [|split; [|reflexivity]].
      - intros p Hp. cbn. destruct (Z.eq_dec p r) as [->|N]; [apply set_same|rewrite set_other by exact N; exact Hp].
      - intros _ [= ->]. apply set_same. }
    destruct M as (s1 & E1 & B1 & S1 & F1 & M1 & K1 & Q1). unfold store_piece. rewrite E1. cbv beta iota.
    destruct (send_store_ok s1 (g_to x) (g_direct x) i B1 G1) as (B2 & S2 & M2 & F2 & Q2). set (s2 := send_store k s1 (g_to x) (g_direct x) i) in *.
    destruct (IH s2 B2 G3) as (s' & E' & B' & S' & F' & M' & K' & Q'). exists s'. split; [exact E'|]. split; [exact B'|]. split; [|split; [congruence|split; [|split]]].
    + intros p. rewrite S', S2, S1, <- app_assoc. f_equal. unfold to_p. cbn [filter]. rewrite Z.eqb_sym. destruct (g_to x =? p); reflexivity.
    + intros p Hp. apply M'. rewrite M2. auto.
    + intros Hf y [->|HI] HM; [apply M'; rewrite M2; auto|]. apply K'; auto. congruence.
    + intros r y HI. destruct (Q' r y HI) as [HQ|HQ]; [|right; right; exact HQ]. destruct (Q2 r y HQ) as [HQ2|HQ2]; [left; rewrite <- Q1; exact HQ2|right; left; symmetry; exact HQ2].
Qed.

Lemma reset_later s : binv s -> binv (reset_fence s) /\ (forall p, sent (reset_fence s) p = sent s p) /\ x_queue (reset_fence s) = x_queue s.
Proof. intros B. unfold reset_fence. destruct (f_set s =? 0); split; try exact B; split; reflexivity. Qed.

Lemma in_zrange n p : 0 <= p < n -> In p (zrange n).
Proof. intros H. unfold zrange. apply in_map_iff. exists (Z.to_nat p). split; [lia|]. apply in_seq. lia. Qed.

Lemma fence_ok s : binv s -> 1 <= f_set s -> exists s', ga_fence k s = Some s' /\ binv s' /\ (forall p, sent s' p = sent s p) /\ f_set s' = f_set s - 1 /\
  (forall r, incl (x_queue s' r) (x_queue s r)) /\ (forall p, inr p -> f_mark s p = true -> x_queue s' (k_master k p) = []).
Proof.
  intros B F. unfold ga_fence. replace (f_set s <? 1) with false by lia. eexists. split; [reflexivity|].
  set (s1 := FState (f_set s - 1) (f_mark s) (x_mark s) (x_queue s) (x_done s)). assert (B1 : binv s1) by exact B.
  destruct (fence_marked_ok (zrange (k_n k)) s1 B1) as ((B2 & S2 & _ & F2 & R2) & Q2).
  split; [exact B2|]. split; [exact S2|]. split; [exact F2|]. split; [exact R2|]. intros p Hp HM. apply Q2; [apply in_zrange; exact Hp|exact HM].
Qed.

(** Invariant of all histories: marks are only set by the functions above. *)
Lemma step_ok s e : binv s -> good_fevent e -> (e = FFence -> 1 <= f_set s) ->
  exists s' o, fstep k s e = Some (s', o) /\ binv s' /\ (forall p, sent s' p = sent s p ++ issued1 p e) /\
    f_set s' = match e with FInit => f_set s + 1 | FFence => f_set s - 1 | FSync | FGroupSync _ => 0 | _ => f_set s end /\
    match e with
    | FGet p _ => o = [(p, sent s p)]
    | FSync => o = [] /\ forall p, inr p -> x_done s' p = sent s' p
    | FGroupSync ps => o = [] /\ forall p, In p ps -> x_done s' p = sent s' p
    | _ => o = []
    end.
Proof.
  intros B G HF. destruct e as [i l|p d| | | |ps|q]; cbn [fstep].
  - destruct (store_pieces_ok i l s B G) as (s' & E & B' & S' & F' & _). rewrite E. exists s', []. auto 10.
  - unfold send_get. cbn [fst snd]. destruct d.
    + destruct (fence_master_ok s (k_master k p) B) as ((B' & S' & _ & F' & _) & Q'). eexists _, _. split; [reflexivity|]. split; [exact B'|]. split; [intros r; cbn; rewrite app_nil_r; apply S'|]. split; [exact F'|].
      rewrite all_arrived by exact Q'. rewrite S'. reflexivity.
    + destruct (drain_later s (k_master k p) B) as ((B' & S' & _ & F' & _) & Q'). eexists _, _. split; [reflexivity|]. split; [exact B'|]. split; [intros r; cbn; rewrite app_nil_r; apply S'|]. split; [exact F'|].
      rewrite all_arrived by exact Q'. rewrite S'. reflexivity.
  - eexists _, _. split; [reflexivity|]. split; [exact B|]. split; [intros r; cbn; rewrite app_nil_r; reflexivity|]. auto.
  - destruct (fence_ok s B (HF eq_refl)) as (s' & E & B' & S' & F' & _). rewrite E. exists s', []. split; [reflexivity|]. split; [exact B'|]. split; [intros r; cbn; rewrite app_nil_r; apply S'|]. auto.
  - unfold ga_sync. destruct (fence_all_ok (zrange (k_n k)) s B) as (s' & E & (B' & S' & _ & _ & _) & Q').
    rewrite E. destruct (reset_later s' B') as (B2 & S2 & Q2). exists (reset_fence s'), []. split; [reflexivity|]. split; [exact B2|].
    split; [intros r; cbn [issued1]; rewrite app_nil_r, S2; apply S'|]. split; [reflexivity|].
    split; [reflexivity|]. intros p Hp. apply all_arrived. rewrite Q2. apply Q'. apply in_zrange. apply (masters p Hp).
  - unfold group_sync. destruct (fence_members_ok ps s B) as ((B' & S' & _ & _ & _) & Q').
    destruct (reset_later _ B') as (B2 & S2 & Q2). exists (reset_fence (fence_members k ps s)), []. split; [reflexivity|]. split; [exact B2|].
    split; [intros r; cbn [issued1]; rewrite app_nil_r, S2; apply S'|]. split; [reflexivity|].
    split; [reflexivity|]. intros p Hp. apply all_arrived. rewrite Q2. apply Q'. exact Hp.
  - destruct (serve_later s q B) as (B' & S' & _ & F' & _). eexists _, _. split; [reflexivity|]. split; [exact B'|]. split; [intros r; cbn; rewrite app_nil_r; apply S'|]. auto.
Qed.

(** The number of fences open after a history that starts with [d] open ones;
    none if a fence is called without one. *)
Fixpoint depth (d : Z) (h : list fevent) : option Z :=
  match h with
  | [] => Some d
  | e :: h => match e with
              | FInit => depth (d + 1) h
              | FFence => if 1 <=? d then depth (d - 1) h else None
              | FSync | FGroupSync _ => depth 0 h
              | _ => depth d h
              end
  end.
Definition gets1 (s : fstate) (e : fevent) : list (Z * list Z) := match e with FGet p _ => [(p, sent s p)] | _ => [] end.

(** What the gets of a history observe: the stores issued before. *)
Fixpoint reads_own (h0 h : list fevent) : list (Z * list Z) :=
  match h with
  | [] => []
  | e :: h => (match e with FGet p _ => [(p, issued p h0)] | _ => [] end) ++ reads_own (h0 ++ [e]) h
  end.

Lemma run_ok h : forall s h0 d, binv s -> (forall p, sent s p = issued p h0) -> Forall good_fevent h -> depth (f_set s) h = Some d ->
  exists s', frun k s h = Some (s', reads_own h0 h) /\ binv s' /\ (forall p, sent s' p = issued p (h0 ++ h)) /\ f_set s' = d.
Proof.
  induction h as [|e h IH]; intros s h0 d B S0 G D; cbn [frun reads_own].
  - cbn in D. injection D as <-. exists s. rewrite app_nil_r. auto.
  - inversion G as [|? ? G1 G2]; subst. destruct (step_ok s e B G1) as (s1 & o & E & B1 & S1 & F1 & O1).
    { intros ->. cbn [depth] in D. destruct (1 <=? f_set s) eqn:?; [lia|discriminate]. }
    rewrite E. destruct (IH s1 (h0 ++ [e]) d B1) as (s' & E' & B' & S' & F').
    + intros p. rewrite S1, S0. unfold issued. rewrite flat_map_app. cbn [flat_map]. rewrite app_nil_r. reflexivity.
    + exact G2.
    + rewrite F1. cbn [depth] in D. destruct e; try exact D. destruct (1 <=? f_set s); [exact D|discriminate].
    + cbn [fst snd]. rewrite E'. cbn [fst snd]. exists s'. split; [|split; [exact B'|split; [intros p; rewrite S', <- app_assoc; reflexivity|exact F']]].
      f_equal. f_equal. f_equal. destruct e; try exact O1; try apply O1. rewrite O1, S0. reflexivity.
Qed.

(** Along a history within a fence: what was stored with a mark is marked or has arrived. *)
Definition in_fence (e : fevent) : Prop := match e with FSync | FGroupSync _ => False | _ => True end.
Fixpoint inside (d : Z) (h : list fevent) : Prop :=
  match h with
  | [] => d = 1
  | e :: h => match e with
              | FInit => inside (d + 1) h
              | FFence => 1 < d /\ inside (d - 1) h
              | FSync | FGroupSync _ => False
              | _ => inside d h
              end
  end.
Definition marked_event (e : fevent) : Prop := match e with FStore _ l => Forall marked_piece l | _ => True end.
Definition targets (e : fevent) : list Z := match e with FStore _ l => map g_to l | _ => [] end.
Definition covered (s : fstate) (p : Z) : Prop := f_mark s p = true \/ todo s p = [].


Lemma todo_queue s p : x_queue s (k_master k p) = [] -> todo s p = [].
Proof. intros E. unfold todo. rewrite E. reflexivity. Qed.
Lemma todo_incl s s' p : (forall x, In x (x_queue s' (k_master k p)) -> In x (x_queue s (k_master k p)) \/ fst x <> p) -> todo s p = [] -> todo s' p = [].
Proof.
  unfold todo. intros H E. destruct (filter (fun x => fst x =? p) (x_queue s' (k_master k p))) as [|y l] eqn:F; [reflexivity|]. exfalso.
  assert (HI : In y (filter (fun x => fst x =? p) (x_queue s' (k_master k p)))) by (rewrite F; left; reflexivity). apply filter_In in HI as (HI & HP).
  destruct (H y HI) as [HQ|HQ]; [|lia]. assert (HI2 : In (snd y) (map snd (filter (fun x => fst x =? p) (x_queue s (k_master k p))))).
  { apply in_map. apply filter_In. auto. }
  rewrite E in HI2. destruct HI2.
Qed.
Lemma later_covered s s' p : later s s' -> covered s p -> covered s' p.
Proof. intros (_ & _ & F & _ & R) [H|H]; [left; rewrite F; exact H|right]. apply (todo_incl s); [|exact H]. intros x HI. left. apply (R _). exact HI. Qed.

Lemma inside_ok h : forall s d s' o (T : list Z), binv s -> 1 <= d <= f_set s -> inside d h -> Forall good_fevent h -> Forall marked_event h ->
  (forall p, In p T -> inr p /\ covered s p) -> frun k s h = Some (s', o) ->
  (forall p, In p (T ++ flat_map targets h) -> inr p /\ covered s' p) /\ 1 <= f_set s'.
Proof.
  induction h as [|e h IH]; intros s d s' o T B HD HN HG HM HT E; cbn [frun flat_map] in *.
  - injection E as <- <-. rewrite app_nil_r. split; [exact HT|lia].
  - inversion HG as [|? ? G1 G2]; inversion HM as [|? ? M1 M2]; subst. rewrite app_assoc. destruct e as [i l|p d0| | | |ps|q]; cbn [fstep inside targets] in *.
    + destruct (store_pieces_ok i l s B G1) as (s1 & E1 & B1 & _ & F1 & K1 & N1 & Q1). rewrite E1 in E. cbn [fst snd] in E. destruct (frun k s1 h) as [[s2 o2]|] eqn:E2; [|discriminate]. cbn [fst snd] in E. injection E as <- <-.
      apply (IH s1 d s2 o2 (T ++ map g_to l) B1); auto; [lia|]. intros p HI.
      destruct (in_dec Z.eq_dec p (map g_to l)) as [HL|HL].
      * apply in_map_iff in HL as (x & <- & HL). split; [apply (proj1 (proj1 (Forall_forall _ _) G1 x HL))|]. left. apply N1; [lia|exact HL|]. apply (proj1 (Forall_forall _ _) M1 x HL).
      * apply in_app_iff in HI as [HI|HI]; [|contradiction]. destruct (HT p HI) as (HR & [HC|HC]); (split; [exact HR|]); [left; apply K1; exact HC|right].
        apply (todo_incl s); [|exact HC]. intros x HX. destruct (Q1 _ x HX) as [HY|HY]; [left; exact HY|right]. intros <-. contradiction.
    + assert (L : later s (fst (send_get k s p d0))) by (unfold send_get; destruct d0; [apply fence_master_ok|apply drain_later]; exact B).
      set (r := send_get k s p d0) in *. cbn [fst snd] in E. destruct (frun k (fst r) h) as [[s2 o2]|] eqn:E2; [|discriminate]. cbn [fst snd] in E. injection E as <- <-. rewrite app_nil_r.
      apply (IH (fst r) d s2 o2 T (proj1 L)); auto.
      * destruct L as (_ & _ & _ & -> & _). exact HD.
      * intros p' HI. destruct (HT p' HI) as (HR & HC). split; [exact HR|]. apply (later_covered s); assumption.
    + cbn [fst snd] in E. destruct (frun k (init_fence s) h) as [[s2 o2]|] eqn:E2; [|discriminate]. cbn [fst snd] in E. injection E as <- <-. rewrite app_nil_r. apply (IH (init_fence s) (d + 1) s2 o2 T B); auto. cbn. lia.
    + destruct (fence_ok s B ltac:(lia)) as (s1 & E1 & B1 & _ & F1 & R1 & Q1). rewrite E1 in E. cbn [fst snd] in E. destruct (frun k s1 h) as [[s2 o2]|] eqn:E2; [|discriminate]. cbn [fst snd] in E. injection E as <- <-. rewrite app_nil_r.
      apply (IH s1 (d - 1) s2 o2 T B1); [lia|apply HN| | | |exact E2]; auto. intros p HI. destruct (HT p HI) as (HR & [HC|HC]); (split; [exact HR|]); right.
      * apply todo_queue. apply Q1; assumption.
      * apply (todo_incl s); [|exact HC]. intros x HX. left. apply (R1 _). exact HX.
    + destruct HN.
    + destruct HN.
    + assert (L := serve_later s q B). cbn [fst snd] in E. destruct (frun k (serve s q) h) as [[s2 o2]|] eqn:E2; [|discriminate]. cbn [fst snd] in E. injection E as <- <-. rewrite app_nil_r.
      apply (IH (serve s q) d s2 o2 T (proj1 L)); auto.
      * destruct L as (_ & _ & _ & -> & _). exact HD.
      * intros p' HI. destruct (HT p' HI) as (HR & HC). split; [exact HR|]. apply (later_covered s); assumption.
Qed.

Lemma frun_app h1 : forall h2 s, frun k s (h1 ++ h2) =
  match frun k s h1 with Some (s1, o1) => match frun k s1 h2 with Some (s2, o2) => Some (s2, o1 ++ o2) | None => None end | None => None end.
Proof.
  induction h1 as [|e h1 IH]; intros h2 s; cbn [app frun]; [destruct (frun k s h2) as [[? ?]|]; reflexivity|].
  destruct (fstep k s e) as [[s1 o1]|]; [|reflexivity]. cbn [fst snd]. rewrite IH. destruct (frun k s1 h1) as [[s2 o2]|]; [|reflexivity]. cbn [fst snd]. destruct (frun k s2 h2) as [[s3 o3]|]; [|reflexivity]. cbn [fst snd]. rewrite app_assoc. reflexivity.
Qed.
Lemma depth_app h1 : forall h2 d, depth d (h1 ++ h2) = match depth d h1 with Some e => depth e h2 | None => None end.
Proof. induction h1 as [|e h1 IH]; intros h2 d; cbn [app depth]; [reflexivity|]. destruct e; auto. destruct (1 <=? d); auto. Qed.
Lemma depth_inside h : forall d e, inside d h -> d <= e -> depth e h = Some (e - d + 1).
Proof.
  induction h as [|x h IH]; intros d e HN HL; cbn [inside depth] in *; [f_equal; lia|]. destruct x; auto; try contradiction.
  - rewrite (IH (d + 1)); [f_equal; lia|exact HN|lia].
  - destruct HN as (H1 & H2). replace (1 <=? e) with true by lia. rewrite (IH (d - 1)); [f_equal; lia|exact H2|lia].
Qed.
Lemma binv_start : binv fstart.
Proof. split; [intros q H; exfalso; apply H; reflexivity|split; [intros q [=]|intros q p i []]]. Qed.
Lemma sent_start p : sent fstart p = issued p [].
Proof. reflexivity. Qed.
Lemma depth_nonneg h : forall d e, 0 <= d -> depth d h = Some e -> 0 <= e.
Proof.
  induction h as [|x h IH]; intros d e H D; cbn [depth] in D; [injection D as <-; exact H|]. destruct x; eauto; try (eapply IH; [|exact D]; lia).
  destruct (1 <=? d) eqn:?; [|discriminate]. eapply IH; [|exact D]. lia.
Qed.

(** A fence completes the marked stores since the matching init_fence. *)
Lemma fence_completes h1 h2 d : Forall good_fevent (h1 ++ h2) -> depth 0 h1 = Some d -> inside 1 h2 -> Forall marked_event h2 ->
  exists s, frun k fstart (h1 ++ FInit :: h2 ++ [FFence]) = Some (s, reads_own [] (h1 ++ FInit :: h2 ++ [FFence])) /\
    (forall p, x_done s p ++ todo s p = issued p (h1 ++ h2)) /\
    forall p, In p (flat_map targets h2) -> x_done s p = issued p (h1 ++ h2).
Proof.
  intros G D N M. apply Forall_app in G as (G1 & G2). assert (D0 := depth_nonneg h1 0 d ltac:(lia) D).
  destruct (run_ok (h1 ++ FInit :: h2 ++ [FFence]) fstart [] d binv_start sent_start) as (s & E & B & S & F).
  { apply Forall_app. split; [exact G1|]. apply Forall_cons; [exact Logic.I|]. apply Forall_app. split; [exact G2|]. apply Forall_cons; [exact Logic.I|apply Forall_nil]. }
  { rewrite depth_app. cbn [fstart f_set]. rewrite D. cbn [depth]. rewrite depth_app, (depth_inside h2 1) by (assumption || lia). cbn [depth]. replace (1 <=? d + 1 - 1 + 1) with true by lia. f_equal. lia. }
  assert (HI : forall p, issued p (h1 ++ FInit :: h2 ++ [FFence]) = issued p (h1 ++ h2)).
  { intros p. unfold issued. rewrite !flat_map_app. cbn [flat_map issued1 app]. rewrite flat_map_app. cbn. rewrite app_nil_r. reflexivity. }
  exists s. split; [exact E|]. split; [intros p; rewrite <- HI; apply S|]. intros p HP. rewrite <- HI. specialize (S p). cbn [app] in S. rewrite <- S.
  rewrite frun_app in E. destruct (run_ok h1 fstart [] d binv_start sent_start G1 D) as (s1 & E1 & B1 & _ & F1). rewrite E1 in E. cbn [frun fstep fst snd] in E.
  destruct (frun k (init_fence s1) (h2 ++ [FFence])) as [[s2 o2]|] eqn:E2; [|discriminate]. cbn [fst snd] in E. injection E as -> _. rewrite frun_app in E2.
  destruct (frun k (init_fence s1) h2) as [[s3 o3]|] eqn:E3; [|discriminate].
  destruct (run_ok h2 (init_fence s1) h1 (d + 1) B1) as (s3' & E3' & B3 & _); [|exact G2|..].
  { destruct (run_ok h1 fstart [] d binv_start sent_start G1 D) as (s1' & E1' & _ & S1 & _). rewrite E1' in E1. injection E1 as <-. exact S1. }
  { cbn [init_fence f_set]. rewrite F1, (depth_inside h2 1) by (assumption || lia). f_equal. lia. }
  rewrite E3' in E3. injection E3 as -> _.
  destruct (inside_ok h2 (init_fence s1) 1 s3 _ [] B1 ltac:(cbn [init_fence f_set]; lia) N G2 M ltac:(intros ? []) E3') as (C & FS). cbn [app] in C. destruct (C p HP) as (PR & PC).
  cbn [frun fstep] in E2. destruct (fence_ok s3 B3 FS) as (s4 & E4 & B4 & _ & _ & R4 & Q4). rewrite E4 in E2. cbn [fst snd] in E2. injection E2 as <- _.
  assert (T : todo s4 p = []).
  { destruct PC as [PC|PC]; [apply todo_queue; apply Q4; assumption|]. apply (todo_incl s3); [|exact PC]. intros x HX. left. apply (R4 _). exact HX. }
  unfold sent. rewrite T, app_nil_r. reflexivity.
Qed.
End Fence.
