(** C30, C31, C32: the non-blocking handle pool. *)
From Coq Require Import ZArith List Lia FinFun.
From Verif Require Import SpecBox MBase MNb LNb LRadix.
Import ListNotations.
Open Scope Z_scope.

(** [p], [os]: the pool and the operations started (handle and transfers) after
    the history [es] of a process whose pool has [n] entries. *)
Definition reached (n : Z) (es : list nb_event) (p : pool) (os : ops) : Prop :=
  nb_run (nb_init n, []) es = Some (p, os).
(** Transfers have names of their own. *)
Definition named (os : ops) : Prop := NoDup (flat_map snd os).
(** Started and not complete. *)
Definition outstanding (p : pool) (os : ops) (r : Z) : Prop := In r (flat_map snd os) /\ ~ In r (p_done p).
(** The cells met when following the next pointers from [first]. *)
Fixpoint chain (cs : Z -> cell) (first : option Z) (l : list Z) : Prop :=
  match l with
  | [] => first = None
  | i :: l' => first = Some i /\ chain cs (c_next (cs i)) l'
  end.
(** What the program asked for. *)
Definition asked (es : list nb_event) : list (list Z) :=
  flat_map (fun e => match e with NbStart rs => [rs] | _ => [] end) es.

Lemma reached_good n es p os : 1 <= n -> reached n es p os -> good_state n (p, os).
Proof.
  intros Hn H. destruct (run_good n es _ (init_good n Hn)) as (s' & E & HG & _). unfold reached in H. rewrite E in H. injection H as ->. exact HG.
Qed.
Lemma run_asked es : forall s s', nb_run s es = Some s' -> map snd (snd s') = map snd (snd s) ++ asked es.
Proof.
  induction es as [|e es IH]; intros s s'; cbn [nb_run].
  - intros [= <-]. cbn. now rewrite app_nil_r.
  - destruct (nb_step s e) as [s1|] eqn:E; [|discriminate]. intros H. rewrite (IH _ _ H). destruct e as [rs|k|k ans]; cbn [nb_step] in E; cbn [asked flat_map].
    + destruct (nb_start (fst s) rs) as [ph|]; [|discriminate]. injection E as <-. cbn [snd]. rewrite map_app, <- app_assoc. reflexivity.
    + destruct (nth_error (snd s) k); [|injection E as <-; reflexivity]. destruct (nb_wait _ _); [|discriminate]. injection E as <-. reflexivity.
    + destruct (nth_error (snd s) k); [|injection E as <-; reflexivity]. destruct (nb_test _ _ _); [|discriminate]. injection E as <-. reflexivity.
Qed.

(** No history accesses memory outside the pool or walks a list forever, and
    every operation asked for is started. *)
Theorem C30_histories_run n es : 1 <= n -> exists p os, reached n es p os /\ map snd os = asked es.
Proof.
  intros Hn. destruct (run_good n es _ (init_good n Hn)) as ((p & os) & E & _). exists p, os. split; [exact E|].
  exact (run_asked _ _ _ E).
Qed.

(** Waiting on the handle of any earlier operation returns with all transfers
    of that operation complete. *)
Theorem C30_wait_completes n es p os h rs : 1 <= n -> reached n es p os -> In (h, rs) os ->
  exists p', nb_wait p h = Some p' /\ forall r, In r rs -> In r (p_done p').
Proof.
  intros Hn HR Hin. destruct (reached_good n es p os Hn HR) as (_ & HT' & L & cur & HG). cbn [fst snd] in HG. pose proof HG as (G1 & G2 & G3 & _).
  apply In_nth_error in Hin as (k & Hk). destruct h as [g t]. destruct (G3 k g t rs Hk) as [Hg HD].
  destruct (wait_weaker p L g t G1 Hg) as (p' & L' & E & A1 & A2 & A3). exists p'. split; [exact E|]. intros r Hr.
  destruct A2 as (_ & _ & _ & _ & _ & W6 & W7 & _). destruct (HD r Hr) as [Z|(Hc & i & Hi & Hq)]; [auto|].
  destruct (W6 g i r Hg Hi Hq) as [D|D]; [exact D|]. destruct (G2 g k Hg Hc) as (rs' & Hk'). rewrite Hk in Hk'. injection Hk' as E' _.
  rewrite (A3 E') in D. destruct D.
Qed.

(** Complete transfers stay complete. *)
Theorem C30_stays_complete n es es' p os p' os' r : 1 <= n -> reached n es p os -> reached n (es ++ es') p' os' ->
  In r (p_done p) -> In r (p_done p').
Proof.
  intros Hn HR HR' Hr. destruct (run_good n es' (p, os) (reached_good n es p os Hn HR)) as (s2 & E & _ & M & _).
  unfold reached in *. assert (X : nb_run (nb_init n, []) (es ++ es') = Some s2).
  { revert HR. generalize (nb_init n, @nil ((Z * Z) * list Z)). clear - E. induction es as [|e es IH]; intros s H; cbn [nb_run app] in *.
    - injection H as ->. exact E.
    - destruct (nb_step s e); [|discriminate]. apply IH. exact H. }
  rewrite X in HR'. injection HR' as ->. apply M. exact Hr.
Qed.

(** A test that reports completion is right. *)
Theorem C31_test_true n es p os h rs ans p' : 1 <= n -> reached n es p os -> In (h, rs) os ->
  nb_test ans p h = Some (p', true) -> forall r, In r rs -> In r (p_done p').
Proof.
  intros Hn HR Hin HT r Hr. destruct (reached_good n es p os Hn HR) as (_ & HT' & L & cur & HG). cbn [fst snd] in HG. pose proof HG as (G1 & G2 & G3 & _).
  apply In_nth_error in Hin as (k & Hk). destruct h as [g t]. destruct (G3 k g t rs Hk) as [Hg HD].
  destruct (test_spec ans p L g t G1 Hg) as (p1 & L' & b & E & A1 & A2 & A3 & A4). rewrite HT in E. injection E as <- <-.
  destruct A2 as (_ & _ & _ & _ & _ & W6 & W7 & _). destruct (HD r Hr) as [Z|(Hc & i & Hi & Hq)]; [auto|].
  destruct (W6 g i r Hg Hi Hq) as [D|D]; [exact D|]. destruct (G2 g k Hg Hc) as (rs' & Hk'). rewrite Hk in Hk'. injection Hk' as E' _.
  destruct (A3 E') as [[B _] _]. rewrite (B eq_refl) in D. destruct D.
Qed.
(** A test always returns, and reports completion when the transport does. *)
Theorem C31_test_returns n es p os h rs ans : 1 <= n -> reached n es p os -> In (h, rs) os ->
  exists p' b, nb_test ans p h = Some (p', b) /\ ((forall i, ans i = true) -> b = true).
Proof.
  intros Hn HR Hin. destruct (reached_good n es p os Hn HR) as (_ & HT' & L & cur & HG). cbn [fst snd] in HG. pose proof HG as (G1 & G2 & G3 & _).
  apply In_nth_error in Hin as (k & Hk). destruct h as [g t]. destruct (G3 k g t rs Hk) as [Hg HD].
  destruct (test_spec ans p L g t G1 Hg) as (p1 & L' & b & E & A1 & A2 & A3 & A4). exists p1, b. split; [exact E|]. intros HA.
  destruct (Z.eq_dec t (h_tag (p_heads p g))) as [Et|Et]; [|auto]. destruct (A3 Et) as [B C]. apply B.
  destruct (L' g) as [|i l]; [reflexivity|]. destruct (C i) as [C1 _]. destruct C1 as [_ C1]; [now left|]. rewrite HA in C1. discriminate.
Qed.
(** A test that denies completion is right, within the first 2^24 operations. *)
Theorem C31_test_false n es p os h rs ans p' : 1 <= n -> reached n es p os -> named os -> In (h, rs) os ->
  Z.of_nat (length os) <= 16777216 ->
  nb_test ans p h = Some (p', false) -> exists r, In r rs /\ outstanding p' os r.
Proof.
  intros Hn HR HN Hin HB HT. destruct (reached_good n es p os Hn HR) as (_ & HT' & L & cur & HG). cbn [fst snd] in HG. pose proof HG as (G1 & G2 & G3 & _).
  apply In_nth_error in Hin as (k & Hk). destruct h as [g t]. destruct (G3 k g t rs Hk) as [Hg HD].
  destruct (test_spec ans p L g t G1 Hg) as (p1 & L' & b & E & A1 & A2 & A3 & A4). rewrite HT in E. injection E as <- <-.
  pose proof (good_weaker _ _ _ _ _ _ HG A1 A2) as (_ & K2 & _ & K4 & _ & _ & K7).
  destruct (Z.eq_dec t (h_tag (p_heads p g))) as [Et|Et]; [|discriminate (A4 Et)].
  destruct (A3 Et) as [B _]. destruct (L' g) as [|i l] eqn:EL; [discriminate (proj2 B eq_refl)|].
  assert (Hg' : inr p' g) by (unfold inr in *; destruct A2 as (-> & _); exact Hg).
  destruct (K4 g i Hg') as (k' & h' & rs' & r & Y1 & Y2 & Y3 & Y4); [rewrite EL; now left|].
  destruct (K2 g k' Hg' Y1) as (rs2 & Y5). rewrite Y2 in Y5. injection Y5 as -> ->.
  assert (k' = k).
  { destruct HT' as [_ T]. cbn [snd] in T. pose proof (T _ _ _ Hk) as T1. pose proof (T _ _ _ Y2) as T2. cbn [snd] in T1, T2.
    destruct A2 as (_ & _ & _ & W4 & _). rewrite W4 in T2. rewrite <- Et, T1 in T2.
    assert (k < length os)%nat by (apply nth_error_Some; congruence). assert (k' < length os)%nat by (apply nth_error_Some; congruence).
    rewrite !Z.mod_small in T2 by lia. lia. }
  subst k'. rewrite Hk in Y2. injection Y2 as E2 <-. exists r. split; [exact Y3|]. split.
  - apply in_flat_map. exists ((g, t), rs). split; [eapply nth_error_In; exact Hk|exact Y3].
  - apply (K7 HN g i r Hg'); [rewrite EL; now left|exact Y4].
Qed.

Lemma seg_chain cs l : forall prev first, seg cs prev first l None -> chain cs first l.
Proof.
  induction l as [|i l IH]; intros prev first; cbn [seg chain]; [auto|]. intros (H1 & H2 & H3). split; [exact H1|]. eapply IH. exact H3.
Qed.

(** Every outstanding transfer is in exactly one cell of exactly one list: the
    list of the header that the handle of its operation names and whose tag is
    the tag of that handle.  The lists are disjoint, within the pool and as
    long as their counters say; their cells are the active ones and hold
    outstanding transfers only. *)
Theorem C32_recorded n es p os : 1 <= n -> reached n es p os -> named os -> exists L : Z -> list Z,
  (forall g, 0 <= g < n -> chain (p_cells p) (h_first (p_heads p g)) (L g) /\ NoDup (L g) /\
     h_count (p_heads p g) = Z.of_nat (length (L g))) /\
  (forall g g' i, 0 <= g < n -> 0 <= g' < n -> In i (L g) -> In i (L g') -> g = g') /\
  (forall i, 0 <= i < n -> c_active (p_cells p i) = true <-> exists g, 0 <= g < n /\ In i (L g)) /\
  (forall g i, 0 <= g < n -> In i (L g) -> 0 <= i < n /\ exists r, c_req (p_cells p i) = Some r /\ outstanding p os r) /\
  (forall g t rs r, In ((g, t), rs) os -> In r rs -> outstanding p os r ->
     0 <= g < n /\ h_tag (p_heads p g) = t /\
     exists i, In i (L g) /\ c_req (p_cells p i) = Some r /\
       forall g' i', 0 <= g' < n -> In i' (L g') -> c_req (p_cells p i') = Some r -> g' = g /\ i' = i).
Proof.
  intros Hn HR HN. destruct (reached_good n es p os Hn HR) as (EN & _ & L & cur & HG). cbn [fst snd] in EN, HG.
  pose proof HG as (G1 & G2 & G3 & G4 & G5 & G6 & G7). pose proof G1 as (L1 & L2 & L3 & L4 & L5 & L6). unfold inr in *. rewrite EN in *.
  exists L. split; [|split; [|split; [|split]]].
  - intros g Hg. destruct (L4 g Hg) as (S & C & N). split; [eapply seg_chain; exact S|auto].
  - intros g g' i Hg Hg' H H'. destruct (L5 g i Hg H) as (_ & _ & <-). destruct (L5 g' i Hg' H') as (_ & _ & <-). reflexivity.
  - intros i Hi. split; [intros HA; destruct (L6 i Hi HA) as [X Y]; eauto|]. intros (g & Hg & X). apply (L5 g i Hg X).
  - intros g i Hg Hi. split; [apply (L5 g i Hg Hi)|]. destruct (G4 g i Hg Hi) as (k & h & rs & r & _ & Y2 & Y3 & Y4). exists r. split; [exact Y4|]. split.
    + apply in_flat_map. exists (h, rs). split; [eapply nth_error_In; exact Y2|exact Y3].
    + exact (G7 HN g i r Hg Hi Y4).
  - intros g t rs r Hin Hr [_ HD]. apply In_nth_error in Hin as (k & Hk). destruct (G3 k g t rs Hk) as [Hg X].
    destruct (X r Hr) as [Z|(Hc & i & Hi & Hq)]; [contradiction|]. split; [exact Hg|].
    destruct (G2 g k Hg Hc) as (rs' & Hk'). rewrite Hk in Hk'. split; [congruence|]. exists i. split; [exact Hi|]. split; [exact Hq|].
    intros g' i' Hg' Hi' Hq'. assert (E : i = i') by exact (G5 HN g i g' i' r Hg Hg' Hi Hi' Hq Hq'). subst i'. split; [|reflexivity].
    destruct (L5 g i Hg Hi) as (_ & _ & <-). destruct (L5 g' i Hg' Hi') as (_ & _ & <-). reflexivity.
Qed.

(** At most [n] transfers are outstanding. *)
Theorem C32_bound n es p os rs : 1 <= n -> reached n es p os -> named os -> NoDup rs -> (forall r, In r rs -> outstanding p os r) ->
  Z.of_nat (length rs) <= n.
Proof.
  intros Hn HR HN ND HO. destruct (C32_recorded n es p os Hn HR HN) as (L & _ & _ & _ & H4 & H5).
  assert (I : incl (map Some rs) (map (fun i => c_req (p_cells p i)) (zseq 0 (Z.to_nat n)))).
  { intros x Hx. apply in_map_iff in Hx as (r & <- & Hr). destruct (HO r Hr) as [X Y]. apply in_flat_map in X as (((g & t) & xs) & X1 & X2).
    destruct (H5 g t xs r X1 X2 (HO r Hr)) as (Hg & _ & i & Hi & Hq & _). destruct (H4 g i Hg Hi) as [Hr' _].
    apply in_map_iff. exists i. split; [exact Hq|]. apply zseq_In. lia. }
  apply NoDup_incl_length in I; [|apply Injective_map_NoDup; [intros a b; congruence|exact ND]].
  rewrite !map_length, zseq_length in I. lia.
Qed.

(** Two operations with outstanding transfers have different handles. *)
Theorem C32_distinct n es p os k k' h h' rs rs' r r' : 1 <= n -> reached n es p os -> k <> k' ->
  nth_error os k = Some (h, rs) -> nth_error os k' = Some (h', rs') -> In r rs -> In r' rs' ->
  outstanding p os r -> outstanding p os r' -> fst h <> fst h'.
Proof.
  intros Hn HR Hk E E' Hr Hr' [_ HD] [_ HD'] X. destruct (reached_good n es p os Hn HR) as (EN & _ & L & cur & HG). cbn [fst snd] in EN, HG.
  pose proof HG as (G1 & G2 & G3 & _). destruct h as [g t], h' as [g' t']. cbn [fst] in X. subst g'.
  destruct (G3 k g t rs E) as [_ Y]. destruct (G3 k' g t' rs' E') as [_ Y']. destruct (Y r Hr) as [?|[Z _]]; [contradiction|].
  destruct (Y' r' Hr') as [?|[Z' _]]; [contradiction|]. congruence.
Qed.

(** Starting a transfer or an operation forces the completion of another one
    only if the pool is full. *)
Theorem C32_forced_transfer n es p os g r p' x : 1 <= n -> reached n es p os -> 0 <= g < n -> nb_issue p g r = Some p' ->
  In x (p_done p') -> ~ In x (p_done p) -> forall i, 0 <= i < n -> c_active (p_cells p i) = true.
Proof.
  intros Hn HR Hg HI HD HN i Hi. destruct (reached_good n es p os Hn HR) as (EN & _ & L & cur & HG). cbn [fst snd] in EN, HG. destruct HG as (G1 & _).
  destruct (issue_spec p L g r G1) as (p1 & L' & j & E & _ & _ & _ & _ & _ & _ & _ & _ & A9 & A10); [unfold inr; rewrite EN; exact Hg|].
  rewrite HI in E. injection E as <-. apply A9 in HD as [HD|[HA _]]; [contradiction|].
  destruct (c_active (p_cells p i)) eqn:EA; [reflexivity|]. rewrite A10 in HA; [discriminate|]. exists i. split; [unfold inr; rewrite EN; exact Hi|exact EA].
Qed.
Theorem C32_forced_operation n es p os p' h x : 1 <= n -> reached n es p os -> nb_handle p = Some (p', h) ->
  In x (p_done p') -> ~ In x (p_done p) -> forall g, 0 <= g < n -> h_first (p_heads p g) <> None.
Proof.
  intros Hn HR HI HD HN k Hk X. destruct (reached_good n es p os Hn HR) as (EN & _ & L & cur & HG). cbn [fst snd] in EN, HG. destruct HG as (G1 & _).
  destruct (handle_spec p L G1) as (p1 & L' & g & t & E & _ & _ & _ & _ & _ & _ & _ & _ & _ & _ & A11 & A12).
  rewrite HI in E. injection E as <- _. apply A11 in HD as [HD|(i & Hi & _)]; [contradiction|].
  rewrite A12 in Hi; [exact Hi|]. exists k. assert (Hk' : inr p k) by (unfold inr; rewrite EN; exact Hk). split; [exact Hk'|].
  destruct G1 as (_ & _ & _ & L4 & _). destruct (L4 k Hk') as (S & _). destruct (L k) as [|j l]; [reflexivity|]. cbn [seg] in S. destruct S as (S & _). congruence.
Qed.

(** A pool of two: the second operation needs three transfers, so it completes
    the first operation and then one of its own; a third operation is started;
    waiting on the stale first handle and on the second works. *)
Example C30_ex : exists p os, reached 2 [NbStart [1]; NbStart [2; 3; 4]; NbStart [5]; NbTest 1 (fun _ => false)] p os /\
  named os /\ p_done p = [3; 2; 1] /\ map fst os = [(0, 0); (1, 1); (0, 2)] /\
  outstanding p os 4 /\ outstanding p os 5 /\
  (exists p', nb_wait p (0, 0) = Some p' /\ p_done p' = [3; 2; 1]) /\
  (exists p', nb_wait p (1, 1) = Some p' /\ p_done p' = [4; 3; 2; 1]) /\
  (exists p', nb_test (fun _ => false) p (1, 1) = Some (p', false)) /\
  (exists p', nb_test (fun _ => true) p (1, 1) = Some (p', true)).
Proof.
  eexists. eexists. split; [vm_compute; reflexivity|]. split; [repeat constructor; cbn; intuition discriminate|].
  split; [reflexivity|]. split; [reflexivity|]. split; [split; [cbn; tauto|cbn; intuition discriminate]|].
  split; [split; [cbn; tauto|cbn; intuition discriminate]|]. split; [eexists; split; vm_compute; reflexivity|].
  split; [eexists; split; vm_compute; reflexivity|]. split; eexists; vm_compute; reflexivity.
Qed.
Print Assumptions C30_histories_run.
Print Assumptions C30_wait_completes.
Print Assumptions C30_stays_complete.
Print Assumptions C31_test_true.
Print Assumptions C31_test_returns.
Print Assumptions C31_test_false.
Print Assumptions C32_recorded.
Print Assumptions C32_bound.
Print Assumptions C32_distinct.
Print Assumptions C32_forced_transfer.
Print Assumptions C32_forced_operation.
Print Assumptions C30_ex.
