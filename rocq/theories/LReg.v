(** Lemmas on the registration cache. *)
From Verif Require Import SpecReg SpecRanks MBase MHandle MGroup MRanks MReg LNb LDist LRanks LRanks2 LRanks3.
From Coq Require Import Permutation.

Definition seg_of (e : rent) : segm := Segm (re_buf e) (re_len e) (re_obj e).
(** Entries of one process: with memory, apart from each other. *)
Definition sane (l : list rent) : Prop :=
  Forall (fun e => 0 < re_buf e /\ 0 < re_len e) l /\ ForallOrdPairs (fun e f => apart (seg_of e) (seg_of f)) l.

Lemma contains_spec e a len : 0 < re_buf e -> 0 < a -> 0 <= len ->
  exists b, rc_contains e a len = Done b /\ (b = true <-> inside a len (seg_of e)).
Proof.
  intros E A L. unfold rc_contains, oth_end, inside, seg_of. cbn [sg_addr sg_len].
  destruct (Z.eqb_spec (re_buf e) 0); [lia|]. destruct (Z.eqb_spec a 0); [lia|]. cbn [orb].
  eexists. split; [reflexivity|]. rewrite andb_true_iff, !Z.leb_le. destruct (Z.eqb_spec len 0); lia.
Qed.

Lemma unique_ok l a len : Forall (fun e => 0 < re_buf e /\ 0 < re_len e) l -> 0 < a -> 0 <= len ->
  (forall e, In e l -> ~ inside a len (seg_of e)) -> rc_unique l a len = Done tt.
Proof.
  intros F A L. induction F as [|e l [E1 E2] F IH]; intros H; cbn [rc_unique]; [reflexivity|].
  destruct (contains_spec e a len E1 A L) as (b & -> & B). destruct b.
  - exfalso. apply (H e); [left; reflexivity|]. apply B. reflexivity.
  - apply IH. intros f Hf. apply H. right. exact Hf.
Qed.

(** The answer of a look-up. *)
Definition answers (l : list rent) (a len : Z) (o : option rent) : Prop :=
  match o with
  | Some e => In e l /\ inside a len (seg_of e)
  | None => forall e, In e l -> ~ inside a len (seg_of e)
  end.
Lemma find_ok l a len : sane l -> 0 < a -> 0 <= len -> exists o, rc_find l a len = Done o /\ answers l a len o.
Proof.
  intros [F P] A L. revert P. induction F as [|e l [E1 E2] F IH]; intros P; cbn [rc_find].
  - exists None. split; [reflexivity|]. intros e [].
  - destruct (contains_spec e a len E1 A L) as (b & -> & B). inversion P as [|? ? P1 P2]; subst. destruct b.
    + assert (inside a len (seg_of e)) as IE by (apply B; reflexivity).
      rewrite (unique_ok l a len F A L).
      * exists (Some e). split; [reflexivity|]. split; [left; reflexivity|exact IE].
      * intros f Hf IF. rewrite Forall_forall in P1. specialize (P1 f Hf). unfold inside, apart in *. lia.
    + destruct (IH P2) as (o & E & O). exists o. split; [exact E|]. destruct o as [f|]; cbn [answers] in *.
      * destruct O. split; [right; assumption|assumption].
      * intros f [<-|Hf]; [|auto]. intros X. apply B in X. discriminate.
Qed.

Lemma find_int_ok l e : sane l -> 0 < re_buf e -> 0 < re_len e -> (forall f, In f l -> apart (seg_of f) (seg_of e)) ->
  rc_find_int l (re_buf e) (re_len e) = Done None.
Proof.
  intros [F _] E1 E2. induction F as [|f l [F1 F2] F IH]; intros H; cbn [rc_find_int]; [reflexivity|].
  pose proof (H f (or_introl eq_refl)) as A. unfold apart, seg_of in A. cbn [sg_addr sg_len] in A.
  unfold rc_intersects, oth_end. destruct (Z.eqb_spec (re_buf f) 0); [lia|]. destruct (Z.eqb_spec (re_buf e) 0); [lia|]. cbn [orb].
  destruct (Z.eqb_spec (re_len e) 0); [lia|].
  assert ((re_buf e <=? re_buf f) && (re_buf f <? re_buf e + re_len e) = false) as -> by lia.
  assert ((re_buf e <? re_buf f + re_len f) && (re_buf f + re_len f <=? re_buf e + re_len e) = false) as -> by lia.
  cbn [orb]. apply IH. intros g Hg. apply H. right. exact Hg.
Qed.

Lemma insert_ok l e : sane l -> 0 < re_buf e -> 0 < re_len e -> (forall f, In f l -> apart (seg_of f) (seg_of e)) ->
  rc_insert l e = Done (l ++ [e]).
Proof.
  intros S E1 E2 A. unfold rc_insert. destruct (Z.eqb_spec (re_buf e) 0); [lia|]. destruct (Z.ltb_spec (re_len e) 0); [lia|].
  destruct (find_ok l (re_buf e) (re_len e) S E1 ltac:(lia)) as (o & -> & O). destruct o as [f|]; cbn [answers] in O.
  - destruct O as [I IN]. specialize (A f I). unfold inside, apart, seg_of in *. cbn [sg_addr sg_len] in *. lia.
  - rewrite find_int_ok by auto. reflexivity.
Qed.
(** Memory that is in use is not registered again. *)
Lemma insert_refused l e f : sane l -> 0 < re_buf e -> 0 < re_len e -> In f l -> ~ apart (seg_of f) (seg_of e) -> rc_insert l e = Abort.
Proof.
  intros S E1 E2 I NA. unfold rc_insert. destruct (Z.eqb_spec (re_buf e) 0) as [|NB]; [reflexivity|]. destruct (Z.ltb_spec (re_len e) 0) as [|NL]; [reflexivity|].
  destruct (find_ok l (re_buf e) (re_len e) S E1 ltac:(lia)) as (o & -> & O). destruct o as [g|]; [reflexivity|]. cbn [answers] in O.
  assert (forall l', incl l' l -> exists r, rc_unique l' (re_buf e) (re_len e) = r /\ (r = Done tt \/ r = Abort)) as U.
  { induction l' as [|x l' IHl]; intros H; cbn [rc_unique]; [eauto|].
    destruct S as [F _]. rewrite Forall_forall in F. destruct (F x (H x (or_introl eq_refl))) as [X1 X2].
    destruct (contains_spec x (re_buf e) (re_len e) X1 E1 ltac:(lia)) as (b & -> & B). destruct b; [eauto|]. apply IHl. intros y Hy. apply H. right. exact Hy. }
  assert (forall l', incl l' l -> In f l' -> exists g, rc_find_int l' (re_buf e) (re_len e) = Done (Some g) \/ rc_find_int l' (re_buf e) (re_len e) = Abort) as FI.
  { induction l' as [|x l' IHl]; intros H J; [destruct J|]. cbn [rc_find_int].
    destruct S as [F _]. rewrite Forall_forall in F. destruct (F x (H x (or_introl eq_refl))) as [X1 X2].
    unfold rc_intersects. destruct (Z.eqb_spec (re_buf x) 0); [lia|]. destruct (Z.eqb_spec (re_buf e) 0); [lia|]. cbn [orb].
    destruct (U l' (fun y Hy => H y (or_intror Hy))) as (u & EU & UU).
    match goal with |- context [if ?b then _ else _] => destruct b eqn:B end.
    - rewrite EU. destruct UU as [-> | ->]; exists x; auto.
    - destruct J as [->|J]; [|apply IHl; auto; intros y Hy; apply H; right; exact Hy].
      exfalso. specialize (O f I). unfold inside, apart, seg_of, oth_end in *. cbn [sg_addr sg_len] in *.
      destruct (Z.eqb_spec (re_len e) 0); lia. }
  destruct (FI l (incl_refl l) I) as (g & [-> | ->]); reflexivity.
Qed.

Lemma sane_app_inv l1 e l2 : sane (l1 ++ e :: l2) ->
  sane (l1 ++ l2) /\ 0 < re_buf e /\ 0 < re_len e /\ (forall f, In f (l1 ++ l2) -> apart (seg_of f) (seg_of e)).
Proof.
  intros [F P]. assert (Forall (fun e => 0 < re_buf e /\ 0 < re_len e) (l1 ++ l2) /\ 0 < re_buf e /\ 0 < re_len e) as (F1 & F2 & F3).
  { rewrite Forall_app in *. destruct F as [Fa Fb]. inversion Fb; subst. tauto. }
  split; [split; [exact F1|]|split; [exact F2|split; [exact F3|]]].
  - clear - P. induction l1 as [|x l1 IH]; cbn [app] in *; inversion P; subst; auto. constructor; auto.
    rewrite Forall_app in *. destruct H1 as [Ha Hb]. inversion Hb; subst. auto.
  - clear - P. induction l1 as [|x l1 IH]; cbn [app] in *; inversion P as [|? ? P1 P2]; subst.
    + intros f Hf. rewrite Forall_forall in P1. specialize (P1 f Hf). unfold apart in *. tauto.
    + intros f [<-|Hf]; [|apply IH; auto]. rewrite Forall_forall in P1. apply P1. apply in_or_app. right. left. reflexivity.
Qed.
Lemma find_own l1 e l2 : sane (l1 ++ e :: l2) -> rc_find (l1 ++ e :: l2) (re_buf e) 0 = Done (Some e).
Proof.
  intros S. destruct (sane_app_inv _ _ _ S) as (_ & E1 & E2 & A).
  destruct (find_ok _ (re_buf e) 0 S E1 ltac:(lia)) as (o & -> & O).
  assert (inside (re_buf e) 0 (seg_of e)) as IE by (unfold inside, seg_of; cbn; lia).
  destruct o as [f|]; cbn [answers] in O.
  - destruct O as [I IF]. apply in_app_or in I. cbn [In] in I. assert (f = e \/ In f (l1 ++ l2)) as [->|J].
    { rewrite in_app_iff. destruct I as [I|[I|I]]; auto. }
    + reflexivity.
    + specialize (A f J). unfold inside, apart in *. unfold seg_of in A, IE, IF. cbn [sg_addr sg_len] in *. lia.
  - exfalso. apply (O e); [apply in_or_app; right; left; reflexivity|exact IE].
Qed.
Lemma delete_ok l1 e l2 : sane (l1 ++ e :: l2) -> rc_delete (l1 ++ e :: l2) (re_buf e) = Done (l1 ++ l2).
Proof.
  intros S. destruct (sane_app_inv _ _ _ S) as (_ & E1 & E2 & A). unfold rc_delete.
  destruct (Z.eqb_spec (re_buf e) 0); [lia|]. rewrite find_own by exact S.
  assert (rc_remove (l1 ++ e :: l2) (re_buf e) = Some (l1 ++ l2)) as ->; [|reflexivity].
  destruct S as [F _]. clear n. induction l1 as [|x l1 IH]; cbn [app rc_remove].
  - rewrite Z.eqb_refl. reflexivity.
  - destruct (Z.eqb_spec (re_buf x) (re_buf e)) as [EQ|_].
    + exfalso. specialize (A x (or_introl eq_refl)). unfold apart, seg_of in A. cbn [sg_addr sg_len] in A. inversion F; subst. lia.
    + rewrite IH; [reflexivity|inversion F; assumption|intros f Hf; apply A; right; exact Hf].
Qed.

(** Sequences of registrations: [(p, i)] is process [p] with the memory of [i]. *)
Fixpoint ins_all (c : caches) (a : galloc) (ts : list (Z * Z)) : out caches :=
  match ts with
  | [] => Done c
  | (p, i) :: ts' => try l <- rc_insert (c p i) (ent_of a i); ins_all (cset c p i l) a ts'
  end.
Lemma ins_all_app c a ts us : ins_all c a (ts ++ us) = (try c1 <- ins_all c a ts; ins_all c1 a us).
Proof.
  revert c. induction ts as [|[p i] ts IH]; intros c; cbn [app ins_all]; [reflexivity|].
  destruct (rc_insert (c p i) (ent_of a i)); [apply IH|reflexivity|reflexivity].
Qed.
Lemma enter_ins c p a es : enter c p a es = ins_all c a (map (pair p) es).
Proof.
  revert c. induction es as [|i es IH]; intros c; cbn [enter map ins_all]; [reflexivity|].
  destruct (rc_insert (c p i) (ent_of a i)); [apply IH|reflexivity|reflexivity].
Qed.
Definition member_tasks (a : galloc) (x : Z * list Z) : list (Z * Z) :=
  let (p, es) := x in (if 0 <? al_size a p then [(p, p)] else []) ++ map (pair p) (filter (fun i => negb (i =? p)) es).
Lemma enter_members_ins c a l : enter_members c a l = ins_all c a (flat_map (member_tasks a) l).
Proof.
  revert c. induction l as [|[p es] l IH]; intros c; cbn [enter_members flat_map]; [reflexivity|].
  rewrite ins_all_app. unfold enter_member, member_tasks. rewrite ins_all_app.
  assert ((if 0 <? al_size a p then enter c p a [p] else Done c) = ins_all c a (if 0 <? al_size a p then [(p, p)] else [])) as ->.
  { destruct (0 <? al_size a p); [apply (enter_ins c p a [p])|reflexivity]. }
  destruct (ins_all c a _); [|reflexivity|reflexivity]. rewrite enter_ins. destruct (ins_all _ a _); [apply IH|reflexivity|reflexivity].
Qed.
Definition serve_tasks (hs : list Z) (m : Z * Z * list Z) : list (Z * Z) :=
  let '(_, q, es) := m in map (pair q) (filter (same_host hs q) es).
Lemma serve_mallocs_ins hs c a msgs : serve_mallocs hs c a msgs = ins_all c a (flat_map (serve_tasks hs) msgs).
Proof.
  revert c. induction msgs as [|[[s q] es] msgs IH]; intros c; cbn [serve_mallocs flat_map]; [reflexivity|].
  rewrite ins_all_app. unfold serve_malloc, serve_tasks. rewrite enter_ins. destruct (ins_all c a _); [apply IH|reflexivity|reflexivity].
Qed.
Definition pmem (ts : list (Z * Z)) (p i : Z) : bool := existsb (fun t => (fst t =? p) && (snd t =? i)) ts.
Lemma pmem_In ts p i : pmem ts p i = true <-> In (p, i) ts.
Proof.
  unfold pmem. rewrite existsb_exists. split.
  - intros ([x y] & I & E). apply andb_true_iff in E. cbn [fst snd] in E. rewrite !Z.eqb_eq in E. destruct E as [-> ->]. exact I.
  - intros I. exists (p, i). split; [exact I|]. cbn [fst snd]. rewrite !Z.eqb_refl. reflexivity.
Qed.
Lemma cset_same c p i l : cset c p i l p i = l.
Proof. unfold cset. rewrite !Z.eqb_refl. reflexivity. Qed.
Lemma cset_other c p i l p' i' : (p', i') <> (p, i) -> cset c p i l p' i' = c p' i'.
Proof. intros N. unfold cset. destruct (Z.eqb_spec p' p), (Z.eqb_spec i' i); cbn [andb]; auto. subst. congruence. Qed.
Lemma ins_all_ok a ts : NoDup ts -> forall c, (forall p i, In (p, i) ts -> rc_insert (c p i) (ent_of a i) = Done (c p i ++ [ent_of a i])) ->
  exists c', ins_all c a ts = Done c' /\ forall p i, c' p i = if pmem ts p i then c p i ++ [ent_of a i] else c p i.
Proof.
  induction ts as [|[p i] ts IH]; intros N c H; cbn [ins_all].
  - exists c. split; [reflexivity|]. intros p i. reflexivity.
  - inversion_clear N as [|? ? N1 N2]. rewrite (H p i) by (left; reflexivity).
    destruct (IH N2 (cset c p i (c p i ++ [ent_of a i]))) as (c' & E & C').
    + intros p' i' I. rewrite cset_other by (intros X; injection X as -> ->; contradiction). apply H. right. exact I.
    + exists c'. split; [exact E|]. intros p' i'. rewrite C'. unfold pmem in *. cbn [existsb fst snd]. fold (pmem ts p' i').
      destruct (Z.eqb_spec p p') as [->|NP]; [destruct (Z.eqb_spec i i') as [->|NI]|]; cbn [andb orb].
      * assert (pmem ts p' i' = false) as ->; [|apply cset_same]. destruct (pmem ts p' i') eqn:X; [|reflexivity]. apply pmem_In in X. contradiction.
      * rewrite cset_other by congruence. reflexivity.
      * rewrite cset_other by congruence. reflexivity.
Qed.

(** Sequences of removals. *)
Fixpoint del_all (c : caches) (a : galloc) (ts : list (Z * Z)) : out caches :=
  match ts with
  | [] => Done c
  | (p, i) :: ts' => try l <- rc_delete (c p i) (al_addr a i); del_all (cset c p i l) a ts'
  end.
Lemma del_all_app c a ts us : del_all c a (ts ++ us) = (try c1 <- del_all c a ts; del_all c1 a us).
Proof.
  revert c. induction ts as [|[p i] ts IH]; intros c; cbn [app del_all]; [reflexivity|].
  destruct (rc_delete (c p i) (al_addr a i)); [apply IH|reflexivity|reflexivity].
Qed.
Lemma del_all_ok a ts (R : Z -> Z -> list rent) : NoDup ts -> forall c, (forall p i, In (p, i) ts -> rc_delete (c p i) (al_addr a i) = Done (R p i)) ->
  exists c', del_all c a ts = Done c' /\ forall p i, c' p i = if pmem ts p i then R p i else c p i.
Proof.
  induction ts as [|[p i] ts IH]; intros N c H; cbn [del_all].
  - exists c. split; [reflexivity|]. intros p i. reflexivity.
  - inversion_clear N as [|? ? N1 N2]. rewrite (H p i) by (left; reflexivity).
    destruct (IH N2 (cset c p i (R p i))) as (c' & E & C').
    + intros p' i' I. rewrite cset_other by (intros X; injection X as -> ->; contradiction). apply H. right. exact I.
    + exists c'. split; [exact E|]. intros p' i'. rewrite C'. unfold pmem in *. cbn [existsb fst snd]. fold (pmem ts p' i').
      destruct (Z.eqb_spec p p') as [->|NP]; [destruct (Z.eqb_spec i i') as [->|NI]|]; cbn [andb orb].
      * destruct (pmem ts p' i'); [reflexivity|]. apply cset_same.
      * rewrite cset_other by congruence. reflexivity.
      * rewrite cset_other by congruence. reflexivity.
Qed.
