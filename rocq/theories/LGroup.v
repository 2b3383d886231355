(** Lemmas on process groups. *)
From Verif Require Import SpecGroup MBase MNb MHandle MGroup LRadix LDist LNb.

(** * The sort *)
Lemma zget_app1 {A} (l l' : list A) i : i < Z.of_nat (length l) -> zget (l ++ l') i = zget l i.
Proof. intros H; unfold zget; destruct (Z.ltb_spec i 0); auto. apply nth_error_app1; lia. Qed.
Lemma zget_app2 {A} (l l' : list A) i : Z.of_nat (length l) <= i -> zget (l ++ l') i = zget l' (i - Z.of_nat (length l)).
Proof.
  intros H; unfold zget; destruct (Z.ltb_spec i 0); [lia|]. destruct (Z.ltb_spec (i - Z.of_nat (length l)) 0); [lia|].
  rewrite nth_error_app2 by lia. f_equal; lia.
Qed.
Lemma upd_app {A} (l : list A) a v l' : upd (length l) v (l ++ a :: l') = l ++ v :: l'.
Proof. induction l; cbn; congruence. Qed.
Lemma zset_mid {A} (l : list A) a v l' i : i = Z.of_nat (length l) -> zset (l ++ a :: l') i v = Some (l ++ v :: l').
Proof.
  intros ->; unfold zset. rewrite app_length; cbn [length].
  destruct ((Z.of_nat (length l) <? 0) || _) eqn:E; [lia|]. rewrite Nat2Z.id; f_equal; apply upd_app.
Qed.
Lemma zget_mid {A} (l : list A) a l' i : i = Z.of_nat (length l) -> zget (l ++ a :: l') i = Some a.
Proof. intros ->; rewrite zget_app2 by lia. now rewrite Z.sub_diag. Qed.

(** Putting [x] in the sorted list [rev r], before [q]. *)
Fixpoint ins_tail (x : Z) (r q : list Z) : list Z :=
  match r with [] => x :: q | y :: r' => if x <? y then ins_tail x r' (y :: q) else rev r ++ x :: q end.
Lemma shift_ok x : forall r h q, exists l' i', shift_loop (length r) (rev r ++ h :: q) (Z.of_nat (length r) - 1) x = Some (l', i') /\
  zset l' (i' + 1) x = Some (ins_tail x r q).
Proof.
  induction r as [|y r IH]; intros h q; cbn [length shift_loop].
  - exists (h :: q), (-1); split; auto.
  - cbn [rev]. rewrite <- app_assoc; cbn [app].
    rewrite (zget_mid (rev r) y (h :: q)) by (rewrite rev_length; lia). cbn [ins_tail].
    destruct (Z.ltb_spec x y).
    + replace (rev r ++ y :: h :: q) with ((rev r ++ [y]) ++ h :: q) by (rewrite <- app_assoc; auto).
      rewrite zset_mid by (rewrite app_length, rev_length; cbn [length]; lia). rewrite <- app_assoc; cbn [app].
      replace (Z.of_nat (S (length r)) - 1 - 1) with (Z.of_nat (length r) - 1) by lia.
      destruct (IH y (y :: q)) as (l' & i' & E1 & E2). exists l', i'; auto.
    + exists (rev r ++ y :: h :: q), (Z.of_nat (S (length r)) - 1); split; [auto|].
      replace (rev r ++ y :: h :: q) with ((rev r ++ [y]) ++ h :: q) by (rewrite <- app_assoc; auto).
      rewrite zset_mid by (rewrite app_length, rev_length; cbn [length]; lia). cbn [rev]. now rewrite <- app_assoc.
Qed.
Lemma ins_tail_perm x : forall r q, Permutation (x :: rev r ++ q) (ins_tail x r q).
Proof.
  induction r as [|y r IH]; intros q; cbn [ins_tail rev]; [auto|].
  destruct (x <? y); [rewrite <- IH, <- app_assoc; auto|].
  apply Permutation_middle.
Qed.
Lemma SS_app_iff (l l' : list Z) : StronglySorted Z.le (l ++ l') <-> StronglySorted Z.le l /\ StronglySorted Z.le l' /\ (forall a b, In a l -> In b l' -> a <= b).
Proof.
  induction l as [|x l IH]; cbn [app].
  - split; [intros; split; [constructor|split; auto; contradiction]|tauto].
  - split.
    + intros H; inversion H as [|? ? S F]; subst. apply IH in S; destruct S as (S1 & S2 & S3). rewrite Forall_app in F; destruct F as [F1 F2].
      split; [constructor; auto|split; auto]. intros a b [->|I] J; auto. rewrite Forall_forall in F2; auto.
    + intros (S1 & S2 & S3). inversion S1; subst. constructor; [apply IH; repeat split; auto; intros; apply S3; cbn; auto|].
      rewrite Forall_app; split; auto. rewrite Forall_forall; intros; apply S3; cbn; auto.
Qed.
Lemma ins_tail_sorted x : forall r q, StronglySorted Z.le (rev r) -> StronglySorted Z.le q ->
  (forall a b, In a r -> In b q -> a <= b) -> (forall b, In b q -> x <= b) -> StronglySorted Z.le (ins_tail x r q).
Proof.
  induction r as [|y r IH]; intros q SR SQ HA HB; cbn [ins_tail].
  - constructor; auto. now apply Forall_forall.
  - cbn [rev] in *. apply SS_app_iff in SR; destruct SR as (S1 & S2 & S3). destruct (Z.ltb_spec x y).
    + apply IH; auto.
      * constructor; auto. apply Forall_forall; intros; apply HA; cbn; auto.
      * intros a b I [<-|J]; [apply S3; [now apply in_rev in I|cbn; auto]|apply HA; cbn; auto].
      * intros b [<-|J]; [lia|auto].
    + rewrite <- app_assoc; cbn [app]. apply SS_app_iff; repeat split; auto.
      * constructor; [constructor; auto; now apply Forall_forall|]. constructor; [lia|]. apply Forall_forall; intros; apply HA; cbn; auto.
      * intros a b I [<-|[<-|J]].
        -- apply S3; cbn; auto.
        -- assert (a <= y) by (apply S3; cbn; auto). lia.
        -- apply HA; auto. right; now apply in_rev.
Qed.
Lemma sort_step p x post : StronglySorted Z.le p ->
  exists r l', shift_loop (length p) (p ++ x :: post) (Z.of_nat (length p) - 1) x = Some r /\
    zset (fst r) (snd r + 1) x = Some (l' ++ post) /\ Permutation (x :: p) l' /\ StronglySorted Z.le l'.
Proof.
  intros S.
  destruct (shift_ok x (rev p) x post) as (l1 & i1 & E1 & E2). rewrite rev_involutive, rev_length in E1.
  exists (l1, i1). cbn [fst snd].
  assert (G : forall r q post, ins_tail x r (q ++ post) = ins_tail x r q ++ post).
  { induction r as [|y r IH]; intros q po; cbn [ins_tail]; auto. destruct (x <? y); [apply (IH (y :: q))|]. now rewrite <- app_assoc. }
  exists (ins_tail x (rev p) []). rewrite <- G. cbn [app].
  split; [auto|split; [auto|split]].
  - rewrite <- ins_tail_perm. now rewrite rev_involutive, app_nil_r.
  - apply ins_tail_sorted; rewrite ?rev_involutive; auto; try constructor; intros; contradiction.
Qed.
Lemma sort_loop_ok : forall post p, StronglySorted Z.le p ->
  exists l', sort_loop (length post) (p ++ post) (Z.of_nat (length p)) = Some l' /\ Permutation (p ++ post) l' /\ StronglySorted Z.le l'.
Proof.
  induction post as [|x post IH]; intros p S; cbn [length sort_loop].
  - exists (p ++ []); rewrite app_nil_r; auto.
  - rewrite zget_mid by auto. rewrite Nat2Z.id.
    destruct (sort_step p x post S) as (r & l1 & E1 & E2 & P & S1). rewrite E1, E2.
    destruct (IH l1 S1) as (l' & E & P' & S'). exists l'.
    assert (L : length l1 = Datatypes.S (length p)) by (rewrite <- (Permutation_length P); auto). rewrite L in E.
    replace (Z.of_nat (length p) + 1) with (Z.of_nat (Datatypes.S (length p))) by lia.
    split; [auto|split; auto]. rewrite <- P', <- P. cbn. symmetry; apply Permutation_middle.
Qed.
Lemma sort_ok l : NoDup l -> exists l', sort_loop (length l - 1) l 1 = Some l' /\ Permutation l l' /\ StronglySorted Z.lt l'.
Proof.
  intros ND.
  assert (G : exists l', sort_loop (length l - 1) l 1 = Some l' /\ Permutation l l' /\ StronglySorted Z.le l').
  { destruct l as [|x l]; [exists []; repeat split; auto; constructor|].
    destruct (sort_loop_ok l [x]) as (l' & E & P & S); [repeat constructor|].
    exists l'. cbn [length Nat.sub]. rewrite Nat.sub_0_r. auto. }
  destruct G as (l' & E & P & S). exists l'; split; [auto|split; auto].
  assert (ND' : NoDup l') by (now apply (Permutation_NoDup P)). clear E P ND.
  induction S as [|x l' S IH F]; constructor; inversion ND'; subst; auto.
  rewrite Forall_forall in *; intros y I. assert (x <> y) by (intros ->; contradiction). specialize (F y I); lia.
Qed.

(** * The maps *)
Definition maps_of (n : Z) (c mp inv : list Z) : Prop :=
  Z.of_nat (length mp) = n /\ Z.of_nat (length inv) = n /\
  (forall r p, zget c r = Some p -> zget mp p = Some r /\ zget inv r = Some p) /\
  (forall p, 0 <= p < n -> ~ In p c -> zget mp p = Some (-1)) /\
  (forall r, Z.of_nat (length c) <= r < n -> zget inv r = Some (-1)).

Lemma fill_ok n : forall l mp inv i, Z.of_nat (length mp) = n -> Z.of_nat (length inv) = n -> 0 <= i -> i + Z.of_nat (length l) <= n ->
  NoDup l -> (forall p, In p l -> 0 <= p < n) ->
  exists mp' inv', fill mp inv l i = Some (mp', inv') /\ Z.of_nat (length mp') = n /\ Z.of_nat (length inv') = n /\
    (forall r p, zget l r = Some p -> zget mp' p = Some (i + r) /\ zget inv' (i + r) = Some p) /\
    (forall p, ~ In p l -> zget mp' p = zget mp p) /\
    (forall r, r < i \/ i + Z.of_nat (length l) <= r -> zget inv' r = zget inv r).
Proof.
  induction l as [|j l IH]; intros mp inv i L1 L2 Hi HL ND HB; cbn [fill].
  - exists mp, inv; repeat split; auto; intros; try (now destruct r); unfold zget in *; destruct (r <? 0); try discriminate; destruct (Z.to_nat r); discriminate.
  - inversion ND as [|? ? NI ND']; subst. cbn [length] in HL.
    destruct (zset_ok mp j i) as (mp1 & E1); [apply HB; cbn; auto|]. destruct (zset_ok inv i j) as (inv1 & E2); [lia|].
    rewrite E1, E2. apply zset_Some in E1; apply zset_Some in E2. destruct E1 as (_ & M1 & M2 & M3), E2 as (_ & I1 & I2 & I3).
    destruct (IH mp1 inv1 (i + 1)) as (mp' & inv' & E & A1 & A2 & A3 & A4 & A5); try lia; auto.
    { intros; apply HB; cbn; auto. }
    exists mp', inv'; repeat split; auto; try lia.
    + destruct (Z.eq_dec r 0) as [->|N]; [injection H as ->; rewrite Z.add_0_r, A4; auto|].
      assert (0 <= r) by (apply zget_inv in H; lia). rewrite zget_cons in H by lia. apply A3 in H. replace (i + 1 + (r - 1)) with (i + r) in H by lia; tauto.
    + destruct (Z.eq_dec r 0) as [->|N]; [injection H as ->; rewrite Z.add_0_r, A5 by lia; auto|].
      assert (0 <= r) by (apply zget_inv in H; lia). rewrite zget_cons in H by lia. apply A3 in H. replace (i + 1 + (r - 1)) with (i + r) in H by lia; tauto.
    + intros p NP. rewrite A4, M3; auto; cbn in NP; intuition congruence.
    + cbn [length]; intros r Hr. rewrite A5, I3; auto; lia.
Qed.
Lemma none_get k i : 0 <= i < gc_n k -> zget (none_list k) i = Some (-1).
Proof. intros H; unfold none_list; apply LDist.zget_repeat; lia. Qed.
Lemma NoDup_bound (n : Z) l : NoDup l -> (forall p, In p l -> 0 <= p < n) -> Z.of_nat (length l) <= Z.max n 0.
Proof.
  intros ND HB. assert (I : incl l (zseq 0 (Z.to_nat n))). { intros p J; apply zseq_In; specialize (HB p J); lia. }
  pose proof (NoDup_incl_length ND I) as L. rewrite zseq_length in L. lia.
Qed.
Lemma fill_maps k l : 0 <= gc_n k -> NoDup l -> (forall p, In p l -> 0 <= p < gc_n k) ->
  exists mp inv, fill (none_list k) (none_list k) l 0 = Some (mp, inv) /\ maps_of (gc_n k) l mp inv.
Proof.
  intros Hn ND HB. pose proof (NoDup_bound (gc_n k) l ND HB) as HL.
  assert (LN : Z.of_nat (length (none_list k)) = gc_n k) by (unfold none_list; rewrite repeat_length; lia).
  destruct (fill_ok (gc_n k) l (none_list k) (none_list k) 0) as (mp & inv & E & A1 & A2 & A3 & A4 & A5); auto; try lia.
  exists mp, inv; split; auto. repeat split; auto.
  - apply A3 in H; tauto.
  - apply A3 in H; tauto.
  - intros p Hp NI; rewrite A4 by auto; now apply none_get.
  - intros r Hr; rewrite A5 by lia; apply none_get; lia.
Qed.

(** * Choosing members *)
Lemma remap_pick a l : remap a l = com_pick a l.
Proof. reflexivity. Qed.
Lemma pick_ok (pm : list Z) : forall l, (forall r, In r l -> 0 <= r < Z.of_nat (length pm)) ->
  exists c, com_pick pm l = Some c /\ Forall2 (fun r p => 0 <= r /\ nth_error pm (Z.to_nat r) = Some p) l c.
Proof.
  induction l as [|r l IH]; intros H; cbn [com_pick]; [exists []; auto|].
  destruct IH as (c & E & F); [intros; apply H; cbn; auto|].
  assert (B := H r (or_introl eq_refl)). rewrite (zget_Some pm r 0) by lia. rewrite E.
  eexists; split; [reflexivity|]. constructor; auto. split; [lia|]. apply nth_error_nth'. lia.
Qed.
Lemma pick_same (a b l : list Z) : (forall r, In r l -> zget a r = zget b r) -> com_pick a l = com_pick b l.
Proof.
  induction l as [|r l IH]; intros H; cbn [com_pick]; auto. rewrite H by (cbn; auto). rewrite IH; auto. intros; apply H; cbn; auto.
Qed.
Lemma chosen_in (pm l c : list Z) p : Forall2 (fun r p => 0 <= r /\ nth_error pm (Z.to_nat r) = Some p) l c -> In p c -> In p pm.
Proof. induction 1 as [|r q l c [_ E] F IH]; cbn; [intros []|]. intros [->|I]; auto. now apply nth_error_In in E. Qed.
Lemma chosen_nodup (pm l c : list Z) : NoDup pm -> NoDup l -> Forall2 (fun r p => 0 <= r /\ nth_error pm (Z.to_nat r) = Some p) l c -> NoDup c.
Proof.
  intros NP NL; revert c; induction NL as [|r l NI ND IH]; intros c F; inversion F as [|? q ? c' [Hr E] F']; subst; constructor; auto.
  intros I. assert (G : exists r', In r' l /\ 0 <= r' /\ nth_error pm (Z.to_nat r') = Some q).
  { clear - F' I; induction F' as [|r' q' l c' [H1 H2] F IH]; cbn in *; [contradiction|]. destruct I as [->|I]; [exists r'; auto|].
    destruct (IH I) as (r0 & A & B); exists r0; auto. }
  destruct G as (r' & J & H' & E'). assert (Z.to_nat r = Z.to_nat r').
  { apply (proj1 (NoDup_nth_error pm) NP); [apply nth_error_Some; congruence|congruence]. }
  assert (r = r') by lia. subst; contradiction.
Qed.
Lemma list_ok_spec n l : list_ok n l = true <-> NoDup l /\ forall x, In x l -> 0 <= x < n.
Proof.
  induction l as [|x l IH]; cbn [list_ok].
  - split; auto. split; [constructor|contradiction].
  - rewrite !andb_true_iff, IH, negb_true_iff, Z.leb_le, Z.ltb_lt. split.
    + intros (((H1 & H2) & H3) & H4 & H5). split; [constructor; auto; intros I|intros y [<-|I]; auto].
      assert (existsb (Z.eqb x) l = true) by (apply existsb_exists; exists x; split; auto; apply Z.eqb_refl). congruence.
    + intros [H1 H2]; inversion H1; subst. pose proof (H2 x (or_introl eq_refl)). repeat split; auto; try lia.
      * destruct (existsb (Z.eqb x) l) eqn:E; auto. apply existsb_exists in E; destruct E as (y & I & E). apply Z.eqb_eq in E; subst; contradiction.
      * intros; apply H2; cbn; auto.
      * apply H2; cbn; auto.
Qed.

(** * The list of ComEx groups *)
Definition com_ok (n : Z) (l : list (Z * list Z)) : Prop :=
  exists l', l = (0, zseq 0 (Z.to_nat n)) :: l' /\ StronglySorted Z.lt (map fst l).
Lemma com_find_In l id c : com_find l id = Some c -> In (id, c) l.
Proof. induction l as [|[i m] l IH]; cbn; [discriminate|]. destruct (Z.eqb_spec i id) as [->|]; [intros [= ->]; auto|auto]. Qed.
Lemma com_find_app l id c x : com_find l id = Some c -> com_find (l ++ x) id = Some c.
Proof. induction l as [|[i m] l IH]; cbn; [discriminate|]. destruct (i =? id); auto. Qed.
Lemma com_find_new l id x : ~ In id (map fst l) -> com_find (l ++ [(id, x)]) id = Some x.
Proof.
  induction l as [|[i m] l IH]; cbn; [now rewrite Z.eqb_refl|]. intros N. destruct (Z.eqb_spec i id); [exfalso; auto|]. apply IH; auto.
Qed.
Lemma com_next_spec l : l <> [] -> StronglySorted Z.lt (map fst l) -> (forall i, In i (map fst l) -> i < com_next l).
Proof.
  intros NE S i I. unfold com_next.
  destruct (rev l) as [|[j m] r] eqn:E; [apply (f_equal (@rev _)) in E; rewrite rev_involutive in E; cbn in E; contradiction|].
  assert (EL : l = rev r ++ [(j, m)]) by (rewrite <- (rev_involutive l), E; auto).
  rewrite EL, map_app in *. cbn [map fst] in *. apply in_app_or in I. destruct I as [I|[<-|[]]]; [|lia].
  clear E EL NE. induction (map fst (rev r)) as [|x q IH]; cbn in *; [contradiction|]. inversion S as [|? ? S' F]; subst.
  destruct I as [->|I]; auto. rewrite Forall_app in F; destruct F as [_ F]; inversion F; subst; lia.
Qed.
Lemma com_app_sorted l id : StronglySorted Z.lt l -> (forall i, In i l -> i < id) -> StronglySorted Z.lt (l ++ [id]).
Proof.
  induction l as [|x l IH]; intros S H; cbn; [repeat constructor|]. inversion S; subst. constructor; [apply IH; auto; intros; apply H; cbn; auto|].
  rewrite Forall_app; split; auto. constructor; auto. apply H; cbn; auto.
Qed.
Lemma com_remove_ok l id c : com_find l id = Some c -> StronglySorted Z.lt (map fst l) ->
  exists r, com_remove l id = Some r /\ StronglySorted Z.lt (map fst r) /\ incl (map fst r) (map fst l) /\
    forall id', id' <> id -> com_find r id' = com_find l id'.
Proof.
  induction l as [|[i m] l IH]; cbn [com_find com_remove map fst]; [discriminate|]. intros F S; inversion S as [|? ? S' FA]; subst.
  destruct (Z.eqb_spec i id) as [->|N].
  - exists l; repeat split; auto; [intros x; cbn; auto|]. intros id' N. cbn [com_find]. destruct (Z.eqb_spec id id'); [congruence|auto].
  - destruct (IH F S') as (r & E & SR & IR & FR). rewrite E. exists ((i, m) :: r); split; [auto|]. cbn [map fst com_find]. repeat split.
    + constructor; auto. rewrite Forall_forall in *; auto.
    + intros x [->|J]; cbn; auto.
    + intros id' N'. destruct (i =? id'); auto.
Qed.

(** * Simulation *)
Record gsim (k : gcfg) (s : gstate) (b : gbook) : Prop := {
  gs_cfg : 1 <= gc_n k /\ 0 <= gc_me k < gc_n k;
  gs_0 : pg_actv (gt_tab s 0) = true;
  gs_live : forall h c, gb_grp b h = Some c -> 1 <= h < gc_max k /\ NoDup c /\ (forall p, In p c -> 0 <= p < gc_n k) /\
    exists mp inv id, gt_tab s h = PGrp true (MMaps mp inv) (Z.of_nat (length c)) (gb_par b h) (Some id) /\ maps_of (gc_n k) c mp inv /\
      com_find (gt_com s) id = Some c /\ id <> 0;
  gs_free : forall h, 1 <= h < gc_max k -> gb_grp b h = None -> pg_actv (gt_tab s h) = false;
  gs_ids : forall h h' c c', gb_grp b h = Some c -> gb_grp b h' = Some c' -> h <> h' -> pg_id (gt_tab s h) <> pg_id (gt_tab s h');
  gs_com : com_ok (gc_n k) (gt_com s);
  gs_def : gt_def s = gb_def b;
  gs_adef : (gb_def b = -1 /\ gt_adef s = 0) \/ (exists c, gb_grp b (gb_def b) = Some c /\ pg_id (gt_tab s (gb_def b)) = Some (gt_adef s))
}.

Lemma com_world n l : com_ok n l -> com_find l 0 = Some (zseq 0 (Z.to_nat n)).
Proof. intros (l' & -> & _); reflexivity. Qed.
Lemma gs_parent k s b pm : gsim k s b -> gmembers (gc_n k) b (gb_def b) = Some pm ->
  com_find (gt_com s) (gt_adef s) = Some pm /\ NoDup pm /\ (forall p, In p pm -> 0 <= p < gc_n k).
Proof.
  intros S E. destruct (gs_adef _ _ _ S) as [[D A]|(c & D & A)].
  - rewrite D in E; unfold gmembers in E; cbn in E. injection E as <-. rewrite A. split; [apply com_world, S|].
    split; [apply zseq_NoDup|]. intros p I; apply zseq_In in I. pose proof (gs_cfg _ _ _ S). lia.
  - destruct (gs_live _ _ _ S _ _ D) as (H1 & H2 & H3 & mp & inv & id & T & M & F & N).
    unfold gmembers in E. destruct (Z.eqb_spec (gb_def b) (-1)); [lia|]. rewrite D in E; injection E as <-.
    rewrite T in A; cbn in A; injection A as <-. auto.
Qed.
Lemma com_create n l c : com_ok n l -> 0 <= n ->
  com_ok n (l ++ [(com_next l, c)]) /\ com_find (l ++ [(com_next l, c)]) (com_next l) = Some c /\ com_next l <> 0 /\ ~ In (com_next l) (map fst l).
Proof.
  intros (l' & E & S) Hn. assert (NE : l <> []) by (rewrite E; discriminate).
  pose proof (com_next_spec l NE S) as NX.
  assert (NI : ~ In (com_next l) (map fst l)) by (intros I; apply NX in I; lia).
  split; [|split; [now apply com_find_new|split; auto]].
  - exists (l' ++ [(com_next l, c)]). split; [rewrite E; reflexivity|]. rewrite map_app; cbn [map fst]. apply com_app_sorted; auto.
  - intros E0. apply NI. rewrite E0, E; cbn; auto.
Qed.

Lemma pg_free_ok tab : forall n i, (exists h, i <= h < i + Z.of_nat n /\ pg_actv (tab h) = false) ->
  exists h, pg_free tab i n = Some h /\ i <= h < i + Z.of_nat n /\ pg_actv (tab h) = false.
Proof.
  induction n as [|n IH]; intros i (h & H & A); [lia|]. cbn [pg_free].
  destruct (pg_actv (tab i)) eqn:E; [|exists i; split; auto; split; auto; lia].
  destruct (IH (i + 1)) as (h' & F & B & A').
  - exists h; split; auto. assert (h <> i) by congruence. lia.
  - exists h'; split; auto; split; auto; lia.
Qed.
Lemma gs_room k s b : gsim k s b -> groom (gc_max k) b -> exists h, pg_free (gt_tab s) 0 (Z.to_nat (gc_max k)) = Some h /\ ghandle_ok (gc_max k) h /\ gb_grp b h = None.
Proof.
  intros S (h & H & N). unfold ghandle_ok in *.
  destruct (pg_free_ok (gt_tab s) (Z.to_nat (gc_max k)) 0) as (h' & F & B & A).
  { exists h; split; [lia|]. apply (gs_free _ _ _ S); auto. }
  exists h'; split; auto. assert (h' <> 0) by (intros ->; rewrite (gs_0 _ _ _ S) in A; discriminate). split; [lia|].
  destruct (gb_grp b h') as [c|] eqn:E; auto. destruct (gs_live _ _ _ S _ _ E) as (_ & _ & _ & mp & inv & id & T & _). rewrite T in A; discriminate.
Qed.

(** A new group with members [c]. *)
Lemma sim_new k s b h c mp inv par : gsim k s b -> ghandle_ok (gc_max k) h -> gb_grp b h = None -> NoDup c -> (forall p, In p c -> 0 <= p < gc_n k) ->
  maps_of (gc_n k) c mp inv ->
  gsim k (GState (fset (gt_tab s) h (PGrp true (MMaps mp inv) (Z.of_nat (length c)) par (Some (com_next (gt_com s)))))
                 (gt_com s ++ [(com_next (gt_com s), c)]) (gt_def s) (gt_adef s))
       (GBook (gput (gb_grp b) h (Some c)) (gput (gb_par b) h par) (gb_def b)).
Proof.
  intros S HH HN ND HB M. destruct (com_create (gc_n k) (gt_com s) c (gs_com _ _ _ S)) as (C1 & C2 & C3 & C4); [destruct (gs_cfg _ _ _ S); lia|].
  assert (PG : forall {A} (f : Z -> A) i a j, j <> i -> gput f i a j = f j) by (intros A f i a j N; unfold gput; destruct (Z.eqb_spec j i); congruence).
  assert (PS : forall {A} (f : Z -> A) i a, gput f i a i = a) by (intros; unfold gput; now rewrite Z.eqb_refl).
  assert (ID : forall h' c', gb_grp b h' = Some c' -> pg_id (gt_tab s h') <> Some (com_next (gt_com s))).
  { intros h' c' E. destruct (gs_live _ _ _ S _ _ E) as (_ & _ & _ & mp' & inv' & id & T & _ & F & _). rewrite T; cbn. intros [= ->].
    apply C4. apply com_find_In in F. apply (in_map fst) in F; auto. }
  unfold ghandle_ok in HH.
  constructor; cbn [gt_tab gt_com gt_def gt_adef gb_grp gb_par gb_def].
  - apply S.
  - rewrite fset_other by lia. apply S.
  - intros h' c' E. destruct (Z.eq_dec h' h) as [->|NH].
    + rewrite PS in E; injection E as <-. repeat split; try lia; auto; try (apply HB; auto).
      exists mp, inv, (com_next (gt_com s)). rewrite fset_same, PS. auto.
    + rewrite PG in E by auto. destruct (gs_live _ _ _ S _ _ E) as (L1 & L2 & L3 & mp' & inv' & id & T & M' & F & N).
      split; auto; split; auto; split; auto. exists mp', inv', id. rewrite fset_other, PG by auto. split; auto; split; auto; split; auto.
      now apply com_find_app.
  - intros h' B E. destruct (Z.eq_dec h' h) as [->|NH]; [rewrite PS in E; discriminate|].
    rewrite fset_other by auto. rewrite PG in E by auto. apply S; auto.
  - intros h1 h2 c1 c2 E1 E2 N.
    destruct (Z.eq_dec h1 h) as [->|N1]; destruct (Z.eq_dec h2 h) as [->|N2]; try congruence.
    + rewrite fset_same, fset_other by auto. rewrite PG in E2 by auto. cbn. intros X; symmetry in X; exact (ID _ _ E2 X).
    + rewrite fset_same, fset_other by auto. rewrite PG in E1 by auto. cbn. exact (ID _ _ E1).
    + rewrite !fset_other by auto. rewrite PG in E1, E2 by auto. eapply (gs_ids _ _ _ S); eauto.
  - auto.
  - apply S.
  - destruct (gs_adef _ _ _ S) as [D|(c' & D & A)]; [left; auto|right].
    assert (gb_def b <> h) by congruence. exists c'. rewrite PG, fset_other by auto. auto.
Qed.

Lemma sorted_nodup l : StronglySorted Z.lt l -> NoDup l.
Proof. induction 1 as [|x l S IH F]; constructor; auto. intros I; rewrite Forall_forall in F; specialize (F x I); lia. Qed.

Lemma create_sim k s b l : gsim k s b -> gallowed (gc_n k) (gc_max k) b (GCreate l) ->
  exists s' h c pm, pgroup_create k s l = Done (s', h) /\ ghandle_ok (gc_max k) h /\ gb_grp b h = None /\
    gmembers (gc_n k) b (gb_def b) = Some pm /\ chosen pm l c /\
    gsim k s' (GBook (gput (gb_grp b) h (Some c)) (gput (gb_par b) h (gb_def b)) (gb_def b)).
Proof.
  intros S (RM & ND & pm & PM & HR).
  destruct (gs_parent k s b pm S PM) as (CF & NP & BP).
  pose proof (gs_cfg _ _ _ S) as [Hn Hme].
  assert (LP : Z.of_nat (length pm) <= gc_n k) by (pose proof (NoDup_bound (gc_n k) pm NP BP); lia).
  destruct (gs_room k s b S RM) as (h & PF & HH & HN). unfold pgroup_create. rewrite PF.
  assert (LO : list_ok (gc_n k) l = true) by (apply list_ok_spec; split; auto; intros x I; specialize (HR x I); lia).
  rewrite LO; cbn [negb].
  destruct (sort_ok l ND) as (l' & E1 & P & SS). rewrite E1; cbn [need].
  destruct (pick_ok pm l') as (c & E2 & F2). { intros r I. apply HR. apply Permutation_sym in P. eapply Permutation_in; eauto. }
  assert (NC : NoDup c) by (apply (chosen_nodup pm l' c); auto; now apply sorted_nodup).
  assert (BC : forall p, In p c -> 0 <= p < gc_n k) by (intros p I; apply BP; eapply chosen_in; eauto).
  assert (TMP : (if gt_def s =? -1 then Done l' else try m <- pg_maps k s (gt_def s); need (remap (snd m) l')) = Done c).
  { rewrite (gs_def _ _ _ S). destruct (gs_adef _ _ _ S) as [[D A]|(cd & D & A)].
    - rewrite D in *; cbn [Z.eqb Pos.eqb]. f_equal. unfold gmembers in PM; cbn in PM. injection PM as <-.
      clear - F2. induction F2 as [|r p l c [H1 H2] F IH]; auto. f_equal; auto.
      assert (L : (Z.to_nat r < length (zseq 0 (Z.to_nat (gc_n k))))%nat) by (apply nth_error_Some; congruence).
      rewrite zseq_length in L. rewrite (nth_error_nth' _ 0) in H2 by (rewrite zseq_length; auto). rewrite zseq_nth in H2 by auto. injection H2; lia.
    - destruct (gs_live _ _ _ S _ _ D) as (H1 & H2 & H3 & mp & inv & id & T & M & F & N).
      destruct (Z.eqb_spec (gb_def b) (-1)); [lia|]. unfold gmembers in PM. destruct (Z.eqb_spec (gb_def b) (-1)); [lia|].
      rewrite D in PM; injection PM as <-. unfold pg_maps, pg_read, in_table.
      destruct (Z.leb_spec 0 (gb_def b)); [|lia]. destruct (Z.ltb_spec (gb_def b) (gc_max k)); [|lia]. cbn [andb]. rewrite T; cbn [pg_mem snd].
      rewrite remap_pick. rewrite (pick_same inv cd), E2; auto.
      intros r I. assert (B : 0 <= r < Z.of_nat (length cd)) by (apply HR; apply Permutation_sym in P; eapply Permutation_in; eauto).
      destruct M as (_ & _ & M & _). rewrite (zget_Some cd r 0) by auto. apply M. now apply zget_Some. }
  rewrite TMP. destruct (fill_maps k c) as (mp & inv & E3 & M); auto; try lia. rewrite E3; cbn [need fst snd].
  unfold armci_create; rewrite CF, E2; cbn [fst snd].
  assert (LC : length l = length c). { rewrite (Permutation_length P). clear - F2; induction F2; cbn; congruence. }
  rewrite LC, (gs_def _ _ _ S).
  eexists _, h, c, pm. split; [reflexivity|]. split; [auto|]. split; [auto|]. split; [auto|]. split; [exists l'; auto|].
  pose proof (sim_new k s b h c mp inv (gb_def b) S HH HN NC BC M) as Q; rewrite (gs_def _ _ _ S) in Q; exact Q.
Qed.

Lemma default_sim k s b g : gsim k s b -> gallowed (gc_n k) (gc_max k) b (GSetDefault g) ->
  exists s', pgroup_set_default k s g = Done s' /\ gt_com s' = gt_com s /\ gt_tab s' = gt_tab s /\ gt_def s' = g /\ gsim k s' (GBook (gb_grp b) (gb_par b) g).
Proof.
  intros S A. unfold pgroup_set_default. destruct A as [->|(c & E)].
  - cbn. eexists; split; [reflexivity|]. cbn [gt_com gt_tab gt_def]. split; auto; split; auto; split; auto. constructor; cbn; try apply S; auto.
  - destruct (gs_live _ _ _ S _ _ E) as (H1 & H2 & H3 & mp & inv & id & T & M & F & N).
    destruct (Z.ltb_spec 0 g); [|lia]. unfold pg_read, in_table. destruct (Z.leb_spec 0 g); [|lia]. destruct (Z.ltb_spec g (gc_max k)); [|lia].
    cbn [andb]. rewrite T; cbn [pg_id need]. eexists; split; [reflexivity|]. cbn [gt_com gt_tab gt_def]. split; auto. split; auto. split; auto.
    constructor; cbn; try apply S; auto. right; exists c; rewrite T; auto.
Qed.

Lemma destroy_sim k s b g : gsim k s b -> gallowed (gc_n k) (gc_max k) b (GDestroy g false) ->
  exists s', pgroup_destroy k s g false = Done (s', true) /\ gsim k s' (GBook (gput (gb_grp b) g None) (gb_par b) (gb_def b)).
Proof.
  intros S (_ & ND & c & E). destruct (gs_live _ _ _ S _ _ E) as (H1 & H2 & H3 & mp & inv & id & T & M & F & N).
  assert (PG : forall {A} (f : Z -> A) i a j, j <> i -> gput f i a j = f j) by (intros A f i a j N'; unfold gput; destruct (Z.eqb_spec j i); congruence).
  assert (PS : forall {A} (f : Z -> A) i a, gput f i a i = a) by (intros; unfold gput; now rewrite Z.eqb_refl).
  unfold pgroup_destroy, pg_read, in_table. destruct (Z.leb_spec 0 g); [|lia]. destruct (Z.ltb_spec g (gc_max k)); [|lia].
  cbn [andb]. rewrite T; cbn [pg_id need pg_mem pg_actv pg_nproc pg_parent].
  destruct (gs_com _ _ _ S) as (l' & EC & SC).
  destruct (com_remove_ok (gt_com s) id c F SC) as (r & ER & SR & IR & FR).
  assert (AF : armci_free (gt_com s) id = Done r).
  { unfold armci_free. rewrite EC at 1. destruct (Z.eqb_spec 0 id); [congruence|]. rewrite ER; auto. }
  rewrite AF. eexists; split; [reflexivity|].
  constructor; cbn [gt_tab gt_com gt_def gt_adef gb_grp gb_par gb_def].
  - apply S.
  - rewrite fset_other by lia. apply S.
  - intros h' c' E'. destruct (Z.eq_dec h' g) as [->|NH]; [rewrite PS in E'; discriminate|]. rewrite PG in E' by auto.
    destruct (gs_live _ _ _ S _ _ E') as (L1 & L2 & L3 & mp' & inv' & id' & T' & M' & F' & N').
    split; auto; split; auto; split; auto. exists mp', inv', id'. rewrite fset_other by auto. split; auto; split; auto; split; auto.
    rewrite FR; auto. intros ->. apply (gs_ids _ _ _ S h' g c' c E' E NH). now rewrite T, T'.
  - intros h' B E'. destruct (Z.eq_dec h' g) as [->|NH]; [rewrite fset_same; auto|].
    rewrite fset_other by auto. rewrite PG in E' by auto. apply S; auto.
  - intros h1 h2 c1 c2 E1 E2 N12.
    destruct (Z.eq_dec h1 g) as [->|N1]; [rewrite PS in E1; discriminate|]. destruct (Z.eq_dec h2 g) as [->|N2]; [rewrite PS in E2; discriminate|].
    rewrite !fset_other by auto. rewrite PG in E1, E2 by auto. eapply (gs_ids _ _ _ S); eauto.
  - rewrite EC in ER; cbn [com_remove] in ER. destruct (Z.eqb_spec 0 id); [congruence|]. destruct (com_remove l' id) as [r'|]; [|discriminate].
    injection ER as <-. exists r'; split; auto.
  - apply S.
  - destruct (gs_adef _ _ _ S) as [D|(c' & D & A)]; [left; auto|right].
    exists c'. rewrite PG, fset_other by auto. auto.
Qed.

Lemma remap_index mp : forall c i, (forall r p, zget c r = Some p -> zget mp p = Some (i + r)) ->
  remap mp c = Some (zseq i (length c)).
Proof.
  induction c as [|p c IH]; intros i H; cbn [remap length zseq]; auto.
  rewrite (H 0 p eq_refl), Z.add_0_r. rewrite (IH (i + 1)); auto.
  intros r q E. replace (i + 1 + r) with (i + (r + 1)) by lia. apply H.
  assert (0 <= r) by (apply zget_inv in E; lia). rewrite zget_cons by lia. now replace (r + 1 - 1) with r by lia.
Qed.
Lemma pick_seq : forall (l pre : list Z) c, pre ++ c = l -> com_pick l (zseq (Z.of_nat (length pre)) (length c)) = Some c.
Proof.
  intros l pre c; revert l pre; induction c as [|x c IH]; intros l pre E; cbn [length zseq com_pick]; auto.
  rewrite <- E, zget_mid by auto.
  specialize (IH l (pre ++ [x])). rewrite app_length in IH; cbn in IH. rewrite <- E in IH.
  replace (Z.of_nat (length pre) + 1) with (Z.of_nat (length pre + 1)) by lia. rewrite IH; auto. now rewrite <- app_assoc.
Qed.
Lemma pick_prefix pm c : forall q l, pm = l ++ c ++ q -> com_pick pm (zseq (Z.of_nat (length l)) (length c)) = Some c.
Proof.
  revert pm; induction c as [|x c IH]; intros pm q l E; cbn [length zseq com_pick]; auto. subst pm.
  cbn [app]. rewrite zget_mid by auto.
  specialize (IH (l ++ x :: c ++ q) q (l ++ [x])). rewrite app_length in IH; cbn in IH.
  replace (Z.of_nat (length l) + 1) with (Z.of_nat (length l + 1)) by lia. rewrite IH; auto. now rewrite <- app_assoc.
Qed.
Lemma pick_indices pm mp : forall c, (forall p, In p c -> exists r, zget pm r = Some p /\ zget mp p = Some r) ->
  exists t, remap mp c = Some t /\ com_pick pm t = Some c.
Proof.
  induction c as [|p c IH]; intros H; [exists []; auto|]. destruct IH as (t & E1 & E2); [intros; apply H; cbn; auto|].
  destruct (H p (or_introl eq_refl)) as (r & G1 & G2). exists (r :: t). cbn [remap com_pick]. rewrite G1, G2, E1, E2; auto.
Qed.
Lemma firstn_inv n c mp inv : maps_of n c mp inv -> firstn (length c) inv = c.
Proof.
  intros (_ & L & M & _). 
  assert (LE : (length c <= length inv)%nat).
  { destruct c as [|x c']; [cbn; lia|]. set (c := x :: c') in *. assert (G : zget c (Z.of_nat (length c) - 1) <> None).
    { rewrite (zget_Some c _ 0) by (unfold c; cbn [length]; lia). discriminate. }
    destruct (zget c (Z.of_nat (length c) - 1)) as [p|] eqn:E; [|congruence]. apply M in E; destruct E as [_ E]. apply zget_inv in E. unfold c in *; lia. }
  clear L. revert inv M LE. assert (G : forall (c inv : list Z), (forall r p, zget c r = Some p -> zget inv r = Some p) -> (length c <= length inv)%nat -> firstn (length c) inv = c).
  { clear. induction c as [|x c IH]; intros inv M LE; cbn [length firstn]; auto. destruct inv as [|y inv]; [cbn in LE; lia|].
    assert (E := M 0 x eq_refl). injection E as ->. f_equal. apply IH; [|cbn in LE; lia].
    intros r p E. assert (0 <= r) by (apply zget_inv in E; lia). specialize (M (r + 1) p). rewrite !zget_cons in M by lia. replace (r + 1 - 1) with r in M by lia. auto. }
  intros inv M LE. apply G; auto. intros r p E; apply M in E; tauto.
Qed.

Lemma duplicate_sim k s b g : gsim k s b -> gallowed (gc_n k) (gc_max k) b (GDuplicate g) ->
  exists s' h c, pgroup_duplicate k s g = Done (s', h) /\ ghandle_ok (gc_max k) h /\ gb_grp b h = None /\ gb_grp b g = Some c /\
    gsim k s' (GBook (gput (gb_grp b) h (Some c)) (gput (gb_par b) h (gb_par b g)) (gb_def b)).
Proof.
  intros S (RM & c & pm & E & PM & CASES).
  destruct (gs_live _ _ _ S _ _ E) as (H1 & H2 & H3 & mp & inv & id & T & M & F & N).
  destruct (gs_parent k s b pm S PM) as (CF & NP & BP).
  destruct (gs_room k s b S RM) as (h & PF & HH & HN).
  unfold pgroup_duplicate. destruct (Z.eqb_spec g (-1)); [lia|].
  unfold pg_maps, pg_read, in_table. destruct (Z.leb_spec 0 g); [|lia]. destruct (Z.ltb_spec g (gc_max k)); [|lia].
  cbn [andb]. rewrite T; cbn [pg_actv negb pg_mem pg_nproc pg_parent fst snd]. rewrite PF.
  rewrite Nat2Z.id, (firstn_inv _ _ _ _ M).
  assert (TMP : exists t, (if gb_par b g =? -1 then need (remap mp c)
     else try pm0 <- (try x0 <- (if (0 <=? gb_par b g) && (gb_par b g <? gc_max k) then Done (gt_tab s (gb_par b g)) else Undef);
                      match pg_mem x0 with MMaps mp0 inv0 => Done (mp0, inv0) | _ => Undef end); need (remap (fst pm0) c)) = Done t /\
     com_pick pm t = Some c).
  { destruct CASES as [[P1 P2]|(P1 & P2 & P3)].
    - rewrite P1; cbn [Z.eqb Pos.eqb]. rewrite (remap_index mp c 0) by (intros r p G; apply M in G; tauto).
      eexists; split; [reflexivity|]. apply (pick_prefix pm c (skipn (length c) pm) []). cbn. rewrite P2 at 1. now rewrite firstn_skipn.
    - destruct (Z.eqb_spec (gb_par b g) (-1)); [contradiction|]. rewrite P2.
      destruct (gs_adef _ _ _ S) as [[D _]|(cd & D & A)]; [congruence|].
      destruct (gs_live _ _ _ S _ _ D) as (H1' & H2' & H3' & mp' & inv' & id' & T' & M' & F' & N').
      destruct (Z.leb_spec 0 (gb_def b)); [|lia]. destruct (Z.ltb_spec (gb_def b) (gc_max k)); [|lia]. cbn [andb]. rewrite T'; cbn [pg_mem fst].
      unfold gmembers in PM. destruct (Z.eqb_spec (gb_def b) (-1)); [lia|]. rewrite D in PM; injection PM as <-.
      destruct (pick_indices cd mp' c) as (t & G1 & G2).
      { intros p I. apply P3 in I. apply In_zget in I. destruct I as (r & _ & I). exists r; split; auto. apply M' in I; tauto. }
      rewrite G1; cbn [need]. eauto. }
  destruct TMP as (t & TMP & PK). rewrite TMP. unfold armci_create. rewrite CF, PK; cbn [fst snd].
  eexists _, h, c. split; [reflexivity|]. split; auto. split; auto. split; auto. apply sim_new; auto.
Qed.

Lemma gstep_sim k s b c : gsim k s b -> gallowed (gc_n k) (gc_max k) b c ->
  exists s' a b', group_step k s c = Done (s', a) /\ gbook_step (gc_n k) (gc_max k) b c a b' /\ gsim k s' b'.
Proof.
  intros S A. destruct c as [l|g|g att|g]; cbn [group_step].
  - destruct (create_sim k s b l S A) as (s' & h & c & pm & E & H1 & H2 & H3 & H4 & H5). rewrite E; cbn [fst snd].
    eexists _, _, _; split; [reflexivity|]. split; [econstructor; eauto|auto].
  - destruct (default_sim k s b g S A) as (s' & E & _ & _ & _ & H). rewrite E. eexists _, _, _; split; [reflexivity|]. split; [constructor|auto].
  - assert (att = false) by (destruct A; auto). subst att.
    destruct (destroy_sim k s b g S A) as (s' & E & H). rewrite E; cbn [fst snd]. destruct A as (_ & _ & c & A).
    eexists _, _, _; split; [reflexivity|]. split; [econstructor; eauto|auto].
  - destruct (duplicate_sim k s b g S A) as (s' & h & c & E & H1 & H2 & H3 & H4). rewrite E; cbn [fst snd].
    eexists _, _, _; split; [reflexivity|]. split; [econstructor; eauto|auto].
Qed.

Lemma init_sim k j np : 1 <= gc_n k -> 1 <= gc_max k -> 0 <= gc_me k < gc_n k -> 0 <= j -> 0 <= np -> j + np <= gc_n k ->
  exists s, group_init k j np = Done s /\ gsim k s gbook0.
Proof.
  intros H1 H2 H3 Hj Hp Hl. unfold group_init.
  destruct (fill_maps k (zseq j (Z.to_nat np))) as (mp & inv & E & M); try lia.
  { apply zseq_NoDup. } { intros p I; apply zseq_In in I; lia. }
  rewrite E; cbn [need fst snd]. eexists; split; [reflexivity|].
  constructor; cbn [gt_tab gt_com gt_def gt_adef gb_grp gb_par gb_def gbook0]; auto; try discriminate.
  - intros h Hh _. destruct (Z.eqb_spec h 0); [lia|auto].
  - eexists; split; [reflexivity|]. repeat constructor.
Qed.
