(** Lemmas for put with notification. *)
From Coq Require Import ZArith List Lia Bool Permutation.
From Verif Require Import SpecBox SpecStore SpecHome SpecXfer MBase MXfer MNotify LRadix LIterReg LIterReg2 LIterReg3 LStore LXfer LXfer2 LStrided2 LTile LGat LDist LNb.
Import ListNotations.
Open Scope Z_scope.

(** ---- a region of one element does not depend on the leading dimensions ---- *)
Lemma box_point e x : in_box e e x -> x = e.
Proof. revert x. induction e as [|a e IH]; intros [|b x]; cbn; try tauto. intros (A & B). f_equal; [lia|apply IH; exact B]. Qed.
Lemma patch_loop_point e : forall ld f, (length e <= length ld)%nat -> patch_loop e e ld f = Some 0.
Proof. induction e as [|a e IH]; intros [|d ld] f H; cbn [patch_loop] in *; cbn in H; try reflexivity; try lia. rewrite IH by lia. f_equal. lia. Qed.
Lemma patch_point e ld : e <> [] -> (length e - 1 <= length ld)%nat -> patch_index e e ld = Some 0.
Proof. destruct e as [|a e]; [congruence|]. intros _ H. cbn in H. unfold patch_index. rewrite patch_loop_point by lia. f_equal. lia. Qed.
Lemma count_point e : compute_count e e = Some (repeat 1 (length e)).
Proof. induction e as [|a e IH]; [reflexivity|]. cbn [compute_count length repeat]. rewrite IH. replace (a - a) with 0 by lia. reflexivity. Qed.
Lemma indices_point n : indices (repeat 1 n) = [repeat 0 n].
Proof. induction n as [|n IH]; [reflexivity|]. cbn [repeat]. rewrite indices_one, IH. reflexivity. Qed.
Lemma dot_zeros n : forall s, dot (repeat 0 n) s = 0.
Proof. induction n as [|n IH]; intros [|b s]; cbn; auto. Qed.

Lemma piece_point es e ld ld' p : e <> [] -> 1 <= es -> ip_lo p = e -> ip_hi p = e -> (length e - 1 <= length ld)%nat -> (length e - 1 <= length ld')%nat ->
  set_stride (length e - 1) es ld <> None -> set_stride (length e - 1) es ld' <> None ->
  (do x <- piece_xfer es e ld p; xfer_elems es x) = (do x <- piece_xfer es e ld' p; xfer_elems es x).
Proof.
  intros NE HE L H L1 L2 S1 S2. unfold piece_xfer. rewrite L, H, !patch_point, count_point by assumption.
  destruct e as [|c e]; [congruence|]. cbn [length repeat]. destruct (to_int (1 * es)) as [c'|] eqn:E1; [|reflexivity]. destruct (to_int es) as [sz|] eqn:E2; [|reflexivity].
  assert (sz = es) by (unfold to_int in E2; destruct (_ && _) in E2; congruence). subst sz.
  destruct (set_stride _ _ (ip_ld p)) as [sr|]; [|reflexivity].
  cbn [length] in S1, S2. destruct (set_stride _ _ ld) as [sl|]; [|congruence]. destruct (set_stride _ _ ld') as [sl'|]; [|congruence].
  unfold xfer_elems. cbn [x_count x_proc x_seg].
  assert (c' = es) by (rewrite Z.mul_1_l, E2 in E1; congruence). subst c'.
  destruct (elem_of es es) as [c1|] eqn:E3; [|reflexivity]. destruct (_ && _); [|reflexivity].
  assert (c1 = 1) by (unfold elem_of in E3; rewrite Z_mod_same_full, Z.div_same in E3 by lia; cbn in E3; congruence). subst c1.
  rewrite indices_one, indices_point. cbn [map mapM]. unfold elem_access. cbn [x_rem x_srem x_loc x_sloc x_seg dot]. rewrite !dot_zeros. reflexivity.
Qed.

Lemma mapM_ext {A B} (f g : A -> option B) l : (forall a, In a l -> f a = g a) -> mapM f l = mapM g l.
Proof. induction l as [|a l IH]; intros H; [reflexivity|]. cbn [mapM]. rewrite (H a (or_introl eq_refl)), IH; [reflexivity|]. intros b Hb. apply H. right. exact Hb. Qed.

Lemma set_stride_none n : forall s ld, set_stride n s ld <> None -> (n <= length ld)%nat.
Proof.
  induction n as [|n IH]; intros s ld H; [lia|]. cbn [set_stride] in H. destruct ld as [|d ld]; [congruence|]. destruct (to_int d) as [d'|]; [|congruence]. destruct (to_int (s * d')) as [s'|]; [|congruence].
  cbn. destruct (set_stride n s' ld) eqn:E; [|congruence]. assert (n <= length ld)%nat by (apply (IH s'); congruence). lia.
Qed.
Lemma set_stride_zeros n : set_stride n 0 (repeat 0 n) <> None.
Proof. induction n as [|n IH]; [discriminate|]. cbn [repeat set_stride]. change (to_int 0) with (Some 0). cbn. destruct (set_stride n 0 (repeat 0 n)); [discriminate|exact IH]. Qed.
Lemma set_stride_app n : forall s ld l, (n <= length ld)%nat -> set_stride n s (ld ++ l) = set_stride n s ld.
Proof.
  induction n as [|n IH]; intros s [|d ld] l H; cbn in H; try reflexivity; try lia. cbn [set_stride app]. destruct (to_int d) as [d'|]; [|reflexivity]. destruct (to_int (s * d')) as [s'|]; [|reflexivity].
  rewrite IH by lia. reflexivity.
Qed.
Lemma set_stride_ldn n es : (n <= 7)%nat -> 1 <= es <= int_max -> set_stride n es ldn <> None.
Proof.
  intros H HE. destruct n as [|n]; [discriminate|]. unfold ldn. cbn [set_stride]. change (to_int 1) with (Some 1). cbv iota. rewrite Z.mul_1_r, to_int_ok by (unfold int_max in *; lia).
  assert (N : set_stride n es (repeat 0 6) <> None); [|destruct (set_stride n es (repeat 0 6)); congruence].
  destruct n as [|n]; [discriminate|]. cbn [repeat set_stride]. change (to_int 0) with (Some 0). cbv iota. rewrite Z.mul_0_r. change (to_int 0) with (Some 0). cbv iota.
  change [0; 0; 0; 0; 0] with (repeat 0 5). assert (N : set_stride n 0 (repeat 0 5) <> None); [|destruct (set_stride n 0 (repeat 0 5)); congruence].
  replace (repeat 0 5) with (repeat 0 n ++ repeat 0 (5 - n)) by (rewrite <- repeat_app; f_equal; lia). rewrite set_stride_app by (rewrite repeat_length; lia). apply set_stride_zeros.
Qed.
Lemma set_stride_ones n es m : (n <= m)%nat -> 1 <= es <= int_max -> set_stride n es (repeat 1 m) <> None.
Proof.
  revert m. induction n as [|n IH]; intros [|m] H HE; try discriminate; [lia|]. cbn [repeat set_stride]. change (to_int 1) with (Some 1). cbv iota. rewrite Z.mul_1_r, to_int_ok by (unfold int_max in *; lia).
  specialize (IH m ltac:(lia) HE). destruct (set_stride n es (repeat 1 m)); congruence.
Qed.

Lemma point_transfers guess rnd nn smp b e placed shape :
  gives_cover guess rnd nn b e e placed shape -> good_request b shape e e (repeat 1 7) -> (length e <= 7)%nat ->
  exists q f0, placed e q /\ forall fuel, (f0 <= fuel)%nat -> transfers fuel guess rnd nn smp b e e ldn = Some [(q, 0)].
Proof.
  intros GC GR L7. pose proof GC as (NE & (ps & f0 & EI & HC) & HSh).
  destruct (layout_transfers guess rnd nn smp b e e (repeat 1 7) placed shape (ex_intro _ ps (ex_intro _ f0 (conj EI HC))) NE GR HSh) as (ts & (f1 & E) & l & -> & P & K).
  assert (B1 : box_list e e = [e]).
  { clear. induction e as [|a e IH]; [reflexivity|]. cbn. rewrite IH. unfold zseq. replace (Z.to_nat (a - a + 1)) with 1%nat by lia. cbn. rewrite ?Z.add_0_r. reflexivity. }
  rewrite B1 in P. apply Permutation_sym, Permutation_length_1_inv in P. destruct l as [|[t x] [|? ?]]; try discriminate P. cbn in P. injection P as ->.
  destruct (K t e (or_introl eq_refl)) as (PL & ST). replace (vsub e e) with (repeat 0 (length e)) in ST by (clear; induction e; cbn; [reflexivity|f_equal; [lia|assumption]]). rewrite lin_zeros in ST.
  exists (fst t), (Nat.max f0 f1). split; [exact PL|]. intros fuel Hf. cbn [map fst] in E. specialize (E fuel ltac:(lia)). rewrite <- ST, <- surjective_pairing. rewrite <- E.
  unfold transfers. rewrite (EI fuel) by lia. cbv iota. f_equal. 
  destruct GR as (G1 & _ & _ & _ & G5 & _). 
  match goal with |- context [mapM ?f ?o] => match goal with |- _ = (do ls <- mapM ?g o; _) => rewrite (mapM_ext f g o); [reflexivity|] end end.
  intros p Hp. assert (In p ps) by (apply in_app_iff in Hp as [Hp|Hp]; apply filter_In in Hp; apply Hp). clear Hp.
  destruct HC as (HT & HP). destruct (HP p H) as (F & _). apply In_nth_error in H as (j & Hj). pose proof (proj1 HT j p Hj) as X. cbn [fst snd] in X.
  apply piece_point; auto; try lia.
  - apply box_point. apply X. apply lo_in_box. exact F.
  - apply box_point. apply X. clear - F. induction F; cbn; [exact I|]. split; [lia|assumption].
  - unfold ldn. cbn. lia.
  - rewrite repeat_length. lia.
  - apply set_stride_ldn; [lia|exact G5].
  - apply set_stride_ones; [lia|exact G5].
Qed.

(** ---- transfers in an order that keeps the order per cell ---- *)
Lemma put_is_acc {V} (es : list (buffer V * (place * Z))) : forall m, run_elems put_event m es = run_elems (acc_event (fun _ w => w)) m es.
Proof. induction es as [|e es IH]; intros m; [reflexivity|]. cbn [run_elems]. unfold put_event at 1, acc_event at 1, put_elem, acc_elem. destruct (fst e (snd (snd e))); [|reflexivity]. destruct (hget m (fst (snd e))); [|reflexivity]. apply IH. Qed.
Lemma event_values_filter {V} (q : place) (es : list (buffer V * (place * Z))) :
  event_values q es = flat_map (fun e => match evalue e with Some w => [w] | None => [] end) (filter (fun e => (fst (fst (snd e)) =? fst q) && (snd (fst (snd e)) =? snd q)) es).
Proof.
  induction es as [|e es IH]; [reflexivity|]. cbn [event_values flat_map filter]. fold (event_values q es). rewrite IH. unfold ecell at 1.
  destruct (place_dec (fst (snd e)) q) as [<-|N].
  - rewrite !Z.eqb_refl. reflexivity.
  - destruct (_ && _) eqn:H; [|reflexivity]. exfalso. apply N. apply andb_prop in H as (H1 & H2). apply Z.eqb_eq in H1, H2. apply injective_projections; assumption.
Qed.
Definition last_value {V} (q : place) (es : list (buffer V * (place * Z))) (v : V) : V := fold_left (fun _ w => w) (event_values q es) v.
Lemma ordered_run {V} (es es' : list (buffer V * (place * Z))) m : keeps_cells es es' ->
  (forall e, In e es -> hget m (ecell e) <> None /\ evalue e <> None) ->
  exists m', run_elems put_event m es' = Some m' /\ forall q, hget m' q = match hget m q with Some v => Some (last_value q es v) | None => None end.
Proof.
  intros (P & K) H. rewrite put_is_acc. destruct (acc_events_run (fun _ w => w) es' m) as (m' & E & R).
  - intros e He. apply H. eapply Permutation_in; [apply Permutation_sym; exact P|exact He].
  - exists m'. split; [exact E|]. intros q. rewrite R. unfold last_value. rewrite !event_values_filter, K. reflexivity.
Qed.
Lemma event_values_split {V} (q : place) (l l' : list (buffer V * (place * Z))) : event_values q (l ++ l') = event_values q l ++ event_values q l'.
Proof. apply flat_map_app. Qed.

Section Notify.
Variable placed : list Z -> place -> Prop.
Hypothesis fun_placed : forall x q q', placed x q -> placed x q' -> q = q'.
Hypothesis inj_placed : forall x y q, placed x q -> placed y q -> x = y.

(** The region and the element at [e], which may lie in it. *)
Lemma region_element {V} lo hi ld ts (u nb : buffer V) e qe v es' m : length lo = length hi ->
  region_transfers placed lo hi ld ts -> placed e qe -> nb 0 = Some v ->
  allocated placed m -> buffer_ok u lo hi ld ->
  keeps_cells (map (fun t => (u, t)) ts ++ map (fun t => (nb, t)) [(qe, 0)]) es' ->
  exists m', run_elems put_event m es' = Some m' /\
    hget m' qe = Some v /\
    (forall x q, in_box lo hi x -> x <> e -> placed x q -> hget m' q = buf_at u lo ld x) /\
    (forall q, (forall x, in_box lo hi x \/ x = e -> ~ placed x q) -> hget m' q = hget m q).
Proof.
  intros HL R PE EV AL BO KC. destruct (ordered_run _ es' m KC) as (m' & E & H).
  { intros ev HI. apply in_app_iff in HI as [HI|HI].
    - apply in_map_iff in HI as (t & <- & Ht). unfold ecell, evalue. cbn [fst snd]. destruct (region_In placed lo hi ld HL ts t R Ht) as (x & Hx & Hp & Hi).
      split; [apply (AL x); exact Hp|]. rewrite Hi. apply (BO x Hx).
    - destruct HI as [<-|[]]. unfold ecell, evalue. cbn [fst snd]. split; [apply (AL e); exact PE|congruence]. }
  exists m'. split; [exact E|]. split; [|split].
  - rewrite H. pose proof (AL e qe PE) as A. destruct (hget m qe) as [v0|]; [|congruence]. unfold last_value. rewrite event_values_split, fold_left_app.
    cbn [map event_values flat_map]. unfold ecell, evalue. cbn [fst snd]. destruct (place_dec qe qe); [|congruence]. rewrite EV. reflexivity.
  - intros x q Hx NE PX. rewrite H. pose proof (AL x q PX) as A. destruct (hget m q) as [v0|]; [|congruence]. unfold last_value. rewrite event_values_split.
    assert (N : event_values q (map (fun t => (nb, t)) [(qe, 0)]) = []).
    { apply event_values_other. intros [<-|[]]. apply NE. apply (inj_placed x e qe PX PE). }
    rewrite N, app_nil_r. pose proof (BO x Hx) as B. destruct (buf_at u lo ld x) as [w|] eqn:EB; [|congruence].
    rewrite (event_values_one u q (lin ld (vsub x lo)) ts w); [reflexivity| | |exact EB].
    + apply (region_NoDup_cells placed lo hi ld inj_placed ts R).
    + apply (region_all placed lo hi ld HL fun_placed ts x q R Hx PX).
  - intros q Hq. rewrite H. unfold last_value. rewrite event_values_split.
    rewrite (event_values_other nb), (event_values_other u); [cbn; destruct (hget m q); reflexivity| |].
    + intros HI. apply in_map_iff in HI as (t & <- & Ht). destruct (region_In placed lo hi ld HL ts t R Ht) as (x & Hx & Hp & _). exact (Hq x (or_introl Hx) Hp).
    + intros [<-|[]]. exact (Hq e (or_intror eq_refl) PE).
Qed.
End Notify.

Lemma intersect_spec lo : forall hi e, length lo = length hi -> length lo = length e -> intersect_coords lo hi e = true <-> in_box lo hi e.
Proof.
  induction lo as [|l lo IH]; intros [|h hi] [|x e] H1 H2; cbn in *; try lia; try tauto. destruct ((x <? l) || (h <? x)) eqn:E.
  - split; [discriminate|]. lia.
  - rewrite (IH hi e) by lia. split; [intros H; split; [lia|exact H]|tauto].
Qed.
Lemma offset_2d e lo ld : (length lo <= 2)%nat -> lo <> [] -> length e = length lo -> (length lo - 1 <= length ld)%nat -> element_offset e lo ld = Some (lin ld (vsub e lo)).
Proof.
  intros H N L D. destruct lo as [|l [|l2 [|]]]; [congruence| | |cbn in H; lia].
  - destruct e as [|x [|]]; try discriminate. cbn. f_equal. lia.
  - destruct e as [|x [|x2 [|]]]; try discriminate. destruct ld as [|d ld]; [cbn in D; lia|]. cbn. f_equal. lia.
Qed.
Lemma bump_other v : v <> [] -> Forall (fun b => 0 <= b < 256) v -> bump v <> v.
Proof. destruct v as [|b v]; [congruence|]. intros _ H. inversion H; subst. cbn. intros [= E _]. destruct (Z.eq_dec b 255) as [->|]; [discriminate|]. rewrite Z.mod_small in E by lia. lia. Qed.

(** ---- the table of outstanding operations ---- *)
Lemma find_slot_spec h l i : find_slot h l = Some i -> exists t, nth_error l i = Some (h, t) /\ (i < length l)%nat.
Proof.
  revert i. induction l as [|s l IH]; intros i E; [discriminate|]. cbn in E. destruct (fst s =? h) eqn:H.
  - injection E as <-. exists (snd s). cbn. split; [destruct s; cbn in *; f_equal; f_equal; lia|lia].
  - destruct (find_slot h l) as [j|]; [|discriminate]. injection E as <-. destruct (IH j eq_refl) as (t & E & L). exists t. cbn. split; [exact E|lia].
Qed.
Lemma find_slot_none h l : find_slot h l = None -> ~ In h (map fst l).
Proof.
  induction l as [|s l IH]; [auto|]. cbn. destruct (fst s =? h) eqn:H; [discriminate|]. destruct (find_slot h l); [discriminate|]. intros _ [E|HI]; [lia|]. exact (IH eq_refl HI).
Qed.
Lemma find_slot_first h l i : find_slot h l = Some i -> exists l1 t l2, l = l1 ++ (h, t) :: l2 /\ nth_error l i = Some (h, t) /\ (forall x, upd i x l = l1 ++ x :: l2).
Proof.
  revert i. induction l as [|s l IH]; intros i E; [discriminate|]. cbn in E. destruct (fst s =? h) eqn:H.
  - injection E as <-. exists [], (snd s), l. cbn. replace (h, snd s) with s by (destruct s; cbn in *; f_equal; lia). auto.
  - destruct (find_slot h l) as [j|]; [|discriminate]. injection E as <-. destruct (IH j eq_refl) as (l1 & t & l2 & -> & N & U). exists (s :: l1), t, l2. cbn. split; [reflexivity|]. split; [exact N|]. intros x. rewrite U. reflexivity.
Qed.
Definition used (l : list slot) : list slot := filter (fun s => negb (fst s =? 0)) l.
(** The transfers the caller has outstanding under handle [h], and what remains without them. *)
Fixpoint outstanding (h : Z) (p : list slot) : list Z :=
  match p with [] => [] | s :: p' => if fst s =? h then [fst (snd s); snd (snd s)] else outstanding h p' end.
Definition without (h : Z) (p : list slot) : list slot := filter (fun s => negb (fst s =? h)) p.
Fixpoint waits (p : list slot) (evs : list nevent) : list (list Z) :=
  match evs with
  | [] => []
  | NPut h t1 t2 :: evs' => waits ((h, (t1, t2)) :: p) evs'
  | NWait h :: evs' => outstanding h p :: waits (without h p) evs'
  end.
Fixpoint good_notify (p : list slot) (evs : list nevent) : Prop :=
  match evs with
  | [] => True
  | NPut h t1 t2 :: evs' => h <> 0 /\ ~ In h (map fst p) /\ (length p < 100)%nat /\ good_notify ((h, (t1, t2)) :: p) evs'
  | NWait h :: evs' => h <> 0 /\ good_notify (without h p) evs'
  end.

Lemma filter_length_le {A} (f : A -> bool) l : (forall x, In x l -> f x = true) -> length (filter f l) = length l.
Proof. induction l as [|a l IH]; intros H; [reflexivity|]. cbn. rewrite (H a (or_introl eq_refl)). cbn. rewrite IH; [reflexivity|]. intros x Hx. apply H. right. exact Hx. Qed.
Lemma outstanding_In h p t1 t2 : NoDup (map fst p) -> In (h, (t1, t2)) p -> outstanding h p = [t1; t2].
Proof.
  induction p as [|s p IH]; [intros _ []|]; intros ND [->|HI]; cbn [outstanding]; [cbn; rewrite Z.eqb_refl; reflexivity|]. inversion ND; subst.
  destruct (fst s =? h) eqn:E; [exfalso; apply H1; apply in_map_iff; exists (h, (t1, t2)); cbn; split; [lia|exact HI]|]. apply IH; assumption.
Qed.
Lemma outstanding_none h p : ~ In h (map fst p) -> outstanding h p = [].
Proof. induction p as [|s p IH]; intros H; [reflexivity|]. cbn in *. destruct (fst s =? h) eqn:E; [exfalso; apply H; left; lia|]. apply IH. tauto. Qed.
Lemma without_none h p : ~ In h (map fst p) -> without h p = p.
Proof. induction p as [|s p IH]; intros H; [reflexivity|]. cbn in *. destruct (fst s =? h) eqn:E; [exfalso; apply H; left; lia|]. cbn. f_equal. apply IH. tauto. Qed.
Lemma Permutation_filter_in {A} (f : A -> bool) l l' : Permutation l l' -> Permutation (filter f l) (filter f l').
Proof. induction 1; cbn; auto; [destruct (f x); auto|destruct (f x), (f y); auto; apply perm_swap|eapply perm_trans; eauto]. Qed.

Lemma nrun_ok evs : forall l p, length l = 100%nat -> Permutation (used l) p -> NoDup (map fst p) -> good_notify p evs ->
  exists l', nrun l evs = Some (l', waits p evs).
Proof.
  induction evs as [|[h t1 t2|h] evs IH]; intros l p L P ND G; cbn [nrun waits]; [eauto| |].
  - destruct G as (H0 & HN & HC & G). unfold notify_start. destruct (find_slot 0 l) as [i|] eqn:E.
    + destruct (find_slot_first _ _ _ E) as (l1 & t & l2 & -> & _ & U). rewrite U. apply IH.
      * rewrite app_length in *. cbn in *. lia.
      * unfold used in *. rewrite filter_app in *. cbn [filter fst] in *. replace (h =? 0) with false by lia. cbn [negb] in *. cbn in P.
        eapply perm_trans; [apply Permutation_sym, Permutation_middle|]. constructor. exact P.
      * cbn. constructor; assumption.
      * exact G.
    + exfalso. apply find_slot_none in E. apply Permutation_length in P. unfold used in P. rewrite filter_length_le in P; [lia|]. intros x Hx. destruct (fst x =? 0) eqn:X; [|reflexivity].
      exfalso. apply E. apply in_map_iff. exists x. split; [lia|exact Hx].
  - destruct G as (H0 & G). unfold notify_wait. destruct (find_slot h l) as [i|] eqn:E.
    + destruct (find_slot_first _ _ _ E) as (l1 & [t1 t2] & l2 & -> & N & U). rewrite N, U. cbn [fst snd].
      assert (P' : Permutation (used (l1 ++ (0, (t1, t2)) :: l2)) (without h p) /\ In (h, (t1, t2)) p).
      { unfold used in *. rewrite filter_app in *. cbn [filter fst] in *. replace (h =? 0) with false in P by lia. cbn [negb] in P. cbn. 
        assert (HI : In (h, (t1, t2)) p) by (eapply Permutation_in; [exact P|]; apply in_elt). split; [|exact HI].
        assert (Q := Permutation_filter_in (fun s => negb (fst s =? h)) _ _ P). fold (without h p) in Q. eapply perm_trans; [|exact Q].
        assert (P2 : Permutation ((h, (t1, t2)) :: filter (fun s => negb (fst s =? 0)) l1 ++ filter (fun s => negb (fst s =? 0)) l2) p) by (eapply perm_trans; [apply Permutation_middle|exact P]).
        assert (ND2 := Permutation_NoDup (Permutation_map fst (Permutation_sym P2)) ND). cbn [map fst] in ND2. inversion ND2 as [|? ? N1 N2]; subst.
        rewrite filter_app. cbn [filter fst]. rewrite Z.eqb_refl. cbn [negb].
        assert (W := without_none h _ N1). unfold without in W. rewrite filter_app in W. exact (eq_ind_r (fun z => Permutation _ z) (Permutation_refl _) W). }
      destruct P' as (P' & HI). destruct (IH (l1 ++ (0, (t1, t2)) :: l2) (without h p)) as (l' & E').
      * rewrite app_length in *. cbn in *. lia.
      * exact P'.
      * unfold without. clear - ND. induction p as [|s p IH]; [constructor|]. inversion ND; subst. cbn. destruct (fst s =? h); cbn; [apply IH; assumption|]. constructor; [|apply IH; assumption].
        intros X. apply H1. apply in_map_iff in X as (y & E & Y). apply filter_In in Y as (Y & _). apply in_map_iff. eauto.
      * exact G.
      * cbv zeta; cbn [fst snd]; unfold slot in *. rewrite E'. exists l'. cbn [fst snd]. rewrite (outstanding_In h p t1 t2 ND HI). reflexivity.
    + assert (HN : ~ In h (map fst p)).
      { apply find_slot_none in E. intros X. apply E. apply in_map_iff in X as (y & EY & Y). eapply Permutation_in in Y; [|apply Permutation_sym; exact P]. apply filter_In in Y as (Y & _). apply in_map_iff. eauto. }
      cbn [fst snd]. rewrite without_none in * by exact HN. destruct (IH l p L P ND G) as (l' & E'). rewrite E'. exists l'. cbn [fst snd]. rewrite (outstanding_none h p HN). reflexivity.
Qed.
