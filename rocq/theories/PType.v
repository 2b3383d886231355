(** Registered data types: C45. *)
From Verif Require Import SpecType MBase MNb MHandle MType LRadix LDist LNb.

Definition type_base (sizes : list Z) : Z -> option Z := fun id => zget sizes (id - 1000).
Definition FIRST_ID := 1017.
Definition LAST_ID := 1255.
(** The calls the theorem is about: left out are deregistering ids above the
    range and asking for the size of a type that is not live. *)
Definition type_allowed (sizes : list Z) (b : tbook) (c : tcall) : Prop :=
  match c with
  | TDeregister id => id <= LAST_ID
  | TSize id => b id <> None \/ type_base sizes id <> None
  | _ => True
  end.

Record tsim (sizes : list Z) (t : types) (b : tbook) : Prop := {
  ts_len : length sizes = 17%nat;
  ts_base : forall i n, zget sizes i = Some n -> t i = (true, n);
  ts_live : forall i, 17 <= i < 256 -> t i = match b (i + 1000) with Some n => (true, n) | None => (false, 0) end;
  ts_out : forall id, ~ (1017 <= id <= 1255) -> b id = None
}.
Lemma search_spec t : forall f i, let r := type_search t i f in
  i <= r <= i + Z.of_nat f /\ (forall j, i <= j < r -> fst (t j) = true) /\ (r < i + Z.of_nat f -> fst (t r) = false).
Proof.
  induction f as [|f IH]; intros i; cbn [type_search].
  - cbv zeta. repeat split; try lia; intros; lia.
  - destruct (fst (t i)) eqn:E.
    + destruct (IH (i + 1)) as (H1 & H2 & H3). cbv zeta in *. repeat split; try lia.
      * intros j H. destruct (Z.eq_dec j i) as [->|]; auto. apply H2; lia.
      * intros H. apply H3; lia.
    + cbv zeta. repeat split; try lia; auto; intros; lia.
Qed.
Lemma sizes_some (sizes : list Z) i : length sizes = 17%nat -> 0 <= i < 17 -> exists n, zget sizes i = Some n.
Proof. intros L H. exists (nth (Z.to_nat i) sizes 0). apply zget_Some. rewrite L. lia. Qed.
Lemma base_range (sizes : list Z) i n : length sizes = 17%nat -> zget sizes i = Some n -> 0 <= i < 17.
Proof. intros L H. apply zget_inv in H. rewrite L in H. lia. Qed.

Lemma tstep_sim sizes t b c : tsim sizes t b -> type_allowed sizes b c ->
  exists t' a b', type_step t c = Done (t', a) /\ tbook_step (type_base sizes) FIRST_ID LAST_ID b c a b' /\ tsim sizes t' b'.
Proof.
  intros S A. pose proof (ts_len _ _ _ S) as L. destruct c as [bytes|id|id|id]; cbn [type_step].
  - unfold register_type. destruct (search_spec t (Z.to_nat (TYPES_MAX - TYPES_RESERVED)) TYPES_RESERVED) as (H1 & H2 & H3).
    cbv zeta in *. set (r := type_search t TYPES_RESERVED (Z.to_nat (TYPES_MAX - TYPES_RESERVED))) in *. clearbody r. unfold TYPES_RESERVED, TYPES_MAX, TYPE_BASE in *.
    change (Z.of_nat (Z.to_nat (256 - 17))) with 239 in *. destruct (Z.eqb_spec r 256) as [->|N]; cbn [fst snd].
    + exists t, (TNum (-1)), b. split; auto. split; auto. apply TS_full. unfold FIRST_ID, LAST_ID. intros id H E.
      specialize (H2 (id - 1000) ltac:(lia)). rewrite (ts_live _ _ _ S) in H2 by lia. replace (id - 1000 + 1000) with id in H2 by lia. rewrite E in H2. discriminate.
    + assert (R : 17 <= r < 256) by lia. specialize (H3 ltac:(lia)). pose proof (ts_live _ _ _ S r R) as TL.
      destruct (b (r + 1000)) as [n|] eqn:E; [rewrite TL in H3; discriminate|].
      eexists _, _, _. split; [reflexivity|]. split; [apply TS_register; auto; unfold FIRST_ID, LAST_ID; lia|]. constructor.
      * auto.
      * intros i n H. rewrite fset_other; [apply (ts_base _ _ _ S); auto|]. apply base_range in H; auto. lia.
      * intros i H. unfold tput. destruct (Z.eqb_spec (i + 1000) (r + 1000)).
        -- assert (i = r) by lia; subst. now rewrite fset_same.
        -- rewrite fset_other by lia. apply S; auto.
      * intros id H. unfold tput. destruct (Z.eqb_spec id (r + 1000)); [lia|]. apply S; auto.
  - unfold deregister_type, TYPES_RESERVED, TYPES_MAX, TYPE_BASE. cbn [type_allowed] in A; unfold LAST_ID in A. cbv zeta. destruct (Z.ltb_spec (id - 1000) 17).
    + exists t, (TNum (-1)), b. split; auto. split; auto. apply TS_reserved. unfold FIRST_ID; lia.
    + destruct (Z.leb_spec 256 (id - 1000)); [lia|]. pose proof (ts_live _ _ _ S (id - 1000) ltac:(lia)) as TL.
      replace (id - 1000 + 1000) with id in TL by lia. destruct (b id) as [n|] eqn:E; rewrite TL; cbn [fst negb snd].
      * eexists _, _, _. split; [reflexivity|]. split; [eapply TS_deregister; eauto|]. constructor.
        -- auto.
        -- intros i m G. rewrite fset_other; [apply (ts_base _ _ _ S); auto|]. apply base_range in G; auto. lia.
        -- intros i G. unfold tput. destruct (Z.eqb_spec (i + 1000) id).
           ++ replace i with (id - 1000) by lia. now rewrite fset_same.
           ++ rewrite fset_other by lia. apply S; auto.
        -- intros id' G. unfold tput. destruct (Z.eqb_spec id' id); auto. apply S; auto.
      * exists t, (TNum (-2)), b. split; auto. split; auto. apply TS_unknown; auto. unfold FIRST_ID; lia.
  - cbn [type_allowed] in A. unfold type_base in A.
    assert (H : exists n, t (id - 1000) = (true, n) /\ 0 <= id - 1000 < 256 /\ (b id = Some n \/ zget sizes (id - 1000) = Some n)).
    { destruct A as [A|A].
      - destruct (b id) as [n|] eqn:E; [|congruence]. exists n. assert (1017 <= id <= 1255).
        { destruct (Z_le_dec 1017 id); [destruct (Z_le_dec id 1255); [lia|]|]; rewrite (ts_out _ _ _ S) in E by lia; discriminate. }
        rewrite (ts_live _ _ _ S) by lia. replace (id - 1000 + 1000) with id by lia. rewrite E. split; auto. split; [lia|auto].
      - destruct (zget sizes (id - 1000)) as [n|] eqn:E; [|congruence]. exists n. pose proof (base_range _ _ _ L E). split; [apply (ts_base _ _ _ S); auto|]. split; [lia|auto]. }
    destruct H as (n & H1 & H2 & H3). exists t, (TNum n), b. unfold sizeofM, TYPES_MAX, TYPE_BASE. cbv zeta.
    destruct (Z.leb_spec 0 (id - 1000)); [|lia]. destruct (Z.ltb_spec (id - 1000) 256); [|lia]. rewrite H1. cbn. split; auto. split; auto.
    apply TS_size. exact H3.
  - exists t, (TBool (validtypeM t id)), b. split; auto. split; auto. apply TS_valid. unfold validtypeM, TYPES_MAX, TYPE_BASE, type_base.
    destruct (Z.leb_spec 1000 id); destruct (Z.ltb_spec id (1000 + 256)); cbn [andb].
    + destruct (Z_lt_dec (id - 1000) 17).
      * destruct (sizes_some sizes (id - 1000) L ltac:(lia)) as [n E]. rewrite (ts_base _ _ _ S _ _ E), E. cbn. split; auto. right; discriminate.
      * rewrite (ts_live _ _ _ S) by lia. replace (id - 1000 + 1000) with id by lia.
        assert (E0 : zget sizes (id - 1000) = None). { destruct (zget sizes (id - 1000)) eqn:E; auto. apply base_range in E; auto. lia. }
        rewrite E0. destruct (b id); cbn; split; auto; try discriminate; [left; discriminate|]. intros [X|X]; congruence.
    + split; [discriminate|]. intros [X|X]; exfalso; apply X.
      * apply (ts_out _ _ _ S); lia.
      * destruct (zget sizes (id - 1000)) eqn:E; auto. apply base_range in E; auto. lia.
    + split; [discriminate|]. intros [X|X]; exfalso; apply X.
      * apply (ts_out _ _ _ S); lia.
      * destruct (zget sizes (id - 1000)) eqn:E; auto. apply base_range in E; auto. lia.
    + lia.
Qed.

(** Every call of the history is allowed, given the answers before it. *)
Definition types_ok (sizes : list Z) (cs : list tcall) : Prop :=
  forall n c, nth_error cs n = Some c -> forall t l b, type_run (types0 sizes) (firstn n cs) = Done (t, l) ->
    tbook_run (type_base sizes) FIRST_ID LAST_ID tbook0 (firstn n cs) l b -> type_allowed sizes b c.
Lemma trun_app base f l b cs ans b1 c a b2 : tbook_run base f l b cs ans b1 -> tbook_step base f l b1 c a b2 -> tbook_run base f l b (cs ++ [c]) (ans ++ [a]) b2.
Proof. induction 1; intros; cbn; econstructor; eauto. constructor. Qed.
Lemma type_run_app t cs t1 l c t2 a : type_run t cs = Done (t1, l) -> type_step t1 c = Done (t2, a) -> type_run t (cs ++ [c]) = Done (t2, l ++ [a]).
Proof.
  revert t l; induction cs as [|c0 cs IH]; intros t l E1 E2; cbn [type_run app] in *.
  - injection E1 as <- <-. rewrite E2; auto.
  - destruct (type_step t c0) as [[t0 a0]| |]; try discriminate. cbn [fst snd] in *.
    destruct (type_run t0 cs) as [[t3 l3]| |] eqn:E; try discriminate. injection E1 as <- <-. cbn [fst snd] in *.
    rewrite (IH t0 l3 E E2); auto.
Qed.
Lemma types_sim sizes cs : length sizes = 17%nat -> types_ok sizes cs ->
  exists t l b, type_run (types0 sizes) cs = Done (t, l) /\ tbook_run (type_base sizes) FIRST_ID LAST_ID tbook0 cs l b /\ tsim sizes t b.
Proof.
  intros L. induction cs as [|c cs IH] using rev_ind; intros H.
  - exists (types0 sizes), [], tbook0. split; auto. split; [constructor|]. constructor; auto.
    + intros i n E. unfold types0. now rewrite E.
    + intros i R. unfold types0, tbook0. destruct (zget sizes i) eqn:E; auto. apply base_range in E; auto. lia.
  - destruct IH as (t & l & b & E & R & S).
    { intros n c' N t l b. assert (LT : (n < length cs)%nat) by (apply nth_error_Some; congruence).
      specialize (H n c'). rewrite firstn_app in H. replace (n - length cs)%nat with O in H by lia. cbn [firstn] in H. rewrite app_nil_r in H.
      rewrite nth_error_app1 in H by auto. apply (H N t l b). }
    assert (A : type_allowed sizes b c).
    { specialize (H (length cs) c). rewrite firstn_app, Nat.sub_diag, firstn_all in H. cbn [firstn] in H. rewrite app_nil_r in H.
      rewrite nth_error_app2, Nat.sub_diag in H by auto. apply (H eq_refl t l b); auto. }
    destruct (tstep_sim sizes t b c S A) as (t' & a & b' & E1 & R1 & S1).
    exists t', (l ++ [a]), b'. split; [eapply type_run_app; eauto|]. split; [eapply trun_app; eauto|auto].
Qed.

(** C45: every history of allowed calls gives the answers of the ledger:
    registering returns an id in no live type's use (or -1 when all 239 are in
    use) and changes nothing else, sizes are those registered until
    deregistration, and exactly live and built-in types are valid. *)
Theorem C45_types_partial : forall sizes cs, length sizes = 17%nat -> types_ok sizes cs ->
  exists t l b, type_run (types0 sizes) cs = Done (t, l) /\ tbook_run (type_base sizes) FIRST_ID LAST_ID tbook0 cs l b.
Proof. intros sizes cs L H. destruct (types_sim sizes cs L H) as (t & l & b & E & R & _). eauto. Qed.
(** The ledger's ids of live types are never those of built-in types. *)
Theorem C45_not_builtin : forall sizes cs l b id n, length sizes = 17%nat ->
  tbook_run (type_base sizes) FIRST_ID LAST_ID tbook0 cs l b -> b id = Some n -> type_base sizes id = None.
Proof.
  intros sizes cs l b id n L R.
  assert (G : forall b0, tbook_run (type_base sizes) FIRST_ID LAST_ID b0 cs l b -> (forall id n, b0 id = Some n -> FIRST_ID <= id) -> forall id n, b id = Some n -> FIRST_ID <= id).
  { clear R. intros b0 R; induction R as [b0|b0 c a b1 cs l b2 S R IH]; auto. intros H. apply IH. intros i m. destruct S as [? j ? ?| |j ? ?| | | |]; auto; unfold tput; try (destruct (Z.eqb_spec i j); subst; intros X; [try discriminate; lia|eauto]); eauto. }
  intros E. unfold type_base. destruct (zget sizes (id - 1000)) eqn:F; auto. apply base_range in F; auto.
  assert (FIRST_ID <= id) by (apply (G tbook0 R) with n; auto; discriminate). unfold FIRST_ID in *. lia.
Qed.
Definition sizes64 : list Z := [1; 4; 8; 4; 8; 16; 8; 16; -1; 1; 8; 8; 4; 8; 8; 16; 8].
Example C45_reuse : type_run (types0 sizes64) [TRegister 24; TRegister 40; TSize 1018; TDeregister 1017; TRegister 7; TSize 1017; TSize 1018; TValid 1019; TDeregister 1019; TDeregister 1004] =
  Done (fset (fset (fset (fset (types0 sizes64) 17 (true, 24)) 18 (true, 40)) 17 (false, 0)) 17 (true, 7),
    [TNum 1017; TNum 1018; TNum 40; TNum 0; TNum 1017; TNum 7; TNum 40; TBool false; TNum (-2); TNum (-1)]).
Proof. reflexivity. Qed.
Example C45_hypotheses : length sizes64 = 17%nat /\ types_ok sizes64 [TRegister 24; TSize 1017; TDeregister 1017; TSize 1004].
Proof.
  split; auto. intros [|[|[|[|n]]]] c E t l b R B; cbn [firstn nth_error] in *; [| | | |destruct n; discriminate]; injection E as <-; cbn [type_allowed]; auto.
  - assert (l = [TNum 1017]) by (vm_compute in R; congruence). subst. inversion B as [|? ? ? b1 ? ? ? S B']; subst. inversion B'; subst. inversion S; subst. left. discriminate.
  - unfold LAST_ID; lia.
  - right. discriminate.
Qed.

(** Deregistering an id above the range reads and writes outside the table. *)
Theorem C45_deregister_refuted : forall sizes id, 1256 <= id -> type_step (types0 sizes) (TDeregister id) = Undef.
Proof.
  intros sizes id H. cbn. unfold deregister_type, TYPES_RESERVED, TYPES_MAX, TYPE_BASE. cbv zeta.
  destruct (Z.ltb_spec (id - 1000) 17); [lia|]. destruct (Z.leb_spec 256 (id - 1000)); [auto|lia].
Qed.
(** Temporary buffers use another size: zero for every registered type. *)
Theorem C45_buffer_size_refuted : forall sizes bytes, 1 <= bytes -> length sizes = 17%nat ->
  exists t, type_run (types0 sizes) [TRegister bytes; TSize 1017] = Done (t, [TNum 1017; TNum bytes]) /\ GAsizeof sizes 1017 = 0.
Proof.
  intros sizes bytes H L. do 18 (destruct sizes as [|? sizes]; try discriminate). eexists. split; [|reflexivity]. cbn. reflexivity.
Qed.
Print Assumptions C45_types_partial.
Print Assumptions C45_not_builtin.
Print Assumptions C45_deregister_refuted.
Print Assumptions C45_buffer_size_refuted.
