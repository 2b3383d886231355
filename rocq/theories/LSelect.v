(** The selection of an extreme element (C70). *)
From Verif Require Import MNb MHandle MGroup.
From Verif Require Export SpecSelect LLoc LIterSca.

Lemma get_elems_packed lo hi ld : lo <> [] -> length lo = length hi -> packed (extents lo hi) ld ->
  get_elems lo hi ld = Done (zprod (extents lo hi)).
Proof.
  revert hi ld. induction lo as [|l lo IH]; intros [|h hi] ld Hne HL HP; cbn in HL; try lia; [congruence|].
  destruct lo as [|l' lo], hi as [|h' hi]; cbn in HL; try lia.
  - cbn. f_equal. lia.
  - destruct ld as [|e ld]; [contradiction|]. destruct HP as [-> HP].
    change (get_elems (l :: l' :: lo) (h :: h' :: hi) (h - l + 1 :: ld)) with
      (if h - l + 1 =? h - l + 1 then try n <- get_elems (l' :: lo) (h' :: hi) ld; Done ((h - l + 1) * n) else Abort).
    rewrite Z.eqb_refl, IH; [reflexivity|discriminate|cbn; lia|exact HP].
Qed.

Lemma lin_packed ext ld k : length k = length ext -> packed ext ld -> lin ld k = lin ext k.
Proof.
  revert ld k. induction ext as [|e ext IH]; intros ld [|a k] HL HP; cbn in HL; try lia; [reflexivity|].
  destruct ext as [|e' ext], k as [|a' k]; cbn in HL; try lia; [reflexivity|].
  destruct ld as [|l ld]; [contradiction|]. destruct HP as [-> HP].
  change (a + e * lin ld (a' :: k) = a + e * lin (e' :: ext) (a' :: k)). rewrite IH; [reflexivity|cbn; lia|exact HP].
Qed.

Lemma extents_pos lo hi : Forall2 Z.le lo hi -> Forall (fun n => 1 <= n) (extents lo hi) /\ length (extents lo hi) = length lo.
Proof.
  induction 1 as [|l h lo hi Hlh _ [IH IH2]]; cbn; [split; auto|]. split; [constructor; [lia|exact IH]|lia].
Qed.

Lemma sel_sub_spec lo hi ind : Forall2 Z.le lo hi -> 0 <= ind < zprod (extents lo hi) ->
  sel_sub lo hi ind = Done (vadd (decode (extents lo hi) ind) lo, 0).
Proof.
  intros H. revert ind. induction H as [|l h lo hi Hlh H IH]; intros ind Hi; cbn [extents zprod] in Hi; cbn [sel_sub extents decode vadd].
  - f_equal. f_equal. lia.
  - unfold cmod, cdiv. destruct (Z.eqb_spec (h - l + 1) 0); [lia|]. cbn [need].
    rewrite Z.rem_mod_nonneg, Z.quot_div_nonneg by lia. rewrite IH; [reflexivity|].
    split; [apply Z.div_pos; lia|]. apply Z.div_lt_upper_bound; lia.
Qed.

Lemma vadd_in_box lo hi t : Forall2 Z.le lo hi -> in_range0 (extents lo hi) t -> in_box lo hi (vadd t lo).
Proof.
  intros H. revert t. induction H as [|l h lo hi Hlh H IH]; intros [|a t]; cbn; try tauto. intros [H1 H2]. split; [lia|auto].
Qed.
Lemma vsub_in_range lo hi x : in_box lo hi x -> in_range0 (extents lo hi) (vsub x lo) /\ vadd (vsub x lo) lo = x.
Proof.
  revert hi x. induction lo as [|l lo IH]; intros [|h hi] [|a x]; cbn; try tauto. intros [H1 H2].
  destruct (IH hi x H2) as [I1 I2]. split; [split; [lia|exact I1]|]. f_equal; [lia|exact I2].
Qed.
Lemma vsub_vadd lo t : length t = length lo -> vsub (vadd t lo) lo = t.
Proof. revert lo. induction t as [|a t IH]; intros [|l lo] HL; cbn in *; try lia; [reflexivity|]. f_equal; [lia|apply IH; lia]. Qed.

Section Sel.
Context {V : Type}.
Variable key : V -> Z.
Variables mn cplx : bool.
Variable A : list Z -> V.
Notation beats := (beats mn).

(** [k] is extreme among the values [f 0 .. f (n-1)]. *)
Definition nb (x v : Z) : Prop := if mn then v <= x else x <= v.
Lemma beats_true x v : beats x v = true -> nb v x /\ forall y, nb y v -> nb y x.
Proof. unfold nb, MSelect.beats. destruct mn; intros H; (split; [lia|intros y; lia]). Qed.
Lemma beats_false x v : beats x v = false -> nb x v.
Proof. unfold nb, MSelect.beats. destruct mn; lia. Qed.
Lemma nb_refl x : nb x x. Proof. unfold nb. destruct mn; lia. Qed.

Lemma sel_loop_spec mem off (f : Z -> V) n : forall i v ind,
  (forall j, i <= j < i + Z.of_nat n -> mem (off + j) = Some (f j)) ->
  exists v' ind', sel_loop key mn mem off n i v ind = Done (v', ind') /\
    (forall j, i <= j < i + Z.of_nat n -> nb (key (f j)) v') /\ nb v v' /\ (forall y, nb y v -> nb y v') /\
    ((v' = v /\ ind' = ind) \/ (i <= ind' < i + Z.of_nat n /\ v' = key (f ind'))).
Proof.
  induction n as [|n IH]; intros i v ind HM; cbn [sel_loop].
  - exists v, ind. split; [reflexivity|]. split; [intros; lia|]. split; [apply nb_refl|]. split; auto.
  - rewrite (HM i) by lia. cbn [need].
    destruct (beats (key (f i)) v) eqn:EB.
    + destruct (beats_true _ _ EB) as [B1 B2].
      destruct (IH (i + 1) (key (f i)) i) as (v' & ind' & E & H1 & H2 & H3 & H4); [intros; apply HM; lia|].
      exists v', ind'. split; [exact E|]. split.
      { intros j Hj. destruct (Z.eq_dec j i) as [->|]; [exact H2|apply H1; lia]. }
      split; [apply H3, B1|]. split; [intros y Hy; apply H3, B2, Hy|]. right.
      destruct H4 as [[-> ->]|[H4 ->]]; split; auto; lia.
    + pose proof (beats_false _ _ EB) as B.
      destruct (IH (i + 1) v ind) as (v' & ind' & E & H1 & H2 & H3 & H4); [intros; apply HM; lia|].
      exists v', ind'. split; [exact E|]. split.
      { intros j Hj. destruct (Z.eq_dec j i) as [->|]; [apply H3, B|apply H1; lia]. }
      split; [exact H2|]. split; [exact H3|]. destruct H4 as [H4|[H4 ->]]; [left; exact H4|right; split; auto; lia].
Qed.

Lemma sel_elem_spec mem off (f : Z -> V) n : 1 <= n -> (forall j, 0 <= j < n -> mem (off + j) = Some (f j)) ->
  exists ind, 0 <= ind < n /\
    sel_elem key mn cplx mem off n 0 = Done (key (f ind), if cplx then Some (f ind) else None, ind) /\
    forall j, 0 <= j < n -> nb (key (f j)) (key (f ind)).
Proof.
  intros Hn HM. unfold sel_elem. pose proof (HM 0 ltac:(lia)) as H0. rewrite Z.add_0_r in H0. rewrite H0. cbn [need].
  destruct (sel_loop_spec mem off f (Z.to_nat n) 0 (key (f 0)) 0) as (v' & ind' & E & H1 & H2 & H3 & H4).
  { intros j Hj. apply HM. lia. }
  rewrite E. cbn [fst snd].
  assert (X : 0 <= ind' < n /\ v' = key (f ind')) by (destruct H4 as [[-> ->]|[H4 ->]]; split; auto; lia).
  destruct X as [X ->]. exists ind'. split; [exact X|]. split; [|intros j Hj; apply H1; lia].
  destruct cplx; [rewrite HM by exact X|]; reflexivity.
Qed.

(** One block whose elements are in place. *)
Definition block_holds (mem : Z -> option V) (q : lpiece) : Prop :=
  lp_lo q <> [] /\ Forall2 Z.le (lp_lo q) (lp_hi q) /\ packed (extents (lp_lo q) (lp_hi q)) (lp_ld q) /\
  forall x, in_box (lp_lo q) (lp_hi q) x -> mem (lp_off q + lin (lp_ld q) (vsub x (lp_lo q))) = Some (A x).
Definition block_of (q : lpiece) (x : list Z) : Prop := in_box (lp_lo q) (lp_hi q) x.

Lemma block_elem mem q : block_holds mem q ->
  exists ind, let ext := extents (lp_lo q) (lp_hi q) in
    let f := fun j => A (vadd (decode ext j) (lp_lo q)) in
    get_elems (lp_lo q) (lp_hi q) (lp_ld q) = Done (zprod ext) /\
    0 <= ind < zprod ext /\
    sel_elem key mn cplx mem (lp_off q) (zprod ext) 0 = Done (key (f ind), if cplx then Some (f ind) else None, ind) /\
    sel_sub (lp_lo q) (lp_hi q) ind = Done (vadd (decode ext ind) (lp_lo q), 0) /\
    selects key mn cplx A (block_of q) (EInfo (key (f ind)) (vadd (decode ext ind) (lp_lo q)) (if cplx then Some (f ind) else None)).
Proof.
  intros (NE & LE & PK & HM). set (ext := extents (lp_lo q) (lp_hi q)) in *.
  destruct (extents_pos _ _ LE) as [EP EL]. fold ext in EP, EL.
  pose proof (zprod_pos ext EP) as ZP.
  set (f := fun j => A (vadd (decode ext j) (lp_lo q))).
  destruct (sel_elem_spec mem (lp_off q) f (zprod ext) ZP) as (ind & Hi & E & HX).
  { intros j Hj. pose proof (decode_range ext j EP Hj) as DR.
    assert (IB : in_box (lp_lo q) (lp_hi q) (vadd (decode ext j) (lp_lo q))) by (apply vadd_in_box; auto).
    pose proof (HM _ IB) as HJ. rewrite vsub_vadd in HJ by (rewrite decode_length; exact EL).
    rewrite (lin_packed ext) in HJ by (auto; apply decode_length).
    rewrite lin_encode, encode_decode in HJ by (auto; apply decode_length). exact HJ. }
  exists ind. cbv zeta. split; [apply get_elems_packed; auto; clear - LE; induction LE; cbn; auto|].
  split; [exact Hi|]. split; [exact E|]. split; [apply sel_sub_spec; auto|].
  split; [|split; [|split; reflexivity]]; cbn [ei_key ei_sub].
  - intros x Hx. unfold block_of in Hx. destruct (vsub_in_range _ _ _ Hx) as [R1 R2]. fold ext in R1.
    pose proof (encode_range _ _ R1) as ER. specialize (HX _ ER). unfold f at 1 in HX.
    rewrite decode_encode, R2 in HX by exact R1. exact HX.
  - unfold block_of. apply vadd_in_box; auto. apply decode_range; auto.
Qed.

(** What a process that holds one or two blocks finds. *)
Lemma sel_one mem q : block_holds mem q ->
  exists i, sel_block key mn cplx mem q (None, 0) = Done (Some i, 0) /\ selects key mn cplx A (block_of q) i.
Proof.
  intros HB. destruct (block_elem mem q HB) as (ind & G & Hi & E & S & X). cbv zeta in *.
  eexists. split; [|exact X]. unfold sel_block. rewrite G. cbn [fst snd]. rewrite E, S. reflexivity.
Qed.

Lemma selects_either S T i j : selects key mn cplx A S i -> selects key mn cplx A T j ->
  selects key mn cplx A (fun x => S x \/ T x) (if beats (ei_key j) (ei_key i) then j else i).
Proof.
  intros (E1 & S1 & K1 & X1) (E2 & S2 & K2 & X2). unfold extreme in *.
  destruct (beats (ei_key j) (ei_key i)) eqn:EB; split; try (split; [tauto|]; split; assumption); intros x [Hx|Hx].
  - specialize (E1 x Hx). unfold MSelect.beats in EB. destruct mn; lia.
  - exact (E2 x Hx).
  - exact (E1 x Hx).
  - specialize (E2 x Hx). unfold MSelect.beats in EB. destruct mn; lia.
Qed.

Lemma sel_next mem q i S : block_holds mem q -> selects key mn cplx A S i ->
  exists j ind, sel_block key mn cplx mem q (Some i, 0) = Done (Some j, ind) /\
    selects key mn cplx A (fun x => S x \/ block_of q x) j.
Proof.
  intros HB HS. destruct (block_elem mem q HB) as (ind & G & Hi & E & SS & X). cbv zeta in *.
  pose proof (selects_either _ _ _ _ HS X) as XE. cbn [ei_key] in XE.
  unfold sel_block. rewrite G. cbn [fst snd]. rewrite E.
  destruct (beats _ (ei_key i)); [rewrite SS|]; eexists _, _; (split; [reflexivity|exact XE]).
Qed.

Lemma sel_local_spec mem ps : (1 <= length ps <= 2)%nat -> (forall q, In q ps -> block_holds mem q) ->
  exists i, sel_local key mn cplx mem ps = Done (Some i) /\
    selects key mn cplx A (fun x => exists q, In q ps /\ block_of q x) i.
Proof.
  intros HL HB. unfold sel_local. destruct ps as [|q [|r [|s ps]]]; cbn in HL; try lia; cbn [sel_blocks].
  - destruct (sel_one mem q (HB q (or_introl eq_refl))) as (i & E & (X1 & X2 & X3)).
    rewrite E. exists i. split; [reflexivity|]. split; [|split; [|exact X3]].
    + intros x (q' & [->|[]] & Hx). apply X1, Hx.
    + exists q. split; [now left|exact X2].
  - destruct (sel_one mem q (HB q (or_introl eq_refl))) as (i & E & X). rewrite E.
    destruct (sel_next mem r i _ (HB r (or_intror (or_introl eq_refl))) X) as (j & ind & E2 & (X1 & X2 & X3)).
    rewrite E2. exists j. split; [reflexivity|]. split; [|split; [|exact X3]].
    + intros x (q' & [->|[->|[]]] & Hx); apply X1; [now left|now right].
    + destruct X2 as [X2|X2]; [exists q|exists r]; (split; [cbn; tauto|exact X2]).
Qed.

(** The best of all processes. *)
Lemma sel_scope_spec (infos : list (option einfo)) : infos <> [] ->
  forall Ss, Forall2 (fun o S => exists i, o = Some i /\ selects key mn cplx A S i) infos Ss ->
  exists i, sel_scope mn infos = Done i /\ selects key mn cplx A (fun x => exists S, In S Ss /\ S x) i.
Proof.
  intros NE Ss H. induction H as [|o S infos Ss (i & -> & HS) H IH]; [congruence|].
  destruct infos as [|o' infos].
  - inversion H; subst. exists i. split; [reflexivity|]. destruct HS as (X1 & X2 & X3).
    split; [|split; [|exact X3]].
    + intros x (S' & [<-|[]] & Hx). apply X1, Hx.
    + exists S. split; [now left|exact X2].
  - destruct (IH ltac:(discriminate)) as (j & E & HT).
    change (sel_scope mn (Some i :: o' :: infos)) with
      (try b <- sel_scope mn (o' :: infos); Done (if beats (ei_key b) (ei_key i) then b else i)).
    rewrite E. eexists. split; [reflexivity|].
    destruct (selects_either _ _ _ _ HS HT) as (X1 & X2 & X3). split; [|split; [|exact X3]].
    + intros x (S' & [<-|HI] & Hx); apply X1; [now left|right; eauto].
    + destruct X2 as [X2|(S' & HI & X2)]; [exists S|exists S']; (split; [cbn; auto|exact X2]).
Qed.

End Sel.

Lemma out_map_spec {B C} (f : B -> out C) (g : B -> C) l : (forall x, In x l -> f x = Done (g x)) ->
  out_map f l = Done (map g l).
Proof.
  induction l as [|x l IH]; intros H; [reflexivity|]. cbn [out_map map].
  rewrite (H x) by now left. rewrite IH by (intros; apply H; now right). reflexivity.
Qed.
