(** Proofs about gather and scatter. *)
From Verif Require Export LRmw MGat.

(** ---- addressing ---- *)
Definition gat_ok (wn : Z) (a : garray) : Prop :=
  (ga_group a = None -> wn = ga_nproc a) /\ (rstrctd_list (ga_desc a) = [] \/ ga_group a = None).

Lemma gat_elem guess wn a placed x :
  good_guess guess -> elem_layout a wn placed -> gat_ok wn a -> in_array (dims (ga_desc a)) x ->
  exists h q, gat_home guess (gat_nprocs wn a) a x = Some h /\ 0 <= h < gat_nprocs wn a /\
    gat_ptr guess wn a h x = Some q /\ gat_target a h = Some (fst q) /\ placed x q.
Proof.
  intros HG HL [HN HR] Hx. unfold gat_home, gat_ptr, gat_target, gat_nprocs.
  assert (N0 : 0 <= num_rstrctd (ga_desc a)) by (unfold num_rstrctd; lia).
  destruct (distr_type (ga_desc a)) eqn:ET.
  { destruct HL as [(W & ->)|(_ & [(T & _)|(_ & [(T & _)|[(T & _)|(T & _)]])])]; try congruence.
    pose proof W as (WR & _ & _ & WGr & _). destruct (locate_in guess _ _ _ HG WR Hx) as (p & lo & hi & E1 & Hp & E2 & Hb).
    rewrite E1. destruct (reg_location a p lo hi x W Hp E2 Hb) as (rank & q & ld & H1 & H2 & H3 & H4).
    assert (HP : reg_place a x (q, lin (padded lo hi (ga_width a)) (vadd (vsub x lo) (ga_width a)))).
    { exists p, lo, hi. cbn [fst snd]. auto. }
    destruct (Z.ltb_spec 0 (num_rstrctd (ga_desc a))) as [Hr|Hr].
    - destruct (Z.eqb_spec (num_rstrctd (ga_desc a)) 0); [lia|]. rewrite H1.
      assert (HGr : ga_group a = None).
      { destruct HR as [HR|HR]; [|exact HR]. unfold num_rstrctd in Hr. rewrite HR in Hr. cbn in Hr. lia. }
      exists rank, (q, lin (padded lo hi (ga_width a)) (vadd (vsub x lo) (ga_width a))).
      split; [reflexivity|]. rewrite H3. rewrite HGr.
      unfold location in H3. destruct (owns (ga_desc a) rank); [|discriminate].
      destruct (loc_loop x _ _ _ 1); [|discriminate]. destruct (Z.eqb_spec (num_rstrctd (ga_desc a)) 0); [lia|].
      destruct (zget (rstrctd_list (ga_desc a)) rank) as [pv|] eqn:EZ; [|discriminate].
      unfold ptr_owner, abs_rank in H3. rewrite HGr in H3. injection H3 as -> _ _.
      split; [apply zget_inv in EZ; unfold num_rstrctd; lia|]. split; [reflexivity|]. split; [reflexivity|exact HP].
    - destruct (Z.eqb_spec (num_rstrctd (ga_desc a)) 0); [|lia]. injection H1 as <-.
      exists p, (q, lin (padded lo hi (ga_width a)) (vadd (vsub x lo) (ga_width a))).
      split; [reflexivity|]. split.
      { unfold wf_group in WGr. destruct (ga_group a); [destruct WGr; lia|]. rewrite HN by reflexivity. lia. }
      rewrite H3. split; [reflexivity|]. split; [exact H2|exact HP]. }
  all: assert (HT : distr_type (ga_desc a) <> REGULAR) by congruence.
  all: pose proof (elem_layout_blocked a wn placed HL HT) as WB.
  all: destruct (blocked_unique_block guess _ _ HG WB Hx) as (k & Hk & E1 & (lo & hi & E2 & Hb) & _).
  all: rewrite E1, E2.
  all: destruct (elem_layout_access a wn placed k HL HT Hk) as (lo' & hi' & p & off & ld & D & E & H & LL & P).
  all: rewrite E2 in D; injection D as <- <-.
  all: destruct (in_box_len _ _ _ Hb) as [B1 B2].
  all: assert (HGr : ga_group a = None) by
    (destruct HL as [((T & _) & _)|(? & _)]; [destruct T; congruence|assumption]).
  all: assert (HRe : num_rstrctd (ga_desc a) = 0) by
    (unfold num_rstrctd; destruct WB as [(_ & _ & _ & _ & ->)|(_ & _ & _ & ->)]; reflexivity).
  all: rewrite HRe, HGr, E; cbn [fst snd Z.ltb Z.compare].
  all: rewrite block_offset_of_lin by lia.
  all: specialize (HN HGr); subst wn.
  all: unfold block_home in H; rewrite ET in H.
  all: exists p, (p, off + 1 * lin ld (vsub x lo)); cbn [fst].
  all: assert (HP : placed x (p, off + 1 * lin ld (vsub x lo))) by (rewrite Z.mul_1_l; auto).
  1:{ split; [exact H|]. split.
      { destruct HL as [((T & _) & _)|(_ & [(_ & W & _ & H1 & _)|(_ & [(? & _)|[(? & _)|(? & _)]])])]; try congruence; [destruct T; congruence|].
        destruct (bc_home (ga_nproc a) (ga_desc a) k ET H1 ltac:(lia)) as (p' & H2 & H3 & _).
        unfold block_home in H2. rewrite ET in H2. assert (p' = p) by congruence. subst. exact H3. }
      split; [reflexivity|]. split; [|exact HP]. unfold abs_rank. rewrite HGr. reflexivity. }
  all: destruct (find_indices (num_blocks (ga_desc a)) k) eqn:EF; [|discriminate].
  all: split; [exact H|]; split;
    [|split; [reflexivity|]; split; [|exact HP]; unfold abs_rank; rewrite HGr; reflexivity].
  all: assert (WG : wf_grid (ga_nproc a) (ga_desc a)) by
    (destruct HL as [((T & _) & _)|(_ & [(T & _)|(? & _)])]; [destruct T; congruence|congruence|assumption]).
  all: destruct (grid_home _ _ k WG Hk) as (p' & _ & _ & _ & H2 & H3 & _).
  all: unfold block_home in H2; rewrite ET, EF in H2; assert (p' = p) by congruence; subst; exact H3.
Qed.

(** ---- the linked lists ---- *)
Inductive chain (ls : list Z) : Z -> list Z -> Prop :=
| chain_nil : chain ls (-1) []
| chain_cons h nx l : 0 <= h -> zget ls h = Some nx -> chain ls nx l -> chain ls h (h :: l).

Lemma chain_walk ls h l fuel : chain ls h l -> (length l <= fuel)%nat -> gat_walk fuel ls h = Some l.
Proof.
  intros H. revert fuel. induction H as [|h nx l Hh E C IH]; intros fuel HF.
  - destruct fuel; reflexivity.
  - cbn [length] in HF. destruct fuel as [|f]; [lia|]. cbn [gat_walk].
    destruct (Z.ltb_spec (-1) h); [|lia]. rewrite E, IH by lia. reflexivity.
Qed.

Lemma chain_set ls ls' h l i j : chain ls h l -> zset ls i j = Some ls' -> (forall k, In k l -> k <> i) -> chain ls' h l.
Proof.
  intros H HS. apply zset_Some in HS as (_ & _ & _ & HO).
  induction H as [|h nx l Hh E C IH]; intros HI; [constructor|].
  econstructor; [exact Hh| |apply IH; intros; apply HI; now right].
  rewrite HO; [exact E|]. apply HI. now left.
Qed.

(** Positions of [p] in the reversed list [rh], last first. *)
Fixpoint desc (p : Z) (rh : list Z) : list Z :=
  match rh with
  | [] => []
  | h :: rh' => if h =? p then Z.of_nat (length rh') :: desc p rh' else desc p rh'
  end.
Lemma desc_lt p rh i : In i (desc p rh) -> 0 <= i < Z.of_nat (length rh).
Proof.
  induction rh as [|h rh IH]; cbn [desc length]; [intros []|]. destruct (h =? p); cbn [In]; intros H; [destruct H as [<-|H]|]; try specialize (IH H); lia.
Qed.
Lemma desc_home p rh i : In i (desc p rh) -> zget (rev rh) i = Some p.
Proof.
  induction rh as [|h rh IH]; cbn [desc rev]; [intros []|]. intros H.
  assert (X : In i (desc p rh) -> zget (rev rh ++ [h]) i = Some p).
  { intros Hi. pose proof (desc_lt _ _ _ Hi). specialize (IH Hi). unfold zget in *. destruct (i <? 0); [discriminate|].
    rewrite nth_error_app1; [exact IH|]. rewrite rev_length. lia. }
  destruct (Z.eqb_spec h p) as [->|]; auto. destruct H as [<-|H]; auto.
  unfold zget. destruct (Z.ltb_spec (Z.of_nat (length rh)) 0); [lia|]. rewrite Nat2Z.id.
  rewrite nth_error_app2 by (rewrite rev_length; lia). rewrite rev_length, Nat.sub_diag. reflexivity.
Qed.

Record ginv (np : Z) (nv : nat) (rh : list Z) (st : gstate) : Prop := {
  gi_ne : length (g_nelems st) = Z.to_nat np;
  gi_hd : length (g_header st) = Z.to_nat np;
  gi_ls : length (g_list st) = nv;
  gi_count : forall p, 0 <= p < np -> zget (g_nelems st) p = Some (Z.of_nat (length (desc p rh)));
  gi_chain : forall p, 0 <= p < np -> exists h, zget (g_header st) p = Some h /\ chain (g_list st) h (desc p rh);
  gi_max : forall p, 0 <= p < np -> Z.of_nat (length (desc p rh)) <= g_max st
}.

Lemma zget_repeat {A} (v : A) n i : 0 <= i < Z.of_nat n -> zget (repeat v n) i = Some v.
Proof.
  intros H. unfold zget. destruct (Z.ltb_spec i 0); [lia|].
  rewrite (nth_error_nth' _ v) by (rewrite repeat_length; lia). rewrite nth_repeat. reflexivity.
Qed.

Lemma ginv_init np nv : 0 <= np -> ginv np nv [] (gat_init np nv).
Proof.
  intros H. constructor; cbn [gat_init g_nelems g_header g_list g_max desc length]; rewrite ?repeat_length; auto.
  - intros p Hp. apply zget_repeat. lia.
  - intros p Hp. exists (-1). split; [apply zget_repeat; lia|constructor].
  - intros; lia.
Qed.

Lemma gat_add_inv np nv rh st h : ginv np nv rh st -> 0 <= h < np -> (length rh < nv)%nat ->
  exists st', gat_add st (Z.of_nat (length rh)) h = Some st' /\ ginv np nv (h :: rh) st'.
Proof.
  intros [I1 I2 I3 I4 I5 I6] Hh HL. unfold gat_add. rewrite (I4 h Hh).
  destruct (zset_ok (g_nelems st) h (Z.of_nat (length (desc h rh)) + 1)) as (ne & E1); [lia|]. rewrite E1.
  destruct (I5 h Hh) as (j & Ej & C). rewrite Ej.
  destruct (zset_ok (g_header st) h (Z.of_nat (length rh))) as (hd & E2); [lia|]. rewrite E2.
  destruct (zset_ok (g_list st) (Z.of_nat (length rh)) j) as (ls & E3); [lia|]. rewrite E3.
  eexists. split; [reflexivity|].
  pose proof (zset_Some _ _ _ _ E1) as (_ & L1 & V1 & O1). pose proof (zset_Some _ _ _ _ E2) as (_ & L2 & V2 & O2).
  pose proof (zset_Some _ _ _ _ E3) as (_ & L3 & V3 & O3).
  constructor; cbn [g_nelems g_header g_list g_max desc]; try lia.
  - intros p Hp. destruct (Z.eqb_spec h p) as [<-|Hne].
    + rewrite V1. cbn [length]. f_equal. lia.
    + rewrite O1 by congruence. auto.
  - intros p Hp. destruct (Z.eqb_spec h p) as [<-|Hne].
    + exists (Z.of_nat (length rh)). split; [exact V2|]. econstructor; [lia|exact V3|].
      eapply chain_set; eauto. intros k Hk. apply desc_lt in Hk. lia.
    + destruct (I5 p Hp) as (h' & E & C'). exists h'. split; [rewrite O2 by congruence; exact E|].
      eapply chain_set; eauto. intros k Hk. apply desc_lt in Hk. lia.
  - intros p Hp. pose proof (I6 p Hp). destruct (Z.eqb_spec h p) as [<-|Hne].
    + cbn [length]. destruct (Z.ltb_spec (g_max st) (Z.of_nat (length (desc h rh)) + 1)); lia.
    + destruct (Z.ltb_spec (g_max st) (Z.of_nat (length (desc h rh)) + 1)); lia.
Qed.

Lemma gat_build_inv guess np a nv subs hs : forall rh st,
  Forall2 (fun sub h => gat_home guess np a sub = Some h /\ 0 <= h < np) subs hs ->
  ginv np nv rh st -> (length rh + length subs = nv)%nat ->
  exists st', gat_build guess np a subs (Z.of_nat (length rh)) st = Some st' /\ ginv np nv (rev hs ++ rh) st'.
Proof.
  intros rh st H. revert rh st. induction H as [|sub h subs hs [E Hh] H IH]; intros rh st HI HL.
  - exists st. split; [reflexivity|exact HI].
  - cbn [length] in HL. cbn [gat_build]. rewrite E.
    destruct (gat_add_inv np nv rh st h HI Hh ltac:(lia)) as (st1 & E1 & I1). rewrite E1.
    destruct (IH (h :: rh) st1 I1 ltac:(cbn [length]; lia)) as (st2 & E2 & I2).
    exists st2. split.
    + replace (Z.of_nat (length rh) + 1) with (Z.of_nat (length (h :: rh))) by (cbn [length]; lia). exact E2.
    + cbn [rev]. rewrite <- app_assoc. exact I2.
Qed.

(** ---- the transfers ---- *)
Lemma flat_map_insert (d : Z -> list Z) (k h : Z) ps : NoDup ps ->
  Permutation (flat_map (fun p => if h =? p then k :: d p else d p) ps)
              (if in_dec Z.eq_dec h ps then k :: flat_map d ps else flat_map d ps).
Proof.
  induction ps as [|p ps IH]; intros HN; [cbn; constructor|]. apply NoDup_cons_iff in HN as [Hn HN]. specialize (IH HN).
  cbn [flat_map]. destruct (Z.eqb_spec h p) as [<-|Hne].
  - destruct (in_dec Z.eq_dec h (h :: ps)) as [_|X]; [|exfalso; apply X; now left].
    destruct (in_dec Z.eq_dec h ps); [contradiction|]. cbn [app]. constructor. apply Permutation_app_head. exact IH.
  - destruct (in_dec Z.eq_dec h (p :: ps)) as [[X|X]|X].
    + congruence.
    + destruct (in_dec Z.eq_dec h ps); [|contradiction].
      eapply perm_trans; [apply Permutation_app_head; exact IH|]. apply Permutation_sym, Permutation_middle.
    + destruct (in_dec Z.eq_dec h ps); [exfalso; apply X; now right|]. apply Permutation_app_head. exact IH.
Qed.

Lemma desc_all np rh : Forall (fun h => 0 <= h < np) rh ->
  Permutation (flat_map (fun p => desc p rh) (map Z.of_nat (seq 0 (Z.to_nat np)))) (zseq 0 (length rh)).
Proof.
  induction 1 as [|h rh Hh H IH].
  - cbn [desc length zseq]. induction (map Z.of_nat (seq 0 (Z.to_nat np))); [constructor|exact IHl].
  - cbn [desc length].
    eapply perm_trans; [apply (flat_map_insert (fun p => desc p rh))|].
    { apply FinFun.Injective_map_NoDup; [intros x y; lia|apply seq_NoDup]. }
    destruct (in_dec Z.eq_dec h _) as [_|X].
    2:{ exfalso. apply X. apply in_map_iff. exists (Z.to_nat h). split; [lia|]. apply in_seq. lia. }
    replace (S (length rh)) with (length rh + 1)%nat by lia. rewrite zseq_app. cbn [zseq].
    eapply perm_trans; [|apply Permutation_cons_append]. apply Permutation_cons; [lia|exact IH].
Qed.

(** The transfers of a list of elements. *)
Definition list_transfers (placed : list Z -> place -> Prop) (subs : list (list Z)) (ts : list (place * Z)) : Prop :=
  Permutation (map snd ts) (zseq 0 (length subs)) /\
  forall t, In t ts -> exists x, zget subs (snd t) = Some x /\ placed x (fst t).

Lemma mapM_pairs {A B} (f : A -> option B) (R : A -> B -> Prop) l :
  (forall a, In a l -> exists b, f a = Some b /\ R a b) -> exists bs, mapM f l = Some bs /\ Forall2 R l bs.
Proof.
  induction l as [|a l IH]; intros H; [exists []; split; [reflexivity|constructor]|].
  destruct (H a (or_introl eq_refl)) as (b & E & HR). destruct IH as (bs & E2 & F); [intros; apply H; now right|].
  exists (b :: bs). cbn [mapM]. rewrite E, E2. split; [reflexivity|constructor; auto].
Qed.

Theorem gatscat_transfers guess wn me pre a placed subs :
  good_guess guess -> elem_layout a wn placed -> gat_ok wn a ->
  Forall (in_array (dims (ga_desc a))) subs ->
  (match pre with
   | None => 0 <= me < gat_nprocs wn a
   | Some n => 0 <= me < wn /\ Z.of_nat (length subs) <= n /\ gat_nprocs wn a <= wn
   end) ->
  exists ts, gatscat guess wn me pre a subs = Some ts /\ list_transfers placed subs ts.
Proof.
  intros HG HL HK HS HM. set (np := gat_nprocs wn a) in *.
  assert (HE : forall x, In x subs -> exists h q, gat_home guess np a x = Some h /\ 0 <= h < np /\
    gat_ptr guess wn a h x = Some q /\ gat_target a h = Some (fst q) /\ placed x q).
  { intros x Hx. apply gat_elem; auto. rewrite Forall_forall in HS. auto. }
  assert (HH : exists hs, Forall2 (fun sub h => gat_home guess np a sub = Some h /\ 0 <= h < np) subs hs).
  { clear - HE. induction subs as [|x subs IH]; [exists []; constructor|].
    destruct IH as (hs & H); [intros; apply HE; now right|]. destruct (HE x (or_introl eq_refl)) as (h & q & E & Hh & _).
    exists (h :: hs). constructor; auto. }
  destruct HH as (hs & HH). pose proof (Forall2_len _ _ _ HH) as LH.
  assert (HN : 0 <= np).
  { unfold np, gat_nprocs. destruct (ga_group a) eqn:EG; [lia|]. destruct (Z.ltb_spec 0 (num_rstrctd (ga_desc a))); [lia|].
    destruct pre; [destruct HM as ((? & ?) & _); lia|]. unfold np, gat_nprocs in HM. rewrite EG in HM.
    destruct (Z.ltb_spec 0 (num_rstrctd (ga_desc a))); lia. }
  destruct (gat_build_inv guess np a (length subs) subs hs [] (gat_init np (length subs)) HH (ginv_init _ _ HN) eq_refl)
    as (st & EB & IV). rewrite app_nil_r in IV. change (Z.of_nat (length (@nil Z))) with 0 in EB.
  destruct IV as [_ _ _ I4 I5 I6].
  assert (HF : Forall (fun h => 0 <= h < np) (rev hs)).
  { apply Forall_rev. clear - HH. induction HH as [|? ? ? ? [_ ?]]; constructor; auto. }
  assert (HC : forall p, In p (map Z.of_nat (seq 0 (Z.to_nat np))) -> exists ts, gat_call guess wn a subs st p = Some ts /\
     (map snd ts = desc p (rev hs) /\ forall t, In t ts -> exists x, zget subs (snd t) = Some x /\ placed x (fst t))).
  { intros p Hp. apply in_map_iff in Hp as (k & <- & Hk). apply in_seq in Hk. set (p := Z.of_nat k) in *.
    assert (Hp : 0 <= p < np) by lia. clearbody p. clear k Hk.
    unfold gat_call. rewrite (I4 p Hp). destruct (Z.ltb_spec 0 (Z.of_nat (length (desc p (rev hs))))) as [Hpos|Hz].
    2:{ exists []. split; [reflexivity|]. split; [|intros ? []]. destruct (desc p (rev hs)); [reflexivity|cbn in Hz; lia]. }
    destruct (I5 p Hp) as (h & Eh & C). rewrite Eh.
    assert (LD : (length (desc p (rev hs)) <= length subs)%nat).
    { assert (length (desc p (rev hs)) <= length (rev hs))%nat by (clear; induction (rev hs) as [|h l IH]; cbn [desc length]; [lia|destruct (h =? p); cbn [length]; lia]).
      rewrite rev_length in *. lia. }
    rewrite (chain_walk _ _ _ _ C) by lia.
    pose proof (I6 p Hp) as HX.
    destruct (Z.leb_spec (Z.of_nat (length (desc p (rev hs)))) (g_max st)); [|lia].
    destruct (Z.leb_spec (Z.of_nat (length (desc p (rev hs)))) (Z.of_nat (length (desc p (rev hs))))); [|lia]. cbn [andb].
    assert (HD : forall i, In i (desc p (rev hs)) -> exists x q, zget subs i = Some x /\
       gat_ptr guess wn a p x = Some q /\ gat_target a p = Some (fst q) /\ placed x q).
    { intros i Hi. pose proof (desc_home _ _ _ Hi) as E. rewrite rev_involutive in E.
      assert (exists x, zget subs i = Some x /\ In x subs /\ gat_home guess np a x = Some p) as (x & E1 & E2 & E3).
      { clear - HH E. unfold zget in *. destruct (i <? 0); [discriminate|]. revert E. generalize (Z.to_nat i). clear i.
        induction HH as [|s h subs hs [E1 _] HH IH]; intros [|n] E; cbn [nth_error] in *; try discriminate.
        - injection E as ->. exists s. split; [reflexivity|]. split; [now left|exact E1].
        - destruct (IH n E) as (x & ? & ? & ?). exists x. split; auto. split; [now right|auto]. }
      destruct (HE x E2) as (h' & q & F1 & F2 & F3 & F4 & F5). assert (h' = p) by congruence. subst h'.
      exists x, q. auto. }
    assert (HT : exists tp, gat_target a p = Some tp).
    { destruct (desc p (rev hs)) as [|i l]; [cbn in Hpos; lia|]. destruct (HD i (or_introl eq_refl)) as (x & q & _ & _ & E & _). eauto. }
    destruct HT as (tp & ET). rewrite ET.
    destruct (mapM_pairs (fun i => do sub <- zget subs i; do q <- gat_ptr guess wn a p sub; Some (q, i))
       (fun i t => snd t = i /\ fst (fst t) = tp /\ exists x, zget subs i = Some x /\ placed x (fst t)) (desc p (rev hs))) as (ts & EM & F).
    { intros i Hi. destruct (HD i Hi) as (x & q & E1 & E2 & E3 & E4). exists (q, i). rewrite E1, E2. split; [reflexivity|].
      cbn [fst snd]. split; [reflexivity|]. split; [congruence|]. exists x. auto. }
    rewrite EM. pose proof (Forall2_len _ _ _ F) as LF.
    rewrite Nat2Z.id, LF, firstn_all.
    assert (FB : forallb (fun t : Z * Z * Z => fst (fst t) =? tp) ts = true).
    { apply forallb_forall. intros t Ht. apply Z.eqb_eq. clear - F Ht. induction F as [|i t' l ts [_ [E _]] F IH]; destruct Ht; subst; auto. }
    rewrite FB. exists ts. split; [reflexivity|]. split.
    - clear - F. induction F as [|i t l ts [E _] F IH]; [reflexivity|]. cbn. congruence.
    - intros t Ht. clear - F Ht. induction F as [|i t' l ts (E & _ & X) F IH]; destruct Ht; subst; auto. }
  destruct (mapM_pairs _ _ _ HC) as (tss & EM & F).
  exists (concat tss). split.
  { unfold gatscat. fold np. rewrite EB.
    destruct pre as [n|].
    - destruct HM as (H1 & H2 & H3). destruct (Z.ltb_spec n (Z.of_nat (length subs))); [lia|]. destruct (Z.ltb_spec wn np); [lia|].
      destruct (Z.ltb_spec me 0); [lia|]. destruct (Z.leb_spec wn me); [lia|]. cbn [orb]. rewrite EM. reflexivity.
    - destruct (Z.ltb_spec np np); [lia|]. destruct (Z.ltb_spec me 0); [lia|]. destruct (Z.leb_spec np me); [lia|]. cbn [orb]. rewrite EM. reflexivity. }
  split.
  - rewrite LH, <- (rev_length hs). eapply perm_trans; [|apply (desc_all np); exact HF].
    clear - F. induction F as [|p ts l tss [E _] F IH]; [constructor|].
    cbn [concat flat_map]. rewrite map_app, E. apply Permutation_app_head. exact IH.
  - intros t Ht. apply in_concat in Ht as (ts & H1 & H2). clear - F H1 H2.
    induction F as [|p ts' l tss [_ X] F IH]; destruct H1; subst; auto.
Qed.

(** ---- effects ---- *)
Lemma nth_error_Some_lt {A} (l : list A) i x : nth_error l i = Some x -> (i < length l)%nat.
Proof. intros H. apply nth_error_Some. congruence. Qed.
Lemma flat_map_ext_on {A B} (f g : A -> list B) l : (forall a, In a l -> f a = g a) -> flat_map f l = flat_map g l.
Proof.
  induction l as [|a l IH]; intros H; [reflexivity|]. cbn. rewrite (H a) by now left. f_equal. apply IH. intros; apply H; now right.
Qed.
Lemma put_events_any {V} (es : list (buffer V * (place * Z))) : forall m,
  (forall e, In e es -> hget m (ecell e) <> None /\ evalue e <> None) ->
  exists m', run_elems put_event m es = Some m' /\
    (forall e, In e es -> exists e', In e' es /\ ecell e' = ecell e /\ hget m' (ecell e) = evalue e') /\
    (forall q, ~ In q (map ecell es) -> hget m' q = hget m q).
Proof.
  induction es as [|e es IH]; intros m HD.
  - exists m. split; [reflexivity|]. split; [intros e []|auto].
  - destruct (HD e (or_introl eq_refl)) as [D1 D2].
    cbn [run_elems]. unfold put_event at 1, put_elem. unfold ecell, evalue in D1, D2.
    destruct (fst e (snd (snd e))) as [v|] eqn:Ev; [|congruence].
    destruct (hget m (fst (snd e))) as [w|] eqn:Ew; [|congruence].
    destruct (IH (hset m (fst (snd e)) v)) as (m' & R & P1 & P2).
    { intros e' He'. destruct (HD e' (or_intror He')) as [D3 D4]. split; [|exact D4].
      destruct (place_dec (fst (snd e)) (ecell e')) as [<-|X]; [rewrite hget_hset_same; discriminate|].
      rewrite hget_hset_other by exact X. exact D3. }
    exists m'. split; [exact R|]. split.
    + intros e' [<-|He'].
      * destruct (in_dec place_dec (ecell e) (map ecell es)) as [Hin|Hn].
        -- apply in_map_iff in Hin as (e2 & E2 & H2). destruct (P1 e2 H2) as (e3 & H3 & E3 & V3).
           exists e3. split; [now right|]. split; congruence.
        -- exists e. split; [now left|]. split; [reflexivity|]. rewrite (P2 _ Hn). unfold ecell, evalue.
           rewrite hget_hset_same, Ev. reflexivity.
      * destruct (P1 e' He') as (e3 & H3 & E3). exists e3. split; [now right|exact E3].
    + intros q Hq. rewrite P2 by (intros X; apply Hq; now right). apply hget_hset_other.
      intros X. apply Hq. left. exact X.
Qed.

Section Effects.
Variable V : Type.
Variable placed : list Z -> place -> Prop.
Hypothesis PU : forall x q q', placed x q -> placed x q' -> q = q'.
Hypothesis PI : forall x y q, placed x q -> placed y q -> x = y.

Lemma list_transfers_perm subs ts ts' : list_transfers placed subs ts -> Permutation ts ts' -> list_transfers placed subs ts'.
Proof.
  intros [H1 H2] P. split.
  - eapply perm_trans; [|exact H1]. apply Permutation_sym, Permutation_map, P.
  - intros t Ht. apply H2. eapply Permutation_in; [apply Permutation_sym; exact P|exact Ht].
Qed.

Lemma list_transfers_at subs ts i x : list_transfers placed subs ts -> nth_error subs i = Some x ->
  exists q, In (q, Z.of_nat i) ts /\ placed x q.
Proof.
  intros [H1 H2] E. assert (Hi : In (Z.of_nat i) (map snd ts)).
  { eapply Permutation_in; [apply Permutation_sym; exact H1|]. apply zseq_In.
    apply nth_error_Some_lt in E. lia. }
  apply in_map_iff in Hi as ((q & j) & Ej & Ht). cbn in Ej. subst j.
  destruct (H2 _ Ht) as (y & Ey & Hp). cbn [fst snd] in *.
  exists q. split; [exact Ht|]. unfold zget in Ey. destruct (Z.ltb_spec (Z.of_nat i) 0); [lia|]. rewrite Nat2Z.id in Ey. congruence.
Qed.

Lemma list_transfers_range subs ts t : list_transfers placed subs ts -> In t ts -> 0 <= snd t < Z.of_nat (length subs).
Proof.
  intros [H1 _] Ht. apply (in_map snd) in Ht. apply (Permutation_in _ H1) in Ht. apply zseq_In in Ht. lia.
Qed.

Lemma list_transfers_nodup subs ts : list_transfers placed subs ts -> NoDup (map snd ts).
Proof. intros [H1 _]. eapply Permutation_NoDup; [apply Permutation_sym; exact H1|apply zseq_NoDup]. Qed.

Theorem list_gather subs ts (buf : buffer V) m : list_transfers placed subs ts -> allocated placed m ->
  (forall i, 0 <= i < Z.of_nat (length subs) -> buf i <> None) ->
  exists buf', run_elems (get_elem m) buf ts = Some buf' /\ gather_effect placed subs m buf buf'.
Proof.
  intros HT HA HB. destruct (get_run m ts buf) as (buf' & E & P1 & P2).
  - eapply list_transfers_nodup; eauto.
  - intros t Ht. split; [|apply HB; eapply list_transfers_range; eauto].
    destruct HT as [_ HT]. destruct (HT t Ht) as (x & _ & Hp). eapply HA; eauto.
  - exists buf'. split; [exact E|]. split.
    + intros i x q Ex Hq. destruct (list_transfers_at subs ts i x HT Ex) as (q' & Hin & Hq').
      rewrite (PU _ _ _ Hq Hq'). exact (P1 _ Hin).
    + intros j Hj. apply P2. intros Hin. apply in_map_iff in Hin as (t & <- & Ht). apply Hj. eapply list_transfers_range; eauto.
Qed.

Theorem list_scatter subs ts (buf : buffer V) m : NoDup subs -> list_transfers placed subs ts -> allocated placed m ->
  (forall i, 0 <= i < Z.of_nat (length subs) -> buf i <> None) ->
  exists m', run_elems (put_elem buf) m ts = Some m' /\ scatter_effect placed subs buf m m'.
Proof.
  intros HN HT HA HB. destruct (put_events_run (map (fun t => (buf, t)) ts) m) as (m' & E & P1 & P2).
  - rewrite map_map. change (NoDup (map fst ts)).
    pose proof (list_transfers_nodup _ _ HT) as ND. destruct HT as [_ HT]. clear - PI HN HT ND.
    induction ts as [|t ts IH]; [constructor|]. cbn [map] in *. apply NoDup_cons_iff in ND as [Hn ND].
    constructor; [|apply IH; auto; intros; apply HT; now right].
    intros Hin. apply in_map_iff in Hin as (t' & Et & Ht'). apply Hn.
    destruct (HT t (or_introl eq_refl)) as (x & E1 & H1). destruct (HT t' (or_intror Ht')) as (y & E2 & H2).
    rewrite Et in H2. pose proof (PI _ _ _ H1 H2). subst y. apply in_map_iff. exists t'. split; [|exact Ht'].
    unfold zget in *. destruct (Z.ltb_spec (snd t) 0); [discriminate|]. destruct (Z.ltb_spec (snd t') 0); [discriminate|].
    rewrite NoDup_nth_error in HN. specialize (HN (Z.to_nat (snd t')) (Z.to_nat (snd t))).
    rewrite E1, E2 in HN. specialize (HN ltac:(apply nth_error_Some_lt in E2; exact E2) eq_refl). lia.
  - intros e He. apply in_map_iff in He as (t & <- & Ht). unfold ecell, evalue. cbn [fst snd].
    split; [|apply HB; eapply list_transfers_range; eauto].
    destruct HT as [_ HT]. destruct (HT t Ht) as (x & _ & Hp). eapply HA; eauto.
  - rewrite run_elems_map in E. exists m'. split; [exact E|]. split.
    + intros i x q Ex Hq. destruct (list_transfers_at subs ts i x HT Ex) as (q' & Hin & Hq').
      rewrite (PU _ _ _ Hq Hq'). exact (P1 (buf, _) (in_map _ _ _ Hin)).
    + intros q Hq. apply P2. rewrite map_map. intros Hin. apply in_map_iff in Hin as (t & <- & Ht).
      destruct HT as [_ HT]. destruct (HT t Ht) as (x & Ex & Hp). apply (Hq x); [|exact Hp].
      unfold zget in Ex. destruct (snd t <? 0); [discriminate|]. eapply nth_error_In; eauto.
Qed.

(** Repeated subscripts: one of the values of the element. *)
Theorem list_scatter_any subs ts (buf : buffer V) m : list_transfers placed subs ts -> allocated placed m ->
  (forall i, 0 <= i < Z.of_nat (length subs) -> buf i <> None) ->
  exists m', run_elems (put_elem buf) m ts = Some m' /\
    (forall x q, In x subs -> placed x q -> exists i, nth_error subs i = Some x /\ hget m' q = buf (Z.of_nat i)) /\
    (forall q, (forall x, In x subs -> ~ placed x q) -> hget m' q = hget m q).
Proof.
  intros HT HA HB. destruct (put_events_any (map (fun t => (buf, t)) ts) m) as (m' & E & P1 & P2).
  - intros e He. apply in_map_iff in He as (t & <- & Ht). unfold ecell, evalue. cbn [fst snd].
    split; [|apply HB; eapply list_transfers_range; eauto].
    destruct HT as [_ HT]. destruct (HT t Ht) as (x & _ & Hp). eapply HA; eauto.
  - rewrite run_elems_map in E. exists m'. split; [exact E|]. split.
    + intros x q Hx Hq. apply In_nth_error in Hx as (i & Ex).
      destruct (list_transfers_at subs ts i x HT Ex) as (q' & Hin & Hq'). rewrite (PU _ _ _ Hq Hq').
      destruct (P1 (buf, _) (in_map _ _ _ Hin)) as (e & He & E1 & E2). apply in_map_iff in He as (t & <- & Ht).
      unfold ecell, evalue in *. cbn [fst snd] in *. rewrite E2.
      pose proof (list_transfers_range _ _ _ HT Ht). exists (Z.to_nat (snd t)). split; [|f_equal; lia].
      destruct HT as [_ HT]. destruct (HT t Ht) as (y & Ey & Hy). rewrite E1 in Hy. rewrite (PI _ _ _ Hq' Hy).
      unfold zget in Ey. destruct (snd t <? 0); [discriminate|exact Ey].
    + intros q Hq. apply P2. rewrite map_map. intros Hin. apply in_map_iff in Hin as (t & <- & Ht).
      destruct HT as [_ HT]. destruct (HT t Ht) as (x & Ex & Hp). apply (Hq x); [|exact Hp].
      unfold zget in Ex. destruct (snd t <? 0); [discriminate|]. eapply nth_error_In; eauto.
Qed.

Lemma values_for_zseq x subs (buf : buffer V) : forall i,
  values_for x subs buf i =
  flat_map (fun j => match nth_error subs (Z.to_nat (j - i)) with
                     | Some s => if list_eq_dec Z.eq_dec s x then match buf j with Some w => [w] | None => [] end else []
                     | None => [] end) (zseq i (length subs)).
Proof.
  induction subs as [|s subs IH]; intros i; [reflexivity|]. cbn [values_for length zseq flat_map].
  rewrite Z.sub_diag. change (Z.to_nat 0) with O. cbn [nth_error]. f_equal. rewrite IH.
  apply flat_map_ext_on. intros j Hj. apply zseq_In in Hj.
  replace (Z.to_nat (j - i)) with (S (Z.to_nat (j - (i + 1)))) by lia. reflexivity.
Qed.

Lemma list_values subs ts (buf : buffer V) x q : list_transfers placed subs ts -> placed x q ->
  Permutation (event_values q (map (fun t => (buf, t)) ts)) (values_for x subs buf 0).
Proof.
  intros [H1 H2] Hq. rewrite values_for_zseq.
  set (F := fun j : Z => _).
  eapply perm_trans; [|apply (Permutation_flat_map F), H1].
  replace (event_values q (map (fun t => (buf, t)) ts)) with (flat_map F (map snd ts)); [reflexivity|].
  clear H1. induction ts as [|t ts IH]; [reflexivity|]. cbn [map event_values flat_map].
  fold (event_values q (map (fun t => (buf, t)) ts)). rewrite IH by (intros; apply H2; now right). f_equal.
  destruct (H2 t (or_introl eq_refl)) as (y & Ey & Hy). unfold F. rewrite Z.sub_0_r. unfold zget in Ey.
  destruct (snd t <? 0); [discriminate|]. rewrite Ey. unfold ecell, evalue. cbn [fst snd].
  destruct (list_eq_dec Z.eq_dec y x) as [->|Hne]; destruct (place_dec (fst t) q) as [E|E]; try reflexivity.
  - exfalso. apply E. eapply PU; eauto.
  - exfalso. apply Hne. rewrite E in Hy. eapply PI; eauto.
Qed.

Theorem list_scatter_acc (f : V -> V -> V) subs ts (buf : buffer V) m :
  (forall u v w, f (f u v) w = f (f u w) v) -> list_transfers placed subs ts -> allocated placed m ->
  (forall i, 0 <= i < Z.of_nat (length subs) -> buf i <> None) ->
  exists m', run_elems (acc_elem f buf) m ts = Some m' /\ scatter_acc_effect f placed subs buf m m'.
Proof.
  intros HC HT HA HB. destruct (acc_events_run f (map (fun t => (buf, t)) ts) m) as (m' & E & P).
  - intros e He. apply in_map_iff in He as (t & <- & Ht). unfold ecell, evalue. cbn [fst snd].
    split; [|apply HB; eapply list_transfers_range; eauto].
    destruct HT as [_ HT]. destruct (HT t Ht) as (x & _ & Hp). eapply HA; eauto.
  - rewrite run_elems_map in E. exists m'. split; [exact E|]. split.
    + intros x q v Hq Hv. rewrite P, Hv. f_equal. apply fold_perm; [exact HC|]. apply list_values; auto.
    + intros q Hq. rewrite P, event_values_other; [destruct (hget m q); reflexivity|].
      intros Hin. apply in_map_iff in Hin as (t & <- & Ht). destruct HT as [_ HT]. destruct (HT t Ht) as (x & _ & Hp). exact (Hq x Hp).
Qed.
End Effects.
