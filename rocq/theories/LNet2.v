(** The exchange in lock step as a run of the processes, and the order of the
    messages of a grid. *)
From Coq Require Import ZArith List Lia Bool.
From Verif Require Import SpecBox SpecStore SpecPeri SpecGhost MBase SpecCopy MXfer MOdo MGhost MNet LRadix LAxis LOdo LIterBlk LGhost LGhost2 LGhost3 LGhost4 LGhost5 LGhost6 LGhost7 LNet LDist.

Definition odflt {A} (d : A) (o : option A) : A := match o with Some x => x | None => d end.
Lemma mapM_inv {A B} (d : B) (f : A -> option B) l r : mapM f l = Some r -> r = map (fun x => odflt d (f x)) l /\ forall x, In x l -> f x = Some (odflt d (f x)).
Proof.
  revert r. induction l as [|x l IH]; intros r E; [cbn in E; injection E as <-; split; [reflexivity|intros y []]|]. cbn [mapM] in E.
  destruct (f x) as [y|] eqn:F; [|discriminate]. destruct (mapM f l) as [t|]; [|discriminate]. injection E as <-. destruct (IH t eq_refl) as [-> H]. split; [cbn; rewrite F; reflexivity|].
  intros z [<-|Hz]; [rewrite F; reflexivity|now apply H].
Qed.

Lemma bind_inv {A B} (o : option A) (f : A -> option B) r : match o with Some x => f x | None => None end = Some r -> exists x, o = Some x /\ f x = Some r.
Proof. destruct o as [x|]; [|discriminate]. eauto. Qed.

Definition sbuf {V} es (nn : Z -> Z) (h : Z -> gmsg) (m : Z -> pmem V) (p : Z) : list V := odflt [] (pack_msg es (nn p) (m p) (h p)).
Definition selfp (neg : bool) (h : Z -> gmsg) (p : Z) : bool := p =? (if neg then g_to (h p) else g_from (h p)).
Lemma phase_inv {V} es neg ps nn (h : Z -> gmsg) (m m' : Z -> pmem V) : phase es neg (map (fun p => (p, (nn p, h p))) ps) m = Some m' ->
  forall p, In p ps -> pack_msg es (nn p) (m p) (h p) = Some (sbuf es nn h m p) /\
    unpack_msg es (m p) (h p) (if selfp neg h p then sbuf es nn h m p else sbuf es nn h m (g_from (h p))) = Some (m' p) /\
    (selfp neg h p = false -> In (g_from (h p)) ps /\ g_to (h (g_from (h p))) = p /\
       es * Z.of_nat (length (sbuf es nn h m (g_from (h p)))) = g_len (h (g_from (h p))) /\ g_len (h (g_from (h p))) <= es * nn p).
Proof.
  unfold phase. rewrite !mapM_map. cbn [fst snd]. intros E. apply bind_inv in E as (ms & E1 & E). apply bind_inv in E as (l & E2 & E). rewrite mapM_map in E2. cbn [fst snd] in E2. injection E as <-. intros p Hp.
  assert (P1 : forall q, In q ps -> pack_msg es (nn q) (m q) (h q) = Some (sbuf es nn h m q)).
  { intros q Hq. unfold sbuf. destruct (pack_msg es (nn q) (m q) (h q)) as [v|] eqn:F; [reflexivity|exfalso]. destruct (mapM_inv (0, (h 0, [])) _ _ _ E1) as [_ H]. specialize (H q Hq). cbn [fst snd] in H. rewrite F in H. discriminate. }
  assert (EM : ms = map (fun q => (q, (h q, sbuf es nn h m q))) ps).
  { assert (X : mapM (fun q => do v <- pack_msg es (nn q) (m q) (h q); Some (q, (h q, v))) ps = Some (map (fun q => (q, (h q, sbuf es nn h m q))) ps)).
    { apply mapM_ok. intros q Hq. now rewrite P1. }
    cbn [fst snd] in E1. congruence. }
  subst ms. split; [now apply P1|].
  destruct (mapM_inv (0, m 0) _ _ _ E2) as [EL H]. cbn [fst snd] in *. specialize (H p Hp) as Hp'.
  assert (LK : exists m1, alook p l = Some m1 /\ (do vs <- arriving es (nn p) neg p (map (fun q => (q, (h q, sbuf es nn h m q))) ps); unpack_msg es (m p) (h p) vs) = Some m1).
  { assert (X : exists g, forall q, In q ps -> (do vs <- arriving es (nn q) neg q (map (fun q => (q, (h q, sbuf es nn h m q))) ps); unpack_msg es (m q) (h q) vs) = Some (g q)).
    { exists (fun q => odflt (m 0) (do vs <- arriving es (nn q) neg q (map (fun q => (q, (h q, sbuf es nn h m q))) ps); unpack_msg es (m q) (h q) vs)). intros q Hq. specialize (H q Hq).
      destruct (arriving es (nn q) neg q _) as [vs|]; [|discriminate]. destruct (unpack_msg es (m q) (h q) vs); [reflexivity|discriminate]. }
    destruct X as (g & G). exists (g p). split; [|now apply G].
    assert (Y : mapM (fun q => do vs <- arriving es (nn q) neg q (map (fun q => (q, (h q, sbuf es nn h m q))) ps); do m' <- unpack_msg es (m q) (h q) vs; Some (q, m')) ps = Some (map (fun q => (q, g q)) ps)).
    { apply mapM_ok. intros q Hq. specialize (G q Hq). destruct (arriving es (nn q) neg q _) as [vs|]; [|discriminate]. now rewrite G. }
    cbn [fst snd] in E2. rewrite E2 in Y. injection Y as ->. now apply alook_map. }
  destruct LK as (m1 & -> & LK). unfold arriving in LK. rewrite alook_map in LK by exact Hp. cbn [fst snd] in LK. unfold selfp.
  destruct (p =? (if neg then g_to (h p) else g_from (h p))) eqn:SF; [split; [exact LK|discriminate]|].
  destruct (in_dec Z.eq_dec (g_from (h p)) ps) as [I|N]; [|rewrite alook_none in LK by exact N; discriminate]. rewrite alook_map in LK by exact I. cbn [fst snd] in LK.
  destruct (_ && _) eqn:B; [|discriminate]. apply andb_prop in B as [B B3]. apply andb_prop in B as [B1 B2]. split; [exact LK|]. intros _. split; [exact I|]. lia.
Qed.

(** The memories between the messages. *)
Fixpoint mems {V} (k : nat) (neg : bool) es (tabs : list (Z * (Z * list gmsg))) (m : Z -> pmem V) (j : nat) : Z -> pmem V :=
  match j, k with
  | S j', S k' =>
      match (do hs <- mapM head_entry tabs; phase es neg hs m) with
      | Some m' => mems k' (negb neg) es (map tail_entries tabs) m' j'
      | None => m
      end
  | _, _ => m
  end.
Lemma mems_spec {V} es ps nn d0 : forall k neg (L : Z -> list gmsg) (m m' : Z -> pmem V),
  (forall p, In p ps -> length (L p) = k) ->
  exchange k neg es (map (fun p => (p, (nn p, L p))) ps) m = Some m' ->
  let M := mems k neg es (map (fun p => (p, (nn p, L p))) ps) m in
  M O = m /\ (forall p, In p ps -> M k p = m' p) /\
  forall j, (j < k)%nat -> phase es (xorb neg (Nat.odd j)) (map (fun p => (p, (nn p, nth j (L p) d0))) ps) (M j) = Some (M (S j)).
Proof.
  induction k as [|k IH]; intros neg L m m' HL HE.
  - cbn in HE. injection HE as <-. cbn. split; [reflexivity|]. split; [reflexivity|]. intros j Hj. lia.
  - cbn [exchange] in HE. cbn [mems].
    assert (EH : mapM head_entry (map (fun p => (p, (nn p, L p))) ps) = Some (map (fun p => (p, (nn p, nth 0 (L p) d0))) ps)).
    { rewrite mapM_map. apply mapM_ok. intros p Hp. unfold head_entry. cbn [fst snd]. specialize (HL p Hp). destruct (L p); [discriminate|reflexivity]. }
    assert (ET : map tail_entries (map (fun p => (p, (nn p, L p))) ps) = map (fun p => (p, (nn p, tl (L p)))) ps) by (rewrite map_map; reflexivity).
    rewrite EH, ET in *. destruct (phase es neg _ m) as [m1|] eqn:EP; [|discriminate].
    destruct (IH (negb neg) (fun p => tl (L p)) m1 m') as (A & B & C); [intros p Hp; specialize (HL p Hp); destruct (L p); cbn in *; lia|exact HE|].
    split; [reflexivity|]. split; [exact B|]. intros [|j] Hj.
    + cbn [mems Nat.odd]. change (Nat.odd 0) with false. rewrite xorb_false_r. rewrite A. exact EP.
    + cbn [mems]. specialize (C j ltac:(lia)). rewrite Nat.odd_succ, <- Nat.negb_odd. replace (xorb neg (negb (Nat.odd j))) with (xorb (negb neg) (Nat.odd j)) by (destruct neg, (Nat.odd j); reflexivity).
      rewrite <- C. f_equal. apply map_ext_in. intros p Hp. specialize (HL p Hp). destruct (L p); [discriminate|reflexivity].
Qed.

(** ---- two entries per dimension ---- *)
Lemma flat_two {A B} (d : A) (g : A -> bool -> B) : forall l, flat_map (fun i => [g i true; g i false]) l = map (fun k => g (nth (k / 2) l d) (Nat.even k)) (seq 0 (2 * length l)).
Proof.
  induction l as [|i l IH]; [reflexivity|]. cbn [flat_map app length]. replace (2 * S (length l))%nat with (S (S (2 * length l))) by lia. cbn [seq map].
  change (0 / 2)%nat with O. change (1 / 2)%nat with O. cbn [nth Nat.even]. do 2 f_equal. rewrite IH. rewrite <- !seq_shift, !map_map. apply map_ext. intros k.
  replace (S (S k) / 2)%nat with (S (k / 2)); [reflexivity|]. replace (S (S k)) with (k + 1 * 2)%nat by lia. rewrite Nat.div_add by lia. lia.
Qed.

(** ---- the slots of the messages of one dimension ---- *)
Definition slotS (neg : bool) (nb i : Z) : nat :=
  if Z.rem i 2 =? 1 then 0 else if Z.rem nb 2 =? 0 then 1 else if i =? (if neg then 0 else nb - 1) then 2 else 1.
Definition slotR (neg : bool) (nb i : Z) : nat :=
  if Z.rem i 2 =? 1 then 1 else if Z.rem nb 2 =? 0 then 0 else if i =? (if neg then nb - 1 else 0) then 2 else 0.
Ltac Zify.zify_post_hook ::= Z.to_euclidean_division_equations.
Lemma order_slots (neg : bool) nb i : 2 <= nb -> 0 <= i < nb ->
  (slotS neg nb i < 3)%nat /\ (slotR neg nb i < 3)%nat /\
  ((slotS neg nb i < slotR neg nb i)%nat /\ msg_order neg nb i = [true; false] \/ (slotR neg nb i < slotS neg nb i)%nat /\ msg_order neg nb i = [false; true]).
Proof.
  intros Hn Hi. unfold slotS, slotR, msg_order.
  destruct (Z.eqb_spec (Z.rem i 2) 1) as [O|O], (Z.eqb_spec (Z.rem i 2) 0) as [E|E], (Z.eqb_spec (Z.rem nb 2) 0) as [N|N]; try lia; cbn [negb app];
  destruct neg; destruct (Z.eqb_spec i 0), (Z.eqb_spec i (nb - 1)); try lia; cbn [negb app]; split; try lia; split; try lia; ((left; split; [lia|reflexivity]) || (right; split; [lia|reflexivity])).
Qed.
Lemma slots_match (neg : bool) nb i : 2 <= nb -> 0 <= i < nb -> slotS neg nb i = slotR neg nb ((if neg then prv else nxt) nb i).
Proof.
  intros Hn Hi. unfold slotS, slotR, prv, nxt. destruct neg.
  - destruct (Z.eqb_spec i 0).
    + subst i. change (Z.rem 0 2) with 0. cbn [Z.eqb]. destruct (Z.eqb_spec (Z.rem nb 2) 0), (Z.eqb_spec (Z.rem (nb - 1) 2) 1), (Z.eqb_spec (nb - 1) (nb - 1)); lia.
    + destruct (Z.eqb_spec (Z.rem i 2) 1), (Z.eqb_spec (Z.rem (i - 1) 2) 1), (Z.eqb_spec (Z.rem nb 2) 0), (Z.eqb_spec (i - 1) (nb - 1)); try lia.
  - destruct (Z.eqb_spec i (nb - 1)).
    + subst i. change (Z.rem 0 2) with 0. cbn [Z.eqb]. destruct (Z.eqb_spec (Z.rem nb 2) 0), (Z.eqb_spec (Z.rem (nb - 1) 2) 1); lia.
    + destruct (Z.eqb_spec (Z.rem i 2) 1), (Z.eqb_spec (Z.rem (i + 1) 2) 1), (Z.eqb_spec (Z.rem nb 2) 0), (Z.eqb_spec (i + 1) 0); try lia.
Qed.
Lemma topology_decode ns : forall p, Forall (fun n => 1 <= n) ns -> 0 <= p -> proc_topology ns p = Some (decode ns p).
Proof.
  induction ns as [|n ns IH]; intros p HF Hp; [reflexivity|]. apply Forall_cons_iff in HF as [H1 HF]. cbn [proc_topology decode]. destruct (Z.eqb_spec n 0); [lia|].
  rewrite Z.quot_div_nonneg, Z.rem_mod_nonneg by lia. rewrite IH by (auto; apply Z.div_pos; lia). reflexivity.
Qed.
Ltac Zify.zify_post_hook ::= idtac.

Section R.
Variable guess : Z -> Z -> Z -> Z.
Variable a : garray.
Variable seg : Z -> Z.
Variable flag : bool.
Hypothesis Hg : good_guess guess.
Hypothesis HA : ghost_array a.
Notation g := (ga_desc a).
Notation n := (length (dims (ga_desc a))).
Notation es := (ga_elemsize a).
Notation nproc := (ga_nproc a).
Notation Wi := (W a).
Notation ps := (zseq 0 (Z.to_nat (ga_nproc a))).

Definition wdims i k : list nat := filter (fun j => negb (Wi j =? 0)) (seq i k).
Definition stp (p : Z) (i : nat) (neg : bool) : gstep := GStep (ent a seg flag i neg p) neg (an (Ax a i)) (ix a p i).
Definition wd := wdims 0 n.
Definition KK : nat := (2 * length wd)%nat.
Definition ek (k : nat) (p : Z) : gstep := stp p (nth (k / 2) wd O) (Nat.even k).

Lemma msgs_flat p k : forall i, msgs a seg flag i k p = flat_map (fun j => [ent a seg flag j true p; ent a seg flag j false p]) (wdims i k).
Proof.
  induction k as [|k IH]; intros i; [reflexivity|]. cbn [msgs]. unfold wdims. cbn [seq filter]. rewrite IH. destruct (Wi i =? 0); reflexivity.
Qed.
Lemma plan_flat p k : forall i, (i + k = n)%nat ->
  plan (skipn i (nblock g)) (skipn i (decode (nblock g) p)) (skipn i (ga_width a)) (msgs a seg flag i k p) = Some (flat_map (fun j => [stp p j true; stp p j false]) (wdims i k)).
Proof.
  induction k as [|k IH]; intros i Hi.
  - assert (i = n) as -> by lia. rewrite !skipn_all2 by (rewrite ?nb_len, ?dec_len, ?w_len; auto). reflexivity.
  - assert (L : (i < n)%nat) by lia.
    assert (SK : forall l : list Z, length l = n -> skipn i l = nth i l 0 :: skipn (S i) l).
    { intros l Hl. rewrite <- (firstn_skipn i l) at 2. rewrite app_nth2; rewrite firstn_length_le by lia; [|lia]. rewrite Nat.sub_diag.
      assert (SS : skipn (S i) l = skipn 1 (skipn i l)). { clear. revert l. induction i as [|i IH]; intros [|x l]; try reflexivity. cbn [skipn]. apply IH. }
      rewrite SS. destruct (skipn i l) as [|x t] eqn:E; [|reflexivity]. apply (f_equal (@length _)) in E. rewrite skipn_length in E. cbn in E. lia. }
    rewrite (SK (nblock g)), (SK (decode (nblock g) p)), (SK (ga_width a)) by (rewrite ?nb_len, ?dec_len, ?w_len; auto).
    cbn [plan msgs]. change (nth i (ga_width a) 0) with (Wi i). unfold wdims. cbn [seq filter]. destruct (Z.eqb_spec (Wi i) 0); cbn [negb app flat_map].
    + apply IH. lia.
    + rewrite IH by lia. assert (ST : forall b, stp p i b = GStep (ent a seg flag i b p) b (nth i (nblock g) 0) (nth i (decode (nblock g) p) 0)) by (intros b; unfold stp; now rewrite Ax_an by auto). rewrite !ST. reflexivity.
Qed.
Lemma plan_ok p : plan (nblock g) (decode (nblock g) p) (ga_width a) (msgs a seg flag 0 n p) = Some (todo KK ek 0 p).
Proof.
  pose proof (plan_flat p n 0 ltac:(lia)) as E. cbn [skipn] in E. rewrite E. f_equal. rewrite (flat_two O (stp p)). unfold todo, ek, KK, wd. now rewrite Nat.sub_0_r.
Qed.
Lemma msgs_nth p k d0 : (k < KK)%nat -> nth k (msgs a seg flag 0 n p) d0 = gs_msg (ek k p).
Proof.
  intros Hk. rewrite msgs_flat, (flat_two O (fun j b => ent a seg flag j b p)). fold wd KK. rewrite nth_indep with (d' := (fun k => ent a seg flag (nth (k / 2) wd 0%nat) (Nat.even k) p) O) by (rewrite map_length, seq_length; exact Hk).
  rewrite (map_nth (fun k => ent a seg flag (nth (k / 2) wd 0%nat) (Nat.even k) p)). rewrite seq_nth by exact Hk. reflexivity.
Qed.
Lemma msgs_length p : length (msgs a seg flag 0 n p) = KK.
Proof. rewrite msgs_flat, (flat_two O (fun j b => ent a seg flag j b p)), map_length, seq_length. reflexivity. Qed.
Lemma wd_ok k : (k < KK)%nat -> (nth (k / 2) wd O < n)%nat /\ 1 <= Wi (nth (k / 2) wd O).
Proof.
  intros Hk. assert (I : In (nth (k / 2) wd O) wd). { apply nth_In. unfold KK in Hk. apply Nat.div_lt_upper_bound; lia. }
  revert I. generalize (nth (k / 2) wd O). unfold wd, wdims. intros j I. apply filter_In in I as [I1 I2]. apply in_seq in I1. split; [lia|]. pose proof (w_nonneg a HA j ltac:(lia)). lia.
Qed.

(** ---- neighbours ---- *)
Lemma ix_inj i p q : (i < n)%nat -> 0 <= p < nproc -> 0 <= q < nproc -> p = q -> ix a p i = ix a q i. Proof. congruence. Qed.
Lemma to_ix (neg : bool) i p : 0 <= p < nproc -> (i < n)%nat -> ix a (to_of a neg i p) i = (if neg then prv else nxt) (an (Ax a i)) (ix a p i).
Proof. intros Hp Hi. unfold to_of. destruct neg; rewrite shf_ix by auto using rng_prv, rng_nxt; now rewrite Nat.eqb_refl. Qed.
Lemma from_ix (neg : bool) i p : 0 <= p < nproc -> (i < n)%nat -> ix a (from_of a neg i p) i = (if neg then nxt else prv) (an (Ax a i)) (ix a p i).
Proof. intros Hp Hi. unfold from_of. destruct neg; rewrite shf_ix by auto using rng_prv, rng_nxt; now rewrite Nat.eqb_refl. Qed.
Lemma to_from (neg : bool) i p : 0 <= p < nproc -> (i < n)%nat ->
  0 <= to_of a neg i p < nproc /\ 0 <= from_of a neg i p < nproc /\ to_of a neg i (from_of a neg i p) = p /\ from_of a neg i (to_of a neg i p) = p.
Proof.
  intros Hp Hi. unfold to_of, from_of. destruct neg; (split; [apply shf_range; auto using rng_prv, rng_nxt|]); (split; [apply shf_range; auto using rng_prv, rng_nxt|]); split; apply shf_shf; auto using rng_prv, rng_nxt, prv_nxt, nxt_prv.
Qed.
Lemma one_self f i p : rng f -> 0 <= p < nproc -> (i < n)%nat -> an (Ax a i) = 1 -> shf a f i p = p.
Proof.
  intros Hf Hp Hi E. unfold shf. pose proof (ix_range a HA p i Hp Hi) as R. pose proof (Hf _ _ R). rewrite upd_same.
  - apply encode_decode; [now apply nb_pos|now rewrite ga_np].
  - rewrite E in *. replace (f 1 (ix a p i)) with (ix a p i) by lia. unfold ix. apply nth_error_nth'. now rewrite dec_len.
Qed.
Lemma self_one k p : (k < KK)%nat -> 0 <= p < nproc -> self_msg p (ek k p) = (an (Ax a (nth (k / 2) wd O)) =? 1).
Proof.
  intros Hk Hp. destruct (wd_ok k Hk) as [Hi _]. set (i := nth (k / 2) wd O) in *. unfold self_msg, ek, stp. cbn [gs_msg gs_neg ent g_to g_from]. fold i.
  pose proof (ix_range a HA p i Hp Hi) as R. destruct (Z.eqb_spec (an (Ax a i)) 1) as [E|N].
  - destruct (Nat.even k); unfold to_of, from_of; rewrite one_self by auto using rng_prv, rng_nxt; apply Z.eqb_refl.
  - apply Z.eqb_neq. intros X. assert (Y : ix a p i = prv (an (Ax a i)) (ix a p i)).
    { destruct (Nat.even k); [rewrite <- (to_ix true i p Hp Hi), <- X; reflexivity|rewrite <- (from_ix false i p Hp Hi), <- X; reflexivity]. }
    unfold prv in Y. destruct (Z.eqb_spec (ix a p i) 0); lia.
Qed.

Definition pairs : list (Z * Z) := map (fun p => (p, bufn a p)) ps.
Lemma isp_range p : isp pairs p <-> 0 <= p < nproc.
Proof. unfold isp, pairs. rewrite map_map. cbn [fst]. rewrite map_id. apply (ps_In a seg). Qed.

Theorem net_ghost {V} (m m' : Z -> pmem V) st :
  exchange KK true es (map (fun p => (p, (bufn a p, msgs a seg flag 0 n p))) ps) m = Some m' ->
  (forall p, 0 <= p < nproc -> enter es (bufn a p) p 0 (todo KK ek 0 p) (m p) = Some (st p)) ->
  forall s, net_runs es pairs (st, []) s ->
    (net_done pairs s /\ forall p, 0 <= p < nproc -> p_mem (fst s p) = m' p) \/ exists s', net_step es pairs false s s'.
Proof.
  intros HX HS s HR. set (d0 := gs_msg (ek 0 0)).
  destruct (mems_spec es ps (bufn a) d0 KK true (msgs a seg flag 0 n) m m' (fun p _ => msgs_length p) HX) as (M0 & MK & MS).
  set (M := mems KK true es (map (fun p => (p, (bufn a p, msgs a seg flag 0 n p))) ps) m) in *.
  set (h := fun k p => gs_msg (ek k p)).
  set (SB := fun k p => sbuf es (bufn a) (h k) (M k) p).
  set (A := fun k p => if self_msg p (ek k p) then SB k p else SB k (g_from (h k p))).
  assert (PH : forall k p, (k < KK)%nat -> 0 <= p < nproc -> pack_msg es (bufn a p) (M k p) (h k p) = Some (SB k p) /\ unpack_msg es (M k p) (h k p) (A k p) = Some (M (S k) p) /\
    (self_msg p (ek k p) = false -> es * Z.of_nat (length (SB k (g_from (h k p)))) = g_len (h k (g_from (h k p))) /\ g_len (h k (g_from (h k p))) <= es * bufn a p)).
  { intros k p Hk Hp. specialize (MS k Hk).
    assert (EE : map (fun p => (p, (bufn a p, nth k (msgs a seg flag 0 n p) d0))) ps = map (fun p => (p, (bufn a p, h k p))) ps).
    { apply map_ext. intros q. now rewrite msgs_nth. }
    rewrite EE in MS. destruct (phase_inv _ _ _ _ _ _ _ MS p (proj2 (ps_In a seg p) Hp)) as (P1 & P2 & P3).
    assert (ES : selfp (xorb true (Nat.odd k)) (h k) p = self_msg p (ek k p)).
    { unfold selfp, self_msg, ek, stp. cbn [gs_neg]. rewrite xorb_true_l, Nat.negb_odd. reflexivity. }
    rewrite ES in *. split; [exact P1|]. split; [exact P2|]. intros Sf. destruct (P3 Sf) as (_ & _ & Q). exact Q. }
  assert (HE : 1 <= es) by (apply es_pos; exact HA).
  assert (NT : forall k p, (k < KK)%nat -> 0 <= p < nproc -> 0 <= g_to (h k p) < nproc /\ 0 <= g_from (h k p) < nproc /\ g_to (h k (g_from (h k p))) = p /\ g_from (h k (g_to (h k p))) = p).
  { intros k p Hk Hp. destruct (wd_ok k Hk) as [Hi _]. unfold h, ek, stp. cbn [gs_msg ent g_to g_from]. now apply to_from. }
  destruct (net_ok es pairs (bufn a) KK ek M SB A (fun k p => slotS (gs_neg (ek k p)) (gs_nb (ek k p)) (gs_ix (ek k p))) (fun k p => slotR (gs_neg (ek k p)) (gs_nb (ek k p)) (gs_ix (ek k p)))) with (st := st) (s := s) as [[D1 D2]|D]; auto.
  - intros p k I. apply in_map_iff in I as (q & E & _). congruence.
  - intros k p Hk Hp. apply isp_range in Hp. now apply PH.
  - intros k p Hk Hp. apply isp_range in Hp. now apply PH.
  - intros k p Hk Hp Sf. unfold A. now rewrite Sf.
  - intros k p Hk Hp Sf. apply isp_range in Hp. destruct (NT k p Hk Hp) as (T1 & T2 & T3 & T4). destruct (wd_ok k Hk) as [Hi _].
    assert (Sf' : self_msg (g_to (h k p)) (ek k (g_to (h k p))) = false) by (rewrite self_one in * by auto; exact Sf).
    fold (h k p) (h k (g_to (h k p))). split; [now apply isp_range|]. split.
    + intros E. rewrite self_one in Sf by auto. apply Z.eqb_neq in Sf. apply (f_equal (fun q => ix a q (nth (k / 2) wd O))) in E. unfold h, ek, stp in E. cbn [gs_msg ent g_to] in E. rewrite to_ix in E by auto.
      pose proof (ix_range a HA p _ Hp Hi). unfold prv, nxt in E. destruct (Nat.even k), (Z.eqb_spec (ix a p (nth (k / 2) wd O)) 0), (Z.eqb_spec (ix a p (nth (k / 2) wd O)) (an (Ax a (nth (k / 2) wd O)) - 1)); lia.
    + split; [exact Sf'|]. split; [exact T4|]. split.
      * unfold h, ek, stp. cbn [gs_msg gs_neg gs_nb gs_ix ent g_to]. rewrite to_ix by auto. apply slots_match; [|now apply ix_range]. rewrite self_one in Sf by auto. apply Z.eqb_neq in Sf.
        pose proof (ix_range a HA p _ Hp Hi). lia.
      * destruct (PH k (g_to (h k p)) Hk T1) as (_ & _ & Q). destruct (Q Sf') as [Q1 Q2]. rewrite T4 in Q1, Q2. split; [exact Q1|]. split; [unfold A; now rewrite Sf', T4|].
        unfold h in *. nia.
  - intros k p Hk Hp Sf. apply isp_range in Hp. destruct (NT k p Hk Hp) as (T1 & T2 & T3 & T4). split; [now apply isp_range|]. split; [|exact T3].
    fold (h k p). rewrite self_one in * by auto. exact Sf.
  - intros k p Hk Hp Sf. apply isp_range in Hp. destruct (wd_ok k Hk) as [Hi _]. unfold comm. rewrite Sf. unfold ek, stp. cbn [gs_neg gs_nb gs_ix]. apply order_slots; [|now apply ix_range].
    rewrite self_one in Sf by auto. apply Z.eqb_neq in Sf. pose proof (ix_range a HA p _ Hp Hi). lia.
  - intros p Hp. apply isp_range in Hp. pose proof (HS p Hp) as E. rewrite <- M0 in E. unfold enter in E. unfold cs, ops, todo in *.
    destruct (Nat.ltb_spec 0 KK) as [L|L].
    + rewrite Nat.sub_0_r in *. destruct KK as [|K'] eqn:EK; [lia|]. cbn [seq map] in *. destruct (PH 0%nat p ltac:(lia) Hp) as (P1 & _). unfold h in P1. rewrite P1 in E. injection E as <-. reflexivity.
    + assert (K0 : KK = O) by lia. rewrite K0 in *. cbn in E |- *. injection E as <-. reflexivity.
  - left. split; [exact D1|]. intros p Hp. rewrite <- MK by (now apply (ps_In a seg)). apply D2. now apply isp_range.
Qed.
End R.
