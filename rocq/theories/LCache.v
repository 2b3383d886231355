(** Lemmas for cached reads. *)
From Coq Require Import ZArith List Lia Bool Permutation.
From Verif Require Import SpecBox SpecStore SpecXfer SpecCopy SpecCache MBase MXfer MOdo MCache LRadix LXfer LOdo.
Import ListNotations.
Open Scope Z_scope.

Lemma le_length {x y : list Z} : Forall2 Z.le x y -> length x = length y.
Proof. induction 1; cbn; congruence. Qed.
Lemma counts_extents lo hi : counts lo hi = extents lo hi. Proof. reflexivity. Qed.
Lemma minus_vsub x y : minus x y = vsub x y. Proof. reflexivity. Qed.
Lemma ext_pos {lo hi} : Forall2 Z.le lo hi -> Forall (fun c => 1 <= c) (extents lo hi).
Proof. induction 1; cbn [extents]; constructor; auto; lia. Qed.
Lemma ext_len {lo hi} : Forall2 Z.le lo hi -> length (extents lo hi) = length lo.
Proof. induction 1; cbn; congruence. Qed.
Lemma vadd_zero n : forall k, length k = n -> vadd (repeat 0 n) k = k.
Proof. induction n as [|n IH]; intros [|a k] E; cbn in *; try discriminate; [reflexivity|]. f_equal. apply IH. lia. Qed.
Lemma box_range lo hi : forall x, in_box lo hi x -> in_range0 (extents lo hi) (vsub x lo).
Proof.
  revert hi. induction lo as [|l lo IH]; intros [|h hi] [|a x] B; try (destruct B; fail); [exact I|]. cbn in *. destruct B as (B & B'). split; [lia|]. apply IH. exact B'.
Qed.
Lemma range_box lo : forall hi k, length lo = length hi -> in_range0 (extents lo hi) k -> in_box lo hi (vadd lo k) /\ vsub (vadd lo k) lo = k.
Proof.
  induction lo as [|l lo IH]; intros [|h hi] [|a k] E B; try discriminate; try (destruct B; fail); [split; [exact I|reflexivity]|]. cbn in *. destruct B as (B & B').
  destruct (IH hi k ltac:(lia) B') as (H1 & H2). split; [split; [lia|exact H1]|]. f_equal; [lia|exact H2].
Qed.
Lemma box_sub_add lo hi : forall x, in_box lo hi x -> vadd lo (vsub x lo) = x.
Proof.
  revert hi. induction lo as [|l lo IH]; intros [|h hi] [|a x] B; try (destruct B; fail); [reflexivity|]. cbn in *. destruct B as (B & B'). f_equal; [lia|eapply IH; eauto].
Qed.

Lemma fits_zero lo hi ld : Forall2 Z.le lo hi -> lo <> [] -> valid_ld lo hi ld -> patch_fits (extents lo hi) (repeat 0 (length lo)) ld.
Proof.
  intros H. revert ld. induction H as [|l h lo hi Hlh H IH]; intros ld N V; [congruence|].
  destruct H as [|l2 h2 lo hi H2 H]; [cbn; lia|].
  destruct ld as [|d ld]; [destruct V|]. destruct V as (V1 & V2).
  specialize (IH ld ltac:(discriminate) V2). cbn [extents length repeat] in *. split; [lia|]. split; [lia|]. split; [lia|]. exact IH.
Qed.
Lemma valid_tight lo hi : Forall2 Z.le lo hi -> valid_ld lo hi (extents lo hi).
Proof. induction 1 as [|l h lo hi Hlh H IH]; [exact I|]. destruct H; [exact I|]. cbn [extents valid_ld]. split; [lia|exact IH]. Qed.
Lemma fits_part nlo nhi lo hi : lo <> [] -> Forall2 Z.le lo hi -> within lo hi nlo nhi ->
  patch_fits (extents lo hi) (vsub lo nlo) (extents nlo nhi).
Proof.
  intros N H (W1 & W2). revert nlo nhi W1 W2. induction H as [|l h lo hi Hlh H IH]; intros nlo nhi W1 W2; [congruence|].
  inversion W1 as [|a ? nlo' ? A1 A2]; subst. inversion W2 as [|? b ? nhi' B1 B2]; subst.
  destruct H as [|l2 h2 lo hi H2 H]; [cbn; lia|].
  specialize (IH ltac:(discriminate) nlo' nhi' A2 B2).
  inversion A2; subst. inversion B2; subst. cbn [extents vsub] in *. split; [lia|]. split; [lia|]. split; [lia|]. exact IH.
Qed.

Lemma last_cons_ne (a b : Z) l d : last (a :: b :: l) d = last (b :: l) d. Proof. reflexivity. Qed.
Lemma rows_cons a b l d ld : zprod (firstn (length (a :: b :: l) - 1) (d :: ld) ++ [last (a :: b :: l) 1]) =
  d * zprod (firstn (length (b :: l) - 1) ld ++ [last (b :: l) 1]).
Proof. rewrite last_cons_ne. cbn [length]. rewrite !Nat.sub_succ, !Nat.sub_0_r. reflexivity. Qed.
Lemma rows_self l : l <> [] -> zprod (firstn (length l - 1) l ++ [last l 1]) = zprod l.
Proof.
  intros N. induction l as [|a l IH]; [congruence|]. destruct l as [|b l]; [reflexivity|].
  rewrite rows_cons, IH by discriminate. reflexivity.
Qed.
Lemma rows_ge lo hi : forall ld, lo <> [] -> Forall2 Z.le lo hi -> valid_ld lo hi ld ->
  zprod (extents lo hi) <= zprod (firstn (length (extents lo hi) - 1) ld ++ [last (extents lo hi) 1]).
Proof.
  intros ld N H. revert ld N. induction H as [|l h lo hi Hlh H IH]; intros ld N V; [congruence|].
  destruct H as [|l2 h2 lo hi H2 H]; [cbn; lia|].
  destruct ld as [|d ld]; [destruct V|]. destruct V as (V1 & V2). specialize (IH ld ltac:(discriminate) V2).
  assert (P : 1 <= zprod (extents (l2 :: lo) (h2 :: hi))) by (apply zprod_pos, ext_pos; constructor; auto).
  cbn [extents] in *. rewrite rows_cons. cbn [zprod] in *. nia.
Qed.
Lemma rows_part nlo nhi lo hi : lo <> [] -> Forall2 Z.le lo hi -> within lo hi nlo nhi ->
  zprod (firstn (length (extents lo hi) - 1) (extents nlo nhi) ++ [last (extents lo hi) 1]) <= zprod (extents nlo nhi).
Proof.
  intros N H (W1 & W2). revert nlo nhi W1 W2. induction H as [|l h lo hi Hlh H IH]; intros nlo nhi W1 W2; [congruence|].
  inversion W1 as [|a ? nlo' ? A1 A2]; subst. inversion W2 as [|? b ? nhi' B1 B2]; subst.
  destruct H as [|l2 h2 lo hi H2 H]; [inversion A2; inversion B2; subst; cbn; lia|].
  specialize (IH ltac:(discriminate) nlo' nhi' A2 B2).
  cbn [extents] in *. rewrite rows_cons. cbn [zprod] in *. nia.
Qed.
Lemma lin_range cnt : forall k, in_range0 cnt k -> 0 <= lin cnt k < zprod cnt.
Proof.
  induction cnt as [|c cnt IH]; intros [|a k] B; try (destruct B; fail); [cbn; lia|]. destruct B as (B & B'). specialize (IH k B').
  destruct k as [|b k]; [|rewrite lin_cons; cbn [zprod]; nia]. destruct cnt; [|destruct B']. cbn. lia.
Qed.
(** The packed positions lie within the caller's buffer. *)
Lemma lin_packed lo hi : forall ld k, Forall2 Z.le lo hi -> valid_ld lo hi ld -> in_range0 (extents lo hi) k ->
  0 <= lin (extents lo hi) k <= lin ld (vsub hi lo).
Proof.
  intros ld k H. revert ld k. induction H as [|l h lo hi Hlh H IH]; intros ld k V B; [destruct k; [cbn; lia|destruct B]|].
  destruct k as [|a k]; [destruct B|]. destruct B as (B & B').
  destruct H as [|l2 h2 lo hi H2 H]; [destruct k; [cbn; lia|destruct B']|].
  destruct ld as [|d ld]; [destruct V|]. destruct V as (V1 & V2). specialize (IH ld k V2 B').
  destruct k as [|b k]; [destruct B'|]. cbn [extents vsub] in *. rewrite !lin_cons. nia.
Qed.
Lemma tight_lin lo hi ld k : tight lo hi ld -> lo <> [] -> length k = length lo -> lin ld k = lin (extents lo hi) k.
Proof.
  intros T N L. unfold tight in T. rewrite <- (lin_firstn (length lo - 1) ld k), <- (lin_firstn (length lo - 1) (extents lo hi) k), T; [reflexivity| |]; destruct lo; [congruence| |congruence|]; cbn [length] in *; lia.
Qed.
Lemma encloses_spec nlo : forall nhi lo hi, length nlo = length lo -> length nhi = length lo -> length hi = length lo ->
  encloses nlo nhi lo hi = true <-> within lo hi nlo nhi.
Proof.
  unfold within. induction nlo as [|a nlo IH]; intros [|b nhi] [|l lo] [|h hi] E1 E2 E3; try discriminate; cbn [encloses length] in *; [split; auto|].
  destruct (andb (a <=? l) (h <=? b)) eqn:E.
  - apply andb_true_iff in E. rewrite (IH nhi lo hi) by lia. split; intros (H1 & H2); [split; constructor; auto; lia|inversion H1; inversion H2; auto].
  - apply andb_false_iff in E. split; [discriminate|]. intros (H1 & H2). inversion H1; inversion H2; subst. lia.
Qed.

Lemma whole_ok {V} (buf : buffer V) lo hi ld : Forall2 Z.le lo hi -> valid_ld lo hi ld -> whole buf lo hi ld -> buffer_ok buf lo hi ld.
Proof.
  intros H Vd W x B. apply W. apply box_range in B. clear W. revert ld Vd x B. induction H as [|l h lo hi Hlh H IH]; intros ld Vd x B; [destruct x; cbn; lia|].
  destruct x as [|a x]; [destruct B|]. cbn [vsub extents] in *. destruct B as (B & B').
  destruct H as [|l2 h2 lo hi H2 H]; [destruct x; cbn; lia|].
  destruct ld as [|d ld]; [destruct Vd|]. destruct Vd as (V1 & V2). specialize (IH ld V2 x B').
  destruct x as [|b x]; [destruct B'|]. cbn [vsub] in *. rewrite !lin_cons. nia.
Qed.

(** ---- one get ---- *)
Section Gets.
Context {V : Type} (placed : list Z -> place -> Prop) (m : heap V) (ok : list Z -> list Z -> list Z -> Prop)
        (fetch : list Z -> list Z -> list Z -> buffer V -> option (buffer V)) (junk : Z -> V) (es : Z) (nd : nat).
Hypothesis fetch_ok : forall lo hi ld buf, ok lo hi ld -> buffer_ok buf lo hi ld ->
  exists buf', fetch lo hi ld buf = Some buf' /\ get_effect placed lo hi ld m buf buf' /\ buffer_ok buf' lo hi ld.

(** The entry holds its region of the array. *)
Definition good_node (n : cnode V) : Prop :=
  Forall2 Z.le (n_lo n) (n_hi n) /\ length (n_lo n) = nd /\ n_next n = None /\
  es * zprod (extents (n_lo n) (n_hi n)) <= int_max /\
  buffer_ok (n_buf n) (n_lo n) (n_hi n) (extents (n_lo n) (n_hi n)) /\
  (forall x q, in_box (n_lo n) (n_hi n) x -> placed x q -> buf_at (n_buf n) (n_lo n) (extents (n_lo n) (n_hi n)) x = hget m q).

Definition inv (c : cache V) : Prop :=
  0 <= c_fresh c /\ (forall i, c_nodes c i <> None -> 0 <= i < c_fresh c) /\
  match c_head c with None => True | Some i => exists n, c_nodes c i = Some n /\ good_node n end.

Lemma mapM_ints l : Forall (fun x => 0 <= x <= int_max) l -> mapM to_int l = Some l.
Proof. intros F. rewrite (mapM_Some to_int (fun x => x)); [rewrite map_id; reflexivity|]. intros x Hx. rewrite Forall_forall in F. apply to_int_ok. auto. Qed.

Lemma hit_ok n lo hi ld buf : good_node n -> length lo = nd -> cacheable es lo hi ld -> within lo hi (n_lo n) (n_hi n) -> whole buf lo hi ld ->
  exists buf', cache_hit es n lo hi ld buf = Some buf' /\ get_effect placed lo hi (extents lo hi) m buf buf'.
Proof.
  intros (NL & NN & _ & SZ & NB & NV) LL (He & HL & LE & _ & _ & VL & SM) W WH. unfold cache_hit. cbv zeta. change (@counts) with extents; change (@minus) with vsub.
  assert (N : lo <> []) by (intros ->; cbn in HL; lia).
  assert (LH := le_length LE).
  assert (EN : extents lo hi <> []) by (destruct LE; [congruence|discriminate]).
  assert (KB : forall k, in_range0 (extents lo hi) k -> in_box (n_lo n) (n_hi n) (vadd lo k) /\ vadd (vsub lo (n_lo n)) k = vsub (vadd lo k) (n_lo n)).
  { destruct W as (W1 & W2). clear - W1 W2 LE. revert W1 W2. generalize (n_lo n) (n_hi n). induction LE as [|l h lo hi Hlh LE IH]; intros nlo nhi W1 W2 k B; inversion W1; inversion W2; subst.
    - destruct k; [split; [exact I|reflexivity]|destruct B].
    - destruct k as [|a k]; [destruct B|]. cbn in *. destruct B as (B & B'). destruct (IH _ _ H3 H8 k B') as (I1 & I2). split; [split; [lia|exact I1]|f_equal; [lia|exact I2]]. }
  destruct (copy_spec es (extents lo hi) (vsub lo (n_lo n)) (extents (n_lo n) (n_hi n)) (repeat 0 (length lo)) (extents lo hi) (n_buf n) buf) as (ts & b' & E1 & E2 & C1 & C2).
  - exact He.
  - rewrite (ext_len LE). lia.
  - apply fits_part; auto.
  - apply fits_zero; auto. apply valid_tight. exact LE.
  - unfold small_buffer. pose proof (rows_part _ _ _ _ N LE W). nia.
  - unfold small_buffer in *. rewrite rows_self by exact EN. pose proof (rows_ge lo hi ld N LE VL). nia.
  - intros k Hk. destruct (KB k Hk) as (K1 & K2). rewrite K2. apply NB. exact K1.
  - intros k Hk. rewrite vadd_zero by (rewrite (in_range0_length _ _ Hk); apply ext_len; exact LE). apply WH. apply lin_packed; auto.
  - rewrite E1. cbn. rewrite E2. exists b'. split; [reflexivity|]. split.
    + intros x q B P. pose proof (box_range _ _ _ B) as R. specialize (C1 _ R). rewrite vadd_zero in C1 by (rewrite (in_range0_length _ _ R); apply ext_len; exact LE).
      unfold buf_at. rewrite C1. destruct (KB _ R) as (K1 & K2). rewrite K2. rewrite (box_sub_add _ _ _ B) in *. apply NV; auto.
    + intros i Hi. apply C2. intros k Hk. rewrite vadd_zero by (rewrite (in_range0_length _ _ Hk); apply ext_len; exact LE).
      destruct (range_box lo hi k LH Hk) as (B & E). rewrite <- E. apply Hi. exact B.
Qed.

Lemma miss_ok c lo hi ld buf : 0 <= c_fresh c -> length lo = nd -> cacheable es lo hi ld -> ok lo hi ld -> buffer_ok buf lo hi ld ->
  exists nb buf', cache_miss fetch junk es c lo hi ld buf =
      Some (Cache (Some (c_fresh c)) (nset (c_nodes c) (c_fresh c) (Some (CNode lo hi nb (c_head c)))) (c_fresh c + 1) (c_on c), buf') /\
    get_effect placed lo hi ld m buf buf' /\ good_node (CNode lo hi nb None).
Proof.
  intros HF LL (He & HL & LE & IL & IH & VL & SM) OK BO. unfold cache_miss. cbv zeta. rewrite !mapM_ints by assumption. cbn -[mem_copy to_int int_prod].
  assert (N : lo <> []) by (intros ->; cbn in HL; lia).
  assert (LH := le_length LE).
  assert (EN : extents lo hi <> []) by (destruct LE; [congruence|discriminate]).
  assert (SP : es * zprod (extents lo hi) <= int_max) by (unfold small_buffer in SM; pose proof (rows_ge lo hi ld N LE VL); nia).
  assert (P1 : 1 <= zprod (extents lo hi)) by (apply zprod_pos, ext_pos, LE).
  change (@counts) with extents. rewrite (int_prod_ok (extents lo hi) 1) by (try apply (ext_pos LE); nia). rewrite Z.mul_1_l.
  cbn -[mem_copy to_int int_prod]. rewrite to_int_ok by nia. cbn -[mem_copy to_int int_prod].
  destruct (fetch_ok lo hi ld buf OK BO) as (b1 & E & GE & B1). rewrite E. cbn -[mem_copy to_int int_prod].
  destruct (copy_spec es (extents lo hi) (repeat 0 (length lo)) ld (repeat 0 (length lo)) (extents lo hi) b1 (fresh_buf junk (zprod (extents lo hi)))) as (ts & b' & E1 & E2 & C1 & C2).
  - exact He.
  - rewrite (ext_len LE). lia.
  - apply fits_zero; auto.
  - apply fits_zero; auto. apply valid_tight. exact LE.
  - exact SM.
  - unfold small_buffer in *. rewrite rows_self by exact EN. exact SP.
  - intros k Hk. rewrite vadd_zero by (rewrite (in_range0_length _ _ Hk); apply ext_len; exact LE).
    destruct (range_box lo hi k LH Hk) as (B & EK). rewrite <- EK. apply B1. exact B.
  - intros k Hk. rewrite vadd_zero by (rewrite (in_range0_length _ _ Hk); apply ext_len; exact LE).
    pose proof (lin_range _ _ Hk). unfold fresh_buf. replace (0 <=? lin (extents lo hi) k) with true by lia. replace (lin (extents lo hi) k <? zprod (extents lo hi)) with true by lia. discriminate.
  - rewrite E1. cbn. rewrite E2. exists b', b1. split; [reflexivity|]. split; [exact GE|].
    assert (CV : forall x, in_box lo hi x -> buf_at b' lo (extents lo hi) x = buf_at b1 lo ld x).
    { intros x B. pose proof (box_range _ _ _ B) as R. specialize (C1 _ R). rewrite !vadd_zero in C1 by (rewrite (in_range0_length _ _ R); apply ext_len; exact LE). exact C1. }
    unfold good_node. cbn [n_lo n_hi n_next n_buf]. split; [exact LE|]. split; [exact LL|]. split; [reflexivity|]. split; [exact SP|]. split.
    + intros x B. rewrite CV by exact B. apply B1. exact B.
    + intros x q B P. rewrite CV by exact B. apply (proj1 GE); auto.
Qed.

(** Trimming a list of one or two entries leaves the first. *)
Lemma trim_one (c : cache V) i n : c_head c = Some i -> c_nodes c i = Some n ->
  match n_next n with None => True | Some j => j <> i /\ exists k, c_nodes c j = Some k /\ n_next k = None end ->
  trim 13 0 c = Some (Cache (Some i) (match n_next n with None => nset (c_nodes c) i (Some (CNode (n_lo n) (n_hi n) (n_buf n) None))
                                      | Some j => nset (nset (c_nodes c) i (Some (CNode (n_lo n) (n_hi n) (n_buf n) None))) j None end) (c_fresh c) (c_on c)).
Proof.
  intros EH EN HN. cbn -[Z.add Z.ltb trim_free]. rewrite EH. cbn -[trim_free]. rewrite EN. cbn -[trim_free].
  destruct (n_next n) as [j|]; [|reflexivity]. destruct HN as (NE & k & EK & NK). cbn -[nset]. unfold cfree. cbn -[nset].
  unfold nset at 1. replace (j =? i) with false by lia. rewrite EK. cbn -[nset]. unfold nset at 1. replace (j =? i) with false by lia. rewrite EK. cbn -[nset]. rewrite NK.
  destruct (Z.to_nat (c_fresh c)); reflexivity.
Qed.

(** The head entry, if any, was read earlier. *)
Definition known (h : list (cevent V)) (c : cache V) : Prop :=
  forall i n, c_head c = Some i -> c_nodes c i = Some n -> exists ld b, In (CGet (n_lo n) (n_hi n) ld b) h.
(** Every allocated entry is the head. *)
Definition only_head (c : cache V) : Prop := forall i, c_nodes c i <> None -> c_head c = Some i.

Definition good_event (e : cevent V) : Prop :=
  match e with CGet lo hi ld buf => length lo = nd /\ cacheable es lo hi ld /\ ok lo hi ld /\ whole buf lo hi ld | _ => True end.

Lemma nset_same (f : Z -> option (cnode V)) i x : nset f i x i = x.
Proof. unfold nset. rewrite Z.eqb_refl. reflexivity. Qed.
Lemma nset_other (f : Z -> option (cnode V)) i j x : j <> i -> nset f i x j = f j.
Proof. unfold nset. intros H. replace (j =? i) with false by lia. reflexivity. Qed.

Lemma get_step (c : cache V) h lo hi ld buf : inv c -> known h c -> good_event (CGet lo hi ld buf) ->
  exists c' buf', pnga_get fetch junk es c lo hi ld buf = Some (c', buf') /\ inv c' /\ known (h ++ [CGet lo hi ld buf]) c' /\ (only_head c -> only_head c') /\ c_on c' = c_on c /\
    (get_effect placed lo hi ld m buf buf' \/
     (c_on c = true /\ get_effect placed lo hi (extents lo hi) m buf buf' /\ exists lo' hi' ld' b', In (CGet lo' hi' ld' b') h /\ within lo hi lo' hi')).
Proof.
  intros I K (LL & CA & OK & WH).
  assert (BO : buffer_ok buf lo hi ld) by (destruct CA as (_ & _ & LE & _ & _ & VL & _); apply whole_ok; assumption).
  unfold pnga_get. destruct (c_on c) eqn:ON.
  2:{ destruct (fetch_ok lo hi ld buf OK BO) as (b1 & E & GE & _). rewrite E. exists c, b1. split; [reflexivity|]. split; [exact I|]. split; [|split; [auto|split; [exact ON|left; exact GE]]].
      intros i n H1 H2. destruct (K i n H1 H2) as (l & b & H3). exists l, b. apply in_or_app. left. exact H3. }
  destruct I as (F0 & FR & IH).
  assert (MISS : exists c1 b1, cache_miss fetch junk es c lo hi ld buf = Some (c1, b1) /\ get_effect placed lo hi ld m buf b1 /\
     exists c2, trim 13 0 c1 = Some c2 /\ inv c2 /\ known (h ++ [CGet lo hi ld buf]) c2 /\ (only_head c -> only_head c2) /\ c_on c2 = true).
  { destruct (miss_ok c lo hi ld buf F0 LL CA OK BO) as (nb & b1 & E & GE & GN). eexists _, b1. split; [exact E|]. split; [exact GE|].
    assert (FF : c_nodes c (c_fresh c) = None).
    { destruct (c_nodes c (c_fresh c)) eqn:EE; [|reflexivity]. assert (0 <= c_fresh c < c_fresh c) by (apply FR; congruence). lia. }
    erewrite trim_one; [|reflexivity|cbn [c_nodes]; apply nset_same|].
    2:{ cbn [n_next]. destruct (c_head c) as [j|]; [|exact Logic.I]. destruct IH as (k & E1 & _ & _ & E2 & _).
        assert (j <> c_fresh c) by (intros ->; congruence). split; [assumption|]. exists k. cbn [c_nodes]. rewrite nset_other by assumption. auto. }
    eexists. split; [reflexivity|]. cbn [n_lo n_hi n_buf n_next c_nodes c_head c_fresh c_on].
    assert (HS : forall f : Z -> option (cnode V), f = (match c_head c with None => nset (nset (c_nodes c) (c_fresh c) (Some (CNode lo hi nb (c_head c)))) (c_fresh c) (Some (CNode lo hi nb None))
                  | Some j => nset (nset (nset (c_nodes c) (c_fresh c) (Some (CNode lo hi nb (c_head c)))) (c_fresh c) (Some (CNode lo hi nb None))) j None end) ->
               f (c_fresh c) = Some (CNode lo hi nb None) /\ (forall i, f i <> None -> i = c_fresh c \/ (c_nodes c i <> None /\ c_head c <> Some i))).
    { intros f ->. destruct (c_head c) as [j|] eqn:EJ.
      - destruct IH as (k & E1 & _). assert (j <> c_fresh c) by (intros ->; congruence). split; [rewrite nset_other by lia; apply nset_same|].
        intros i Hi. destruct (Z.eq_dec i (c_fresh c)) as [->|N1]; [left; reflexivity|]. right. destruct (Z.eq_dec i j) as [->|N2]; [rewrite nset_same in Hi; congruence|].
        rewrite !nset_other in Hi by assumption. split; [exact Hi|congruence].
      - split; [apply nset_same|]. intros i Hi. destruct (Z.eq_dec i (c_fresh c)) as [->|N1]; [left; reflexivity|]. right. rewrite !nset_other in Hi by assumption. split; [exact Hi|congruence]. }
    match goal with |- context [Cache (Some (c_fresh c)) ?F _ _] => destruct (HS F eq_refl) as (S1 & S2); remember F as f eqn:Ef; clear Ef HS end.
    split; [|split; [|split]].
    - split; [cbn; lia|]. split; [|cbn [c_head c_nodes]; exists (CNode lo hi nb None); split; [exact S1|exact GN]].
      cbn [c_nodes c_fresh]. intros i Hi. destruct (S2 i Hi) as [->|(H & _)]; [lia|]. specialize (FR i H). lia.
    - intros i n H1 H2. cbn [c_head c_nodes] in *. injection H1 as <-. rewrite S1 in H2. injection H2 as <-. exists ld, buf. apply in_or_app. right. left. reflexivity.
    - intros OH i Hi. cbn [c_head c_nodes] in *. destruct (S2 i Hi) as [->|(H & H')]; [reflexivity|]. destruct (H' (OH i H)).
    - exact ON. }
  destruct MISS as (cm & bm & EM & GEM & c2 & ET & I2 & K2 & O2 & N2).
  destruct (c_head c) as [i|] eqn:EH; cbn [cache_search].
  - destruct IH as (n & EN & GN). rewrite EN. cbn [cache_search]. destruct (encloses (n_lo n) (n_hi n) lo hi) eqn:EE.
    + pose proof GN as (NL & NN & NX & _). destruct CA as (He & HL & LE & CA').
      assert (W : within lo hi (n_lo n) (n_hi n)). { apply encloses_spec; auto; [congruence|rewrite <- (le_length NL); congruence|rewrite (le_length LE); reflexivity]. }
      destruct (hit_ok n lo hi ld buf GN LL (conj He (conj HL (conj LE CA'))) W WH) as (b' & E & GE). rewrite E. cbn -[trim].
      rewrite (trim_one c i n EH EN) by (rewrite NX; exact Logic.I). rewrite NX. eexists _, b'. split; [reflexivity|].
      assert (EN' : CNode (n_lo n) (n_hi n) (n_buf n) None = n) by (destruct n; cbn in *; congruence). rewrite EN'.
      split; [|split; [|split; [|split; [exact ON|]]]].
      * split; [exact F0|]. split; [|cbn [c_head c_nodes]; exists n; split; [apply nset_same|exact GN]].
        cbn [c_nodes c_fresh]. intros k Hk. destruct (Z.eq_dec k i) as [->|N]; [apply FR; congruence|]. rewrite nset_other in Hk by exact N. apply FR. exact Hk.
      * intros k n' H1 H2. cbn [c_head c_nodes] in *. injection H1 as <-. rewrite nset_same in H2. injection H2 as <-. destruct (K i n EH EN) as (l & b & H). exists l, b. apply in_or_app. left. exact H.
      * intros OH k Hk. cbn [c_head c_nodes] in *. destruct (Z.eq_dec k i) as [->|N]; [reflexivity|]. rewrite nset_other in Hk by exact N. rewrite <- EH. apply OH. exact Hk.
      * right. split; [reflexivity|]. split; [exact GE|]. destruct (K i n EH EN) as (l & b & H). exists (n_lo n), (n_hi n), l, b. split; [exact H|exact W].
    + destruct GN as (_ & _ & NX & _). rewrite NX. destruct (Z.to_nat (c_fresh c)); cbn [cache_search]; rewrite EM; cbn -[trim]; rewrite ET; exists c2, bm; (split; [reflexivity|]); rewrite N2; auto 10.
  - rewrite EM. cbn -[trim]. rewrite ET. exists c2, bm. split; [reflexivity|]. rewrite N2. auto 10.
Qed.

Lemma clear_ok (c : cache V) : inv c -> exists c', cache_clear c = Some c' /\ inv c' /\ c_head c' = None /\ c_on c' = c_on c /\ (only_head c -> forall i, c_nodes c' i = None).
Proof.
  intros (F0 & FR & IH). unfold cache_clear. destruct (c_head c) as [i|] eqn:EH; cbn.
  - destruct IH as (n & EN & _ & _ & NX & _). rewrite EN. cbn. unfold cfree. rewrite EN. cbn. rewrite NX. destruct (Z.to_nat (c_fresh c)); cbn;
    (eexists; split; [reflexivity|]; split; [|split; [reflexivity|split; [reflexivity|]]];
     [split; [exact F0|split; [|exact Logic.I]]; cbn [c_nodes c_fresh]; intros k Hk; destruct (Z.eq_dec k i) as [->|N]; [rewrite nset_same in Hk; congruence|rewrite nset_other in Hk by exact N; apply FR; exact Hk]
     |intros OH k; cbn [c_nodes]; destruct (Z.eq_dec k i) as [->|N]; [apply nset_same|rewrite nset_other by exact N; destruct (c_nodes c k) eqn:E; [|reflexivity]; assert (c_head c = Some k) by (apply OH; congruence); congruence]]).
  - eexists; split; [reflexivity|]. split; [split; [exact F0|split; [exact FR|exact Logic.I]]|]. split; [reflexivity|split; [reflexivity|]].
    intros OH k. cbn [c_nodes]. destruct (c_nodes c k) eqn:E; [|reflexivity]. assert (c_head c = Some k) by (apply OH; congruence). congruence.
Qed.

Lemma step_ok (c : cache V) h e : inv c -> known h c -> good_event e ->
  exists c' r, cstep fetch junk es c e = Some (c', r) /\ inv c' /\ known (h ++ [e]) c' /\
    (only_head c -> (e = CSet -> c_head c = None) -> only_head c') /\
    match e with
    | CGet lo hi ld buf => exists buf', r = Some buf' /\
        (get_effect placed lo hi ld m buf buf' \/
         (get_effect placed lo hi (extents lo hi) m buf buf' /\ exists lo' hi' ld' b', In (CGet lo' hi' ld' b') h /\ within lo hi lo' hi'))
    | CSet => c_on c' = true /\ c_head c' = None
    | CUnset => c_head c' = None \/ c_on c = false
    end.
Proof.
  intros I K G. destruct e as [lo hi ld buf| |].
  - destruct (get_step c h lo hi ld buf I K G) as (c' & b' & E & I' & K' & O' & _ & R). cbn [cstep]. rewrite E. exists c', (Some b'). split; [reflexivity|]. split; [exact I'|]. split; [exact K'|]. split; [auto|].
    exists b'. split; [reflexivity|]. destruct R as [R|(_ & R)]; auto.
  - exists (set_read_cache c), None. split; [reflexivity|]. split; [|split; [intros i n H1 H2; discriminate|split; [|split; reflexivity]]].
    + destruct I as (F0 & FR & _). split; [exact F0|]. split; [exact FR|exact Logic.I].
    + intros OH HN i Hi. cbn in *. rewrite <- (HN eq_refl). apply OH. exact Hi.
  - cbn [cstep]. unfold unset_property. destruct (c_on c) eqn:ON.
    + destruct (clear_ok c I) as (c' & E & I' & H' & _ & A). rewrite E. exists c', None. split; [reflexivity|]. split; [exact I'|]. split; [intros i n H1 H2; congruence|]. split; [|left; exact H'].
      intros OH _ i Hi. destruct (Hi (A OH i)).
    + eexists _, None. split; [reflexivity|]. split; [destruct I as (F0 & FR & IH); split; [exact F0|split; [exact FR|exact IH]]|]. split; [|split; [intros OH _; exact OH|right; reflexivity]].
      intros i n H1 H2. destruct (K i n H1 H2) as (l & b & H). exists l, b. apply in_or_app. left. exact H.
Qed.

Lemma run_ok h : forall h0 c, inv c -> known h0 c -> Forall good_event h ->
  exists c' rs, crun fetch junk es c h = Some (c', rs) /\ inv c' /\ known (h0 ++ h) c' /\ (only_head c -> ~ In CSet h -> only_head c') /\
    forall h1 lo hi ld buf h2, h = h1 ++ CGet lo hi ld buf :: h2 ->
      exists buf', nth_error rs (length h1) = Some (Some buf') /\
        (get_effect placed lo hi ld m buf buf' \/
         (get_effect placed lo hi (extents lo hi) m buf buf' /\ exists lo' hi' ld' b', In (CGet lo' hi' ld' b') (h0 ++ h1) /\ within lo hi lo' hi')).
Proof.
  induction h as [|e h IH]; intros h0 c I K G.
  - exists c, []. split; [reflexivity|]. split; [exact I|]. rewrite app_nil_r. split; [exact K|]. split; [auto|]. intros [|? ?] * E; discriminate.
  - inversion G; subst. destruct (step_ok c h0 e I K H1) as (c1 & r & E & I1 & K1 & O1 & R). destruct (IH (h0 ++ [e]) c1 I1 K1 H2) as (c' & rs & E' & I' & K' & O' & R').
    cbn [crun]. rewrite E. cbn [fst snd]. rewrite E'. exists c', (r :: rs). split; [reflexivity|]. split; [exact I'|]. rewrite <- app_assoc in K'. split; [exact K'|].
    split; [intros OH NI; apply O'; [apply O1; [exact OH|intros ->; destruct NI; left; reflexivity]|intros HI; apply NI; right; exact HI]|].
    intros [|e1 h1] lo hi ld buf h2 EQ; injection EQ as -> EQ.
    + destruct R as (b' & -> & R). exists b'. split; [reflexivity|]. rewrite app_nil_r. exact R.
    + destruct (R' h1 lo hi ld buf h2 EQ) as (b' & N & RR). exists b'. split; [exact N|]. rewrite <- app_assoc in RR. exact RR.
Qed.
End Gets.
