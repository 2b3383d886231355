(** Proofs about the REGULAR transfer iterator. *)
From Verif Require Export LTile SpecHome.

(** ---- permutation ---- *)
Lemma iota_zseq i n : iota i n = zseq i n.
Proof. revert i; induction n as [|n IH]; intros i; cbn; [reflexivity|now rewrite IH]. Qed.

Lemma swap_perm l i j : 0 <= i < Z.of_nat (length l) -> 0 <= j < Z.of_nat (length l) ->
  exists l', swap l i j = Some l' /\ Permutation l l' /\ length l' = length l.
Proof.
  intros Hi Hj. unfold swap.
  destruct (zget l i) as [a|] eqn:Ea; [|rewrite (zget_Some l i 0) in Ea by lia; discriminate].
  destruct (zget l j) as [b|] eqn:Eb; [|rewrite (zget_Some l j 0) in Eb by lia; discriminate].
  destruct (zset_ok l i b Hi) as (l1 & E1). rewrite E1.
  apply zset_Some in E1 as (_ & L1 & G1 & G1').
  destruct (zset_ok l1 j a ltac:(lia)) as (l2 & E2). rewrite E2.
  apply zset_Some in E2 as (_ & L2 & G2 & G2').
  exists l2. split; [reflexivity|]. split; [|congruence].
  apply Permutation_nth_error. split; [congruence|].
  exists (fun n => if Nat.eqb n (Z.to_nat i) then Z.to_nat j
                   else if Nat.eqb n (Z.to_nat j) then Z.to_nat i else n).
  split.
  - intros x y. repeat match goal with |- context [Nat.eqb ?u ?v] => destruct (Nat.eqb_spec u v) end; lia.
  - intros n. unfold zget in *.
    replace (i <? 0) with false in * by lia. replace (j <? 0) with false in * by lia.
    destruct (Nat.eqb_spec n (Z.to_nat i)) as [->|Hni].
    + destruct (Z.eq_dec i j) as [->|Hij]; [congruence|].
      specialize (G2' i Hij). replace (i <? 0) with false in G2' by lia. congruence.
    + destruct (Nat.eqb_spec n (Z.to_nat j)) as [->|Hnj]; [congruence|].
      specialize (G2' (Z.of_nat n) ltac:(lia)). specialize (G1' (Z.of_nat n) ltac:(lia)).
      replace (Z.of_nat n <? 0) with false in * by lia. rewrite Nat2Z.id in *. congruence.
Qed.

Lemma perm_loop_spec n i nproc rnd l :
  (forall k, 0 <= rnd k) -> Z.of_nat (length l) = nproc -> 0 <= i -> i + Z.of_nat n = nproc ->
  exists l', perm_loop n i nproc rnd l = Some l' /\ Permutation l l'.
Proof.
  intros Hr. revert i l. induction n as [|n IH]; intros i l Hl Hi Hn; cbn [perm_loop].
  - eauto.
  - unfold cmod. replace (nproc =? 0) with false by lia.
    pose proof (Z.rem_bound_pos (rnd i) nproc (Hr i) ltac:(lia)) as Hb.
    destruct (swap_perm l (Z.rem (rnd i) nproc) i) as (l1 & -> & HP & HL); [lia..|].
    destruct (IH (i + 1) l1) as (l2 & -> & HP2); [lia..|].
    eexists; split; [reflexivity|]. eapply perm_trans; eauto.
Qed.

Lemma permute_list_spec rnd n :
  (forall k, 0 <= rnd k) -> 0 <= n ->
  exists l, permute_list rnd n = Some l /\ Permutation l (zseq 0 (Z.to_nat n)).
Proof.
  intros Hr Hn. unfold permute_list. destruct (n =? 1) eqn:E.
  - replace n with 1 by lia. exists [0]. split; [reflexivity|]. cbn. auto.
  - rewrite iota_zseq.
    destruct (perm_loop_spec (Z.to_nat n) 0 n rnd (zseq 0 (Z.to_nat n))) as (l & -> & HP); auto.
    + rewrite zseq_length. lia.
    + lia.
    + lia.
    + eexists; split; [reflexivity|]. now apply Permutation_sym.
Qed.

(** ---- address arithmetic ---- *)
Lemma loc_loop_spec sub lo hi w f :
  in_box lo hi sub -> length w = length sub -> sub <> [] ->
  exists ld, loc_loop sub lo hi w f =
    Some (f * lin (padded lo hi w) (vadd (vsub sub lo) w), ld) /\
    forall k, length k = length sub -> lin ld k = lin (padded lo hi w) k.
Proof.
  revert lo hi w f. induction sub as [|s sub IH]; intros lo hi w f Hb Hw Hne; [congruence|].
  destruct lo as [|l lo], hi as [|h hi], w as [|a w]; cbn in Hb, Hw; try contradiction; try discriminate.
  destruct Hb as [Hs Hb].
  assert (Hc : (s <? l) || (h <? s) = false) by lia.
  destruct sub as [|s' sub].
  - destruct lo, hi, w; cbn in Hb, Hw; try contradiction; try discriminate.
    cbn. rewrite Hc. exists []. split; [f_equal; f_equal; ring|].
    intros [|k [|]]; cbn; intros; try discriminate; reflexivity.
  - destruct lo as [|l' lo], hi as [|h' hi], w as [|a' w]; cbn in Hb, Hw;
      try contradiction; try discriminate.
    destruct (IH (l' :: lo) (h' :: hi) (a' :: w) (f * (h - l + 1 + 2 * a))) as (ld & E & Hld);
      [exact Hb|cbn; lia|discriminate|].
    cbn [loc_loop]. rewrite Hc. cbn [loc_loop] in E. rewrite E. cbn [fst snd].
    eexists. split.
    + f_equal. f_equal. cbn [padded vsub vadd lin]. ring.
    + intros [|k0 [|k1 k]]; cbn [length]; intros Hk; try discriminate; try lia.
      cbn [lin padded]. specialize (Hld (k1 :: k)). cbn [lin padded length] in Hld.
      rewrite Hld by lia. reflexivity.
Qed.

(** Position of x = position of the corner + position relative to the corner. *)
Lemma lin_split ld y k c : length y = length c -> length k = length y ->
  lin ld (vadd (vsub y k) c) = lin ld (vadd (vsub y k) c).
Proof. reflexivity. Qed.

Lemma lin_add ld x y : length x = length y -> lin ld (vadd x y) = lin ld x + lin ld y.
Proof.
  revert ld y. induction x as [|a x IH]; intros ld [|b y] H; cbn in H; try discriminate; [reflexivity|].
  destruct x as [|a' x], y as [|b' y]; cbn in H; try discriminate; [reflexivity|].
  destruct ld as [|l ld].
  - reflexivity.
  - cbn [vadd lin]. specialize (IH ld (b' :: y) ltac:(cbn; lia)). cbn [vadd lin] in IH.
    rewrite IH. ring.
Qed.

Lemma vadd_length x y : length x = length y -> length (vadd x y) = length x.
Proof. revert y; induction x as [|a x IH]; intros [|b y] H; cbn in *; try lia. now rewrite IH by lia. Qed.
Lemma vsub_length x y : length x = length y -> length (vsub x y) = length x.
Proof. revert y; induction x as [|a x IH]; intros [|b y] H; cbn in *; try lia. now rewrite IH by lia. Qed.

Lemma vsub_chain x c l w : length x = length c -> length c = length l -> length w = length l ->
  vadd (vadd (vsub c l) w) (vsub x c) = vadd (vsub x l) w.
Proof.
  revert c l w. induction x as [|a x IH]; intros [|b c] [|d l] [|e w] H1 H2 H3; cbn in *; try lia; auto.
  f_equal; [lia|]. apply IH; lia.
Qed.

(** ---- carry = next subscript ---- *)
Fixpoint emb (start step t : list Z) : list Z :=
  match start, step, t with
  | p :: start', g :: step', a :: t' => p + g * a :: emb start' step' t'
  | _, _, _ => []
  end.

Fixpoint gridok (limit step start hi : list Z) : Prop :=
  match limit, step, start, hi with
  | [], [], [], [] => True
  | n :: limit', g :: step', p :: start', h :: hi' =>
      1 <= g /\ 0 <= h /\ p + g * h < n <= p + g * (h + 1) /\ gridok limit' step' start' hi'
  | _, _, _, _ => False
  end.

Lemma carry_cons n L g G p P i I c : L <> [] ->
  carry (n :: L) (g :: G) (p :: P) (i :: I) c =
  (let i' := if c then i + g else i in
   if n <=? i' then p :: carry L G P I true else i' :: carry L G P I false).
Proof. destruct L; [congruence|reflexivity]. Qed.

Definition zeros (l : list Z) : list Z := map (fun _ => 0) l.

Lemma last_reached_cons n L x X : L <> [] -> X <> [] ->
  last_reached (n :: L) (x :: X) = last_reached L X.
Proof. destruct L, X; try congruence. reflexivity. Qed.

Lemma carry_nonempty limit step start hi t c :
  gridok limit step start hi -> in_box (zeros hi) hi t -> t <> [] ->
  carry limit step start (emb start step t) c <> [].
Proof.
  destruct limit as [|n limit], step as [|g step], start as [|p start], hi as [|h hi], t as [|a t];
    intros HG Hb Hne; cbn in HG, Hb; try contradiction; try congruence.
  destruct limit.
  - destruct step, start, hi; cbn in HG; try tauto. destruct t; cbn in Hb; try tauto. discriminate.
  - cbn [emb]. rewrite carry_cons by discriminate. cbv zeta. destruct (n <=? _); discriminate.
Qed.

Lemma carry_false limit step start hi t :
  gridok limit step start hi -> in_box (zeros hi) hi t ->
  carry limit step start (emb start step t) false = emb start step t.
Proof.
  revert step start hi t. induction limit as [|n limit IH]; intros [|g step] [|p start] [|h hi] [|a t] HG Hb;
    cbn in HG, Hb; try contradiction; [reflexivity|].
  destruct HG as (Hg & Hh & Hn & HG), Hb as [Ha Hb]. fold (zeros hi) in Hb.
  assert (n <=? p + g * a = false) by nia.
  destruct limit as [|n' limit].
  - destruct step, start, hi, t; cbn in HG, Hb; try contradiction. reflexivity.
  - cbn [emb]. rewrite carry_cons by discriminate. cbv zeta. rewrite H, (IH step start hi t HG Hb).
    reflexivity.
Qed.

Lemma carry_true limit step start hi t :
  gridok limit step start hi -> in_box (zeros hi) hi t -> t <> [] ->
  (t = hi -> last_reached limit (carry limit step start (emb start step t) true) = true) /\
  (t <> hi ->
     carry limit step start (emb start step t) true = emb start step (update_sub t (zeros hi) hi) /\
     last_reached limit (carry limit step start (emb start step t) true) = false).
Proof.
  revert step start hi t. induction limit as [|n limit IH]; intros [|g step] [|p start] [|h hi] [|a t] HG Hb Hne;
    cbn in HG, Hb; try contradiction; try congruence.
  destruct HG as (Hg & Hh & Hn & HG), Hb as [Ha Hb]. fold (zeros hi) in Hb.
  destruct limit as [|n' limit].
  - destruct step, start, hi, t; cbn in HG, Hb; try contradiction.
    unfold last_reached. cbn [carry emb last update_sub zeros map]. split.
    + intros [= ->]. nia.
    + intros Hx. assert (a < h) by (assert (a <> h) by congruence; lia).
      replace (a <? h) with true by lia. split; [cbn; f_equal; nia|nia].
  - destruct step as [|g' step], start as [|p' start], hi as [|h' hi], t as [|a' t];
      cbn in HG, Hb; try contradiction.
    specialize (IH (g' :: step) (p' :: start) (h' :: hi) (a' :: t) HG Hb ltac:(discriminate)).
    pose proof (carry_false (n' :: limit) (g' :: step) (p' :: start) (h' :: hi) (a' :: t) HG Hb) as HF.
    remember (n' :: limit) as L. remember (g' :: step) as G. remember (p' :: start) as P.
    remember (h' :: hi) as H'. remember (a' :: t) as T.
    assert (EC : carry (n :: L) (g :: G) (p :: P) (emb (p :: P) (g :: G) (a :: T)) true =
            (if n <=? p + g * a + g then p :: carry L G P (emb P G T) true
             else p + g * a + g :: carry L G P (emb P G T) false)).
    { cbn [emb]. rewrite carry_cons by (subst; discriminate). reflexivity. }
    assert (EL : forall x r, last_reached (n :: L) (x :: carry L G P (emb P G T) r) =
                             last_reached L (carry L G P (emb P G T) r)).
    { intros x r. apply last_reached_cons; [subst; discriminate|].
      apply carry_nonempty with (hi := H'); subst; [exact HG|exact Hb|discriminate]. }
    rewrite EC. cbn [update_sub zeros map]. fold (zeros H').
    destruct (Z.eq_dec a h) as [->|Hah].
    + replace (n <=? p + g * h + g) with true by nia. replace (h <? h) with false by lia.
      rewrite EL. split.
      * intros [= ->]. apply IH. reflexivity.
      * intros Hx. assert (T <> H') by congruence. destruct IH as [_ IH].
        destruct (IH H) as [-> ->]. split; [|reflexivity]. cbn [emb]. f_equal. ring.
    + replace (n <=? p + g * a + g) with false by nia. replace (a <? h) with true by lia.
      rewrite EL. split; [congruence|]. intros _. rewrite HF. cbn [emb]. split.
      * f_equal. ring.
      * subst. clear - HG Hb. unfold last_reached.
        revert n' g' p' h' a' step start hi t HG Hb.
        induction limit as [|n limit IH]; intros n' g' p' h' a' [|g step] [|p start] [|h hi] [|a t] HG Hb;
          cbn in HG, Hb; try tauto.
        { cbn. nia. }
        specialize (IH n g p h a step start hi t). cbn [last emb].
        apply IH; cbn; tauto.
Qed.

(** Consecutive entries of the enumerated box. *)
Lemma iter_sub_length n t lo hi : length (iter_sub n t lo hi) = n.
Proof. revert t; induction n as [|n IH]; intros t; cbn; [reflexivity|now rewrite IH]. Qed.

Lemma app_inv_len {A} (a b c d : list A) : a ++ b = c ++ d -> length a = length c -> a = c /\ b = d.
Proof.
  revert c. induction a as [|x a IH]; intros [|y c] H L; cbn in *; try discriminate; [auto|].
  injection H as -> H. injection L as L. destruct (IH c H L) as [-> ->]. auto.
Qed.

Lemma iter_succ_r {A} n (f : A -> A) x : Nat.iter (S n) f x = Nat.iter n f (f x).
Proof. induction n as [|n IH]; [reflexivity|]. cbn in *. now rewrite IH. Qed.

Lemma iter_sub_app n m t lo hi :
  iter_sub (n + m) t lo hi =
  iter_sub n t lo hi ++ iter_sub m (Nat.iter n (fun s => update_sub s lo hi) t) lo hi.
Proof.
  revert t. induction n as [|n IH]; intros t; [reflexivity|].
  cbn [Nat.add iter_sub app]. f_equal. rewrite IH, iter_succ_r. reflexivity.
Qed.

Lemma box_list_last lo hi : Forall2 Z.le lo hi -> exists l, box_list lo hi = l ++ [hi].
Proof.
  induction 1 as [|l h lo hi Hlh HF IH]; cbn.
  - exists []. reflexivity.
  - destruct IH as (r & ->). rewrite flat_map_app. cbn. rewrite app_nil_r.
    assert (E : exists q, zseq l (Z.to_nat (h - l + 1)) = q ++ [h]).
    { replace (Z.to_nat (h - l + 1)) with (Z.to_nat (h - l) + 1)%nat by lia.
      exists (zseq l (Z.to_nat (h - l))).
      assert (G : forall n i, zseq i (n + 1) = zseq i n ++ [i + Z.of_nat n]).
      { induction n as [|n IHn]; intros i; [cbn; f_equal; lia|].
        cbn [Nat.add zseq app]. f_equal. rewrite IHn. f_equal. f_equal. lia. }
      rewrite G. f_equal. f_equal. lia. }
    destruct E as (q & ->). rewrite map_app. cbn. rewrite app_assoc. eauto.
Qed.

Lemma box_list_first lo hi : Forall2 Z.le lo hi -> exists l, box_list lo hi = lo :: l.
Proof.
  induction 1 as [|l h lo hi Hlh HF IH]; cbn; [eauto|].
  destruct IH as (r & ->). cbn. replace (Z.to_nat (h - l + 1)) with (S (Z.to_nat (h - l))) by lia.
  cbn. eauto.
Qed.

Lemma box_list_step lo hi pre t suf :
  Forall2 Z.le lo hi -> box_list lo hi = pre ++ t :: suf ->
  (suf = [] /\ t = hi) \/
  (exists suf', suf = update_sub t lo hi :: suf' /\ t <> hi).
Proof.
  intros HF E. destruct suf as [|t' suf].
  - left. split; [reflexivity|]. destruct (box_list_last lo hi HF) as (l & El).
    rewrite E in El. apply app_inj_tail in El. tauto.
  - right. assert (Et : t' = update_sub t lo hi).
    { pose proof (iter_sub_count lo hi HF) as I. rewrite E in I.
      assert (L : Z.to_nat (count_elems lo hi) = (length pre + S (S (length suf)))%nat).
      { pose proof (f_equal (@length _) I) as H. rewrite iter_sub_length, app_length in H. exact H. }
      rewrite L, iter_sub_app in I. apply app_inv_len in I; [|apply iter_sub_length].
      destruct I as [_ I]. cbn in I. congruence. }
    subst t'. exists suf. split; [reflexivity|].
    intros ->. pose proof (box_list_NoDup lo hi) as N. rewrite E in N.
    destruct (box_list_last lo hi HF) as (l & El).
    assert (Hin : In hi (update_sub hi lo hi :: suf)).
    { rewrite E in El.
      destruct (exists_last (l := update_sub hi lo hi :: suf) ltac:(discriminate)) as (q & z & Ez).
      rewrite Ez in *. change (pre ++ hi :: q ++ [z]) with (pre ++ (hi :: q) ++ [z]) in El.
      rewrite app_assoc in El. apply app_inj_tail in El as [_ ->]. apply in_app_iff. right. now left. }
    apply NoDup_remove_2 in N. apply N. apply in_app_iff. now right.
Qed.
