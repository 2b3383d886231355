(** Lemmas on the heap sort. *)
From Verif Require Import SpecSort MNb MHandle MSort LRadix LNb.
From Coq Require Import Permutation.

Section sort.
Context {A : Type} (key : A -> Z) (w : A -> A).

(** The elements the temporary variables do not change. *)
Definition kept (a : Z -> A) (n : Z) : Prop := forall i, 1 <= i <= n -> w (a i) = a i.

Lemma swp_l a i j : i <> j -> swp w a i j i = a j.
Proof. intros H. unfold swp. rewrite fset_other by lia. apply fset_same. Qed.
Lemma swp_r a i j : swp w a i j j = w (a i).
Proof. unfold swp. apply fset_same. Qed.
Lemma swp_o a i j k : k <> i -> k <> j -> swp w a i j k = a k.
Proof. intros H1 H2. unfold swp. rewrite !fset_other by lia. reflexivity. Qed.

Lemma content_split (a : Z -> A) n i : 1 <= i <= n -> content a n = map a (zseq 1 (Z.to_nat (i - 1))) ++ a i :: map a (zseq (i + 1) (Z.to_nat (n - i))).
Proof.
  intros I. unfold content. assert (forall m l k, zseq l (m + k) = zseq l m ++ zseq (l + Z.of_nat m) k) as SP.
  { induction m as [|m IH]; intros l k; [cbn [zseq Nat.add app]; f_equal; lia|]. cbn [zseq Nat.add app]. rewrite IH. do 2 f_equal. f_equal. lia. }
  replace (Z.to_nat n) with (Z.to_nat (i - 1) + S (Z.to_nat (n - i)))%nat by lia. rewrite SP, map_app. cbn [zseq map].
  replace (1 + Z.of_nat (Z.to_nat (i - 1))) with i by lia. reflexivity.
Qed.
Lemma content_ext (a b : Z -> A) n : (forall i, 1 <= i <= n -> a i = b i) -> content a n = content b n.
Proof. intros H. apply map_ext_in. intros i I. apply zseq_In in I. apply H. lia. Qed.
Lemma swp_perm_lt a n i j : 1 <= i -> i < j -> j <= n -> w (a i) = a i -> Permutation (content (swp w a i j) n) (content a n).
Proof.
  intros I J N W. rewrite (content_split (swp w a i j) n j), (content_split a n j) by lia.
  change (map (swp w a i j) (zseq 1 (Z.to_nat (j - 1)))) with (content (swp w a i j) (j - 1)). change (map a (zseq 1 (Z.to_nat (j - 1)))) with (content a (j - 1)).
  rewrite (content_split (swp w a i j) (j - 1) i), (content_split a (j - 1) i) by lia.
  assert (forall l m, (forall k, l <= k < l + Z.of_nat m -> k <> i /\ k <> j) -> map (swp w a i j) (zseq l m) = map a (zseq l m)) as E.
  { intros l m H. apply map_ext_in. intros k K. apply zseq_In in K. apply swp_o; apply H; lia. }
  rewrite !E by (intros k K; lia). rewrite swp_l by lia. rewrite swp_r, W.
  rewrite <- !app_assoc. cbn [app]. apply Permutation_app_head.
  set (m := map a (zseq (i + 1) (Z.to_nat (j - 1 - i)))). set (r := map a (zseq (j + 1) (Z.to_nat (n - j)))).
  apply perm_trans with (a j :: a i :: m ++ r).
  - apply perm_skip. apply Permutation_sym. apply Permutation_middle.
  - apply perm_trans with (a i :: a j :: m ++ r); [apply perm_swap|]. apply perm_skip. apply Permutation_middle.
Qed.
Lemma kept_perm (a b : Z -> A) n : Permutation (content b n) (content a n) -> kept a n -> kept b n.
Proof.
  intros P K i I. assert (In (b i) (content b n)) as IN by (apply in_map; apply zseq_In; lia).
  apply (Permutation_in _ P) in IN. apply in_map_iff in IN. destruct IN as (k & E & IK). apply zseq_In in IK. rewrite <- E. apply K. lia.
Qed.

(** In a heap no child has a larger key. *)
Definition node_ok (a : Z -> A) (hi i : Z) : Prop :=
  (2 * i <= hi -> key (a (2 * i)) <= key (a i)) /\ (2 * i + 1 <= hi -> key (a (2 * i + 1)) <= key (a i)).
Definition heap_from (a : Z -> A) (k hi : Z) : Prop := forall i, k <= i -> node_ok a hi i.

Lemma sift_spec hi : forall fuel a g k, 1 <= k <= g -> hi - g < Z.of_nat fuel -> 
  kept a hi ->
  (forall i, k <= i -> i <> g -> node_ok a hi i) ->
  (forall i, k <= i -> 2 * i = g \/ 2 * i + 1 = g -> (2 * g <= hi -> key (a (2 * g)) <= key (a i)) /\ (2 * g + 1 <= hi -> key (a (2 * g + 1)) <= key (a i))) ->
  let b := sift key w fuel a g hi in
  heap_from b k hi /\ Permutation (content b hi) (content a hi) /\ (forall i, i < g \/ hi < i -> b i = a i).
Proof.
  induction fuel as [|f IH]; intros a g k K F KE H1 H2; cbn [sift].
  - split; [|split; [apply Permutation_refl|auto]]. intros i I. destruct (Z.eq_dec i g) as [->|NE]; [|apply H1; assumption]. split; lia.
  - destruct (Z.leb_spec (g + g) hi) as [Q|Q].
    2: { split; [|split; [apply Permutation_refl|auto]]. intros i I. destruct (Z.eq_dec i g) as [->|NE]; [|apply H1; assumption]. split; lia. }
    set (q := if negb (g + g =? hi) && (key (a (g + g)) <? key (a (g + g + 1))) then g + g + 1 else g + g).
    assert ((q = 2 * g \/ q = 2 * g + 1) /\ q <= hi /\ (2 * g <= hi -> key (a (2 * g)) <= key (a q)) /\ (2 * g + 1 <= hi -> key (a (2 * g + 1)) <= key (a q))) as (Q1 & Q2 & Q3 & Q4).
    { unfold q. replace (g + g) with (2 * g) in * by lia. destruct (Z.eqb_spec (2 * g) hi) as [E|E]; cbn [negb andb]; [repeat split; try lia|].
      destruct (Z.ltb_spec (key (a (2 * g))) (key (a (2 * g + 1)))); repeat split; lia. }
    clearbody q.
    destruct (Z.leb_spec (key (a q)) (key (a g))) as [C|C].
    + split; [|split; [apply Permutation_refl|auto]]. intros i I. destruct (Z.eq_dec i g) as [->|NE]; [|apply H1; assumption].
      split; intros L; [specialize (Q3 L)|specialize (Q4 L)]; lia.
    + assert (g < q) as GQ by lia.
      pose proof (swp_perm_lt a hi g q ltac:(lia) GQ Q2 (KE g ltac:(lia))) as SP.
      destruct (IH (swp w a g q) q k) as (B1 & B2 & B3); try lia.
      * apply (kept_perm a); assumption.
      * intros i I NE. destruct (Z.eq_dec i g) as [->|NG].
        -- unfold node_ok. rewrite swp_l by lia.
           assert (forall c, (c = 2 * g \/ c = 2 * g + 1) -> c <= hi -> key (swp w a g q c) <= key (a q)) as CH.
           { intros c C1 C2. destruct (Z.eq_dec c q) as [->|NC]; [rewrite swp_r, (KE g ltac:(lia)); lia|]. rewrite swp_o by lia.
             destruct C1 as [->| ->]; [apply Q3|apply Q4]; assumption. }
           split; intros L; apply CH; auto.
        -- destruct (H1 i I NG) as [N1 N2]. unfold node_ok. rewrite (swp_o a g q i) by assumption.
           assert (forall c, (c = 2 * i \/ c = 2 * i + 1) -> c <= hi -> key (swp w a g q c) <= key (a i)) as CH.
           { intros c C1 C2. destruct (Z.eq_dec c q) as [->|NC]; [lia|]. destruct (Z.eq_dec c g) as [->|NCG].
             - rewrite swp_l by lia. destruct (H2 i I ltac:(lia)) as [P1 P2]. destruct Q1 as [->| ->]; [apply P1|apply P2]; lia.
             - rewrite swp_o by assumption. destruct C1 as [->| ->]; [apply N1|apply N2]; assumption. }
           split; intros L; apply CH; auto.
      * intros i I C1. assert (i = g) as -> by lia. rewrite swp_l by lia. destruct (H1 q ltac:(lia) ltac:(lia)) as [N1 N2].
        split; intros L; rewrite swp_o by lia; [apply N1|apply N2]; exact L.
      * split; [exact B1|]. split; [apply perm_trans with (content (swp w a g q) hi); [exact B2|exact SP]|].
        intros i I. rewrite B3 by lia. apply swp_o; lia.
Qed.
Lemma heapify_spec hi : forall fuel a gap, 1 <= gap -> gap < Z.of_nat fuel + 1 -> kept a hi -> heap_from a (gap + 1) hi ->
  let b := heapify key w fuel a gap hi in
  heap_from b 2 hi /\ Permutation (content b hi) (content a hi) /\ (forall i, i < 1 \/ hi < i -> b i = a i).
Proof.
  induction fuel as [|f IH]; intros a gap G F KE H; [lia|]. cbn [heapify]. destruct (Z.eqb_spec gap 1) as [->|NE].
  - split; [exact H|]. split; [apply Permutation_refl|auto].
  - destruct (sift_spec hi (Z.to_nat hi) a gap gap) as (B1 & B2 & B3); try lia; auto.
    + intros i I NI. apply H. lia.
    + destruct (IH (sift key w (Z.to_nat hi) a gap hi) (gap - 1)) as (C1 & C2 & C3); try lia.
      * apply (kept_perm a); assumption.
      * replace (gap - 1 + 1) with gap by lia. exact B1.
      * split; [exact C1|]. split; [apply perm_trans with (content (sift key w (Z.to_nat hi) a gap hi) hi); assumption|].
        intros i I. rewrite C3 by exact I. apply B3. lia.
Qed.
Lemma heap_max a hi : heap_from a 1 hi -> forall i, 1 <= i <= hi -> key (a i) <= key (a 1).
Proof.
  intros H i. assert (forall m i, i <= Z.of_nat m -> 1 <= i <= hi -> key (a i) <= key (a 1)) as G; [|apply (G (Z.to_nat i)); lia].
  induction m as [|m IH]; intros j J I; [lia|]. destruct (Z.eq_dec j 1) as [->|NE]; [lia|].
  pose proof (Z.div_mod j 2 ltac:(lia)). pose proof (Z.mod_pos_bound j 2 ltac:(lia)).
  specialize (IH (j / 2) ltac:(lia) ltac:(lia)). destruct (H (j / 2) ltac:(lia)) as [N1 N2].
  destruct (Z.eq_dec (j mod 2) 0) as [E|E].
  - replace (2 * (j / 2)) with j in N1 by lia. specialize (N1 ltac:(lia)). lia.
  - replace (2 * (j / 2) + 1) with j in N2 by lia. specialize (N2 ltac:(lia)). lia.
Qed.
Lemma content_grow (a b : Z -> A) m n : m <= n -> Permutation (content b m) (content a m) -> (forall i, m < i -> b i = a i) -> Permutation (content b n) (content a n).
Proof.
  intros MN P E. destruct (Z_le_dec 0 m) as [M0|M0].
  - assert (forall c : Z -> A, content c n = content c m ++ map c (zseq (m + 1) (Z.to_nat (n - m)))) as SP.
    { intros c. unfold content. replace (Z.to_nat n) with (Z.to_nat m + Z.to_nat (n - m))%nat by lia.
      assert (forall k l j, zseq l (k + j) = zseq l k ++ zseq (l + Z.of_nat k) j) as Q.
      { induction k as [|k IH]; intros l j; [cbn [zseq Nat.add app]; f_equal; lia|]. cbn [zseq Nat.add app]. rewrite IH. do 2 f_equal. f_equal. lia. }
      rewrite Q, map_app. do 3 f_equal. lia. }
    rewrite !SP. apply Permutation_app; [exact P|]. erewrite map_ext_in; [apply Permutation_refl|]. intros i I. apply zseq_In in I. apply E. lia.
  - erewrite content_ext; [apply Permutation_refl|]. intros i I. apply E. lia.
Qed.
Lemma drain_spec n : forall fuel a hi, 1 <= hi <= n -> hi < Z.of_nat fuel + 1 -> kept a n -> heap_from a 2 hi ->
  sorted_by key a (hi + 1) n -> (forall i j, 1 <= i <= hi -> hi < j <= n -> key (a i) <= key (a j)) ->
  let b := drain key w fuel a hi in
  sorted_by key b 1 n /\ Permutation (content b n) (content a n) /\ (forall i, i < 1 \/ n < i -> b i = a i).
Proof.
  induction fuel as [|f IH]; intros a hi H F KE HP SO BD; [lia|]. cbn [drain]. destruct (Z.eqb_spec hi 1) as [->|NE].
  - split; [|split; [apply Permutation_refl|auto]]. intros i j I IJ J. destruct (Z.eq_dec i 1) as [->|N1]; [|apply SO; lia].
    destruct (Z.eq_dec j 1) as [->|]; [lia|]. apply BD; lia.
  - destruct (sift_spec hi (Z.to_nat hi) a 1 1) as (B1 & B2 & B3); try lia.
    { intros i I. apply KE. lia. }
    { intros i I NI. apply HP. lia. }
    set (s := sift key w (Z.to_nat hi) a 1 hi) in *. clearbody s.
    assert (Permutation (content s n) (content a n)) as PS by (apply (content_grow a s hi n); [lia|exact B2|intros i I; apply B3; lia]).
    assert (kept s n) as KS by (apply (kept_perm a); assumption).
    pose proof (swp_perm_lt s n 1 hi ltac:(lia) ltac:(lia) ltac:(lia) (KS 1 ltac:(lia))) as PW.
    assert (forall i, 1 <= i <= hi -> exists k, 1 <= k <= hi /\ s i = a k) as FROM.
    { intros i I. assert (In (s i) (content s hi)) as IN by (apply in_map; apply zseq_In; lia). apply (Permutation_in _ B2) in IN.
      apply in_map_iff in IN. destruct IN as (k & E & IK). apply zseq_In in IK. exists k. split; [lia|auto]. }
    pose proof (heap_max s hi B1) as MX.
    destruct (IH (swp w s 1 hi) (hi - 1)) as (C1 & C2 & C3); try lia.
    + apply (kept_perm s); assumption.
    + intros i I. destruct (B1 i ltac:(lia)) as [N1 N2]. split; intros L; rewrite !swp_o by lia; [apply N1|apply N2]; lia.
    + replace (hi - 1 + 1) with hi by lia. intros i j I IJ J. destruct (Z.eq_dec i hi) as [->|NI].
      * rewrite swp_r, (KS 1 ltac:(lia)). destruct (Z.eq_dec j hi) as [->|NJ]; [rewrite swp_r, (KS 1 ltac:(lia)); lia|].
        rewrite swp_o by lia. rewrite (B3 j) by lia. destruct (FROM 1 ltac:(lia)) as (k & K & ->). apply BD; lia.
      * rewrite !swp_o by lia. rewrite !B3 by lia. apply SO; lia.
    + intros i j I J. assert (exists k, 1 <= k <= hi /\ swp w s 1 hi i = s k) as (k & K & ->).
      { destruct (Z.eq_dec i 1) as [->|NI]; [exists hi; split; [lia|apply swp_l; lia]|]. exists i. split; [lia|]. apply swp_o; lia. }
      destruct (Z.eq_dec j hi) as [->|NJ]; [rewrite swp_r, (KS 1 ltac:(lia)); apply MX; lia|].
      rewrite swp_o by lia. rewrite (B3 j) by lia. destruct (FROM k K) as (k' & K' & ->). apply BD; lia.
    + split; [exact C1|]. split; [apply perm_trans with (content (swp w s 1 hi) n); [exact C2|]; apply perm_trans with (content s n); assumption|].
      intros i I. rewrite C3 by exact I. rewrite swp_o by lia. apply B3. lia.
Qed.
Theorem index_sort_spec a n : kept a n -> let b := index_sort key w a n in
  sorted_by key b 1 n /\ Permutation (content b n) (content a n) /\ (forall i, i < 1 \/ n < i -> b i = a i).
Proof.
  intros KE. unfold index_sort. destruct (Z.ltb_spec n 2) as [L|L].
  - split; [|split; [apply Permutation_refl|auto]]. intros i j I IJ J. assert (i = j) as -> by lia. lia.
  - pose proof (Z.div_mod n 2 ltac:(lia)). pose proof (Z.mod_pos_bound n 2 ltac:(lia)).
    assert ((if n mod 2 =? 1 then n / 2 + n / 2 + 1 else n / 2 + n / 2) = n) as -> by (destruct (Z.eqb_spec (n mod 2) 1); lia).
    destruct (heapify_spec n (Z.to_nat n) a (n / 2)) as (B1 & B2 & B3); try lia; auto.
    { intros i I. split; lia. }
    destruct (drain_spec n (Z.to_nat n) (heapify key w (Z.to_nat n) a (n / 2) n) n) as (C1 & C2 & C3); try lia; auto.
    { apply (kept_perm a); assumption. }
    { intros i j I IJ J. lia. }
    split; [exact C1|]. split; [apply perm_trans with (content (heapify key w (Z.to_nat n) a (n / 2) n) n); assumption|].
    intros i I. rewrite C3 by exact I. apply B3. exact I.
Qed.
End sort.

Section groups.
Context {V : Type} (a : Z -> entry V) (n : Z).

Lemma run_len_spec proc : forall fuel k, 0 <= run_len a proc fuel k <= Z.of_nat fuel /\
  (forall i, k <= i < k + run_len a proc fuel k -> e_proc (a i) = proc) /\
  (run_len a proc fuel k < Z.of_nat fuel -> e_proc (a (k + run_len a proc fuel k)) <> proc).
Proof.
  induction fuel as [|f IH]; intros k; cbn [run_len]; [repeat split; try lia; intros i I; lia|].
  destruct (Z.eqb_spec proc (e_proc (a k))) as [E|E].
  - destruct (IH (k + 1)) as (H1 & H2 & H3). repeat split; try lia.
    + intros i I. destruct (Z.eq_dec i k) as [->|]; [congruence|]. apply H2. lia.
    + intros L. replace (k + (1 + run_len a proc f (k + 1))) with (k + 1 + run_len a proc f (k + 1)) by lia. apply H3. lia.
  - repeat split; try lia. intros _. rewrite Z.add_0_r. congruence.
Qed.
Lemma groups_spec : sorted_by e_proc a 1 n -> forall fuel first, 1 <= first <= n + 1 -> n - first + 1 <= Z.of_nat fuel ->
  let gs := groups a n fuel first in
  concat (map snd gs) = map a (zseq first (Z.to_nat (n - first + 1))) /\
  Forall (fun g => snd g <> [] /\ Forall (fun e => e_proc e = fst g) (snd g) /\ e_proc (a first) <= fst g) gs /\
  NoDup (map fst gs).
Proof.
  intros SO. induction fuel as [|f IH]; intros first F L; cbn [groups].
  - replace (Z.to_nat (n - first + 1)) with O by lia. repeat split; constructor.
  - destruct (Z.leb_spec first n) as [C|C]; [|replace (Z.to_nat (n - first + 1)) with O by lia; repeat split; constructor].
    set (proc := e_proc (a first)). destruct (run_len_spec proc (Z.to_nat (n - first + 1)) first) as (R1 & R2 & R3).
    assert (1 <= run_len a proc (Z.to_nat (n - first + 1)) first) as R0.
    { destruct (Z_lt_dec (run_len a proc (Z.to_nat (n - first + 1)) first) 1) as [LT|]; [|lia].
      assert (run_len a proc (Z.to_nat (n - first + 1)) first = 0) as E by lia. rewrite E in R3. exfalso. apply R3; [lia|]. rewrite Z.add_0_r. reflexivity. }
    set (m := run_len a proc (Z.to_nat (n - first + 1)) first) in *. clearbody m.
    destruct (IH (first + m)) as (G1 & G2 & G3); try lia. cbn [map concat fst snd]. split; [|split].
    + rewrite G1, <- map_app. f_equal. replace (Z.to_nat (n - first + 1)) with (Z.to_nat m + Z.to_nat (n - (first + m) + 1))%nat by lia.
      assert (forall k l j, zseq l (k + j) = zseq l k ++ zseq (l + Z.of_nat k) j) as Q.
      { induction k as [|k IK]; intros l j; [cbn [zseq Nat.add app]; f_equal; lia|]. cbn [zseq Nat.add app]. rewrite IK. do 2 f_equal. f_equal. lia. }
      rewrite Q. do 2 f_equal. lia.
    + constructor.
      * split; [|split; [|cbn; unfold proc; lia]].
        -- replace (Z.to_nat m) with (S (Z.to_nat (m - 1))) by lia. discriminate.
        -- apply Forall_forall. intros e E. apply in_map_iff in E. destruct E as (i & <- & I). apply zseq_In in I. apply R2. lia.
      * destruct (Z_le_dec (first + m) n) as [M|M].
        -- eapply Forall_impl; [|exact G2]. intros g (A1 & A2 & A3). split; [exact A1|]. split; [exact A2|]. specialize (SO first (first + m) ltac:(lia) ltac:(lia) ltac:(lia)). lia.
        -- replace (groups a n f (first + m)) with (@nil (Z * list (entry V))); [constructor|]. destruct f; cbn [groups]; [reflexivity|].
           destruct (Z.leb_spec (first + m) n); [lia|reflexivity].
    + constructor; [|exact G3]. intros IN. apply in_map_iff in IN. destruct IN as (g & E & IG).
      destruct (Z_le_dec (first + m) n) as [M|M].
      * rewrite Forall_forall in G2. destruct (G2 g IG) as (_ & _ & A3). specialize (SO first (first + m) ltac:(lia) ltac:(lia) ltac:(lia)).
        assert (e_proc (a (first + m)) <> proc) as NE by (apply R3; lia). unfold proc in *. lia.
      * destruct f; cbn [groups] in IG; [destruct IG|]. destruct (Z.leb_spec (first + m) n); [lia|destruct IG].
Qed.
End groups.
