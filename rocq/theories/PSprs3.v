(** Property theorems: the product of two sparse matrices (C99). *)
From Verif Require Import SpecSprs MBase MNb MHandle MGroup MSparse MSprs SpecSprs3 MSprs3 LNb LDist LRadix LStore LIterBlk LTile LNotify LSprs LSprs2 LSprs3 LSprs4 LSprs5 PSprs LSprs6 LSprs7 LSprs8 LSprs9.
From Coq Require Import Permutation.
Open Scope Z_scope.

Lemma gather_choose {A B C} (f : A -> out (list B)) (Q : Z -> B -> C -> Prop) : forall l z,
  (forall k a, nth_error l k = Some a -> exists c s, f a = Done [s] /\ Q (z + Z.of_nat k) s c) ->
  exists ss cs, gather f l = Done ss /\ length ss = length l /\ length cs = length l /\
    forall k s c, nth_error ss k = Some s -> nth_error cs k = Some c -> Q (z + Z.of_nat k) s c.
Proof.
  induction l as [|a l IH]; intros z H.
  - exists [], []. split; [reflexivity|]. split; [reflexivity|]. split; [reflexivity|]. intros [|k] s c E; discriminate E.
  - destruct (H O a eq_refl) as (c & s & E & Q0). destruct (IH (z + 1)) as (ss & cs & E1 & L1 & L2 & Q1).
    + intros k b Eb. destruct (H (S k) b Eb) as (c' & s' & E' & Q'). exists c', s'. split; [exact E'|]. replace (z + 1 + Z.of_nat k) with (z + Z.of_nat (S k)) by lia. exact Q'.
    + exists (s :: ss), (c :: cs). cbn [gather length]. rewrite E, E1. split; [reflexivity|]. split; [lia|]. split; [lia|]. intros [|k] s' c' Es Ec; cbn in Es, Ec.
      * injection Es as <-. injection Ec as <-. exact Q0.
      * replace (z + Z.of_nat (S k)) with (z + 1 + Z.of_nat k) by lia. apply Q1; assumption.
Qed.
Section Concat.
Context {A : Type} (key : A -> Z).
Definition keyed (z : Z) (cs : list (list A)) : Prop := forall k c, nth_error cs k = Some c -> Forall (fun e => key e = z + Z.of_nat k) c.
Lemma keyed_tail z c cs : keyed z (c :: cs) -> keyed (z + 1) cs.
Proof. intros H k c' E. replace (z + 1 + Z.of_nat k) with (z + Z.of_nat (S k)) by lia. apply (H (S k) c' E). Qed.
Lemma keyed_low z cs : keyed z cs -> Forall (fun e => z <= key e) (concat cs).
Proof.
  revert z. induction cs as [|c cs IH]; intros z H; [constructor|]. cbn [concat]. apply Forall_app. split.
  - eapply Forall_impl; [|apply (H O c eq_refl)]. cbn. intros e E. lia.
  - eapply Forall_impl; [|apply (IH (z + 1)); apply (keyed_tail _ _ _ H)]. cbn. intros e E. lia.
Qed.
Lemma filter_all_eq (P : A -> bool) l : Forall (fun e => P e = true) l -> filter P l = l.
Proof. induction 1 as [|e l E F IH]; [reflexivity|]. cbn [filter]. rewrite E, IH. reflexivity. Qed.
Lemma filter_none_eq (P : A -> bool) l : Forall (fun e => P e = false) l -> filter P l = [].
Proof. induction 1 as [|e l E F IH]; [reflexivity|]. cbn [filter]. rewrite E. exact IH. Qed.
Lemma keyed_filter : forall cs z k c, keyed z cs -> nth_error cs k = Some c -> filter (fun e => key e =? z + Z.of_nat k) (concat cs) = c.
Proof.
  induction cs as [|c0 cs IH]; intros z k c H E; [destruct k; discriminate E|]. cbn [concat]. rewrite filter_app. pose proof (H O c0 eq_refl) as H0. pose proof (keyed_tail _ _ _ H) as HT. destruct k as [|k]; cbn in E.
  - injection E as <-. rewrite filter_all_eq by (eapply Forall_impl; [|exact H0]; cbn; intros e X; lia).
    rewrite filter_none_eq; [apply app_nil_r|]. eapply Forall_impl; [|apply (keyed_low _ _ HT)]. cbn. intros e X. lia.
  - rewrite filter_none_eq by (eapply Forall_impl; [|exact H0]; cbn; intros e X; lia). cbn [app]. replace (z + Z.of_nat (S k)) with (z + 1 + Z.of_nat k) by lia. apply (IH (z + 1) k c HT E).
Qed.
Lemma keyed_NoDup {B} (f : A -> B) : (forall e e', f e = f e' -> key e = key e') -> forall cs z, keyed z cs -> Forall (fun c => NoDup (map f c)) cs -> NoDup (map f (concat cs)).
Proof.
  intros FK. induction cs as [|c cs IH]; intros z H F; [constructor|]. inversion F as [|? ? F1 F2]; subst. cbn [concat]. rewrite map_app. pose proof (keyed_tail _ _ _ H) as HT. specialize (IH _ HT F2).
  pose proof (H O c eq_refl) as H0. pose proof (keyed_low _ _ HT) as HL. rewrite Forall_forall in H0, HL. clear F.
  assert (D : forall b, In b (map f c) -> ~ In b (map f (concat cs))).
  { intros b I I'. apply in_map_iff in I. destruct I as (e & <- & I). apply in_map_iff in I'. destruct I' as (e' & E & I'). specialize (FK _ _ E). specialize (H0 e I). specialize (HL e' I'). lia. }
  clear H0. revert D F1. generalize (map f c). intros l D N. induction N as [|b l N1 N2 IHl]; [exact IH|]. cbn [app]. constructor.
  - rewrite in_app_iff. intros [I|I]; [contradiction|]. apply (D b); [left; reflexivity|exact I].
  - apply IHl. intros b' I. apply D. right. exact I.
Qed.
End Concat.
Lemma block_row_values {V} (s : sprs V) c i x r : block_row s c i = Done (x :: r) -> s_v s <> [].
Proof.
  unfold block_row, access_col_block. destruct (find_block _ _ _) as [k|]; [|discriminate]. destruct (rdl (s_off s) k) as [off| |]; try discriminate. unfold read_row. cbn [v_i v_j v_v].
  destruct (rdl (s_i s) _) as [a| |]; try discriminate. destruct (rdl (s_i s) _) as [b| |]; try discriminate. destruct (Z.to_nat (b - a)) as [|m]; [discriminate|]. cbn [zseq collect].
  destruct (rdl (s_j s) _) as [j| |]; try discriminate. destruct (rdl (s_v s) _) as [y| |] eqn:E; try discriminate. intros _ Z0. rewrite Z0 in E. unfold rdl in E. destruct (0 <=? _); [|discriminate]. destruct (Z.to_nat _); discriminate.
Qed.
Lemma zsum_least {A} (f : A -> Z) l : (forall a, In a l -> 1 <= f a) -> zlen l <= zsum (map f l).
Proof.
  induction l as [|a l IH]; intros H; [unfold zlen; cbn; lia|]. cbn [map zsum]. specialize (IH ltac:(intros b I; apply H; right; exact I)). pose proof (H a (or_introl eq_refl)). unfold zlen in *. cbn [length]. lia.
Qed.

(** * C99: the product of two sparse matrices *)
Theorem C99_partial : forall V (add mul : V -> V -> V) (zero : V) n ia ja jb (la lb : list (elt V)) ssa ssb,
  addition add zero -> 1 <= n <= ia -> n <= ja -> 1 <= jb -> Forall (inside ia ja) la -> Forall (inside ja jb) lb ->
  represents n ia ja la ssa -> represents n ja jb lb ssb ->
  (forall p, 0 <= p < n -> exists a b, In a la /\ In b lb /\ ecol a = erow b /\ in_part n ia p (erow a)) ->
  exists lc ssc, matmat false n jb add mul ja ja ssa ssb = Done ssc /\ represents n ia jb lc ssc /\ is_product add mul zero la lb lc.
Proof.
  intros V add mul zero n ia ja jb la lb ssa ssb AD NI NJ NB INA INB RA RB U. pose proof (Nat.le_refl 2) as FU.
  unfold matmat. rewrite Z.eqb_refl. cbn [negb].
  destruct (max_nnz_ok n ia ja la ssa NI ltac:(lia) INA RA) as (ma & EMA & MA). destruct (max_nnz_ok n ja jb lb ssb ltac:(lia) NB INB RB) as (mb & EMB & MB). rewrite EMA, EMB.
  set (Q := fun (p : Z) (s : sprs V) (es : list (elt V)) => arrange 2 n ia jb p es = Done s /\ es <> [] /\ NoDup (map fst es) /\
    forall i j v, In (i, j, v) es <-> owner n ia i = p /\ products mul la lb i j <> [] /\ v = lsum add zero (products mul la lb i j)).
  destruct (gather_choose (fun sa => try s <- matmat1 false n jb add mul ma mb ssb sa; Done [s]) Q ssa 0) as (ss & cs & E & L1 & L2 & QQ).
  { intros k sa Ek. assert (LS : length ssa = Z.to_nat n) by apply RA. assert (k < length ssa)%nat by (apply nth_error_Some; congruence).
    destruct (one_ok 2 n ia ja jb add mul zero la lb ssa ssb FU AD NI NJ NB INA INB RA RB ma mb MA MB (Z.of_nat k) sa) as (es & s & E1 & H1).
    { lia. } { rewrite Nat2Z.id. exact Ek. }
    { destruct (U (Z.of_nat k) ltac:(lia)) as (a & b & Ia & Ib & Eab & Pa). exists a, b. split; [exact Ia|]. split; [exact Ib|]. split; [exact Eab|]. rewrite Forall_forall in INA. destruct (INA a Ia) as [Ra _]. apply owner_part; [lia|lia|lia|exact Pa]. }
    exists es, s. rewrite E1. split; [reflexivity|exact H1]. }
  rewrite E. assert (LS : length ssa = Z.to_nat n) by apply RA.
  set (lc := concat cs).
  assert (NC : forall k c, nth_error cs k = Some c -> exists s, nth_error ss k = Some s /\ Q (Z.of_nat k) s c).
  { intros k c Ec. assert (k < length cs)%nat by (apply nth_error_Some; congruence). destruct (nth_error ss k) as [s|] eqn:Es; [|apply nth_error_None in Es; lia]. exists s. split; [reflexivity|]. apply (QQ k s c Es Ec). }
  assert (CH : forall i j v, In (i, j, v) lc <-> products mul la lb i j <> [] /\ v = lsum add zero (products mul la lb i j)).
  { intros i j v. unfold lc. rewrite in_concat. split.
    - intros (c & Ic & I). apply In_nth_error in Ic. destruct Ic as (k & Ek). destruct (NC k c Ek) as (s & _ & _ & _ & _ & H). apply H in I. apply I.
    - intros [NP Ev]. destruct (products_row mul la lb i j NP) as (a & b & Ia & Ib & Ra & _ & _). rewrite Forall_forall in INA. destruct (INA a Ia) as [Rr _]. rewrite Ra in Rr.
      pose proof (owner_range n ia i ltac:(lia) ltac:(lia) Rr) as O. destruct (nth_of cs n (owner n ia i) ltac:(lia) O) as (c & Ec). exists c. split; [apply (nth_error_In _ _ Ec)|].
      destruct (NC _ c Ec) as (s & _ & _ & _ & _ & H). apply H. rewrite Z2Nat.id by lia. split; [reflexivity|]. split; assumption. }
  assert (KY : keyed (fun e : elt V => owner n ia (erow e)) 0 cs).
  { intros k c Ec. destruct (NC k c Ec) as (s & _ & _ & _ & _ & H). apply Forall_forall. intros [[i j] v] I. apply H in I. apply I. }
  assert (INC : Forall (inside ia jb) lc).
  { apply Forall_forall. intros [[i j] v] I. apply CH in I. destruct I as [NP _]. destruct (products_row mul la lb i j NP) as (a & b & Ia & Ib & <- & <- & _). rewrite Forall_forall in INA, INB. destruct (INA a Ia), (INB b Ib). split; assumption. }
  assert (ND : NoDup (map fst lc)).
  { apply (keyed_NoDup (fun e : elt V => owner n ia (erow e)) fst) with (z := 0); [intros e e' X; unfold erow; rewrite X; reflexivity|exact KY|]. apply Forall_forall. intros c Ic. apply In_nth_error in Ic. destruct Ic as (k & Ek). destruct (NC k c Ek) as (s & _ & _ & _ & N & _). exact N. }
  assert (RC : represents n ia jb lc ss).
  { split; [lia|]. intros p s P Es. destruct (nth_of cs n p ltac:(lia) P) as (c & Ec). pose proof (QQ _ _ _ Es Ec) as (EA & NE & _). rewrite Z2Nat.id in EA by lia. rewrite Z.add_0_l in EA.
    apply (arranged_part 2 n ia jb lc c p s FU NI NB INC P); [|exact EA]. pose proof (keyed_filter _ cs 0 _ c KY Ec) as F. rewrite Z2Nat.id in F by lia. rewrite Z.add_0_l in F. unfold lc. rewrite F. apply Permutation_refl. }
  assert (BIG : forall s, In s ss -> 1 <= (s_ihi s - s_ilo s + 1 + 1) * Z.of_nat (length (s_blk s)) /\ 1 <= Z.of_nat (length (s_v s))).
  { intros s Is. destruct (in_nth ss n s ltac:(lia) Is) as (p & P & Es). destruct (nth_of cs n p ltac:(lia) P) as (c & Ec). pose proof (QQ _ _ _ Es Ec) as (_ & NE & _ & H). rewrite Z2Nat.id in H by lia. rewrite Z.add_0_l in H.
    destruct RC as [_ R]. destruct (R p s P Es) as (L & HI & RNG & BL & _ & ROW). destruct c as [|[[i j] v] c]; [contradiction|]. assert (I : In (i, j, v) ((i, j, v) :: c)) by (left; reflexivity). pose proof I as I0. apply H in I. destruct I as (O & NP & Ev).
    assert (IL : In (i, j, v) lc) by (apply CH; split; assumption). rewrite Forall_forall in INC. destruct (INC _ IL) as [Hr Hc]. change (erow (i, j, v)) with i in Hr. change (ecol (i, j, v)) with j in Hc.
    pose proof (owner_range n jb j ltac:(lia) NB Hc) as OJ. apply owner_part in O; [|lia|lia|lia].
    assert (PJ : in_part n jb (owner n jb j) j) by (apply owner_part; [lia|lia|lia|reflexivity]).
    assert (B : In (owner n jb j) (s_blk s)) by (apply BL; split; [exact OJ|]; exists (i, j, v); split; [exact IL|split; assumption]).
    split; [destruct (s_blk s); [destruct B|]; cbn [length]; nia|].
    destruct (ROW (owner n jb j) i OJ ltac:(apply RNG; assumption)) as (r & Er & Pr). assert (IR : In (j, v) r).
    { apply (Permutation_in _ (Permutation_sym Pr)). unfold row_part. apply in_map_iff. exists (i, j, v). split; [reflexivity|]. apply filter_In. split; [exact IL|]. change (erow (i, j, v)) with i. change (ecol (i, j, v)) with j. rewrite Z.eqb_refl. apply in_partb_spec. exact PJ. }
    destruct r as [|x r]; [destruct IR|]. apply block_row_values in Er. destruct (s_v s); [contradiction|]. cbn [length]. lia. }
  pose proof (zsum_least (fun s : sprs V => (s_ihi s - s_ilo s + 1 + 1) * Z.of_nat (length (s_blk s))) ss ltac:(intros s I; apply (BIG s I))) as Z1.
  pose proof (zsum_least (fun s : sprs V => Z.of_nat (length (s_v s))) ss ltac:(intros s I; apply (BIG s I))) as Z2.
  unfold zlen in Z1, Z2. exists lc, ss.
  replace (zsum (map (fun s => (s_ihi s - s_ilo s + 1 + 1) * Z.of_nat (length (s_blk s))) ss) <? n) with false by lia.
  replace (zsum (map (fun s => Z.of_nat (length (s_v s))) ss) <? n) with false by lia.
  split; [reflexivity|]. split; [exact RC|]. split; [exact ND|exact CH].
Qed.
(** Two processes, 3 x 4 and 4 x 2. *)
Definition ex_b (q : Z) : list (elt Z) := if q =? 0 then [(0, 0, 1); (3, 1, 2)] else [(2, 0, 3); (0, 1, 6)].
Lemma ex_b_inside q : 0 <= q < 2 -> Forall (inside 4 2) (ex_b q).
Proof. intros Q. unfold ex_b. destruct (q =? 0); repeat constructor; cbn; lia. Qed.
Lemma ex_b_used : rows_used 2 4 (all_elts 2 ex_b).
Proof.
  intros p P. assert (D : p = 0 \/ p = 1) by lia. destruct D as [->| ->].
  - exists (0, 0, 1). split; [left; reflexivity|]. unfold in_part. cbn. lia.
  - exists (3, 1, 2). split; [right; left; reflexivity|]. unfold in_part. cbn. lia.
Qed.
Example C99_ex : exists ssa ssb, represents 2 3 4 (all_elts 2 ex_els) ssa /\ represents 2 4 2 (all_elts 2 ex_b) ssb /\
  (forall p, 0 <= p < 2 -> exists a b, In a (all_elts 2 ex_els) /\ In b (all_elts 2 ex_b) /\ ecol a = erow b /\ in_part 2 3 p (erow a)) /\
  exists s t, matmat false 2 2 Z.add Z.mul 4 4 ssa ssb = Done [s; t] /\ block_row s 0 0 = Done [(0, 5)] /\ block_row s 1 0 = Done [(1, 34)] /\
    block_row s 0 1 = Done [(0, 3)] /\ block_row s 1 1 = Done [] /\ block_row t 0 2 = Done [(0, 4)] /\ block_row t 1 2 = Done [(1, 58)].
Proof.
  destruct (C95_partial Z 2 2 3 4 ex_els ex_o ex_o) as (ssa & EA & RA); [lia|lia|lia|exact ex_pairs|exact ex_pairs|exact ex_inside|exact ex_used|].
  destruct (C95_partial Z 2 2 4 2 ex_b ex_o ex_o) as (ssb & EB & RB); [lia|lia|lia|exact ex_pairs|exact ex_pairs|exact ex_b_inside|exact ex_b_used|].
  exists ssa, ssb. split; [exact RA|]. split; [exact RB|]. split.
  - intros p P. assert (D : p = 0 \/ p = 1) by lia. destruct D as [->| ->].
    + exists (0, 0, 5), (0, 0, 1). split; [left; reflexivity|]. split; [left; reflexivity|]. split; [reflexivity|]. unfold in_part. cbn. lia.
    + exists (2, 3, 7), (3, 1, 2). split; [right; left; reflexivity|]. split; [right; left; reflexivity|]. split; [reflexivity|]. unfold in_part. cbn. lia.
  - vm_compute in EA. injection EA as <-. vm_compute in EB. injection EB as <-. eexists. eexists. split; [vm_compute; reflexivity|]. repeat split; vm_compute; reflexivity.
Qed.
(** Indices of the size of int are used as if they were of the size of Integer. *)
Theorem C99_int_refuted : exists (la lb : list (elt Z)) ssa ssb, Forall (inside 1 1) la /\ Forall (inside 1 1) lb /\ represents 1 1 1 la ssa /\ represents 1 1 1 lb ssb /\
  (forall p, 0 <= p < 1 -> exists a b, In a la /\ In b lb /\ ecol a = erow b /\ in_part 1 1 p (erow a)) /\
  matmat true 1 1 Z.add Z.mul 1 1 ssa ssb = Undef.
Proof.
  assert (AP : all_pairs 1 [(0, 0)]) by (unfold all_pairs; apply Permutation_refl).
  assert (I : forall q, 0 <= q < 1 -> Forall (inside 1 1) [(0, 0, 2)]) by (intros q _; repeat constructor; cbn; lia).
  destruct (C95_partial Z 2 1 1 1 (fun _ => [(0, 0, 2)]) [(0, 0)] [(0, 0)]) as (ss & E & R); [lia|lia|lia|exact AP|exact AP|exact I| |].
  { intros p P. exists (0, 0, 2). split; [left; reflexivity|]. unfold in_part. cbn. lia. }
  exists [(0, 0, 2)], [(0, 0, 2)], ss, ss. split; [apply (I 0); lia|]. split; [apply (I 0); lia|]. split; [exact R|]. split; [exact R|]. split.
  - intros p P. exists (0, 0, 2), (0, 0, 2). split; [left; reflexivity|]. split; [left; reflexivity|]. split; [reflexivity|]. unfold in_part. cbn. lia.
  - vm_compute in E. injection E as <-. vm_compute. reflexivity.
Qed.
(** A process that has no element of the product writes outside of an array. *)
Theorem C99_empty_refuted : exists (la lb : list (elt Z)) ssa ssb, Forall (inside 2 4) la /\ Forall (inside 4 2) lb /\ rows_used 2 2 la /\ rows_used 2 4 lb /\
  represents 2 2 4 la ssa /\ represents 2 4 2 lb ssb /\ products Z.mul la lb 0 0 <> [] /\ products Z.mul la lb 1 0 = [] /\
  matmat false 2 2 Z.add Z.mul 4 4 ssa ssb = Undef.
Proof.
  set (ea := fun q : Z => if q =? 0 then [(0, 0, 3); (1, 1, 5)] else @nil (elt Z)).
  set (eb := fun q : Z => if q =? 0 then [(0, 0, 7); (2, 0, 9)] else @nil (elt Z)).
  assert (IA : forall q, 0 <= q < 2 -> Forall (inside 2 4) (ea q)) by (intros q _; unfold ea; destruct (q =? 0); repeat constructor; cbn; lia).
  assert (IB : forall q, 0 <= q < 2 -> Forall (inside 4 2) (eb q)) by (intros q _; unfold eb; destruct (q =? 0); repeat constructor; cbn; lia).
  assert (UA : rows_used 2 2 (all_elts 2 ea)).
  { intros p P. assert (D : p = 0 \/ p = 1) by lia. destruct D as [->| ->].
    - exists (0, 0, 3). split; [left; reflexivity|]. unfold in_part. cbn. lia.
    - exists (1, 1, 5). split; [right; left; reflexivity|]. unfold in_part. cbn. lia. }
  assert (UB : rows_used 2 4 (all_elts 2 eb)).
  { intros p P. assert (D : p = 0 \/ p = 1) by lia. destruct D as [->| ->].
    - exists (0, 0, 7). split; [left; reflexivity|]. unfold in_part. cbn. lia.
    - exists (2, 0, 9). split; [right; left; reflexivity|]. unfold in_part. cbn. lia. }
  destruct (C95_partial Z 2 2 2 4 ea ex_o ex_o) as (ssa & EA & RA); [lia|lia|lia|exact ex_pairs|exact ex_pairs|exact IA|exact UA|].
  destruct (C95_partial Z 2 2 4 2 eb ex_o ex_o) as (ssb & EB & RB); [lia|lia|lia|exact ex_pairs|exact ex_pairs|exact IB|exact UB|].
  exists (all_elts 2 ea), (all_elts 2 eb), ssa, ssb.
  split; [apply (IA 0); lia|]. split; [apply (IB 0); lia|]. split; [exact UA|]. split; [exact UB|]. split; [exact RA|]. split; [exact RB|].
  split; [discriminate|]. split; [reflexivity|].
  vm_compute in EA. injection EA as <-. vm_compute in EB. injection EB as <-. vm_compute. reflexivity.
Qed.
Print Assumptions C99_partial.
Print Assumptions C99_int_refuted.
Print Assumptions C99_empty_refuted.
