(** Property theorems: sparse matrices, i.e. the distribution of rows and columns
    (C94), assembly (C95) and the product with a vector (C96). *)
From Verif Require Import SpecSprs MBase MNb MHandle MGroup MSparse MSprs LNb LRadix LStore LIterBlk LSprs LSprs2 LSprs3 LSprs4 LSprs5.
From Coq Require Import Permutation.
Open Scope Z_scope.

(** * C94: rows and columns are cut into equal parts *)
Theorem C94_partial : forall fuel n d me p,
  (2 <= fuel)%nat -> 1 <= n <= d -> 0 <= p < n ->
  exists lo hi,
    column_distribution fuel n d p = Done (lo, hi) /\ row_distribution fuel n d me p = Done (lo, hi) /\
    0 <= lo <= hi /\ hi < d /\ (forall x, 0 <= x < d -> (lo <= x <= hi <-> in_part n d p x)).
Proof.
  intros fuel n d me p F ND P. destruct (column_limits fuel n d p F ND P) as (lo & hi & C & L & H & R). exists lo, hi.
  split; [exact C|]. split; [|exact R]. unfold row_distribution. destruct (p =? me); [|exact C]. rewrite L, H. reflexivity.
Qed.
(** Every index is in exactly one part. *)
Theorem C94_cover : forall n d x, 1 <= n -> 1 <= d -> 0 <= x < d -> exists! p, in_part n d p x.
Proof.
  intros n d x N D X. exists (owner n d x). split; [apply owner_part; [lia|lia|lia|reflexivity]|]. intros p P. apply owner_part in P; [exact P|lia|lia|lia].
Qed.
(** With more processes than rows, row 0 of a matrix with one row is in the range of
    no process that says which rows it has, and a process and another do not agree
    about the rows of the first. *)
Theorem C94_refuted : exists n d, 1 <= n /\ 1 <= d /\ forall fuel,
  row_distribution (3 + fuel) n d 0 0 = Done (0, -1) /\ row_distribution (3 + fuel) n d 1 1 = Done (1, 0) /\
  row_distribution (3 + fuel) n d 0 1 = Done (0, 0).
Proof. exists 2, 1. split; [lia|]. split; [lia|]. intros fuel. repeat split; vm_compute; reflexivity. Qed.
Example C94_ex : column_distribution 2 3 7 0 = Done (0, 2) /\ column_distribution 2 3 7 1 = Done (3, 4) /\ column_distribution 2 3 7 2 = Done (5, 6).
Proof. repeat split; reflexivity. Qed.

(** * C95: assembly keeps the elements *)
(** What is on the processes is the matrix with elements [l]. *)
Definition represents {V} (n idim jdim : Z) (l : list (elt V)) (ss : list (sprs V)) : Prop :=
  length ss = Z.to_nat n /\ forall p s, 0 <= p < n -> nth_error ss (Z.to_nat p) = Some s ->
    0 <= s_ilo s <= s_ihi s /\ s_ihi s < idim /\ (forall i, 0 <= i < idim -> (s_ilo s <= i <= s_ihi s <-> in_part n idim p i)) /\
    (forall c, In c (s_blk s) <-> 0 <= c < n /\ exists e, In e l /\ in_part n idim p (erow e) /\ in_part n jdim c (ecol e)) /\ apart s /\
    forall c i, 0 <= c < n -> s_ilo s <= i <= s_ihi s -> exists r, block_row s c i = Done r /\ Permutation r (row_part n jdim c i l).
Lemma assemble_represents {V} fuel n idim jdim (els : Z -> list (elt V)) o o' :
  (2 <= fuel)%nat -> 1 <= n <= idim -> 1 <= jdim -> all_pairs n o -> all_pairs n o' -> (forall q, 0 <= q < n -> Forall (inside idim jdim) (els q)) ->
  exists ss, represents n idim jdim (all_elts n els) ss /\
    assemble fuel n idim jdim els o o' = (if zlen (all_elts n els) <? n then Abort else
      if zsum (map (fun s => (s_ihi s - s_ilo s + 1 + 1) * Z.of_nat (length (s_blk s))) ss) <? n then Abort else Done ss).
Proof.
  intros F NI NJ O O' IN. destruct (assemble_ok fuel n idim jdim els o o' F NI NJ O O' IN) as (ss & L & H & E). exists ss. split; [|exact E].
  split; [exact L|]. intros p s P N. specialize (H _ _ N). rewrite Z2Nat.id in H by lia. apply (of_rows_spec fuel n idim jdim els o F NI NJ O IN p s P H).
Qed.
Theorem C95_safe_partial : forall V fuel n idim jdim (els : Z -> list (elt V)) o o',
  (2 <= fuel)%nat -> 1 <= n <= idim -> 1 <= jdim -> all_pairs n o -> all_pairs n o' -> (forall q, 0 <= q < n -> Forall (inside idim jdim) (els q)) ->
  assemble fuel n idim jdim els o o' = Abort \/
  exists ss, assemble fuel n idim jdim els o o' = Done ss /\ represents n idim jdim (all_elts n els) ss.
Proof.
  intros V fuel n idim jdim els o o' F NI NJ O O' IN. destruct (assemble_represents fuel n idim jdim els o o' F NI NJ O O' IN) as (ss & R & E). rewrite E.
  destruct (zlen (all_elts n els) <? n); [left; reflexivity|]. destruct (zsum _ <? n); [left; reflexivity|]. right. exists ss. split; [reflexivity|exact R].
Qed.
Definition rows_used {V} (n idim : Z) (l : list (elt V)) : Prop := forall p, 0 <= p < n -> exists e, In e l /\ in_part n idim p (erow e).
Lemma used_blocks {V} n idim jdim (l : list (elt V)) ss p s : 1 <= n <= idim -> 1 <= jdim -> Forall (inside idim jdim) l -> represents n idim jdim l ss -> rows_used n idim l ->
  0 <= p < n -> nth_error ss (Z.to_nat p) = Some s -> exists c, In c (s_blk s) /\ 0 <= c < n.
Proof.
  intros NI NJ IN [_ R] U P N. destruct (R p s P N) as (_ & _ & _ & B & _). destruct (U p P) as (e & I & Pe). rewrite Forall_forall in IN. destruct (IN e I) as [_ Hc].
  pose proof (owner_range n jdim (ecol e) ltac:(lia) NJ Hc). exists (owner n jdim (ecol e)). split; [|assumption]. apply B. split; [assumption|]. exists e. split; [exact I|]. split; [exact Pe|]. apply owner_part; [lia|lia|lia|reflexivity].
Qed.
Theorem C95_partial : forall V fuel n idim jdim (els : Z -> list (elt V)) o o',
  (2 <= fuel)%nat -> 1 <= n <= idim -> 1 <= jdim -> all_pairs n o -> all_pairs n o' -> (forall q, 0 <= q < n -> Forall (inside idim jdim) (els q)) ->
  rows_used n idim (all_elts n els) ->
  exists ss, assemble fuel n idim jdim els o o' = Done ss /\ represents n idim jdim (all_elts n els) ss.
Proof.
  intros V fuel n idim jdim els o o' F NI NJ O O' IN U. destruct (assemble_represents fuel n idim jdim els o o' F NI NJ O O' IN) as (ss & R & E).
  pose proof (all_inside fuel n idim jdim els F NI IN) as AI. exists ss. split; [|exact R]. rewrite E.
  assert (T : n <= zlen (all_elts n els)).
  { assert (P := parts_perm (fun e : elt V => owner n idim (erow e)) (all_elts n els) 0 (Z.to_nat n)). rewrite <- (zlen_perm _ _ (P ltac:(eapply Forall_impl; [|exact AI]; intros e [Hr _]; cbn; pose proof (owner_range n idim (erow e) ltac:(lia) ltac:(lia) Hr); lia))). clear P.
    rewrite zlen_flat_map. assert (G : forall ps, (forall p, In p ps -> 0 <= p < n) -> zlen ps <= zsum (map (fun p => zlen (filter (fun e => owner n idim (erow e) =? p) (all_elts n els))) ps)).
    { induction ps as [|p ps IH]; intros H; [unfold zlen; cbn; lia|]. cbn [map zsum]. specialize (IH ltac:(intros q I; apply H; right; exact I)). change (p :: ps) with ([p] ++ ps). rewrite zlen_app. change (zlen [p]) with 1.
      destruct (U p (H p (or_introl eq_refl))) as (e & I & Pe). rewrite Forall_forall in AI. destruct (AI e I) as [Hr _].
      assert (K : In e (filter (fun e => owner n idim (erow e) =? p) (all_elts n els))) by (apply filter_In; split; [exact I|apply Z.eqb_eq; apply owner_part; [lia|lia|lia|exact Pe]]).
      destruct (filter (fun e => owner n idim (erow e) =? p) (all_elts n els)); [destruct K|]. unfold zlen at 2. cbn [length]. lia. }
    specialize (G (zseq 0 (Z.to_nat n)) ltac:(intros p I; apply zseq_In in I; lia)). unfold zlen in G at 1. rewrite zseq_length in G. lia. }
  replace (zlen (all_elts n els) <? n) with false by lia.
  assert (S : n <= zsum (map (fun s => (s_ihi s - s_ilo s + 1 + 1) * Z.of_nat (length (s_blk s))) ss)).
  { destruct R as [L R]. assert (B := used_blocks n idim jdim (all_elts n els) ss). assert (G : Forall (fun s => 1 <= (s_ihi s - s_ilo s + 1 + 1) * Z.of_nat (length (s_blk s))) ss).
    { apply Forall_forall. intros s I. destruct (In_nth_error _ _ I) as (k & K). assert (k < length ss)%nat by (apply nth_error_Some; congruence). rewrite <- (Nat2Z.id k) in K.
      destruct (R (Z.of_nat k) s ltac:(lia) K) as (X & _). destruct (B (Z.of_nat k) s NI NJ AI (Logic.conj L R) U ltac:(lia) K) as (c & Ic & _). destruct (s_blk s); [destruct Ic|]. cbn [length]. nia. }
    assert (Q : forall l : list (sprs V), Forall (fun s => 1 <= (s_ihi s - s_ilo s + 1 + 1) * Z.of_nat (length (s_blk s))) l -> zlen l <= zsum (map (fun s => (s_ihi s - s_ilo s + 1 + 1) * Z.of_nat (length (s_blk s))) l)).
    { induction 1 as [|s l H1 H2 IH]; [unfold zlen; cbn; lia|]. cbn [map zsum]. unfold zlen in *. cbn [length]. lia. }
    specialize (Q ss G). unfold zlen in Q. lia. }
  replace (zsum (map (fun s => (s_ihi s - s_ilo s + 1 + 1) * Z.of_nat (length (s_blk s))) ss) <? n) with false by lia. reflexivity.
Qed.

(** Two processes, 3 x 4; both add elements of both row parts. *)
Definition ex_els (q : Z) : list (elt Z) := if q =? 0 then [(0, 0, 5); (2, 3, 7); (1, 2, 1)] else [(0, 3, 2); (2, 0, 4); (2, 3, 10)].
Definition ex_o : list (Z * Z) := [(1, 0); (0, 1); (0, 0); (1, 1)].
Lemma ex_pairs : all_pairs 2 ex_o.
Proof.
  unfold all_pairs, ex_o. change (list_prod (zseq 0 (Z.to_nat 2)) (zseq 0 (Z.to_nat 2))) with [(0, 0); (0, 1); (1, 0); (1, 1)].
  apply perm_trans with [(0, 1); (1, 0); (0, 0); (1, 1)]; [constructor|]. apply perm_trans with [(0, 1); (0, 0); (1, 0); (1, 1)]; [apply perm_skip; constructor|constructor].
Qed.
Lemma ex_inside q : 0 <= q < 2 -> Forall (inside 3 4) (ex_els q).
Proof. intros Q. unfold ex_els. destruct (q =? 0); repeat constructor; cbn; lia. Qed.
Lemma ex_used : rows_used 2 3 (all_elts 2 ex_els).
Proof.
  intros p P. assert (D : p = 0 \/ p = 1) by lia. destruct D as [->| ->].
  - exists (0, 0, 5). split; [left; reflexivity|]. unfold in_part. cbn. lia.
  - exists (2, 3, 7). split; [right; left; reflexivity|]. unfold in_part. cbn. lia.
Qed.
Example C95_ex : rows_used 2 3 (all_elts 2 ex_els) /\
  exists s t, assemble 2 2 3 4 ex_els ex_o ex_o = Done [s; t] /\ s_blk s = [0; 1] /\ block_row s 1 0 = Done [(3, 2)] /\ block_row s 1 1 = Done [(2, 1)] /\
    block_row t 1 2 = Done [(3, 7); (3, 10)].
Proof. split; [exact ex_used|]. eexists. eexists. split; [vm_compute; reflexivity|]. repeat split; vm_compute; reflexivity. Qed.

(** With more processes than rows, memory outside of an array is used. *)
Theorem C95_rows_refuted : exists n idim jdim (els : Z -> list (elt Z)) o,
  1 <= n /\ 1 <= idim /\ 1 <= jdim /\ all_pairs n o /\ (forall q, 0 <= q < n -> Forall (inside idim jdim) (els q)) /\ n <= zlen (all_elts n els) /\
  forall fuel, assemble (3 + fuel) n idim jdim els o o = Undef.
Proof.
  exists 2, 1, 2, (fun _ => [(0, 0, 1)]), ex_o. split; [lia|]. split; [lia|]. split; [lia|]. split; [exact ex_pairs|]. split; [intros q _; repeat constructor; cbn; lia|]. split; [vm_compute; discriminate|].
  intros fuel. vm_compute. reflexivity.
Qed.
(** A matrix with fewer elements than processes is an error. *)
Theorem C95_few_refuted : exists n idim jdim (els : Z -> list (elt Z)) o,
  1 <= n <= idim /\ n <= jdim /\ all_pairs n o /\ (forall q, 0 <= q < n -> Forall (inside idim jdim) (els q)) /\
  forall fuel, assemble (3 + fuel) n idim jdim els o o = Abort.
Proof.
  exists 2, 2, 2, (fun q => if q =? 0 then [(0, 0, 1)] else []), ex_o. split; [lia|]. split; [lia|]. split; [exact ex_pairs|]. split; [intros q _; destruct (q =? 0); repeat constructor; cbn; lia|].
  intros fuel. vm_compute. reflexivity.
Qed.

(** * C96: product with a vector *)
Theorem C96_partial : forall V (add mul : V -> V -> V) (zero alpha : V) fuel n idim jdim (l : list (elt V)) ss x ps,
  (2 <= fuel)%nat -> (forall y, mul alpha y = y) -> addition add zero -> 1 <= n <= idim -> n <= jdim -> idim <= jdim -> Forall (inside idim jdim) l -> rows_used n idim l ->
  represents n idim jdim l ss -> all_procs n ps ->
  exists v, matvec false fuel n jdim add mul zero alpha jdim jdim x ss ps = Done v /\
    (forall i, 0 <= i < idim -> v i = row_product add mul zero l x i) /\ (forall i, idim <= i -> v i = zero).
Proof.
  intros V add mul zero alpha fuel n idim jdim l ss x ps F AL AD NI NJ IJ IN U R PS. unfold matvec. rewrite Z.eqb_refl. cbn [negb].
  set (stp := fun p (v : Z -> V) => match nth_error ss (Z.to_nat p) with Some s => matvec1 false fuel n jdim add mul zero alpha jdim x s v | None => Undef end).
  assert (G : forall qs v, NoDup qs -> (forall p, In p qs -> 0 <= p < n) -> (forall i, 0 <= i < idim -> In (owner n idim i) qs -> v i = zero) ->
    exists v', each stp qs v = Done v' /\ (forall i, 0 <= i < idim -> In (owner n idim i) qs -> v' i = row_product add mul zero l x i) /\
      (forall i, (0 <= i < idim -> ~ In (owner n idim i) qs) -> v' i = v i)).
  { induction qs as [|p qs IH]; intros v N P Z0; [exists v; split; [reflexivity|]; split; [intros i _ []|reflexivity]|].
    inversion N as [|? ? N1 N2]; subst. assert (Pp : 0 <= p < n) by (apply P; left; reflexivity). destruct R as [LS R].
    destruct (nth_error ss (Z.to_nat p)) as [s|] eqn:NS; [|apply nth_error_None in NS; lia].
    destruct (R p s Pp NS) as (L1 & L2 & RNG & BL & AP & ROWS).
    destruct (matvec1_ok fuel n idim jdim add mul zero l x F NI NJ AD IN s ROWS) with (alpha := alpha) (vdim := jdim) (v := v) as (v1 & E1 & H1).
    { intros c. destruct (Z_le_dec 0 c) as [C1|C1]; [destruct (Z_lt_dec c n) as [C2|C2]|].
      - destruct (ROWS c (s_ilo s) ltac:(lia) ltac:(lia)) as (r & Er & _). apply (access_cases s c (s_ilo s) r Er).
      - left. assert (NB : ~ In c (s_blk s)) by (rewrite BL; lia). split; [|exact NB]. unfold access_col_block. rewrite find_block_none by exact NB. reflexivity.
      - left. assert (NB : ~ In c (s_blk s)) by (rewrite BL; lia). split; [|exact NB]. unfold access_col_block. rewrite find_block_none by exact NB. reflexivity. }
    { exact AL. }
    { apply (used_blocks n idim jdim l ss p s); try assumption; [lia|split; assumption]. }
    { exact L1. } { lia. }
    assert (RO : forall i, 0 <= i < idim -> ((s_ilo s <=? i) && (i <=? s_ihi s) = true <-> owner n idim i = p)).
    { intros i I. rewrite (owner_part n idim i p) by lia. rewrite <- (RNG i I). lia. }
    destruct (IH v1 N2) as (v' & E & K1 & K2); [intros q I; apply P; right; exact I| |].
    { intros i I O. rewrite H1. destruct ((s_ilo s <=? i) && (i <=? s_ihi s)) eqn:B; [|apply Z0; [exact I|right; exact O]]. exfalso. apply RO in B; [|exact I]. apply N1. rewrite <- B. exact O. }
    exists v'. cbn [each]. unfold stp at 1. rewrite NS, E1. split; [exact E|]. split.
    - intros i I [O|O].
      + rewrite K2 by (intros _; rewrite <- O; exact N1). rewrite H1, (proj2 (RO i I)) by (symmetry; exact O). rewrite Z0 by (try assumption; left; exact O). apply (ad_zero _ _ AD).
      + apply K1; assumption.
    - intros i I. rewrite K2 by (intros X O; apply (I X); right; exact O). rewrite H1. destruct ((s_ilo s <=? i) && (i <=? s_ihi s)) eqn:B; [|reflexivity].
      exfalso. assert (X : 0 <= i < idim) by lia. apply (I X). left. symmetry. apply RO; assumption. }
  destruct (G ps (fun _ => zero)) as (v & E & H1 & H2).
  { apply (Permutation_NoDup (Permutation_sym PS)). apply zseq_NoDup. }
  { intros p I. apply (Permutation_in _ PS) in I. apply zseq_In in I. lia. }
  { reflexivity. }
  exists v. split; [exact E|]. split.
  - intros i I. apply H1; [exact I|]. apply (Permutation_in _ (Permutation_sym PS)). apply zseq_In. pose proof (owner_range n idim i ltac:(lia) ltac:(lia) I). lia.
  - intros i I. apply H2. lia.
Qed.
Lemma Z_addition : addition Z.add 0.
Proof. constructor; intros; lia. Qed.
Example C96_ex : addition Z.add 0 /\ rows_used 2 3 (all_elts 2 ex_els) /\
  (exists ss, assemble 2 2 3 4 ex_els ex_o ex_o = Done ss /\ represents 2 3 4 (all_elts 2 ex_els) ss) /\
  match assemble 2 2 3 4 ex_els ex_o ex_o with
  | Done ss => match matvec false 2 2 4 Z.add Z.mul 0 1 4 4 (fun j => 10 * j + 1) ss [1; 0] with
               | Done v => map v [0; 1; 2; 3] = [67; 21; 531; 0] | _ => False end
  | _ => False end.
Proof.
  split; [exact Z_addition|]. split; [exact ex_used|]. split; [apply C95_partial; [lia|lia|lia|exact ex_pairs|exact ex_pairs|exact ex_inside|exact ex_used]|vm_compute; reflexivity].
Qed.
(** The loop for complex types does not use the matrix: [2] times [1] is [1]. *)
Theorem C96_complex_refuted : exists (l : list (elt Z)) ss x, Forall (inside 1 1) l /\ rows_used 1 1 l /\ represents 1 1 1 l ss /\
  forall fuel, exists v, matvec true (3 + fuel) 1 1 Z.add Z.mul 0 1 1 1 x ss [0] = Done v /\ v 0 <> row_product Z.add Z.mul 0 l x 0.
Proof.
  assert (AP : all_pairs 1 [(0, 0)]) by (unfold all_pairs; apply Permutation_refl).
  assert (I : forall q, 0 <= q < 1 -> Forall (inside 1 1) [(0, 0, 2)]) by (intros q _; repeat constructor; cbn; lia).
  destruct (C95_partial Z 2 1 1 1 (fun _ => [(0, 0, 2)]) [(0, 0)] [(0, 0)]) as (ss & E & R); [lia|lia|lia|exact AP|exact AP|exact I| |].
  { intros p P. exists (0, 0, 2). split; [left; reflexivity|]. unfold in_part. cbn. lia. }
  exists [(0, 0, 2)], ss, (fun _ => 1). split; [apply (I 0); lia|]. split; [intros p P; exists (0, 0, 2); split; [left; reflexivity|]; unfold in_part; cbn; lia|]. split; [exact R|].
  vm_compute in E. injection E as <-. intros fuel. eexists. split; [vm_compute; reflexivity|]. vm_compute. discriminate.
Qed.
(** The scale of the accumulate is a double whatever the type: the product of
    integers is 0, and of long integers too large. *)
Theorem C96_integer_refuted : exists (l : list (elt Z)) ss x, Forall (inside 1 1) l /\ rows_used 1 1 l /\ represents 1 1 1 l ss /\ row_product Z.add Z.mul 0 l x 0 = 6 /\
  forall fuel, (exists v, matvec false (3 + fuel) 1 1 Z.add Z.mul 0 one_r_int 1 1 x ss [0] = Done v /\ v 0 = 0) /\
    exists v, matvec false (3 + fuel) 1 1 Z.add Z.mul 0 one_r_long 1 1 x ss [0] = Done v /\ 2 ^ 62 < v 0.
Proof.
  assert (AP : all_pairs 1 [(0, 0)]) by (unfold all_pairs; apply Permutation_refl).
  assert (I : forall q, 0 <= q < 1 -> Forall (inside 1 1) [(0, 0, 2)]) by (intros q _; repeat constructor; cbn; lia).
  destruct (C95_partial Z 2 1 1 1 (fun _ => [(0, 0, 2)]) [(0, 0)] [(0, 0)]) as (ss & E & R); [lia|lia|lia|exact AP|exact AP|exact I| |].
  { intros p P. exists (0, 0, 2). split; [left; reflexivity|]. unfold in_part. cbn. lia. }
  exists [(0, 0, 2)], ss, (fun _ => 3). split; [apply (I 0); lia|]. split; [intros p P; exists (0, 0, 2); split; [left; reflexivity|]; unfold in_part; cbn; lia|]. split; [exact R|]. split; [reflexivity|].
  vm_compute in E. injection E as <-. intros fuel. split; (eexists; split; [vm_compute; reflexivity|vm_compute; reflexivity]).
Qed.
(** A process whose rows have no elements adds memory that has not been written. *)
Theorem C96_empty_refuted : exists (l : list (elt Z)) ss x, Forall (inside 2 2) l /\ represents 2 2 2 l ss /\
  forall fuel, matvec false (3 + fuel) 2 2 Z.add Z.mul 0 1 2 2 x ss [0; 1] = Undef.
Proof.
  set (els := fun q : Z => if q =? 0 then [(0, 0, 1); (0, 1, 1)] else []).
  destruct (C95_safe_partial Z 2 2 2 2 els ex_o ex_o) as [E|(ss & E & R)]; [lia|lia|lia|exact ex_pairs|exact ex_pairs|intros q _; unfold els; destruct (q =? 0); repeat constructor; cbn; lia|vm_compute in E; discriminate|].
  exists (all_elts 2 els), ss, (fun _ => 1). split; [apply (all_inside 2 2 2 2 els); [lia|lia|]; intros q _; unfold els; destruct (q =? 0); repeat constructor; cbn; lia|]. split; [exact R|].
  vm_compute in E. injection E as <-. intros fuel. vm_compute. reflexivity.
Qed.
(** A product vector with as many elements as the matrix has rows is an error unless
    the matrix is square. *)
Theorem C96_shape_refuted : exists (l : list (elt Z)) ss x, Forall (inside 3 4) l /\ rows_used 2 3 l /\ represents 2 3 4 l ss /\
  forall fuel, matvec false (3 + fuel) 2 4 Z.add Z.mul 0 1 4 3 x ss [0; 1] = Abort.
Proof.
  destruct (C95_partial Z 2 2 3 4 ex_els ex_o ex_o) as (ss & E & R); [lia|lia|lia|exact ex_pairs|exact ex_pairs|exact ex_inside|exact ex_used|].
  exists (all_elts 2 ex_els), ss, (fun _ => 1). split; [apply (all_inside 2 2 3 4 ex_els); [lia|lia|exact ex_inside]|]. split; [exact ex_used|]. split; [exact R|]. intros fuel. reflexivity.
Qed.

Print Assumptions C94_partial.
Print Assumptions C94_cover.
Print Assumptions C94_refuted.
Print Assumptions C95_safe_partial.
Print Assumptions C95_partial.
Print Assumptions C95_rows_refuted.
Print Assumptions C95_few_refuted.
Print Assumptions C96_partial.
Print Assumptions C96_complex_refuted.
Print Assumptions C96_integer_refuted.
Print Assumptions C96_empty_refuted.
Print Assumptions C96_shape_refuted.
