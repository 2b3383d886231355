(** Property theorems: diagonal and columns of a sparse matrix (C97), and updates of its
    values (C98). *)
From Verif Require Import SpecSprs MBase MNb MHandle MGroup MSparse MSprs MSprs2 LNb LRadix LStore LIterBlk LSprs LSprs2 LSprs3 LSprs4 LSprs5 LSprs6 PSprs.
From Coq Require Import Permutation.
Open Scope Z_scope.

(** No place of the matrix has two elements. *)
Definition at_most_once {V} (l : list (elt V)) : Prop := NoDup (map fst l).
(** [v] is the value at row [i] and column [j], zero if there is no element. *)
Definition is_entry {V} (zero : V) (l : list (elt V)) (i j : Z) (v : V) : Prop :=
  (forall x, In (i, j, x) l -> v = x) /\ ((forall x, ~ In (i, j, x) l) -> v = zero).
(** Every value replaced by [h] of its row, its column and itself. *)
Definition updated {V} (h : Z -> Z -> V -> V) (l : list (elt V)) : list (elt V) := map (fun e => (fst e, h (erow e) (ecol e) (evalue e))) l.

Section Help.
Context {V : Type}.
Variables (n idim jdim : Z) (l : list (elt V)) (ss : list (sprs V)).
Hypotheses (NI : 1 <= n <= idim) (IN : Forall (inside idim jdim) l) (R : represents n idim jdim l ss).

Lemma row_part_In c i j x : In (j, x) (row_part n jdim c i l) <-> In (i, j, x) l /\ in_partb n jdim c j = true.
Proof.
  unfold row_part. rewrite in_map_iff. split.
  - intros ([[i' j'] x'] & E & I). injection E as <- <-. apply filter_In in I. destruct I as [I B]. unfold erow, ecol in *. cbn [fst snd] in *. apply andb_true_iff in B. destruct B as [B1 B2]. apply Z.eqb_eq in B1. subst i'. split; assumption.
  - intros [I B]. exists (i, j, x). split; [reflexivity|]. apply filter_In. split; [exact I|]. unfold erow, ecol. cbn [fst snd]. rewrite Z.eqb_refl. exact B.
Qed.
Lemma row_part_once c i : at_most_once l -> NoDup (map fst (row_part n jdim c i l)).
Proof.
  intros U. unfold row_part. rewrite map_map. cbn [fst]. clear IN R. revert U. unfold at_most_once. induction l as [|e k IH]; intros U; [constructor|]. cbn [map filter] in *. inversion U as [|? ? U1 U2]; subst.
  destruct (erow e =? i) eqn:B; [|apply IH; exact U2]. cbn [andb]. destruct (in_partb n jdim c (ecol e)); [|apply IH; exact U2]. cbn [map]. constructor; [|apply IH; exact U2].
  intros X. apply U1. apply in_map_iff in X. destruct X as (e' & E & I). apply filter_In in I. destruct I as [I B']. apply andb_true_iff in B'. destruct B' as [B' _]. apply Z.eqb_eq in B, B'.
  apply in_map_iff. exists e'. split; [|exact I]. destruct e as [[a b] x], e' as [[a' b'] x']. unfold erow, ecol in *. cbn [fst snd] in *. congruence.
Qed.
(** All processes, each of which changes its own rows. *)
Lemma each_rows (F : Z -> V -> V) (f : Z -> sprs V -> (Z -> V) -> out (Z -> V)) ps v0 : all_procs n ps ->
  (forall p s v, 0 <= p < n -> nth_error ss (Z.to_nat p) = Some s -> exists v', f p s v = Done v' /\ forall i, v' i = if (s_ilo s <=? i) && (i <=? s_ihi s) then F i (v i) else v i) ->
  exists v, each (fun p v => match nth_error ss (Z.to_nat p) with Some s => f p s v | None => Undef end) ps v0 = Done v /\ forall i, 0 <= i < idim -> v i = F i (v0 i).
Proof.
  intros PS H. set (stp := fun p (v : Z -> V) => match nth_error ss (Z.to_nat p) with Some s => f p s v | None => Undef end).
  assert (G : forall qs v, NoDup qs -> (forall p, In p qs -> 0 <= p < n) ->
    exists v', each stp qs v = Done v' /\ (forall i, 0 <= i < idim -> v' i = if in_dec Z.eq_dec (owner n idim i) qs then F i (v i) else v i)).
  { induction qs as [|p qs IH]; intros v N P; [exists v; split; [reflexivity|]; intros i _; destruct (in_dec Z.eq_dec (owner n idim i) []) as [[]|]; reflexivity|].
    inversion N as [|? ? N1 N2]; subst. assert (Pp : 0 <= p < n) by (apply P; left; reflexivity). destruct R as [LS RR].
    destruct (nth_error ss (Z.to_nat p)) as [s|] eqn:NS; [|apply nth_error_None in NS; lia]. destruct (RR p s Pp NS) as (_ & _ & RNG & _).
    destruct (H p s v Pp NS) as (v1 & E1 & H1). destruct (IH v1 N2 ltac:(intros q I; apply P; right; exact I)) as (v' & E & K). exists v'. cbn [each]. unfold stp at 1. rewrite NS, E1. split; [exact E|].
    assert (RO : forall i, 0 <= i < idim -> ((s_ilo s <=? i) && (i <=? s_ihi s) = true <-> owner n idim i = p)).
    { intros i I. rewrite (owner_part n idim i p) by lia. rewrite <- (RNG i I). lia. }
    intros i I. rewrite (K i I), H1. destruct ((s_ilo s <=? i) && (i <=? s_ihi s)) eqn:B.
    - apply RO in B; [|exact I]. destruct (in_dec Z.eq_dec (owner n idim i) qs) as [J|J]; [exfalso; apply N1; rewrite <- B; exact J|]. destruct (in_dec Z.eq_dec (owner n idim i) (p :: qs)) as [X|X]; [reflexivity|exfalso; apply X; left; symmetry; exact B].
    - destruct (in_dec Z.eq_dec (owner n idim i) (p :: qs)) as [[X|X]|X]; destruct (in_dec Z.eq_dec (owner n idim i) qs) as [J|J]; try reflexivity; try contradiction.
      + exfalso. assert (T : (s_ilo s <=? i) && (i <=? s_ihi s) = true) by (apply RO; [exact I|symmetry; exact X]). congruence.
      + exfalso. apply X. right. exact J. }
  destruct (G ps v0) as (v & E & K); [apply (Permutation_NoDup (Permutation_sym PS)), zseq_NoDup|intros p I; apply (Permutation_in _ PS) in I; apply zseq_In in I; lia|].
  exists v. split; [exact E|]. intros i I. rewrite (K i I). destruct (in_dec Z.eq_dec (owner n idim i) ps) as [_|X]; [reflexivity|]. exfalso. apply X. apply (Permutation_in _ (Permutation_sym PS)). apply zseq_In.
  pose proof (owner_range n idim i ltac:(lia) ltac:(lia) I). lia.
Qed.
Definition row_of (s : sprs V) (c i : Z) : list (Z * V) := match block_row s c i with Done r => r | _ => [] end.
Lemma row_of_ok p s c i : 0 <= p < n -> nth_error ss (Z.to_nat p) = Some s -> 0 <= c < n -> s_ilo s <= i <= s_ihi s ->
  block_row s c i = Done (row_of s c i) /\ Permutation (row_of s c i) (row_part n jdim c i l).
Proof.
  intros P N C I. destruct R as [_ RR]. destruct (RR p s P N) as (_ & _ & _ & _ & _ & ROWS). destruct (ROWS c i C I) as (r & E & Q). unfold row_of. rewrite E. split; [reflexivity|exact Q].
Qed.
Lemma pick_entry zero c i j r : 1 <= jdim -> at_most_once l -> Permutation r (row_part n jdim c i l) -> owner n jdim j = c -> 0 <= j < jdim -> is_entry zero l i j (pick_loop j r zero).
Proof.
  intros NJ U P O J. assert (PB : in_partb n jdim c j = true) by (rewrite <- owner_partb by lia; apply Z.eqb_eq; exact O). split.
  - intros x I. apply pick_in; [apply (Permutation_NoDup (Permutation_map fst (Permutation_sym P))), row_part_once, U|]. apply (Permutation_in _ (Permutation_sym P)). apply row_part_In. split; [exact I|exact PB].
  - intros N. apply pick_none. intros X. apply in_map_iff in X. destruct X as ([j' x] & E & I). cbn [fst] in E. subst j'. apply (Permutation_in _ P) in I. apply row_part_In in I. apply (N x). apply I.
Qed.

Lemma row_part_updated h c i : row_part n jdim c i (updated h l) = upd_list h i (row_part n jdim c i l).
Proof.
  clear IN R. unfold row_part, updated, upd_list. induction l as [|e k IH]; [reflexivity|]. cbn [map filter]. change (erow (fst e, h (erow e) (ecol e) (evalue e))) with (erow e). change (ecol (fst e, h (erow e) (ecol e) (evalue e))) with (ecol e).
  destruct (Z.eqb_spec (erow e) i) as [Ei|]; [|exact IH]. cbn [andb]. destruct (in_partb n jdim c (ecol e)); [|exact IH]. cbn [map fst snd]. rewrite IH. unfold evalue at 1 3, ecol at 1. cbn [fst snd]. rewrite Ei. reflexivity.
Qed.
Lemma on_all_ok (f : sprs V -> out (sprs V)) (P : nat -> sprs V -> Prop) : forall (ts : list (sprs V)) k0, (forall k s, nth_error ts k = Some s -> exists s', f s = Done s' /\ P (k0 + k)%nat s') ->
  exists ts', on_all f ts = Done ts' /\ length ts' = length ts /\ forall k s', nth_error ts' k = Some s' -> P (k0 + k)%nat s'.
Proof.
  clear. induction ts as [|s ts IH]; intros k0 H; [exists []; split; [reflexivity|]; split; [reflexivity|]; intros [|k] s' X; discriminate|].
  destruct (H 0%nat s eq_refl) as (s' & E & Ps). destruct (IH (S k0)) as (ts' & Et & L & Q).
  { intros k t X. destruct (H (S k) t X) as (t' & A & B). exists t'. split; [exact A|]. replace (S k0 + k)%nat with (k0 + S k)%nat by lia. exact B. }
  exists (s' :: ts'). cbn [on_all]. rewrite E, Et. split; [reflexivity|]. split; [cbn [length]; rewrite L; reflexivity|]. intros [|k] t X; cbn [nth_error] in X; [injection X as <-; exact Ps|].
  specialize (Q k t X). replace (k0 + S k)%nat with (S k0 + k)%nat by lia. exact Q.
Qed.
Lemma updated_represents h (f : sprs V -> out (sprs V)) :
  (forall p s, 0 <= p < n -> nth_error ss (Z.to_nat p) = Some s -> exists sv, f s = Done (with_values s sv) /\
    forall c i r, 0 <= c < n -> s_ilo s <= i <= s_ihi s -> block_row s c i = Done r -> block_row (with_values s sv) c i = Done (upd_list h i r)) ->
  exists ss', on_all f ss = Done ss' /\ represents n idim jdim (updated h l) ss'.
Proof.
  intros H. destruct R as [LS RR].
  set (Q := fun (k : nat) (s : sprs V) => let p := Z.of_nat k in
    0 <= s_ilo s <= s_ihi s /\ s_ihi s < idim /\ (forall i, 0 <= i < idim -> (s_ilo s <= i <= s_ihi s <-> in_part n idim p i)) /\
    (forall c, In c (s_blk s) <-> 0 <= c < n /\ exists e, In e (updated h l) /\ in_part n idim p (erow e) /\ in_part n jdim c (ecol e)) /\ apart s /\
    forall c i, 0 <= c < n -> s_ilo s <= i <= s_ihi s -> exists r, block_row s c i = Done r /\ Permutation r (row_part n jdim c i (updated h l))).
  destruct (on_all_ok f Q ss 0) as (ss' & E & L & K).
  { intros k s N. assert (k < length ss)%nat by (apply nth_error_Some; congruence). rewrite <- (Nat2Z.id k) in N. destruct (H (Z.of_nat k) s ltac:(lia) N) as (sv & Ef & U). exists (with_values s sv). split; [exact Ef|].
    destruct (RR (Z.of_nat k) s ltac:(lia) N) as (A1 & A2 & A3 & A4 & A5 & A6). cbn [Nat.add]. unfold Q. cbn [with_values s_ilo s_ihi s_blk]. split; [exact A1|]. split; [exact A2|]. split; [exact A3|]. split; [|split; [exact A5|]].
    - intros c. rewrite A4. split; intros [C (e & I & B)]; (split; [exact C|]).
      + exists (fst e, h (erow e) (ecol e) (evalue e)). split; [apply in_map_iff; exists e; split; [reflexivity|exact I]|exact B].
      + unfold updated in I. apply in_map_iff in I. destruct I as (e' & <- & I). exists e'. split; [exact I|exact B].
    - intros c i C I. destruct (A6 c i C I) as (r & Br & Pr). exists (upd_list h i r). split; [apply U; assumption|]. rewrite row_part_updated. apply Permutation_map. exact Pr. }
  exists ss'. split; [exact E|]. split; [lia|]. intros p s P N. specialize (K _ _ N). cbn [Nat.add] in K. unfold Q in K. rewrite Z2Nat.id in K by lia. exact K.
Qed.
End Help.

(** * C97: diagonal and columns *)
Theorem C97_column_partial : forall V (zero : V) n idim jdim l ss icol ps,
  1 <= n <= idim -> 1 <= jdim -> Forall (inside idim jdim) l -> at_most_once l -> represents n idim jdim l ss -> 0 <= icol < jdim -> all_procs n ps ->
  exists v, get_column n jdim zero icol ss ps = Done v /\ forall i, 0 <= i < idim -> is_entry zero l i icol (v i).
Proof.
  intros V zero n idim jdim l ss icol ps NI NJ IN U R C PS. unfold get_column. replace (jdim =? 0) with false by lia.
  assert (O : Z.quot (icol * n) jdim = owner n jdim icol).
  { unfold owner. rewrite Z.quot_div_nonneg by nia. assert (icol * n / jdim < n) by (apply Z.div_lt_upper_bound; nia). destruct (Z.leb_spec n (icol * n / jdim)); [lia|reflexivity]. }
  rewrite O. pose proof (owner_range n jdim icol ltac:(lia) NJ C) as OR. set (c := owner n jdim icol) in *.
  set (F := fun i (d : V) => match nth_error ss (Z.to_nat (owner n idim i)) with Some s => pick_loop icol (row_of s c i) d | None => d end).
  destruct (each_rows n idim jdim l ss NI R F (fun p s v => col_loop s c icol (s_blk s) v) ps (fun _ => zero) PS) as (v & E & H).
  { intros p s v P N. pose proof R as [_ RR]. destruct (RR p s P N) as (L1 & L2 & RNG & BL & AP & ROWS).
    destruct (col_loop_ok s c icol (row_of s c)) with (blk := s_blk s) (v := v) as (v' & E & H); [lia|intros i I; apply (row_of_ok n idim jdim l ss R p); assumption| |apply incl_refl|].
    { intros I. destruct (ROWS c (s_ilo s) OR ltac:(lia)) as (r & Er & _). destruct (access_cases s c (s_ilo s) r Er) as [[_ X]|X]; [contradiction|exact X]. }
    exists v'. split; [exact E|]. intros i. rewrite H. destruct ((s_ilo s <=? i) && (i <=? s_ihi s)) eqn:B; [|destruct (in_dec Z.eq_dec c (s_blk s)); reflexivity].
    assert (Oi : owner n idim i = p) by (apply owner_part; [lia|lia|lia|]; apply RNG; lia). unfold F. rewrite Oi, N. destruct (in_dec Z.eq_dec c (s_blk s)) as [J|J]; [reflexivity|].
    assert (EB : block_row s c i = Done []) by (unfold block_row, access_col_block; rewrite find_block_none by exact J; reflexivity). unfold row_of. rewrite EB. reflexivity. }
  exists v. split; [exact E|]. intros i I. rewrite (H i I). unfold F. pose proof (owner_range n idim i ltac:(lia) ltac:(lia) I) as OI. pose proof R as [LS RR].
  destruct (nth_error ss (Z.to_nat (owner n idim i))) as [s|] eqn:N; [|apply nth_error_None in N; lia]. destruct (RR _ _ OI N) as (L1 & L2 & RNG & _).
  assert (I' : s_ilo s <= i <= s_ihi s) by (apply RNG; [exact I|]; apply owner_part; [lia|lia|lia|reflexivity]).
  destruct (row_of_ok n idim jdim l ss R _ s c i OI N OR I') as [_ P]. apply (pick_entry n idim jdim l ltac:(lia) zero c i icol _ NJ U P eq_refl C).
Qed.

Definition diagonal_used {V} (n d : Z) (l : list (elt V)) : Prop := forall p, 0 <= p < n -> exists e, In e l /\ in_part n d p (erow e) /\ in_part n d p (ecol e).
Theorem C97_diag_partial : forall V (zero : V) n d l ss ps,
  1 <= n <= d -> Forall (inside d d) l -> at_most_once l -> diagonal_used n d l -> represents n d d l ss -> all_procs n ps ->
  exists v, get_diag zero ss ps = Done v /\ forall i, 0 <= i < d -> is_entry zero l i i (v i).
Proof.
  intros V zero n d l ss ps NI IN U DU R PS. unfold get_diag.
  set (F := fun i (x : V) => match nth_error ss (Z.to_nat (owner n d i)) with Some s => pick_loop i (row_of s (owner n d i) i) x | None => x end).
  destruct (each_rows n d d l ss NI R F (fun p s v => get_diag1 p s v) ps (fun _ => zero) PS) as (v & E & H).
  { intros p s v P N. pose proof R as [_ RR]. destruct (RR p s P N) as (L1 & L2 & RNG & BL & AP & ROWS). unfold get_diag1.
    assert (B : In p (s_blk s)) by (apply BL; split; [exact P|]; apply DU; exact P).
    destruct (ROWS p (s_ilo s) P ltac:(lia)) as (r & Er & _). destruct (access_cases s p (s_ilo s) r Er) as [[_ X]|(w & Ew)]; [contradiction|]. rewrite Ew.
    destruct (pick_rows_ok s w p (fun i => i) (row_of s p) Ew (zseq (s_ilo s) (Z.to_nat (s_ihi s - s_ilo s + 1))) v (zseq_NoDup _ _)) as (v1 & E1 & R1).
    { intros i I. apply zseq_In in I. apply (row_of_ok n d d l ss R p s p i P N P). lia. }
    exists v1. split; [exact E1|]. intros i. rewrite R1. destruct (in_dec Z.eq_dec i (zseq (s_ilo s) (Z.to_nat (s_ihi s - s_ilo s + 1)))) as [J|J]; rewrite zseq_In in J.
    - replace ((s_ilo s <=? i) && (i <=? s_ihi s)) with true by lia. assert (Oi : owner n d i = p) by (apply owner_part; [lia|lia|lia|]; apply RNG; lia). unfold F. rewrite Oi, N. reflexivity.
    - replace ((s_ilo s <=? i) && (i <=? s_ihi s)) with false by lia. reflexivity. }
  exists v. split; [exact E|]. intros i I. rewrite (H i I). unfold F. pose proof (owner_range n d i ltac:(lia) ltac:(lia) I) as OI. pose proof R as [LS RR].
  destruct (nth_error ss (Z.to_nat (owner n d i))) as [s|] eqn:N; [|apply nth_error_None in N; lia]. destruct (RR _ _ OI N) as (L1 & L2 & RNG & _).
  assert (I' : s_ilo s <= i <= s_ihi s) by (apply RNG; [exact I|]; apply owner_part; [lia|lia|lia|reflexivity]).
  destruct (row_of_ok n d d l ss R _ s _ i OI N OI I') as [_ P]. apply (pick_entry n d d l ltac:(lia) zero (owner n d i) i i _ ltac:(lia) U P eq_refl I).
Qed.

(** Two processes, 3 x 3. *)
Definition sq_els (q : Z) : list (elt Z) := if q =? 0 then [(0, 0, 5); (2, 1, 7); (1, 2, 1)] else [(0, 1, 2); (1, 0, 4); (2, 2, 10)].
Lemma sq_ok : Forall (inside 3 3) (all_elts 2 sq_els) /\ at_most_once (all_elts 2 sq_els) /\ rows_used 2 3 (all_elts 2 sq_els) /\ diagonal_used 2 3 (all_elts 2 sq_els).
Proof.
  split; [repeat constructor; cbn; lia|]. split; [repeat constructor; cbn; intuition congruence|].
  assert (D : diagonal_used 2 3 (all_elts 2 sq_els)).
  { intros p P. assert (C : p = 0 \/ p = 1) by lia. destruct C as [->| ->].
    - exists (0, 0, 5). split; [left; reflexivity|]. unfold in_part. cbn. lia.
    - exists (2, 2, 10). split; [do 5 right; left; reflexivity|]. unfold in_part. cbn. lia. }
  split; [|exact D]. intros p P. destruct (D p P) as (e & I & A & _). exists e. split; assumption.
Qed.
Lemma sq_rep : exists ss, assemble 2 2 3 3 sq_els ex_o ex_o = Done ss /\ represents 2 3 3 (all_elts 2 sq_els) ss.
Proof.
  destruct sq_ok as (_ & _ & U & _). apply C95_partial; [lia|lia|lia|exact ex_pairs|exact ex_pairs| |exact U].
  intros q _. unfold sq_els. destruct (q =? 0); repeat constructor; cbn; lia.
Qed.
Example C97_ex : exists ss, represents 2 3 3 (all_elts 2 sq_els) ss /\
  (exists v, get_diag 0 ss [1; 0] = Done v /\ map v [0; 1; 2] = [5; 0; 10]) /\ exists v, get_column 2 3 0 1 ss [1; 0] = Done v /\ map v [0; 1; 2] = [2; 0; 7].
Proof.
  destruct sq_rep as (ss & E & R). exists ss. split; [exact R|]. vm_compute in E. injection E as <-. split; eexists; (split; [vm_compute; reflexivity|reflexivity]).
Qed.
(** A process whose diagonal block has no elements uses a null pointer. *)
Theorem C97_empty_refuted : exists (l : list (elt Z)) ss, Forall (inside 2 2) l /\ at_most_once l /\ rows_used 2 2 l /\ represents 2 2 2 l ss /\ get_diag 0 ss [0; 1] = Undef.
Proof.
  set (els := fun q : Z => if q =? 0 then [(0, 0, 1); (1, 0, 1)] else []).
  assert (IN : forall q, 0 <= q < 2 -> Forall (inside 2 2) (els q)) by (intros q _; unfold els; destruct (q =? 0); repeat constructor; cbn; lia).
  assert (U : rows_used 2 2 (all_elts 2 els)). { intros p P. assert (C : p = 0 \/ p = 1) by lia. destruct C as [->| ->]; [exists (0, 0, 1)|exists (1, 0, 1)]; (split; [unfold els; vm_compute; auto 6|unfold in_part; cbn; lia]). }
  destruct (C95_partial Z 2 2 2 2 els ex_o ex_o) as (ss & E & R); [lia|lia|lia|exact ex_pairs|exact ex_pairs|exact IN|exact U|].
  exists (all_elts 2 els), ss. split; [apply (all_inside 2 2 2 2 els); [lia|lia|exact IN]|]. split; [repeat constructor; cbn; intuition congruence|]. split; [exact U|]. split; [exact R|]. vm_compute in E. injection E as <-. vm_compute. reflexivity.
Qed.
(** In a matrix that is not square, elements of the diagonal are missed. *)
Theorem C97_shape_refuted : exists (l : list (elt Z)) ss, Forall (inside 2 4) l /\ at_most_once l /\ represents 2 2 4 l ss /\
  exists v, get_diag 0 ss [0; 1] = Done v /\ In (1, 1, 7) l /\ v 1 = 0.
Proof.
  set (els := fun q : Z => if q =? 0 then [(0, 0, 1); (1, 1, 7); (1, 2, 3)] else []).
  assert (IN : forall q, 0 <= q < 2 -> Forall (inside 2 4) (els q)) by (intros q _; unfold els; destruct (q =? 0); repeat constructor; cbn; lia).
  assert (U : rows_used 2 2 (all_elts 2 els)). { intros p P. assert (C : p = 0 \/ p = 1) by lia. destruct C as [->| ->]; [exists (0, 0, 1)|exists (1, 1, 7)]; (split; [unfold els; vm_compute; auto 6|unfold in_part; cbn; lia]). }
  destruct (C95_partial Z 2 2 2 4 els ex_o ex_o) as (ss & E & R); [lia|lia|lia|exact ex_pairs|exact ex_pairs|exact IN|exact U|].
  exists (all_elts 2 els), ss. split; [apply (all_inside 2 2 2 4 els); [lia|lia|exact IN]|]. split; [repeat constructor; cbn; intuition congruence|]. split; [exact R|]. vm_compute in E. injection E as <-. eexists. split; [vm_compute; reflexivity|]. split; [unfold els; vm_compute; auto 6|reflexivity].
Qed.

(** * C98: updates of the values *)
Lemma upd_done {V} n idim jdim (l : list (elt V)) ss h pre : 1 <= n <= idim -> Forall (inside idim jdim) l -> represents n idim jdim l ss ->
  (forall c, 0 <= c < n -> exists g, pre c = Done g /\ forall i j x, 0 <= j < jdim -> in_part n jdim c j -> g i j x = Done (h i j x)) ->
  forall p s, 0 <= p < n -> nth_error ss (Z.to_nat p) = Some s -> exists sv, upd_all n pre s = Done (with_values s sv) /\
    forall c i r, 0 <= c < n -> s_ilo s <= i <= s_ihi s -> block_row s c i = Done r -> block_row (with_values s sv) c i = Done (upd_list h i r).
Proof.
  intros NI IN R PRE p s P N. pose proof R as [_ RR]. destruct (RR p s P N) as (L1 & L2 & RNG & BL & AP & ROWS).
  apply (upd_all_ok s h AP pre n ltac:(lia) ltac:(lia)). intros c C. destruct (PRE c C) as (g & Eg & G). exists g. split; [exact Eg|]. intros i I. destruct (ROWS c i C I) as (r & Er & Pr). exists r. split; [exact Er|].
  apply Forall_forall. intros [j x] J y. cbn [fst]. apply (Permutation_in _ Pr) in J. apply row_part_In in J. destruct J as [J B]. rewrite Forall_forall in IN. destruct (IN _ J) as [_ Hc]. unfold ecol in Hc. cbn [fst snd] in Hc. apply G; [exact Hc|].
  unfold in_partb in B. unfold in_part. lia.
Qed.
Theorem C98_shift_partial : forall V (add : V -> V -> V) shift n idim jdim l ss,
  1 <= n <= idim -> Forall (inside idim jdim) l -> represents n idim jdim l ss ->
  exists ss', shift_diag n add shift ss = Done ss' /\ represents n idim jdim (updated (fun i j x => if i =? j then add x shift else x) l) ss'.
Proof.
  intros V add shift n idim jdim l ss NI IN R. apply (updated_represents n idim jdim l ss NI R). apply (upd_done n idim jdim l ss _ _ NI IN R).
  intros c C. eexists. split; [reflexivity|]. reflexivity.
Qed.
Theorem C98_left : forall V (mul : V -> V -> V) d n idim jdim l ss,
  1 <= n <= idim -> Forall (inside idim jdim) l -> represents n idim jdim l ss ->
  exists ss', diag_left n idim mul idim d ss = Done ss' /\ represents n idim jdim (updated (fun i j x => mul (d i) x) l) ss'.
Proof.
  intros V mul d n idim jdim l ss NI IN R. unfold diag_left. rewrite Z.eqb_refl. cbn [negb]. apply (updated_represents n idim jdim l ss NI R). intros p s P N.
  pose proof R as [_ RR]. destruct (RR p s P N) as (L1 & L2 & _). replace ((0 <=? s_ilo s) && (s_ilo s <=? s_ihi s) && (s_ihi s <? idim)) with true by lia.
  apply (upd_done n idim jdim l ss (fun i _ x => mul (d i) x) (fun _ => Done (fun i _ x => Done (mul (d i) x))) NI IN R) with (p := p); [|exact P|exact N]. intros c C. eexists. split; [reflexivity|]. reflexivity.
Qed.
Theorem C98_right_partial : forall V (mul : V -> V -> V) d fuel n idim jdim l ss,
  (2 <= fuel)%nat -> 1 <= n <= idim -> n <= jdim <= idim -> Forall (inside idim jdim) l -> represents n idim jdim l ss ->
  exists ss', diag_right fuel n idim jdim mul idim d ss = Done ss' /\ represents n idim jdim (updated (fun i j x => mul x (d j)) l) ss'.
Proof.
  intros V mul d fuel n idim jdim l ss F NI NJ IN R. unfold diag_right. rewrite Z.eqb_refl. cbn [negb]. apply (updated_represents n idim jdim l ss NI R).
  apply (upd_done n idim jdim l ss _ _ NI IN R). intros c C. destruct (column_limits fuel n jdim c F ltac:(lia) C) as (lo & hi & EC & _ & _ & L1 & L2 & RNG). rewrite EC.
  replace ((0 <=? lo) && (lo <=? hi) && (hi <? idim)) with true by lia. eexists. split; [reflexivity|]. intros i j x J P. cbn beta. apply RNG in P; [|exact J]. replace ((0 <=? j - lo) && (j - lo <? hi - lo + 1)) with true by lia. reflexivity.
Qed.
Lemma rdl_map {A B} (f : A -> B) l x : rdl (map f l) x = (try a <- rdl l x; Done (f a)).
Proof. unfold rdl. destruct (0 <=? x); [|reflexivity]. rewrite nth_error_map. destruct (nth_error l (Z.to_nat x)); reflexivity. Qed.
Theorem C98_scale_partial : forall V (mul : V -> V -> V) a n idim jdim l ss,
  1 <= n <= idim -> 1 <= jdim -> Forall (inside idim jdim) l -> rows_used n idim l -> represents n idim jdim l ss ->
  exists ss', scale mul a ss = Done ss' /\ represents n idim jdim (updated (fun i j x => mul x a) l) ss'.
Proof.
  intros V mul a n idim jdim l ss NI NJ IN U R. unfold scale. apply (updated_represents n idim jdim l ss NI R). intros p s P N. exists (map (fun x => mul x a) (s_v s)). split.
  - destruct (s_v s) as [|x sv] eqn:SV; [|reflexivity]. exfalso. destruct (U p P) as (e & I & Pe). pose proof IN as IN'. rewrite Forall_forall in IN'. destruct (IN' e I) as [Hr Hc].
    pose proof R as [_ RR]. destruct (RR p s P N) as (L1 & L2 & RNG & BL & AP & ROWS). pose proof (owner_range n jdim (ecol e) ltac:(lia) NJ Hc) as OC.
    destruct (ROWS (owner n jdim (ecol e)) (erow e) OC) as (r & Er & Pr); [apply RNG; assumption|].
    assert (J : In (ecol e, evalue e) r). { apply (Permutation_in _ (Permutation_sym Pr)). apply row_part_In. destruct e as [[i j] x]. split; [exact I|]. rewrite <- owner_partb by (cbn in *; lia). apply Z.eqb_refl. }
    rewrite block_row_place in Er. destruct (row_place s _ _) as [[[x y]|]| |]; try discriminate; [|injection Er as <-; destruct J]. apply collect_inv in Er. rewrite SV in Er. inversion Er as [E1 E2|q b qs bs H1 H2 E1 E2]; [subst r; destruct J|].
    destruct (rdl (s_j s) q); try discriminate. unfold rdl in H1. destruct (0 <=? q); [|discriminate]. destruct (Z.to_nat q); discriminate.
  - intros c i r C I B. rewrite block_row_place in B |- *. change (row_place (with_values s (map (fun x => mul x a) (s_v s))) c i) with (row_place s c i). destruct (row_place s c i) as [[[x y]|]| |]; try discriminate; [|injection B as <-; reflexivity].
    cbn [with_values s_j s_v]. apply collect_inv in B. induction B as [|q b qs bs H1 H2 IH]; [reflexivity|]. cbn [collect upd_list map]. rewrite IH. rewrite rdl_map. destruct (rdl (s_j s) q) as [j| |]; try discriminate. destruct (rdl (s_v s) q) as [v| |]; try discriminate. injection H1 as <-. reflexivity.
Qed.
Example C98_ex : exists ss, represents 2 3 3 (all_elts 2 sq_els) ss /\ rows_used 2 3 (all_elts 2 sq_els) /\
  match shift_diag 2 Z.add 100 ss with
  | Done t => match diag_right 2 2 3 3 Z.mul 3 (fun j => j + 1) t with
              | Done u => match diag_left 2 3 Z.mul 3 (fun i => i + 2) u with
                          | Done w => match scale Z.mul (-1) w with
                                      | Done [a; b] => block_row a 0 0 = Done [(1, -8); (0, -210)] /\ block_row a 0 1 = Done [(0, -12)] /\ block_row b 0 2 = Done [(1, -56)] /\ block_row b 1 2 = Done [(2, -1320)]
                                      | _ => False end
                          | _ => False end
              | _ => False end
  | _ => False end.
Proof.
  destruct sq_rep as (ss & E & R). exists ss. split; [exact R|]. split; [apply sq_ok|]. vm_compute in E. injection E as <-. vm_compute. repeat split; reflexivity.
Qed.
(** The shift is not added where no element is stored: row 1 of the shifted matrix times
    (1, 1) is 0 and not 5. *)
Theorem C98_shift_refuted : exists (l : list (elt Z)) ss ss' l', represents 1 2 2 l ss /\ shift_diag 1 Z.add 5 ss = Done ss' /\ represents 1 2 2 l' ss' /\
  row_product Z.add Z.mul 0 l' (fun _ => 1) 1 = 0 /\ row_product Z.add Z.mul 0 l (fun _ => 1) 1 + 5 * 1 = 5.
Proof.
  destruct (C95_partial Z 2 1 2 2 (fun _ => [(0, 0, 1)]) [(0, 0)] [(0, 0)]) as (ss & E & R); [lia|lia|lia|apply Permutation_refl|apply Permutation_refl|intros q _; repeat constructor; cbn; lia| |].
  { intros p P. exists (0, 0, 1). split; [left; reflexivity|]. unfold in_part. cbn. lia. }
  destruct (C98_shift_partial Z Z.add 5 1 2 2 (all_elts 1 (fun _ => [(0, 0, 1)])) ss) as (ss' & E' & R'); [lia|repeat constructor; cbn; lia|exact R|].
  exists (all_elts 1 (fun _ => [(0, 0, 1)])), ss, ss', (updated (fun i j x => if i =? j then x + 5 else x) (all_elts 1 (fun _ => [(0, 0, 1)]))).
  split; [exact R|]. split; [exact E'|]. split; [exact R'|]. split; reflexivity.
Qed.
(** The diagonal that fits the columns is an error unless the matrix is square. *)
Theorem C98_right_refuted : exists (l : list (elt Z)) ss d, Forall (inside 3 4) l /\ rows_used 2 3 l /\ represents 2 3 4 l ss /\
  forall fuel, diag_right (3 + fuel) 2 3 4 Z.mul 4 d ss = Abort /\ diag_right (3 + fuel) 2 3 4 Z.mul 3 d ss = Abort.
Proof.
  destruct (C95_partial Z 2 2 3 4 ex_els ex_o ex_o) as (ss & E & R); [lia|lia|lia|exact ex_pairs|exact ex_pairs|exact ex_inside|exact ex_used|].
  exists (all_elts 2 ex_els), ss, (fun _ => 1). split; [apply (all_inside 2 2 3 4 ex_els); [lia|lia|exact ex_inside]|]. split; [exact ex_used|]. split; [exact R|]. vm_compute in E. injection E as <-. intros fuel. split; vm_compute; reflexivity.
Qed.
(** A process without elements makes scaling an error. *)
Theorem C98_scale_refuted : exists (l : list (elt Z)) ss, Forall (inside 2 2) l /\ represents 2 2 2 l ss /\ scale Z.mul 3 ss = Abort.
Proof.
  set (els := fun q : Z => if q =? 0 then [(0, 0, 1); (0, 1, 1)] else []).
  assert (IN : forall q, 0 <= q < 2 -> Forall (inside 2 2) (els q)) by (intros q _; unfold els; destruct (q =? 0); repeat constructor; cbn; lia).
  destruct (C95_safe_partial Z 2 2 2 2 els ex_o ex_o) as [E|(ss & E & R)]; [lia|lia|lia|exact ex_pairs|exact ex_pairs|exact IN|vm_compute in E; discriminate|].
  exists (all_elts 2 els), ss. split; [apply (all_inside 2 2 2 2 els); [lia|lia|exact IN]|]. split; [exact R|]. vm_compute in E. injection E as <-. vm_compute. reflexivity.
Qed.

Print Assumptions C97_column_partial.
Print Assumptions C97_diag_partial.
Print Assumptions C97_empty_refuted.
Print Assumptions C97_shape_refuted.
Print Assumptions C98_shift_partial.
Print Assumptions C98_left.
Print Assumptions C98_right_partial.
Print Assumptions C98_scale_partial.
Print Assumptions C98_shift_refuted.
Print Assumptions C98_right_refuted.
Print Assumptions C98_scale_refuted.
