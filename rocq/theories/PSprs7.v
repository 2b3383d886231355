(** Property theorem: writing a sparse matrix to a file (C104). *)
From Verif Require Import SpecSprs MBase MNb MHandle MGroup MSparse MSprs MSprs2 MSprs3 MSprs7 LNb LRadix LStore LIterBlk LTile LSprs LSprs2 LSprs3 LSprs4 LSprs5 LSprs6 LSprs7 LSprs11 LSprs13 PSprs PSprs2.
From Coq Require Import Permutation.
Open Scope Z_scope.

(** The line for an element: row and column from 1, and the value. *)
Definition line_of {V} (e : elt V) : Z * Z * V := (erow e + 1, ecol e + 1, evalue e).

(** The blocks that exist have all elements of a row. *)
Lemma row_blocks {V} n idim d (l : list (elt V)) ss p s i : 1 <= n <= idim -> 1 <= d -> Forall (inside idim d) l -> represents n idim d l ss ->
  0 <= p < n -> nth_error ss (Z.to_nat p) = Some s -> NoDup (s_blk s) -> s_ilo s <= i <= s_ihi s ->
  Permutation (flat_map (fun c => row_of s c i) (s_blk s)) (map (fun e => (ecol e, evalue e)) (filter (fun e => erow e =? i) l)).
Proof.
  intros NI NJ IN R P Es ND I. pose proof R as [LS RR]. destruct (RR p s P Es) as (A1 & A2 & A3 & A4 & _ & A6).
  rewrite <- (row_parts_all n idim NI idim d l i NJ IN). 
  eapply perm_trans; [apply (flat_map_perm_in _ (fun c => row_part n d c i l)); intros c C; apply A4 in C; destruct C as [C _]; apply (row_of_ok n idim d l ss R p s c i P Es C I)|].
  set (fl := filter (fun c => if in_dec Z.eq_dec c (s_blk s) then true else false) (zseq 0 (Z.to_nat n))).
  apply perm_trans with (flat_map (fun c => row_part n d c i l) fl); [apply Permutation_flat_map|].
  - apply NoDup_Permutation; [exact ND|apply NoDup_filter, zseq_NoDup|]. intros c. unfold fl. rewrite filter_In, zseq_In. destruct (in_dec Z.eq_dec c (s_blk s)) as [X|X].
    + split; [|intros _; exact X]. intros _. apply A4 in X. split; [lia|reflexivity].
    + split; [contradiction|intros [_ Q]; discriminate].
  - unfold fl. induction (zseq 0 (Z.to_nat n)) as [|c cs IH]; [constructor|]. cbn [filter flat_map]. destruct (in_dec Z.eq_dec c (s_blk s)) as [X|X]; [cbn [flat_map]; apply Permutation_app_head; exact IH|].
    assert (E : row_part n d c i l = []).
    { destruct (row_part n d c i l) as [|[k x] t] eqn:RP; [reflexivity|exfalso]. assert (In (k, x) (row_part n d c i l)) as IK by (rewrite RP; left; reflexivity). apply row_part_In in IK. destruct IK as [IK PB]. apply in_partb_spec in PB. apply X. apply A4.
      rewrite Forall_forall in IN. destruct (IN _ IK) as [Hr Hc]. unfold erow, ecol in *. cbn [fst snd] in *. split.
      - assert (owner n d k = c) by (apply owner_part; [lia|lia|lia|exact PB]). pose proof (owner_range n d k ltac:(lia) ltac:(lia) Hc). lia.
      - exists (i, k, x). split; [exact IK|]. unfold erow, ecol. cbn [fst snd]. split; [apply A3; [lia|exact I]|exact PB]. }
    rewrite E. exact IH.
Qed.

(** * C104: the file has each element once *)
Theorem C104_partial : forall V R (kd : kind) (re im : V -> R) (mk : R -> R -> V) n idim jdim l ss,
  (forall x, mk (re x) (im x) = x) -> 1 <= n <= idim -> 1 <= jdim -> Forall (inside idim jdim) l -> rows_used n idim l -> represents n idim jdim l ss ->
  Forall (fun s => NoDup (s_blk s)) ss -> Forall placed ss -> Forall (fits kd) ss ->
  exists ls, export kd n re im mk ss = Done ls /\ Permutation ls (map line_of l).
Proof.
  intros V R kd re im mk n idim jdim l ss MK NI NJ IN U RP ONCE PL FT. pose proof RP as [LS RR]. unfold export.
  rewrite Forall_forall in ONCE, PL, FT.
  match goal with |- exists ls, gather ?f _ = _ /\ _ => destruct (gather_perm f (fun p => map line_of (filter (fun e => owner n idim (erow e) =? p) l)) (zseq 0 (Z.to_nat n))) as (ls & E & PM) end.
  - intros p P. apply zseq_In in P. destruct (nth_error ss (Z.to_nat p)) as [s|] eqn:Es; [|apply nth_error_None in Es; lia].
    destruct (RR p s ltac:(lia) Es) as (A1 & A2 & A3 & A4 & _ & A6). pose proof (nth_error_In _ _ Es) as IS.
    assert (NV : s_v s <> []).
    { destruct (U p ltac:(lia)) as (e & Ie & Pe). rewrite Forall_forall in IN. destruct (IN e Ie) as [Hr Hc]. pose proof (owner_range n jdim (ecol e) ltac:(lia) NJ Hc) as OR.
      destruct (A6 (owner n jdim (ecol e)) (erow e) OR ltac:(apply A3; assumption)) as (r & Er & Pr). apply (block_row_elt s _ _ r Er). intros ->. apply Permutation_nil in Pr.
      assert (X : In (ecol e, evalue e) (row_part n jdim (owner n jdim (ecol e)) (erow e) l)); [|rewrite Pr in X; exact X]. apply row_part_In. split; [destruct e as [[a b] x]; exact Ie|]. apply in_partb_spec. apply owner_part; [lia|lia|lia|reflexivity]. }
    replace (length (s_v s) =? 0)%nat with false by (destruct (s_v s); [congruence|reflexivity]).
    destruct (gather_perm (fun i => export_blocks kd re im mk s i (s_blk s) (sizes_of (s_off s) (Z.of_nat (length (s_v s)))) 0 0) (fun i => map line_of (filter (fun e => erow e =? i) l)) (rows_of s)) as (r & Er & Pr).
    + intros i I. apply rows_of_In in I; [|lia]. destruct (PL s IS) as [P1 P2]. eexists. split.
      * apply (export_blocks_ok kd re im mk MK s i (fun c => row_of s c i) _ (FT s IS) (ONCE s IS)) with (pre := []) (po := []); [|reflexivity|reflexivity|reflexivity|exact P1|exact P2|reflexivity].
        intros c C. apply A4 in C. destruct C as [C _]. apply (row_of_ok n idim jdim l ss RP p s c i ltac:(lia) Es C I).
      * rewrite <- map_flat. eapply perm_trans; [apply Permutation_map, (row_blocks n idim jdim l ss p s i NI NJ IN RP ltac:(lia) Es (ONCE s IS) I)|]. rewrite map_map.
        rewrite (map_ext_in (fun x => line i (ecol x, evalue x)) line_of); [apply Permutation_refl|]. intros e Ie. apply filter_In in Ie. destruct Ie as [_ Ie]. apply Z.eqb_eq in Ie. unfold line, line_of. cbn [fst snd]. rewrite Ie. reflexivity.
    + exists r. split; [exact Er|]. eapply perm_trans; [exact Pr|]. rewrite <- map_flat. apply Permutation_map.
      apply (own_rows n idim jdim l IN s ltac:(lia) p). intros i Hi. rewrite (A3 i Hi). split; intros X; apply owner_part; solve [lia|exact X].
  - exists ls. split; [exact E|]. eapply perm_trans; [exact PM|]. rewrite <- map_flat. apply Permutation_map. apply parts_perm. apply Forall_forall. intros e Ie. rewrite Forall_forall in IN. destruct (IN e Ie) as [Hr _].
    pose proof (owner_range n idim (erow e) ltac:(lia) ltac:(lia) Hr). lia.
Qed.
(** Every matrix that is assembled, of a type that is neither complex nor long long. *)
Theorem C104_assembled : forall V R (re im : V -> R) (mk : R -> R -> V) fuel n idim jdim (els : Z -> list (elt V)) o o',
  (forall x, mk (re x) (im x) = x) -> (2 <= fuel)%nat -> 1 <= n <= idim -> 1 <= jdim -> all_pairs n o -> all_pairs n o' -> (forall q, 0 <= q < n -> Forall (inside idim jdim) (els q)) ->
  rows_used n idim (all_elts n els) ->
  exists ss ls, assemble fuel n idim jdim els o o' = Done ss /\ export Real n re im mk ss = Done ls /\ Permutation ls (map line_of (all_elts n els)).
Proof.
  intros V R re im mk fuel n idim jdim els o o' MK FU NI NJ O1 O2 IN U. destruct (C95_partial V fuel n idim jdim els o o' FU NI NJ O1 O2 IN U) as (ss & E & RP).
  destruct (C104_partial V R Real re im mk n idim jdim (all_elts n els) ss MK NI NJ) as (ls & E' & P); [exact (all_inside fuel n idim jdim els FU NI IN)|exact U|exact RP|exact (assemble_once _ _ _ _ _ _ _ _ E)|exact (assemble_placed _ _ _ _ _ _ _ _ E)|apply Forall_forall; intros s _; left; reflexivity|].
  exists ss, ls. split; [exact E|]. split; [exact E'|exact P].
Qed.

Example C104_ex : exists ss, Forall (inside 3 3) (all_elts 2 sq_els) /\ rows_used 2 3 (all_elts 2 sq_els) /\ represents 2 3 3 (all_elts 2 sq_els) ss /\ Forall (fun s => NoDup (s_blk s)) ss /\ Forall placed ss /\ Forall (fits Real) ss /\
  export Real 2 (fun x => x) (fun x => x) (fun x _ => x) ss = Done [(1, 2, 2); (1, 1, 5); (2, 1, 4); (2, 3, 1); (3, 2, 7); (3, 3, 10)].
Proof.
  destruct sq_ok as (I & _ & U & _). destruct sq_rep as (ss & E & R). exists ss. split; [exact I|]. split; [exact U|]. split; [exact R|]. split; [exact (assemble_once _ _ _ _ _ _ _ _ E)|]. split; [exact (assemble_placed _ _ _ _ _ _ _ _ E)|].
  split; [apply Forall_forall; intros s _; left; reflexivity|]. vm_compute in E. injection E as <-. vm_compute. reflexivity.
Qed.
Definition cplx_els (q : Z) : list (elt (Z * Z)) := if q =? 0 then [(0, 0, (1, 2)); (0, 1, (3, 4))] else [(1, 1, (5, 6))].
(** The numbers of a complex matrix are read from wrong places in every block but the
    first of a process; nothing is written for C_LONGLONG; and a process without elements
    ends the program. *)
Theorem C104_types_refuted :
  (forall q, 0 <= q < 2 -> Forall (inside 2 2) (cplx_els q)) /\ rows_used 2 2 (all_elts 2 cplx_els) /\ exists ss ls, assemble 2 2 2 2 cplx_els ex_o ex_o = Done ss /\
  export Complex 2 fst snd pair ss = Done ls /\ ~ Permutation ls (map line_of (all_elts 2 cplx_els)) /\ In (1, 2, (2, 3)) ls /\ export LongLong 2 fst snd pair ss = Done [].
Proof.
  split; [intros q Q; assert (q = 0 \/ q = 1) as [->| ->] by lia; repeat constructor; cbn; lia|]. split.
  { intros p P. assert (p = 0 \/ p = 1) as [->| ->] by lia; [exists (0, 0, (1, 2))|exists (1, 1, (5, 6))]; (split; [vm_compute; auto 10|]); unfold in_part; cbn; lia. }
  eexists. eexists. split; [vm_compute; reflexivity|]. split; [vm_compute; reflexivity|]. split; [|split; [right; left; reflexivity|vm_compute; reflexivity]].
  intros P. apply (Permutation_in (1, 2, (2, 3))) in P; [|right; left; reflexivity]. cbn in P. repeat (destruct P as [P|P]; [discriminate|]). exact P.
Qed.
Definition gap_els (q : Z) : list (elt Z) := if q =? 0 then [(0, 0, 1); (0, 1, 3)] else [].
Theorem C104_empty_refuted : exists ss, Forall (inside 2 2) (all_elts 2 gap_els) /\ assemble 2 2 2 2 gap_els ex_o ex_o = Done ss /\ represents 2 2 2 (all_elts 2 gap_els) ss /\
  forall R (re im : Z -> R) mk, export Real 2 re im mk ss = Abort.
Proof.
  destruct (C95_safe_partial Z 2 2 2 2 gap_els ex_o ex_o) as [E|(ss & E & R)]; [lia|lia|lia|exact ex_pairs|exact ex_pairs|intros q _; unfold gap_els; destruct (q =? 0); repeat constructor; cbn; lia|vm_compute in E; discriminate|].
  exists ss. split; [repeat constructor; cbn; lia|]. split; [exact E|]. split; [exact R|]. vm_compute in E. injection E as <-. intros T re im mk. vm_compute. reflexivity.
Qed.

Print Assumptions C104_partial.
Print Assumptions C104_assembled.
Print Assumptions C104_types_refuted.
Print Assumptions C104_empty_refuted.
