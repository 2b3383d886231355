(** Property theorems: copies of sparse matrices (C107). *)
From Verif Require Import SpecSprs MBase MNb MHandle MGroup MSparse MSprs LNb LRadix LStore LIterBlk LSparse LSprs LSprs2 LSprs3 LSprs4 LSprs5 LSprs6 PSprs MSprs9.
Open Scope Z_scope.

Lemma copy_first_all {A} : forall (l : list A) k, length l = k -> copy_first k l = Done l.
Proof.
  intros l k <-. unfold copy_first. rewrite Nat2Z.id.
  assert (G : forall r h, l = h ++ r -> collect (rdl l) (zseq (zlen h) (length r)) = Done r).
  { induction r as [|x r IH]; intros h E; [reflexivity|]. cbn [length zseq collect]. unfold rdl at 1, zlen. replace (0 <=? Z.of_nat (length h)) with true by lia. rewrite Nat2Z.id. rewrite E at 1. rewrite nth_error_app2, Nat.sub_diag by lia. cbn [nth_error].
    specialize (IH (h ++ [x])). rewrite <- app_assoc in IH. specialize (IH E). unfold zlen in IH. rewrite app_length in IH. cbn [length] in IH. replace (Z.of_nat (length h) + 1) with (Z.of_nat (length h + 1)) by lia. rewrite IH. reflexivity. }
  exact (G l [] eq_refl).
Qed.
Lemma copy_all_same {V} : forall ss : list (sprs V), Forall (fun s => length (s_off s) = length (s_blk s)) ss -> copy_all ss = Done ss.
Proof.
  induction 1 as [|s ss H F IH]; [reflexivity|]. cbn [copy_all]. unfold copy_local. rewrite (copy_first_all (s_blk s) _ eq_refl), (copy_first_all (s_off s) _ H), IH. destruct s; reflexivity.
Qed.
Lemma offsets_length : forall l x, length (offsets_from x l) = length l.
Proof. induction l as [|a l IH]; intros x; [reflexivity|]. cbn. rewrite IH. reflexivity. Qed.
Lemma arrange_lengths {V} fuel n idim jdim p (loc : list (elt V)) s : arrange fuel n idim jdim p loc = Done s -> length (s_off s) = length (s_blk s).
Proof.
  unfold arrange. destruct (bin_all _ _ _ _) as [b| |]; try discriminate. destruct (col_blocks _ _ _) as [k| |]; try discriminate. destruct (_ && _); [|discriminate]. destruct (own_low _ _ _ _); try discriminate. destruct (high_limit _ _ _ _); try discriminate. destruct (all_blocks _ _ _) as [[ii es]| |]; try discriminate. intros E. injection E as <-. cbn [s_off s_blk]. rewrite offsets_length, !map_length. reflexivity.
Qed.
Lemma assemble_lengths {V} fuel n idim jdim (els : Z -> list (elt V)) o o' ss : assemble fuel n idim jdim els o o' = Done ss -> Forall (fun s => length (s_off s) = length (s_blk s)) ss.
Proof.
  unfold assemble. destruct (collect _ _) as [bs| |]; try discriminate. destruct (read_offsets _ _ _ _) as [size off]. destruct (_ <? n); [discriminate|]. destruct (send_all _ _ _ _ _ _ _) as [m| |]; try discriminate. destruct (collect (fun p => _) _) as [l| |] eqn:C; try discriminate. destruct (_ <? n); [discriminate|]. intros E. injection E as <-.
  apply collect_inv in C. induction C as [|p s ps l H F IH]; constructor; [|exact IH]. destruct (local_part _ _ _) as [loc| |]; try discriminate. exact (arrange_lengths _ _ _ _ _ _ _ H).
Qed.

(** * C107 *)
(** Whatever the default group: the copy of an assembled matrix has the elements of the
    original, on the same processes and in the same blocks.  If the default group has as many
    processes as that of the matrix, the copy also tells the same distribution of rows and
    columns. *)
Theorem C107_partial : forall V nnodes fuel idim jdim (els : Z -> list (elt V)) o o' ss g dflt,
  assemble fuel (nnodes g) idim jdim els o o' = Done ss ->
  let a := Matrix idim jdim g (nnodes g) ss in
  exists c, sprs_duplicate nnodes dflt a = Done c /\ m_grp c = g /\
    (forall me k i, row_of_block c me k i = row_of_block a me k i) /\ (forall f me, rows_of f c me me = rows_of f a me me) /\
    (nnodes dflt = nnodes g -> forall f me p, rows_of f c me p = rows_of f a me p /\ columns_of f c p = columns_of f a p).
Proof.
  intros V nnodes fuel idim jdim els o o' ss g dflt A a. apply assemble_lengths in A. unfold sprs_duplicate, a. cbn [m_on m_idim m_jdim m_grp m_nprocs created]. rewrite (copy_all_same ss A). eexists. split; [reflexivity|]. split; [reflexivity|]. split; [reflexivity|]. split.
  - intros f me. unfold rows_of. rewrite Z.eqb_refl. reflexivity.
  - intros E f me p. rewrite E. split; reflexivity.
Qed.
(** ... and the copy can be used as the original: it stands for the elements added. *)
Theorem C107_represents : forall V nnodes fuel idim jdim (els : Z -> list (elt V)) o o' ss g dflt l,
  assemble fuel (nnodes g) idim jdim els o o' = Done ss -> represents (nnodes g) idim jdim l ss ->
  exists c, sprs_duplicate nnodes dflt (Matrix idim jdim g (nnodes g) ss) = Done c /\ represents (nnodes g) idim jdim l (m_on c).
Proof.
  intros V nnodes fuel idim jdim els o o' ss g dflt l A R. apply assemble_lengths in A. unfold sprs_duplicate. cbn [m_on]. rewrite (copy_all_same ss A). eexists. split; [reflexivity|exact R].
Qed.
Example C107_ex : exists ss c, assemble 2 2 3 4 ex_els ex_o ex_o = Done ss /\ sprs_duplicate (fun g => if g =? 0 then 2 else 1) 0 (Matrix 3 4 0 2 ss) = Done c /\
  row_of_block c 1 1 2 = Done [(3, 7); (3, 10)] /\ columns_of 2 c 1 = Done (2, 3) /\ rows_of 2 c 0 1 = Done (2, 2).
Proof. eexists. eexists. split; [vm_compute; reflexivity|]. split; [vm_compute; reflexivity|]. repeat split; vm_compute; reflexivity. Qed.
(** If the default group has fewer processes, the copy tells that columns 4 .. 3 are in block 1
    (of the original: 2 .. 3), in which it has an element of column 3; and process 0 tells
    that process 1 has no rows. *)
Theorem C107_group_refuted : exists nnodes g dflt ss c, assemble 2 (nnodes g) 3 4 ex_els ex_o ex_o = Done ss /\ 1 <= nnodes dflt /\
  let a := Matrix 3 4 g (nnodes g) ss in
  sprs_duplicate nnodes dflt a = Done c /\ row_of_block c 1 1 2 = Done [(3, 7); (3, 10)] /\
  columns_of 2 a 1 = Done (2, 3) /\ columns_of 2 c 1 = Done (4, 3) /\ rows_of 2 a 0 1 = Done (2, 2) /\ rows_of 2 c 0 1 = Done (3, 2).
Proof.
  exists (fun g => if g =? 0 then 2 else 1), 0, 1. eexists. eexists. split; [vm_compute; reflexivity|]. split; [vm_compute; discriminate|]. cbv zeta. split; [vm_compute; reflexivity|]. repeat split; vm_compute; reflexivity.
Qed.

Print Assumptions C107_partial.
Print Assumptions C107_represents.
Print Assumptions C107_group_refuted.
