(** Property theorems: automatic decomposition and default distribution (C03, C04). *)
From Verif Require Import LDecomp.
Open Scope Z_scope.

(** * C04: the process grid multiplies out to the number of processes. *)
Theorem C04_grid_uses_every_process : forall wlt ardims npes blk,
  1 <= npes -> ardims <> [] -> length blk = length ardims ->
  let pe := fst (ddb_h2 wlt ardims npes blk) in
  length pe = length ardims /\ zprod pe = npes /\ Forall (fun p => 1 <= p) pe.
Proof.
  intros wlt ardims npes blk H1 H2 H3. cbv zeta.
  destruct (ddb_h2_spec wlt ardims npes blk H1 H2 H3) as (L1 & _ & HP & HF & _). auto.
Qed.
Print Assumptions C04_grid_uses_every_process.

(** A comparison that behaves like the C one on these weights. *)
Definition wlt_exact (a b : weight) : bool :=
  match a, b with
  | W_full, _ => false
  | W_frac _ _, W_full => true
  | W_frac n d, W_frac n' d' => n * d' <? n' * d
  end.

Example C04_ex : ddb_h2 wlt_exact [30; 20; 7] 12 [-1; -1; -1] = ([6; 2; 1], [5; 10; 7]).
Proof. vm_compute. reflexivity. Qed.

(** * C03: validity of the default maps and bound of the scratch buffer
    (an overrun would give [None]). *)
Theorem C03_default_distribution_valid : forall wlt ganproc maxdim npes dims chunk,
  dims <> [] -> Z.of_nat (length dims) <= maxdim -> length chunk = length dims ->
  Forall (fun d => 1 <= d) dims -> 1 <= npes <= ganproc ->
  exists nb m, default_distribution wlt ganproc maxdim npes dims chunk = Some (nb, m) /\
    strict_maps dims nb m /\ zprod nb <= npes /\ Z.of_nat (length m) = zsum nb.
Proof.
  intros wlt ganproc maxdim npes ds cs H1 H2 H3 H4 H5.
  destruct (default_distribution_spec wlt ganproc maxdim npes ds cs H1 H2 H3 H4 H5)
    as (nb & m & E & HS & HP & HL & _). eauto 6.
Qed.
Print Assumptions C03_default_distribution_valid.

(** Hence every element of an array created without explicit distribution has
    exactly one owner (C01 applies). *)
Theorem C03_default_array_wf : forall wlt ganproc maxdim npes dms chunk,
  dms <> [] -> Z.of_nat (length dms) <= maxdim -> length chunk = length dms ->
  Forall (fun d => 1 <= d) dms -> 1 <= npes <= ganproc ->
  exists nb m, default_distribution wlt ganproc maxdim npes dms chunk = Some (nb, m) /\
    wf_strict_regular npes
      {| distr_type := REGULAR; dims := dms; nblock := nb; mapc := m ++ [-1];
         block_dims := []; num_blocks := []; rstrctd_list := []; rank_rstrctd := [] |}.
Proof.
  intros wlt ganproc maxdim npes ds cs H1 H2 H3 H4 H5.
  destruct (default_distribution_spec wlt ganproc maxdim npes ds cs H1 H2 H3 H4 H5)
    as (nb & m & E & HS & HP & HL & _).
  exists nb, m. split; auto.
  assert (strict_maps ds nb (m ++ [-1])) as HS'.
  { clear - HS. revert nb m HS; induction ds as [|d ds IH]; intros [|n nb] m; cbn [strict_maps]; try tauto.
    intros [Hs HS]. pose proof Hs as (Hn & Hl & _). split.
    - destruct Hs as (Q1 & Q2 & Q3 & Q4 & Q5). repeat split; auto.
      + rewrite app_length. lia.
      + rewrite app_nth1 by lia. auto.
      + intros i Hi. rewrite !app_nth1 by lia. auto.
      + rewrite app_nth1 by lia. auto.
    - rewrite skipn_app. replace (Z.to_nat n - length m)%nat with 0%nat by lia. apply IH; auto. }
  split; auto. split; [reflexivity|]. split; [auto|]. split; [apply strict_valid; auto|].
  left. split; [reflexivity|auto].
Qed.
Print Assumptions C03_default_array_wf.

(** Balance and chunk hints: axes without a hint are cut into blocks whose
    sizes differ by at most one; axes with a hint c > 1 are cut into multiples
    of min(c, extent), except the last block. *)
Theorem C03_default_shape : forall wlt ganproc maxdim npes dims chunk nb m,
  dims <> [] -> Z.of_nat (length dims) <= maxdim -> length chunk = length dims ->
  Forall (fun d => 1 <= d) dims -> 1 <= npes <= ganproc ->
  default_distribution wlt ganproc maxdim npes dims chunk = Some (nb, m) ->
  each_axis (fun d c n mp =>
     (c <= 1 -> balanced d n mp) /\
     (1 < c -> nth 0 chunk 0 <> 0 -> multiples (Z.min c d) d n mp)) dims chunk nb m.
Proof. exact default_distribution_shape. Qed.
Print Assumptions C03_default_shape.

Example C03_ex : default_distribution wlt_exact 12 7 12 [30; 20; 7] [-1; 6; -1] =
  Some ([6; 2; 1], [1; 6; 11; 16; 21; 26;  1; 13;  1]).
Proof. vm_compute. reflexivity. Qed.
