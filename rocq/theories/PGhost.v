(** Theorems on ghost cells (C71, C72). *)
From Coq Require Import ZArith List Lia Bool.
From Verif Require Import SpecBox SpecStore SpecPeri SpecGhost MBase SpecCopy MXfer MOdo MGhost LRadix LAxis LGhost7 PDist PIter.

(** * C71: ga_update_ghosts fills every ghost cell. *)
Theorem C71_update_partial : forall V guess a seg set (m : Z -> pmem V),
  good_guess guess -> ghost_array a -> ghosts_allocated a seg m ->
  exists tabs m', allocate_ghosts guess a seg set = Some tabs /\
    update_ghosts (ga_elemsize a) tabs m = Some m' /\ ghosts_updated true a seg m m'.
Proof.
  intros V guess a seg set m Hg HA HM. unfold allocate_ghosts, corner_flag_alloc.
  replace (negb (Nat.eqb (length (dims (ga_desc a))) 0)) with true; [now apply update_ok|].
  destruct HA as ((_ & D & _) & _). destruct (dims (ga_desc a)); [congruence|reflexivity].
Qed.
Print Assumptions C71_update_partial.

(** * C72: with the corner flag switched off on an allocated array, the faces
    are filled and the corners are left alone; switched on, all are filled. *)
Theorem C72_corner_flag_partial : forall V guess a seg flag (m : Z -> pmem V),
  good_guess guess -> ghost_array a -> ghosts_allocated a seg m ->
  exists tabs m', set_corner_flag guess a seg flag = Some tabs /\
    update_ghosts (ga_elemsize a) tabs m = Some m' /\ ghosts_updated flag a seg m m'.
Proof. intros V guess a seg flag m Hg HA HM. now apply update_ok. Qed.
Print Assumptions C72_corner_flag_partial.

(** ** A case that meets the hypotheses: a 7 x 8 array on a 2 x 2 grid. *)
Definition ex_ghost : garray :=
  {| ga_desc := {| distr_type := REGULAR; dims := [7; 8]; nblock := [2; 2]; mapc := [1; 4; 1; 5];
                   block_dims := []; num_blocks := []; rstrctd_list := []; rank_rstrctd := [] |};
     ga_width := [1; 2]; ga_group := None; ga_nproc := 4; ga_elemsize := 8 |}.
Definition ex_seg (p : Z) : Z := 10 + p.
(** Cell (x, y) of a process is 100 x + y; the ghost cells hold 0. *)
Definition ex_cell (o rows x0 cols y0 : Z) : Z :=
  let i := o mod (rows + 2) in let j := o / (rows + 2) in
  if (1 <=? i) && (i <=? rows) && (2 <=? j) && (j <=? cols + 1) then 100 * (x0 + i - 1) + (y0 + j - 2) else 0.
Definition ex_mem (p : Z) : pmem Z := fun s o =>
  if s =? ex_seg p then
    Some (if p =? 0 then ex_cell o 3 1 4 1 else if p =? 1 then ex_cell o 4 4 4 1
          else if p =? 2 then ex_cell o 3 1 4 5 else ex_cell o 4 4 4 5)
  else None.
Example ex_ghost_ok : ghost_array ex_ghost.
Proof.
  split.
  { split; [reflexivity|]. split; [discriminate|]. split; [|left; split; [reflexivity|cbn; lia]].
    cbn [valid_maps ex_ghost ga_desc dims nblock mapc]. split; [solve_map|]. change (zdrop 2 [1; 4; 1; 5]) with [1; 5]. split; [solve_map|exact I]. }
  split; [reflexivity|]. split; [reflexivity|]. split; [reflexivity|]. split; [cbn; lia|]. split; [reflexivity|]. split; [repeat constructor; lia|]. split; [cbn; lia|].
  intros p lo hi Hp D. cbn [ga_nproc ex_ghost] in Hp. assert (P : p = 0 \/ p = 1 \/ p = 2 \/ p = 3) by lia.
  destruct P as [E|[E|[E|E]]]; subst p; vm_compute in D; injection D as <- <-; (split; [repeat constructor; lia|]); (split; [repeat constructor; vm_compute; discriminate|]); vm_compute; discriminate.
Qed.
Example ex_mem_allocated : ghosts_allocated ex_ghost ex_seg ex_mem.
Proof. intros p lo hi x Hp D C. unfold ex_mem. rewrite Z.eqb_refl. discriminate. Qed.
(** The row of process 0 above its block, before and after the update: the
    elements of row 7 (the array is periodic) with columns 7, 8, 1, ..., 6. *)
Definition ex_after flag (f : (Z -> pmem Z) -> list (option Z)) : option (list (option Z)) :=
  do tabs <- ghost_tables ex_guess ex_ghost ex_seg flag; do m' <- update_ghosts 8 tabs ex_mem; Some (f m').
Example C71_ex_before : map (fun j => ex_mem 0 10 (5 * j)) [0; 1; 2; 3; 4; 5; 6; 7] =
  [Some 0; Some 0; Some 0; Some 0; Some 0; Some 0; Some 0; Some 0].
Proof. vm_compute. reflexivity. Qed.
Example C71_ex_after : ex_after true (fun m' => map (fun j => m' 0 10 (5 * j)) [0; 1; 2; 3; 4; 5; 6; 7]) =
  Some [Some 707; Some 708; Some 701; Some 702; Some 703; Some 704; Some 705; Some 706].
Proof. vm_compute. reflexivity. Qed.
Example C72_ex_after : ex_after false (fun m' => map (fun j => m' 0 10 (5 * j)) [0; 1; 2; 3; 4; 5; 6; 7]) =
  Some [Some 0; Some 0; Some 701; Some 702; Some 703; Some 704; Some 0; Some 0].
Proof. vm_compute. reflexivity. Qed.

(** ** What fails beyond the hypotheses. *)

(** (a) The check of the widths lets a block pass that is one smaller than the
    ghost cells of its neighbour; the update then waits for a message that no
    process sends (the outcome [None]). *)
Definition ex_thin : garray :=
  {| ga_desc := {| distr_type := REGULAR; dims := [8]; nblock := [3]; mapc := [1; 4; 5];
                   block_dims := []; num_blocks := []; rstrctd_list := []; rank_rstrctd := [] |};
     ga_width := [2]; ga_group := None; ga_nproc := 3; ga_elemsize := 8 |}.
Theorem C71_width_refuted : exists a seg tabs (m : Z -> pmem Z),
  wf_array a /\ ga_group a = None /\ zprod (nblock (ga_desc a)) = ga_nproc a /\
  check_ghost_distr (dims (ga_desc a)) (nblock (ga_desc a)) (mapc (ga_desc a)) (ga_width a) = Some true /\
  ghosts_allocated a seg m /\ allocate_ghosts ex_guess a seg None = Some tabs /\
  update_ghosts (ga_elemsize a) tabs m = None.
Proof.
  exists ex_thin, ex_seg. eexists. exists (fun p s o => Some 0). split.
  { split; [|split; [reflexivity|split; [repeat constructor; lia|split; [exact I|cbn; lia]]]].
    split; [reflexivity|]. split; [discriminate|]. split; [|left; split; [reflexivity|cbn; lia]].
    cbn [valid_maps ex_thin ga_desc dims nblock mapc]. split; [solve_map|exact I]. }
  split; [reflexivity|]. split; [reflexivity|]. split; [reflexivity|]. split; [discriminate|]. split; [vm_compute; reflexivity|]. vm_compute. reflexivity.
Qed.
Print Assumptions C71_width_refuted.

(** (b) An array on a group that is not the world: the processes use their world
    rank as a rank in the group, and the creation stops. *)
Definition ex_ghost_grp : garray :=
  {| ga_desc := ga_desc ex_ghost; ga_width := [1; 2]; ga_group := Some [2; 3; 4; 5]; ga_nproc := 4; ga_elemsize := 8 |}.
Theorem C71_group_refuted : exists a, wf_array a /\ zprod (nblock (ga_desc a)) = ga_nproc a /\
  ghost_array {| ga_desc := ga_desc a; ga_width := ga_width a; ga_group := None; ga_nproc := ga_nproc a; ga_elemsize := ga_elemsize a |} /\
  forall seg set, allocate_ghosts ex_guess a seg set = None.
Proof.
  exists ex_ghost_grp. split.
  { split; [apply ex_ghost_ok|]. split; [reflexivity|]. split; [repeat constructor; lia|]. split; [|cbn; lia]. split; [|reflexivity]. repeat constructor; cbn; lia. }
  split; [reflexivity|]. split; [exact ex_ghost_ok|]. intros seg set. vm_compute. reflexivity.
Qed.
Print Assumptions C71_group_refuted.

(** (c) A duplicate: the table holds the pointers from before the allocation of
    the memory.  Whatever the update does, it does not fill the ghost cells of
    the new array (here the old pointers lead to memory that is allocated). *)
Definition ex_stale (p : Z) : Z := 20 + p.
Definition ex_mem2 (p : Z) : pmem Z := fun s o => if s =? ex_stale p then Some (5 * p + o) else ex_mem p s o.
Theorem C71_duplicate_refuted : exists a stale seg tabs (m : Z -> pmem Z),
  ghost_array a /\ ghosts_allocated a seg m /\ duplicate_ghosts ex_guess a stale true = Some tabs /\
  exists m', update_ghosts (ga_elemsize a) tabs m = Some m' /\ ~ ghosts_updated true a seg m m' /\
    m' 0 (stale 0) 0 <> m 0 (stale 0) 0.
Proof.
  assert (MA : forall seg, seg = ex_seg \/ seg = ex_stale -> ghosts_allocated ex_ghost seg ex_mem2).
  { intros seg [-> | ->] p lo hi x Hp D C; unfold ex_mem2, ex_mem; rewrite ?Z.eqb_refl; try discriminate; destruct (ex_seg p =? ex_stale p); discriminate. }
  destruct (C72_corner_flag_partial Z ex_guess ex_ghost ex_stale true ex_mem2 ex_guess_good ex_ghost_ok (MA _ (or_intror eq_refl))) as (tabs & m' & T & U & _).
  exists ex_ghost, ex_stale, ex_seg, tabs, ex_mem2. split; [exact ex_ghost_ok|]. split; [apply MA; now left|]. split; [exact T|]. exists m'. split; [exact U|].
  assert (X : (do tabs <- set_corner_flag ex_guess ex_ghost ex_stale true; do m' <- update_ghosts 8 tabs ex_mem2; Some (m' 0 20 0, m' 0 10 10)) = Some (Some 43, Some 0)) by (vm_compute; reflexivity).
  rewrite T in X. change (ga_elemsize ex_ghost) with 8 in U. rewrite U in X. injection X as X1 X2. change (ex_stale 0) with 20. rewrite X1. split; [|vm_compute; discriminate].
  intros (Up & _). destruct (Up 0 [1; 1] [3; 4] [0; 1]) as (_ & Y); [cbn; lia|reflexivity|vm_compute; repeat split; discriminate|exact I|].
  specialize (Y (1, 16)). assert (Q : reg_place ex_ghost (wrapv [7; 8] [0; 1]) (1, 16)).
  { exists 1, [4; 1], [7; 4]. split; [cbn; lia|]. split; [reflexivity|]. split; [vm_compute; repeat split; discriminate|]. split; reflexivity. }
  specialize (Y Q). change (ghost_cell _ _ _ _) with 10 in Y. change (ex_seg 0) with 10 in Y. rewrite X2 in Y. vm_compute in Y. discriminate.
Qed.
Print Assumptions C71_duplicate_refuted.

(** (d) The corner flag chosen before the allocation has no effect: the corners
    of an array that was set up to leave them alone are overwritten. *)
Theorem C72_before_allocation_refuted : exists a seg tabs (m m' : Z -> pmem Z),
  ghost_array a /\ ghosts_allocated a seg m /\ allocate_ghosts ex_guess a seg (Some false) = Some tabs /\
  update_ghosts (ga_elemsize a) tabs m = Some m' /\ ~ ghosts_updated false a seg m m'.
Proof.
  destruct (C71_update_partial Z ex_guess ex_ghost ex_seg (Some false) ex_mem ex_guess_good ex_ghost_ok ex_mem_allocated) as (tabs & m' & T & U & _).
  exists ex_ghost, ex_seg, tabs, ex_mem, m'. split; [exact ex_ghost_ok|]. split; [exact ex_mem_allocated|]. split; [exact T|]. split; [exact U|].
  assert (E0 : (do tabs <- allocate_ghosts ex_guess ex_ghost ex_seg (Some false); do m' <- update_ghosts 8 tabs ex_mem; Some (m' 0 10 0)) = Some (Some 707)) by (vm_compute; reflexivity).
  rewrite T in E0. change (ga_elemsize ex_ghost) with 8 in U. rewrite U in E0. injection E0 as E0.
  intros (_ & _ & X). specialize (X 0 10 0). rewrite E0 in X. cut (Some 707 = ex_mem 0 10 0); [vm_compute; discriminate|].
  apply X. intros lo hi x Hp D _ C F E. vm_compute in D. injection D as <- <-.
  destruct x as [|x [|y [|? ?]]]; cbn in C; try tauto. destruct C as (C1 & C2 & _). cbn [ghost_cell lin padded vadd vsub ga_width ex_ghost] in E.
  destruct F as (i & F). destruct (Nat.eq_dec i 0) as [->|N].
  - specialize (F 1%nat ltac:(cbn; lia) ltac:(lia)). cbn in F. lia.
  - specialize (F 0%nat ltac:(cbn; lia) ltac:(lia)). cbn in F. lia.
Qed.
Print Assumptions C72_before_allocation_refuted.
