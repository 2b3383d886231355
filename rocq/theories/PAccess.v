(** Property theorems: direct access to local memory (C17, C52, C53). *)
From Verif Require Import LAccess LStore PDist PIter PIterBlk.
Open Scope Z_scope.

(** * C17 *)
(** [access_block_ptr] hands out a process, an offset in its memory and
    leading dimensions; the elements of the block are found there at the places
    that put and get use (C13, C14).  Proved for arrays on the world group. *)
Theorem C17_block_cyclic_access_partial : forall a k,
  distr_type (ga_desc a) = BLOCK_CYCLIC -> wf_blocked (ga_desc a) -> ga_group a = None ->
  1 <= ga_nproc a -> 0 <= k < zprod (num_blocks (ga_desc a)) ->
  exists lo hi p off ld, distribution (ga_desc a) k = Some (lo, hi) /\
    access_block_ptr (ga_nproc a) a k = Some (p, off, ld) /\
    block_home (ga_nproc a) (ga_desc a) k = Some p /\ length lo = S (length ld) /\
    forall x, in_box lo hi x -> block_place a x (p, off + lin ld (vsub x lo)).
Proof. intros. apply access_bc; assumption. Qed.
Print Assumptions C17_block_cyclic_access_partial.

Theorem C17_tiled_irreg_access_partial : forall wn a k,
  distr_type (ga_desc a) = TILED_IRREG -> wf_strict_tiled_irreg (ga_desc a) ->
  wf_grid (ga_nproc a) (ga_desc a) -> ga_group a = None -> 0 <= k < zprod (num_blocks (ga_desc a)) ->
  exists lo hi p off ld, distribution (ga_desc a) k = Some (lo, hi) /\
    access_block_ptr wn a k = Some (p, off, ld) /\
    block_home (ga_nproc a) (ga_desc a) k = Some p /\ length lo = S (length ld) /\
    forall x, in_box lo hi x -> block_place a x (p, off + lin ld (vsub x lo)).
Proof. intros. apply access_irreg; assumption. Qed.
Print Assumptions C17_tiled_irreg_access_partial.

Theorem C17_scalapack_access_partial : forall wn a k,
  distr_type (ga_desc a) = SCALAPACK -> wf_blocked (ga_desc a) ->
  wf_grid (ga_nproc a) (ga_desc a) -> ga_group a = None -> 0 <= k < zprod (num_blocks (ga_desc a)) ->
  exists lo hi p off ld, distribution (ga_desc a) k = Some (lo, hi) /\
    access_block_ptr wn a k = Some (p, off, ld) /\
    block_home (ga_nproc a) (ga_desc a) k = Some p /\ length lo = S (length ld) /\
    forall x, in_box lo hi x -> scalapack_place a x (p, off + lin ld (vsub x lo)).
Proof. intros. apply access_scalapack; assumption. Qed.
Print Assumptions C17_scalapack_access_partial.

(** Tiled arrays only when every extent of the process grid is two. *)
Theorem C17_tiled_access_partial : forall wn a k,
  distr_type (ga_desc a) = TILED -> wf_blocked (ga_desc a) ->
  wf_grid (ga_nproc a) (ga_desc a) -> Forall (fun n => n = 2) (nblock (ga_desc a)) ->
  ga_group a = None -> 0 <= k < zprod (num_blocks (ga_desc a)) ->
  exists lo hi p off ld, distribution (ga_desc a) k = Some (lo, hi) /\
    access_block_ptr wn a k = Some (p, off, ld) /\
    block_home (ga_nproc a) (ga_desc a) k = Some p /\ length lo = S (length ld) /\
    forall x, in_box lo hi x -> block_place a x (p, off + lin ld (vsub x lo)).
Proof. intros. apply access_tiled; assumption. Qed.
Print Assumptions C17_tiled_access_partial.

Example C17_ex_grid : Forall (fun n => n = 2) (nblock (ga_desc (ex_grid TILED))) /\
  access_block_ptr 4 (ex_grid TILED) 9 = Some (1, 6, [2]) /\
  access_block_ptr 4 (ex_grid SCALAPACK) 11 = Some (1, 8, [3]).
Proof. split; [repeat constructor|]. split; vm_compute; reflexivity. Qed.
Example C17_ex_ti : wf_strict_tiled_irreg ex_ti /\ wf_grid 2 ex_ti /\
  access_block_ptr 2 {| ga_desc := ex_ti; ga_width := [0; 0]; ga_group := None; ga_nproc := 2;
                        ga_elemsize := 8 |} 5 = Some (0, 41, [2]).
Proof. split; [apply ex_ti_wf|]. split; [apply ex_ti_wf|vm_compute; reflexivity]. Qed.
Example C17_ex_bc : wf_blocked (ga_desc (ex_bc1 9 2 None)) /\
  access_block_ptr 2 (ex_bc1 9 2 None) 4 = Some (0, 4, []).
Proof. split; [apply ex_bc1_wf; lia|vm_compute; reflexivity]. Qed.

(** A tiled vector on one process: the pointer to the last block is past the
    end of the memory allocated for the array.  The same on a 2 x 3 grid. *)
Definition tiled_line : garray :=
  {| ga_desc := {| distr_type := TILED; dims := [4]; nblock := [1]; mapc := []; block_dims := [2];
                   num_blocks := [2]; rstrctd_list := []; rank_rstrctd := [] |};
     ga_width := [0]; ga_group := None; ga_nproc := 1; ga_elemsize := 8 |}.
Definition tiled_23 : garray :=
  {| ga_desc := {| distr_type := TILED; dims := [6; 7]; nblock := [2; 3]; mapc := []; block_dims := [2; 2];
                   num_blocks := [3; 4]; rstrctd_list := []; rank_rstrctd := [] |};
     ga_width := [0; 0]; ga_group := None; ga_nproc := 6; ga_elemsize := 8 |}.
Lemma tiled_examples_wf a : a = tiled_line \/ a = tiled_23 ->
  wf_blocked (ga_desc a) /\ wf_grid (ga_nproc a) (ga_desc a).
Proof.
  intros Ha. assert (W : wf_blocked (ga_desc a)).
  { destruct Ha; subst; (split; [cbn; tauto|]; split; [discriminate|]; split; [cbn; lia|]; split; [cbn; lia|reflexivity]). }
  split; [exact W|]. split; [left; exact W|]. split; [destruct Ha; subst; discriminate|].
  destruct Ha; subst; (split; [reflexivity|]; split; [cbn; repeat constructor; lia|reflexivity]).
Qed.

Theorem C17_tiled_one_process_refuted : exists a k lo hi p off ld n,
  distr_type (ga_desc a) = TILED /\ wf_blocked (ga_desc a) /\ wf_grid (ga_nproc a) (ga_desc a) /\
  ga_group a = None /\ 0 <= k < zprod (num_blocks (ga_desc a)) /\
  distribution (ga_desc a) k = Some (lo, hi) /\ Forall2 Z.le lo hi /\
  (forall wn, access_block_ptr wn a k = Some (p, off, ld) /\ alloc_elems wn p p a = Some n) /\ n <= off.
Proof.
  exists tiled_line, 1, [3], [4], 0, 4, [], 4. destruct (tiled_examples_wf tiled_line) as [W1 W2]; [tauto|].
  split; [reflexivity|]. split; [exact W1|]. split; [exact W2|]. split; [reflexivity|]. split; [cbn; lia|].
  split; [vm_compute; reflexivity|]. split; [repeat constructor; lia|]. split; [|lia].
  intros wn. split; vm_compute; reflexivity.
Qed.
Print Assumptions C17_tiled_one_process_refuted.

Theorem C17_tiled_grid_refuted : exists a k lo hi p off ld n,
  distr_type (ga_desc a) = TILED /\ wf_blocked (ga_desc a) /\ wf_grid (ga_nproc a) (ga_desc a) /\
  Forall (fun n => 2 <= n) (nblock (ga_desc a)) /\
  ga_group a = None /\ 0 <= k < zprod (num_blocks (ga_desc a)) /\
  distribution (ga_desc a) k = Some (lo, hi) /\ Forall2 Z.le lo hi /\
  (forall wn, access_block_ptr wn a k = Some (p, off, ld) /\ alloc_elems wn p p a = Some n) /\ n <= off.
Proof.
  exists tiled_23, 11, [5; 7], [6; 7], 0, 12, [2], 12. destruct (tiled_examples_wf tiled_23) as [W1 W2]; [tauto|].
  split; [reflexivity|]. split; [exact W1|]. split; [exact W2|]. split; [repeat constructor; lia|].
  split; [reflexivity|]. split; [cbn; lia|].
  split; [vm_compute; reflexivity|]. split; [repeat constructor; lia|]. split; [|lia].
  intros wn. split; vm_compute; reflexivity.
Qed.
Print Assumptions C17_tiled_grid_refuted.

(** A block-cyclic array on two of four processes: block 3 cannot be accessed,
    the table of segments is read out of bounds. *)
Theorem C17_group_access_refuted : exists wn a k lo hi,
  distr_type (ga_desc a) = BLOCK_CYCLIC /\ wf_blocked (ga_desc a) /\ wf_group a /\
  0 <= k < zprod (num_blocks (ga_desc a)) /\
  distribution (ga_desc a) k = Some (lo, hi) /\ Forall2 Z.le lo hi /\
  access_block_ptr wn a k = None.
Proof.
  exists 4, (ex_bc1 9 2 (Some [2; 3])), 3, [7], [8].
  split; [reflexivity|]. split; [apply ex_bc1_wf; lia|].
  split; [split; [repeat constructor; cbn; lia|reflexivity]|]. split; [cbn; lia|].
  split; [vm_compute; reflexivity|]. split; [repeat constructor; lia|vm_compute; reflexivity].
Qed.
Print Assumptions C17_group_access_refuted.

(** * C52 *)
(** [p] owns the block of map-distributed array [a] that contains the patch,
    [w] is its world rank and on the caller's node: the pointer designates the
    storage of the elements of the patch. *)
Theorem C52_access_patch : forall guess near a lo hi p blo bhi w,
  good_guess guess -> wf_array a -> 0 <= p < ga_nproc a ->
  distribution (ga_desc a) p = Some (blo, bhi) ->
  in_box blo bhi lo -> in_box blo bhi hi -> Forall2 Z.le lo hi ->
  abs_rank a p = Some w -> near w = true ->
  exists off ld, access_ptr guess near a lo hi = Some (w, off, ld) /\
    forall x, in_box lo hi x -> reg_place a x (w, off + lin ld (vsub x lo)).
Proof. exact access_ptr_spec. Qed.
Print Assumptions C52_access_patch.

(** No other patch is handed out. *)
Theorem C52_access_only_local : forall guess near a lo hi w off ld,
  good_guess guess -> wf_array a -> length lo = length hi ->
  access_ptr guess near a lo hi = Some (w, off, ld) ->
  exists p blo bhi, 0 <= p < ga_nproc a /\ distribution (ga_desc a) p = Some (blo, bhi) /\
    in_box blo bhi lo /\ in_box blo bhi hi /\ Forall2 Z.le lo hi /\
    abs_rank a p = Some w /\ near w = true.
Proof. exact access_ptr_only. Qed.
Print Assumptions C52_access_only_local.

Example C52_ex : wf_array ex_ga /\ good_guess ex_guess /\
  distribution (ga_desc ex_ga) 1 = Some ([6; 1], [10; 3]) /\ abs_rank ex_ga 1 = Some 2 /\
  access_ptr ex_guess (fun w => w =? 2) ex_ga [7; 2] [8; 3] = Some (2, 23, [7]).
Proof. split; [exact ex_ga_wf|]. split; [exact ex_guess_good|]. split; [|split]; vm_compute; reflexivity. Qed.

(** * C53 *)
(** Arrays that are not restricted to a subset of the processes. *)
Theorem C53_access_index_partial : forall guess near a lo hi,
  rstrctd_list (ga_desc a) = [] -> access_idx guess near a lo hi = access_ptr guess near a lo hi.
Proof. exact access_idx_unrestricted. Qed.
Print Assumptions C53_access_index_partial.

Definition ex_rga : garray :=
  {| ga_desc := ex_rstr; ga_width := [0; 0]; ga_group := None; ga_nproc := 5; ga_elemsize := 8 |}.
Example ex_rga_wf : wf_array ex_rga.
Proof.
  split; [exact ex_rstr_wf|]. split; [reflexivity|]. split; [repeat constructor; lia|].
  split; [exact I|cbn; lia].
Qed.
(** On a restricted array the index call stops on a patch for which the pointer
    call succeeds. *)
Theorem C53_restricted_refuted : exists guess near a lo hi r,
  good_guess guess /\ wf_array a /\
  access_ptr guess near a lo hi = Some r /\ access_idx guess near a lo hi = None.
Proof.
  exists ex_guess, (fun w => w =? 3), ex_rga, [2; 2], [3; 3], (3, 6, [5]).
  split; [exact ex_guess_good|]. split; [exact ex_rga_wf|]. split; vm_compute; reflexivity.
Qed.
Print Assumptions C53_restricted_refuted.
