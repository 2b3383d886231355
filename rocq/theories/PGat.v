(** Property theorems: gather and scatter (C26). *)
From Verif Require Import LGat LStore MXfer LXfer LXfer2 PDist PIter PIterBlk PAccess PRmw.
Open Scope Z_scope.

(** * C26 *)
(** The calling process [me] is within the arrays the call allocates: the group
    of the array, or the processes it is restricted to; with preallocated
    buffers of length [n], any process and lists of up to [n] elements.
    Missing: callers outside (refuted below), arrays both restricted and on a
    group (refuted below), tiled process grids other than two in every
    dimension (see C17). *)
Definition gat_caller (wn me : Z) (pre : option Z) (a : garray) (nv : Z) : Prop :=
  match pre with
  | None =>
      match ga_group a with
      | Some l => 0 <= me < Z.of_nat (length l)
      | None => 0 <= me < if num_rstrctd (ga_desc a) =? 0 then wn else num_rstrctd (ga_desc a)
      end
  | Some n =>
      0 <= me < wn /\ nv <= n /\ num_rstrctd (ga_desc a) <= wn /\
      match ga_group a with Some l => Z.of_nat (length l) <= wn | None => True end
  end.

Lemma gat_caller_ok wn me pre a (subs : list (list Z)) : gat_caller wn me pre a (Z.of_nat (length subs)) ->
  match pre with
  | None => 0 <= me < gat_nprocs wn a
  | Some n => 0 <= me < wn /\ Z.of_nat (length subs) <= n /\ gat_nprocs wn a <= wn
  end.
Proof.
  unfold gat_caller, gat_nprocs, num_rstrctd. destruct pre; destruct (ga_group a); intros H; auto.
  - tauto.
  - destruct (Z.ltb_spec 0 (Z.of_nat (length (rstrctd_list (ga_desc a))))); lia.
  - destruct (Z.ltb_spec 0 (Z.of_nat (length (rstrctd_list (ga_desc a)))));
      destruct (Z.eqb_spec (Z.of_nat (length (rstrctd_list (ga_desc a)))) 0); lia.
Qed.

Theorem C26_gather_partial : forall V guess wn me pre a placed subs (buf : buffer V) m,
  good_guess guess -> elem_layout a wn placed -> (ga_group a = None -> wn = ga_nproc a) ->
  (rstrctd_list (ga_desc a) = [] \/ ga_group a = None) -> gat_caller wn me pre a (Z.of_nat (length subs)) ->
  Forall (in_array (dims (ga_desc a))) subs -> allocated placed m ->
  (forall i, 0 <= i < Z.of_nat (length subs) -> buf i <> None) ->
  exists ts, gatscat guess wn me pre a subs = Some ts /\
    forall ts', Permutation ts ts' ->
      exists buf', run_elems (get_elem m) buf ts' = Some buf' /\ gather_effect placed subs m buf buf'.
Proof.
  intros V guess wn me pre a placed subs buf m HG HL HN HR HC HS HA HB.
  destruct (gatscat_transfers guess wn me pre a placed subs HG HL (conj HN HR) HS (gat_caller_ok _ _ _ _ _ HC)) as (ts & E & T).
  exists ts. split; [exact E|]. intros ts' P. destruct (elem_layout_placed a wn placed HL) as (_ & HU & HI).
  apply list_gather; auto. eapply list_transfers_perm; eauto.
Qed.
Print Assumptions C26_gather_partial.

(** Distinct subscripts. *)
Theorem C26_scatter_partial : forall V guess wn me pre a placed subs (buf : buffer V) m,
  good_guess guess -> elem_layout a wn placed -> (ga_group a = None -> wn = ga_nproc a) ->
  (rstrctd_list (ga_desc a) = [] \/ ga_group a = None) -> gat_caller wn me pre a (Z.of_nat (length subs)) ->
  Forall (in_array (dims (ga_desc a))) subs -> NoDup subs -> allocated placed m ->
  (forall i, 0 <= i < Z.of_nat (length subs) -> buf i <> None) ->
  exists ts, gatscat guess wn me pre a subs = Some ts /\
    forall ts', Permutation ts ts' ->
      exists m', run_elems (put_elem buf) m ts' = Some m' /\ scatter_effect placed subs buf m m'.
Proof.
  intros V guess wn me pre a placed subs buf m HG HL HN HR HC HS HD HA HB.
  destruct (gatscat_transfers guess wn me pre a placed subs HG HL (conj HN HR) HS (gat_caller_ok _ _ _ _ _ HC)) as (ts & E & T).
  exists ts. split; [exact E|]. intros ts' P. destruct (elem_layout_placed a wn placed HL) as (_ & HU & HI).
  apply list_scatter; auto. eapply list_transfers_perm; eauto.
Qed.
Print Assumptions C26_scatter_partial.

(** Repeated subscripts: the element ends up with one of its values. *)
Theorem C26_scatter_repeated_partial : forall V guess wn me pre a placed subs (buf : buffer V) m,
  good_guess guess -> elem_layout a wn placed -> (ga_group a = None -> wn = ga_nproc a) ->
  (rstrctd_list (ga_desc a) = [] \/ ga_group a = None) -> gat_caller wn me pre a (Z.of_nat (length subs)) ->
  Forall (in_array (dims (ga_desc a))) subs -> allocated placed m ->
  (forall i, 0 <= i < Z.of_nat (length subs) -> buf i <> None) ->
  exists ts, gatscat guess wn me pre a subs = Some ts /\
    forall ts', Permutation ts ts' ->
      exists m', run_elems (put_elem buf) m ts' = Some m' /\
        (forall x q, In x subs -> placed x q -> exists i, nth_error subs i = Some x /\ hget m' q = buf (Z.of_nat i)) /\
        (forall q, (forall x, In x subs -> ~ placed x q) -> hget m' q = hget m q).
Proof.
  intros V guess wn me pre a placed subs buf m HG HL HN HR HC HS HA HB.
  destruct (gatscat_transfers guess wn me pre a placed subs HG HL (conj HN HR) HS (gat_caller_ok _ _ _ _ _ HC)) as (ts & E & T).
  exists ts. split; [exact E|]. intros ts' P. destruct (elem_layout_placed a wn placed HL) as (_ & HU & HI).
  apply list_scatter_any; auto. eapply list_transfers_perm; eauto.
Qed.
Print Assumptions C26_scatter_repeated_partial.

(** Subscripts may repeat; the additions commute. *)
Theorem C26_scatter_acc_partial : forall V (f : V -> V -> V) guess wn me pre a placed subs (buf : buffer V) m,
  (forall u v w, f (f u v) w = f (f u w) v) ->
  good_guess guess -> elem_layout a wn placed -> (ga_group a = None -> wn = ga_nproc a) ->
  (rstrctd_list (ga_desc a) = [] \/ ga_group a = None) -> gat_caller wn me pre a (Z.of_nat (length subs)) ->
  Forall (in_array (dims (ga_desc a))) subs -> allocated placed m ->
  (forall i, 0 <= i < Z.of_nat (length subs) -> buf i <> None) ->
  exists ts, gatscat guess wn me pre a subs = Some ts /\
    forall ts', Permutation ts ts' ->
      exists m', run_elems (acc_elem f buf) m ts' = Some m' /\ scatter_acc_effect f placed subs buf m m'.
Proof.
  intros V f guess wn me pre a placed subs buf m HF HG HL HN HR HC HS HA HB.
  destruct (gatscat_transfers guess wn me pre a placed subs HG HL (conj HN HR) HS (gat_caller_ok _ _ _ _ _ HC)) as (ts & E & T).
  exists ts. split; [exact E|]. intros ts' P. destruct (elem_layout_placed a wn placed HL) as (_ & HU & HI).
  apply list_scatter_acc; auto. eapply list_transfers_perm; eauto.
Qed.
Print Assumptions C26_scatter_acc_partial.

(** Hypotheses: [C24_layouts] and a restricted array; the calls compute. *)
Example C26_ex :
  elem_layout ex_rga 5 (reg_place ex_rga) /\ gat_caller 5 3 None ex_rga 3 /\ gat_caller 8 2 None ex_ga 3 /\
  gatscat ex_guess 8 2 None ex_ga [[7; 2]; [1; 1]; [7; 2]] = Some [(5, 15, 1); (2, 23, 2); (2, 23, 0)] /\
  gatscat ex_guess 5 3 None ex_rga [[7; 2]; [1; 1]] = Some [(3, 0, 1); (0, 6, 0)] /\
  (exists ts, gatscat ex_guess 4 3 (Some 7) (ex_grid SCALAPACK) [[7; 2]; [1; 1]; [2; 2]] = Some ts /\ length ts = 3%nat) /\
  (exists ts, gatscat ex_guess 4 3 None (ex_grid TILED) [[7; 2]; [1; 1]; [2; 2]] = Some ts /\ length ts = 3%nat).
Proof.
  split; [left; split; [exact ex_rga_wf|reflexivity]|].
  split; [cbn; lia|]. split; [cbn; lia|]. split; [vm_compute; reflexivity|]. split; [vm_compute; reflexivity|].
  split; eexists; split; vm_compute; reflexivity.
Qed.

(** A process of the group whose world rank is not below the size of the group
    reads beyond the end of the array of counters. *)
Theorem C26_group_caller_refuted : exists guess wn me a subs l,
  good_guess guess /\ wf_array a /\ ga_group a = Some l /\ In me l /\ Forall (fun p => 0 <= p < wn) l /\
  Forall (in_array (dims (ga_desc a))) subs /\ gatscat guess wn me None a subs = None.
Proof.
  exists ex_guess, 8, 5, ex_ga, [[7; 2]], [5; 2; 7; 0].
  split; [exact ex_guess_good|]. split; [exact ex_ga_wf|]. split; [reflexivity|]. split; [now left|].
  split; [repeat constructor; lia|]. split; [repeat constructor; cbn; lia|]. vm_compute. reflexivity.
Qed.
Print Assumptions C26_group_caller_refuted.

(** The same holds of restricted arrays on the world group, for a process of
    the restricted list. *)
Theorem C26_restricted_caller_refuted : exists guess wn me a subs,
  good_guess guess /\ wf_array a /\ ga_group a = None /\ ga_nproc a = wn /\ 0 <= me < wn /\
  Forall (in_array (dims (ga_desc a))) subs /\ gatscat guess wn me None a subs = None.
Proof.
  exists ex_guess, 5, 4, ex_rga, [[7; 2]].
  split; [exact ex_guess_good|]. split; [exact ex_rga_wf|]. split; [reflexivity|]. split; [reflexivity|].
  split; [lia|]. split; [repeat constructor; cbn; lia|]. vm_compute. reflexivity.
Qed.
Print Assumptions C26_restricted_caller_refuted.

(** On an array that is restricted and on a group the vector call goes to the
    process whose world rank is the group rank of the owner. *)
Definition ex_rgrp : garray :=
  {| ga_desc := ex_rstr; ga_width := [0; 0]; ga_group := Some [5; 2; 7; 0; 1]; ga_nproc := 5; ga_elemsize := 8 |}.
Theorem C26_restricted_group_refuted : exists guess wn me a sub q h,
  good_guess guess /\ wf_array a /\ gat_caller wn me None a 1 /\ in_array (dims (ga_desc a)) sub /\
  reg_place a sub q /\ gat_home guess (gat_nprocs wn a) a sub = Some h /\
  gat_ptr guess wn a h sub = Some q /\ (exists t, gat_target a h = Some t /\ t <> fst q).
Proof.
  exists ex_guess, 8, 2, ex_rgrp, [7; 2], (5, 6), 1.
  split; [exact ex_guess_good|]. split.
  { split; [exact ex_rstr_wf|]. split; [reflexivity|]. split; [repeat constructor; lia|].
    split; [|cbn; lia]. split; [|reflexivity]. repeat constructor; cbn; lia. }
  split; [cbn; lia|]. split; [cbn; lia|]. split.
  { exists 0, [6; 1], [10; 3]. split; [cbn; lia|]. split; [vm_compute; reflexivity|]. split; [cbn; lia|].
    split; vm_compute; reflexivity. }
  split; [vm_compute; reflexivity|]. split; [vm_compute; reflexivity|].
  exists 0. split; [vm_compute; reflexivity|cbn; lia].
Qed.
Print Assumptions C26_restricted_group_refuted.
