(** C33, C56, C57: when the caller's stores have arrived. *)
From Coq Require Import ZArith List Lia Bool.
From Verif Require Import MBase MFence LFence.
Import ListNotations.
Open Scope Z_scope.

(** The processes are 0 .. n-1; each is served by one of them, which serves itself. *)
Definition wf_masters (k : fcfg) : Prop :=
  forall p, inr k p -> inr k (k_master k p) /\ k_master k (k_master k p) = k_master k p.

(** Two nodes of two processes. *)
Definition two_nodes : fcfg := {| k_n := 4; k_master := fun p => p / 2 * 2 |}.
Lemma two_nodes_wf : wf_masters two_nodes.
Proof. intros p H. unfold inr, two_nodes in *; cbn in *. assert (p = 0 \/ p = 1 \/ p = 2 \/ p = 3) as [->|[->|[->| ->]]] by lia; cbn; lia. Qed.

Definition stores_only_put (h : list fevent) : Prop :=
  forall i l, In (FStore i l) h -> exists ps, l = put_pieces ps.

Ltac good_ev := solve [exact Logic.I | cbn; unfold inr; cbn; lia | cbn; repeat (apply Forall_cons; [unfold good_piece, inr; cbn; lia|]); apply Forall_nil].

(** C33, for puts and accumulates: after any history [h1], a fence that matches
    an init_fence with no sync between them leaves no store made between them on
    its way: every process stored to has received all stores to it, in order. *)
Theorem C33_fence_partial : forall k h1 h2 d,
  wf_masters k -> Forall (good_fevent k) (h1 ++ h2) -> depth 0 h1 = Some d -> inside 1 h2 -> stores_only_put h2 ->
  exists s o, frun k fstart (h1 ++ FInit :: h2 ++ [FFence]) = Some (s, o) /\
    forall p, In p (flat_map targets h2) -> x_done s p = issued p (h1 ++ h2).
Proof.
  intros k h1 h2 d W G D N P. destruct (fence_completes k W h1 h2 d G D N) as (s & E & _ & H); [|exists s; eauto].
  apply Forall_forall. intros [i l|p d0| | | |ps|q] HI; try exact Logic.I. destruct (P i l HI) as (ps & ->). unfold put_pieces.
  apply Forall_forall. intros x HX. apply in_map_iff in HX as (y & <- & _). reflexivity.
Qed.
Example C33_ex :
  let h1 := [FStore 1 (scatter_pieces [(3, false)])] in
  let h2 := [FStore 2 (put_pieces [(1, true); (3, false)]); FInit; FStore 3 (put_pieces [(2, false)]); FFence; FServe 2; FGet 3 false; FStore 4 (put_pieces [(3, false)])] in
  Forall (good_fevent two_nodes) (h1 ++ h2) /\ depth 0 h1 = Some 0 /\ inside 1 h2 /\ stores_only_put h2 /\
  match frun two_nodes fstart (h1 ++ FInit :: h2) with Some (s, _) => x_queue s 2 = [(3, 4)] | None => False end /\
  match frun two_nodes fstart (h1 ++ FInit :: h2 ++ [FFence]) with Some (s, _) => x_done s 3 = [1; 2; 4] /\ x_queue s 2 = [] | None => False end.
Proof.
  cbv zeta. split; [|split; [reflexivity|split; [cbn; lia|split; [|split; [vm_compute; reflexivity|vm_compute; split; reflexivity]]]]].
  - cbn [app]. repeat (apply Forall_cons; [good_ev|]). apply Forall_nil.
  - intros i l H. cbn [In] in H. destruct H as [H|[H|[H|[H|[H|[H|[H|[]]]]]]]]; try discriminate H; injection H as _ <-.
    + exists [(1, true); (3, false)]. reflexivity.
    + exists [(2, false)]. reflexivity.
    + exists [(3, false)]. reflexivity.
Qed.

(** Scatter, the strided put and the strided accumulate do not record whom they
    store to: a fence does not wait for them. *)
Theorem C33_scatter_refuted : exists k h2,
  wf_masters k /\ Forall (good_fevent k) h2 /\ inside 1 h2 /\
  (forall i l, In (FStore i l) h2 -> exists ps, l = scatter_pieces ps) /\
  exists s o p, frun k fstart (FInit :: h2 ++ [FFence]) = Some (s, o) /\ In p (flat_map targets h2) /\ x_done s p <> issued p h2 /\ x_queue s (k_master k p) <> [].
Proof.
  exists two_nodes, [FStore 7 (scatter_pieces [(3, false)])]. split; [exact two_nodes_wf|]. split; [|split; [cbn; lia|split]].
  - apply Forall_cons; [|apply Forall_nil]. apply Forall_cons; [|apply Forall_nil]. unfold good_piece, inr; cbn; lia.
  - intros i l [[= <- <-]|[]]. exists [(3, false)]. reflexivity.
  - assert (E : match frun two_nodes fstart (FInit :: [FStore 7 (scatter_pieces [(3, false)])] ++ [FFence]) with Some (s, _) => x_done s 3 = [] /\ x_queue s 2 = [(3, 7)] | None => False end) by (vm_compute; auto).
    destruct (frun two_nodes fstart _) as [[s o]|]; [|destruct E]. destruct E as (E1 & E2). exists s, o, 3. split; [reflexivity|]. split; [left; reflexivity|].
    rewrite E1. change (k_master two_nodes 3) with 2. rewrite E2. split; discriminate.
Qed.

(** scatter_acc2d of an array on a group records the rank within the group; the
    fence waits for the process with that number. *)
Theorem C33_scatter_acc_group_refuted : exists k grp h2,
  wf_masters k /\ Forall (good_fevent k) h2 /\ inside 1 h2 /\
  (forall r, 0 <= r < 2 -> inr k (grp r)) /\ (forall r1 r2, 0 <= r1 < 2 -> 0 <= r2 < 2 -> grp r1 = grp r2 -> r1 = r2) /\
  (forall i l, In (FStore i l) h2 -> exists rs, l = scatter_acc2d_pieces grp rs) /\
  exists s o p, frun k fstart (FInit :: h2 ++ [FFence]) = Some (s, o) /\ In p (flat_map targets h2) /\ x_done s p <> issued p h2 /\ x_queue s (k_master k p) <> [].
Proof.
  exists two_nodes, (fun r => r + 2), [FStore 7 (scatter_acc2d_pieces (fun r => r + 2) [(1, false)])]. split; [exact two_nodes_wf|].
  split; [|split; [cbn; lia|split; [unfold inr; cbn; lia|split; [lia|split]]]].
  - apply Forall_cons; [|apply Forall_nil]. apply Forall_cons; [|apply Forall_nil]. unfold good_piece, inr; cbn; lia.
  - intros i l [[= <- <-]|[]]. exists [(1, false)]. reflexivity.
  - assert (E : match frun two_nodes fstart (FInit :: [FStore 7 (scatter_acc2d_pieces (fun r => r + 2) [(1, false)])] ++ [FFence]) with Some (s, _) => x_done s 3 = [] /\ x_queue s 2 = [(3, 7)] | None => False end) by (vm_compute; auto).
    destruct (frun two_nodes fstart _) as [[s o]|]; [|destruct E]. destruct E as (E1 & E2). exists s, o, 3. split; [reflexivity|]. split; [left; reflexivity|].
    rewrite E1. change (k_master two_nodes 3) with 2. rewrite E2. split; discriminate.
Qed.

(** A sync of a group between init_fence and fence drops the open fence, though
    it only waits for the members of the group: the fence is then an error, and
    the put before it has not arrived. *)
Theorem C33_group_sync_refuted : exists k ps p,
  wf_masters k /\ Forall (inr k) (p :: ps) /\ ~ In p ps /\
  (exists s o, frun k fstart [FInit; FStore 7 (put_pieces [(p, false)]); FGroupSync ps] = Some (s, o) /\ x_done s p <> [7]) /\
  frun k fstart [FInit; FStore 7 (put_pieces [(p, false)]); FGroupSync ps; FFence] = None /\
  (exists s o, frun k fstart [FInit; FStore 7 (put_pieces [(p, false)]); FGroupSync ps; FInit; FFence] = Some (s, o) /\ x_done s p <> [7]).
Proof.
  exists two_nodes, [0; 1], 3. split; [exact two_nodes_wf|]. split; [repeat (apply Forall_cons; [unfold inr; cbn; lia|]); apply Forall_nil|].
  split; [intros [H|[H|[]]]; discriminate H|]. split; [|split; [reflexivity|]].
  - assert (E : match frun two_nodes fstart [FInit; FStore 7 (put_pieces [(3, false)]); FGroupSync [0; 1]] with Some (s, _) => x_done s 3 = [] | None => False end) by (vm_compute; auto).
    destruct (frun two_nodes fstart _) as [[s o]|]; [|destruct E]. exists s, o. rewrite E. split; [reflexivity|discriminate].
  - assert (E : match frun two_nodes fstart [FInit; FStore 7 (put_pieces [(3, false)]); FGroupSync [0; 1]; FInit; FFence] with Some (s, _) => x_done s 3 = [] | None => False end) by (vm_compute; auto).
    destruct (frun two_nodes fstart _) as [[s o]|]; [|destruct E]. exists s, o. rewrite E. split; [reflexivity|discriminate].
Qed.

(** C56: a sync leaves none of the caller's stores of any kind on its way; a
    sync of a group none of those to its members. *)
Theorem C56_sync : forall k h d, wf_masters k -> Forall (good_fevent k) h -> depth 0 h = Some d ->
  exists s o, frun k fstart (h ++ [FSync]) = Some (s, o) /\ forall p, inr k p -> x_done s p = issued p h.
Proof.
  intros k h d W G D. destruct (run_ok k W h fstart [] d (binv_start k) (sent_start k) G D) as (s & E & B & S & F).
  destruct (step_ok k W s FSync B Logic.I) as (s' & o & E' & _ & S' & _ & _ & A); [discriminate|].
  rewrite frun_app, E. cbn [frun]. rewrite E'. cbn [fst snd]. eexists _, _. split; [reflexivity|]. intros p Hp. rewrite A, S', S by exact Hp. cbn. rewrite app_nil_r. reflexivity.
Qed.
Theorem C56_group_sync : forall k h ps d, wf_masters k -> Forall (good_fevent k) h -> Forall (inr k) ps -> depth 0 h = Some d ->
  exists s o, frun k fstart (h ++ [FGroupSync ps]) = Some (s, o) /\ forall p, In p ps -> x_done s p = issued p h.
Proof.
  intros k h ps d W G GP D. destruct (run_ok k W h fstart [] d (binv_start k) (sent_start k) G D) as (s & E & B & S & F).
  destruct (step_ok k W s (FGroupSync ps) B GP) as (s' & o & E' & _ & S' & _ & _ & A); [discriminate|].
  rewrite frun_app, E. cbn [frun]. rewrite E'. cbn [fst snd]. eexists _, _. split; [reflexivity|]. intros p Hp. rewrite A, S', S by exact Hp. cbn. rewrite app_nil_r. reflexivity.
Qed.
Example C56_ex :
  let h := [FStore 1 (scatter_pieces [(3, false); (0, true)]); FStore 2 (put_pieces [(2, false); (3, false)])] in
  Forall (good_fevent two_nodes) h /\ depth 0 h = Some 0 /\
  match frun two_nodes fstart h with Some (s, _) => x_queue s 2 = [(3, 1); (2, 2); (3, 2)] | None => False end.
Proof.
  cbv zeta. split; [|split; vm_compute; reflexivity].
  repeat (apply Forall_cons; [good_ev|]). apply Forall_nil.
Qed.

(** C57: whatever the server has handled, the stores of the caller to a process
    arrive in the order they were issued, none twice, and a get sees all of the
    caller's earlier stores to that process. *)
Theorem C57_order : forall k h d, wf_masters k -> Forall (good_fevent k) h -> depth 0 h = Some d ->
  exists s, frun k fstart h = Some (s, reads_own [] h) /\ forall p, exists rest, x_done s p ++ rest = issued p h.
Proof.
  intros k h d W G D. destruct (run_ok k W h fstart [] d (binv_start k) (sent_start k) G D) as (s & E & B & S & F).
  exists s. split; [exact E|]. intros p. exists (todo k s p). exact (S p).
Qed.
Theorem C57_read_own_writes : forall k h1 p direct h2 d, wf_masters k -> Forall (good_fevent k) (h1 ++ FGet p direct :: h2) -> depth 0 (h1 ++ FGet p direct :: h2) = Some d ->
  exists s o1 o2, frun k fstart (h1 ++ FGet p direct :: h2) = Some (s, o1 ++ (p, issued p h1) :: o2) /\ (exists s1, frun k fstart h1 = Some (s1, o1)).
Proof.
  intros k h1 p dr h2 d W G D. apply Forall_app in G as (G1 & G2). inversion G2 as [|? ? G3 G4]; subst. rewrite depth_app in D. destruct (depth 0 h1) as [d1|] eqn:D1; [|discriminate]. cbn [depth] in D.
  destruct (run_ok k W h1 fstart [] d1 (binv_start k) (sent_start k) G1 D1) as (s & E & B & S & F). cbn [app] in S.
  rewrite <- F in D. destruct (run_ok k W (FGet p dr :: h2) s h1 d B S G2 D) as (s' & E' & _). rewrite frun_app, E, E'. cbn [reads_own app].
  eexists _, _, _. split; [reflexivity|eauto].
Qed.
Example C57_ex :
  match frun two_nodes fstart [FStore 1 (put_pieces [(3, false)]); FStore 2 (scatter_pieces [(2, false); (3, false)]); FServe 2; FGet 3 true; FStore 3 (put_pieces [(3, true)]); FGet 3 false] with
  | Some (s, o) => o = [(3, [1; 2]); (3, [1; 2; 3])]
  | None => False
  end.
Proof. vm_compute. reflexivity. Qed.

Print Assumptions C33_fence_partial.
Print Assumptions C33_scatter_refuted.
Print Assumptions C33_scatter_acc_group_refuted.
Print Assumptions C33_group_sync_refuted.
Print Assumptions C56_sync.
Print Assumptions C56_group_sync.
Print Assumptions C57_order.
Print Assumptions C57_read_own_writes.
