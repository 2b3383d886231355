(** Model of completion of stores: init_fence, fence and sync
    (/repo/global/src/onesided.c), ARMCI_Fence and ARMCI_AllFence
    (/repo/comex/src-armci/armci.c 250-300) and the fences of ComEx
    (/repo/comex/src-mpi-pr/comex.c), from the view of one calling process.
    A store is a piece of data for one process with a number; [None] =
    pnga_error, a failed assertion or an access outside fence_array. *)
From Coq Require Import ZArith List.
From Verif Require Export MBase.
Import ListNotations.
Open Scope Z_scope.

(** The number of processes and the process that serves the memory of each
    process (g_state.master). *)
Record fcfg := { k_n : Z; k_master : Z -> Z }.

(** GA_fence_set and fence_array of onesided.c 86-87; fence_array of comex.c
    174; messages to a server that it has not handled (target, store); the
    stores that have arrived in the memory of each process, in order. *)
Record fstate := FState { f_set : Z; f_mark : Z -> bool; x_mark : Z -> bool; x_queue : Z -> list (Z * Z); x_done : Z -> list Z }.
Definition set_at {A} (f : Z -> A) (i : Z) (x : A) : Z -> A := fun j => if j =? i then x else f j.

(** The server [q] handles its first message (comex.c 3421-3525: messages of a
    process are received in the order in which they were sent). *)
Definition serve (s : fstate) (q : Z) : fstate :=
  match x_queue s q with
  | [] => s
  | (p, i) :: l => FState (f_set s) (f_mark s) (x_mark s) (set_at (x_queue s) q l) (set_at (x_done s) p (x_done s p ++ [i]))
  end.
Fixpoint serve_n (n : nat) (s : fstate) (q : Z) : fstate :=
  match n with O => s | S n' => serve_n n' (serve s q) q end.
(** Handling of everything sent before a request that is answered. *)
Definition drain (s : fstate) (q : Z) : fstate := serve_n (length (x_queue s q)) s q.
Definition unmark (s : fstate) (q : Z) : fstate := FState (f_set s) (f_mark s) (set_at (x_mark s) q false) (x_queue s) (x_done s).

(** comex.c 1163-1191 [_fence_master], 4400-4417 [_fence_handler]. *)
Definition fence_master (s : fstate) (q : Z) : fstate := if x_mark s q then unmark (drain s q) q else s.
(** comex.c 1194-1213 [comex_fence_proc]. *)
Definition fence_proc (k : fcfg) (s : fstate) (p : Z) : fstate := fence_master s (k_master k p).
(** comex.c 1074-1154 [comex_fence_all]. *)
Fixpoint fence_all (k : fcfg) (ps : list Z) (s : fstate) : option fstate :=
  match ps with
  | [] => Some s
  | p :: ps' =>
      if x_mark s p then
        if k_master k p =? p then fence_all k ps' (unmark (drain s p) p) else None
      else fence_all k ps' s
  end.

(** comex.c 6059-6145 [nb_put], 6220-6340 [nb_acc]; 6428-6614, 6971-7115,
    7140-7215 for the messages of strided and vector stores.  [direct]: the
    caller accesses the memory of [p] itself (6073-6101, 6228-6262: itself and
    processes of its node, if so configured). *)
Definition send_store (k : fcfg) (s : fstate) (p : Z) (direct : bool) (i : Z) : fstate :=
  let q := k_master k p in
  if direct then
    let s1 := fence_master s q in
    FState (f_set s1) (f_mark s1) (x_mark s1) (x_queue s1) (set_at (x_done s1) p (x_done s1 p ++ [i]))
  else FState (f_set s) (f_mark s) (set_at (x_mark s) q true) (set_at (x_queue s) q (x_queue s q ++ [(p, i)])) (x_done s).
(** comex.c 6148-6217 [nb_get]: the stores in the memory of [p] that the get
    sees; a get message is handled after the messages before it, an answer means
    that it has been handled. *)
Definition send_get (k : fcfg) (s : fstate) (p : Z) (direct : bool) : fstate * list Z :=
  let q := k_master k p in
  let s1 := if direct then fence_master s q else drain s q in
  (s1, x_done s1 p).

(** One piece of a store: the entry of fence_array the caller marks, if any, the
    target, and whether it is accessed directly. *)
Record fpiece := Piece { g_mark : option Z; g_to : Z; g_direct : bool }.
(** onesided.c 621 (put), 1412 (accumulate), 2357-2361 (scatter_acc2d). *)
Definition store_piece (k : fcfg) (i : Z) (s : fstate) (x : fpiece) : option fstate :=
  do s1 <- match g_mark x with
           | Some r =>
               if f_set s =? 0 then Some s
               else if (0 <=? r) && (r <? k_n k) then Some (FState (f_set s) (set_at (f_mark s) r true) (x_mark s) (x_queue s) (x_done s))
               else None
           | None => Some s
           end;
  Some (send_store k s1 (g_to x) (g_direct x) i).
Fixpoint store_pieces (k : fcfg) (i : Z) (s : fstate) (l : list fpiece) : option fstate :=
  match l with [] => Some s | x :: l' => do s1 <- store_piece k i s x; store_pieces k i s1 l' end.

(** onesided.c 207-210 [pnga_init_fence]. *)
Definition init_fence (s : fstate) : fstate := FState (f_set s + 1) (f_mark s) (x_mark s) (x_queue s) (x_done s).
Definition unmark_all (s : fstate) : fstate := FState (f_set s) (fun _ => false) (x_mark s) (x_queue s) (x_done s).
(** onesided.c 191-198 [pnga_fence]. *)
Fixpoint fence_marked (k : fcfg) (ps : list Z) (s : fstate) : fstate :=
  match ps with
  | [] => s
  | p :: ps' => fence_marked k ps' (if f_mark s p then fence_proc k s p else s)
  end.
Definition zrange (n : Z) : list Z := map Z.of_nat (seq 0 (Z.to_nat n)).
Definition ga_fence (k : fcfg) (s : fstate) : option fstate :=
  if f_set s <? 1 then None
  else
    let s1 := FState (f_set s - 1) (f_mark s) (x_mark s) (x_queue s) (x_done s) in
    Some (unmark_all (fence_marked k (zrange (k_n k)) s1)).
(** onesided.c 125-126, 134-135, 170-171. *)
Definition reset_fence (s : fstate) : fstate :=
  let s1 := if f_set s =? 0 then s else unmark_all s in
  FState 0 (f_mark s1) (x_mark s1) (x_queue s1) (x_done s1).
(** onesided.c 150-182 [pnga_sync], 129-136: AllFence. *)
Definition ga_sync (k : fcfg) (s : fstate) : option fstate :=
  do s1 <- fence_all k (zrange (k_n k)) s; Some (reset_fence s1).
(** onesided.c 107-128 [pnga_pgroup_sync] of a group with members [ps]. *)
Fixpoint fence_members (k : fcfg) (ps : list Z) (s : fstate) : fstate :=
  match ps with [] => s | p :: ps' => fence_members k ps' (fence_proc k s p) end.
Definition group_sync (k : fcfg) (ps : list Z) (s : fstate) : fstate := reset_fence (fence_members k ps s).

(** What happens: the caller stores, reads, or calls one of the functions
    above; a server handles a message. *)
Inductive fevent :=
  | FStore (i : Z) (l : list fpiece)
  | FGet (p : Z) (direct : bool)
  | FInit
  | FFence
  | FSync
  | FGroupSync (ps : list Z)
  | FServe (q : Z).
Definition fstep (k : fcfg) (s : fstate) (e : fevent) : option (fstate * list (Z * list Z)) :=
  match e with
  | FStore i l => do s1 <- store_pieces k i s l; Some (s1, [])
  | FGet p d => let r := send_get k s p d in Some (fst r, [(p, snd r)])
  | FInit => Some (init_fence s, [])
  | FFence => do s1 <- ga_fence k s; Some (s1, [])
  | FSync => do s1 <- ga_sync k s; Some (s1, [])
  | FGroupSync ps => Some (group_sync k ps s, [])
  | FServe q => Some (serve s q, [])
  end.
(** The state after a history and what its gets have seen. *)
Fixpoint frun (k : fcfg) (s : fstate) (h : list fevent) : option (fstate * list (Z * list Z)) :=
  match h with
  | [] => Some (s, [])
  | e :: h' => do r <- fstep k s e; do t <- frun k (fst r) h'; Some (fst t, snd r ++ snd t)
  end.
Definition fstart : fstate := FState 0 (fun _ => false) (fun _ => false) (fun _ => []) (fun _ => []).

(** The pieces of the operations: onesided.c 621, 1412 mark the process they
    store to; 3557, 3574 (gai_gatscat_new), 2600-2660 (scatter2d), 4293, 4465
    (strided_put, strided_acc) mark nothing; 2357-2361 (scatter_acc2d) marks the
    rank within the array's group [grp] (inv_map_proc_list). *)
Definition put_pieces (ps : list (Z * bool)) : list fpiece := map (fun p => Piece (Some (fst p)) (fst p) (snd p)) ps.
Definition scatter_pieces (ps : list (Z * bool)) : list fpiece := map (fun p => Piece None (fst p) (snd p)) ps.
Definition scatter_acc2d_pieces (grp : Z -> Z) (rs : list (Z * bool)) : list fpiece := map (fun r => Piece (Some (fst r)) (grp (fst r)) (snd r)) rs.
