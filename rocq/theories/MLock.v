(** Model of mutexes: pnga_create_mutexes, pnga_lock and pnga_unlock
    (/repo/global/src/base.c 5080-5150) over the lock servers of ComEx
    (/repo/comex/src-mpi-pr/comex.c).  The state is that of all processes, the
    servers and the messages between them; a schedule is any list of events.
    Simplifications: processes are named by their rank among the workers;
    messages from one process to one server arrive in the order in which they
    were sent (MPI), others in any order. *)
From Verif Require Export MBase MNb MHandle.

(** Number of processes, mutexes asked for, server of each process
    (g_state.master). *)
Record lcfg := LCfg { l_n : Z; l_num : Z; l_master : Z -> Z }.

(** base.c 5088-5110 [pnga_create_mutexes], 5094: the accepted numbers; 5102-5104:
    how many mutexes each process keeps. *)
Definition MAX_MUTEXES := 32768.
Definition create_accepts (num : Z) : bool := negb ((num <=? 0) || (MAX_MUTEXES <? num)).
Definition chunk_mutex (k : lcfg) : Z := Z.quot (l_num k + l_n k - 1) (l_n k).
Definition share (k : lcfg) (p : Z) : Z := if l_num k <=? p * chunk_mutex k then 0 else chunk_mutex k.
(** base.c 5127-5128, 5147-5148: process and number of the ARMCI mutex that
    stands for mutex [x]; the code uses num_mutexes instead of [x]. *)
Definition lslot (k : lcfg) (x : Z) : Z * Z :=
  (Z.quot (l_num k) (chunk_mutex k) - 1, Z.rem (l_num k) (chunk_mutex k)).

(** A process: the mutexes it holds, the one it is waiting for. *)
Record lproc := LProc { held : list Z; waits : option Z }.
(** [chan p q]: messages from process p to server q, (is it a lock, ARMCI mutex);
    [owner] and [queue]: comex.c 169-170 mutexes and lq_heads; [acks p]: answers
    on the way to p. *)
Record lstate := LState { procs : Z -> lproc; chan : Z -> Z -> list (bool * (Z * Z));
                          owner : Z * Z -> option Z; queue : Z * Z -> list Z; acks : Z -> list Z }.
Definition slot_eqb (a b : Z * Z) : bool := (fst a =? fst b) && (snd a =? snd b).
Definition pset {A} (f : Z * Z -> A) (z : Z * Z) (a : A) : Z * Z -> A := fun z' => if slot_eqb z' z then a else f z'.
Definition cset (f : Z -> Z -> list (bool * (Z * Z))) (p q : Z) (l : list (bool * (Z * Z))) : Z -> Z -> list (bool * (Z * Z)) :=
  fun p' q' => if (p' =? p) && (q' =? q) then l else f p' q'.
Definition lstart : lstate := LState (fun _ => LProc [] None) (fun _ _ => []) (fun _ => None) (fun _ => []) (fun _ => []).

(** comex.c 2310-2316, 2347-2353: send a message to the server of the mutex. *)
Definition lsend (k : lcfg) (s : lstate) (p : Z) (b : bool) (z : Z * Z) : Z -> Z -> list (bool * (Z * Z)) :=
  cset (chan s) p (l_master k (fst z)) (chan s p (l_master k (fst z)) ++ [(b, z)]).
(** base.c 5120-5131 [pnga_lock], comex.c 2287-2322 [comex_lock] up to the wait. *)
Definition ga_lock (k : lcfg) (s : lstate) (p x : Z) : out lstate :=
  if l_n k =? 1 then Done (LState (fset (procs s) p (LProc (x :: held (procs s p)) None)) (chan s) (owner s) (queue s) (acks s))
  else if l_num k <? x then Abort
  else Done (LState (fset (procs s) p (LProc (held (procs s p)) (Some x))) (lsend k s p true (lslot k x)) (owner s) (queue s) (acks s)).
(** comex.c 2317-2321: the answer arrives. *)
Definition lock_returns (k : lcfg) (s : lstate) (p : Z) : out lstate :=
  match acks s p, waits (procs s p) with
  | [], _ => Done s
  | _, None => Done s
  | a :: l, Some x =>
      if a =? snd (lslot k x)
      then Done (LState (fset (procs s) p (LProc (x :: held (procs s p)) None)) (chan s) (owner s) (queue s) (fset (acks s) p l))
      else Abort
  end.
(** base.c 5140-5151 [pnga_unlock], comex.c 2325-2357 [comex_unlock]. *)
Definition remove_one (x : Z) : list Z -> list Z := fix go l := match l with [] => [] | y :: l' => if y =? x then l' else y :: go l' end.
Definition ga_unlock (k : lcfg) (s : lstate) (p x : Z) : out lstate :=
  let s1 := fset (procs s) p (LProc (remove_one x (held (procs s p))) (waits (procs s p))) in
  if l_n k =? 1 then Done (LState s1 (chan s) (owner s) (queue s) (acks s))
  else if l_num k <? x then Abort
  else Done (LState s1 (lsend k s p false (lslot k x)) (owner s) (queue s) (acks s)).
(** comex.c 4553-4592 [_lock_handler], 4595-4622 [_unlock_handler]: server [q]
    handles the first message of process [p].  A number outside the array of
    mutexes of the process is undefined behaviour. *)
Definition lserve (k : lcfg) (s : lstate) (q p : Z) : out lstate :=
  match chan s p q with
  | [] => Done s
  | (b, z) :: l =>
      let c := cset (chan s) p q l in
      if snd z <? 0 then Abort
      else if share k (fst z) <=? snd z then Undef
      else if b then
        match owner s z with
        | None => Done (LState (procs s) c (pset (owner s) z (Some p)) (queue s) (fset (acks s) p (acks s p ++ [snd z])))
        | Some _ => Done (LState (procs s) c (owner s) (pset (queue s) z (queue s z ++ [p])) (acks s))
        end
      else
        match queue s z with
        | r :: l' => Done (LState (procs s) c (pset (owner s) z (Some r)) (pset (queue s) z l') (fset (acks s) r (acks s r ++ [snd z])))
        | [] => Done (LState (procs s) c (pset (owner s) z None) (queue s) (acks s))
        end
  end.

(** Events: a process calls lock or unlock, a call of lock returns, a server
    handles a message. *)
Inductive levent := ELock (p x : Z) | EUnlock (p x : Z) | EReturn (p : Z) | EServe (q p : Z).
Definition lstep (k : lcfg) (s : lstate) (e : levent) : out lstate :=
  match e with
  | ELock p x => ga_lock k s p x
  | EUnlock p x => ga_unlock k s p x
  | EReturn p => lock_returns k s p
  | EServe q p => lserve k s q p
  end.
