(** Model of the message passing in ga_update_ghosts (/repo/global/src/ghosts.c
    1686-1934): every process runs through its messages on its own, with
    blocking sends and receives in the order the code chooses.
    Simplifications: the messages of one process to another with one tag are
    matched in any order; armci_msg_snd / armci_msg_rcv (/repo/comex/src-armci/
    message.c) are blocking MPI calls on the world communicator, and a send may
    either wait for its receive or be buffered. *)
From Verif Require Export MGhost.

(** base.c 4478-4491 [pnga_proc_topology]. *)
Fixpoint proc_topology (nblock : list Z) (index : Z) : option (list Z) :=
  match nblock with
  | [] => Some []
  | n :: nblock' =>
      if n =? 0 then None else
      do r <- proc_topology nblock' (Z.quot index n); Some (Z.rem index n :: r)
  end.

(** One message: the entry of the table, the direction, and nblock[idx] and
    index[idx] of its dimension. *)
Record gstep := GStep { gs_msg : gmsg; gs_neg : bool; gs_nb : Z; gs_ix : Z }.

(** ghosts.c 1753-1757: the loop over the dimensions takes two entries of the
    table for every dimension with ghost cells. *)
Fixpoint plan (nbs ixs ws : list Z) (l : list gmsg) : option (list gstep) :=
  match nbs, ixs, ws with
  | [], [], [] => match l with [] => Some [] | _ => None end
  | nb :: nbs', ix :: ixs', w :: ws' =>
      if w =? 0 then plan nbs' ixs' ws' l
      else
        match l with
        | m :: p :: l' => do r <- plan nbs' ixs' ws' l'; Some (GStep m true nb ix :: GStep p false nb ix :: r)
        | _ => None
        end
  | _, _, _ => None
  end.

(** ghosts.c 1804-1838 (negative direction) and 1890-1920 (positive): the order
    of armci_msg_snd ([true]) and armci_msg_rcv ([false]). *)
Definition msg_order (neg : bool) (nb ix : Z) : list bool :=
  let odd := negb (Z.rem ix 2 =? 0) in
  if Z.rem nb 2 =? 0 then
    (if odd then [true] else [false]) ++ (if odd then [false] else [true])
  else
    let pmax := nb - 1 in
    (if odd then [true] else if negb (ix =? (if neg then pmax else 0)) then [false] else []) ++
    (if odd then [false] else if negb (ix =? (if neg then 0 else pmax)) then [true] else []) ++
    (if ix =? (if neg then 0 else pmax) then [true] else []) ++
    (if ix =? (if neg then pmax else 0) then [false] else []).
(** ghosts.c 1804 and 1890: no message if the neighbour is the process itself. *)
Definition self_msg (p : Z) (e : gstep) : bool := p =? (if gs_neg e then g_to (gs_msg e) else g_from (gs_msg e)).
Definition comm (p : Z) (e : gstep) : list bool := if self_msg p e then [] else msg_order (gs_neg e) (gs_nb e) (gs_ix e).

(** State of a process: its memory, msgcnt, the messages from the current one
    on, what is left to do for the current one, and the two buffers. *)
Record proc (V : Type) := Proc {
  p_mem : pmem V; p_tag : nat; p_todo : list gstep; p_ops : list bool; p_snd : list V; p_rcv : option (list V)
}.
Arguments Proc {V}. Arguments p_mem {V}. Arguments p_tag {V}. Arguments p_todo {V}. Arguments p_ops {V}. Arguments p_snd {V}. Arguments p_rcv {V}.
(** ghosts.c 1790-1791 and 1882: the send buffer is filled first. *)
Definition enter {V} (es n p : Z) (tag : nat) (todo : list gstep) (m : pmem V) : option (proc V) :=
  match todo with
  | [] => Some (Proc m tag [] [] [] None)
  | e :: _ => do b <- pack_msg es n m (gs_msg e); Some (Proc m tag todo (comm p e) b None)
  end.
(** ghosts.c 1841-1847 and 1923-1927: unpacking, and the next message. *)
Definition leave {V} (es n p : Z) (P : proc V) : option (proc V) :=
  match p_todo P, p_ops P with
  | e :: todo, [] =>
      do vs <- (if self_msg p e then Some (p_snd P) else p_rcv P);
      do m <- unpack_msg es (p_mem P) (gs_msg e) vs;
      enter es n p (S (p_tag P)) todo m
  | _, _ => None
  end.
(** The send at the head: destination, tag and data, and the process after it. *)
Definition sends {V} (es : Z) (P : proc V) : option (Z * nat * list V * proc V) :=
  match p_todo P, p_ops P with
  | e :: _, true :: ops =>
      if es * Z.of_nat (length (p_snd P)) =? g_len (gs_msg e) then
        Some (g_to (gs_msg e), p_tag P, p_snd P, Proc (p_mem P) (p_tag P) (p_todo P) ops (p_snd P) (p_rcv P))
      else None
  | _, _ => None
  end.
(** The receive at the head, of [vs] from [src] with [tag] into a buffer of [n] elements. *)
Definition receives {V} (n : Z) (P : proc V) (src : Z) (tag : nat) (vs : list V) : option (proc V) :=
  match p_todo P, p_ops P with
  | e :: _, false :: ops =>
      if (g_from (gs_msg e) =? src) && Nat.eqb (p_tag P) tag && (Z.of_nat (length vs) <=? n) then
        Some (Proc (p_mem P) (p_tag P) (p_todo P) ops (p_snd P) (Some vs))
      else None
  | _, _ => None
  end.

(** All processes, and the messages that are buffered. *)
Record packet (V : Type) := Packet { k_src : Z; k_dst : Z; k_tag : nat; k_data : list V }.
Arguments Packet {V}. Arguments k_src {V}. Arguments k_dst {V}. Arguments k_tag {V}. Arguments k_data {V}.
Definition net (V : Type) : Type := ((Z -> proc V) * list (packet V))%type.
Definition put {V} (st : Z -> proc V) (p : Z) (P : proc V) : Z -> proc V := fun q => if q =? p then P else st q.

(** One step of one process, or of two that meet; [ps] has the processes with
    their buffer sizes, and the boolean tells whether a send is buffered. *)
Inductive net_step {V} (es : Z) (ps : list (Z * Z)) : bool -> net V -> net V -> Prop :=
| Step_leave p n st fl P' : In (p, n) ps -> leave es n p (st p) = Some P' -> net_step es ps false (st, fl) (put st p P', fl)
| Step_meet p q np nq st fl tag vs P' Q' : In (p, np) ps -> In (q, nq) ps -> p <> q ->
    sends es (st p) = Some (q, tag, vs, P') -> receives nq (st q) p tag vs = Some Q' ->
    net_step es ps false (st, fl) (put (put st p P') q Q', fl)
| Step_buffer p np st fl q tag vs P' : In (p, np) ps -> sends es (st p) = Some (q, tag, vs, P') ->
    net_step es ps true (st, fl) (put st p P', Packet p q tag vs :: fl)
| Step_fetch q nq st fl1 fl2 src tag vs Q' : In (q, nq) ps -> receives nq (st q) src tag vs = Some Q' ->
    net_step es ps false (st, fl1 ++ Packet src q tag vs :: fl2) (put st q Q', fl1 ++ fl2).
Inductive net_runs {V} (es : Z) (ps : list (Z * Z)) : net V -> net V -> Prop :=
| Runs_0 s : net_runs es ps s s
| Runs_S s s' s'' b : net_runs es ps s s' -> net_step es ps b s' s'' -> net_runs es ps s s''.

(** All processes at the start of pnga_update4_ghosts. *)
Definition net_start {V} (a : garray) (tabs : list (Z * (Z * list gmsg))) (m : Z -> pmem V) (s : net V) : Prop :=
  snd s = [] /\
  forall p n l, In (p, (n, l)) tabs -> exists ix todo,
    proc_topology (nblock (ga_desc a)) p = Some ix /\ plan (nblock (ga_desc a)) ix (ga_width a) l = Some todo /\
    enter (ga_elemsize a) n p 0 todo (m p) = Some (fst s p).
Definition net_procs (tabs : list (Z * (Z * list gmsg))) : list (Z * Z) := map (fun t => (fst t, fst (snd t))) tabs.
(** All messages done, the buffers empty. *)
Definition net_done {V} (ps : list (Z * Z)) (s : net V) : Prop :=
  snd s = [] /\ forall p n, In (p, n) ps -> p_todo (fst s p) = [].
