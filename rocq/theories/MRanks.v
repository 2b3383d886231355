(** Model of the choice of progress ranks and of the messages that tell them of
    new memory (/repo/comex/src-mpi-pr/groups.h, groups.c, comex.c).
    Simplifications: host names are numbers, equal iff strcmp says so (386-402);
    the answers of collective MPI calls are computed from the values of all
    processes; sorting the host names only numbers the nodes, so the node of a
    process is the set of processes with its host name. *)
From Verif Require Export SpecRanks MBase.
From Verif Require Import MHandle MGroup.

(** g_state.host[r].name. *)
Definition hostof (hs : list Z) (r : Z) : Z := nth (Z.to_nat r) hs (-1).
Definition nranks (hs : list Z) : Z := Z.of_nat (length hs).
Definition ranks (hs : list Z) : list Z := zseq 0 (length hs).
Definition same_host (hs : list Z) (r i : Z) : bool := hostof hs i =? hostof hs r.

(** groups.c 480-492 over all processes; comex.c 4920-4940
    [_smallest_world_rank_with_same_hostid], 4945-4965
    [_largest_world_rank_with_same_hostid] over those of a group. *)
Fixpoint smallest (hs : list Z) (me : Z) (l : list Z) (s : Z) : Z :=
  match l with [] => s | i :: l' => smallest hs me l' (if same_host hs me i && (i <? s) then i else s) end.
Fixpoint largest (hs : list Z) (me : Z) (l : list Z) (s : Z) : Z :=
  match l with [] => s | i :: l' => largest hs me l' (if same_host hs me i && (s <? i) then i else s) end.
(** groups.c 484 [size_node]; 472-474 [node_group_size] is the same number. *)
Definition size_node (hs : list Z) (r : Z) : Z := Z.of_nat (length (filter (same_host hs r) (ranks hs))).
(** groups.c 475-478: one process in each node is the first. *)
Definition num_nodes (hs : list Z) : Z :=
  Z.of_nat (length (filter (fun r => smallest hs r (ranks hs) r =? r) (ranks hs))).

(** groups.h 62-78 [get_num_progress_ranks_per_node]: [env] is the number in
    GA_NUM_PROGRESS_RANKS_PER_NODE if that is set; for a number outside 1..15
    the result is not initialised. *)
Definition num_progress (env : option Z) : out Z :=
  match env with None => Done 1 | Some e => if (0 <? e) && (e <? 16) then Done e else Undef end.

(** groups.h 106-155 [get_my_master_rank_with_same_hostid], with
    MASTER_IS_SMALLEST_SMP_RANK 0 (comex_impl.h 24).  Division by zero is
    not reached: [split] is positive. *)
Definition my_master (rank split small large k : Z) (packed : bool) : Z :=
  if packed then large - split * Z.quot (large - rank) split
  else if k =? 1 then large - split * Z.quot (large - rank) split
  else large - k + 1 + Z.rem (rank - small) k.

(** groups.c 493-511: the checks of process [r] and its master. *)
Definition init_master (hs : list Z) (k : Z) (packed : bool) (r : Z) : out Z :=
  let sz := size_node hs r in
  if sz <? 2 * k then Abort
  else if 0 <? Z.rem sz k then Abort
  else Done (my_master r (Z.quot sz k) (smallest hs r (ranks hs) r) (largest hs r (ranks hs) r) k packed).
Fixpoint init_masters (hs : list Z) (k : Z) (packed : bool) (rs : list Z) : out (list Z) :=
  match rs with
  | [] => Done []
  | r :: rs' => try m <- init_master hs k packed r; try ms <- init_masters hs k packed rs'; Done (m :: ms)
  end.

(** groups.c 528-540: the distinct masters go to a list of [cap] entries. *)
Fixpoint split_list (cap : Z) (seen acc ms : list Z) : out (list Z) :=
  match ms with
  | [] => Done acc
  | m :: ms' =>
    if existsb (Z.eqb m) seen then split_list cap (seen ++ [m]) acc ms'
    else if Z.of_nat (length acc) <? cap then split_list cap (seen ++ [m]) (acc ++ [m]) ms'
    else Undef
  end.
(** groups.c 541-546: the last index with my master; not initialised if there is
    none. *)
Fixpoint stamp (l : list Z) (j m : Z) (st : out Z) : out Z :=
  match l with [] => st | x :: l' => stamp l' (j + 1) m (if x =? m then Done j else st) end.
Fixpoint stamps (l ms : list Z) : out (list Z) :=
  match ms with
  | [] => Done []
  | m :: ms' => try s <- stamp l 0 m Undef; try ss <- stamps l ms'; Done (s :: ss)
  end.

(** groups.c 408-598 [comex_group_init]: the masters (g_state.master) and the
    numbers by which node_comm is split (590).  Entries of the list that were
    not written are not initialised (531): comparing with them is undefined. *)
Definition comex_group_init (hs : list Z) (env : option Z) (packed : bool) : out (list Z * list Z) :=
  try k <- num_progress env;
  try ms <- init_masters hs k packed (ranks hs);
  try l <- split_list (num_nodes hs * k) [] [] ms;
  if Z.of_nat (length l) <? num_nodes hs * k then Undef
  else try ss <- stamps l ms; Done (ms, ss).

(** g_state.master[r]; g_state.node_size of process [r] (groups.c 590-598). *)
Definition at_rank (ms : list Z) (r : Z) : Z := nth (Z.to_nat r) ms (-1).
Definition node_size (ss : list Z) (r : Z) : Z :=
  Z.of_nat (length (filter (fun s => s =? at_rank ss r) ss)).
(** groups.c 549-588: the communicator of the workers, in the order of ranks. *)
Definition workers (ms : list Z) : list Z := filter (fun r => negb (at_rank ms r =? r)) (zseq 0 (length ms)).

(** comex.c 2401-2411: the process that stands for [r] in a group. *)
Definition group_master (hs ss : list Z) (k : Z) (packed : bool) (group : list Z) (r : Z) : Z :=
  my_master r (node_size ss r) (smallest hs r group r) (largest hs r group r) k packed.
Definition is_notifier (hs ss : list Z) (k : Z) (packed : bool) (group : list Z) (r : Z) : bool :=
  r =? group_master hs ss k packed group r.
(** comex.c 2474-2551: the entries of the group that process [r] registers and,
    if it is a notifier, sends; [size] is what each member asked for.
    g_state.master is read at [group_master]: outside the table it is undefined. *)
Fixpoint local_entries (ms : list Z) (size : Z -> Z) (r gm : Z) (group : list Z) : out (list Z) :=
  match group with
  | [] => Done []
  | i :: g' =>
    if size i =? 0 then local_entries ms size r gm g'
    else if i =? r then try l <- local_entries ms size r gm g'; Done (i :: l)
    else match zget ms gm with
         | None => Undef
         | Some q => if at_rank ms i =? q then try l <- local_entries ms size r gm g'; Done (i :: l)
                     else local_entries ms size r gm g'
         end
  end.
(** comex.c 2361-2600 [comex_malloc] on process [r]: what it registers (itself
    included) and the message it sends; the list of entries to send has
    [node_size] places (2424). *)
Definition comex_malloc (hs ms ss : list Z) (k : Z) (packed : bool) (size : Z -> Z) (group : list Z) (r : Z)
  : out (list Z * list (Z * Z * list Z)) :=
  let gm := group_master hs ss k packed group r in
  try es <- local_entries ms size r gm group;
  if is_notifier hs ss k packed group r then
    if Z.of_nat (length es) <=? node_size ss r then Done (es, [(r, at_rank ms r, es)]) else Undef
  else Done (es, []).
(** All members. *)
Fixpoint malloc_all (hs ms ss : list Z) (k : Z) (packed : bool) (size : Z -> Z) (group rs : list Z)
  : out (list (Z * list Z) * list (Z * Z * list Z)) :=
  match rs with
  | [] => Done ([], [])
  | r :: rs' =>
    try (es, m) <- comex_malloc hs ms ss k packed size group r;
    try (l, msgs) <- malloc_all hs ms ss k packed size group rs';
    Done ((r, es) :: l, m ++ msgs)
  end.

(** comex.c 2197-2241 [comex_create_mutexes]: the table of counts of the world
    group, by rank in that group. *)
Definition mutex_counts (ms : list Z) (num : Z -> Z) : list Z := map num (workers ms).
(** comex.c 2245-2284 [comex_destroy_mutexes] on process [r]: the number of
    mutexes in the message to the master, if one is sent. *)
Definition destroy_mutexes (hs ms : list Z) (num : Z -> Z) (r : Z) : out (option Z) :=
  if smallest hs r (workers ms) r =? r
  then match zget (mutex_counts ms num) r with Some c => Done (Some c) | None => Undef end
  else Done None.
(** comex.c 4532-4551 [_mutex_destroy_handler]: the entries of mutexes[proc]
    that are checked; the table of process [r] has [num r] entries (4518-4524). *)
Definition destroy_handler (num : Z -> Z) (r c : Z) : out unit :=
  if c <=? num r then Done tt else Undef.
(** The whole call on process [r]: its mutexes are given back, or not. *)
Definition mutexes_gone (hs ms : list Z) (num : Z -> Z) (r : Z) : out bool :=
  try m <- destroy_mutexes hs ms num r;
  match m with None => Done false | Some c => try _ <- destroy_handler num r c; Done true end.
