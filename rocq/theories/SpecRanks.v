(** Specification vocabulary for progress ranks: processes that serve the
    memory of the other processes of their node. *)
From Verif Require Export SpecBox LRadix.

(** How many of the numbers below [n] have the property [f]. *)
Definition count (n : Z) (f : Z -> bool) : Z := Z.of_nat (length (filter f (zseq 0 (Z.to_nat n)))).

(** The nodes are intervals of ranks. *)
Definition contiguous (n : Z) (host : Z -> Z) : Prop :=
  forall i j k, 0 <= i <= j -> j <= k < n -> host i = host k -> host j = host i.
(** The number of processes of each node is what the library asks for. *)
Definition sizes_ok (n k : Z) (host : Z -> Z) : Prop :=
  forall r, 0 <= r < n -> 2 * k <= count n (fun i => host i =? host r) /\ (k | count n (fun i => host i =? host r)).

(** [n] processes; [host r] is the node of process [r], [master r] the process
    that serves it; [k] progress ranks on each node. *)
Record progress (n k : Z) (host master : Z -> Z) : Prop := {
  (** the server is a process of the same node *)
  pr_home : forall r, 0 <= r < n -> 0 <= master r < n /\ host (master r) = host r;
  (** servers serve themselves, so they are no workers *)
  pr_self : forall r, 0 <= r < n -> master (master r) = master r;
  (** the processes of a node are shared out evenly *)
  pr_share : forall r, 0 <= r < n ->
    k * count n (fun i => master i =? master r) = count n (fun i => host i =? host r);
  (** each node has [k] servers *)
  pr_count : forall r, 0 <= r < n -> count n (fun m => (host m =? host r) && (master m =? m)) = k }.

(** Messages are (from, to, processes whose memory is announced).  Each server
    of a process of the group gets one message, from a member, with the
    processes it serves that have memory; nobody else gets one. *)
Definition announced (group : list Z) (master size : Z -> Z) (msgs : list (Z * Z * list Z)) : Prop :=
  (forall q, In q (map master group) -> exists s,
      In s group /\
      filter (fun m => snd (fst m) =? q) msgs = [(s, q, filter (fun i => (master i =? q) && (0 <? size i)) group)]) /\
  (forall s q es, In (s, q, es) msgs -> In q (map master group)).
