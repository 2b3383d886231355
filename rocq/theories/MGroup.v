(** Model of process groups on one process: pnga_pgroup_create and its relatives
    (/repo/global/src/base.c 1068-1512, 4956-5012, 5813), with the groups of ComEx
    (/repo/comex/src-mpi-pr/groups.c) behind them.  A ComEx group is its list of
    worker ranks, in the order of the list.
    Simplification: the temporary arrays are lists of the length that is used. *)
From Verif Require Export SpecGroup MBase.
From Verif Require Import MNb MHandle.

Definition need {A} (o : option A) : out A := match o with Some a => Done a | None => Undef end.

(** base.h 26-36 [proc_list_t]: the two maps are one block of memory: never
    allocated (base.c 412), freed, or there.  [pg_id] is None while not set
    (the table comes from malloc, base.c 390). *)
Inductive gmem := MNever | MFreed | MMaps (mp inv : list Z).
Record pgrp := PGrp { pg_actv : bool; pg_mem : gmem; pg_nproc : Z; pg_parent : Z; pg_id : option Z }.
(** Number of processes, of groups, this process. *)
Record gcfg := GCfg { gc_n : Z; gc_max : Z; gc_me : Z }.
(** PGRP_LIST; the list of ComEx groups; GA_Default_Proc_Group and
    ARMCI_Default_Proc_Group. *)
Record gstate := GState { gt_tab : Z -> pgrp; gt_com : list (Z * list Z); gt_def : Z; gt_adef : Z }.

Definition in_table (k : gcfg) (g : Z) : bool := (0 <=? g) && (g <? gc_max k).
(** Reading PGRP_LIST[g]. *)
Definition pg_read (k : gcfg) (s : gstate) (g : Z) : out pgrp := if in_table k g then Done (gt_tab s g) else Undef.
(** Reading the maps of PGRP_LIST[g]. *)
Definition pg_maps (k : gcfg) (s : gstate) (g : Z) : out (list Z * list Z) :=
  try x <- pg_read k s g; match pg_mem x with MMaps mp inv => Done (mp, inv) | _ => Undef end.

(** groups.c 52-71 [comex_get_igroup_from_group]. *)
Fixpoint com_find (l : list (Z * list Z)) (id : Z) : option (list Z) :=
  match l with [] => None | (i, m) :: l' => if i =? id then Some m else com_find l' id end.
(** groups.c 79-115 [_create_group_and_igroup]: the number of the next group. *)
Definition com_next (l : list (Z * list Z)) : Z := match rev l with [] => 0 | (i, _) :: _ => i + 1 end.
(** groups.c 285-295: MPI_Group_incl; MPI fails on a rank outside the group. *)
Fixpoint com_pick (pm : list Z) (l : list Z) : option (list Z) :=
  match l with
  | [] => Some []
  | r :: l' => match zget pm r, com_pick pm l' with Some p, Some c => Some (p :: c) | _, _ => None end
  end.
(** ARMCI_Group_create (src-armci/groups.c 77) and [comex_group_create]. *)
Definition armci_create (s : gstate) (l : list Z) : out (list (Z * list Z) * Z) :=
  match com_find (gt_com s) (gt_adef s) with
  | None => Abort
  | Some pm => match com_pick pm l with
               | None => Abort
               | Some c => Done (gt_com s ++ [(com_next (gt_com s), c)], com_next (gt_com s))
               end
  end.
(** groups.c 211-240 [comex_group_free]: removing the first group leaves the
    list pointing to freed memory. *)
Fixpoint com_remove (l : list (Z * list Z)) (id : Z) : option (list (Z * list Z)) :=
  match l with [] => None | (i, m) :: l' => if i =? id then Some l' else match com_remove l' id with Some r => Some ((i, m) :: r) | None => None end end.
Definition armci_free (l : list (Z * list Z)) (id : Z) : out (list (Z * list Z)) :=
  match l with
  | (i, _) :: _ => if i =? id then Undef else match com_remove l id with Some r => Done r | None => Abort end
  | [] => Abort
  end.

(** base.c 1068-1095 [pnga_pgroup_set_default]. *)
Definition pgroup_set_default (k : gcfg) (s : gstate) (g : Z) : out gstate :=
  if 0 <? g then try x <- pg_read k s g; try id <- need (pg_id x); Done (GState (gt_tab s) (gt_com s) g id)
  else Done (GState (gt_tab s) (gt_com s) g 0).

(** base.c 1119-1126: the next free handle. *)
Fixpoint pg_free (tab : Z -> pgrp) (i : Z) (n : nat) : option Z :=
  match n with O => None | S n' => if pg_actv (tab i) then pg_free tab (i + 1) n' else Some i end.
(** base.c 1128-1138: check of the list. *)
Fixpoint list_ok (n : Z) (l : list Z) : bool :=
  match l with [] => true | x :: l' => (0 <=? x) && (x <? n) && negb (existsb (Z.eqb x) l') && list_ok n l' end.
(** base.c 1155-1163: the sort; the inner loop, started with k = i + 1. *)
Fixpoint shift_loop (k : nat) (l : list Z) (i itmp : Z) : option (list Z * Z) :=
  match k with
  | O => Some (l, i)
  | S k' => do x <- zget l i; if itmp <? x then do l' <- zset l (i + 1) x; shift_loop k' l' (i - 1) itmp else Some (l, i)
  end.
Fixpoint sort_loop (fuel : nat) (l : list Z) (j : Z) : option (list Z) :=
  match fuel with
  | O => Some l
  | S f => do itmp <- zget l j; do r <- shift_loop (Z.to_nat j) l (j - 1) itmp;
           do l' <- zset (fst r) (snd r + 1) itmp; sort_loop f l' (j + 1)
  end.
(** base.c 1166-1175: absolute process numbers. *)
Fixpoint remap (inv l : list Z) : option (list Z) :=
  match l with [] => Some [] | r :: l' => match zget inv r, remap inv l' with Some p, Some c => Some (p :: c) | _, _ => None end end.
(** base.c 1179-1183: filling the maps. *)
Fixpoint fill (mp inv l : list Z) (i : Z) : option (list Z * list Z) :=
  match l with
  | [] => Some (mp, inv)
  | j :: l' => do mp' <- zset mp j i; do inv' <- zset inv i j; fill mp' inv' l' (i + 1)
  end.
Definition none_list (k : gcfg) : list Z := repeat (-1) (Z.to_nat (gc_n k)).
(** base.c 1104-1206 [pnga_pgroup_create]. *)
Definition pgroup_create (k : gcfg) (s : gstate) (l : list Z) : out (gstate * Z) :=
  match pg_free (gt_tab s) 0 (Z.to_nat (gc_max k)) with
  | None => Abort
  | Some h =>
      if negb (list_ok (gc_n k) l) then Abort
      else
        try tmp2 <- need (sort_loop (length l - 1) l 1);
        try tmp <- (if gt_def s =? -1 then Done tmp2
                    else try m <- pg_maps k s (gt_def s); need (remap (snd m) tmp2));
        try m <- need (fill (none_list k) (none_list k) tmp 0);
        try c <- armci_create s tmp2;
        Done (GState (fset (gt_tab s) h (PGrp true (MMaps (fst m) (snd m)) (Z.of_nat (length l)) (gt_def s) (Some (snd c))))
                     (fst c) (gt_def s) (gt_adef s), h)
  end.

(** base.c 1215-1310 [pnga_pgroup_duplicate]. *)
Definition pgroup_duplicate (k : gcfg) (s : gstate) (g : Z) : out (gstate * Z) :=
  try x <- (if g =? -1 then Done None else try x <- pg_read k s g; Done (Some x));
  if match x with Some x => negb (pg_actv x) | None => false end then Abort
  else match pg_free (gt_tab s) 0 (Z.to_nat (gc_max k)) with
  | None => Abort
  | Some h =>
      match x with
      | None => Undef
      | Some x =>
          try m <- pg_maps k s g;
          let inv := firstn (Z.to_nat (pg_nproc x)) (snd m) in
          try tmp <- (if pg_parent x =? -1 then need (remap (fst m) inv)
                      else try pm <- pg_maps k s (pg_parent x); need (remap (fst pm) inv));
          try c <- armci_create s tmp;
          Done (GState (fset (gt_tab s) h (PGrp true (MMaps (fst m) (snd m)) (pg_nproc x) (pg_parent x) (Some (snd c))))
                       (fst c) (gt_def s) (gt_adef s), h)
      end
  end.

(** base.c 1332-1361 [pnga_pgroup_destroy]. *)
Definition pgroup_destroy (k : gcfg) (s : gstate) (g : Z) (att : bool) : out (gstate * bool) :=
  try x <- pg_read k s g;
  try id <- need (pg_id x);
  try com <- armci_free (gt_com s) id;
  if att then Abort
  else match pg_mem x with
       | MFreed | MNever => Undef
       | MMaps _ _ => Done (GState (fset (gt_tab s) g (PGrp false MFreed (pg_nproc x) (pg_parent x) (pg_id x)))
                           com (gt_def s) (gt_adef s), pg_actv x)
       end.

(** base.c 4956-4963 [pnga_nodeid], 4972-4979 [pnga_pgroup_nodeid], 4988-4995
    [pnga_nnodes], 5004-5010 [pnga_pgroup_nnodes]. *)
Definition pgroup_nodeid (k : gcfg) (s : gstate) (g : Z) : out Z :=
  if 0 <=? g then try m <- pg_maps k s g; need (zget (fst m) (gc_me k)) else Done (gc_me k).
Definition nodeid (k : gcfg) (s : gstate) : out Z :=
  if 0 <? gt_def s then try m <- pg_maps k s (gt_def s); need (zget (fst m) (gc_me k)) else Done (gc_me k).
Definition pgroup_nnodes (k : gcfg) (s : gstate) (g : Z) : out Z :=
  if 0 <=? g then try x <- pg_read k s g; match pg_mem x with MNever => Undef | _ => Done (pg_nproc x) end else Done (gc_n k).
Definition nnodes (k : gcfg) (s : gstate) : out Z :=
  if 0 <? gt_def s then try x <- pg_read k s (gt_def s); match pg_mem x with MNever => Undef | _ => Done (pg_nproc x) end else Done (gc_n k).
(** base.c 5813-5822 [pnga_pgroup_absolute_id], groups.c 160-182
    [comex_group_translate_world]; MPI fails on a rank outside the group. *)
Definition absolute_id (k : gcfg) (s : gstate) (g r : Z) : out Z :=
  if g =? -1 then Done r
  else try x <- pg_read k s g;
       try id <- need (pg_id x);
       if id =? 0 then Done r
       else match com_find (gt_com s) id with
            | None => Abort
            | Some c => match zget c r with Some p => Done p | None => Abort end
            end.
(** base.c 1318-1323 [pnga_pgroup_self]. *)
Definition pgroup_self (k : gcfg) (s : gstate) : out (gstate * Z) :=
  try me <- nodeid k s; pgroup_create k s [me].

(** base.c 1438-1452: the loop over the processes of [pnga_pgroup_split]; [icnt]
    is the length of [nodes]. *)
Fixpoint split_loop (fuel : nat) (k : gcfg) (s : gstate) (i gs fin : Z) (nodes : list Z) (ret : Z) : out (gstate * (list Z * Z)) :=
  match fuel with
  | O => Done (s, (nodes, ret))
  | S f =>
      try r <- (if (Z.rem (Z.of_nat (length nodes)) gs =? 0) && (0 <? i)
                then try c <- pgroup_create k s nodes; Done (fst c, (([] : list Z), if i =? fin + 1 then snd c else ret))
                else Done (s, (nodes, ret)));
      split_loop f k (fst r) (i + 1) gs fin (fst (snd r) ++ [i]) (snd (snd r))
  end.
(** base.c 1404-1463 [pnga_pgroup_split]. *)
Definition pgroup_split (k : gcfg) (s : gstate) (g num : Z) : out (gstate * Z) :=
  if num <? 0 then Abort
  else if num =? 0 then Done (s, g)
  else
    let dflt := gt_def s in
    try s1 <- pgroup_set_default k s g;
    try np <- nnodes k s1;
    try me <- nodeid k s1;
    let q := Z.quot np num in
    let gs := if q * num <? np then q + 1 else q in
    if gs =? 0 then Undef
    else
      let ratio := Z.quot me gs in
      let start := ratio * gs in
      let fin := Z.min ((ratio + 1) * gs - 1) (np - 1) in
      if fin <? start then Abort
      else
        try r <- split_loop (Z.to_nat np) k s1 0 gs fin [] (-1);
        try c <- pgroup_create k (fst r) (fst (snd r));
        let ret := if fin =? np - 1 then snd c else snd (snd r) in
        try s2 <- pgroup_set_default k (fst c) dflt;
        if ret =? -1 then Abort else Done (s2, ret).
(** base.c 1473-1512 [pnga_pgroup_split_irreg]; [col] is the colour of every
    process of the group, by rank: what the global sum gives. *)
Definition pgroup_split_irreg (k : gcfg) (s : gstate) (g : Z) (col : Z -> Z) (mycolor : Z) : out (gstate * Z) :=
  if mycolor <? 0 then Abort
  else
    let dflt := gt_def s in
    try s1 <- pgroup_set_default k s g;
    try np <- nnodes k s1;
    try c <- pgroup_create k s1 (filter (fun i => col i =? mycolor) (zseq 0 (Z.to_nat np)));
    try s2 <- pgroup_set_default k (fst c) dflt;
    Done (s2, snd c).

Definition group_step (k : gcfg) (s : gstate) (c : gcall) : out (gstate * ganswer) :=
  match c with
  | GCreate l => try r <- pgroup_create k s l; Done (fst r, GHandle (snd r))
  | GSetDefault g => try s1 <- pgroup_set_default k s g; Done (s1, GUnit)
  | GDestroy g att => try r <- pgroup_destroy k s g att; Done (fst r, GStatus (snd r))
  | GDuplicate g => try r <- pgroup_duplicate k s g; Done (fst r, GHandle (snd r))
  end.
Fixpoint group_run (k : gcfg) (s : gstate) (cs : list gcall) : out (gstate * list ganswer) :=
  match cs with
  | [] => Done (s, [])
  | c :: cs' => try r <- group_step k s c; try q <- group_run k (fst r) cs'; Done (fst q, snd r :: snd q)
  end.
(** base.c 438-460: group 0, the [np] processes from [j] on of this node; its
    ComEx group is never set. *)
Definition group_init (k : gcfg) (j np : Z) : out gstate :=
  try m <- need (fill (none_list k) (none_list k) (zseq j (Z.to_nat np)) 0);
  Done (GState (fun g => if g =? 0 then PGrp true (MMaps (fst m) (snd m)) np (-1) None else PGrp false MNever 0 0 None)
               [(0, zseq 0 (Z.to_nat (gc_n k)))] (-1) 0).
