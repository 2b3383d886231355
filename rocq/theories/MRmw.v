(** Model of read-and-increment.
    Source: /repo/global/src/onesided.c 3955-4045 [pnga_read_inc]. *)
From Verif Require Export MAccess MXfer.

(** onesided.c 3995-4002: offset of the element in its block. *)
Fixpoint block_offset_of (sub lo ld : list Z) (jtot : Z) : option Z :=
  match sub, lo with
  | [s], [l] => Some ((s - l) * jtot)
  | s :: sub', l :: lo' =>
      match ld with
      | d :: ld' => do r <- block_offset_of sub' lo' ld' (jtot * d); Some ((s - l) * jtot + r)
      | [] => None
      end
  | _, _ => None
  end.

(** onesided.c 3978-4035: memory cell of the element and the process the
    request is sent to.  [wn] is GAnproc.  The result of pnga_locate is not
    tested: a subscript outside the array is undefined behaviour. *)
Definition read_inc_addr guess (wn : Z) (a : garray) (sub : list Z) : option (place * Z) :=
  let g := ga_desc a in
  do r <- locate guess g sub;
  do proc <- r;
  match distr_type g with
  | REGULAR =>
      do rank <- (if num_rstrctd g =? 0 then Some proc else zget (rank_rstrctd g) proc);
      do ptr <- location a rank sub;
      do target <- abs_rank a proc;
      Some (fst ptr, target)
  | _ =>
      do b <- distribution g proc;
      do ptr <- access_block_ptr wn a proc;
      do off <- block_offset_of sub (fst b) (snd ptr) 1;
      do home <- match distr_type g with
                 | BLOCK_CYCLIC => cmod proc wn
                 | _ => do idx <- find_indices (num_blocks g) proc;
                        find_proc_from_indices (nblock g) idx
                 end;
      do target <- abs_rank a home;
      Some ((fst (fst ptr), snd (fst ptr) + off), target)
  end.

(** Conversion to the C int passed to ARMCI_Rmw (onesided.c 4037). *)
Definition wrap32 (x : Z) : Z := (x + 2 ^ 31) mod 2 ^ 32 - 2 ^ 31.
(** An integer element of [bits] bits. *)
Definition fits (bits x : Z) : bool := (- 2 ^ (bits - 1) <=? x) && (x <? 2 ^ (bits - 1)).

(** ARMCI_Rmw: one atomic step on the memory of the target process; overflow
    of the element is undefined. *)
Definition rmw (bits : Z) (m : heap Z) (q : place) (target extra : Z) : option (Z * heap Z) :=
  if fst q =? target then
    do v <- hget m q;
    if fits bits (v + extra) then Some (v, hset m q (v + extra)) else None
  else None.

Definition read_inc guess wn bits (a : garray) (m : heap Z) (sub : list Z) (inc : Z) : option (Z * heap Z) :=
  do r <- read_inc_addr guess wn a sub;
  rmw bits m (fst r) (snd r) (wrap32 inc).

(** A history: the calls of all processes in the order in which their atomic
    steps take effect; the values returned. *)
Fixpoint read_incs guess wn bits (a : garray) (m : heap Z) (calls : list (list Z * Z))
  : option (list Z * heap Z) :=
  match calls with
  | [] => Some ([], m)
  | c :: calls' =>
      do r <- read_inc guess wn bits a m (fst c) (snd c);
      do rs <- read_incs guess wn bits a (snd r) calls';
      Some (fst r :: fst rs, snd rs)
  end.
