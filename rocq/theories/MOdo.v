(** Model of the odometer that enumerates the contiguous segments of a strided
    patch, in gai_mem_copy (/repo/global/src/onesided.c 1050-1142) and in the
    ComEx transport (/repo/comex/src-mpi-pr/comex.c 1266-1384, 6342-6425,
    6617-6700, 6893-6965), and of gai_mem_copy.  [None] = undefined behaviour:
    overflow of an int, access outside an array, division by zero. *)
From Verif Require Export MXfer SpecCopy.

(** onesided.c 1090-1117, comex.c 1301-1306: the units of entries 1.., each the
    product of the counts before. *)
Fixpoint odo_units (u : Z) (cnt : list Z) : option (list Z) :=
  match cnt with
  | [] => Some []
  | [_] => Some [u]
  | c :: cnt' => do u' <- to_int (u * c); do r <- odo_units u' cnt'; Some (u :: r)
  end.

(** onesided.c 1123-1131, comex.c 1310-1318: one pass over the entries 1..;
    offset of the segment and next values.  [mul] is the product of a value
    and a stride (int in onesided.c, long in comex.c). *)
Fixpoint odo_step (mul : Z -> Z -> option Z) (i : Z) (bv bu cnt st : list Z) : option (Z * list Z) :=
  match bv, bu, cnt with
  | [], [], [] => Some (0, [])
  | b :: bv', u :: bu', c :: cnt' =>
      match st with
      | s :: st' =>
          do x <- mul b s;
          do r <- cmod (i + 1) u;
          let b1 := if r =? 0 then b + 1 else b in
          let b2 := if c - 1 <? b1 then 0 else b1 in
          do rest <- odo_step mul i bv' bu' cnt' st';
          Some (x + fst rest, b2 :: snd rest)
      | [] => None
      end
  | _, _, _ => None
  end.
Fixpoint odo_offsets (mul : Z -> Z -> option Z) (n : nat) (i : Z) (bv bu cnt st : list Z) : option (list Z) :=
  match n with
  | O => Some []
  | S n' =>
      do r <- odo_step mul i bv bu cnt st;
      do l <- odo_offsets mul n' (i + 1) (snd r) bu cnt st;
      Some (fst r :: l)
  end.
(** onesided.c 1103-1105, comex.c 1290-1293: number of segments. *)
Fixpoint int_prod (acc : Z) (cnt : list Z) : option Z :=
  match cnt with [] => Some acc | c :: cnt' => do a <- to_int (acc * c); int_prod a cnt' end.
(** The offsets of the segments of a patch with counts [cnt] (the entries 1..)
    and strides [st]; the arrays bvalue and bunit have 7 entries.  The
    odometers of source and destination do not influence each other. *)
Definition odometer (mul : Z -> Z -> option Z) (cnt st : list Z) : option (list Z) :=
  if (length cnt <=? 6)%nat then
    do n <- int_prod 1 cnt;
    do bu <- odo_units 1 cnt;
    odo_offsets mul (Z.to_nat n) 0 (repeat 0 (length cnt)) bu cnt st
  else None.
Definition mul_int (x y : Z) : option Z := to_int (x * y).
Definition mul_long (x y : Z) : option Z := Some (x * y).

(** onesided.c 1067-1084: offset of the first element of a patch. *)
Fixpoint start_offset (start ld : list Z) (factor : Z) : option Z :=
  match start with
  | [] => Some 0
  | [s] => Some (s * factor)
  | s :: start' =>
      match ld with
      | d :: ld' => do r <- start_offset start' ld' (factor * d); Some (s * factor + r)
      | [] => None
      end
  end.

(** onesided.c 1050-1142 [gai_mem_copy]: the list of element copies
    (destination, source); memcpy moves whole elements. *)
Definition mem_copy (es : Z) (cnt ss sld ds dld : list Z) : option (list (Z * Z)) :=
  match cnt with
  | [] => None
  | c :: cnt' =>
      do so <- start_offset ss sld 1;
      do dof <- start_offset ds dld 1;
      do seg <- to_int (c * es);
      do sst <- set_stride (length cnt') es sld;
      do dst <- set_stride (length cnt') es dld;
      do sl <- odometer mul_int cnt' sst;
      do dl <- odometer mul_int cnt' dst;
      do ls <- mapM (fun q => do a <- elem_of es (dof * es + fst q);
                              do b <- elem_of es (so * es + snd q);
                              do n <- elem_of es seg;
                              Some (map (fun i => (a + Z.of_nat i, b + Z.of_nat i)) (seq 0 (Z.to_nat n))))
                    (combine dl sl);
      Some (concat ls)
  end.
(** memcpy of one element between different buffers. *)
Definition copy_elem {V} (src dst : buffer V) (q : Z * Z) : option (buffer V) :=
  do v <- src (snd q); do w <- dst (fst q); Some (bset dst (fst q) v).
