(** Model of the strided transfers of ComEx (/repo/comex/src-mpi-pr/comex.c).
    Memories are byte memories; addresses are relative to the start of the
    patch.  [None] = failed assertion, access outside the patch or the stack
    arrays, division by zero, int overflow, MPI error or endless loop. *)
From Verif Require Export MOdo.

(** Reading and writing of consecutive bytes (memcpy). *)
Definition read_run {V} (m : buffer V) (a : Z) (n : nat) : option (list V) :=
  mapM (fun i => m (a + Z.of_nat i)) (seq 0 n).
Fixpoint write_run {V} (m : buffer V) (a : Z) (l : list V) : option (buffer V) :=
  match l with
  | [] => Some m
  | v :: l' => do w <- m a; write_run (bset m a v) (a + 1) l'
  end.
(** comex/src-common/acc.h 106-150 [_acc]: elements of [es] bytes. *)
Fixpoint acc_bytes {V} (k : nat) (es : nat) (f : list V -> list V -> list V) (old new : list V) : list V :=
  match k with
  | O => old
  | S k' => f (firstn es old) (firstn es new) ++ acc_bytes k' es f (skipn es old) (skipn es new)
  end.
Definition acc_op {V} (es : Z) (f : list V -> list V -> list V) (old new : list V) : list V :=
  acc_bytes (Z.to_nat (Z.of_nat (length old) / es)) (Z.to_nat es) f old new.
Definition copy_op {V} (old new : list V) : list V := new.
(** The arrival of the bytes [new] at address [a]. *)
Definition apply_seg {V} (op : list V -> list V -> list V) (m : buffer V) (a : Z) (new : list V) : option (buffer V) :=
  do old <- read_run m a (length new); write_run m a (op old new).

(** comex.c 1238-1263 [_packed_size]. *)
Definition packed_size (cnt : list Z) : option Z :=
  match cnt with
  | [] => None
  | c :: cnt' => do n <- int_prod 1 cnt'; to_int (n * c)
  end.
(** comex.c 1267-1327 [pack]. *)
Definition pack {V} (src : buffer V) (st cnt : list Z) : option (list V) :=
  match cnt with
  | [] => None
  | c :: cnt' =>
      do n <- packed_size cnt;
      do offs <- odometer mul_long cnt' st;
      do segs <- mapM (fun o => read_run src o (Z.to_nat c)) offs;
      Some (concat segs)
  end.
(** comex.c 1330-1384 [unpack]; 4213-4269 for accumulate. *)
Fixpoint unpack_segs {V} (op : list V -> list V -> list V) (c : nat) (m : buffer V) (offs : list Z) (data : list V) : option (buffer V) :=
  match offs with
  | [] => Some m
  | o :: offs' =>
      if (c <=? length data)%nat then
        do m1 <- apply_seg op m o (firstn c data);
        unpack_segs op c m1 offs' (skipn c data)
      else None
  end.
Definition unpack {V} (op : list V -> list V -> list V) (m : buffer V) (st cnt : list Z) (data : list V) : option (buffer V) :=
  match cnt with
  | [] => None
  | c :: cnt' => do offs <- odometer mul_long cnt' st; unpack_segs op (Z.to_nat c) m offs data
  end.

(** Messages of at most [mx] bytes from the end of a buffer: comex.c 6510-6531,
    7090-7110, 3888-3899 (sender), 3657-3667, 4191-4202, 6783-6800 (receiver;
    a message must have the size of its receive buffer). *)
Definition msg_size (mx n : Z) : Z := if mx <? n then mx else n.
Fixpoint send_back {V} (fuel : nat) (mx : Z) (data : list V) : option (list (list V)) :=
  match fuel with
  | O => None
  | S f =>
      let n := Z.of_nat (length data) in
      let size := msg_size mx n in
      let msg := skipn (Z.to_nat (n - size)) data in
      if 0 <? n - size then do l <- send_back f mx (firstn (Z.to_nat (n - size)) data); Some (msg :: l) else Some [msg]
  end.
Fixpoint recv_back {V} (fuel : nat) (mx n : Z) (msgs : list (list V)) : option (list V) :=
  match fuel, msgs with
  | S f, m :: ms =>
      let size := msg_size mx n in
      if Z.of_nat (length m) =? size then
        if 0 <? n - size then do l <- recv_back f mx (n - size) ms; Some (l ++ m) else Some m
      else None
  | _, _ => None
  end.
(** From the start of the buffer: comex.c 6133-6144, 6327-6338, 3838-3850
    (sender), 3592-3600, 4101-4111, 6201-6212 (receiver). *)
Fixpoint send_fwd {V} (fuel : nat) (mx : Z) (data : list V) : option (list (list V)) :=
  match fuel with
  | O => None
  | S f =>
      let n := Z.of_nat (length data) in
      let size := msg_size mx n in
      let msg := firstn (Z.to_nat size) data in
      if 0 <? n - size then do l <- send_fwd f mx (skipn (Z.to_nat size) data); Some (msg :: l) else Some [msg]
  end.
Fixpoint recv_fwd {V} (fuel : nat) (mx n : Z) (msgs : list (list V)) : option (list V) :=
  match fuel, msgs with
  | S f, m :: ms =>
      let size := msg_size mx n in
      if Z.of_nat (length m) =? size then
        if 0 <? n - size then do l <- recv_fwd f mx (n - size) ms; Some (m ++ l) else Some m
      else None
  | _, _ => None
  end.
Definition by_messages_back {V} (mx : Z) (data : list V) : option (list V) :=
  do l <- send_back (length data) mx data; recv_back (length data) mx (Z.of_nat (length data)) l.
Definition by_messages_fwd {V} (mx : Z) (data : list V) : option (list V) :=
  do l <- send_fwd (length data) mx data; recv_fwd (length data) mx (Z.of_nat (length data)) l.

(** The settings and the place of the target: [k_near] the target's memory is
    accessed directly by contiguous transfers (comex.c 6073-6101), [k_far] it is
    neither the caller nor, by host name, on its node (6365-6368); the other
    fields are the variables of comex.c 180-240 and sizeof(header_t),
    sizeof(stride_t). *)
Record comex_cfg := { k_near : bool; k_far : bool; k_packed : bool; k_dtype : bool;
                      k_eager : Z; k_max : Z; k_thr : Z; k_header : Z; k_stride : Z }.
(** comex.c 1157-1160 [_eager_check]. *)
Definition eager (k : comex_cfg) (extra : Z) : bool := k_header k + extra <? k_eager k.

(** comex.c 6059-6145 [nb_put], 6148-6217 [nb_get], 6220-6340 [nb_acc] and their
    handlers; [eg] tells whether small transfers may travel with the header
    (not for get), [extra] the size of the scale (accumulate). *)
Definition contig {V} (k : comex_cfg) (eg : bool) (extra : Z) (op : list V -> list V -> list V) (src : buffer V) (so : Z) (m : buffer V) (d : Z) (c : Z) : option (buffer V) :=
  if 0 <? c then
    do data <- read_run src so (Z.to_nat c);
    do got <- (if k_near k then Some data
               else if eg && eager k (extra + c) then Some data
               else by_messages_fwd (k_max k) data);
    apply_seg op m d got
  else None.
(** comex.c 6384-6424, 6652-6694, 6923-6968: one transfer per segment. *)
Fixpoint contigs {V} (k : comex_cfg) (eg : bool) (extra : Z) (op : list V -> list V -> list V) (src m : buffer V) (c : Z) (l : list (Z * Z)) : option (buffer V) :=
  match l with
  | [] => Some m
  | (so, d) :: l' => do m1 <- contig k eg extra op src so m d c; contigs k eg extra op src m1 c l'
  end.
Definition segmentwise {V} (k : comex_cfg) (eg : bool) (extra : Z) (op : list V -> list V -> list V) (src : buffer V) (sst : list Z) (m : buffer V) (dst cnt : list Z) : option (buffer V) :=
  match cnt with
  | [] => None
  | c :: cnt' =>
      do so <- odometer mul_long cnt' sst;
      do d <- odometer mul_long cnt' dst;
      contigs k eg extra op src m c (combine so d)
  end.
(** comex.c 6428-6533 [nb_puts_packed], 6697-6804 [nb_gets_packed], 6971-7115
    [nb_accs_packed] and their handlers; stride_levels < 8 is asserted. *)
Definition packed {V} (k : comex_cfg) (eg : bool) (extra : Z) (op : list V -> list V -> list V) (src : buffer V) (sst : list Z) (m : buffer V) (dst cnt : list Z) : option (buffer V) :=
  if (length cnt <=? 8)%nat then
    do data <- pack src sst cnt;
    do got <- (if eg && eager k (extra + k_stride k + Z.of_nat (length data)) then Some data
               else by_messages_back (k_max k) data);
    unpack op m dst cnt got
  else None.
(** comex.c 7493-7557 [strided_to_subarray_dtype]: sizes of the enclosing array
    (stack arrays of 7 entries); MPI_Type_create_subarray fails unless
    1 <= subsize <= size. *)
Fixpoint dtype_sizes (prev : Z) (st cnt : list Z) : option (list Z) :=
  match st, cnt with
  | s :: st', c :: cnt' =>
      do q <- cdiv s prev;
      do r <- dtype_sizes s st' cnt';
      if (1 <=? c) && (c <=? q) then Some (q :: r) else None
  | [], [c] => if 1 <=? c then Some [c] else None
  | _, _ => None
  end.
(** The bytes of the data type, in order (MPI_ORDER_FORTRAN, starts 0). *)
Fixpoint sub_offset (sizes k : list Z) : Z :=
  match sizes, k with z :: sizes', a :: k' => a + z * sub_offset sizes' k' | _, _ => 0 end.
Definition dtype (st cnt : list Z) : option (list Z) :=
  if (length cnt <=? 7)%nat then do z <- dtype_sizes 1 st cnt; Some (map (sub_offset z) (indices cnt)) else None.
Fixpoint write_at {V} (m : buffer V) (l : list (Z * V)) : option (buffer V) :=
  match l with
  | [] => Some m
  | (a, v) :: l' => do w <- m a; write_at (bset m a v) l'
  end.
(** comex.c 6536-6614 [nb_puts_datatype], 6807-6890 [nb_gets_datatype]. *)
Definition by_datatype {V} (src : buffer V) (sst : list Z) (m : buffer V) (dst cnt : list Z) : option (buffer V) :=
  do a <- dtype sst cnt;
  do b <- dtype dst cnt;
  do data <- mapM src a;
  write_at m (combine b data).

(** comex.c 6342-6425 [nb_puts] and 6617-6694 [nb_gets]; [eg] = put. *)
Definition strided_xfer {V} (k : comex_cfg) (eg : bool) (src : buffer V) (sst : list Z) (m : buffer V) (dst cnt : list Z) : option (buffer V) :=
  match cnt with
  | [] => None
  | [c] => contig k eg 0 copy_op src 0 m 0 c
  | _ =>
      do n <- (if k_dtype k && k_far k then packed_size cnt else Some 0);
      if k_dtype k && k_far k && (k_thr k <? n) then by_datatype src sst m dst cnt
      else if k_packed k && k_far k then packed k eg 0 copy_op src sst m dst cnt
      else segmentwise k eg 0 copy_op src sst m dst cnt
  end.
Definition nb_puts {V} (k : comex_cfg) (src : buffer V) (sst : list Z) (m : buffer V) (dst cnt : list Z) := strided_xfer k true src sst m dst cnt.
Definition nb_gets {V} (k : comex_cfg) (src : buffer V) (sst : list Z) (m : buffer V) (dst cnt : list Z) := strided_xfer k false src sst m dst cnt.
(** comex.c 6893-6968 [nb_accs]. *)
Definition nb_accs {V} (k : comex_cfg) (es : Z) (f : list V -> list V -> list V) (src : buffer V) (sst : list Z) (m : buffer V) (dst cnt : list Z) : option (buffer V) :=
  match cnt with
  | [] => None
  | [c] => contig k true es (acc_op es f) src 0 m 0 c
  | _ =>
      if k_packed k && k_far k then packed k true es (acc_op es f) src sst m dst cnt
      else segmentwise k true es (acc_op es f) src sst m dst cnt
  end.
