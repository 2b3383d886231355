(** Model of put, get and accumulate (/repo/global/src/onesided.c 530-675,
    902-1045, 1334-1453) down to the strided calls of the transport layer
    (ARMCI_PutS, ARMCI_GetS, ARMCI_AccS and their non-blocking variants).

    Addresses handed to the transport are in bytes.  Modelled as undefined
    ([None]): overflow of the C ints that hold counts and strides, an address
    that belongs to another process than the one the transfer is sent to, and
    access to memory that is not allocated.  Not modelled: field-wise
    transfers (field_size >= 0), statistics, profiling. *)
From Verif Require Export MIter SpecXfer.

(** A value stored in a C int. *)
Definition to_int (x : Z) : option Z :=
  if (- int_max - 1 <=? x) && (x <=? int_max) then Some x else None.

(** onesided.c 330-337 [gam_ComputePatchIndex]. *)
Fixpoint patch_loop (lo plo dims : list Z) (factor : Z) : option Z :=
  match lo, plo with
  | [], [] => Some 0
  | l :: lo', p :: plo' =>
      match dims with
      | d :: dims' =>
          let factor' := factor * d in
          do r <- patch_loop lo' plo' dims' factor';
          Some (factor' * (p - l) + r)
      | [] => None
      end
  | _, _ => None
  end.
Definition patch_index (lo plo dims : list Z) : option Z :=
  match lo, plo with
  | l :: lo', p :: plo' => do r <- patch_loop lo' plo' dims 1; Some (p - l + r)
  | _, _ => None
  end.

(** base.h 341-344 [gam_ComputeCount]. *)
Fixpoint compute_count (lo hi : list Z) : option (list Z) :=
  match lo, hi with
  | [], [] => Some []
  | l :: lo', h :: hi' =>
      do c <- to_int (h - l);
      do c' <- to_int (c + 1);
      do r <- compute_count lo' hi';
      Some (c' :: r)
  | _, _ => None
  end.

(** base.h 322-331 [gam_setstride] for one of the two arrays; [n] = ndim-1,
    [s] the current stride. *)
Fixpoint set_stride (n : nat) (s : Z) (ld : list Z) : option (list Z) :=
  match n with
  | O => Some []
  | S n' =>
      match ld with
      | d :: ld' =>
          do d' <- to_int d;
          do s' <- to_int (s * d');
          do r <- set_stride n' s' ld';
          Some (s' :: r)
      | [] => None
      end
  end.

(** The arguments of a strided transport call: target process, process whose
    memory the remote address belongs to, byte offsets of prem and pbuf,
    stride_rem, stride_loc, count. *)
Record xfer := Xfer {
  x_proc : Z; x_seg : Z; x_rem : Z; x_loc : Z;
  x_srem : list Z; x_sloc : list Z; x_count : list Z
}.

(** onesided.c 605-613 (put), 982-999 (get), 1402-1410 (accumulate). *)
Definition piece_xfer (es : Z) (lo ld : list Z) (p : ipiece) : option xfer :=
  let n := (length lo - 1)%nat in
  do idx_buf <- patch_index lo (ip_lo p) ld;
  do cnt <- compute_count (ip_lo p) (ip_hi p);
  do cnt' <- match cnt with c :: r => do c' <- to_int (c * es); Some (c' :: r) | [] => None end;
  do size <- to_int es;
  do srem <- set_stride n size (ip_ld p);
  do sloc <- set_stride n size ld;
  Some (Xfer (ip_proc p) (ip_seg p) (es * ip_off p) (es * idx_buf) srem sloc cnt').

(** Contract of the strided transport calls: all index vectors k with
    0 <= k_i < count_i, the first component counting elements of the
    contiguous segment. *)
Fixpoint indices (cnt : list Z) : list (list Z) :=
  match cnt with
  | [] => [[]]
  | c :: cnt' =>
      flat_map (fun t => map (fun i => Z.of_nat i :: t) (seq 0 (Z.to_nat c))) (indices cnt')
  end.
Fixpoint dot (k s : list Z) : Z :=
  match k, s with a :: k', b :: s' => a * b + dot k' s' | _, _ => 0 end.
(** Element at a byte address; misaligned accesses do not occur. *)
Definition elem_of (es b : Z) : option Z := if b mod es =? 0 then Some (b / es) else None.
Fixpoint mapM {A B} (f : A -> option B) (l : list A) : option (list B) :=
  match l with
  | [] => Some []
  | a :: l' => do b <- f a; do r <- mapM f l'; Some (b :: r)
  end.
Definition elem_access (es : Z) (x : xfer) (k : list Z) : option (place * Z) :=
  do r <- elem_of es (x_rem x + dot k (es :: x_srem x));
  do l <- elem_of es (x_loc x + dot k (es :: x_sloc x));
  Some ((x_seg x, r), l).
Definition xfer_elems (es : Z) (x : xfer) : option (list (place * Z)) :=
  match x_count x with
  | c :: cnt =>
      do c' <- elem_of es c;
      if (x_proc x =? x_seg x) && forallb (fun n => 0 <=? n) (x_count x)
      then mapM (elem_access es x) (indices (c' :: cnt)) else None
  | [] => None
  end.

(** onesided.c 591-666, 967-1036, 1387-1442: in the first round the pieces of
    processes on other nodes are transferred, in the second round those of
    processes on this node ([smp] = armci_domain_same_id).  The result is the
    list of element transfers (memory cell, buffer index). *)
Definition transfers (fuel : nat) guess rnd nn (smp : Z -> bool) (a : garray) (lo hi ld : list Z)
  : option (list (place * Z)) :=
  do ps <- iterate fuel guess rnd nn a lo hi;
  let order := filter (fun p => negb (smp (ip_proc p))) ps ++ filter (fun p => smp (ip_proc p)) ps in
  do ls <- mapM (fun p => do x <- piece_xfer (ga_elemsize a) lo ld p; xfer_elems (ga_elemsize a) x) order;
  Some (concat ls).

(** Effect of one element transfer. *)
Definition hset {V} (m : heap V) (q : place) (v : V) : heap V :=
  fun p o => if (p =? fst q) && (o =? snd q) then Some v else m p o.
Definition bset {V} (b : buffer V) (i : Z) (v : V) : buffer V :=
  fun j => if j =? i then Some v else b j.
Definition put_elem {V} (buf : buffer V) (m : heap V) (t : place * Z) : option (heap V) :=
  do v <- buf (snd t); do w <- hget m (fst t); Some (hset m (fst t) v).
Definition get_elem {V} (m : heap V) (buf : buffer V) (t : place * Z) : option (buffer V) :=
  do v <- hget m (fst t); do w <- buf (snd t); Some (bset buf (snd t) v).
(** [f] is x, y |-> x + alpha*y. *)
Definition acc_elem {V} (f : V -> V -> V) (buf : buffer V) (m : heap V) (t : place * Z) : option (heap V) :=
  do v <- buf (snd t); do w <- hget m (fst t); Some (hset m (fst t) (f w v)).

(** Element transfers one after the other.  The calls issued for different
    pieces are non-blocking and complete in any order before the final
    nga_wait_internal (onesided.c 667, 1037, 1444); this is expressed by
    running them in any permuted order. *)
Fixpoint run_elems {S T} (f : S -> T -> option S) (s : S) (l : list T) : option S :=
  match l with
  | [] => Some s
  | t :: l' => do s' <- f s t; run_elems f s' l'
  end.

(** Concurrent calls: an event is one element update on behalf of a call with
    its buffer; [op_events] are the events of all calls, call by call. The
    interleavings of the calls are permutations of this list. *)
Definition put_event {V} (m : heap V) (e : buffer V * (place * Z)) := put_elem (fst e) m (snd e).
Definition acc_event {V} (f : V -> V -> V) (m : heap V) (e : buffer V * (place * Z)) := acc_elem f (fst e) m (snd e).
Definition op_events {V} (ots : list (region_op V * list (place * Z))) : list (buffer V * (place * Z)) :=
  flat_map (fun ot => map (fun t => (o_buf (fst ot), t)) (snd ot)) ots.
