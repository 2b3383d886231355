(** Model of reads from arrays with the read-cache property (/repo/global/src/onesided.c,
    base.c).  Cache entries are numbered; [None] in [c_nodes] = not allocated or
    freed.  [None] results = access to a freed entry, double free, access
    outside a buffer, int overflow or an endless loop.  The read from the array
    itself (ngai_get_common, modelled in MXfer) is the parameter [fetch]. *)
From Verif Require Export MOdo.

(** onesided.c 902-1046 [ngai_get_common] (MXfer), with its element transfers in
    any order. *)
Definition get_common {V} (fuel : nat) guess rnd nn smp (order : list (place * Z) -> list (place * Z)) (a : garray) (m : heap V) (lo hi ld : list Z) (buf : buffer V) : option (buffer V) :=
  do ts <- transfers fuel guess rnd nn smp a lo hi ld; run_elems (get_elem m) buf (order ts).

(** base.h 41-46 [cache_struct]. *)
Record cnode (V : Type) := CNode { n_lo : list Z; n_hi : list Z; n_buf : buffer V; n_next : option Z }.
Arguments CNode {V}. Arguments n_lo {V}. Arguments n_hi {V}. Arguments n_buf {V}. Arguments n_next {V}.
(** cache_head of the array and the heap of entries; [c_on] = (property == READ_CACHE). *)
Record cache (V : Type) := Cache { c_head : option Z; c_nodes : Z -> option (cnode V); c_fresh : Z; c_on : bool }.
Arguments Cache {V}. Arguments c_head {V}. Arguments c_nodes {V}. Arguments c_fresh {V}. Arguments c_on {V}.

Definition nset {V} (f : Z -> option (cnode V)) (i : Z) (x : option (cnode V)) : Z -> option (cnode V) :=
  fun j => if j =? i then x else f j.
(** free(node->cache_buf); free(node). *)
Definition cfree {V} (c : cache V) (i : Z) : option (cache V) :=
  do n <- c_nodes c i; Some (Cache (c_head c) (nset (c_nodes c) i None) (c_fresh c) (c_on c)).

(** A fresh buffer of [n] elements with arbitrary contents. *)
Definition fresh_buf {V} (junk : Z -> V) (n : Z) : buffer V := fun i => if (0 <=? i) && (i <? n) then Some (junk i) else None.
(** Extents hi-lo+1. *)
Fixpoint counts (lo hi : list Z) : list Z :=
  match lo, hi with l :: lo', h :: hi' => h - l + 1 :: counts lo' hi' | _, _ => [] end.
Fixpoint minus (x y : list Z) : list Z :=
  match x, y with a :: x', b :: y' => a - b :: minus x' y' | _, _ => [] end.
(** onesided.c 1210-1217: the entry encloses the region. *)
Fixpoint encloses (nlo nhi lo hi : list Z) : bool :=
  match nlo, nhi, lo, hi with
  | a :: nlo', b :: nhi', l :: lo', h :: hi' => if (a <=? l) && (h <=? b) then encloses nlo' nhi' lo' hi' else false
  | _, _, _, _ => true
  end.

Section One.
Context {V : Type} (fetch : list Z -> list Z -> list Z -> buffer V -> option (buffer V)) (junk : Z -> V) (es : Z).

(** onesided.c 1170-1195 (empty cache) and 1241-1269 (no match): a new entry in
    front of the list. *)
Definition cache_miss (c : cache V) (lo hi ld : list Z) (buf : buffer V) : option (cache V * buffer V) :=
  do nlo <- mapM to_int lo;
  do nhi <- mapM to_int hi;
  let cnt := counts lo hi in
  do nelem <- int_prod 1 cnt;
  do size <- to_int (es * nelem);
  do buf1 <- fetch lo hi ld buf;
  let z := repeat 0 (length lo) in
  do ts <- mem_copy es cnt z ld z cnt;
  do nb <- run_elems (copy_elem buf1) (fresh_buf junk nelem) ts;
  Some (Cache (Some (c_fresh c)) (nset (c_nodes c) (c_fresh c) (Some (CNode nlo nhi nb (c_head c)))) (c_fresh c + 1) (c_on c), buf1).

(** onesided.c 1218-1235 (match): copy from the entry; the leading dimensions
    given for the user's buffer are ncount. *)
Definition cache_hit (n : cnode V) (lo hi ld : list Z) (buf : buffer V) : option (buffer V) :=
  let cnt := counts lo hi in
  do ts <- mem_copy es cnt (minus lo (n_lo n)) (counts (n_lo n) (n_hi n)) (repeat 0 (length lo)) cnt;
  run_elems (copy_elem (n_buf n)) buf ts.

(** onesided.c 1197-1239: search the list; 1241-1269 when nothing matches. *)
Fixpoint cache_search (fuel : nat) (c : cache V) (p : option Z) (lo hi ld : list Z) (buf : buffer V) : option (cache V * buffer V) :=
  match p, fuel with
  | None, _ => cache_miss c lo hi ld buf
  | Some i, O => None
  | Some i, S f =>
      do n <- c_nodes c i;
      if encloses (n_lo n) (n_hi n) lo hi then
        do buf' <- cache_hit n lo hi ld buf; Some (c, buf')
      else cache_search f c (n_next n) lo hi ld buf
  end.

(** onesided.c 1283-1287: the inner loop of the trimming; [p] is not advanced. *)
Fixpoint trim_free (fuel : nat) (c : cache V) (p : option Z) (next : option Z) : option (cache V) :=
  match next with
  | None => Some c
  | Some _ =>
      match fuel, p with
      | S f, Some i => do n <- c_nodes c i; do c1 <- cfree c i; trim_free f c1 p (n_next n)
      | _, _ => None
      end
  end.
(** onesided.c 1272-1292: trimming; GA_MAX_CACHE is 10 (gacommon.h 7).  The loop
    only counts until the size exceeds the limit. *)
Fixpoint trim (fuel : nat) (size : Z) (c : cache V) : option (cache V) :=
  match c_head c, fuel with
  | None, _ => Some c
  | Some i, O => None
  | Some i, S f =>
      if 10 <? size then
        do n <- c_nodes c i;
        let c1 := Cache (c_head c) (nset (c_nodes c) i (Some (CNode (n_lo n) (n_hi n) (n_buf n) None))) (c_fresh c) (c_on c) in
        trim_free (S (Z.to_nat (c_fresh c))) c1 (n_next n) (n_next n)
      else trim f (size + 1) c
  end.

(** onesided.c 1151-1294 [pnga_get]. *)
Definition pnga_get (c : cache V) (lo hi ld : list Z) (buf : buffer V) : option (cache V * buffer V) :=
  if c_on c then
    do r <- cache_search (S (Z.to_nat (c_fresh c))) c (c_head c) lo hi ld buf;
    do c1 <- trim 13 0 (fst r);
    Some (c1, snd r)
  else do buf1 <- fetch lo hi ld buf; Some (c, buf1).

(** base.c 2484-2499, 4003-4019, 4096-4112: free all entries. *)
Fixpoint free_chain (fuel : nat) (c : cache V) (p : option Z) : option (cache V) :=
  match p, fuel with
  | None, _ => Some c
  | Some i, O => None
  | Some i, S f => do n <- c_nodes c i; do c1 <- cfree c i; free_chain f c1 (n_next n)
  end.
Definition cache_clear (c : cache V) : option (cache V) :=
  do c1 <- free_chain (S (Z.to_nat (c_fresh c))) c (c_head c);
  Some (Cache None (c_nodes c1) (c_fresh c1) (c_on c1)).
End One.

(** base.c 2291-2293: set_property(g_a, "read_cache"). *)
Definition set_read_cache {V} (c : cache V) : cache V := Cache None (c_nodes c) (c_fresh c) true.
(** base.c 2484-2502 in [pnga_unset_property] of an array without the READ_ONLY
    property: the READ_CACHE branch leaves the property as it is. *)
Definition unset_property {V} (c : cache V) : option (cache V) :=
  if c_on c then cache_clear c else Some (Cache (c_head c) (c_nodes c) (c_fresh c) false).

(** Histories of an array: gets (with the user's buffer before the call),
    set_property "read_cache" on an array without cached entries, unset_property. *)
Inductive cevent (V : Type) :=
  | CGet (lo hi ld : list Z) (buf : buffer V)
  | CSet
  | CUnset.
Arguments CGet {V}. Arguments CSet {V}. Arguments CUnset {V}.
Definition cstep {V} fetch junk es (c : cache V) (e : cevent V) : option (cache V * option (buffer V)) :=
  match e with
  | CGet lo hi ld buf => do r <- pnga_get fetch junk es c lo hi ld buf; Some (fst r, Some (snd r))
  | CSet => Some (set_read_cache c, None)
  | CUnset => do c1 <- unset_property c; Some (c1, None)
  end.
(** The buffers the gets of a history return. *)
Fixpoint crun {V} fetch junk es (c : cache V) (h : list (cevent V)) : option (cache V * list (option (buffer V))) :=
  match h with
  | [] => Some (c, [])
  | e :: h' => do r <- cstep fetch junk es c e; do q <- crun fetch junk es (fst r) h'; Some (fst q, snd r :: snd q)
  end.
(** A new array. *)
Definition no_cache {V} : cache V := Cache None (fun _ => None) 0 false.
