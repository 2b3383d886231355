(** Model of the automatic decomposition and the default distribution.
    Sources: /repo/global/src/decomp.c, /repo/global/src/base.c. *)
From Verif Require Export MBase.

(** [lo, lo+1, ..., lo+n-1]. *)
Fixpoint zrange (lo : Z) (n : nat) : list Z :=
  match n with O => [] | S n' => lo :: zrange (lo + 1) n' end.

(** decomp.c 645-658: all divisors of npes, ascending (the first is 1). *)
Definition divisors (npes : Z) : list Z :=
  filter (fun i => npes mod i =? 0) (zrange 1 (Z.to_nat npes)).

(** decomp.c 660-671: the in-place sieve.  Round k keeps, behind entry k, the
    entries divisible by pdivs[k], divided by it (the write index h never
    overtakes the read index j, so the in-place update equals this filter).
    Called on the list from entry 1 on; fuel = its length. *)
Fixpoint sieve (fuel : nat) (l : list Z) : list Z :=
  match fuel, l with
  | S f, p :: rest =>
      p :: sieve f (map (fun d => d / p) (filter (fun d => d mod p =? 0) rest))
  | _, _ => []
  end.
Definition prime_list (npes : Z) : list Z :=
  let l := tl (divisors npes) in sieve (length l) l.

(** decomp.c 686-691: weight of putting factor p0 on an axis:
    1.1 or (tard % (p0*pedims))/(double)tard. *)
Inductive weight := W_full | W_frac (num den : Z).
Definition axis_weight (t p0 pe : Z) : weight :=
  if t <? p0 * pe then W_full else W_frac (t mod (p0 * pe)) t.

(** decomp.c 685-692: choice of the axis for factor p0.  [wlt] is the
    floating point comparison w<q; theorems hold for every [wlt].
    bias = 0, so istep = 1. *)
Fixpoint pick_axis (wlt : weight -> weight -> bool) (tard pedims : list Z)
         (ndims istart p0 : Z) (n : nat) (j : Z) (q : weight) (h : Z) : Z :=
  match n with
  | O => h
  | S n' =>
      let ilook := (istart + j) mod ndims in
      let w := axis_weight (nth (Z.to_nat ilook) tard 0) p0
                           (nth (Z.to_nat ilook) pedims 0) in
      if wlt w q
      then pick_axis wlt tard pedims ndims istart p0 n' (j + 1) w ilook
      else pick_axis wlt tard pedims ndims istart p0 n' (j + 1) q h
  end.

(** decomp.c 682-695: deal the prime factors, largest index first. *)
Fixpoint deal (wlt : weight -> weight -> bool) (tard : list Z) (ndims : Z)
         (primes : list Z) (istart : Z) (pedims : list Z) : list Z :=
  match primes with
  | [] => pedims
  | p0 :: ps =>
      let q := axis_weight (nth (Z.to_nat istart) tard 0) p0
                           (nth (Z.to_nat istart) pedims 0) in
      let h := pick_axis wlt tard pedims ndims istart p0
                         (Z.to_nat (ndims - 1)) 1 q istart in
      deal wlt tard ndims ps ((istart + 1) mod ndims)
           (upd (Z.to_nat h) (nth (Z.to_nat h) pedims 0 * p0) pedims)
  end.

(** decomp.c 634-641: granularity and reduced extents. *)
Definition clamp_blk (b : Z) : Z := if b <? 1 then 1 else b.
Definition tard_of (ardim b : Z) : Z :=
  let t := (ardim + clamp_blk b - 1) / clamp_blk b in if t <? 1 then 1 else t.

(** decomp.c 611-709 [ddb_h2] with threshold 0.0 and bias 0; returns
    (pedims, blk).  Not modelled: the exhaustive search [ddb_ex] (697-703),
    which is not reached because dd_ev is never negative; malloc failure. *)
Definition ddb_h2 (wlt : weight -> weight -> bool) (ardims : list Z) (npes : Z)
           (blk : list Z) : list Z * list Z :=
  let tard := map (fun p => tard_of (fst p) (snd p)) (combine ardims blk) in
  let ndims := Z.of_nat (length ardims) in
  let pedims := deal wlt tard ndims (rev (prime_list npes)) 0
                     (map (fun _ => 1) ardims) in
  (pedims, map (fun p => (fst p + snd p - 1) / snd p) (combine tard pedims)).

(** base.c 2606-2614: the map loop of one dimension.  [room] is the space
    left in the scratch buffer; writing past it is undefined ([None]). *)
Fixpoint map_loop (fuel : nat) (dim pe blk chunk pcut room p i : Z)
  : option (list Z) :=
  if (p <? pe) && (i <? dim) then
    match fuel with
    | O => None
    | S f =>
        if room <=? p then None else
        let b := if pcut <=? p then blk - 1 else blk in
        let b := if 1 <? chunk then b * Z.min chunk dim else b in
        do r <- map_loop f dim pe blk chunk pcut room (p + 1) (i + b);
        Some (i + 1 :: r)
    end
  else Some [].

(** base.c 2591-2618: maps of all dimensions, written one after the other
    into the scratch buffer; returns (pe, map).
    In C nblock is the number of entries written, never above pe, so
    min(pe,nblock) is the length. *)
Fixpoint default_maps (dims chunk blk pe : list Z) (room : Z)
  : option (list Z * list Z) :=
  match dims, chunk, blk, pe with
  | [], [], [], [] => Some ([], [])
  | d :: dims', c :: chunk', b :: blk', p :: pe' =>
      let pcut := if 1 <? c then (d - 1) / Z.min c d + 1 - (b - 1) * p
                  else d - (b - 1) * p in
      do m <- map_loop (Z.to_nat p) d p b c pcut room 0 0;
      let n := Z.min p (Z.of_nat (length m)) in
      do r <- default_maps dims' chunk' blk' pe' (room - n);
      Some (n :: fst r, m ++ snd r)
  | _, _, _, _ => None
  end.

(** base.c 2554-2562: block hints from chunk. *)
Definition initial_blk (dims chunk : list Z) : list Z :=
  map (fun p => if fst p =? 1 then 1
                else if nth 0 chunk 0 =? 0 then -1 else Z.min (snd p) (fst p))
      (combine dims chunk).

(** base.c 2512-2644, default REGULAR distribution: (nblock, mapc).
    [npes] is the number of processes of the group, or the number of
    restricted processes; the buffer [mapALL] (base.c 424) has
    GAnproc+MAXDIM-1 entries. *)
Definition default_distribution (wlt : weight -> weight -> bool)
           (ganproc maxdim npes : Z) (dims chunk : list Z) : option (list Z * list Z) :=
  let d := ddb_h2 wlt dims npes (initial_blk dims chunk) in
  default_maps dims chunk (snd d) (fst d) (ganproc + maxdim - 1).
