(** Model of the operations of /repo/global/src/sparse.c on one-dimensional arrays
    with a mask: pnga_patch_enum, pnga_scan_copy, pnga_scan_add, pnga_pack and
    pnga_unpack.
    Simplifications: the arrays are on the world group and have the map
    distribution of [MDist]; an array is a function of the subscript, and reading
    or writing offset [i] of the local part with first subscript [lop] is reading
    or writing subscript [lop + i] (C15, C52); pnga_get, pnga_put and pnga_gather
    read and write elements (C18, C19, C24); the three arrays are different;
    element types are a type with a zero and an addition; a mask element is whether
    it is not zero.  Processes are the numbers below [nproc]; between two
    pnga_sync the processes run in the order of a list that the theorems quantify
    over, which is enough since then no process reads what another writes. *)
From Verif Require Export SpecSparse MDist.
From Verif Require Import MNb MHandle MGroup.

(** base.c 3689-3708 [pnga_distribution] of a one-dimensional array. *)
Definition dist1 (g : gadesc) (p : Z) : out (Z * Z) :=
  match distribution g p with Some ([l], [h]) => Done (l, h) | _ => Undef end.
(** onesided.c 1499-1532 [pnga_access_ptr]: a part with no elements is an error
    (1519-1522, or the subscripts are not found, 1508, 1513). *)
Definition access1 (lop hip : Z) : out unit := if lop <=? hip then Done tt else Abort.
(** Reading element [i] of a local part of [hip - lop + 1] elements. *)
Definition rd {A} (f : Z -> A) (lop hip i : Z) : out A :=
  if (0 <=? i) && (i <=? hip - lop) then Done (f (lop + i)) else Undef.
(** All processes of a list, one after the other. *)
Fixpoint each {S} (f : Z -> S -> out S) (ps : list Z) (s : S) : out S :=
  match ps with [] => Done s | p :: ps' => try s1 <- f p s; each f ps' s1 end.
Fixpoint collect {A} (f : Z -> out A) (ps : list Z) : out (list A) :=
  match ps with [] => Done [] | p :: ps' => try a <- f p; try l <- collect f ps'; Done (a :: l) end.

Fixpoint all_some {A} (l : list (option A)) : option (list A) :=
  match l with [] => Some [] | x :: l' => do a <- x; do r <- all_some l'; Some (a :: r) end.

(** sparse.c 66-70: [val k] is start + k * stride in the type of the array. *)
Fixpoint enum_loop {V} (val : Z -> V) (n : nat) (i lop off : Z) (a : Z -> V) : Z -> V :=
  match n with O => a | S n' => enum_loop val n' (i + 1) lop off (fset a (lop + i) (val (off + i))) end.
(** sparse.c 27-83 [pnga_patch_enum] on process [p]. *)
Definition patch_enum1 {V} (g : gadesc) (val : Z -> V) (lo hi p : Z) (a : Z -> V) : out (Z -> V) :=
  try (lop, hip) <- dist1 g p;
  if 0 <? lop then
    if (hi <? lop) || (hip <? lo) then Done a
    else
      let lop := if lop <? lo then lo else lop in
      let hip := if hi <? hip then hi else hip in
      let off := lop - lo in
      try _ <- access1 lop hip;
      Done (enum_loop val (Z.to_nat (hip - lop + 1)) 0 lop off a)
  else Done a.
Definition patch_enum {V} (g : gadesc) (ps : list Z) (val : Z -> V) (lo hi : Z) (a : Z -> V) : out (Z -> V) :=
  each (patch_enum1 g val lo hi) ps a.

(** sparse.c 132-155 (and 269-292): the last set subscript on a process. *)
Fixpoint lim_loop (msk : Z -> bool) (n : nat) (i lop lo hi r : Z) : Z :=
  match n with
  | O => r
  | S n' => let ioff := i + lop in
            lim_loop msk n' (i + 1) lop lo hi (if msk ioff then if (lo <=? ioff) && (ioff <=? hi) then ioff else r else r)
  end.
Definition lim_of (g : gadesc) (msk : Z -> bool) (lo hi p : Z) : out Z :=
  try (lop, hip) <- dist1 g p;
  if 0 <? lop then try _ <- access1 lop hip; Done (lim_loop msk (Z.to_nat (hip - lop + 1)) 0 lop lo hi (-1))
  else Done (-1).
(** sparse.c 127-130, 156 (264-267, 293): after the sum over all processes [lim] holds the value of
    each process. *)
Definition lims (g : gadesc) (nproc : Z) (msk : Z -> bool) (lo hi : Z) : out (list Z) :=
  collect (lim_of g msk lo hi) (zseq 0 (Z.to_nat nproc)).
(** sparse.c 178-183, 317-322. *)
Fixpoint rmt_loop (lop : Z) (l : list Z) (r : Z) : Z :=
  match l with
  | [] => r
  | x :: l' => rmt_loop lop l' (if negb (-1 =? x) && (r <? x) && (x <? lop) then x else r)
  end.
(** sparse.c 164-173, 330-339. *)
Definition start_of (lop lo : Z) : Z := if lop <? lo then lo - lop else 0.
Definition stop_of (lop hip hi : Z) : Z := if hi <? hip then hi - lop + 1 else hip - lop + 1.

(** sparse.c 201-206. *)
Fixpoint copy_loop {V} (msk : Z -> bool) (src : Z -> V) (n : nat) (i lop : Z) (last : V) (dst : Z -> V) : Z -> V :=
  match n with
  | O => dst
  | S n' => let last := if msk (lop + i) then src (lop + i) else last in
            copy_loop msk src n' (i + 1) lop last (fset dst (lop + i) last)
  end.
(** sparse.c 158-217: one process; the access checks (185-187). *)
Definition scan_copy1 {V} (zero : V) (g : gadesc) (msk : Z -> bool) (src : Z -> V) (lo hi : Z) (ls : list Z) (p : Z) (dst : Z -> V)
  : out (Z -> V) :=
  try (lop, hip) <- dist1 g p;
  if (hi <? lop) || (hip <? lo) then Done dst
  else
    let start := start_of lop lo in
    let stop := stop_of lop hip hi in
    let rmt := rmt_loop lop ls (-1) in
    try _ <- access1 lop hip;
    let last := if -1 =? rmt then zero else src rmt in
    Done (copy_loop msk src (Z.to_nat (stop - start)) start lop last dst).
(** sparse.c 90-221 [pnga_scan_copy]. *)
Definition scan_copy {V} (zero : V) (g : gadesc) (nproc : Z) (ps : list Z) (msk : Z -> bool) (src : Z -> V) (lo hi : Z) (dst : Z -> V)
  : out (Z -> V) :=
  try ls <- lims g nproc msk lo hi;
  each (scan_copy1 zero g msk src lo hi ls) ps dst.

(** sparse.c 362-364: the mask is read before the index is compared. *)
Fixpoint skip_zero (msk : Z -> bool) (lop hip stop : Z) (fuel : nat) (start : Z) : out Z :=
  match fuel with
  | O => Undef
  | S f => try b <- rd msk lop hip start;
           if negb b && (start <? stop) then skip_zero msk lop hip stop f (start + 1) else Done start
  end.
(** What process [p] works on: None if nothing, else lop, hip, start (after
    361-365), stop and the nearest set subscript before it. *)
Definition segment (g : gadesc) (msk : Z -> bool) (lo hi : Z) (ls : list Z) (p : Z) : out (option (Z * Z * Z * Z * Z)) :=
  try (lop, hip) <- dist1 g p;
  if (hi <? lop) || (hip <? lo) then Done None
  else
    let start := start_of lop lo in
    let stop := stop_of lop hip hi in
    try _ <- access1 lop hip;
    try start <- (if lop <=? lo then skip_zero msk lop hip stop (S (Z.to_nat (stop - start))) start else Done start);
    Done (Some (lop, hip, start, stop, rmt_loop lop ls (-1))).
(** sparse.c 388-406: the elements after the first. *)
Fixpoint add_loop {V} (add : V -> V -> V) (zero : V) (excl : bool) (msk : Z -> bool) (src : Z -> V) (n : nat) (i lop : Z)
  (found : bool) (dst : Z -> V) : Z -> V :=
  match n with
  | O => dst
  | S n' =>
    let x := lop + i in
    if msk x then add_loop add zero excl msk src n' (i + 1) lop true (fset dst x (if excl then zero else src x))
    else if found then add_loop add zero excl msk src n' (i + 1) lop found
                         (fset dst x (add (dst (x - 1)) (if excl then src (x - 1) else src x)))
    else add_loop add zero excl msk src n' (i + 1) lop found dst
  end.
(** sparse.c 347-406: the scan of the local part. *)
Definition local_add {V} (add : V -> V -> V) (zero : V) (excl : bool) (g : gadesc) (msk : Z -> bool) (src : Z -> V) (lo hi : Z)
  (ls : list Z) (p : Z) (dst : Z -> V) : out (Z -> V) :=
  try s <- segment g msk lo hi ls p;
  match s with
  | None => Done dst
  | Some (lop, hip, start, stop, rmt) =>
    let (found, dst) :=
      if start <? stop then
        let x := lop + start in
        if msk x then (true, fset dst x (if excl then zero else src x))
        else if -1 =? rmt then (false, dst)
        else (true, if excl then if 0 <? x - 1 then fset dst x (src (x - 1)) else dst else fset dst x (src x))
      else (false, dst) in
    Done (add_loop add zero excl msk src (Z.to_nat (stop - (start + 1))) (start + 1) lop found dst)
  end.
(** sparse.c 409-426: what the parts before contribute; None if nothing is added. *)
Definition gather_sum {V} (add : V -> V -> V) (zero : V) (guess : Z -> Z -> Z -> Z) (g : gadesc) (msk : Z -> bool) (lo hi : Z)
  (ls : list Z) (dst : Z -> V) (p : Z) : out (Z * option V) :=
  try s <- segment g msk lo hi ls p;
  match s with
  | None => Done (p, None)
  | Some (lop, hip, start, stop, rmt) =>
    try b <- rd msk lop hip start;
    if negb b && negb (-1 =? rmt) then
      match locate_region guess g [rmt] [lop - 1] with
      | Some (Some ps) =>
        try subs <- need (all_some (map (fun pc => match snd (snd pc) with [h] => Some h | _ => None end) ps));
        Done (p, Some (fold_left (fun s h => add s (dst h)) subs zero))
      | Some None => Abort
      | None => Undef
      end
    else Done (p, None)
  end.
(** sparse.c 427-433. *)
Fixpoint carry_loop {V} (add : V -> V -> V) (msk : Z -> bool) (sum : V) (n : nat) (i lop : Z) (dst : Z -> V) : Z -> V :=
  match n with
  | O => dst
  | S n' => if msk (lop + i) then dst else carry_loop add msk sum n' (i + 1) lop (fset dst (lop + i) (add (dst (lop + i)) sum))
  end.
Definition carry_add {V} (add : V -> V -> V) (g : gadesc) (msk : Z -> bool) (lo hi : Z) (ls : list Z)
  (x : Z * option V) (dst : Z -> V) : out (Z -> V) :=
  match snd x with
  | None => Done dst
  | Some sum =>
    try s <- segment g msk lo hi ls (fst x);
    match s with
    | None => Done dst
    | Some (lop, hip, start, stop, rmt) => Done (carry_loop add msk sum (Z.to_nat (stop - start)) start lop dst)
    end
  end.
Fixpoint carry_all {V} (add : V -> V -> V) (g : gadesc) (msk : Z -> bool) (lo hi : Z) (ls : list Z)
  (l : list (Z * option V)) (dst : Z -> V) : out (Z -> V) :=
  match l with [] => Done dst | x :: l' => try d <- carry_add add g msk lo hi ls x dst; carry_all add g msk lo hi ls l' d end.
(** sparse.c 227-454 [pnga_scan_add]; the gathers are between the first and the
    second pnga_sync (407 and 422, 436; 310 and 311), the additions after the second. *)
Definition scan_add {V} (add : V -> V -> V) (zero : V) (excl : bool) (guess : Z -> Z -> Z -> Z) (g : gadesc) (nproc : Z) (ps : list Z)
  (msk : Z -> bool) (src : Z -> V) (lo hi : Z) (dst : Z -> V) : out (Z -> V) :=
  try ls <- lims g nproc msk lo hi;
  try d1 <- each (local_add add zero excl g msk src lo hi ls) ps dst;
  try sums <- collect (gather_sum add zero guess g msk lo hi ls d1) ps;
  carry_all add g msk lo hi ls sums d1.

(** base.c 4550-4645 [pnga_locate_nnodes] of a one-dimensional array with maps:
    [np] keeps its value [np0] if the region is not valid (4575-4576). *)
Definition nnodes1 (guess : Z -> Z -> Z -> Z) (g : gadesc) (lo hi np0 : Z) : out Z :=
  if region_ok (dims g) [lo] [hi] then
    need (do pT <- findblocks guess (dims g) (nblock g) (mapc g) [lo];
          do pB <- findblocks guess (dims g) (nblock g) (mapc g) [hi];
          Some (count_elems pT pB))
  else Done np0.
(** sparse.c 625-630: the first set element and their number. *)
Fixpoint count_loop (msk : Z -> bool) (n : nat) (i lop first cnt : Z) : Z * Z :=
  match n with
  | O => (first, cnt)
  | S n' => if msk (lop + i) then count_loop msk n' (i + 1) lop (if first <? 0 then i else first) (cnt + 1)
            else count_loop msk n' (i + 1) lop first cnt
  end.
(** sparse.c 605-637: what process [p] finds: lop, hip (within the range), np,
    first, and what it adds to lim[np]. *)
Record pinfo := PInfo { pi_lop : Z; pi_hip : Z; pi_np : Z; pi_first : Z; pi_cnt : Z }.
Definition pack_info (guess : Z -> Z -> Z -> Z) (g : gadesc) (nproc : Z) (msk : Z -> bool) (lo hi p : Z) : out pinfo :=
  try (lop, hip) <- dist1 g p;
  if 0 <? lop then
    let lop_1 := lop - 1 in
    let lop := if lop <? lo then lo else lop in
    let hip := if hi <? hip then hi else hip in
    if (hi <? lop) || (hip <? lo) then Done (PInfo lop hip 0 (-1) 0)
    else try np <- nnodes1 guess g 1 lop_1 0;
         try _ <- access1 lop hip;
         let (first, cnt) := count_loop msk (Z.to_nat (hip - lop + 1)) 0 lop (-1) 0 in
         if nproc <=? np then Undef else Done (PInfo lop hip np first cnt)
  else Done (PInfo lop hip 0 (-1) 0).
(** sparse.c 606, 640: the sums over all processes. *)
Definition lim_at (infos : list pinfo) (k : Z) : Z :=
  zsum (map (fun x => if pi_np x =? k then pi_cnt x else 0) infos).
(** sparse.c 642-645. *)
Definition place_of (infos : list pinfo) (np : Z) : Z := zsum (map (lim_at infos) (zseq 0 (Z.to_nat np))).
Definition icount (infos : list pinfo) (nproc : Z) : Z := zsum (map (lim_at infos) (zseq 0 (Z.to_nat nproc))).

(** sparse.c 457-481 [sga_pack]. *)
Fixpoint pack_loop {V} (msk : Z -> bool) (src : Z -> V) (n : nat) (i lop idx lim : Z) : list V :=
  match n with
  | O => []
  | S n' => if idx <? lim then
              if msk (lop + i) then src (lop + i) :: pack_loop msk src n' (i + 1) lop (idx + 1) lim
              else pack_loop msk src n' (i + 1) lop idx lim
            else []
  end.
(** sparse.c 484-556 [sga_unpack]; element [k] of the buffer is [buf k]. *)
Fixpoint unpack_loop {V} (msk : Z -> bool) (buf : Z -> V) (n : nat) (i lop idx lim : Z) (dst : Z -> V) : Z -> V :=
  match n with
  | O => dst
  | S n' => if idx <? lim then
              if msk (lop + i) then unpack_loop msk buf n' (i + 1) lop (idx + 1) lim (fset dst (lop + i) (buf idx))
              else unpack_loop msk buf n' (i + 1) lop idx lim dst
            else dst
  end.
Fixpoint put_list {V} (dst : Z -> V) (x : Z) (l : list V) : Z -> V :=
  match l with [] => dst | v :: l' => put_list (fset dst x v) (x + 1) l' end.

(** sparse.c 647-671, one process; [ext] is the extent of the packed array.  A
    buffer that is not filled is sent (or used) not initialised. *)
Definition pack1 {V} (infos : list pinfo) (ext : Z) (msk : Z -> bool) (src : Z -> V) (lo hi : Z) (x : pinfo) (dst : Z -> V)
  : out (Z -> V) :=
  let n := lim_at infos (pi_np x) in
  if (hi <? pi_lop x) || (pi_hip x <? lo) || (n =? 0) then Done dst
  else
    try _ <- access1 (pi_lop x) (pi_hip x);
    let place := place_of infos (pi_np x) in
    if pi_first x <? 0 then Undef
    else
      let elems := pi_hip x - pi_lop x + 1 in
      let buf := pack_loop msk src (Z.to_nat (elems - pi_first x)) (pi_first x) (pi_lop x) 0 n in
      if ext <? place + n then Abort
      else if Z.of_nat (length buf) =? n then Done (put_list dst (place + 1) buf) else Undef.
Definition unpack1 {V} (infos : list pinfo) (ext : Z) (msk : Z -> bool) (src : Z -> V) (lo hi : Z) (x : pinfo) (dst : Z -> V)
  : out (Z -> V) :=
  let n := lim_at infos (pi_np x) in
  if (hi <? pi_lop x) || (pi_hip x <? lo) || (n =? 0) then Done dst
  else
    try _ <- access1 (pi_lop x) (pi_hip x);
    let place := place_of infos (pi_np x) in
    if pi_first x <? 0 then Undef
    else
      let elems := pi_hip x - pi_lop x + 1 in
      if ext <? place + n then Abort
      else Done (unpack_loop msk (fun k => src (place + 1 + k)) (Z.to_nat (elems - pi_first x)) (pi_first x) (pi_lop x) 0 n dst).
Fixpoint each_info {V} (f : pinfo -> (Z -> V) -> out (Z -> V)) (l : list pinfo) (dst : Z -> V) : out (Z -> V) :=
  match l with [] => Done dst | x :: l' => try d <- f x dst; each_info f l' d end.
(** sparse.c 559-674 [sga_pack_unpack]: the array and icount. *)
Definition pack {V} (guess : Z -> Z -> Z -> Z) (g : gadesc) (nproc : Z) (ps : list Z) (ext : Z) (msk : Z -> bool) (src : Z -> V)
  (lo hi : Z) (dst : Z -> V) : out ((Z -> V) * Z) :=
  try infos <- collect (pack_info guess g nproc msk lo hi) ps;
  try d <- each_info (pack1 infos ext msk src lo hi) infos dst;
  Done (d, icount infos nproc).
Definition unpack {V} (guess : Z -> Z -> Z -> Z) (g : gadesc) (nproc : Z) (ps : list Z) (ext : Z) (msk : Z -> bool) (src : Z -> V)
  (lo hi : Z) (dst : Z -> V) : out ((Z -> V) * Z) :=
  try infos <- collect (pack_info guess g nproc msk lo hi) ps;
  try d <- each_info (unpack1 infos ext msk src lo hi) infos dst;
  Done (d, icount infos nproc).
