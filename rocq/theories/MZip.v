(** Model of the elementwise operations on two arrays (GA_Elem_multiply, _divide,
    _maximum, _minimum and their patch versions) and of GA_Median.
    Source: /repo/global/src/elem_alg.c 1068-1133, 1136-1266, 1533-1720,
    1722-2039, 2228-2345; /repo/global/src/matrix.c 40-545, 670-712;
    /repo/global/src/abstract_ops.h 40-42.
    The result of a process is the list of its phases as for C82; simplifications
    as for C82.  [None] = pnga_error or undefined behaviour. *)
From Verif Require Export MAdd SpecZip.

(** [ZOp hc pc ss]: the cell [pc] of array [hc] receives the combination of the
    cells [ss].  The function [f] that combines them is also told which of them
    is the destination itself, since the code may write a part of the result
    before it has read all of the operands. *)
Inductive zop :=
| ZCopy (hd : Z) (pd : place) (hs : Z) (ps : place)
| ZOp (hc : Z) (pc : place) (ss : list (Z * place)).
Definition place_eqb (p q : place) : bool := (fst p =? fst q) && (snd p =? snd q).
Definition zstep {V} (f : list bool -> list V -> option V) (st : store V) (o : zop) : option (store V) :=
  match o with
  | ZCopy hd pd hs ps => do v <- hget (st hs) ps; do u <- hget (st hd) pd; Some (sset st hd pd v)
  | ZOp hc pc ss =>
      do vs <- mapM (fun s => hget (st (fst s)) (snd s)) ss;
      do u <- hget (st hc) pc;
      do v <- f (map (fun s => (fst s =? hc) && place_eqb (snd s) pc) ss) vs;
      Some (sset st hc pc v)
  end.
Definition zcopies (hd hs : Z) (es : list (place * place)) : list zop := map (fun e => ZCopy hd (fst e) hs (snd e)) es.

(** elem_alg.c 1942-1947 (1733-1819), matrix.c 483-490 (97-295): direct access
    to the operands and to C, then a loop with the leading dimensions of C. *)
Definition zip_at guess near (srcs : list (Z * garray)) (hc : Z) (c : garray) (n : nat) (lo hi : list Z) : option (list zop) :=
  do rs <- mapM (fun s => do r <- access_long guess near (snd s) lo hi; Some (fst s, fst r)) srcs;
  do rc <- access_long guess near c lo hi;
  do os <- patch_offsets (firstn n lo) (firstn n hi) (snd rc);
  Some (map (fun k => ZOp hc (fst (fst rc), snd (fst rc) + k) (map (fun r => (fst r, (fst (snd r), snd (snd r) + k))) rs)) os).
(** The same inside a block of C that the iterator has found; the temporary
    arrays [hs] have their elements at the same places. *)
Definition zip_cells (hs : list Z) (hc : Z) (q : lpiece) (lo hi : list Z) : option (list zop) :=
  do o <- corner_offset lo (lp_lo q) (lp_ld q) 1;
  do os <- patch_offsets lo hi (lp_ld q);
  Some (map (fun k => let p := (lp_seg q, lp_off q + o + k) in ZOp hc p (map (fun h => (h, p)) hs)) os).

(** ---- two operands ---- *)
(** elem_alg.c 1757-1790: the types that the loop knows. *)
Definition listed_type (t : elt) : bool := match t with E_longlong => false | _ => true end.
(** elem_alg.c 1932-1954. *)
Definition elem2_local guess near (w : Z) (t : elt) (ha : Z) (av : garray) (hb : Z) (bv : garray) (hc : Z) (c : garray)
           (clo chi : list Z) : option (list zop) :=
  do da <- distribution (ga_desc av) w;
  do db <- distribution (ga_desc bv) w;
  do dc <- distribution (ga_desc c) w;
  let n := used_dims (length (dims (ga_desc av))) (length (dims (ga_desc bv))) (length (dims (ga_desc c))) in
  if negb (comp_patch (fst da) (snd da) (firstn n (fst dc)) (firstn n (snd dc))) then None
  else if negb (comp_patch (fst db) (snd db) (firstn n (fst dc)) (firstn n (snd dc))) then None
  else
    match cut_patch n clo chi (fst dc) (snd dc) with
    | None => Some []
    | Some b => if listed_type t then zip_at guess near [(ha, av); (hb, bv)] hc c n (fst b) (snd b) else None
    end.
(** elem_alg.c 1984-2034. *)
Definition elem2_piece (t : elt) ta tb hc (clo chi : list Z) (q : lpiece) : option (list zop) :=
  match patch_intersect clo chi (lp_lo q) (lp_hi q) with
  | None => Some []
  | Some b => if listed_type t then zip_cells [ta; tb] hc q (fst b) (snd b) else None
  end.
(** elem_alg.c 1975-2039. *)
Definition elem2_blocks fuel guess near wn (t : elt) ta tb hc (c : garray) (mec : Z) (clo chi : list Z) : option (list zop) :=
  do ps <- local_iterate fuel guess near wn c mec;
  do ls <- mapM (elem2_piece t ta tb hc clo chi) ps;
  Some (concat ls).
(** elem_alg.c 1823-2039, 2228-2233; arguments as for [add_patch]. *)
Definition elem2_patch fuel guess near wn w pre rnda rndb smp (t : elt) (ta tb ha hb hc : Z) (a b c : garray) (mea meb mec : Z)
           (alo ahi blo bhi clo chi : list Z) : option (list (list zop)) :=
  if negb (ga_elemsize a =? ga_elemsize b) || negb (ga_elemsize a =? ga_elemsize c)
     || negb (patch_inside (dims (ga_desc a)) alo ahi) || negb (patch_inside (dims (ga_desc b)) blo bhi)
     || negb (patch_inside (dims (ga_desc c)) clo chi)
     || negb (zprod (extents alo ahi) =? zprod (extents clo chi)) || negb (zprod (extents blo bhi) =? zprod (extents clo chi)) then None
  else
    let copy_a same := copy_patch fuel guess near wn w pre rnda smp true false same a c mea mec alo ahi clo chi in
    let copy_b := copy_patch fuel guess near wn w pre rndb smp true false false b c meb mec blo bhi clo chi in
    if is_regular a && is_regular b && is_regular c then
      do ca <- compat wn a c alo ahi clo chi;
      (* 1892-1911 *)
      do ra <- (if ca then Some ([], ha, a)
                else if hb =? hc then do e <- copy_a false; Some ([zcopies ta ha e], ta, c)
                else do e <- copy_a (ha =? hc); Some ([zcopies hc ha e], hc, c));
      do cb <- compat wn b c blo bhi clo chi;
      (* 1919-1930 *)
      do rb <- (if cb then Some ([], hb, b) else do e <- copy_b; Some ([zcopies tb hb e], tb, c));
      do l <- elem2_local guess near w t (snd (fst ra)) (snd ra) (snd (fst rb)) (snd rb) hc c clo chi;
      Some (fst (fst ra) ++ fst (fst rb) ++ [l])
    else
      do e <- copy_a false;
      do e' <- copy_b;
      do l <- elem2_blocks fuel guess near wn t ta tb hc c mec clo chi;
      Some [zcopies ta ha e; zcopies tb hb e'; l].
(** elem_alg.c 2238-2262 (2269-2295, 2303-2328, 2335-2360): the whole arrays;
    arrays with different numbers of dimensions are refused. *)
Definition elem2 fuel guess near wn w pre rnda rndb smp (t : elt) (ta tb ha hb hc : Z) (a b c : garray) (me : Z) : option (list (list zop)) :=
  let nd g := length (dims (ga_desc g)) in
  if negb (nd a =? nd b)%nat || negb (nd a =? nd c)%nat then None
  else elem2_patch fuel guess near wn w pre rnda rndb smp t ta tb ha hb hc a b c me me me
         (repeat 1 (nd a)) (dims (ga_desc a)) (repeat 1 (nd b)) (dims (ga_desc b)) (repeat 1 (nd c)) (dims (ga_desc c)).

(** elem_alg.c 1068-1086 with abstract_ops.h 40-42: the real part is stored
    before the imaginary part is computed. *)
Definition code_times {R} (radd rsub rmul : R -> R -> R) (al : list bool) (vs : list (val R)) : option (val R) :=
  match vs with
  | [Re a; Re b] => Some (Re (rmul a b))
  | [Cx a b; Cx c d] =>
      let r := rsub (rmul a c) (rmul b d) in
      let a' := if nth 0 al false then r else a in
      let c' := if nth 1 al false then r else c in
      Some (Cx r (radd (rmul a' d) (rmul b c')))
  | _ => None
  end.
(** elem_alg.c 1148-1156, 1237-1263. *)
Definition code_div {R} (is_zero : R -> bool) (rdiv : R -> R -> R) (a b : R) : option R :=
  if is_zero b then None else Some (rdiv a b).
(** elem_alg.c 1157-1196 (1197-1236) in exact arithmetic. *)
Definition qabs (a : Q) : Q := if Qle_bool 0 a then a else (- a)%Q.
Definition code_div_cpl (a b : Q * Q) : option (Q * Q) :=
  if Qle_bool (qabs (snd b)) (qabs (fst b)) then
    if Qeq_bool (fst b) 0 then None
    else
      let x1 := (snd b / fst b)%Q in
      let x2 := (1 / (fst b * (1 + x1 * x1)))%Q in
      Some ((fst a + snd a * x1) * x2, (snd a - fst a * x1) * x2)%Q
  else
    let x1 := (fst b / snd b)%Q in
    let x2 := (1 / (snd b * (1 + x1 * x1)))%Q in
    Some ((fst a * x1 + snd a) * x2, (snd a * x1 - fst a) * x2)%Q.
(** globalp.h 55-56; elem_alg.c 1544-1545, 1609-1620, 1640-1641, 1705-1715. *)
Definition code_max {R} (leb : R -> R -> bool) (a b : R) : R := if leb b a then a else b.
Definition code_min {R} (leb : R -> R -> bool) (a b : R) : R := if leb a b then a else b.
(** elem_alg.c 1547-1577, 1643-1673 in exact arithmetic. *)
Definition scaled2 (x1 : Q) (a : Q * Q) : Q := ((fst a * (1 / x1)) * (fst a * (1 / x1)) + (snd a * (1 / x1)) * (snd a * (1 / x1)))%Q.
Definition largest_part (a b : Q * Q) : Q :=
  code_max Qle_bool (code_max Qle_bool (qabs (fst a)) (qabs (snd a))) (code_max Qle_bool (qabs (fst b)) (qabs (snd b))).
Definition code_max_cpl (a b : Q * Q) : Q * Q :=
  let x1 := largest_part a b in
  if Qeq_bool x1 0 then a else if Qle_bool (scaled2 x1 a) (scaled2 x1 b) then b else a.
Definition code_min_cpl (a b : Q * Q) : Q * Q :=
  let x1 := largest_part a b in
  if Qeq_bool x1 0 then a else if Qle_bool (scaled2 x1 b) (scaled2 x1 a) then b else a.

(** ---- the median ---- *)
(** matrix.c 40-80 (with the absolute values as keys for complex numbers). *)
Definition aux_median {K V} (ltb leb : K -> K -> bool) (key : V -> K) (a b c : V) : V :=
  if ltb (key c) (key a) && ltb (key a) (key b) then a
  else if leb (key a) (key c) && leb (key c) (key b) then c
  else b.
Definition code_median {K V} (eqb ltb leb : K -> K -> bool) (key : V -> K) (a b c : V) : V :=
  if eqb (key a) (key b) then a
  else if ltb (key a) (key b) then aux_median ltb leb key a b c
  else aux_median ltb leb key b a c.

(** matrix.c 405-408 (423-426, 441-444): [compatible] is 1 if the blocks differ
    on every process. *)
Definition all_differ wn (a m : garray) : option bool :=
  do bs <- mapM (fun p => do da <- distribution (ga_desc a) p; do dm <- distribution (ga_desc m) p;
                          Some (negb (comp_patch (fst da) (snd da) (fst dm) (snd dm)))) (counts wn);
  Some (all_true bs).
(** matrix.c 463-495: [srcs] are the arrays used for A, B and C. *)
Definition median_local guess near (w : Z) (t : elt) (srcs : list (Z * garray)) (hm : Z) (m : garray) (mlo mhi : list Z) : option (list zop) :=
  do dm <- distribution (ga_desc m) w;
  do ok <- mapM (fun s => do d <- distribution (ga_desc (snd s)) w; Some (comp_patch (fst dm) (snd dm) (fst d) (snd d))) srcs;
  if negb (all_true ok) then None
  else
    let n := fold_right Nat.min (length (dims (ga_desc m))) (map (fun s => length (dims (ga_desc (snd s)))) srcs) in
    match cut_patch n mlo mhi (fst dm) (snd dm) with
    | None => Some []
    | Some b => if listed_type t then zip_at guess near srcs hm m n (fst b) (snd b) else None
    end.
(** matrix.c 521-545: the block is not cut with the patch; [loM] and [lod] are the
    same, the offset is 0. *)
Definition median_piece (t : elt) (hs : list Z) (hm : Z) (q : lpiece) : option (list zop) :=
  if listed_type t then zip_cells hs hm q (lp_lo q) (lp_hi q) else None.
Definition median_blocks fuel guess near wn (t : elt) (hs : list Z) (hm : Z) (m : garray) (me : Z) : option (list zop) :=
  do ps <- local_iterate fuel guess near wn m me;
  do ls <- mapM (median_piece t hs hm) ps;
  Some (concat ls).
(** matrix.c 288-665. *)
Definition median_patch fuel guess near wn w pre rnda rndb rndc smp (t : elt) (ta tb tc ha hb hc hm : Z) (a b c m : garray)
           (mea meb mec mem : Z) (alo ahi blo bhi clo chi mlo mhi : list Z) : option (list (list zop)) :=
  let size lo hi := zprod (extents lo hi) in
  if negb (ga_elemsize m =? ga_elemsize a) || negb (ga_elemsize m =? ga_elemsize b) || negb (ga_elemsize m =? ga_elemsize c)
     || negb (patch_inside (dims (ga_desc a)) alo ahi) || negb (patch_inside (dims (ga_desc b)) blo bhi)
     || negb (patch_inside (dims (ga_desc c)) clo chi) || negb (patch_inside (dims (ga_desc m)) mlo mhi)
     || negb (size mlo mhi =? size alo ahi) || negb (size mlo mhi =? size blo bhi) || negb (size mlo mhi =? size clo chi) then None
  else
    let copy_a := copy_patch fuel guess near wn w pre rnda smp true false false a m mea mem alo ahi mlo mhi in
    let copy_b := copy_patch fuel guess near wn w pre rndb smp true false false b m meb mem blo bhi mlo mhi in
    let copy_c := copy_patch fuel guess near wn w pre rndc smp true false false c m mec mem clo chi mlo mhi in
    if is_regular a && is_regular b && is_regular c && is_regular m then
      do da <- all_differ wn a m;
      do ra <- (if da then Some ([], (ha, a)) else do e <- copy_a; Some ([zcopies ta ha e], (ta, m)));
      do db <- all_differ wn b m;
      do rb <- (if db then Some ([], (hb, b)) else do e <- copy_b; Some ([zcopies tb hb e], (tb, m)));
      do dc <- all_differ wn c m;
      do rc <- (if dc then Some ([], (hc, c)) else do e <- copy_c; Some ([zcopies tc hc e], (tc, m)));
      do l <- median_local guess near w t [snd ra; snd rb; snd rc] hm m mlo mhi;
      Some (fst ra ++ fst rb ++ fst rc ++ [l])
    else
      do e <- copy_a;
      do e' <- copy_b;
      do e'' <- copy_c;
      do l <- median_blocks fuel guess near wn t [ta; tb; tc] hm m mem;
      Some [zcopies ta ha e; zcopies tb hb e'; zcopies tc hc e''; l].
(** matrix.c 670-712. *)
Definition median fuel guess near wn w pre rnda rndb rndc smp (t : elt) (ta tb tc ha hb hc hm : Z) (a b c m : garray) (me : Z) : option (list (list zop)) :=
  let ones g := repeat 1 (length (dims (ga_desc g))) in
  median_patch fuel guess near wn w pre rnda rndb rndc smp t ta tb tc ha hb hc hm a b c m me me me me
    (ones a) (dims (ga_desc a)) (ones b) (dims (ga_desc b)) (ones c) (dims (ga_desc c)) (ones m) (dims (ga_desc m)).
