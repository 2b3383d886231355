(** Model of the operations on the diagonal, the rows and the columns of a
    matrix: GA_Get_diag, GA_Add_diagonal, GA_Set_diagonal, GA_Shift_diagonal,
    GA_Zero_diagonal, GA_Scale_rows, GA_Scale_cols.
    Source: /repo/global/src/matrix.c 1358-2840.
    The result of a process is the list of the elements it works on; [None] =
    pnga_error or undefined behaviour.  Simplifications: the loop bodies, which
    differ only in the element type, are written once; malloc does not fail;
    Integer is unbounded; arrays are not mirrored.  The synchronisations appear
    as the assumption that nothing else happens meanwhile. *)
From Verif Require Export MGcopy SpecDiag MPw.

Definition elt_eqb (s t : elt) : bool :=
  match s, t with
  | E_int, E_int | E_long, E_long | E_longlong, E_longlong | E_flt, E_flt | E_dbl, E_dbl | E_dcpl, E_dcpl | E_scpl, E_scpl => true
  | _, _ => false
  end.
(** The cases of the switch statements (1408-1467, 1634-1695, 1857-1918, 2069-2131,
    2239-2286, 2465-2508, 2672-2717): C_LONGLONG is missing. *)
Definition listed (t : elt) : bool := match t with E_longlong => false | _ => true end.

(** matrix.c 1380-1388 (1608-1613, 1831-1836, 2064-2067, 2324-2328): the range of
    the diagonal in a block, if there is one. *)
Definition diag_range (q : lpiece) : option (option (Z * Z)) :=
  match lp_lo q, lp_hi q with
  | [l0; l1], [h0; h1] =>
      if 0 <? l0 then
        if Z.max l0 l1 <=? Z.min h0 h1 then Some (Some (Z.max l0 l1, Z.min h0 h1)) else Some None
      else Some None
  | _, _ => None
  end.
(** "ia += ld*(lo[1]-jloA) + lo[0]-iloA". *)
Definition diag_start (q : lpiece) (m : Z) : option Z :=
  match lp_lo q, lp_ld q with
  | [l0; l1], ld :: _ => Some (ld * (m - l1) + m - l0)
  | _, _ => None
  end.
(** The loop "for i ... ia += ld + 1": pairs (offset, i). *)
Fixpoint diag_loop (n : nat) (i p step : Z) : list (Z * Z) :=
  match n with O => [] | S n' => (p, i) :: diag_loop n' (i + 1) (p + step) step end.
Definition diag_uses (q : lpiece) (start lo hi : Z) : option (list (Z * Z)) :=
  match lp_ld q with ld :: _ => Some (diag_loop (Z.to_nat (hi - lo + 1)) 0 start (ld + 1)) | [] => None end.

(** A buffer of [n] elements filled by pnga_get of [vlo..vhi]; the number given as
    leading dimension is not used.  What the buffer holds at [i]. *)
Definition fetch fuel guess rnd wn smp (v : garray) (vlo vhi n : Z) : option (list (place * Z)) :=
  do ts <- transfers fuel guess rnd wn smp v [vlo] [vhi] [vhi];
  if forallb (fun t => (0 <=? snd t) && (snd t <? n)) ts then Some ts else None.
Definition vec_at (ts : list (place * Z)) (i : Z) : option place :=
  match find (fun t => snd t =? i) ts with Some t => Some (fst t) | None => None end.
(** The uses of a buffer by a loop over a block: (cell of A, cell of V). *)
Definition use_pairs (q : lpiece) (ts : list (place * Z)) (us : list (Z * Z)) : option (list (place * place)) :=
  mapM (fun u => do p <- vec_at ts (snd u); Some ((lp_seg q, lp_off q + fst u), p)) us.

(** matrix.c 1595-1703 [sgai_add_diagonal_block], 1816-1934
    [sgai_set_diagonal_block]; pnga_release_update has no effect on memory. *)
Definition diag_block fuel guess rnd wn smp (t : elt) (v : garray) (q : lpiece) : option (list (place * place)) :=
  do r <- diag_range q;
  match r with
  | None => Some []
  | Some (lo, hi) =>
      do ts <- fetch fuel guess rnd wn smp v lo hi (hi - lo + 1);
      if listed t then
        do s <- diag_start q lo; do us <- diag_uses q s lo hi; use_pairs q ts us
      else None
  end.
(** matrix.c 1358-1480 [sgai_get_diagonal_block]: the loop fills the buffer, which
    is put to V; pairs (cell of V, cell of A). *)
Definition get_block fuel guess rnd wn smp (t : elt) (v : garray) (q : lpiece) : option (list (place * place)) :=
  do r <- diag_range q;
  match r with
  | None => Some []
  | Some (lo, hi) =>
      if listed t then
        do s <- diag_start q lo; do us <- diag_uses q s lo hi;
        do ts <- transfers fuel guess rnd wn smp v [lo] [hi] [hi];
        mapM (fun w => match find (fun u => snd u =? snd w) us with
                       | Some u => Some (fst w, (lp_seg q, lp_off q + fst u))
                       | None => None
                       end) ts
      else None
  end.
(** matrix.c 2045-2137 [sgai_shift_diagonal_block]. *)
Definition shift_block (t : elt) (q : lpiece) : option (list place) :=
  do r <- diag_range q;
  match r with
  | None => Some []
  | Some (lo, hi) =>
      if listed t then
        do s <- diag_start q lo; do us <- diag_uses q s lo hi;
        Some (map (fun u => (lp_seg q, lp_off q + fst u)) us)
      else None
  end.
(** matrix.c 2227-2290, 2316-2334: the pointer is that to the first element of the
    block and the offset is 0. *)
Definition zero_block (t : elt) (q : lpiece) : option (list place) :=
  do r <- diag_range q;
  match r with
  | None => Some []
  | Some (lo, hi) =>
      if listed t then
        do us <- diag_uses q 0 lo hi;
        Some (map (fun u => (lp_seg q, lp_off q + fst u)) us)
      else None
  end.

(** matrix.c 1508-1533 (1729-1756, 1962-1988). *)
Definition diag_checks (ta tv : elt) (a v : garray) : bool :=
  match dims (ga_desc a), dims (ga_desc v) with
  | [d1; d2], [n] => (n =? Z.min d1 d2) && elt_eqb ta tv
  | _, _ => false
  end.
Definition walk fuel guess near wn (a : garray) (me : Z) {E} (f : lpiece -> option (list E)) : option (list E) :=
  do ps <- local_iterate fuel guess near wn a me;
  do ls <- mapM f ps;
  Some (concat ls).
(** matrix.c 1488-1585, 1709-1811, 1942-2043. *)
Definition get_diag fuel guess near wn (rnd : lpiece -> Z -> Z) smp (ta tv : elt) (a v : garray) (me : Z) : option (list (place * place)) :=
  if diag_checks ta tv a v then walk fuel guess near wn a me (fun q => get_block fuel guess (rnd q) wn smp ta v q) else None.
Definition with_diag fuel guess near wn (rnd : lpiece -> Z -> Z) smp (ta tv : elt) (a v : garray) (me : Z) : option (list (place * place)) :=
  if diag_checks ta tv a v then walk fuel guess near wn a me (fun q => diag_block fuel guess (rnd q) wn smp ta v q) else None.
(** matrix.c 2142-2225; 2295-2427: zero does not check the number of dimensions,
    but lo, hi have two elements. *)
Definition shift_diag fuel guess near wn (ta : elt) (a : garray) (me : Z) : option (list place) :=
  if (length (dims (ga_desc a)) =? 2)%nat then walk fuel guess near wn a me (shift_block ta) else None.
Definition zero_diag fuel guess near wn (ta : elt) (a : garray) (me : Z) : option (list place) :=
  if (length (dims (ga_desc a)) =? 2)%nat then walk fuel guess near wn a me (zero_block ta) else None.

(** matrix.c 2466-2508: for each row i, for each column j: element j*ld+i and
    buf[i]; 2674-2717: for each column j, for each row i: element j*ld+i and
    buf[j]. *)
Definition row_uses (nr nc ld : Z) : list (Z * Z) := flat_map (fun i => map (fun j => (j * ld + i, i)) (counts nc)) (counts nr).
Definition col_uses (nr nc ld : Z) : list (Z * Z) := flat_map (fun j => map (fun i => (j * ld + i, j)) (counts nr)) (counts nc).
(** matrix.c 2429-2516 [sgai_scale_row_values], 2635-2725 [sgai_scale_col_values]. *)
Definition row_block fuel guess rnd wn smp (t : elt) (v : garray) (q : lpiece) : option (list (place * place)) :=
  match lp_lo q, lp_hi q, lp_ld q with
  | [l0; l1], [h0; h1], ld :: _ =>
      if (0 <? l0) && (l0 <=? h0) then
        do ts <- fetch fuel guess rnd wn smp v l0 h0 (h0 - l0 + 1);
        if listed t then use_pairs q ts (row_uses (h0 - l0 + 1) (h1 - l1 + 1) ld) else None
      else Some []
  | _, _, _ => None
  end.
Definition col_block fuel guess rnd wn smp (t : elt) (v : garray) (q : lpiece) : option (list (place * place)) :=
  match lp_lo q, lp_hi q, lp_ld q with
  | [l0; l1], [h0; h1], ld :: _ =>
      if (0 <? l1) && (l0 <=? h0) then
        do ts <- fetch fuel guess rnd wn smp v l1 h1 (h1 - l1 + 1);
        if listed t then use_pairs q ts (col_uses (h0 - l0 + 1) (h1 - l1 + 1) ld) else None
      else Some []
  | _, _, _ => None
  end.
(** matrix.c 2521-2633, 2730-2840. *)
Definition scale_rows fuel guess near wn (rnd : lpiece -> Z -> Z) smp (ta tv : elt) (a v : garray) (me : Z) : option (list (place * place)) :=
  match dims (ga_desc a), dims (ga_desc v) with
  | [d1; d2], [n] =>
      if (n =? d1) && elt_eqb ta tv then walk fuel guess near wn a me (fun q => row_block fuel guess (rnd q) wn smp ta v q) else None
  | _, _ => None
  end.
Definition scale_cols fuel guess near wn (rnd : lpiece -> Z -> Z) smp (ta tv : elt) (a v : garray) (me : Z) : option (list (place * place)) :=
  match dims (ga_desc a), dims (ga_desc v) with
  | [d1; d2], [n] =>
      if (n =? d2) && elt_eqb ta tv then walk fuel guess near wn a me (fun q => col_block fuel guess (rnd q) wn smp ta v q) else None
  | _, _ => None
  end.

(** Effect of one use. *)
Definition use_elem {V} (f : V -> V -> V) (mv : heap V) (ma : heap V) (e : place * place) : option (heap V) :=
  do u <- hget ma (fst e); do v <- hget mv (snd e); Some (hset ma (fst e) (f u v)).
(** The statements of the loop bodies: set and add act on the parts of a complex
    number (1903-1904, 1680-1681), and so do the products (2492-2493, 2701-2702). *)
Definition code_set {R} (u v : val R) : val R := v.
Definition code_add {R} (radd : R -> R -> R) (u v : val R) : val R :=
  match u, v with
  | Re a, Re b => Re (radd a b)
  | Cx a b, Cx c d => Cx (radd a c) (radd b d)
  | _, _ => u
  end.
Definition code_mul {R} (rmul : R -> R -> R) (u v : val R) : val R :=
  match u, v with
  | Re a, Re b => Re (rmul a b)
  | Cx a b, Cx c d => Cx (rmul a c) (rmul b d)
  | _, _ => u
  end.
(** "= 0", "= 0.0". *)
Definition code_zero {R} (zero : R) (u : val R) : val R := match u with Re _ => Re zero | Cx _ _ => Cx zero zero end.
