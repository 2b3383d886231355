(** Model of GA_Dot and GA_Dot_patch.
    Source: /repo/global/src/global.nalg.c 393-591,
    /repo/global/src/global.npatch.c 938-1091, 1099-1525.
    The result of a process is the list of elements it copies to the temporary
    array, if there is one, and the list of pairs of cells whose product it
    adds.  [None] = pnga_error or undefined behaviour.  Simplifications: as for
    C82; the element type has an addition, a zero and a product, and arithmetic
    is exact; armci_msg_gop_scope adds the contributions of all processes. *)
From Verif Require Export MAdd SpecDot.

Record dotp := { dp_copy : option (list (place * place)); dp_pairs : list (place * place) }.

(** global.npatch.c 1245-1264: the part of the patch of A in the block of the
    caller; [bv] is B or its copy; the leading dimensions of A are used for
    both (1259).  loA, hiA beyond the dimensions of A are not initialised. *)
Definition dot_local guess near (me : Z) (a bv : garray) (alo ahi : list Z) : option (list (place * place)) :=
  do da <- distribution (ga_desc a) me;
  do db <- distribution (ga_desc bv) me;
  if negb (comp_patch (fst da) (snd da) (fst db) (snd db)) then None
  else
    let n := Nat.min (length (dims (ga_desc a))) (length (dims (ga_desc bv))) in
    match cut_patch n alo ahi (fst da) (snd da) with
    | None => Some []
    | Some b =>
        do ra <- access_long guess near a (fst b) (snd b);
        do rb <- access_long guess near bv (fst b) (snd b);
        do os <- patch_offsets (firstn n (fst b)) (firstn n (snd b)) (snd ra);
        Some (map (fun k => ((fst (fst ra), snd (fst ra) + k), (fst (fst rb), snd (fst rb) + k))) os)
    end.
(** global.npatch.c 1274-1337: the iterators of A and of its duplicate run over
    the same blocks at the same places of the memory. *)
Definition dot_piece (alo ahi : list Z) (q : lpiece) : option (list (place * place)) :=
  match patch_intersect alo ahi (lp_lo q) (lp_hi q) with
  | None => Some []
  | Some b =>
      do o <- corner_offset (fst b) (lp_lo q) (lp_ld q) 1;
      do os <- patch_offsets (fst b) (snd b) (lp_ld q);
      Some (map (fun k => let p := (lp_seg q, lp_off q + o + k) in (p, p)) os)
  end.
Definition dot_blocks fuel guess near wn (a : garray) (me : Z) (alo ahi : list Z) : option (list (place * place)) :=
  do ps <- local_iterate fuel guess near wn a me;
  do ls <- mapM (dot_piece alo ahi) ps;
  Some (concat ls).

(** global.npatch.c 1099-1525; [tra], [trb]: t_a, t_b is not 'n'; [w]: rank in
    the world, [me]: in the group of the arrays. *)
Definition dot_patch fuel guess near wn w pre rnd smp (tra trb : bool) (a b : garray) (me : Z)
           (alo ahi blo bhi : list Z) : option dotp :=
  if negb (same_group a b) || negb (ga_elemsize a =? ga_elemsize b)
     || negb (patch_inside (dims (ga_desc a)) alo ahi) || negb (patch_inside (dims (ga_desc b)) blo bhi)
     || negb (zprod (extents alo ahi) =? zprod (extents blo bhi)) then None
  else
    let trans := negb (Bool.eqb tra trb) in
    let copy_b := copy_patch fuel guess near wn w pre rnd smp true trans false b a me me blo bhi alo ahi in
    if is_regular a && is_regular b then
      do c <- compat wn a b alo ahi blo bhi;
      if c && negb trans then
        do l <- dot_local guess near me a b alo ahi; Some {| dp_copy := None; dp_pairs := l |}
      else
        do e <- copy_b; do l <- dot_local guess near me a a alo ahi; Some {| dp_copy := Some e; dp_pairs := l |}
    else if tra || trb then None
    else
      do e <- copy_b; do l <- dot_blocks fuel guess near wn a me alo ahi; Some {| dp_copy := Some e; dp_pairs := l |}.

(** global.nalg.c 445-475: identical distributions. *)
Definition dot_same guess near (ha hb : Z) (a b : garray) (me : Z) : option (list (place * place)) :=
  do ca <- held_cells guess near a me;
  do cb <- (if ha =? hb then Some ca else if ga_elemsize a =? ga_elemsize b then held_cells guess near b me else None);
  if negb (length ca =? length cb)%nat then None else Some (combine ca cb).
(** global.nalg.c 393-591. *)
Definition ga_dot fuel guess near wn w pre rnd smp (ha hb : Z) (a b : garray) (me : Z) : option dotp :=
  let ones g := repeat 1 (length (dims (ga_desc g))) in
  if negb (same_group a b) then None
  else if negb (is_regular a && is_regular b) || negb (compare_distr (ga_desc a) (ga_desc b)) || has_ghosts a || has_ghosts b then
    dot_patch fuel guess near wn w pre rnd smp false false a b me (ones a) (dims (ga_desc a)) (ones b) (dims (ga_desc b))
  else
    do l <- dot_same guess near ha hb a b me; Some {| dp_copy := None; dp_pairs := l |}.

(** global.npatch.c 938-1091: the products of one process. *)
Fixpoint dot_loop {V} (add mul : V -> V -> V) (ma mb : heap V) (s : V) (ps : list (place * place)) : option V :=
  match ps with
  | [] => Some s
  | p :: ps' => do va <- hget ma (fst p); do vb <- hget mb (snd p); dot_loop add mul ma mb (add s (mul va vb)) ps'
  end.
(** The elements all processes copy, and the contributions of all processes if
    they are copied in the order [es]. *)
Definition dot_copies (progs : list dotp) : list (place * place) :=
  flat_map (fun p => match dp_copy p with Some e => e | None => [] end) progs.
Definition dot_second {V} (mb m2 : heap V) (p : dotp) : heap V := match dp_copy p with Some _ => m2 | None => mb end.
Definition dot_parts {V} (add : V -> V -> V) (zero : V) (mul : V -> V -> V) (ma mb mt : heap V) (progs : list dotp) (es : list (place * place)) : option (list V) :=
  do m2 <- run_elems (MGcopy.copy_elem mb) mt es;
  mapM (fun p => dot_loop add mul ma (dot_second mb m2 p) zero (dp_pairs p)) progs.

(** Synchronisations and reductions with the default group, here all [wn]
    processes (global.npatch.c 1126, 1223), and with the group of the arrays
    (global.nalg.c 445, 582-587; global.npatch.c 1518); those inside
    pnga_duplicate and pnga_copy_patch are left out. *)
Definition dot_patch_syncs (wn : Z) (a b : garray) : list (list Z) :=
  if is_regular a && is_regular b then [counts wn; counts wn; group_list a] else [counts wn; group_list a].
Definition dot_syncs (wn : Z) (a b : garray) : list (list Z) :=
  if negb (is_regular a && is_regular b) || negb (compare_distr (ga_desc a) (ga_desc b)) || has_ghosts a || has_ghosts b
  then dot_patch_syncs wn a b else [group_list a; group_list a].
