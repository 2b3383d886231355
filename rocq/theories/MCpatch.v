(** Model of GA_Copy_patch (Fortran: ga_copy_patch, nga_copy_patch).
    Source: /repo/global/src/global.npatch.c 64-937.
    As in MGcopy.v the result of a process is the list of element copies it
    makes, as pairs (cell of B, cell of A); [None] = pnga_error or undefined
    behaviour.  [trans] says that *trans is not 'n' or 'N'; [same] that the two
    handles are equal; [base] that the element type is one of the seven the
    code lists (double, float, int, long, long long and the complex types)
    and not one registered by the user.  The synchronisations appear as the
    assumption that nothing else happens meanwhile. *)
From Verif Require Export MGcopy MGat.

(** global.npatch.c 82-105: [None] = FALSE, otherwise the new lop, hip. *)
Fixpoint le_some (lo hi : list Z) : bool :=
  match lo, hi with
  | l :: lo', h :: hi' => (l <=? h) && le_some lo' hi'
  | _, _ => true
  end.
Fixpoint zip_max (lo lop : list Z) : list Z :=
  match lo, lop with l :: lo', p :: lop' => (if p <? l then l else p) :: zip_max lo' lop' | _, _ => [] end.
Fixpoint zip_min (hi hip : list Z) : list Z :=
  match hi, hip with h :: hi', p :: hip' => (if h <? p then h else p) :: zip_min hi' hip' | _, _ => [] end.
Definition patch_intersect (lo hi lop hip : list Z) : option (list Z * list Z) :=
  if le_some lo hi && le_some lop hip then
    if le_some lop hi && le_some lo hip then Some (zip_max lo lop, zip_min hi hip) else None
  else None.

(** global.npatch.c 110-132 [pnga_comp_patch] for equal numbers of dimensions. *)
Fixpoint same_vec (a b : list Z) : bool :=
  match a, b with
  | [], [] => true
  | x :: a', y :: b' => (x =? y) && same_vec a' b'
  | _, _ => false
  end.
(** global.npatch.c 136-147 [snga_test_shape]. *)
Definition test_shape (alo ahi blo bhi : list Z) : bool := same_vec (vsub ahi alo) (vsub bhi blo).

(** global.npatch.c 70-73: linear index; the loop of 388-391, 440-444. *)
Fixpoint lin_index (los blos dimss : list Z) (factor : Z) : Z :=
  match los, blos, dimss with
  | l :: los', b :: blos', d :: dimss' => (l - b) * factor + lin_index los' blos' dimss' (factor * d)
  | _, _, _ => 0
  end.
(** global.npatch.c 75-78, 382-385: back to subscripts. *)
Fixpoint unlin (idx : Z) (dimsd blod : list Z) : option (list Z) :=
  match dimsd, blod with
  | d :: dimsd', b :: blod' =>
      do r <- cmod idx d;
      do q <- cdiv idx d;
      do l <- unlin q dimsd' blod';
      Some (r + b :: l)
  | _, _ => Some []
  end.
Definition dest_indices (los blos dimss blod dimsd : list Z) : option (list Z) :=
  unlin (lin_index los blos dimss 1) dimsd blod.

(** global.npatch.c 553-561: offset of the corner of the intersection. *)
Fixpoint corner_offset (los lod ld : list Z) (jtot : Z) : option Z :=
  match los, lod with
  | [l], [d] => Some ((l - d) * jtot)
  | l :: los', d :: lod' =>
      match ld with
      | j :: ld' => do r <- corner_offset los' lod' ld' (jtot * j); Some ((l - d) * jtot + r)
      | [] => None
      end
  | _, _ => None
  end.

(** The part of the patch that the caller holds, with the pointer to its first
    element: global.npatch.c 255-279, 650-653, 834-837 for a map-distributed
    array ... *)
Definition patch_reg guess near (a : garray) (me : Z) (plo phi : list Z) : option (list lpiece) :=
  do b <- distribution (ga_desc a) me;
  match patch_intersect plo phi (fst b) (snd b) with
  | None => Some []
  | Some b' => do r <- access_ptr guess near a (fst b') (snd b'); Some [lpiece_of b' r]
  end.
(** ... and 543-583, 733-776 for a blocked array: for types the switch does not
    list, the pointer stays at the corner of the block. *)
Definition patch_piece (base : bool) (plo phi : list Z) (q : lpiece) : option (list lpiece) :=
  match patch_intersect plo phi (lp_lo q) (lp_hi q) with
  | None => Some []
  | Some b' =>
      do o <- corner_offset (fst b') (lp_lo q) (lp_ld q) 1;
      Some [LPiece (fst b') (snd b') (lp_seg q) (lp_off q + if base then o else 0) (lp_ld q)]
  end.
Definition patch_pieces fuel guess near wn (base : bool) (a : garray) (me : Z) (plo phi : list Z) : option (list lpiece) :=
  match distr_type (ga_desc a) with
  | REGULAR => patch_reg guess near a me plo phi
  | _ =>
      do ps <- local_iterate fuel guess near wn a me;
      do ls <- mapM (patch_piece base plo phi) ps;
      Some (concat ls)
  end.

(** global.npatch.c 293-303, 584-586, 652-654, 777-779, 837-839: straight copy of
    a piece [q] of the patch [plo..phi] of one array to or from the patch
    [olo..ohi] of the other array [o]; [mk] makes the element copies. *)
Definition straight fuel guess rnd wn smp (o : garray) (plo phi olo ohi : list Z) (mk : lpiece -> place * Z -> place * place)
           (q : lpiece) : option (list (place * place)) :=
  do lod <- dest_indices (lp_lo q) plo (extents plo phi) olo (extents olo ohi);
  do hid <- dest_indices (lp_hi q) plo (extents plo phi) olo (extents olo ohi);
  do ts <- transfers fuel guess rnd wn smp o lod hid (lp_ld q);
  Some (map (mk q) ts).
Definition put_pair (q : lpiece) (t : place * Z) : place * place := (fst t, (lp_seg q, lp_off q + snd t)).
Definition get_pair (q : lpiece) (t : place * Z) : place * place := ((lp_seg q, lp_off q + snd t), fst t).

(** global.npatch.c 318-337: the subscripts of the elements of los..his in the
    order of the counter [i]; [bv] is bvalue, [bu] is bunit. *)
Fixpoint bunits (los his : list Z) (u : Z) : list Z :=
  match los, his with
  | l :: los', h :: his' => u :: bunits los' his' (u * (h - l + 1))
  | _, _ => []
  end.
Fixpoint odo_bump (i : Z) (bv bu los his : list Z) : option (list Z) :=
  match bv, bu, los, his with
  | v :: bv', u :: bu', l :: los', h :: his' =>
      do m <- cmod (i + 1) u;
      let v1 := if m =? 0 then v + 1 else v in
      let v2 := if h <? v1 then l else v1 in
      do r <- odo_bump i bv' bu' los' his';
      Some (v2 :: r)
  | _, _, _, _ => Some []
  end.
Fixpoint src_subs (n : nat) (i : Z) (bv bu los his : list Z) : option (list (list Z)) :=
  match n with
  | O => Some []
  | S n' =>
      do bv' <- odo_bump i bv bu los his;
      do r <- src_subs n' (i + 1) bv' bu los his;
      Some (bv :: r)
  end.

(** global.npatch.c 339-347: factor_idx1 is the factor of [lin_index];
    factor_idx2 runs from the last dimension. *)
Definition lin_index_t (x alo ald : list Z) : Z := lin_index (rev x) (rev alo) (rev ald) 1.

(** global.npatch.c 304-416: reshape or transpose by scatter.  [w] is the world
    rank of the caller, [pre] as in [gatscat].  idx - base of 388-395 is
    [corner_offset]; for types the switch does not list the buffer is not
    initialised. *)
Definition reshape_put guess wn w pre (base trans : bool) (b : garray) (alo ahi blo bhi : list Z) (q : lpiece)
  : option (list (place * place)) :=
  let los := lp_lo q in
  let his := lp_hi q in
  let nelem := zprod (extents los his) in
  do xs <- src_subs (Z.to_nat nelem) 0 los (bunits los his 1) los his;
  do ys <- mapM (fun x => unlin (if trans then lin_index_t x alo (extents alo ahi) else lin_index x alo (extents alo ahi) 1)
                                (extents blo bhi) blo) xs;
  do srcs <- mapM (fun x => corner_offset x los (lp_ld q) 1) xs;
  if base then
    do ts <- gatscat guess wn w pre b ys;
    mapM (fun t => do s <- zget srcs (snd t); Some (fst t, (lp_seg q, lp_off q + s))) ts
  else None.

(** global.npatch.c 229-236. *)
Definition patch_inside (ds lo hi : list Z) : bool :=
  forallb (fun l => 0 <? l) lo && le_some hi ds && (length lo =? length ds)%nat && (length hi =? length ds)%nat.

(** global.npatch.c 163-937.  [w], [mea], [meb]: rank of the caller in the world
    and in the groups of A and B. *)
Definition copy_patch fuel guess near wn w pre rnd smp (base trans same : bool) (a b : garray) (mea meb : Z)
           (alo ahi blo bhi : list Z) : option (list (place * place)) :=
  if same && (same_vec alo blo && same_vec ahi bhi) then Some []
  else if same && match patch_intersect alo ahi blo bhi with Some _ => true | None => false end then None
  else if negb (ga_elemsize a =? ga_elemsize b) || negb (patch_inside (dims (ga_desc a)) alo ahi)
          || negb (patch_inside (dims (ga_desc b)) blo bhi)
          || negb (zprod (extents alo ahi) =? zprod (extents blo bhi)) then None
  else
    let use_put := ga_nproc a <=? ga_nproc b in
    let plain := negb trans && test_shape alo ahi blo bhi in
    let blocked g := match distr_type g with REGULAR => false | _ => true end in
    if (blocked (ga_desc a) || blocked (ga_desc b)) && negb plain then None
    else if use_put then
      do ps <- patch_pieces fuel guess near wn base a mea alo ahi;
      do ls <- (if plain then mapM (fun q => straight fuel guess (rnd q) wn smp b alo ahi blo bhi put_pair q) ps
                else mapM (reshape_put guess wn w pre base trans b alo ahi blo bhi) ps);
      Some (concat ls)
    else
      do ps <- patch_pieces fuel guess near wn base b meb blo bhi;
      if plain then
        do ls <- mapM (fun q => straight fuel guess (rnd q) wn smp a blo bhi alo ahi get_pair q) ps;
        Some (concat ls)
      else
        (* global.npatch.c 417-527: the elements of A are gathered into tmp_ptr,
           which is freed at once *)
        Some [].

(** One element copy if A and B are the same array: the effect of the stores of
    303 and 839 on one memory. *)
Definition self_elem {V} (m : heap V) (e : place * place) : option (heap V) := copy_elem m m e.
