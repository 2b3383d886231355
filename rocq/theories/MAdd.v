(** Model of GA_Add and GA_Add_patch.
    Source: /repo/global/src/global.nalg.c 744-909,
    /repo/global/src/global.npatch.c 107-132, 2340-3125.
    The result of a process is the list of its phases, each a list of element
    operations; the calls of pnga_copy_patch and pnga_scale_patch, which begin
    and end with a synchronisation of all processes, are phases of their own.
    [None] = pnga_error or undefined behaviour.  Simplifications: as for C79
    and C80; types are compared by element size; [ta], [tb] are the handles of
    the temporary arrays, which pnga_duplicate makes with the distribution,
    ghost widths and group of C.  Memory obtained by pnga_duplicate is
    allocated with unspecified contents. *)
From Verif Require Export MPw SpecAdd.

Inductive gop :=
| GCopy (hd : Z) (pd : place) (hs : Z) (ps : place)
| GScale (h : Z) (p : place)
| GAdd (hc : Z) (pc : place) (ha : Z) (pa : place) (hb : Z) (pb : place)
| GAcc (hc : Z) (pc : place) (hb : Z) (pb : place).

Definition sset {V} (st : store V) (h : Z) (q : place) (v : V) : store V :=
  fun k => if k =? h then hset (st h) q v else st k.
(** [sa v] = alpha * v, [acc u v] = u + beta * v. *)
Definition gstep {V} (sa : V -> V) (acc : V -> V -> V) (st : store V) (o : gop) : option (store V) :=
  match o with
  | GCopy hd pd hs ps => do v <- hget (st hs) ps; do u <- hget (st hd) pd; Some (sset st hd pd v)
  | GScale h p => do v <- hget (st h) p; Some (sset st h p (sa v))
  | GAdd hc pc ha pa hb pb =>
      do va <- hget (st ha) pa; do vb <- hget (st hb) pb; do u <- hget (st hc) pc; Some (sset st hc pc (acc (sa va) vb))
  | GAcc hc pc hb pb => do vb <- hget (st hb) pb; do u <- hget (st hc) pc; Some (sset st hc pc (acc u vb))
  end.
Definition copy_ops (hd hs : Z) (es : list (place * place)) : list gop := map (fun e => GCopy hd (fst e) hs (snd e)) es.

(** global.npatch.c 109-132 [pnga_comp_patch]. *)
Definition comp_patch (alo ahi blo bhi : list Z) : bool :=
  let n := Nat.min (length alo) (length blo) in
  same_vec (skipn n alo) (skipn n ahi) && same_vec (skipn n blo) (skipn n bhi) &&
  same_vec (firstn n alo) (firstn n blo) && same_vec (firstn n ahi) (firstn n bhi).
(** global.npatch.c 2698-2714: the test of every process, combined with "&&". *)
Fixpoint all_true (l : list bool) : bool := match l with [] => true | b :: l' => b && all_true l' end.
Definition compat wn (a c : garray) (alo ahi clo chi : list Z) : option bool :=
  do bs <- mapM (fun p => do da <- distribution (ga_desc a) p; do dc <- distribution (ga_desc c) p;
                          Some (comp_patch (fst da) (snd da) (fst dc) (snd dc) && comp_patch alo ahi clo chi)) (counts wn);
  Some (all_true bs).

(** global.npatch.c 2716-2717: the number of dimensions that is used. *)
Definition used_dims (andim bndim cndim : nat) : nat :=
  if (bndim <? andim)%nat then bndim else if (andim <? bndim)%nat then andim else cndim.
(** pnga_access_ptr reads as many subscripts as the array has dimensions; loC,
    hiC beyond those of C are not initialised. *)
Definition access_long guess near (a : garray) (lo hi : list Z) : option (Z * Z * list Z) :=
  let n := length (dims (ga_desc a)) in
  if (length lo <? n)%nat then None else access_ptr guess near a (firstn n lo) (firstn n hi).
(** global.npatch.c 2715-2739 (2763-2785, 2801-2823): the part of the patch of C
    that the block of C with the number of the caller in the default group
    holds; [av], [bv] are the arrays used for A and B, with the leading
    dimensions of C.  [andim] differs from the dimensions of A only if A has
    been copied. *)
Definition cut_patch (n : nat) (clo chi lo hi : list Z) : option (list Z * list Z) :=
  match patch_intersect (firstn n clo) (firstn n chi) (firstn n lo) (firstn n hi) with
  | Some b => Some (fst b ++ skipn n lo, snd b ++ skipn n hi)
  | None => None
  end.
Definition add_local guess near (w : Z) (ha : Z) (av : garray) (hb : Z) (bv : garray) (hc : Z) (c : garray)
           (clo chi : list Z) : option (list gop) :=
  do da <- distribution (ga_desc av) w;
  do db <- distribution (ga_desc bv) w;
  do dc <- distribution (ga_desc c) w;
  let n := used_dims (length (dims (ga_desc av))) (length (dims (ga_desc bv))) (length (dims (ga_desc c))) in
  let cut l := firstn n l in
  if negb (comp_patch (fst da) (snd da) (cut (fst dc)) (cut (snd dc))) then None
  else if negb (comp_patch (fst db) (snd db) (cut (fst dc)) (cut (snd dc))) then None
  else
    match cut_patch n clo chi (fst dc) (snd dc) with
    | None => Some []
    | Some b =>
        do ra <- access_long guess near av (fst b) (snd b);
        do rb <- access_long guess near bv (fst b) (snd b);
        do rc <- access_long guess near c (fst b) (snd b);
        do os <- patch_offsets (cut (fst b)) (cut (snd b)) (snd rc);
        Some (map (fun k => GAdd hc (fst (fst rc), snd (fst rc) + k) ha (fst (fst ra), snd (fst ra) + k)
                                    hb (fst (fst rb), snd (fst rb) + k)) os)
    end.
(** global.npatch.c 2847-2858. *)
Definition acc_local guess near (w : Z) (hb : Z) (bv : garray) (hc : Z) (c : garray) (clo chi : list Z) : option (list gop) :=
  do dc <- distribution (ga_desc c) w;
  match patch_intersect clo chi (fst dc) (snd dc) with
  | None => Some []
  | Some b =>
      do rb <- access_ptr guess near bv (fst b) (snd b);
      do rc <- access_ptr guess near c (fst b) (snd b);
      do os <- patch_offsets (fst b) (snd b) (snd rc);
      Some (map (fun k => GAcc hc (fst (fst rc), snd (fst rc) + k) hb (fst (fst rb), snd (fst rb) + k)) os)
  end.
(** global.npatch.c 2879-2942: the iterators of C and of its two duplicates run
    over the same blocks at the same places of the memory. *)
Definition add_piece ta tb hc (clo chi : list Z) (q : lpiece) : option (list gop) :=
  match patch_intersect clo chi (lp_lo q) (lp_hi q) with
  | None => Some []
  | Some b =>
      do o <- corner_offset (fst b) (lp_lo q) (lp_ld q) 1;
      do os <- patch_offsets (fst b) (snd b) (lp_ld q);
      Some (map (fun k => let p := (lp_seg q, lp_off q + o + k) in GAdd hc p ta p tb p) os)
  end.
Definition add_blocks fuel guess near wn ta tb hc (c : garray) (mec : Z) (clo chi : list Z) : option (list gop) :=
  do ps <- local_iterate fuel guess near wn c mec;
  do ls <- mapM (add_piece ta tb hc clo chi) ps;
  Some (concat ls).

Definition is_regular (a : garray) : bool := match distr_type (ga_desc a) with REGULAR => true | _ => false end.
(** global.npatch.c 2640-3125; [w]: rank of the caller in the default group,
    here the world; [mea], [meb], [mec]: in the groups of the arrays; [rnda],
    [rndb]: random choices of the two copies. *)
Definition add_patch fuel guess near wn w pre rnda rndb smp (ta tb ha hb hc : Z) (a b c : garray) (mea meb mec : Z)
           (alo ahi blo bhi clo chi : list Z) : option (list (list gop)) :=
  if negb (ga_elemsize a =? ga_elemsize b) || negb (ga_elemsize a =? ga_elemsize c)
     || negb (patch_inside (dims (ga_desc a)) alo ahi) || negb (patch_inside (dims (ga_desc b)) blo bhi)
     || negb (patch_inside (dims (ga_desc c)) clo chi)
     || negb (zprod (extents alo ahi) =? zprod (extents clo chi)) || negb (zprod (extents blo bhi) =? zprod (extents clo chi)) then None
  else
    let copy_a same := copy_patch fuel guess near wn w pre rnda smp true false same a c mea mec alo ahi clo chi in
    let copy_b := copy_patch fuel guess near wn w pre rndb smp true false false b c meb mec blo bhi clo chi in
    if is_regular a && is_regular b && is_regular c then
      do ca <- compat wn a c alo ahi clo chi;
      do cb <- compat wn b c blo bhi clo chi;
      match ca, cb with
      | true, true => do l <- add_local guess near w ha a hb b hc c clo chi; Some [l]
      | false, true =>
          if hb =? hc then
            do e <- copy_a false; do l <- add_local guess near w ta c hb b hc c clo chi; Some [copy_ops ta ha e; l]
          else
            do e <- copy_a (ha =? hc); do l <- add_local guess near w hc c hb b hc c clo chi; Some [copy_ops hc ha e; l]
      | true, false =>
          do e <- copy_b; do l <- add_local guess near w ha a tb c hc c clo chi; Some [copy_ops tb hb e; l]
      | false, false =>
          do e <- copy_b;
          do e' <- copy_a (ha =? hc);
          do cs <- patch_cells fuel guess near wn c mec clo chi;
          do l <- acc_local guess near w tb c hc c clo chi;
          Some [copy_ops tb hb e; copy_ops hc ha e'; map (GScale hc) cs; l]
      end
    else
      do e <- copy_a false;
      do e' <- copy_b;
      do l <- add_blocks fuel guess near wn ta tb hc c mec clo chi;
      Some [copy_ops ta ha e; copy_ops tb hb e'; l].

(** global.nalg.c 787-889: identical distributions; [type] is set only if one of
    the arrays is not C. *)
Definition held_cells guess near (a : garray) (me : Z) : option (list place) :=
  do d <- distribution (ga_desc a) me;
  if 0 <? hd 0 (fst d) then block_cells guess near a (fst d) (snd d) else Some [].
Definition add_same guess near (ha hb hc : Z) (a b c : garray) (me : Z) : option (list gop) :=
  do cc <- held_cells guess near c me;
  do ca <- (if ha =? hc then Some cc else if ga_elemsize a =? ga_elemsize c then held_cells guess near a me else None);
  do cb <- (if hb =? hc then Some cc else if ga_elemsize b =? ga_elemsize c then held_cells guess near b me else None);
  do dl <- distribution (ga_desc (if hb =? hc then (if ha =? hc then c else a) else b)) me;
  if negb (length cc =? length cb)%nat || negb (length cc =? length ca)%nat then None
  else if 0 <? hd 0 (fst dl) then
    if (ha =? hc) && (hb =? hc) then None
    else Some (map (fun t => GAdd hc (fst t) ha (fst (snd t)) hb (snd (snd t))) (combine cc (combine ca cb)))
  else Some [].

Definition same_group (a b : garray) : bool :=
  match ga_group a, ga_group b with
  | None, None => true
  | Some l, Some l' => same_vec l l'
  | _, _ => false
  end.
(** global.nalg.c 744-909; [me]: rank in the group of the arrays.  The upper end
    of the patch of C is taken from the dimensions of B (780). *)
Definition ga_add fuel guess near wn w pre rnda rndb smp (ta tb ha hb hc : Z) (a b c : garray) (me : Z) : option (list (list gop)) :=
  if negb (same_group a b) || negb (same_group b c) then None
  else if negb (compare_distr (ga_desc a) (ga_desc b)) || negb (compare_distr (ga_desc a) (ga_desc c))
          || has_ghosts a || has_ghosts b || has_ghosts c || negb (is_regular a && is_regular b && is_regular c) then
    let ones g := repeat 1 (length (dims (ga_desc g))) in
    let n := length (dims (ga_desc c)) in
    if (length (dims (ga_desc b)) <? n)%nat then None
    else add_patch fuel guess near wn w pre rnda rndb smp ta tb ha hb hc a b c me me me
           (ones a) (dims (ga_desc a)) (ones b) (dims (ga_desc b)) (ones c) (firstn n (dims (ga_desc b)))
  else
    do l <- add_same guess near ha hb hc a b c me; Some [l].
