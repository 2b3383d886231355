(** Model of GA_Copy and GA_Transpose.
    Source: /repo/global/src/global.nalg.c 182-384, 911-1141.
    The result of a process is the list of element copies it makes, as pairs
    (cell of B, cell of A); [None] = pnga_error or undefined behaviour.
    Simplifications: neither array is mirrored, the arrays have different
    handles (both functions stop with an error otherwise), the element type is
    given by its size.  The synchronisations at the beginning and at the end
    appear as the assumption that nothing else happens meanwhile. *)
From Verif Require Export MLoc MXfer.

(** Effect of one element copy: A is only read. *)
Definition copy_elem {V} (ma : heap V) (mb : heap V) (e : place * place) : option (heap V) :=
  do v <- hget ma (snd e); do w <- hget mb (fst e); Some (hset mb (fst e) v).

(** global.nalg.c 291-294: each local piece of A is put to B straight from the
    memory of A. *)
Definition copy_put fuel guess near wn (rnd : lpiece -> Z -> Z) smp (a b : garray) (me : Z) : option (list (place * place)) :=
  do ps <- local_iterate fuel guess near wn a me;
  do ls <- mapM (fun q =>
             do ts <- transfers fuel guess (rnd q) wn smp b (lp_lo q) (lp_hi q) (lp_ld q);
             Some (map (fun t => (fst t, (lp_seg q, lp_off q + snd t))) ts)) ps;
  Some (concat ls).
(** global.nalg.c 345-348: each local piece of B is fetched from A. *)
Definition copy_get fuel guess near wn (rnd : lpiece -> Z -> Z) smp (a b : garray) (me : Z) : option (list (place * place)) :=
  do ps <- local_iterate fuel guess near wn b me;
  do ls <- mapM (fun q =>
             do ts <- transfers fuel guess (rnd q) wn smp a (lp_lo q) (lp_hi q) (lp_ld q);
             Some (map (fun t => ((lp_seg q, lp_off q + snd t), fst t)) ts)) ps;
  Some (concat ls).

(** global.nalg.c 226-233: shapes and types agree. *)
Definition copy_checks (a b : garray) : bool :=
  (length (dims (ga_desc a)) =? length (dims (ga_desc b)))%nat &&
  forallb (fun p => fst p =? snd p) (combine (dims (ga_desc a)) (dims (ga_desc b))) &&
  (ga_elemsize a =? ga_elemsize b).

(** global.nalg.c 182-349; [mea], [meb] are the ranks of the caller in the
    groups of A and B. *)
Definition ga_copy fuel guess near wn rnd smp (a b : garray) (mea meb : Z) : option (list (place * place)) :=
  if copy_checks a b then
    if ga_nproc a <=? ga_nproc b then copy_put fuel guess near wn rnd smp a b mea
    else copy_get fuel guess near wn rnd smp a b meb
  else None.

(** global.nalg.c 999-1004 with 911-948: the stores into the temporary buffer,
    as (index in the buffer, offset from the pointer to the piece); an index
    outside the buffer is undefined. *)
Definition counts (n : Z) : list Z := map Z.of_nat (seq 0 (Z.to_nat n)).
Definition tr_stores (nrow ncol ld : Z) : list (Z * Z) :=
  flat_map (fun i => map (fun j => (i + j * ncol, i * ld + j)) (counts nrow)) (counts ncol).
Definition tr_tmp (nrow ncol ld : Z) : option (list (Z * Z)) :=
  let ws := tr_stores nrow ncol ld in
  if forallb (fun w => (0 <=? fst w) && (fst w <? nrow * ncol)) ws then Some ws else None.
(** What the buffer holds at an index: the last store to it. *)
Definition tmp_at (ws : list (Z * Z)) (k : Z) : option Z :=
  match find (fun w => fst w =? k) (rev ws) with Some w => Some (snd w) | None => None end.

(** global.nalg.c 975-1011. *)
Definition tr_piece fuel guess rnd wn smp (b : garray) (q : lpiece) : option (list (place * place)) :=
  match lp_lo q, lp_hi q, lp_ld q with
  | [l0; l1], [h0; h1], ld :: _ =>
      let nrow := h0 - l0 + 1 in
      let ncol := h1 - l1 + 1 in
      do ws <- tr_tmp nrow ncol ld;
      do ts <- transfers fuel guess rnd wn smp b [l1; l0] [h1; h0] [ncol];
      mapM (fun t => do s <- tmp_at ws (snd t); Some (fst t, (lp_seg q, lp_off q + s))) ts
  | _, _, _ => None
  end.
(** global.nalg.c 954-1012; the walk is over the pieces of A of the caller. *)
Definition ga_transpose fuel guess near wn (rnd : lpiece -> Z -> Z) smp (a b : garray) (me : Z) : option (list (place * place)) :=
  if (length (dims (ga_desc a)) =? 2)%nat && (length (dims (ga_desc b)) =? 2)%nat && (ga_elemsize a =? ga_elemsize b) then
    do ps <- local_iterate fuel guess near wn a me;
    do ls <- mapM (fun q => tr_piece fuel guess (rnd q) wn smp b q) ps;
    Some (concat ls)
  else None.
