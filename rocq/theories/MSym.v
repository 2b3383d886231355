(** Model of GA_Symmetrize: /repo/global/src/ga_symmetr.c 20-123.
    For a map-distributed array, the result of a process is the list of the
    elements it replaces, each with the element whose value its buffer holds:
    all buffers are filled before the synchronisation of line 105 and only read
    after it.  For a block-distributed array it is a list of phases.  [None] =
    pnga_error or undefined behaviour.  Simplifications: malloc and
    pnga_duplicate do not fail; Integer is unbounded; pnga_release_update has no
    effect on memory. *)
From Verif Require Export MDiag MGcopy MAdd SpecSym.

(** 93-99: the box with rows and columns switched. *)
Definition sym_box (l : list Z) : list Z :=
  let n := length l in firstn (n - 2) l ++ [nth (n - 1) l 0; nth (n - 2) l 0].

(** 39-42: the inner loop of [gai_add]; pairs (indexA, indexB). *)
Fixpoint sym_inner (n : nat) (j m offset1 offset2 nelem indexA indexB : Z) : list (Z * Z) :=
  match n with
  | O => []
  | S n' =>
      let m' := if nelem <=? indexA then m + 1 else m in
      let ia := if nelem <=? indexA then j + m' * offset2 else indexA in
      (ia, indexB) :: sym_inner n' j m' offset1 offset2 nelem (ia + offset1) (indexB + offset2)
  end.
(** 20-44 [gai_add]; the leading dimensions of A are not among its arguments. *)
Definition sym_loop (lo hi : list Z) (nelem : Z) : list (Z * Z) :=
  let n := length lo in
  let ext := extents lo hi in
  let nrow := nth (n - 2) ext 0 in
  let ncol := nth (n - 1) ext 0 in
  let offset2 := zprod (firstn (n - 2) ext) in
  let offset1 := offset2 * nrow in
  flat_map (fun j => sym_inner (Z.to_nat (nrow * ncol)) j 0 offset1 offset2 nelem j j) (counts offset2).

(** 77-111; [me] = pnga_nodeid(), the rank of the caller in its default group. *)
Definition sym_reg fuel guess near wn rnd smp (a : garray) (me : Z) : option (list (place * place)) :=
  let ds := dims (ga_desc a) in
  let n := length ds in
  if (n <? 2)%nat then None
  else if negb (nth (n - 1) ds 0 =? nth (n - 2) ds 0) then None
  else
    do b <- distribution (ga_desc a) me;
    if forallb (fun h => 0 <? h) (snd b) then
      do r <- access_ptr guess near a (fst b) (snd b);
      let nelem := zprod (extents (fst b) (snd b)) in
      let blo := sym_box (fst b) in
      let bhi := sym_box (snd b) in
      let ldb := firstn (n - 1) (extents blo bhi) in
      do ts <- transfers fuel guess rnd wn smp a blo bhi ldb;
      if forallb (fun t => (0 <=? snd t) && (snd t <? nelem)) ts
      then use_pairs (lpiece_of b r) ts (sym_loop (fst b) (snd b) nelem) else None
    else Some [].

(** 112-121: [hb] is the duplicate of A; [ta], [tb] are the temporary arrays of
    pnga_add. *)
Definition sym_block fuel guess near wn w pre rnd rnda rndb smp (ta tb ha hb : Z) (a : garray) (me : Z) : option (list (list gop)) :=
  do es <- ga_transpose fuel guess near wn rnd smp a a me;
  do pr <- ga_add fuel guess near wn w pre rnda rndb smp ta tb ha hb ha a a a me;
  Some (copy_ops hb ha es :: pr).

(** 72-73: C_DBL only. *)
Definition sym_type (t : elt) : bool := elt_eqb t E_dbl.
Definition ga_symmetrize fuel guess near wn w pre (rnd : lpiece -> Z -> Z) rndr rnda rndb smp (ta tb ha hb : Z) (t : elt) (a : garray) (me : Z)
  : option (list (place * place) + list (list gop)) :=
  if negb (sym_type t) then None
  else match distr_type (ga_desc a) with
       | REGULAR => do l <- sym_reg fuel guess near wn rndr smp a me; Some (inl l)
       | _ => do l <- sym_block fuel guess near wn w pre rnd rnda rndb smp ta tb ha hb a me; Some (inr l)
       end.

(** The statement of line 41, and the scalars handed to pnga_add (115-119). *)
Definition code_half_sum {R} (radd rmul : R -> R -> R) (half : R) (u v : R) : R := rmul half (radd u v).
Definition code_half {R} (rmul : R -> R -> R) (half u : R) : R := rmul half u.
Definition code_add_half {R} (radd rmul : R -> R -> R) (half u v : R) : R := radd u (rmul half v).
