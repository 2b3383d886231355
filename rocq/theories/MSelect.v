(** Model of the selection of an extreme element.
    Source: /repo/global/src/select.c 17-454, /repo/comex/src-armci/message.c
    255-324 (armci_msg_sel_scope).
    [V] is the element type and [key] the number that is compared: the value
    itself, or the squared modulus of a complex value (select.c 165-222); floating
    point values that are not numbers are not modelled.  [mn] says that op is "min".
    Not modelled: the synchronisation and the truncation of an extent to int
    (select.c 298, 311). *)
From Verif Require Import MNb MHandle MGroup.
From Verif Require Export MLoc.

Section select.
Context {V : Type}.
Variable key : V -> Z.
Variable mn : bool.
(** The type is complex. *)
Variable cplx : bool.

(** select.c 25-30 [elem_info_t]: the compared number, subscr, and for complex
    types the value (extra, extra2). *)
Record einfo := EInfo { ei_key : Z; ei_sub : list Z; ei_extra : option V }.

(** "val > a[i]" for min, "val < a[i]" for max: [x] beats [v]. *)
Definition beats (x v : Z) : bool := if mn then x <? v else v <? x.

(** select.c 17-23 GET_ELEMS: a leading dimension other than the extent is a
    pnga_error. *)
Fixpoint get_elems (lo hi ld : list Z) : out Z :=
  match lo, hi with
  | [l], [h] => Done (h - l + 1)
  | l :: lo', h :: hi' =>
      match ld with
      | e :: ld' => if e =? h - l + 1 then try n <- get_elems lo' hi' ld'; Done ((h - l + 1) * n) else Abort
      | [] => Undef
      end
  | _, _ => Undef
  end.

(** select.c 156-250 [snga_select_elem]: the loop over the block, from element
    [i] on; memory that does not exist gives [None]. *)
Fixpoint sel_loop (mem : Z -> option V) (off : Z) (n : nat) (i v ind : Z) : out (Z * Z) :=
  match n with
  | O => Done (v, ind)
  | S n' =>
      try x <- need (mem (off + i));
      if beats (key x) v then sel_loop mem off n' (i + 1) (key x) i
      else sel_loop mem off n' (i + 1) v ind
  end.
(** The first element is the initial value; [ind] is changed only by the loop. *)
Definition sel_elem (mem : Z -> option V) (off elems ind : Z) : out (Z * option V * Z) :=
  try x <- need (mem off);
  try r <- sel_loop mem off (Z.to_nat elems) 0 (key x) ind;
  try e <- (if cplx then try y <- need (mem (off + snd r)); Done (Some y) else Done None);
  Done (fst r, e, snd r).

(** select.c 297-301 and 310-314: subscripts, and what remains of [ind]. *)
Fixpoint sel_sub (lo hi : list Z) (ind : Z) : out (list Z * Z) :=
  match lo, hi with
  | l :: lo', h :: hi' =>
      try m <- need (cmod ind (h - l + 1));
      try q <- need (cdiv ind (h - l + 1));
      try r <- sel_sub lo' hi' q;
      Done (m + l :: fst r, snd r)
  | _, _ => Done ([], ind)
  end.

(** select.c 286-318: one round of the loop over the local blocks; the state is
    [info] (None before the first pass) and [ind]. *)
Definition sel_block (mem : Z -> option V) (q : lpiece) (st : option einfo * Z) : out (option einfo * Z) :=
  try elems <- get_elems (lp_lo q) (lp_hi q) (lp_ld q);
  try r <- sel_elem mem (lp_off q) elems (snd st);
  let '(k, e, ind) := r in
  match fst st with
  | None =>
      try s <- sel_sub (lp_lo q) (lp_hi q) ind;
      Done (Some (EInfo k (fst s) e), snd s)
  | Some info =>
      (* select.c 34-141 [snga_compare_elem] *)
      if beats k (ei_key info) then
        try s <- sel_sub (lp_lo q) (lp_hi q) ind;
        Done (Some (EInfo k (fst s) e), snd s)
      else Done (Some info, ind)
  end.
Fixpoint sel_blocks mem (ps : list lpiece) (st : option einfo * Z) : out (option einfo * Z) :=
  match ps with
  | [] => Done st
  | q :: ps' => try st' <- sel_block mem q st; sel_blocks mem ps' st'
  end.
(** select.c 257, 284-318: [ind] starts at 0; a process without blocks leaves
    [info] unset. *)
Definition sel_local mem (ps : list lpiece) : out (option einfo) :=
  try r <- sel_blocks mem ps (None, 0); Done (fst r).

(** message.c 300-313: MPI_MINLOC / MPI_MAXLOC keep the lowest rank among equal
    values; every process takes part whatever [contribute] is, so an unset
    [info] is read. *)
Fixpoint sel_scope (infos : list (option einfo)) : out einfo :=
  match infos with
  | [] => Undef
  | [i] => need i
  | i :: infos' =>
      try a <- need i;
      try b <- sel_scope infos';
      Done (if beats (ei_key b) (ei_key a) then b else a)
  end.

(** select.c 255-454 on all processes of the world: [mem p] is the memory of
    process [p], [near p] what it can address; every process gets the answer. *)
Fixpoint out_map {A B} (f : A -> out B) (l : list A) : out (list B) :=
  match l with
  | [] => Done []
  | x :: l' => try y <- f x; try r <- out_map f l'; Done (y :: r)
  end.
Definition select_elem fuel guess (near : Z -> Z -> bool) (wn : Z) (a : garray) (mem : Z -> Z -> option V) : out einfo :=
  try infos <- out_map (fun p =>
        match local_iterate fuel guess (near p) wn a p with
        | Some ps => sel_local (mem p) ps
        | None => Abort
        end) (zseq 0 (Z.to_nat wn));
  sel_scope infos.
End select.
