(** Model of GA_Abs_value, GA_Add_constant, GA_Recip and their patch versions.
    Source: /repo/global/src/elem_alg.c 246-574, 651-988, 992-1064.
    A process yields the list of cells it updates; [None] = pnga_error or
    undefined behaviour.  Simplifications: those of [MPw]; the number of elements
    of a column is taken as is (the code converts it to int, lines 707-713);
    rounding is not modelled. *)
From Verif Require Export MPw MZip SpecUn.
Open Scope Z_scope.

(** One element. *)
Definition try_elem {V} (f : V -> option V) (m : heap V) (q : place) : option (heap V) :=
  do v <- hget m q; do v' <- f v; Some (hset m q v').

(** elem_alg.c 742-797, 651-719: types that are not listed end in an error when
    there is something to do. *)
Definition oper_piece (t : elt) (plo phi : list Z) (q : lpiece) : option (list place) :=
  do cs <- piece_cells plo phi q;
  match cs with [] => Some [] | _ => if listed_type t then Some cs else None end.
(** elem_alg.c 721-797, 986. *)
Definition oper_cells fuel guess near wn (t : elt) (a : garray) (me : Z) (plo phi : list Z) : option (list place) :=
  do ps <- local_iterate fuel guess near wn a me;
  do ls <- mapM (oper_piece t plo phi) ps;
  Some (concat ls).
(** elem_alg.c 1018-1064: the whole array. *)
Definition oper_whole fuel guess near wn (t : elt) (a : garray) (me : Z) : option (list place) :=
  oper_cells fuel guess near wn t a me (repeat 1 (length (dims (ga_desc a)))) (dims (ga_desc a)).
(** elem_alg.c 733, 986: two synchronisations of all processes. *)
Definition oper_syncs (wn : Z) : list (list Z) := [counts wn; counts wn].

(** Signed integers of [2 * bound] values; what does not fit is undefined. *)
Definition fit (bound v : Z) : option Z := if (- bound <=? v) && (v <? bound) then Some v else None.
(** globalp.h 57 and elem_alg.c 259-263, 328-332. *)
Definition code_abs_int (bound v : Z) : option Z := if 0 <=? v then Some v else fit bound (- v).
(** elem_alg.c 318-327, in exact arithmetic. *)
Definition code_abs_real (v : Q) : option Q := Some (qabs v).
(** elem_alg.c 264-316 with HAVE_HYPOT not set; [sq] is the square root. *)
Definition code_abs_cpl (sq : Q -> Q) (v : Q * Q) : option (Q * Q) :=
  Some ((if Qle_bool (qabs (snd v)) (qabs (fst v)) then
           if Qeq_bool (fst v) 0 then 0
           else let x2 := snd v / fst v in qabs (fst v) * sq (1 + x2 * x2)
         else let x2 := fst v / snd v in qabs (snd v) * sq (1 + x2 * x2))%Q, 0%Q).
(** elem_alg.c 535-571. *)
Definition code_add_int (bound c v : Z) : option Z := fit bound (v + c).
Definition code_add_real (c v : Q) : option Q := Some (v + c)%Q.
Definition code_add_cpl (c v : Q * Q) : option (Q * Q) := Some (fst v + fst c, snd v + snd c)%Q.
(** elem_alg.c 368-377, 508-517: the division of C. *)
Definition code_recip_int (v : Z) : option Z := if negb (v =? 0) then Some (Z.quot 1 v) else None.
(** elem_alg.c 488-507. *)
Definition code_recip_real (v : Q) : option Q := if negb (Qeq_bool v 0) then Some (1 / v)%Q else None.
(** elem_alg.c 378-487. *)
Definition code_recip_cpl (v : Q * Q) : option (Q * Q) :=
  let x1 := fst v in let x2 := snd v in
  if Qle_bool (qabs x2) (qabs x1) then
    if negb (Qeq_bool (qabs x1) 0) then
      let c := (x2 / x1)%Q in let d := (1 / ((1 + c * c) * x1))%Q in Some (d, - c * d)%Q
    else None
  else let c := (x1 / x2)%Q in let d := (1 / ((1 + c * c) * x2))%Q in Some (c * d, - d)%Q.
