(** Model of the registered data types: /repo/global/src/base.c 211-226 and
    5844-5901, globalp.h 59-71.  Sizes of the built-in types are those of the
    usual 64 bit machine with 8 byte Integer (the theorems take any). *)
From Verif Require Export SpecType MBase.
From Verif Require Import MNb MHandle.

(** globalp.h 66, 67, macommon.h 11. *)
Definition TYPES_MAX := 256.
Definition TYPES_RESERVED := 17.
Definition TYPE_BASE := 1000.
(** base.c 5851 [ga_types]: (active, size). *)
Definition types := Z -> bool * Z.
(** base.c 5851-5869: initial contents; the rest is zero. *)
Definition types0 (sizes : list Z) : types := fun i => match zget sizes i with Some n => (true, n) | None => (false, 0) end.

(** base.c 5878: the search loop. *)
Fixpoint type_search (t : types) (i : Z) (fuel : nat) : Z :=
  match fuel with O => i | S f => if fst (t i) then type_search t (i + 1) f else i end.
(** base.c 5876-5886 [pnga_register_type]. *)
Definition register_type (t : types) (bytes : Z) : types * Z :=
  let i := type_search t TYPES_RESERVED (Z.to_nat (TYPES_MAX - TYPES_RESERVED)) in
  if i =? TYPES_MAX then (t, -1) else (fset t i (true, bytes), i + TYPE_BASE).
(** base.c 5891-5901 [pnga_deregister_type]: the index is not checked against
    the end of the array. *)
Definition deregister_type (t : types) (type : Z) : out (types * Z) :=
  let tp := type - TYPE_BASE in
  if tp <? TYPES_RESERVED then Done (t, -1)
  else if TYPES_MAX <=? tp then Undef
  else if negb (fst (t tp)) then Done (t, -2)
  else Done (fset t tp (false, 0), 0).
(** globalp.h 70 [GAsizeofM]. *)
Definition sizeofM (t : types) (type : Z) : out Z :=
  let tp := type - TYPE_BASE in if (0 <=? tp) && (tp <? TYPES_MAX) then Done (snd (t tp)) else Undef.
(** globalp.h 71 [GAvalidtypeM]. *)
Definition validtypeM (t : types) (type : Z) : bool :=
  (TYPE_BASE <=? type) && (type <? TYPE_BASE + TYPES_MAX) && fst (t (type - TYPE_BASE)).
(** base.c 211-226 [GAsizeof], used by pnga_malloc (base.c 227-234) for
    temporary buffers: a switch over nine built-in types. *)
Definition GAsizeof (sizes : list Z) (type : Z) : Z :=
  if existsb (Z.eqb (type - TYPE_BASE)) [4; 1; 6; 7; 3; 2; 16; 13; 10] then nth (Z.to_nat (type - TYPE_BASE)) sizes 0 else 0.

Definition type_step (t : types) (c : tcall) : out (types * tanswer) :=
  match c with
  | TRegister bytes => let r := register_type t bytes in Done (fst r, TNum (snd r))
  | TDeregister id => try r <- deregister_type t id; Done (fst r, TNum (snd r))
  | TSize id => try n <- sizeofM t id; Done (t, TNum n)
  | TValid id => Done (t, TBool (validtypeM t id))
  end.
Fixpoint type_run (t : types) (cs : list tcall) : out (types * list tanswer) :=
  match cs with
  | [] => Done (t, [])
  | c :: cs' => try r <- type_step t c; try q <- type_run (fst r) cs'; Done (fst q, snd r :: snd q)
  end.
