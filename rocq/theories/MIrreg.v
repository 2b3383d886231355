(** Model of the requests for irregular distributions: base.c 1731-1772
    [pnga_set_irreg_distr] and 1909-1968 [pnga_set_tiled_irreg_proc_grid].
    [mapc] is the memory behind the user's pointer; reading beyond it is
    undefined behaviour.  The process grid is checked in pnga_allocate, base.c
    2686-2697. *)
From Verif Require Export MDist.
From Verif Require Import MHandle.

(** base.c 1749-1757: the entries after the first of one dimension. *)
Fixpoint irreg_entries (j : nat) (d ichk : Z) (m : list Z) : out (list Z) :=
  match j with
  | O => Done m
  | S j' => match m with
            | [] => Undef
            | x :: m' => if x <? ichk then Abort
                         else if (x <? 1) || (d + 1 <? x) then Abort else irreg_entries j' d x m'
            end
  end.
(** base.c 1743-1758. *)
Fixpoint irreg_check (dims nblock m : list Z) : out unit :=
  match dims, nblock with
  | [], [] => Done tt
  | d :: dims', n :: nblock' =>
      match m with
      | [] => Undef
      | x :: m' => if (x <? 1) || (d + 1 <? x) then Abort
                   else try m'' <- irreg_entries (Z.to_nat (n - 1)) d x m'; irreg_check dims' nblock' m''
      end
  | _, _ => Undef
  end.
(** base.c 1739-1741. *)
Fixpoint too_many (dims nblock : list Z) : bool :=
  match dims, nblock with d :: dims', n :: nblock' => (d <? n) || too_many dims' nblock' | _, _ => false end.
(** base.c 1760-1770: the copy, with the end mark. *)
Definition irreg_copy (nblock m : list Z) : out (list Z) :=
  let maplen := zsum nblock in
  if (maplen <? 0) || (Z.of_nat (length m) <? maplen) then Undef
  else Done (firstn (Z.to_nat maplen) m ++ [-1]).
(** [pnga_set_irreg_distr]; ndim < 1 is [dims = []]. *)
Definition set_irreg_distr (actv : bool) (g : gadesc) (m nb : list Z) : out gadesc :=
  if actv then Abort
  else match dims g with
  | [] => Abort
  | _ => if too_many (dims g) nb then Abort
         else try u <- irreg_check (dims g) nb m;
              try c <- irreg_copy nb m;
              Done {| distr_type := distr_type g; dims := dims g; nblock := nb; mapc := c; block_dims := block_dims g;
                      num_blocks := num_blocks g; rstrctd_list := rstrctd_list g; rank_rstrctd := rank_rstrctd g |}
  end.
(** [pnga_set_tiled_irreg_proc_grid]. *)
Definition set_tiled_irreg (actv : bool) (g : gadesc) (m nb grid : list Z) : out gadesc :=
  if actv then Abort
  else match dims g with
  | [] => Abort
  | _ => if too_many (dims g) nb then Abort
         else match distr_type g with
         | REGULAR =>
             try u <- irreg_check (dims g) nb m;
             if negb (length grid =? length (dims g))%nat then Undef
             else if existsb (fun p => p <? 1) grid then Abort
             else try c <- irreg_copy nb m;
                  Done {| distr_type := TILED_IRREG; dims := dims g; nblock := grid; mapc := c; block_dims := block_dims g;
                          num_blocks := nb; rstrctd_list := rstrctd_list g; rank_rstrctd := rank_rstrctd g |}
         | _ => Abort
         end
  end.
(** base.c 2686-2697: the check in pnga_allocate on [pnum] processes. *)
Definition grid_accepted (g : gadesc) (pnum : Z) : bool := zprod (nblock g) =? pnum.
