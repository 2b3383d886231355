(** Model of GA_Step_max and GA_Step_max_patch.
    Source: /repo/global/src/elem_alg.c 189-241, 1269-1371, 2432-2590, 2761-3095,
    3487-3683.
    The call is: the check for negative elements of A ([has_negative]), the
    elementwise operation [elem2_patch] of [MZip] with [step_divide] into a new
    array C laid out as A, the update of the patch of C with [stepmax]
    ([patch_cells] of [MPw]), the maximum of C ([select_elem] of [MSelect]), the
    absolute value.  Simplifications: those of the parts. *)
From Verif Require Export MUn MSelect SpecStep.
Open Scope Z_scope.

(** elem_alg.c 2778-2834: what one block says; it is kept only until the next
    block that meets the patch. *)
Fixpoint negative_loop {V} (isneg : V -> bool) (m : heap V) (found : bool) (ls : list (list place)) : option bool :=
  match ls with
  | [] => Some found
  | [] :: ls' => negative_loop isneg m found ls'
  | l :: ls' => do vs <- mapM (hget m) l; negative_loop isneg m (existsb isneg vs) ls'
  end.
(** elem_alg.c 2836-2918, 3094: the answer of a process. *)
Definition has_negative {V} (isneg : V -> bool) fuel guess near wn (a : garray) (me : Z) (plo phi : list Z) (m : heap V) : option bool :=
  do ps <- local_iterate fuel guess near wn a me;
  do ls <- mapM (piece_cells plo phi) ps;
  negative_loop isneg m false ls.

(** elem_alg.c 1290-1307, 1317-1366. *)
Definition step_divide (inf a b : Q) : Q :=
  if Qeq_bool a 0 then (if Qle_bool 0 b then inf else 0)
  else if negb (Qeq_bool b 0) then (a / b)%Q else inf.
(** elem_alg.c 201-235. *)
Definition stepmax (inf c : Q) : Q := if negb (Qle_bool c 0) then (- inf)%Q else c.
(** elem_alg.c 1315-1331 and 203-209; the division of C. *)
Definition step_divide_int (inf a b : Z) : Z :=
  if a =? 0 then (if 0 <=? b then inf else 0)
  else if negb (b =? 0) then Z.quot a b else inf.
Definition stepmax_int (inf c : Z) : Z := if 0 <? c then - inf else c.
(** elem_alg.c 3629-3648: the number that is returned. *)
Definition step_result (v : Q) : Q := qabs v.
Definition step_result_int (v : Z) : Z := if 0 <=? v then v else - v.
