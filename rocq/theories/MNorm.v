(** Model of GA_Norm1 and GA_Norm_infinity.
    Source: /repo/global/src/matrix.c 730-1049, 1051-1357.
    The result of a process is its contribution to the global reduction; [None] =
    pnga_error or undefined behaviour.  Simplifications: arithmetic is exact (in
    particular sums and absolute values of integers do not overflow); the loop
    bodies, which differ only in the element type, are written once, with the
    absolute value [nrm] as a parameter (GA_ABS, or the root of the sum of squares)
    and [sgn] for the value itself; the buffers for the types are one variable. *)
From Verif Require Export MDiag SpecNorm.

(** matrix.c 769-787, 1089-1108: the cells of a block, by rows or by columns;
    [None]: the block is skipped. *)
Definition norm_cells (byrow : bool) (q : lpiece) : option (option (list place)) :=
  let cells nr nc ld := map (fun u => (lp_seg q, lp_off q + fst u)) (if byrow then row_uses nr nc ld else col_uses nr nc ld) in
  match lp_lo q, lp_hi q with
  | [l], [h] => Some (if 0 <? h then Some (cells (h - l + 1) 1 0) else None)
  | [l0; l1], [h0; h1] =>
      match lp_ld q with
      | ld :: _ => Some (if (0 <? h0) && (0 <? h1) then Some (cells (h0 - l0 + 1) (h1 - l1 + 1) ld) else None)
      | [] => None
      end
  | _, _ => None
  end.

Section Norm.
Context {V N : Type} (nrm sgn : V -> N) (add : N -> N -> N) (zero : N) (ltb : N -> N -> bool).

(** matrix.c 1121-1123: "*isum += GA_ABS(pi[j*ld+i])". *)
Fixpoint sum_loop (m : heap V) (s : N) (cs : list place) : option N :=
  match cs with
  | [] => Some s
  | c :: cs' => do v <- hget m c; sum_loop m (add s (nrm v)) cs'
  end.
(** matrix.c 1051-1176: "*isum = 0" for every block. *)
Definition norm1_block (m : heap V) (s : N) (q : lpiece) : option N :=
  do r <- norm_cells true q;
  match r with None => Some s | Some cs => sum_loop m zero cs end.
(** matrix.c 804-807: "if (GA_ABS(...) > *isum) *isum = GA_ABS(...)". *)
Fixpoint max_loop (m : heap V) (s : N) (cs : list place) : option N :=
  match cs with
  | [] => Some s
  | c :: cs' => do v <- hget m c; max_loop m (if ltb s (nrm v) then nrm v else s) cs'
  end.
(** matrix.c 803, 811, 818-821, 833-836: the absolute value of the first element of
    the block; 848, 855: its value. *)
Definition first_value (t : elt) (v : V) : N := match t with E_flt | E_dbl => sgn v | _ => nrm v end.
(** matrix.c 730-864; 856-858: by rows for C_DBL. *)
Definition norm_inf_block (t : elt) (m : heap V) (s : N) (q : lpiece) : option N :=
  do r <- norm_cells (elt_eqb t E_dbl) q;
  match r with
  | None => Some s
  | Some cs => do v <- hget m (lp_seg q, lp_off q); max_loop m (first_value t v) cs
  end.

(** One variable, initially 0, for all blocks of the process. *)
Fixpoint over_blocks (f : N -> lpiece -> option N) (s : N) (ps : list lpiece) : option N :=
  match ps with [] => Some s | q :: ps' => do s' <- f s q; over_blocks f s' ps' end.
(** matrix.c 1183-1246, 871-937. *)
Definition norm1_proc fuel guess near wn (t : elt) (a : garray) (me : Z) (m : heap V) : option N :=
  if (2 <? Z.of_nat (length (dims (ga_desc a)))) || negb (listed t) then None
  else do ps <- local_iterate fuel guess near wn a me; over_blocks (norm1_block m) zero ps.
Definition norm_inf_proc fuel guess near wn (t : elt) (a : garray) (me : Z) (m : heap V) : option N :=
  if (2 <? Z.of_nat (length (dims (ga_desc a)))) || negb (listed t) then None
  else do ps <- local_iterate fuel guess near wn a me; over_blocks (norm_inf_block t m) zero ps.
(** matrix.c 1303-1329, 995-1021: armci_msg_*gop with "+" and "max" over the
    contributions of all processes. *)
Definition gop_sum (cs : list N) : N := fold_right add zero cs.
Definition gop_max (cs : list N) : N :=
  match cs with [] => zero | c :: cs' => fold_left (fun x y => if ltb x y then y else x) cs' c end.
End Norm.
