(** Specification vocabulary for GA_Dgemm: programs that run at the same time. *)
From Verif Require Export SpecMat.

Definition at_place (q p : place) : bool := (fst p =? fst q) && (snd p =? snd q).
(** [es] is a way the programs may run at the same time: each event of [es] belongs
    to one program ([ls] says to which), and the events of a program that concern
    one place of memory come in its order. *)
Definition interleaved {E} (cell : E -> place) (progs : list (list E)) (es : list E) : Prop :=
  exists ls : list nat, length ls = length es /\
    forall i q, map snd (filter (fun p => Nat.eqb (fst p) i && at_place q (cell (snd p))) (combine ls es))
                = filter (fun e => at_place q (cell e)) (nth i progs []).
