(** Specification vocabulary for operations that combine the elements of
    several arrays and may refuse. *)
From Coq Require Export QArith.
From Verif Require Export SpecAdd SpecDiag.
Open Scope Z_scope.

(** Every order of the element operations of every phase; [Q None]: an operation
    has failed and the program is stopped. *)
Fixpoint every_run {S E} (step : S -> E -> option S) (s : S) (phases : list (list E)) (Q : option S -> Prop) : Prop :=
  match phases with
  | [] => Q (Some s)
  | ph :: rest => forall es, Permutation ph es ->
      match run_elems step s es with Some s' => every_run step s' rest Q | None => Q None end
  end.

(** Every element of the patch of C becomes [g] of the corresponding elements of
    the patches of A and B; nothing else changes. *)
Definition zipped2 {V} (g : V -> V -> option V) (pa pb pc : list Z -> place -> Prop) (alo ahi blo bhi clo chi : list Z)
           (ma mb mc mc' : heap V) : Prop :=
  (forall x y z qa qb qc, corresponds false alo ahi clo chi y x -> corresponds false blo bhi clo chi z x ->
     pa y qa -> pb z qb -> pc x qc ->
     exists va vb v, hget ma qa = Some va /\ hget mb qb = Some vb /\ g va vb = Some v /\ hget mc' qc = Some v) /\
  (forall q, (forall x, in_box clo chi x -> ~ pc x q) -> hget mc' q = hget mc q).
(** [g] is not defined for a pair of corresponding elements. *)
Definition undefined2 {V} (g : V -> V -> option V) (pa pb : list Z -> place -> Prop) (alo ahi blo bhi clo chi : list Z)
           (ma mb : heap V) : Prop :=
  exists x y z qa qb va vb, corresponds false alo ahi clo chi y x /\ corresponds false blo bhi clo chi z x /\
    pa y qa /\ pb z qb /\ hget ma qa = Some va /\ hget mb qb = Some vb /\ g va vb = None.

(** The same for three operands. *)
Definition zipped3 {V} (g : V -> V -> V -> option V) (pa pb pc pm : list Z -> place -> Prop) (alo ahi blo bhi clo chi mlo mhi : list Z)
           (ma mb mc mm mm' : heap V) : Prop :=
  (forall x y z u qa qb qc qm, corresponds false alo ahi mlo mhi y x -> corresponds false blo bhi mlo mhi z x -> corresponds false clo chi mlo mhi u x ->
     pa y qa -> pb z qb -> pc u qc -> pm x qm ->
     exists va vb vc v, hget ma qa = Some va /\ hget mb qb = Some vb /\ hget mc qc = Some vc /\ g va vb vc = Some v /\ hget mm' qm = Some v) /\
  (forall q, (forall x, in_box mlo mhi x -> ~ pm x q) -> hget mm' q = hget mm q).

(** Complex numbers over the rationals. *)
Definition qnorm2 (a : Q * Q) : Q := (fst a * fst a + snd a * snd a)%Q.
Definition qmul (a b : Q * Q) : Q * Q := (fst a * fst b - snd a * snd b, fst a * snd b + snd a * fst b)%Q.
Definition qceq (a b : Q * Q) : Prop := (fst a == fst b)%Q /\ (snd a == snd b)%Q.
(** The median of three numbers: one of them that is neither less than both
    others nor greater than both others. *)
Definition is_median {K V} (le : K -> K -> Prop) (key : V -> K) (a b c m : V) : Prop :=
  (m = a \/ m = b \/ m = c) /\
  (le (key a) (key m) /\ le (key m) (key b) \/ le (key b) (key m) /\ le (key m) (key a) \/
   le (key a) (key m) /\ le (key m) (key c) \/ le (key c) (key m) /\ le (key m) (key a) \/
   le (key b) (key m) /\ le (key m) (key c) \/ le (key c) (key m) /\ le (key m) (key b)).
