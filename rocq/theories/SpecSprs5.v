(** Specification vocabulary for the product of a vector and a sparse matrix. *)
From Verif Require Export SpecSprs.
Open Scope Z_scope.

(** Column [j] of the product of the vector [x] and the matrix with elements [l]. *)
Definition column_product {V} (add mul : V -> V -> V) (zero : V) (l : list (elt V)) (x : Z -> V) (j : Z) : V :=
  lsum add zero (map (fun e => mul (x (erow e)) (evalue e)) (filter (fun e => ecol e =? j) l)).
