(** What a walk over the local blocks of a process has to deliver. *)
From Verif Require Export SpecHome MLoc.

(** The blocks handed to process [w] are not empty, point into its memory,
    together contain exactly the elements placed there, each of them once, and
    every element is found at its place. *)
Definition local_cover (placed : list Z -> place -> Prop) (dims : list Z) (w : Z) (ps : list lpiece) : Prop :=
  tiles ps (fun q => (lp_lo q, lp_hi q)) (fun x => in_array dims x /\ exists ad, placed x (w, ad)) /\
  forall q, In q ps ->
    Forall2 Z.le (lp_lo q) (lp_hi q) /\ lp_seg q = w /\
    forall x, in_box (lp_lo q) (lp_hi q) x -> placed x (w, lp_off q + lin (lp_ld q) (vsub x (lp_lo q))).

(** In every dimension but the last, the coordinate is below the extent. *)
Fixpoint fits_but_last (nb pc : list Z) : Prop :=
  match nb, pc with
  | [_], [_] => True
  | n :: nb', p :: pc' => p < n /\ fits_but_last nb' pc'
  | _, _ => False
  end.
