(** Specification vocabulary for process groups, as seen by the program. *)
From Verif Require Export SpecBox LRadix.
From Coq Require Export Sorted Permutation.

(** Calls of a program.  [att]: whether an array is attached to the group. *)
Inductive gcall :=
| GCreate (l : list Z)
| GSetDefault (g : Z)
| GDestroy (g : Z) (att : bool)
| GDuplicate (g : Z).
Inductive ganswer := GUnit | GHandle (g : Z) | GStatus (b : bool).

(** What the program knows: the members of each group (absolute process numbers
    in the order of their ranks), for each the handle of the group that was the
    default when it was made, and the default group; -1 is the world. *)
Record gbook := GBook { gb_grp : Z -> option (list Z); gb_par : Z -> Z; gb_def : Z }.
Definition gput {A} (f : Z -> A) (i : Z) (a : A) : Z -> A := fun j => if j =? i then a else f j.
(** Members of a group of [n] processes in all. *)
Definition gmembers (n : Z) (b : gbook) (g : Z) : option (list Z) :=
  if g =? -1 then Some (zseq 0 (Z.to_nat n)) else gb_grp b g.
(** [c] are the members at the ranks [l] of [pm], in ascending order of rank. *)
Definition chosen (pm l c : list Z) : Prop :=
  exists l', Permutation l l' /\ StronglySorted Z.lt l' /\ Forall2 (fun r p => 0 <= r /\ nth_error pm (Z.to_nat r) = Some p) l' c.
(** Group 0 belongs to the library. *)
Definition ghandle_ok (max g : Z) : Prop := 1 <= g < max.

Inductive gbook_step (n max : Z) (b : gbook) : gcall -> ganswer -> gbook -> Prop :=
| GS_create l h pm c : ghandle_ok max h -> gb_grp b h = None -> gmembers n b (gb_def b) = Some pm -> chosen pm l c ->
    gbook_step n max b (GCreate l) (GHandle h) (GBook (gput (gb_grp b) h (Some c)) (gput (gb_par b) h (gb_def b)) (gb_def b))
| GS_default g : gbook_step n max b (GSetDefault g) GUnit (GBook (gb_grp b) (gb_par b) g)
| GS_destroy g c : gb_grp b g = Some c ->
    gbook_step n max b (GDestroy g false) (GStatus true) (GBook (gput (gb_grp b) g None) (gb_par b) (gb_def b))
| GS_duplicate g h c : ghandle_ok max h -> gb_grp b h = None -> gb_grp b g = Some c ->
    gbook_step n max b (GDuplicate g) (GHandle h) (GBook (gput (gb_grp b) h (Some c)) (gput (gb_par b) h (gb_par b g)) (gb_def b)).

(** The calls about which the theorems speak.  Left out: lists with processes
    outside the default group, using group 0 or a destroyed group, destroying
    the default group.  A duplicate is allowed only if the group was made in
    the world and is the first part of the default group, or was made in the
    group that is the default. *)
Definition groom (max : Z) (b : gbook) : Prop := exists h, ghandle_ok max h /\ gb_grp b h = None.
Definition gallowed (n max : Z) (b : gbook) (c : gcall) : Prop :=
  match c with
  | GCreate l => groom max b /\ NoDup l /\ exists pm, gmembers n b (gb_def b) = Some pm /\ forall r, In r l -> 0 <= r < Z.of_nat (length pm)
  | GSetDefault g => g = -1 \/ exists c, gb_grp b g = Some c
  | GDestroy g att => att = false /\ g <> gb_def b /\ exists c, gb_grp b g = Some c
  | GDuplicate g => groom max b /\ exists c pm, gb_grp b g = Some c /\ gmembers n b (gb_def b) = Some pm /\
      ((gb_par b g = -1 /\ c = firstn (length c) pm) \/
       (gb_par b g <> -1 /\ gb_par b g = gb_def b /\ incl c pm))
  end.
Inductive gbook_run (n max : Z) : gbook -> list gcall -> list ganswer -> gbook -> Prop :=
| GR_nil b : gbook_run n max b [] [] b
| GR_cons b c a b1 cs l b2 : gallowed n max b c -> gbook_step n max b c a b1 -> gbook_run n max b1 cs l b2 ->
    gbook_run n max b (c :: cs) (a :: l) b2.
Definition gbook0 : gbook := GBook (fun _ => None) (fun _ => 0) (-1).
