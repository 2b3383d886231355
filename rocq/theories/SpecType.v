(** Specification vocabulary for registered data types, as seen by the program. *)
From Verif Require Export SpecBox.

Inductive tcall :=
| TRegister (bytes : Z)     (** register a type *)
| TDeregister (id : Z)
| TSize (id : Z)            (** the size the library uses for a type *)
| TValid (id : Z).          (** does the library accept the type for an array? *)
Inductive tanswer := TNum (z : Z) | TBool (b : bool).

(** The program knows the size of every live registered type; [base] says which
    ids are built-in types, and their sizes. *)
Definition tbook := Z -> option Z.
Definition tput (b : tbook) (i : Z) (a : option Z) : tbook := fun j => if j =? i then a else b j.
Definition tbook0 : tbook := fun _ => None.
(** Ids of registered types: a range given by the library. *)
Inductive tbook_step (base : Z -> option Z) (first last : Z) (b : tbook) : tcall -> tanswer -> tbook -> Prop :=
| TS_register bytes id : first <= id <= last -> b id = None ->
    tbook_step base first last b (TRegister bytes) (TNum id) (tput b id (Some bytes))
| TS_full bytes : (forall id, first <= id <= last -> b id <> None) ->
    tbook_step base first last b (TRegister bytes) (TNum (-1)) b
| TS_deregister id n : b id = Some n -> tbook_step base first last b (TDeregister id) (TNum 0) (tput b id None)
| TS_reserved id : id < first -> tbook_step base first last b (TDeregister id) (TNum (-1)) b
| TS_unknown id : first <= id -> b id = None -> tbook_step base first last b (TDeregister id) (TNum (-2)) b
| TS_size id n : (b id = Some n \/ base id = Some n) -> tbook_step base first last b (TSize id) (TNum n) b
| TS_valid id (v : bool) : (v = true <-> b id <> None \/ base id <> None) -> tbook_step base first last b (TValid id) (TBool v) b.
Inductive tbook_run (base : Z -> option Z) (first last : Z) : tbook -> list tcall -> list tanswer -> tbook -> Prop :=
| TR_nil b : tbook_run base first last b [] [] b
| TR_cons b c a b1 cs l b2 : tbook_step base first last b c a b1 -> tbook_run base first last b1 cs l b2 ->
    tbook_run base first last b (c :: cs) (a :: l) b2.
