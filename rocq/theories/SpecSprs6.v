(** Specification of the use of sparse arrays by a program: which calls are allowed. *)
From Coq Require Export ZArith List Bool Lia.
Open Scope Z_scope.

(** The calls that make, fill and delete sparse arrays; [nv] and [nb] are the numbers of
    elements and of column blocks that the calling process has afterwards. *)
Inductive call :=
  | Create
  | Add (h : Z)
  | Assemble (h nv nb : Z)
  | Duplicate (h : Z)
  | Matmat (a b nv nb : Z)
  | Destroy (h : Z).
(** What the program knows of its arrays: None if there is none with this number, [Some
    false] before and [Some true] after it was assembled. *)
Definition arrays := Z -> option bool.
Definition allowed (v : arrays) (c : call) : Prop :=
  match c with
  | Create => True
  | Add h => v h = Some false
  | Assemble h nv nb => v h = Some false /\ 0 <= nv /\ 0 <= nb
  | Duplicate h => v h = Some true
  | Matmat a b nv nb => v a = Some true /\ v b = Some true /\ 0 <= nv /\ 1 <= nb
  | Destroy h => v h <> None
  end.
Definition makes (c : call) : option bool :=
  match c with Create => Some false | Duplicate _ | Matmat _ _ _ _ => Some true | _ => None end.
Definition put (v : arrays) (h : Z) (x : option bool) : arrays := fun k => if k =? h then x else v k.
(** After a call that returned [r]. *)
Definition after (v : arrays) (c : call) (r : Z) : arrays :=
  match c with
  | Create => put v r (Some false)
  | Add _ => v
  | Assemble h _ _ => put v h (Some true)
  | Duplicate _ | Matmat _ _ _ _ => put v r (Some true)
  | Destroy h => put v h None
  end.
