(** Specification vocabulary for mutexes. *)
From Verif Require Export MLock.

(** Correct use: a process that is not inside a call locks an existing mutex, or
    unlocks one that it holds. *)
Definition proper (k : lcfg) (s : lstate) (e : levent) : Prop :=
  match e with
  | ELock p x => 0 <= p < l_n k /\ 0 <= x < l_num k /\ waits (procs s p) = None
  | EUnlock p x => 0 <= p < l_n k /\ 0 <= x < l_num k /\ waits (procs s p) = None /\ In x (held (procs s p))
  | _ => True
  end.
(** Executions: any schedule of properly used mutexes. *)
Inductive lruns (k : lcfg) : lstate -> list levent -> lstate -> Prop :=
| LR_nil s : lruns k s [] s
| LR_cons s e s1 es s2 : proper k s e -> lstep k s e = Done s1 -> lruns k s1 es s2 -> lruns k s (e :: es) s2.
(** Nothing is on the way. *)
Definition quiet (k : lcfg) (s : lstate) : Prop := (forall p q, chan s p q = []) /\ (forall p, acks s p = []).
