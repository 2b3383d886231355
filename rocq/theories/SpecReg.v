(** Specification vocabulary for memory allocated by groups. *)
From Verif Require Export SpecBox LRadix.

(** A collective allocation: the members, what each asked for, the address each
    got (0 for nothing) and the memory object behind it. *)
Record galloc := GAlloc { al_group : list Z; al_size : Z -> Z; al_addr : Z -> Z; al_obj : Z -> Z }.
(** A part of the memory of a process. *)
Record segm := Segm { sg_addr : Z; sg_len : Z; sg_obj : Z }.
(** What allocation [a] gave process [r]. *)
Definition segm_of (r : Z) (a : galloc) : list segm :=
  if existsb (Z.eqb r) (al_group a) && (0 <? al_size a r) then [Segm (al_addr a r) (al_size a r) (al_obj a r)] else [].
(** The memory of process [r], given the allocations that are not freed. *)
Definition segments (r : Z) (live : list galloc) : list segm := flat_map (segm_of r) live.
(** The [len] bytes at [a] are in [s]; no bytes count as one byte. *)
Definition inside (a len : Z) (s : segm) : Prop := sg_addr s <= a /\ a + Z.max 1 len <= sg_addr s + sg_len s.
Definition apart (s t : segm) : Prop := sg_addr s + sg_len s <= sg_addr t \/ sg_addr t + sg_len t <= sg_addr s.

(** Calls: allocate; free the allocation with a number among those that live. *)
Inductive mcall := MAlloc (a : galloc) | MFree (i : Z).
Definition drop_at {A} (i : Z) (l : list A) : list A := firstn (Z.to_nat i) l ++ skipn (S (Z.to_nat i)) l.
Definition live_step (live : list galloc) (c : mcall) : list galloc :=
  match c with MAlloc a => live ++ [a] | MFree i => drop_at i live end.
(** What an allocation may look like: a group of those in [ok], the operating system
    gives addresses that are not in use. *)
Record alloc_ok (ok : list Z -> Prop) (live : list galloc) (a : galloc) : Prop := {
  ao_nodup : NoDup (al_group a);
  ao_ok : ok (al_group a);
  ao_size : forall r, 0 <= al_size a r;
  ao_addr : forall r, In r (al_group a) -> if 0 <? al_size a r then 0 < al_addr a r else al_addr a r = 0;
  ao_new : forall r s t, In s (segments r live) -> In t (segm_of r a) -> apart s t }.
Inductive calls_ok (ok : list Z -> Prop) : list galloc -> list mcall -> Prop :=
| CO_nil live : calls_ok ok live []
| CO_alloc live a cs : alloc_ok ok live a -> calls_ok ok (live ++ [a]) cs -> calls_ok ok live (MAlloc a :: cs)
| CO_free live i cs : 0 <= i < Z.of_nat (length live) -> calls_ok ok (drop_at i live) cs -> calls_ok ok live (MFree i :: cs).
