(** Property theorem: gather and scatter with preallocated buffers (C26). *)
From Verif Require Import LGat LStore MXfer LXfer LXfer2 PDist PIter PIterBlk PAccess PRmw PGat.
Open Scope Z_scope.

(** More elements than NGA_Alloc_gatscat_buf was called for: the call ends with an error
    (onesided.c 3415-3417) before an element is moved, whatever the array and the caller. *)
Theorem C26_oversized : forall guess wn me n a subs, n < Z.of_nat (length subs) -> gatscat guess wn me (Some n) a subs = None.
Proof. intros guess wn me n a subs H. unfold gatscat. replace (n <? Z.of_nat (length subs)) with true by (symmetry; apply Z.ltb_lt; exact H). reflexivity. Qed.
(** A call that is refused only for this reason. *)
Example C26_oversized_ex : gatscat ex_guess 8 0 (Some 1) ex_ga [[7; 2]; [1; 1]] = None /\ gatscat ex_guess 8 0 (Some 2) ex_ga [[7; 2]; [1; 1]] <> None.
Proof. split; [apply C26_oversized; cbn; lia|vm_compute; discriminate]. Qed.
Print Assumptions C26_oversized.
