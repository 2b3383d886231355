(** Model of put with notification (/repo/global/src/onesided.c 697-856).
    The user's memory is a buffer indexed by elements from [buf]; [bufn] points
    to element [off] of it (a pointer difference that is not a multiple of the
    element size is not modelled).  [None] = pnga_error or an access outside
    memory.  Elements are lists of bytes. *)
From Verif Require Export MXfer.

(** onesided.c 733-744 [putn_intersect_coords]. *)
Fixpoint intersect_coords (lo hi e : list Z) : bool :=
  match lo, hi, e with
  | l :: lo', h :: hi', x :: e' => if (x <? l) || (h <? x) then false else intersect_coords lo' hi' e'
  | _, _, _ => true
  end.
(** onesided.c 746-768 [putn_verify_element_in_buf]: the offset expected for the
    notify element. *)
Fixpoint eoff_loop (e lo ld : list Z) : option Z :=
  match e, lo with
  | x :: e', l :: lo' => match ld with d :: ld' => do r <- eoff_loop e' lo' ld'; Some ((x - l) * d + r) | [] => None end
  | _, _ => Some 0
  end.
Definition element_offset (e lo ld : list Z) : option Z :=
  match e, lo with x :: e', l :: lo' => do r <- eoff_loop e' lo' ld; Some (x - l + r) | _, _ => None end.
(** onesided.c 816-817: each byte plus one. *)
Definition bump (v : list Z) : list Z := map (fun b => (b + 1) mod 256) v.
(** onesided.c 776: ldn. *)
Definition ldn : list Z := 1 :: repeat 0 6.
Definition at_off {V} (u : buffer V) (off : Z) : buffer V := fun i => u (off + i).
(** The malloced copy of the notify element. *)
Definition one_elem {V} (v : V) : buffer V := fun i => if i =? 0 then Some v else None.

(** onesided.c 774-827 [pnga_nbput_notify]: the user's memory after the call and
    the element transfers to the memory of g_a and of g_b ([same]: g_a == g_b,
    then all of them are to g_a). *)
Definition nbput_notify (fuel : nat) guess (rnd1 rnd2 : Z -> Z) nn smp (a b : garray) (same : bool) (lo hi ld e : list Z) (off : Z) (u : buffer (list Z))
  : option (buffer (list Z) * (list (buffer (list Z) * (place * Z)) * list (buffer (list Z) * (place * Z)))) :=
  if same && intersect_coords lo hi e then
    do eo <- element_offset e lo ld;
    if eo =? off then
      do v <- u off;
      let u1 := bset u off (bump v) in
      do ts <- transfers fuel guess rnd1 nn smp a lo hi ld;
      do te <- transfers fuel guess rnd2 nn smp a e e ldn;
      Some (u1, (map (fun t => (u1, t)) ts ++ map (fun t => (one_elem v, t)) te, []))
    else None
  else
    do ts <- transfers fuel guess rnd1 nn smp a lo hi ld;
    do te <- transfers fuel guess rnd2 nn smp b e e ldn;
    let es := map (fun t => (u, t)) ts in
    let ee := map (fun t => (at_off u off, t)) te in
    Some (u, if same then (es ++ ee, []) else (es, ee)).

(** The transfers happen in any order in which those to the same memory cell,
    and so to the same process, keep their order (C57). *)
Definition keeps_cells {V} (es es' : list (buffer V * (place * Z))) : Prop :=
  Permutation es es' /\
  forall p o, filter (fun e => (fst (fst (snd e)) =? p) && (snd (fst (snd e)) =? o)) es' = filter (fun e => (fst (fst (snd e)) =? p) && (snd (fst (snd e)) =? o)) es.

(** ---- the table of outstanding operations ---- *)
(** onesided.c 698-709: a slot holds the address of the caller's handle (0 =
    NULL) and the two transfers (numbers). *)
Definition slot := (Z * (Z * Z))%type.
Definition no_slot : slot := (0, (0, 0)).
(** onesided.c 723-731 [putn_find_empty_slot], 840-842: first slot with handle [h]. *)
Fixpoint find_slot (h : Z) (l : list slot) : option nat :=
  match l with
  | [] => None
  | s :: l' => if fst s =? h then Some O else option_map S (find_slot h l')
  end.
(** onesided.c 780-792: [None] = error, too many outstanding operations. *)
Definition notify_start (l : list slot) (h t1 t2 : Z) : option (list slot) :=
  do pos <- find_slot 0 l; Some (upd pos (h, (t1, t2)) l).
(** onesided.c 836-856 [pnga_nbwait_notify]: the transfers waited for. *)
Definition notify_wait (l : list slot) (h : Z) : list slot * list Z :=
  match find_slot h l with
  | None => (l, [])
  | Some i => match nth_error l i with
              | Some (_, (t1, t2)) => (upd i (0, (t1, t2)) l, [t1; t2])
              | None => (l, [])
              end
  end.
Inductive nevent := NPut (h t1 t2 : Z) | NWait (h : Z).
Fixpoint nrun (l : list slot) (evs : list nevent) : option (list slot * list (list Z)) :=
  match evs with
  | [] => Some (l, [])
  | NPut h t1 t2 :: evs' => do l1 <- notify_start l h t1 t2; nrun l1 evs'
  | NWait h :: evs' => let r := notify_wait l h in do q <- nrun (fst r) evs'; Some (fst q, snd r :: snd q)
  end.
Definition notify_table : list slot := repeat no_slot 100.
