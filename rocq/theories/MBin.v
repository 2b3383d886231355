(** Model of /repo/global/src/sparse.c: sgai_bin_offset and pnga_bin_index without
    the final sort, on the binary tree of /repo/comex/src-armci/message.c.
    Simplifications: the messages of the tree are function values (every receive
    names its sender and the sender sends one message per direction and call);
    counters of type int are numbers; g_off holds values of type Integer. *)
From Verif Require Export SpecBin.
From Verif Require Import MNb MHandle MSort.

Section tree.
Context (nproc : Z).
(** message.c 543-561 [armci_msg_bintree]: root 0; up is not used at the root. *)
Definition left_of (p : Z) : Z := if nproc <=? 2 * p + 1 then -1 else 2 * p + 1.
Definition right_of (p : Z) : Z := if nproc <=? 2 * p + 2 then -1 else 2 * p + 2.
Definition up_of (p : Z) : Z := Z.quot (p - 1) 2.

(** One element of the arrays of sgai_bin_offset: [x] is what every process
    contributes, [r] is workR (a global variable) on every process at the call. *)
Context (x r : Z -> Z).
(** sparse.c 717-723, 727: workL as sent up. *)
Fixpoint up_val (fuel : nat) (p : Z) : Z :=
  match fuel with
  | O => 0
  | S f => if (-1 <? right_of p) && (-1 <? left_of p) then up_val f (left_of p) + (up_val f (right_of p) + x p)
           else if -1 <? left_of p then up_val f (left_of p) + x p
           else x p
  end.
(** sparse.c 718: workR after the up phase. *)
Definition work_r (p : Z) : Z := if -1 <? right_of p then up_val (Z.to_nat nproc) (right_of p) else r p.
(** sparse.c 730-740: workL before the subtraction in 733; the message from above
    is [offset] for a right child and the new workR for a left child. *)
Fixpoint down_val (fuel : nat) (p : Z) : Z :=
  match fuel with
  | O => 0
  | S f => if p =? 0 then up_val (Z.to_nat nproc) p
           else let u := up_of p in
                let off := down_val f u - x u in
                if p =? right_of u then off else off - work_r u
  end.
(** sparse.c 733. *)
Definition bin_offset (p : Z) : Z := down_val (Z.to_nat nproc) p - x p.
(** sparse.c 738: workR afterwards. *)
Definition r_after (p : Z) : Z := if -1 <? left_of p then bin_offset p - work_r p else work_r p.
End tree.

Definition NWORK : Z := 2000.
(** sparse.c 920-926: the counts by bin (from 1), with the bin through an int. *)
Fixpoint count_bins (nbin : Z) (subs : list Z) (c : Z -> Z) : out (Z -> Z) :=
  match subs with
  | [] => Done c
  | s :: rest => let sel := wrap32 s in
                 if (sel <? 1) || (nbin <? sel) then Abort else count_bins nbin rest (fset c sel (c sel + 1))
  end.
(** sparse.c 929-932: workR (by process and slot) before the chunk that starts at
    NWORK * k; [x p b] are the counts, bins from 1. *)
Fixpoint chunk_state (nproc nbin : Z) (x : Z -> Z -> Z) (r : Z -> Z -> Z) (k : nat) : Z -> Z -> Z :=
  match k with
  | O => r
  | S k' => let r' := chunk_state nproc nbin x r k' in
            let i := NWORK * Z.of_nat k' in
            fun p s => if (0 <=? s) && (s <? (if i + NWORK <? nbin then NWORK else nbin - i))
                       then r_after nproc (fun q => x q (i + s + 1)) (fun q => r' q s) p else r' p s
  end.
Definition offset_at (nproc nbin : Z) (x r : Z -> Z -> Z) (p b : Z) : Z :=
  let k := (b - 1) / NWORK in let s := (b - 1) mod NWORK in
  bin_offset nproc (fun q => x q b) (fun q => chunk_state nproc nbin x r (Z.to_nat k) q s) p.

Inductive bin_type := B_int | B_long | B_longlong.
(** The elements that a put of type [ty] finds in an array of type Integer (64 bits,
    low word first). *)
Definition as_elems (ty : bin_type) (v : list Z) : list Z :=
  match ty with B_int => flat_map (fun a => [wrap32 a; wrap32 (a / 2 ^ 32)]) v | _ => v end.
(** sparse.c 934-953: the puts of one process as (first subscript, elements).
    A put outside the array stops the program, a read behind the lists is
    undefined. *)
Fixpoint place_bins (ty : bin_type) (nbin noff : Z) (goff cnt off : Z -> Z) (subs values : list Z) (fuel : nat) (i : Z) : out (list (Z * list Z)) :=
  match fuel with
  | O => Done []
  | S f =>
    if i <? Z.of_nat (length subs) then
      let selected := nth (Z.to_nat i) subs 0 in
      if (selected <? 1) || (nbin <? selected) then Undef else
      let elems := cnt selected in
      if noff <? selected then Abort else
      let lo := goff selected + off selected + 1 in
      let hi := lo + elems - 1 in
      if nbin <? lo then Done []
      else if (lo <? 1) || (hi <? lo) || (nbin <? hi) then Abort
      else if Z.of_nat (length (as_elems ty (skipn (Z.to_nat i) values))) <? elems then Undef
      else try rest <- place_bins ty nbin noff goff cnt off subs values f (i + elems);
           Done ((lo, firstn (Z.to_nat elems) (as_elems ty (skipn (Z.to_nat i) values))) :: rest)
    else Done []
  end.
Definition put1 (g : Z -> Z) (e : Z * list Z) : Z -> Z :=
  fun i => if (fst e <=? i) && (i <? fst e + Z.of_nat (length (snd e))) then nth (Z.to_nat (i - fst e)) (snd e) 0 else g i.

Fixpoint omap {A B} (f : A -> out B) (l : list A) : out (list B) :=
  match l with [] => Done [] | a :: t => try b <- f a; try bs <- omap f t; Done (b :: bs) end.
(** The counts of process [p]. *)
Definition counts_of (cs : list (Z -> Z)) (p : Z) : Z -> Z := nth (Z.to_nat p) cs (fun _ => 0).
(** sparse.c 902-956 [pnga_bin_index] by all processes: [inp p] are the pairs
    (subscript, value) of process [p], [r] is workR; the result is the list of puts
    of every process (they can happen in any order) and workR afterwards. *)
Definition bin_index (ty : bin_type) (nproc nbin noff : Z) (goff : Z -> Z) (inp : Z -> list (Z * Z)) (r : Z -> Z -> Z)
  : out (list (list (Z * list Z)) * (Z -> Z -> Z)) :=
  let procs := zseq 0 (Z.to_nat nproc) in
  try cs <- omap (fun p => count_bins nbin (map fst (inp p)) (fun _ => 0)) procs;
  let x := counts_of cs in
  try puts <- omap (fun p => place_bins ty nbin noff goff (x p) (offset_at nproc nbin x r p) (map fst (inp p)) (map snd (inp p)) (length (inp p)) 0) procs;
  Done (puts, chunk_state nproc nbin x r (Z.to_nat ((nbin + NWORK - 1) / NWORK))).
