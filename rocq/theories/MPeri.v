(** Model of periodic put, get and accumulate
    (/repo/global/src/global.periodic.c 60-276).  [None] = pnga_error or
    undefined behaviour. *)
From Verif Require Export MXfer SpecPeri.

(** global.periodic.c 89-110: move the request so that it overlaps the array;
    the last component is no_shift. *)
Definition peri_shift (d l h : Z) : option (Z * Z * bool) :=
  do r <- (if d <? l then
             do rmndr <- cmod l d;
             do id <- cdiv (l - rmndr) d;
             Some (l - id * d, h - id * d, id =? 0)
           else Some (l, h, true));
  let l1 := fst (fst r) in let h1 := snd (fst r) in
  if h1 <? 1 then
    do rmndr <- cmod (- h1) d;
    do q <- cdiv (h1 + rmndr) d;
    let id := q + 1 in
    Some (l1 + id * d, h1 + id * d, snd r && (id =? 0))
  else Some r.

(** 121-155 and 166-184: the ranges (first, last, offset) of one dimension,
    and whether low or hig is valid. *)
Definition peri_ranges (d l h : Z) : list (Z * Z * Z) :=
  let mid_valid := (1 <=? l) || ((l <? 1) && (d <? h)) || (h <=? d) in
  let mid_lo := if 1 <=? l then l else 1 in
  let mid_hi := if h <=? d then h else d in
  (if l <? 1 then [(l + d, 0 + d, l - l)] else []) ++
  (if mid_valid then [(mid_lo, mid_hi, mid_lo - l)] else []) ++
  (if d <? h then [(d + 1 - d, h - d, d + 1 - l)] else []).
Definition peri_outside (d l h : Z) : bool := (l <? 1) || (d <? h).

(** 61-187 [ngai_peri_get_range_]. *)
Inductive peri_result :=
  | PeriInvalid
  | PeriRegular
  | PeriRanges (rs : list (list (Z * Z * Z))).
Fixpoint peri_valid (dims lo hi : list Z) : option bool :=
  match dims, lo, hi with
  | [], [], [] => Some true
  | d :: dims', l :: lo', h :: hi' =>
      if (h - l + 1 <? 1) || (2 * d <? h - l + 1) then Some false else peri_valid dims' lo' hi'
  | _, _, _ => None
  end.
Fixpoint peri_each (dims lo hi : list Z) : option (list (list (Z * Z * Z)) * bool * bool) :=
  match dims, lo, hi with
  | [], [], [] => Some ([], true, true)
  | d :: dims', l :: lo', h :: hi' =>
      do s <- peri_shift d l h;
      let l1 := fst (fst s) in let h1 := snd (fst s) in
      do r <- peri_each dims' lo' hi';
      Some (peri_ranges d l1 h1 :: fst (fst r),
            negb (peri_outside d l1 h1) && snd (fst r), snd s && snd r)
  | _, _, _ => None
  end.
Definition peri_get_range (dims lo hi : list Z) : option peri_result :=
  do v <- peri_valid dims lo hi;
  if v then
    do r <- peri_each dims lo hi;
    if snd (fst r) && snd r then Some PeriRegular else Some (PeriRanges (fst (fst r)))
  else Some PeriInvalid.

(** 231-246: the patch and the offset into the buffer for the current
    counters; [factor] is the product of the ld[j] of line 243. *)
Fixpoint peri_patch (rs : list (list (Z * Z * Z))) (counter ld : list Z) (factor : Z)
  : option (list Z * list Z * Z) :=
  match rs, counter with
  | [r], [c] =>
      do b <- zget r c;
      Some ([fst (fst b)], [snd (fst b)], snd b * factor)
  | r :: rs', c :: counter' =>
      do b <- zget r c;
      match ld with
      | d :: ld' =>
          do p <- peri_patch rs' counter' ld' (factor * d);
          Some (fst (fst b) :: fst (fst p), snd (fst b) :: snd (fst p), snd b * factor + snd p)
      | [] => None
      end
  | _, _ => None
  end.

(** 267-274: advance the counters; [inc] is 1 for counter[0] and when the
    previous counter was reset.  [None] = done. *)
Fixpoint peri_advance (rs : list (list (Z * Z * Z))) (counter : list Z) (inc : Z) : option (list Z) :=
  match rs, counter with
  | r :: rs', c :: counter' =>
      let c' := c + inc in
      if c' =? Z.of_nat (length r) then
        match rs' with
        | [] => None
        | _ => do t <- peri_advance rs' counter' 1; Some (0 :: t)
        end
      else
        match rs' with
        | [] => Some [c']
        | _ => do t <- peri_advance rs' counter' 0; Some (c' :: t)
        end
  | _, _ => None
  end.

(** 224-275: the patches of the do-while loop, with their counters. *)
Fixpoint peri_loop (fuel : nat) (rs : list (list (Z * Z * Z))) (counter ld : list Z)
  : option (list (list Z * (list Z * list Z * Z))) :=
  match fuel with
  | O => None
  | S f =>
      do p <- peri_patch rs counter ld 1;
      match peri_advance rs counter 1 with
      | None => Some [(counter, p)]
      | Some counter' => do r <- peri_loop f rs counter' ld; Some ((counter, p) :: r)
      end
  end.

(** 192-276 [pnga_periodic]: the element transfers of the calls of pnga_put,
    pnga_get or pnga_acc.  [rnd] are the random numbers of each call (by the
    counters). *)
Definition shift_buf (off : Z) (ts : list (place * Z)) : list (place * Z) :=
  map (fun t => (fst t, off + snd t)) ts.
Definition periodic_transfers (fuel : nat) guess (rnd : list Z -> Z -> Z) nn smp (a : garray) (lo hi ld : list Z)
  : option (list (place * Z)) :=
  do r <- peri_get_range (dims (ga_desc a)) lo hi;
  match r with
  | PeriInvalid => None
  | PeriRegular => transfers fuel guess (rnd []) nn smp a lo hi ld
  | PeriRanges rs =>
      do ps <- peri_loop fuel rs (map (fun _ => 0) rs) ld;
      do ls <- mapM (fun cp => let p := snd cp in
                     do ts <- transfers fuel guess (rnd (fst cp)) nn smp a (fst (fst p)) (snd (fst p)) ld;
                     Some (shift_buf (snd p) ts)) ps;
      Some (concat ls)
  end.
