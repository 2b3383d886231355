(** Specification vocabulary for array handles and memory accounting, as seen
    by the program on one process. *)
From Verif Require Export SpecBox.

(** The calls of a program on one process.  [n], [tn]: bytes of the local part;
    [others]: whether the other members of the group have enough memory. *)
Inductive call :=
| CCreate
| CSetData (g nd : Z) (d : list Z)
| CSetPgroup (g p : Z)
| CAllocate (g n : Z) (others : bool)
| COverlay (g parent n : Z) (others : bool)
| CDuplicate (g : Z) (d : list Z) (others : bool)
| CDestroy (g : Z)
| CDeallocate (g : Z)
| CLimit (m : Z)
| CGetmem (n : Z) (others : bool)
| CFreemem (b : Z)
| CReadCache (g : Z)
| CRead (g : Z)
| CReadOnly (g p tn n : Z) (others1 others2 : bool)
| CUnset (g tn n : Z) (others1 others2 : bool).
(** What a call returns. *)
Inductive answer := AUnit | AHandle (g : Z) | AStatus (b : bool) | ABlock (b : Z) | ADup (g : Z) (b : bool).

Inductive property := Plain | ReadOnly | ReadCache.
(** An array the program knows by its handle: the bytes it occupies here once
    allocated, its number of dimensions (-1: not yet given), group, other
    contents of the descriptor, property. *)
Record entry := Entry { e_alloc : option Z; e_nd : Z; e_grp : Z; e_desc : list Z; e_prop : property }.
(** What the program can know: its arrays by handle, the memory it took with
    GA_Getmem, the limit in force and the one it came into force with, the
    groups that exist. *)
Record book := Book { b_arr : Z -> option entry; b_raw : list (Z * Z); b_limit : option Z; b_first : Z; b_groups : Z -> bool }.

Definition put {A} (f : Z -> A) (i : Z) (a : A) : Z -> A := fun j => if j =? i then a else f j.
(** Handles are -1000 .. max-1001. *)
Definition handle_ok (max g : Z) : Prop := -1000 <= g < max - 1000.
Definition bytes_of (o : option entry) : Z :=
  match o with Some e => match e_alloc e with Some n => n | None => 0 end | None => 0 end.
Fixpoint sum_over (f : Z -> Z) (g : Z) (k : nat) : Z :=
  match k with O => 0 | S k' => f g + sum_over f (g + 1) k' end.
(** Bytes in live arrays; bytes in use. *)
Definition in_arrays (max : Z) (b : book) : Z := sum_over (fun g => bytes_of (b_arr b g)) (-1000) (Z.to_nat max).
Definition in_use (max : Z) (b : book) : Z := in_arrays max b + fold_right (fun e a => snd e + a) 0 (b_raw b).
(** Whether a request for [n] bytes is granted. *)
Definition granted (max : Z) (b : book) (n : Z) (others : bool) : bool :=
  match b_limit b with None => true | Some l => (in_use max b + n <=? l) && others end.

Definition set_entry (b : book) (g : Z) (o : option entry) : book :=
  Book (put (b_arr b) g o) (b_raw b) (b_limit b) (b_first b) (b_groups b).
Definition set_limit (b : book) (m : Z) : book :=
  Book (b_arr b) (b_raw b) (if m <? 0 then None else Some m)
       (match b_limit b with Some _ => b_first b | None => m end) (b_groups b).

(** The effect that a call should have: [book_step max dflt b c a b'], [dflt]
    being the default group. *)
Inductive book_step (max dflt : Z) (b : book) : call -> answer -> book -> Prop :=
| S_create h : handle_ok max h -> b_arr b h = None ->
    book_step max dflt b CCreate (AHandle h) (set_entry b h (Some (Entry None (-1) (-2) [] Plain)))
| S_data g nd d e : b_arr b g = Some e -> e_alloc e = None ->
    book_step max dflt b (CSetData g nd d) AUnit (set_entry b g (Some (Entry None nd (e_grp e) d (e_prop e))))
| S_pgroup g p e : b_arr b g = Some e -> e_alloc e = None ->
    book_step max dflt b (CSetPgroup g p) AUnit (set_entry b g (Some (Entry None (e_nd e) p (e_desc e) (e_prop e))))
| S_allocate g n o e : b_arr b g = Some e -> e_alloc e = None -> granted max b n o = true ->
    book_step max dflt b (CAllocate g n o) (AStatus true)
      (set_entry b g (Some (Entry (Some n) (e_nd e) (if e_grp e =? -2 then dflt else e_grp e) (e_desc e) (e_prop e))))
| S_no_memory g n o e : b_arr b g = Some e -> e_alloc e = None -> granted max b n o = false ->
    book_step max dflt b (CAllocate g n o) (AStatus false) (set_entry b g None)
| S_duplicate g d o e n h : b_arr b g = Some e -> e_alloc e = Some n -> granted max b n o = true ->
    handle_ok max h -> b_arr b h = None ->
    book_step max dflt b (CDuplicate g d o) (ADup h true) (set_entry b h (Some (Entry (Some n) (e_nd e) (e_grp e) d (e_prop e))))
| S_no_duplicate g d o e n h : b_arr b g = Some e -> e_alloc e = Some n -> granted max b n o = false -> b_arr b h = None ->
    book_step max dflt b (CDuplicate g d o) (ADup h false) b
| S_destroy g e : b_arr b g = Some e ->
    book_step max dflt b (CDestroy g) (AStatus true) (set_entry b g None)
| S_deallocate g e n : b_arr b g = Some e -> e_alloc e = Some n ->
    book_step max dflt b (CDeallocate g) (AStatus true) (set_entry b g (Some (Entry None (e_nd e) (e_grp e) (e_desc e) (e_prop e))))
| S_limit m : book_step max dflt b (CLimit m) AUnit (set_limit b m)
| S_getmem n o k : granted max b n o = true -> ~ In k (map fst (b_raw b)) ->
    book_step max dflt b (CGetmem n o) (ABlock k) (Book (b_arr b) ((k, n) :: b_raw b) (b_limit b) (b_first b) (b_groups b))
| S_freemem k n : In (k, n) (b_raw b) ->
    book_step max dflt b (CFreemem k) AUnit
      (Book (b_arr b) (filter (fun e => negb (fst e =? k)) (b_raw b)) (b_limit b) (b_first b) (b_groups b))
| S_cache g e : b_arr b g = Some e ->
    book_step max dflt b (CReadCache g) AUnit (set_entry b g (Some (Entry (e_alloc e) (e_nd e) (e_grp e) (e_desc e) ReadCache)))
| S_read g e : b_arr b g = Some e -> book_step max dflt b (CRead g) AUnit b
| S_read_only g p tn n o1 o2 e m : b_arr b g = Some e -> e_alloc e = Some m ->
    book_step max dflt b (CReadOnly g p tn n o1 o2) AUnit
      (Book (put (b_arr b) g (Some (Entry (Some n) (e_nd e) p (e_desc e) ReadOnly))) (b_raw b) (b_limit b) (b_first b) (put (b_groups b) p true))
| S_unset_read_only g tn n o1 o2 e m : b_arr b g = Some e -> e_alloc e = Some m -> e_prop e = ReadOnly ->
    book_step max dflt b (CUnset g tn n o1 o2) AUnit
      (Book (put (b_arr b) g (Some (Entry (Some n) (e_nd e) (-1) (e_desc e) Plain))) (b_raw b) (b_limit b) (b_first b) (put (b_groups b) (e_grp e) false))
| S_unset g tn n o1 o2 e : b_arr b g = Some e -> e_prop e <> ReadOnly ->
    book_step max dflt b (CUnset g tn n o1 o2) AUnit b.

(** The calls about which the theorems speak.  Not allowed: overlays; destroying
    an array that is not allocated or that is read-only; deallocating a
    read-only array; duplicating an array with a property; allocating twice;
    GA_Getmem beyond the limit; changing a limit that was changed before;
    imposing a limit while memory is in use. *)
Definition room (max : Z) (b : book) : Prop := exists h, handle_ok max h /\ b_arr b h = None.
Definition allowed (max dflt : Z) (b : book) (c : call) : Prop :=
  match c with
  | CCreate => room max b
  | CSetData g nd _ => exists e, b_arr b g = Some e /\ e_alloc e = None /\ 1 <= nd <= 7
  | CSetPgroup g p => exists e, b_arr b g = Some e /\ e_alloc e = None /\ e_prop e <> ReadOnly /\ (p = -1 \/ (0 <= p < max /\ b_groups b p = true))
  | CAllocate g n _ => exists e, b_arr b g = Some e /\ e_alloc e = None /\ e_nd e <> -1 /\ 0 <= n
  | COverlay _ _ _ _ => False
  | CDuplicate g _ _ => room max b /\ exists e n, b_arr b g = Some e /\ e_alloc e = Some n /\ e_prop e = Plain
  | CDestroy g | CDeallocate g => exists e n, b_arr b g = Some e /\ e_alloc e = Some n /\ e_prop e <> ReadOnly
  | CLimit m => m < 0 \/ b_limit b = Some (b_first b) \/ (b_limit b = None /\ in_use max b = 0)
  | CGetmem n o => 0 <= n /\ granted max b n o = true
  | CFreemem k => In k (map fst (b_raw b))
  | CReadCache g => exists e, b_arr b g = Some e /\ e_prop e = Plain
  | CRead g => exists e n, b_arr b g = Some e /\ e_alloc e = Some n
  | CReadOnly g p tn n o1 o2 => room max b /\ 0 <= tn /\ 0 <= n /\ 0 < p < max /\ p <> dflt /\ b_groups b p = false /\
      exists e m, b_arr b g = Some e /\ e_alloc e = Some m /\ e_prop e = Plain /\ e_grp e = -1 /\
        granted max b tn o1 = true /\ granted max b (tn - m + n) o2 = true
  | CUnset g tn n o1 o2 => exists e, b_arr b g = Some e /\
      (e_prop e = ReadOnly -> exists m, room max b /\ 0 <= tn /\ 0 <= n /\ e_alloc e = Some m /\ e_grp e <> dflt /\
        (forall g' e', g' <> g -> b_arr b g' = Some e' -> e_grp e' <> e_grp e) /\
        granted max b tn o1 = true /\ granted max b (tn - m + n) o2 = true)
  end.
(** A history of allowed calls with correct effects. *)
Inductive book_run (max dflt : Z) : book -> list call -> list answer -> book -> Prop :=
| R_nil b : book_run max dflt b [] [] b
| R_cons b c a b1 cs l b2 : allowed max dflt b c -> book_step max dflt b c a b1 -> book_run max dflt b1 cs l b2 ->
    book_run max dflt b (c :: cs) (a :: l) b2.
Definition book0 (limit : Z) (groups : Z -> bool) : book :=
  Book (fun _ => None) [] (if limit <? 0 then None else Some limit) limit groups.
