(** Specification vocabulary for the MA memory allocator (/repo/ma). *)
From Verif Require Export SpecBox.

(** The datatypes of a platform: size in bytes and address of the base array,
    by internal number (external number minus 1000). *)
Record ma_env := MaEnv { e_size : Z -> Z; e_base : Z -> Z }.

(** Calls of the interface.  Datatypes are external numbers; [room] tells
    whether malloc delivers, should the table of handles have to grow. *)
Inductive ma_op :=
| Alloc (dt ne : Z) (room : bool)     (* MA_allocate_heap *)
| FreeHeap (h : Z)                    (* MA_free_heap *)
| FreePiece (h ne : Z)                (* MA_free_heap_piece *)
| Push (dt ne : Z) (room : bool)      (* MA_push_stack *)
| Pop (h : Z)                         (* MA_pop_stack *)
| Chop (h : Z)                        (* MA_chop_stack *)
| SetAlign (k : Z)                    (* MA_set_numalign *)
| GetPtr (h : Z)                      (* MA_get_pointer *)
| GetIndex (h : Z).                   (* MA_get_index *)
(** What a call returns: success, and the handle, pointer or index. *)
Inductive ma_ret := Ret (ok : bool) (v : Z).

(** The blocks a program has, according to the calls it made and their results:
    handle, datatype and number of elements; the stack top first. *)
Record ma_live := Live { lv_heap : list (Z * (Z * Z)); lv_stack : list (Z * (Z * Z)) }.
Definition lv_all (L : ma_live) : list (Z * (Z * Z)) := lv_heap L ++ lv_stack L.
Definition handles (l : list (Z * (Z * Z))) : list Z := map fst l.

Definition drop_handle (h : Z) (l : list (Z * (Z * Z))) : list (Z * (Z * Z)) := filter (fun x => negb (fst x =? h)) l.
Definition shrink (h n : Z) (l : list (Z * (Z * Z))) : list (Z * (Z * Z)) :=
  map (fun x => if fst x =? h then (h, (fst (snd x), snd (snd x) - n)) else x) l.
Fixpoint chopped (h : Z) (l : list (Z * (Z * Z))) : list (Z * (Z * Z)) :=
  match l with [] => [] | x :: l' => if fst x =? h then l' else chopped h l' end.
Fixpoint count_of (h : Z) (l : list (Z * (Z * Z))) : Z :=
  match l with [] => 0 | x :: l' => if fst x =? h then snd (snd x) else count_of h l' end.

Definition live_step (o : ma_op) (r : ma_ret) (L : ma_live) : ma_live :=
  match o, r with
  | Alloc dt ne _, Ret true h => Live ((h, (dt, ne)) :: lv_heap L) (lv_stack L)
  | Push dt ne _, Ret true h => Live (lv_heap L) ((h, (dt, ne)) :: lv_stack L)
  | FreeHeap h, Ret true _ => Live (drop_handle h (lv_heap L)) (lv_stack L)
  | FreePiece h n, Ret true _ =>
      if count_of h (lv_heap L) <=? n then Live (drop_handle h (lv_heap L)) (lv_stack L)
      else Live (shrink h n (lv_heap L)) (lv_stack L)
  | Pop h, Ret true _ => Live (lv_heap L) (tl (lv_stack L))
  | Chop h, Ret true _ => Live (lv_heap L) (chopped h (lv_stack L))
  | _, _ => L
  end.

(** What a call must return. *)
Definition expected (L : ma_live) (o : ma_op) (r : ma_ret) : Prop :=
  match o, r with
  | Alloc dt ne _, Ret ok h | Push dt ne _, Ret ok h =>
      ok = true -> 1000 <= dt <= 1016 /\ 0 <= ne /\ ~ In h (handles (lv_all L))
  | FreeHeap h, Ret ok _ => ok = true <-> In h (handles (lv_heap L))
  | FreePiece h n, Ret ok _ => ok = true <-> In h (handles (lv_heap L)) /\ 0 <= n
  | Pop h, Ret ok _ => ok = true <-> exists x t, lv_stack L = x :: t /\ fst x = h
  | Chop h, Ret ok _ => ok = true <-> In h (handles (lv_stack L))
  | SetAlign k, Ret ok _ => ok = true <-> 0 <= k <= 30
  | GetPtr h, Ret ok _ | GetIndex h, Ret ok _ => ok = true <-> In h (handles (lv_all L))
  end.

(** The blocks are where they should be: [at_ h] is the pointer for handle [h].
    A block and the four bytes before and after it (the guard words) lie in the
    segment [lo, hi), the distance to the base array is a number of elements,
    and two blocks do not overlap. *)
Definition blocks_placed (E : ma_env) (lo hi : Z) (L : ma_live) (at_ : Z -> Z -> Prop) : Prop :=
  NoDup (handles (lv_all L)) /\
  (forall h dt ne, In (h, (dt, ne)) (lv_all L) -> exists p, at_ h p /\
     lo <= p - 4 /\ p + ne * e_size E (dt - 1000) + 4 <= hi /\ 0 <= ne /\
     (e_size E (dt - 1000) | p - e_base E (dt - 1000))) /\
  (forall h dt ne h' dt' ne' p p', In (h, (dt, ne)) (lv_all L) -> In (h', (dt', ne')) (lv_all L) -> h <> h' ->
     at_ h p -> at_ h' p' ->
     p + ne * e_size E (dt - 1000) + 4 <= p' - 4 \/ p' + ne' * e_size E (dt' - 1000) + 4 <= p - 4).

(** Sizes of a 64-bit platform: powers of two up to 2^30, bases below 2^47. *)
Definition ma_env_ok (E : ma_env) : Prop :=
  forall d, 0 <= d < 17 -> (exists j, 0 <= j <= 30 /\ e_size E d = 2 ^ j) /\ 0 <= e_base E d < 2 ^ 47.
(** The arguments of a call do not overflow: the number of bytes is below 2^62. *)
Definition in_bytes (E : ma_env) (o : ma_op) : Prop :=
  match o with
  | Alloc dt ne _ | Push dt ne _ => 1000 <= dt <= 1016 -> 0 <= ne -> ne * e_size E (dt - 1000) < 2 ^ 62
  | _ => True
  end.

(** The segment that malloc delivered: multiple of 8, below 2^47, less than 8 GB. *)
Definition segment_ok (lo hi : Z) : Prop := (8 | lo) /\ 0 <= lo <= hi /\ hi < 2 ^ 47 /\ hi - lo < 2 ^ 33.
(** Calls that do not overflow, with memory for the table of handles, and that
    either never change the alignment or never free a piece of a block. *)
Definition calls_ok (E : ma_env) (os : list ma_op) : Prop :=
  Forall (in_bytes E) os /\
  (forall dt ne, ~ In (Alloc dt ne false) os /\ ~ In (Push dt ne false) os) /\
  ((forall k, ~ In (SetAlign k) os) \/ (forall h n, ~ In (FreePiece h n) os)).
(** The bytes from [a] to [e] can hold a block of [ne] elements: a descriptor of 80
    bytes, a guard word, the elements, a number of elements from the base and
    aligned as requested where that is possible, and a guard word. *)
Definition fits_in (E : ma_env) (k dt ne a e : Z) : Prop :=
  exists c, a + 84 <= c /\ c + ne * e_size E (dt - 1000) + 4 <= e /\ (e_size E (dt - 1000) | c - e_base E (dt - 1000)) /\
    (0 < k -> (e_size E (dt - 1000) | 2 ^ k) -> (e_size E (dt - 1000) | e_base E (dt - 1000)) -> (2 ^ k | c)).
