(** Model of the non-blocking handle pool (/repo/global/src/nbutil.c).
    Pointers into armci_ihdl_array are indices; [None] results = access outside
    the arrays, or a list walk longer than the number of cells.  The transport
    is represented by [c_req], the transfer issued with a handle, and [p_done],
    the transfers known to be complete. *)
From Verif Require Export MBase.

(** nbutil.c 64-70 [ga_armcihdl_t]; [c_req] is the transfer of c_handle. *)
Record cell := Cell { c_req : option Z; c_next : option Z; c_prev : option Z; c_ga : Z; c_active : bool }.
(** nbutil.c 82-87 [ga_nbhdl_array_t]. *)
Record head := Head { h_first : option Z; h_count : Z; h_tag : Z; h_active : bool }.
(** nbutil.c 94-110: the static variables; [p_n] is nb_max_outstanding. *)
Record pool := Pool { p_n : Z; p_heads : Z -> head; p_cells : Z -> cell;
                      p_lastg : Z; p_lasta : Z; p_tag : Z; p_done : list Z }.

Definition fset {A} (f : Z -> A) (i : Z) (a : A) : Z -> A := fun j => if j =? i then a else f j.
Definition inb (p : pool) (i : Z) : bool := (0 <=? i) && (i <? p_n p).
Definition rdc (p : pool) (i : Z) : option cell := if inb p i then Some (p_cells p i) else None.
Definition rdh (p : pool) (i : Z) : option head := if inb p i then Some (p_heads p i) else None.
Definition wrc (p : pool) (i : Z) (c : cell) : option pool :=
  if inb p i then Some (Pool (p_n p) (p_heads p) (fset (p_cells p) i c) (p_lastg p) (p_lasta p) (p_tag p) (p_done p)) else None.
Definition wrh (p : pool) (i : Z) (h : head) : option pool :=
  if inb p i then Some (Pool (p_n p) (fset (p_heads p) i h) (p_cells p) (p_lastg p) (p_lasta p) (p_tag p) (p_done p)) else None.
Definition set_next (c : cell) (x : option Z) := Cell (c_req c) x (c_prev c) (c_ga c) (c_active c).
Definition set_prev (c : cell) (x : option Z) := Cell (c_req c) (c_next c) x (c_ga c) (c_active c).
Definition set_first (h : head) (x : option Z) := Head x (h_count h) (h_tag h) (h_active h).
Definition add_count (h : head) (k : Z) := Head (h_first h) (h_count h + k) (h_tag h) (h_active h).

(** The transport completes the transfer of a handle: ARMCI_Wait, and
    ARMCI_Test when it returns 0. *)
Definition complete (p : pool) (c : cell) : pool :=
  Pool (p_n p) (p_heads p) (p_cells p) (p_lastg p) (p_lasta p) (p_tag p)
       (match c_req c with Some r => r :: p_done p | None => p_done p end).

(** nbutil.c 121-148 [gai_nb_init]. *)
Definition nb_init (n : Z) : pool :=
  Pool n (fun _ => Head None 0 (-1) false) (fun _ => Cell None None None 0 false) (-1) (-1) (-1) [].

(** nbutil.c 111-116 [get_next_tag]. *)
Definition next_tag (p : pool) : Z := (p_tag p + 1) mod 16777216.

(** nbutil.c 165-174 and 314-323: the first entry from [last] on with [free],
    else [last]. *)
Fixpoint nb_scan (k : nat) (n i : Z) (free : Z -> bool) (dflt : Z) : Z :=
  match k with
  | O => dflt
  | S k' => let idx := Z.rem i n in if free idx then idx else nb_scan k' n (i + 1) free dflt
  end.

(** nbutil.c 180-193 and 275-287: take cell [i] out of the list of header [g]. *)
Definition nb_unlink (p : pool) (i g : Z) : option pool :=
  do c <- rdc p i;
  match c_prev c with
  | Some q =>
      do cq <- rdc p q;
      do p1 <- wrc p q (set_next cq (c_next c));
      do c1 <- rdc p1 i;
      match c_next c1 with
      | Some nx => do cn <- rdc p1 nx; wrc p1 nx (set_prev cn (c_prev c1))
      | None => Some p1
      end
  | None =>
      do h <- rdh p g;
      do p1 <- wrh p g (set_first h (c_next c));
      match c_next c with
      | Some nx => do cn <- rdc p1 nx; wrc p1 nx (set_prev cn None)
      | None => Some p1
      end
  end.

(** nbutil.c 156-212 [get_armci_nbhandle], then the transfer [r] is issued with
    the returned handle (onesided.c 396-410 and alike). *)
Definition nb_issue (p : pool) (index r : Z) : option pool :=
  let last := Z.rem (p_lasta p + 1) (p_n p) in
  let iloc := nb_scan (Z.to_nat (p_n p)) (p_n p) last (fun i => negb (c_active (p_cells p i))) last in
  do c <- rdc p iloc;
  do p2 <- (if c_active c then
              let g := c_ga c in
              do p1 <- nb_unlink (complete p c) iloc g;
              do h <- rdh p1 g;
              wrh p1 g (add_count h (-1))
            else Some p);
  do c2 <- rdc p2 iloc;
  do p3 <- wrc p2 iloc (Cell None (c_next c2) None (c_ga c2) true);
  do h3 <- rdh p3 index;
  do p4 <- match h_first h3 with
           | Some f => do cf <- rdc p3 f; wrc p3 f (set_prev cf (Some iloc))
           | None => Some p3
           end;
  do c4 <- rdc p4 iloc;
  do h4 <- rdh p4 index;
  do p5 <- wrc p4 iloc (Cell (Some r) (h_first h4) (c_prev c4) index (c_active c4));
  do p6 <- wrh p5 index (Head (Some iloc) (h_count h4 + 1) (h_tag h4) (h_active h4));
  Some (Pool (p_n p6) (p_heads p6) (p_cells p6) (p_lastg p6) iloc (p_tag p6) (p_done p6)).

(** nbutil.c 233-243: complete every transfer of a list. *)
Fixpoint nb_wait_loop (fuel : nat) (p : pool) (next : option Z) : option pool :=
  match next with
  | None => Some p
  | Some i =>
      match fuel with
      | O => None
      | S f =>
          do c <- rdc p i;
          let tmp := c_next c in
          do p1 <- wrc (complete p c) i (Cell None None None (c_ga c) false);
          nb_wait_loop f p1 tmp
      end
  end.
(** nbutil.c 218-250 [nga_wait_internal]; a handle is (ihdl_index, ga_nbtag). *)
Definition nb_wait (p : pool) (hdl : Z * Z) : option pool :=
  do h <- rdh p (fst hdl);
  if snd hdl =? h_tag h then
    do p1 <- nb_wait_loop (Z.to_nat (p_n p)) p (h_first h);
    do h1 <- rdh p1 (fst hdl);
    wrh p1 (fst hdl) (Head None 0 (h_tag h1) false)
  else Some p.

(** nbutil.c 270-294; [ans] are the answers of ARMCI_Test (true: returns 0). *)
Fixpoint nb_test_loop (fuel : nat) (ans : Z -> bool) (p : pool) (g : Z) (next : option Z) : option pool :=
  match next with
  | None => Some p
  | Some i =>
      match fuel with
      | O => None
      | S f =>
          do c <- rdc p i;
          let tmp := c_next c in
          do p3 <- (if ans i then
                      do p1 <- nb_unlink (complete p c) i g;
                      do c1 <- rdc p1 i;
                      do p2 <- wrc p1 i (Cell (c_req c1) None None (c_ga c1) false);
                      do h <- rdh p2 g;
                      wrh p2 g (add_count h (-1))
                    else Some p);
          nb_test_loop f ans p3 g tmp
      end
  end.
(** nbutil.c 257-303 [nga_test_internal]; true = returns 0, completed. *)
Definition nb_test (ans : Z -> bool) (p : pool) (hdl : Z * Z) : option (pool * bool) :=
  do h <- rdh p (fst hdl);
  if snd hdl =? h_tag h then
    do p1 <- nb_test_loop (Z.to_nat (p_n p)) ans p (fst hdl) (h_first h);
    do h1 <- rdh p1 (fst hdl);
    do p2 <- (if h_count h1 =? 0 then wrh p1 (fst hdl) (Head None (h_count h1) (h_tag h1) false) else Some p1);
    Some (p2, negb (0 <? h_count h1))
  else Some (p, true).

(** nbutil.c 308-343 [ga_init_nbhandle]. *)
Definition nb_handle (p : pool) : option (pool * (Z * Z)) :=
  let last := Z.rem (p_lastg p + 1) (p_n p) in
  let idx := nb_scan (Z.to_nat (p_n p)) (p_n p) last
               (fun i => match h_first (p_heads p i) with None => true | Some _ => false end) last in
  do h <- rdh p idx;
  do p1 <- match h_first h with
           | Some _ => nb_wait p (idx, h_tag h)
           | None => Some p
           end;
  let tag := next_tag p1 in
  do p2 <- wrh p1 idx (Head None 0 tag true);
  Some (Pool (p_n p2) (p_heads p2) (p_cells p2) idx (p_lasta p2) tag (p_done p2), (idx, tag)).

(** A non-blocking operation (onesided.c 574-576, 604-623 and alike): a new
    handle, then one transfer after the other. *)
Fixpoint nb_issues (p : pool) (index : Z) (rs : list Z) : option pool :=
  match rs with
  | [] => Some p
  | r :: rs' => do p1 <- nb_issue p index r; nb_issues p1 index rs'
  end.
Definition nb_start (p : pool) (rs : list Z) : option (pool * (Z * Z)) :=
  do ph <- nb_handle p;
  do p1 <- nb_issues (fst ph) (fst (snd ph)) rs;
  Some (p1, snd ph).

(** Histories of a process: the operations started so far with their handles
    and transfers.  Waits and tests use the handle of an earlier operation. *)
Inductive nb_event :=
  | NbStart (rs : list Z)
  | NbWait (k : nat)
  | NbTest (k : nat) (ans : Z -> bool).
Definition nb_state := (pool * list ((Z * Z) * list Z))%type.
Definition nb_step (s : nb_state) (e : nb_event) : option nb_state :=
  match e with
  | NbStart rs => do ph <- nb_start (fst s) rs; Some (fst ph, snd s ++ [(snd ph, rs)])
  | NbWait k =>
      match nth_error (snd s) k with
      | Some op => do p <- nb_wait (fst s) (fst op); Some (p, snd s)
      | None => Some s
      end
  | NbTest k ans =>
      match nth_error (snd s) k with
      | Some op => do pr <- nb_test ans (fst s) (fst op); Some (fst pr, snd s)
      | None => Some s
      end
  end.
Fixpoint nb_run (s : nb_state) (es : list nb_event) : option nb_state :=
  match es with
  | [] => Some s
  | e :: es' => do s1 <- nb_step s e; nb_run s1 es'
  end.
