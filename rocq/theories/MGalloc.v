(** Model of /repo/global/src/ga_malloc.c: GA_Register_stack_memory, ga_malloc and ga_free.
    Simplifications: addresses are integers and count bytes; the allocators are the stack of MA
    (ma.c 3104-3147, 3244; the newest block is the only one that can be popped) and a pair of
    functions of the program, and where they put a block is a parameter; of the contents of
    memory only the Integer that ga_malloc stores is kept, None if a byte of it was written by
    others.  [Undef] is access outside of a block or a wrong address given to the free function
    of the program; [Abort] is pnga_error. *)
From Verif Require Import MBase MNb MHandle.
Open Scope Z_scope.

(** 13: sizeof(DoubleComplex); sizeof(Integer). *)
Definition ALIGNMENT : Z := 16.
Definition INTEGER : Z := 8.
(** A block of an allocator: of MA or not, its handle in MA, address and size. *)
Record block := Block { b_ma : bool; b_handle : Z; b_base : Z; b_size : Z }.
(** [uses_ma] is ga_usesMA (17). *)
Record gmem := Gmem { uses_ma : bool; blocks : list block; cells : Z -> option Z }.
Definition store (c : Z -> option Z) (a x : Z) : Z -> option Z :=
  fun k => if k =? a then Some x else if Z.abs (k - a) <? INTEGER then None else c k.

(** 19-26 [GA_Register_stack_memory] *)
Definition register (s : gmem) : gmem := Gmem false (blocks s) (cells s).
(** 29-68 [ga_malloc] of [nelem] elements of [item] bytes; [ans] is what the allocator
    answers: address and handle, or None. *)
Definition ga_malloc (s : gmem) (nelem item : Z) (ans : option (Z * Z)) : out (gmem * Z) :=
  if item =? 0 then Undef else
  if negb (Z.rem ALIGNMENT item =? 0) then Abort else
  let extra := Z.quot (2 * ALIGNMENT) item in
  let bytes := (nelem + extra) * item in
  match ans with
  | None => Abort
  | Some (base, h) =>
      let adjust := Z.rem base ALIGNMENT in
      let adjust := if adjust =? 0 then 0 else ALIGNMENT - adjust in
      let addr := base + adjust in
      let handle := if uses_ma s then h else adjust in
      if addr =? 0 then Abort else
      if (base <=? addr) && (addr + INTEGER <=? base + bytes) then
        Done (Gmem (uses_ma s) (Block (uses_ma s) h base bytes :: blocks s) (store (cells s) addr handle), addr + ALIGNMENT)
      else Undef
  end.
(** The free function of the program, given the address [a]. *)
Fixpoint ext_free (a : Z) (l : list block) : option (list block) :=
  match l with
  | [] => None
  | b :: r => if negb (b_ma b) && (b_base b =? a) then Some r else match ext_free a r with None => None | Some r' => Some (b :: r') end
  end.
(** 70-80 [ga_free] *)
Definition ga_free (s : gmem) (ptr : Z) : out gmem :=
  let a := ptr - ALIGNMENT in
  if negb (existsb (fun b => (b_base b <=? a) && (a + INTEGER <=? b_base b + b_size b)) (blocks s)) then Undef else
  match cells s a with
  | None => Undef
  | Some handle =>
      if uses_ma s then
        match blocks s with
        | b :: r => if b_ma b && (b_handle b =? handle) then Done (Gmem (uses_ma s) r (cells s)) else Abort
        | [] => Abort
        end
      else match ext_free (a - handle) (blocks s) with Some r => Done (Gmem (uses_ma s) r (cells s)) | None => Undef end
  end.
(** The program writes a byte at [a]. *)
Definition write_byte (s : gmem) (a : Z) : gmem := Gmem (uses_ma s) (blocks s) (fun k => if (k <=? a) && (a <? k + INTEGER) then None else cells s k).
