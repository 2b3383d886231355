(** Specification vocabulary for transfers of selected elements: strided
    regions.  [sel] says which elements take part, [ix] where they are in the
    buffer. *)
From Verif Require Export SpecXfer.

Definition put_selected {V} (placed : list Z -> place -> Prop) (sel : list Z -> Prop) (ix : list Z -> Z)
           (buf : buffer V) (m m' : heap V) : Prop :=
  (forall x q, sel x -> placed x q -> hget m' q = buf (ix x)) /\
  (forall q, (forall x, sel x -> ~ placed x q) -> hget m' q = hget m q).
Definition get_selected {V} (placed : list Z -> place -> Prop) (sel : list Z -> Prop) (ix : list Z -> Z)
           (m : heap V) (buf buf' : buffer V) : Prop :=
  (forall x q, sel x -> placed x q -> buf' (ix x) = hget m q) /\
  (forall i, (forall x, sel x -> ix x <> i) -> buf' i = buf i).
Definition acc_selected {V} (f : V -> V -> V) (placed : list Z -> place -> Prop) (sel : list Z -> Prop)
           (ix : list Z -> Z) (buf : buffer V) (m m' : heap V) : Prop :=
  (forall x q v w, sel x -> placed x q -> hget m q = Some v -> buf (ix x) = Some w -> hget m' q = Some (f v w)) /\
  (forall q, (forall x, sel x -> ~ placed x q) -> hget m' q = hget m q).

(** The elements lo + k*skip of the region [lo..hi]. *)
Fixpoint on_grid (lo skip x : list Z) : Prop :=
  match lo, skip, x with
  | [], [], [] => True
  | l :: lo', s :: skip', a :: x' => (a - l) mod s = 0 /\ on_grid lo' skip' x'
  | _, _, _ => False
  end.
Definition strided_sel (lo hi skip x : list Z) : Prop := in_box lo hi x /\ on_grid lo skip x.

(** Their multi-index k, and their position in the buffer. *)
Fixpoint grid_pos (lo skip x : list Z) : list Z :=
  match lo, skip, x with
  | l :: lo', s :: skip', a :: x' => (a - l) / s :: grid_pos lo' skip' x'
  | _, _, _ => []
  end.
Definition strided_ix (lo skip ld x : list Z) : Z := lin ld (grid_pos lo skip x).

(** Number of elements of the region along each dimension. *)
Fixpoint grid_counts (lo hi skip : list Z) : list Z :=
  match lo, hi, skip with
  | l :: lo', h :: hi', s :: skip' => (h - l) / s + 1 :: grid_counts lo' hi' skip'
  | _, _, _ => []
  end.

(** The leading dimensions [ld] leave room for [cnt] elements per dimension. *)
Fixpoint room (cnt ld : list Z) : Prop :=
  match cnt with
  | c :: (_ :: _) as cnt' => match ld with d :: ld' => c <= d /\ room cnt' ld' | [] => False end
  | _ => True
  end.

(** A strided request within the array bounds and the limits of the
    transport; the leading dimensions are read up to entry ndim-1. *)
Definition good_strided (a : garray) (shape : list Z -> Prop) (lo hi skip ld : list Z) : Prop :=
  let es := ga_elemsize a in
  in_array (dims (ga_desc a)) lo /\ in_array (dims (ga_desc a)) hi /\ Forall2 Z.le lo hi /\
  length skip = length lo /\ Forall (fun s => 1 <= s) skip /\
  room (grid_counts lo hi skip) ld /\ (length lo <= length ld)%nat /\
  1 <= es <= int_max /\ Forall (fun n => n <= int_max) (extents lo hi) /\
  int_strides es (length lo - 1) ld /\
  forall sh, shape sh ->
    int_strides es (length lo - 1) sh /\
    forall i s, nth_error skip i = Some s -> es * zprod (firstn i sh) * s <= int_max.
