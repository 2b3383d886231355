(** Specification: what makes user/default block maps meaningful. *)
From Verif Require Export SpecBox.

(** A block map of an axis of extent [d] with [n] blocks: block [i] starts at
    entry [i]; blocks are in order, the first starts at 1, and a block may be
    empty (entry equal to the next, or to [d+1] at the end). *)
Definition valid_map (d n : Z) (m : list Z) : Prop :=
  1 <= d /\ 1 <= n /\ n <= Z.of_nat (length m) /\ nth 0 m 0 = 1 /\
  (forall i, (i + 1 < Z.to_nat n)%nat -> nth i m 0 <= nth (i + 1) m 0) /\
  nth (Z.to_nat n - 1) m 0 <= d + 1.

(** The maps of all axes stored one after the other in one flat list. *)
Fixpoint valid_maps (dims nblock mapc : list Z) : Prop :=
  match dims, nblock with
  | [], [] => True
  | d :: dims', n :: nblock' =>
      valid_map d n mapc /\ valid_maps dims' nblock' (skipn (Z.to_nat n) mapc)
  | _, _ => False
  end.

(** Strict version: no empty blocks. *)
Definition strict_map (d n : Z) (m : list Z) : Prop :=
  1 <= n /\ n <= Z.of_nat (length m) /\ nth 0 m 0 = 1 /\
  (forall i, (i + 1 < Z.to_nat n)%nat -> nth i m 0 < nth (i + 1) m 0) /\
  nth (Z.to_nat n - 1) m 0 <= d.

Fixpoint strict_maps (dims nblock mapc : list Z) : Prop :=
  match dims, nblock with
  | [], [] => True
  | d :: dims', n :: nblock' =>
      strict_map d n mapc /\ strict_maps dims' nblock' (skipn (Z.to_nat n) mapc)
  | _, _ => False
  end.

(** Block sizes are positive and extents are positive. *)
Fixpoint valid_bdims (dims bdims : list Z) : Prop :=
  match dims, bdims with
  | [], [] => True
  | d :: dims', b :: bdims' => 1 <= d /\ 1 <= b /\ valid_bdims dims' bdims'
  | _, _ => False
  end.

(** Number of blocks of an axis: the least [n] with [n*b >= d]. *)
Fixpoint is_block_grid (dims bdims nb : list Z) : Prop :=
  match dims, bdims, nb with
  | [], [], [] => True
  | d :: dims', b :: bdims', n :: nb' =>
      d <= n * b < d + b /\ is_block_grid dims' bdims' nb'
  | _, _, _ => False
  end.

(** Size of block [i] of a map with [n] blocks over extent [d]. *)
Definition bsize (d n : Z) (m : list Z) (i : Z) : Z :=
  (if i =? n - 1 then d + 1 else nth (Z.to_nat (i + 1)) m 0) - nth (Z.to_nat i) m 0.

(** Block sizes of an axis differ by at most one. *)
Definition balanced (d n : Z) (m : list Z) : Prop :=
  forall i j, 0 <= i < n -> 0 <= j < n -> Z.abs (bsize d n m i - bsize d n m j) <= 1.

(** Every block but the last is a positive multiple of [u]. *)
Definition multiples (u d n : Z) (m : list Z) : Prop :=
  forall i, 0 <= i < n - 1 -> (u | bsize d n m i) /\ u <= bsize d n m i.

(** [P extent hint blocks map] holds for every axis of flat maps. *)
Fixpoint each_axis (P : Z -> Z -> Z -> list Z -> Prop) (dims hints nblock mapc : list Z) : Prop :=
  match dims, hints, nblock with
  | [], [], [] => True
  | d :: dims', c :: hints', n :: nblock' =>
      P d c n mapc /\ each_axis P dims' hints' nblock' (skipn (Z.to_nat n) mapc)
  | _, _, _ => False
  end.
