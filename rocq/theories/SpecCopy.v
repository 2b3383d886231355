(** Specification vocabulary for copies of rectangular patches between
    buffers, and for strided byte transfers. *)
From Verif Require Export SpecXfer.

(** The patch of extents [cnt] at [ss] of a buffer with leading dimensions
    [sld] has been copied to the patch at [ds] of a buffer with leading
    dimensions [dld]; nothing else has changed. *)
Definition copied {V} (cnt ss sld ds dld : list Z) (src dst dst' : buffer V) : Prop :=
  (forall k, in_range0 cnt k -> dst' (lin dld (vadd ds k)) = src (lin sld (vadd ss k))) /\
  (forall i, (forall k, in_range0 cnt k -> lin dld (vadd ds k) <> i) -> dst' i = dst i).

(** The buffer has an element for every element of the patch. *)
Definition has_patch {V} (buf : buffer V) (cnt start ld : list Z) : Prop :=
  forall k, in_range0 cnt k -> buf (lin ld (vadd start k)) <> None.

(** The patch lies within the rows of the buffer. *)
Fixpoint patch_fits (cnt start ld : list Z) : Prop :=
  match cnt, start with
  | c :: (_ :: _) as cnt', s :: start' =>
      match ld with d :: ld' => 1 <= c /\ 0 <= s /\ s + c <= d /\ patch_fits cnt' start' ld' | [] => False end
  | [c], [s] => 1 <= c /\ 0 <= s
  | _, _ => False
  end.

(** The rows of the buffer that hold the patch have less than 2^31 bytes. *)
Definition small_buffer (es : Z) (cnt ld : list Z) : Prop :=
  es * zprod (firstn (length cnt - 1) ld ++ [last cnt 1]) <= int_max.

(** ---- strided byte transfers ---- *)
(** Byte offset of the segment [t] of a strided description. *)
Fixpoint at_strides (st t : list Z) : Z :=
  match st, t with s :: st', a :: t' => a * s + at_strides st' t' | _, _ => 0 end.
(** The bytes of different segments are different bytes. *)
Definition separate (c : Z) (cnt st : list Z) : Prop :=
  forall i t i' t', 0 <= i < c -> 0 <= i' < c -> in_range0 cnt t -> in_range0 cnt t' ->
    at_strides st t + i = at_strides st t' + i' -> t = t'.
Definition has_segments {V} (mem : buffer V) (c : Z) (cnt st : list Z) : Prop :=
  forall i t, 0 <= i < c -> in_range0 cnt t -> mem (at_strides st t + i) <> None.
Definition other_bytes_same {V} (c : Z) (cnt st : list Z) (dst dst' : buffer V) : Prop :=
  forall a, (forall i t, 0 <= i < c -> in_range0 cnt t -> at_strides st t + i <> a) -> dst' a = dst a.
(** Effect of a strided put or get of segments of [c] bytes. *)
Definition strided_copied {V} (c : Z) (cnt sst dst_st : list Z) (src dst dst' : buffer V) : Prop :=
  (forall i t, 0 <= i < c -> in_range0 cnt t -> dst' (at_strides dst_st t + i) = src (at_strides sst t + i)) /\
  other_bytes_same c cnt dst_st dst dst'.
(** The bytes [l] are at address [a]. *)
Definition bytes_at {V} (mem : buffer V) (a : Z) (l : list V) : Prop :=
  forall i, (i < length l)%nat -> mem (a + Z.of_nat i) = nth_error l i.
(** Effect of a strided accumulate of elements of [es] bytes; [f] computes the
    new bytes of an element from its old bytes and those of the source. *)
Definition strided_accumulated {V} (es : Z) (f : list V -> list V -> list V) (c : Z) (cnt sst dst_st : list Z) (src dst dst' : buffer V) : Prop :=
  (forall e t l m, 0 <= e -> (e + 1) * es <= c -> in_range0 cnt t ->
     length l = Z.to_nat es -> length m = Z.to_nat es ->
     bytes_at dst (at_strides dst_st t + e * es) l -> bytes_at src (at_strides sst t + e * es) m ->
     bytes_at dst' (at_strides dst_st t + e * es) (f l m)) /\
  other_bytes_same c cnt dst_st dst dst'.
(** Every stride is a multiple of the one before and has room for the counts. *)
Fixpoint nested (prev : Z) (st cnt : list Z) : Prop :=
  match st, cnt with
  | s :: st', c :: cnt' => exists q, s = prev * q /\ c <= q /\ nested s st' cnt'
  | [], [c] => True
  | _, _ => False
  end.
