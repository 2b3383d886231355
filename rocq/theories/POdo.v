(** C47: copies of rectangular patches between buffers. *)
From Coq Require Import ZArith List Lia.
From Verif Require Import SpecBox SpecStore SpecXfer SpecCopy MBase MXfer MOdo LOdo LRadix.
Import ListNotations.
Open Scope Z_scope.

(** gai_mem_copy between buffers whose rows hold less than 2^31 bytes: for
    every number of dimensions of an array, it terminates without accessing
    anything outside the two patches, the destination patch holds the source
    patch, and nothing else has changed. *)
Theorem C47_mem_copy_partial : forall (V : Type) es cnt ss sld ds dld (src dst : buffer V),
  1 <= es -> (length cnt <= 7)%nat ->
  patch_fits cnt ss sld -> patch_fits cnt ds dld -> small_buffer es cnt sld -> small_buffer es cnt dld ->
  has_patch src cnt ss sld -> has_patch dst cnt ds dld ->
  exists ts dst', mem_copy es cnt ss sld ds dld = Some ts /\ run_elems (copy_elem src) dst ts = Some dst' /\ copied cnt ss sld ds dld src dst dst'.
Proof. exact @copy_spec. Qed.

Example C47_mem_copy_ex :
  patch_fits [2; 3; 2] [1; 0; 1] [4; 5] /\ patch_fits [2; 3; 2] [0; 1; 0] [3; 7] /\
  small_buffer 8 [2; 3; 2] [4; 5] /\ small_buffer 8 [2; 3; 2] [3; 7] /\
  mem_copy 8 [2; 3; 2] [1; 0; 1] [4; 5] [0; 1; 0] [3; 7] =
    Some [(3, 21); (4, 22); (6, 25); (7, 26); (9, 29); (10, 30);
          (24, 41); (25, 42); (27, 45); (28, 46); (30, 49); (31, 50)].
Proof. repeat apply conj; try reflexivity; cbn; try lia; try discriminate. Qed.

(** A copy of two columns between buffers with rows of 2^31 bytes fails: the
    byte stride does not fit into an int. *)
Theorem C47_mem_copy_refuted : exists es cnt ss sld ds dld,
  1 <= es /\ (length cnt <= 7)%nat /\ patch_fits cnt ss sld /\ patch_fits cnt ds dld /\
  mem_copy es cnt ss sld ds dld = None.
Proof.
  exists 8, [1; 2], [0; 0], [268435456], [0; 0], [1]. repeat apply conj; try reflexivity; cbn; try lia.
Qed.

Print Assumptions C47_mem_copy_partial.
Print Assumptions C47_mem_copy_refuted.
