(** Lemmas on the packing of strided data. *)
From Coq Require Import ZArith List Lia Bool.
From Verif Require Import SpecBox MBase SpecCopy MXfer MOdo MGhost LRadix LIterReg LXfer LXfer2 LStrided LStrided2 LOdo.

Fixpoint odig (seg : list Z) (j : Z) : list Z :=
  match seg with [] => [] | [_] => [j] | c :: seg' => j mod c :: odig seg' (j / c) end.

Lemma odig_decode seg : Forall (fun c => 1 <= c) seg -> forall j, 0 <= j < zprod seg -> odig seg j = decode seg j.
Proof.
  induction 1 as [|c seg Hc H IH]; intros j Hj; [reflexivity|]. destruct seg as [|c2 seg].
  - cbn [zprod] in Hj. cbn [odig decode]. rewrite Z.mod_small by lia. reflexivity.
  - change (odig (c :: c2 :: seg) j) with (j mod c :: odig (c2 :: seg) (j / c)). rewrite IH; [reflexivity|].
    assert (0 < c) by lia. split; [apply Z.div_pos; lia|]. apply Z.div_lt_upper_bound; [lia|].
    change (zprod (c :: c2 :: seg)) with (c * zprod (c2 :: seg)) in Hj. lia.
Qed.

Lemma odig_next seg : seg <> [] -> Forall (fun c => 1 <= c) seg -> forall j, 0 <= j -> j + 1 <= zprod seg -> si_next (odig seg j) seg = Some (odig seg (j + 1)).
Proof.
  intros HN H. induction H as [|c seg Hc H IH]; intros j H0 Hj; [congruence|]. destruct seg as [|c2 seg].
  - cbn [zprod] in Hj. cbn [odig si_next si_carry]. destruct (Z.leb_spec (j + 1) c); [reflexivity|lia].
  - change (odig (c :: c2 :: seg) j) with (j mod c :: odig (c2 :: seg) (j / c)).
    change (odig (c :: c2 :: seg) (j + 1)) with ((j + 1) mod c :: odig (c2 :: seg) ((j + 1) / c)).
    change (zprod (c :: c2 :: seg)) with (c * zprod (c2 :: seg)) in Hj.
    pose proof (Z.mod_pos_bound j c ltac:(lia)) as HB. pose proof (Z.div_mod j c ltac:(lia)) as HD.
    assert (Hq : 0 <= j / c) by (apply Z.div_pos; lia).
    specialize (IH ltac:(discriminate) (j / c) Hq).
    assert (EO : exists y t, odig (c2 :: seg) (j / c) = y :: t) by (destruct seg; cbn; eauto).
    destruct EO as (y & t & EO). rewrite EO in *. cbn [si_next] in *.
    change (si_carry (j mod c + 1 :: y :: t) (c :: c2 :: seg)) with
      (if j mod c + 1 =? c then do r' <- si_carry (y + 1 :: t) (c2 :: seg); Some (0 :: r')
       else if j mod c + 1 <=? c then Some (j mod c + 1 :: y :: t) else None).
    destruct (Z.eqb_spec (j mod c + 1) c) as [E|E].
    + rewrite IH by nia.
      assert (E1 : j + 1 = c * (j / c + 1)) by nia.
      rewrite E1. rewrite (Z.mul_comm c), Z.mod_mul, Z.div_mul by lia. reflexivity.
    + destruct (Z.leb_spec (j mod c + 1) c); [|lia].
      assert (E1 : (j + 1) / c = j / c) by (symmetry; apply (Z.div_unique _ _ _ (j mod c + 1)); lia).
      assert (E2 : (j + 1) mod c = j mod c + 1) by (symmetry; apply (Z.mod_unique _ _ (j / c)); lia).
      rewrite E1, E2, EO. reflexivity.
Qed.

Lemma si_walk_ok seg st : Forall (fun c => 1 <= c) seg -> (forall t, in_range0 seg t -> 0 <= dot t st <= int_max) ->
  forall n j, 0 <= j -> j + Z.of_nat n <= zprod seg -> si_walk n (odig seg j) seg st = Some (map (fun i => dot (decode seg i) st) (zseq j n)).
Proof.
  intros H HD. induction n as [|n IH]; intros j H0 Hj; [reflexivity|]. cbn [si_walk zseq map].
  assert (HR : 0 <= j < zprod seg) by lia. rewrite odig_decode by assumption.
  specialize (HD _ (decode_range _ _ H HR)) as HDj. rewrite to_int_ok by lia.
  destruct seg as [|c seg].
  - cbn [zprod] in *. assert (n = O) by lia. subst n. cbn. reflexivity.
  - rewrite <- odig_decode by assumption. rewrite odig_next by (try discriminate; auto; lia).
    rewrite IH by lia. reflexivity.
Qed.

Lemma mapM_ok {A B} (f : A -> option B) (g : A -> B) l : (forall a, In a l -> f a = Some (g a)) -> mapM f l = Some (map g l).
Proof. induction l as [|a l IH]; intros H; [reflexivity|]. cbn [mapM map]. rewrite H by (now left). rewrite IH by (intros; apply H; now right). reflexivity. Qed.

Lemma concat_map_flat {A B} (f : A -> list B) l : concat (map f l) = flat_map f l.
Proof. symmetry. apply flat_map_concat_map. Qed.

Lemma map_flat_map {A B C} (g : B -> C) (f : A -> list B) l : map g (flat_map f l) = flat_map (fun a => map g (f a)) l.
Proof. induction l as [|a l IH]; [reflexivity|]. cbn. now rewrite map_app, IH. Qed.

Lemma si_nested_strides seg : forall prev start ld, patch_fits seg start ld -> 0 <= prev ->
  si_nested prev (strides prev (length seg - 1) ld) seg = true.
Proof.
  induction seg as [|c seg IH]; intros prev start ld HP Hp; [reflexivity|].
  destruct seg as [|c2 seg]; [reflexivity|]. destruct start as [|s start]; [destruct HP|].
  destruct ld as [|d ld]; [destruct HP|].
  change (1 <= c /\ 0 <= s /\ s + c <= d /\ patch_fits (c2 :: seg) start ld) in HP. destruct HP as (H1 & H2 & H3 & HP).
  replace (length (c :: c2 :: seg) - 1)%nat with (S (length seg)) by (cbn; lia). cbn [strides si_nested].
  apply andb_true_iff. split; [apply Z.leb_le; nia|].
  replace (length seg) with (length (c2 :: seg) - 1)%nat by (cbn; lia). apply (IH _ start); [exact HP|nia].
Qed.

Lemma dot_bound seg : forall es ld start t, 1 <= es -> patch_fits seg start ld -> in_range0 seg t ->
  0 <= lin ld t /\ lin ld t < zprod (firstn (length seg - 1) ld ++ [last seg 1]).
Proof.
  induction seg as [|c seg IH]; intros es ld start t He HP Ht; [destruct start; destruct HP|].
  destruct start as [|s start]; [destruct seg; destruct HP|].
  destruct t as [|a t]; [destruct Ht|]. destruct Ht as [Ha Ht]. destruct seg as [|c2 seg].
  - destruct t; [|destruct Ht]. cbn. lia.
  - destruct ld as [|d ld]; [destruct HP|].
    change (1 <= c /\ 0 <= s /\ s + c <= d /\ patch_fits (c2 :: seg) start ld) in HP. destruct HP as (H1 & H2 & H3 & HP).
    destruct t as [|b t]; [destruct Ht|]. rewrite lin_cons.
    destruct (IH es ld start (b :: t) He HP Ht) as [L U].
    replace (length (c :: c2 :: seg) - 1)%nat with (S (length (c2 :: seg) - 1)) by (cbn; lia).
    cbn [firstn]. change (last (c :: c2 :: seg) 1) with (last (c2 :: seg) 1). rewrite <- app_comm_cons. cbn [zprod].
    set (P := zprod _) in *. clearbody P. nia.
Qed.

(** What armci_write_strided and armci_read_strided touch. *)
Lemma packed_elems_ok es base c seg ld start : 1 <= es -> patch_fits (c :: seg) start ld -> small_buffer es (c :: seg) ld -> (length seg <= 8)%nat ->
  packed_elems es base (strides es (length seg) ld) (c * es :: seg) = Some (map (fun k => base + lin ld k) (indices (c :: seg))).
Proof.
  intros He HP HS H8. unfold small_buffer in HS. replace (length (c :: seg) - 1)%nat with (length seg) in HS by (cbn; lia).
  destruct (small_ints seg c es start ld HP He HS) as (A1 & A2 & A3 & A4 & A5 & A6 & A7).
  apply Forall_cons_iff in A6 as [A6 A6']. assert (HZ : 1 <= zprod seg) by (apply zprod_pos; exact A6').
  unfold packed_elems. rewrite strides_length by exact A1.
  destruct (Z.ltb_spec 0 (c * es)); [|nia]. destruct (Nat.leb_spec (length seg) 8); [|lia].
  assert (EI : si_init (strides es (length seg) ld) (c * es :: seg) = true).
  { destruct seg as [|c2 seg]; [reflexivity|]. destruct start as [|s start]; [destruct HP|]. destruct ld as [|d ld]; [destruct HP|].
    change (1 <= c /\ 0 <= s /\ s + c <= d /\ patch_fits (c2 :: seg) start ld) in HP. destruct HP as (H1 & H2 & H3 & HP).
    cbn [length strides si_init]. apply andb_true_iff. split; [apply Z.leb_le; nia|].
    replace (length seg) with (length (c2 :: seg) - 1)%nat by (cbn; lia). apply (si_nested_strides _ _ start); [exact HP|nia]. }
  rewrite EI. destruct (Z.ltb_spec 0 (zprod seg)); [|lia]. cbn [andb].
  cbn [zprod] in A5. rewrite int_prod_ok by (auto; nia). rewrite Z.mul_1_l. rewrite to_int_ok by nia.
  assert (HD : forall t, in_range0 seg t -> 0 <= dot t (strides es (length seg) ld) <= int_max).
  { intros t Ht. pose proof (in_range0_length _ _ Ht) as Lt. pose proof (dot_strides t es ld 0 ltac:(lia)) as E. rewrite Lt in E. rewrite Z.mul_0_l, Z.add_0_l in E. rewrite E.
    destruct (dot_bound (c :: seg) es ld start (0 :: t) He HP) as [B1 B2]; [split; [lia|exact Ht]|].
    replace (length (c :: seg) - 1)%nat with (length seg) in B2 by (cbn; lia). split; [nia|]. nia. }
  assert (E0 : repeat 0 (length seg) = odig seg 0) by (rewrite odig_decode by (auto; lia); rewrite decode_0 by exact A6'; reflexivity).
  rewrite E0, si_walk_ok by (auto; lia). rewrite <- (map_map (decode seg) (fun t => dot t (strides es (length seg) ld))). rewrite <- decode_indices by exact A6'.
  rewrite mapM_map.
  rewrite (mapM_ok _ (fun t => map (fun i => base + lin ld (Z.of_nat i :: t)) (seq 0 (Z.to_nat c)))).
  - cbn [indices]. rewrite map_flat_map, concat_map_flat. f_equal. apply flat_map_ext. intros t. now rewrite map_map.
  - intros t Ht. assert (Lt : length t = length seg).
    { rewrite decode_indices in Ht by exact A6'. apply in_map_iff in Ht as (i & <- & _). apply decode_length. }
    pose proof (dot_strides t es ld 0 ltac:(lia)) as E. rewrite Lt in E. rewrite Z.mul_0_l, Z.add_0_l in E. rewrite E.
    unfold elem_of. replace (base * es + es * lin ld (0 :: t)) with ((base + lin ld (0 :: t)) * es) by ring.
    rewrite Z.mod_mul, Z.div_mul by lia. rewrite Z.mod_mul, Z.div_mul by lia. rewrite !Z.eqb_refl. f_equal. apply map_ext. intros i.
    assert (lin ld (Z.of_nat i :: t) = Z.of_nat i + lin ld (0 :: t)); [|lia]. destruct t as [|b t]; [cbn; lia|]. destruct ld as [|d ld]; [cbn in A1, Lt; lia|]. rewrite !lin_cons. lia.
Qed.
