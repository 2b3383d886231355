(** Lemmas on one message of the exchange. *)
From Coq Require Import ZArith List Lia Bool.
From Verif Require Import SpecBox MBase MXfer MOdo MGhost LRadix LGhost LOdo.

Lemma alook_map {A} (f : Z -> A) ps p : In p ps -> alook p (map (fun p => (p, f p)) ps) = Some (f p).
Proof.
  induction ps as [|q ps IH]; intros H; [destruct H|]. cbn. destruct (Z.eqb_spec q p) as [->|E]; [reflexivity|].
  apply IH. destruct H; [congruence|assumption].
Qed.
Lemma alook_none {A} (f : Z -> A) ps p : ~ In p ps -> alook p (map (fun p => (p, f p)) ps) = None.
Proof.
  induction ps as [|q ps IH]; intros H; [reflexivity|]. cbn. destruct (Z.eqb_spec q p) as [->|E]; [destruct H; now left|].
  apply IH. intros H'. apply H. now right.
Qed.

Lemma store_list_ok {V} (s : Z) (ro : list Z -> Z) (v : list Z -> V) : forall K (m : pmem V),
  NoDup (map ro K) -> (forall k, In k K -> m s (ro k) <> None) ->
  exists m', store_list m s (map ro K) (map v K) = Some m' /\
    (forall k, In k K -> m' s (ro k) = Some (v k)) /\
    (forall s' o, (s' = s -> forall k, In k K -> o <> ro k) -> m' s' o = m s' o).
Proof.
  induction K as [|k K IH]; intros m HN HA.
  - exists m. split; [reflexivity|]. split; [intros k []|reflexivity].
  - cbn [map] in *. apply NoDup_cons_iff in HN as [HN1 HN]. cbn [store_list].
    destruct (m s (ro k)) as [w|] eqn:E; [|destruct (HA k (or_introl eq_refl) E)].
    destruct (IH (pset m s (ro k) (v k)) HN) as (m' & E' & M1 & M2).
    { intros k' Hk'. unfold pset. destruct (_ && _); [discriminate|]. apply HA. now right. }
    exists m'. split; [exact E'|]. split.
    + intros k' [<-|Hk']; [|now apply M1]. rewrite M2.
      * unfold pset. now rewrite !Z.eqb_refl.
      * intros _ k' Hk' E2. apply HN1. rewrite E2. now apply in_map.
    + intros s' o H. rewrite M2; [|intros Hs k' Hk'; apply H; [exact Hs|now right]].
      unfold pset. destruct (Z.eqb_spec s' s) as [Es|]; [|reflexivity]. destruct (Z.eqb_spec o (ro k)) as [Eo|]; [|reflexivity].
      destruct (H Es k (or_introl eq_refl) Eo).
Qed.

Lemma phase_ok {V} (es : Z) (neg : bool) (ps : list Z) (ent : Z -> gmsg) (nn : Z -> Z) (K : Z -> list (list Z)) (so ro : Z -> list Z -> Z) (f : Z -> list Z -> V) (m : Z -> pmem V) :
  1 <= es ->
  (forall p, In p ps -> packed_elems es (g_snd (ent p)) (g_ssnd (ent p)) (g_cnt (ent p)) = Some (map (so p) (K p))) ->
  (forall p, In p ps -> packed_elems es (g_rcv (ent p)) (g_srcv (ent p)) (g_cnt (ent p)) = Some (map (ro p) (K p)) /\ NoDup (map (ro p) (K p))) ->
  (forall p, In p ps -> Z.of_nat (length (K p)) <= nn p /\ g_len (ent p) = es * Z.of_nat (length (K p))) ->
  (forall p, In p ps -> In (g_from (ent p)) ps /\ g_to (ent (g_from (ent p))) = p /\ K (g_from (ent p)) = K p) ->
  (forall p, In p ps -> p = (if neg then g_to (ent p) else g_from (ent p)) -> g_from (ent p) = p) ->
  (forall p k, In p ps -> In k (K p) -> m p (g_seg (ent p)) (so p k) = Some (f p k)) ->
  (forall p k, In p ps -> In k (K p) -> m p (g_seg (ent p)) (ro p k) <> None) ->
  exists m', phase es neg (map (fun p => (p, (nn p, ent p))) ps) m = Some m' /\
    (forall p k, In p ps -> In k (K p) -> m' p (g_seg (ent p)) (ro p k) = Some (f (g_from (ent p)) k)) /\
    (forall p s o, (In p ps -> s = g_seg (ent p) -> forall k, In k (K p) -> o <> ro p k) -> m' p s o = m p s o).
Proof.
  intros He H1 H2 H3 H4 H5 H6 H7. unfold phase.
  rewrite mapM_map.
  rewrite (mapM_ok _ (fun p => (p, (ent p, map (f p) (K p))))).
  2:{ intros p Hp. cbn [fst snd]. unfold pack_msg. rewrite H1 by exact Hp. rewrite map_length. destruct (H3 p Hp) as [B _].
      destruct (Z.leb_spec (Z.of_nat (length (K p))) (nn p)); [|lia]. rewrite mapM_map. rewrite (mapM_ok _ (f p)); [reflexivity|]. intros k Hk. now apply H6. }
  rewrite mapM_map.
  assert (HX : exists g : Z -> pmem V, forall p, In p ps ->
     (do vs <- arriving es (nn p) neg p (map (fun p => (p, (ent p, map (f p) (K p)))) ps); unpack_msg es (m p) (ent p) vs) = Some (g p) /\
     (forall k, In k (K p) -> g p (g_seg (ent p)) (ro p k) = Some (f (g_from (ent p)) k)) /\
     (forall s o, (s = g_seg (ent p) -> forall k, In k (K p) -> o <> ro p k) -> g p s o = m p s o)).
  { assert (HA : forall p, In p ps -> arriving es (nn p) neg p (map (fun p => (p, (ent p, map (f p) (K p)))) ps) = Some (map (f (g_from (ent p))) (K p))).
    { intros p Hp. unfold arriving. rewrite (alook_map (fun p => (ent p, map (f p) (K p)))) by exact Hp. cbn [fst snd].
      destruct (H4 p Hp) as (F1 & F2 & F3). destruct (Z.eqb_spec p (if neg then g_to (ent p) else g_from (ent p))) as [E|E].
      - now rewrite (H5 p Hp E).
      - rewrite (alook_map (fun p => (ent p, map (f p) (K p)))) by exact F1. cbn [fst snd]. rewrite F2, map_length, Z.eqb_refl. destruct (H3 _ F1) as [_ ->]. rewrite Z.eqb_refl, F3.
        destruct (H3 _ Hp) as [B _]. destruct (Z.leb_spec (es * Z.of_nat (length (K p))) (es * nn p)); [reflexivity|nia]. }
    assert (HG : forall p, In p ps -> exists m', unpack_msg es (m p) (ent p) (map (f (g_from (ent p))) (K p)) = Some m' /\
        (forall k, In k (K p) -> m' (g_seg (ent p)) (ro p k) = Some (f (g_from (ent p)) k)) /\
        (forall s o, (s = g_seg (ent p) -> forall k, In k (K p) -> o <> ro p k) -> m' s o = m p s o)).
    { intros p Hp. unfold unpack_msg. destruct (H2 p Hp) as [-> HN]. apply store_list_ok; [exact HN|]. intros k Hk. now apply H7. }
    exists (fun p => match unpack_msg es (m p) (ent p) (map (f (g_from (ent p))) (K p)) with Some m' => m' | None => m p end).
    intros p Hp. rewrite HA by exact Hp. destruct (HG p Hp) as (m' & -> & G1 & G2). auto. }
  destruct HX as [g HX].
  rewrite (mapM_ok _ (fun p => (p, g p))).
  2:{ intros p Hp. cbn [fst snd]. destruct (HX p Hp) as (E & _). destruct (arriving _ _ _ _ _); [|discriminate]. rewrite E. reflexivity. }
  eexists; split; [reflexivity|]. cbv beta. split.
  - intros p k Hp Hk. rewrite alook_map by exact Hp. now apply HX.
  - intros p s o H. destruct (in_dec Z.eq_dec p ps) as [Hp|Hp].
    + rewrite alook_map by exact Hp. apply HX; auto.
    + now rewrite alook_none.
Qed.
