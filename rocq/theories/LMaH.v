(** The heap and stack of the MA allocator as tilings of the segment. *)
From Coq Require Import ZArith List Lia Bool Permutation.
From Verif Require Import SpecMa MBase MMa LMa.

(** A tile: used or free, and its descriptor. *)
Definition tile := (bool * ad)%type.
Definition frees (T : list tile) : list ad := map snd (filter (fun t => negb (fst t)) T).
Definition useds (T : list tile) : list ad := map snd (filter (fun t => fst t) T).
(** The tiles fill [p, q). *)
Fixpoint chain (p : Z) (T : list tile) (q : Z) : Prop :=
  match T with
  | [] => p = q
  | (_, x) :: T' => a_at x = p /\ 88 <= a_nb x /\ (8 | a_nb x) /\ chain (p + a_nb x) T' q
  end.
(** No two adjacent tiles are free. *)
Fixpoint sep (b : bool) (T : list tile) : Prop :=
  match T with
  | [] => True
  | (true, _) :: T' => sep true T'
  | (false, _) :: T' => b = true /\ sep false T'
  end.
Definition last_used (T : list tile) : Prop := T = [] \/ exists T0 x, T = T0 ++ [(true, x)].

Lemma frees_app A B : frees (A ++ B) = frees A ++ frees B.
Proof. unfold frees. now rewrite filter_app, map_app. Qed.
Lemma useds_app A B : useds (A ++ B) = useds A ++ useds B.
Proof. unfold useds. now rewrite filter_app, map_app. Qed.
Lemma in_frees x T : In x (frees T) <-> In (false, x) T.
Proof.
  unfold frees. rewrite in_map_iff. split.
  - intros ([u y] & <- & H). apply filter_In in H as [H F]. destruct u; [discriminate|exact H].
  - intros H. exists (false, x). split; [reflexivity|]. apply filter_In. auto.
Qed.
Lemma in_useds x T : In x (useds T) <-> In (true, x) T.
Proof.
  unfold useds. rewrite in_map_iff. split.
  - intros ([u y] & <- & H). apply filter_In in H as [H F]. destruct u; [exact H|discriminate].
  - intros H. exists (true, x). split; [reflexivity|]. apply filter_In. auto.
Qed.

Lemma chain_app T1 : forall p T2 q, chain p (T1 ++ T2) q <-> exists m, chain p T1 m /\ chain m T2 q.
Proof.
  induction T1 as [|[u x] T1 IH]; intros p T2 q; cbn [app chain].
  - split; [intros H; exists p; auto|intros (m & -> & H); exact H].
  - rewrite IH. split.
    + intros (A & B & C & m & D & F). exists m. auto.
    + intros (m & (A & B & C & D) & F). repeat split; auto. exists m. auto.
Qed.
Lemma chain_le T : forall p q, chain p T q -> p <= q.
Proof. induction T as [|[u x] T IH]; intros p q; cbn [chain]; [intros ->; lia|]. intros (A & B & C & D). apply IH in D. lia. Qed.
Lemma chain_in T : forall p q u x, chain p T q -> In (u, x) T -> p <= a_at x /\ a_at x + a_nb x <= q /\ 88 <= a_nb x /\ (8 | a_nb x).
Proof.
  induction T as [|[v y] T IH]; intros p q u x; cbn [chain]; [easy|]. intros (A & B & C & D) [I|I].
  - injection I as <- <-. pose proof (chain_le _ _ _ D). repeat split; auto; lia.
  - destruct (IH _ _ _ _ D I) as (F & G & H & K). repeat split; auto; lia.
Qed.
Lemma chain_div T : forall p q, chain p T q -> (8 | p) -> (8 | q).
Proof. induction T as [|[u x] T IH]; intros p q; cbn [chain]; [now intros ->|]. intros (A & B & C & D) P. apply (IH _ _ D). now apply Z.divide_add_r. Qed.
Lemma chain_div_in T : forall p q u x, chain p T q -> (8 | p) -> In (u, x) T -> (8 | a_at x).
Proof.
  induction T as [|[v y] T IH]; intros p q u x; cbn [chain]; [easy|]. intros (A & B & C & D) P [I|I].
  - injection I as <- <-. now rewrite A.
  - apply (IH _ _ u x D); auto. now apply Z.divide_add_r.
Qed.
Lemma chain_nodup T : forall p q, chain p T q -> NoDup (map (fun t => a_at (snd t)) T).
Proof.
  induction T as [|[u x] T IH]; intros p q; cbn [chain map]; [constructor|]. intros (A & B & C & D). constructor; [|eapply IH; eauto].
  rewrite in_map_iff. intros ([v y] & F & I). cbn [snd] in F. destruct (chain_in _ _ _ _ _ D I). lia.
Qed.
(** Two tiles are the same or do not overlap. *)
Lemma chain_disj T : forall p q t t', chain p T q -> In t T -> In t' T -> t = t' \/ a_at (snd t) + a_nb (snd t) <= a_at (snd t') \/ a_at (snd t') + a_nb (snd t') <= a_at (snd t).
Proof.
  induction T as [|[u x] T IH]; intros p q [v y] [v' y']; cbn [chain]; [easy|]. intros (A & B & C & D) [I|I] [J|J].
  - left. congruence.
  - right. left. injection I as <- <-. destruct (chain_in _ _ _ _ _ D J). cbn [snd]. lia.
  - right. right. injection J as <- <-. destruct (chain_in _ _ _ _ _ D I). cbn [snd]. lia.
  - eapply IH; eauto.
Qed.
Lemma nodup_filter {A} (f : A -> Z) (g : A -> bool) l : NoDup (map f l) -> NoDup (map f (filter g l)).
Proof.
  induction l as [|x l IH]; cbn [map filter]; [auto|]. intros H. inversion H as [|? ? N D]; subst. destruct (g x); cbn [map]; [|auto]. constructor; [|auto].
  intros I. apply N. apply in_map_iff in I as (y & F & I). apply filter_In in I as [I _]. rewrite <- F. now apply in_map.
Qed.
Lemma useds_nodup T p q : chain p T q -> NoDup (map a_at (useds T)).
Proof. intros H. unfold useds. rewrite map_map. apply (nodup_filter (fun t => a_at (snd t))). eapply chain_nodup; eauto. Qed.
Lemma useds_len T : forall p q, chain p T q -> 88 * Z.of_nat (length (useds T)) <= q - p.
Proof.
  induction T as [|[u x] T IH]; intros p q; cbn [chain]; [intros ->; unfold useds; cbn; lia|]. intros (A & B & C & D). apply IH in D. unfold useds in *. cbn [filter fst].
  destruct u; cbn [map length]; lia.
Qed.

(** ---- coalescing ---- *)
Definition merge (x y : ad) : ad := Ad (a_at x) (a_dt x) (a_ne x) (a_cs x) (u64 (a_nb x + a_nb y)).
Fixpoint join (acc : option ad) (T : list tile) : list tile :=
  match T with
  | [] => match acc with None => [] | Some x => [(false, x)] end
  | (true, y) :: T' => match acc with None => (true, y) :: join None T' | Some x => (false, x) :: (true, y) :: join None T' end
  | (false, y) :: T' => match acc with None => join (Some y) T' | Some x => join (Some (merge x y)) T' end
  end.
Lemma join_frees T : forall p q, 0 <= p -> q < 2 ^ 48 -> chain p T q ->
  frees (join None T) = list_coalesce (frees T) /\
  (forall x, 0 <= a_at x -> 88 <= a_nb x -> a_at x + a_nb x = p -> frees (join (Some x) T) = coalesce_from x (frees T)) /\
  (forall x, 0 <= a_at x -> 88 <= a_nb x -> a_at x + a_nb x < p -> coalesce_from x (frees T) = x :: frees (join None T)).
Proof.
  induction T as [|[u y] T IH]; intros p q P Q C.
  - repeat split; reflexivity.
  - pose proof (chain_le _ _ _ C) as LE. cbn [chain] in C. destruct C as (A & B & C & D). pose proof (chain_le _ _ _ D) as LE2. destruct (IH (p + a_nb y) q ltac:(lia) Q D) as (I1 & I2 & I3). destruct u; cbn [join].
    + change (frees ((true, y) :: T)) with (frees T). change (frees ((true, y) :: join None T)) with (frees (join None T)).
      split; [exact I1|split].
      * intros x X0 X1 X2. change (frees ((false, x) :: (true, y) :: join None T)) with (x :: frees (join None T)). symmetry. apply I3; lia.
      * intros x X0 X1 X2. apply I3; lia.
    + change (frees ((false, y) :: T)) with (y :: frees T). split; [|split].
      * cbn [list_coalesce]. apply I2; lia.
      * intros x X0 X1 X2. cbn [coalesce_from]. rewrite (u64_small (a_at x + a_nb x)) by lia. destruct (Z.eqb_spec (a_at x + a_nb x) (a_at y)); [|lia].
        fold (merge x y). apply I2; cbn [merge a_at a_nb]; rewrite ?u64_small by lia; lia.
      * intros x X0 X1 X2. cbn [coalesce_from]. rewrite (u64_small (a_at x + a_nb x)) by lia. destruct (Z.eqb_spec (a_at x + a_nb x) (a_at y)); [lia|].
        f_equal. symmetry. apply I2; lia.
Qed.
Lemma join_chain T : forall p q, 0 <= p -> q < 2 ^ 48 -> chain p T q ->
  chain p (join None T) q /\ (forall x, 0 <= a_at x -> 88 <= a_nb x -> (8 | a_nb x) -> a_at x + a_nb x = p -> chain (a_at x) (join (Some x) T) q).
Proof.
  induction T as [|[u y] T IH]; intros p q P Q C.
  - cbn [chain] in C. subst q. split; [reflexivity|]. intros x X0 X1 X2 X3. cbn [join chain]. repeat split; auto.
  - pose proof (chain_le _ _ _ C) as LE. cbn [chain] in C. destruct C as (A & B & C & D). pose proof (chain_le _ _ _ D) as LE2. destruct (IH (p + a_nb y) q ltac:(lia) Q D) as (I1 & I2). destruct u; cbn [join].
    + split; [cbn [chain]; auto|]. intros x X0 X1 X2 X3. cbn [chain]. rewrite X3. repeat split; auto.
    + split; [rewrite <- A; apply I2; auto; lia|]. intros x X0 X1 X2 X3. replace (a_at x) with (a_at (merge x y)) by reflexivity. apply I2; cbn [merge a_at a_nb]; rewrite ?u64_small by lia; try lia. now apply Z.divide_add_r.
Qed.
Lemma join_useds T : useds (join None T) = useds T /\ (forall x, useds (join (Some x) T) = useds T).
Proof.
  induction T as [|[u y] T [I1 I2]]; [split; reflexivity|]. destruct u; cbn [join].
  - unfold useds in *. cbn [filter fst map snd negb]. rewrite I1. auto.
  - change (useds ((false, y) :: T)) with (useds T). auto.
Qed.
Lemma join_sep T : sep true (join None T) /\ (forall x, sep true (join (Some x) T)).
Proof. induction T as [|[u y] T [I1 I2]]; [cbn [join sep]; auto|]. destruct u; cbn [join]; [|auto]. cbn [sep]. auto. Qed.
Lemma join_last T : (last_used T -> last_used (join None T)) /\ (forall x, T <> [] -> last_used T -> last_used (join (Some x) T)).
Proof.
  assert (C : forall t T x, last_used T -> T <> [] -> last_used (t :: T) /\ (exists T0, T = T0 ++ [(true, x)] -> True)).
  { intros t T0 x [-> | (T1 & y & ->)] N; [easy|]. split; [right; exists (t :: T1), y; reflexivity|exists []; auto]. }
  assert (TL : forall t T, last_used (t :: T) -> T <> [] -> last_used T).
  { intros t T0 [H|(T1 & y & H)] N; [discriminate|]. destruct T1 as [|t1 T1]; [injection H as -> ->; easy|]. injection H as -> ->. right. eauto. }
  assert (ON : forall u y, last_used [(u, y)] -> u = true). { intros u y [H|(T1 & z & H)]; [discriminate|]. destruct T1 as [|t1 [|]]; now inversion H. }
  induction T as [|[u y] T [I1 I2]]; [split; [intros; cbn [join]; now left|easy]|].
  assert (CT : forall t T, last_used T -> T <> [] -> last_used (t :: T)). { intros t T0 H N. now apply (C t T0 y H N). }
  destruct u; cbn [join].
  - assert (A : last_used ((true, y) :: T) -> last_used ((true, y) :: join None T)).
    { intros H. destruct T as [|t T0]; [right; exists [], y; reflexivity|]. assert (H' : last_used (t :: T0)) by (eapply TL; eauto; easy). specialize (I1 H').
      destruct (join None (t :: T0)) eqn:J; [right; exists [], y; reflexivity|]. apply CT; [exact I1|easy]. }
    split; [exact A|]. intros x _ H. apply CT; [auto|easy].
  - assert (A : last_used ((false, y) :: T) -> T <> []). { intros H ->. now apply ON in H. }
    split; [|intros x _]; intros H; apply I2; eauto.
Qed.

(** ---- the free list ---- *)
Lemma insert_mid y : forall A B, (forall z, In z A -> a_at z < a_at y) -> (forall z, In z B -> a_at y < a_at z) -> insert_ordered y (A ++ B) = A ++ y :: B.
Proof.
  induction A as [|z A IH]; intros B HA HB; cbn [app].
  - destruct B as [|z B]; [reflexivity|]. cbn [insert_ordered]. specialize (HB z ltac:(now left)). destruct (Z.ltb_spec (a_at y) (a_at z)); [reflexivity|lia].
  - cbn [insert_ordered]. pose proof (HA z ltac:(now left)). destruct (Z.ltb_spec (a_at y) (a_at z)); [lia|]. f_equal. apply IH; auto. intros w I. apply HA. now right.
Qed.
Lemma delete_mid x : forall A B, (forall z, In z A -> a_at z <> a_at x) -> list_delete (a_at x) (A ++ x :: B) = Some (A ++ B).
Proof.
  induction A as [|z A IH]; intros B HA; cbn [app list_delete].
  - now rewrite Z.eqb_refl.
  - destruct (Z.eqb_spec (a_at z) (a_at x)) as [F|F]; [exfalso; exact (HA z ltac:(now left) F)|]. rewrite IH; [reflexivity|]. intros w I. apply HA. now right.
Qed.
Lemma find_mid x : forall A B, (forall z, In z A -> a_at z <> a_at x) -> list_find (a_at x) (A ++ x :: B) = Some x.
Proof.
  induction A as [|z A IH]; intros B HA; cbn [app list_find].
  - now rewrite Z.eqb_refl.
  - destruct (Z.eqb_spec (a_at z) (a_at x)) as [F|F]; [exfalso; exact (HA z ltac:(now left) F)|]. apply IH. intros w I. apply HA. now right.
Qed.
Lemma find_none p l : (forall z, In z l -> a_at z <> p) -> list_find p l = None.
Proof. induction l as [|z l IH]; cbn [list_find]; [auto|]. intros H. destruct (Z.eqb_spec (a_at z) p) as [F|F]; [exfalso; exact (H z ltac:(now left) F)|]. apply IH. intros w I. apply H. now right. Qed.
Lemma update_mid x x' A B : a_at x' = a_at x -> (forall z, In z (A ++ B) -> a_at z <> a_at x) -> update_ad x' (A ++ x :: B) = A ++ x' :: B.
Proof.
  intros E H. unfold update_ad. rewrite map_app. cbn [map]. rewrite E, Z.eqb_refl. f_equal; [|f_equal].
  - rewrite <- (map_id A) at 2. apply map_ext_in. intros z I. destruct (Z.eqb_spec (a_at z) (a_at x)); [|reflexivity]. exfalso. eapply H; [apply in_or_app; left; eauto|auto].
  - rewrite <- (map_id B) at 2. apply map_ext_in. intros z I. destruct (Z.eqb_spec (a_at z) (a_at x)); [|reflexivity]. exfalso. eapply H; [apply in_or_app; right; eauto|auto].
Qed.

(** ---- rightmost ---- *)
Lemma rightmost_gen l : forall m0, let r := fold_left (fun m y => match m with None => Some y | Some z => if a_at z <? a_at y then Some y else m end) l m0 in
  match r with
  | None => m0 = None /\ l = []
  | Some m => (m0 = Some m \/ In m l) /\ (forall y, m0 = Some y \/ In y l -> a_at y <= a_at m)
  end.
Proof.
  induction l as [|y l IH]; intros m0; cbn [fold_left].
  - destruct m0 as [m|]; cbn; [|auto]. split; [now left|]. intros z [[= ->] | []]. lia.
  - set (m1 := match m0 with None => Some y | Some z => if a_at z <? a_at y then Some y else m0 end). specialize (IH m1). cbn zeta in *. destruct (fold_left _ l m1) as [m|].
    + destruct IH as [IH1 IH2]. assert (Y : exists w, m1 = Some w /\ a_at y <= a_at w /\ (forall z, m0 = Some z -> a_at z <= a_at w) /\ (w = y \/ m0 = Some w)).
      { unfold m1. destruct m0 as [z|]; [|exists y; repeat split; auto; [lia|easy]]. destruct (Z.ltb_spec (a_at z) (a_at y)); [exists y|exists z]; repeat split; auto; try lia; intros ? [= <-]; lia. }
      destruct Y as (w & Ew & Y1 & Y2 & Y3). pose proof (IH2 w ltac:(now left)) as W. split.
      * destruct IH1 as [IH1|IH1]; [|right; now right]. rewrite Ew in IH1. injection IH1 as ->. destruct Y3 as [-> | Y3]; [right; now left|now left].
      * intros z [Hz|[->|Hz]]; [specialize (Y2 z Hz); lia|lia|apply IH2; now right].
    + destruct IH as [IH1 _]. unfold m1 in IH1. destruct m0 as [z|]; [|discriminate]. destruct (_ <? _); discriminate.
Qed.
Lemma rightmost_ok l : match rightmost l with None => l = [] | Some m => In m l /\ forall y, In y l -> a_at y <= a_at m end.
Proof.
  unfold rightmost. pose proof (rightmost_gen l None) as H. cbn zeta in H. destruct (fold_left _ l None) as [m|].
  - destruct H as [[H|H] K]; [discriminate|]. split; auto.
  - tauto.
Qed.
Lemma split_last_used T : useds T = [] \/ exists T1 m F, T = T1 ++ (true, m) :: F /\ useds F = [].
Proof.
  induction T as [|[u x] T IH]; [now left|]. destruct IH as [IH|(T1 & m & F & -> & IH)].
  - destruct u; [right; exists [], x, T; auto|left; exact IH].
  - right. exists ((u, x) :: T1), m, F. auto.
Qed.

Lemma filter_all {A} (f : A -> bool) l : (forall x, In x l -> f x = true) -> filter f l = l.
Proof. induction l as [|x l IH]; cbn [filter]; [auto|]. intros H. rewrite (H x ltac:(now left)). f_equal. apply IH. intros y I. apply H. now right. Qed.
Lemma filter_none {A} (f : A -> bool) l : (forall x, In x l -> f x = false) -> filter f l = [].
Proof. induction l as [|x l IH]; cbn [filter]; [auto|]. intros H. rewrite (H x ltac:(now left)). apply IH. intros y I. apply H. now right. Qed.
Lemma sep_cut A : forall b m F, sep b (A ++ (true, m) :: F) -> sep b (A ++ [(true, m)]) /\ sep true F.
Proof. induction A as [|[u x] A IH]; intros b m F; cbn [app sep]; [auto|]. destruct u; [apply IH|]. intros [H K]. apply IH in K. tauto. Qed.

(** A block [y] that lies between the tiles and is on no list is freed. *)
Lemma block_free_ok s y T1 T2 : 0 <= m_seg s -> m_hp s < 2 ^ 48 ->
  chain (m_seg s) (T1 ++ (false, y) :: T2) (m_hp s) -> m_hfree s = frees T1 ++ frees T2 -> Permutation (m_hused s) (useds T1 ++ useds T2) ->
  last_used T2 -> sep true T1 -> 
  exists T', let s' := block_free_heap s y in
    s' = set_heap s (m_hp s') (m_hfree s') (m_hused s) /\ m_hp s' <= m_hp s /\
    chain (m_seg s) T' (m_hp s') /\ m_hfree s' = frees T' /\ useds T' = useds T1 ++ useds T2 /\ last_used T' /\ sep true T'.
Proof.
  intros S0 S1 C HF HU LU SP. pose proof (rightmost_ok (m_hused s)) as R. unfold block_free_heap. destruct (rightmost (m_hused s)) as [m|].
  - destruct R as [RI RM]. apply (Permutation_in _ HU) in RI.
    assert (RM' : forall z, In z (useds T1 ++ useds T2) -> a_at z <= a_at m). { intros z I. apply RM. now apply (Permutation_in _ (Permutation_sym HU)). }
    destruct LU as [-> | (T0 & w & ->)].
    + change (useds []) with (@nil ad) in *. change (frees []) with (@nil ad) in *. rewrite app_nil_r in *. destruct (split_last_used T1) as [E0|(TA & m' & F & -> & EF)]; [rewrite E0 in RI; easy|].
      assert (m' = m).
      { rewrite useds_app in RI, RM'. change (useds ((true, m') :: F)) with (m' :: useds F) in *. rewrite EF in *.
        rewrite <- app_assoc in C. apply chain_app in C as (p1 & C1 & C2). cbn [app chain] in C2. destruct C2 as (C2 & C3 & C4 & C5).
        apply in_app_or in RI as [RI|[RI|[]]]; [|exact RI]. exfalso. specialize (RM' m' ltac:(apply in_or_app; right; now left)). apply in_useds in RI. destruct (chain_in _ _ _ _ _ C1 RI). lia. }
      subst m'. rewrite <- app_assoc in C. apply chain_app in C as (p1 & C1 & C2). cbn [app chain] in C2. destruct C2 as (C2 & C3 & C4 & C5).
      pose proof (chain_le _ _ _ C1). pose proof (chain_le _ _ _ C5). rewrite (u64_small (a_at m + a_nb m)) by lia.
      assert (Y : a_at m < a_at y). { destruct (chain_in _ _ _ false y C5 ltac:(apply in_or_app; right; now left)). lia. }
      destruct (Z.ltb_spec (a_at y) (a_at m)); [lia|]. exists (TA ++ [(true, m)]). cbn [m_hp m_hfree set_heap m_hused]. repeat split.
      * lia.
      * apply chain_app. exists p1. split; [exact C1|]. cbn [chain]. repeat split; auto. lia.
      * rewrite HF, !frees_app. change (frees ((true, m) :: F)) with (frees F). change (frees [(true, m)]) with (@nil ad). rewrite filter_app. f_equal.
        -- apply filter_all. intros z I. apply in_frees in I. destruct (chain_in _ _ _ _ _ C1 I). destruct (Z.ltb_spec (a_at m) (a_at z)); [lia|reflexivity].
        -- apply filter_none. intros z I. apply in_frees in I. destruct (chain_in _ _ _ false z C5 ltac:(apply in_or_app; now left)). destruct (Z.ltb_spec (a_at m) (a_at z)); [reflexivity|lia].
      * rewrite !useds_app. f_equal. change (useds ((true, m) :: F)) with (m :: useds F). now rewrite EF.
      * right. eauto.
      * now apply sep_cut in SP.
    + assert (w = m /\ m_hp s = a_at m + a_nb m /\ a_at y < a_at m /\ (forall z, In z (frees (T1 ++ T0)) -> a_at z < a_at m)) as (-> & EH & Y & FR).
      { change (T1 ++ (false, y) :: T0 ++ [(true, w)]) with (T1 ++ ((false, y) :: T0) ++ [(true, w)]) in C. rewrite app_assoc in C. apply chain_app in C as (p1 & C1 & C2). cbn [chain] in C2. destruct C2 as (C2 & C3 & C4 & C5).
        assert (w = m).
        { rewrite useds_app in RI, RM'. change (useds [(true, w)]) with [w] in *. rewrite app_assoc in RI. apply in_app_or in RI as [RI|[RI|[]]]; [|exact RI]. exfalso.
          specialize (RM' w ltac:(apply in_or_app; right; apply in_or_app; right; now left)).
          assert (I : In (true, m) (T1 ++ (false, y) :: T0)). { apply in_app_or in RI as [RI|RI]; apply in_useds in RI; apply in_or_app; [now left|right; now right]. }
          destruct (chain_in _ _ _ _ _ C1 I). lia. }
        subst w. repeat split; [lia| |].
        - destruct (chain_in _ _ _ false y C1 ltac:(apply in_or_app; right; now left)). lia.
        - intros z I. apply in_frees in I. destruct (chain_in _ _ _ false z C1 ltac:(apply in_app_or in I as [I|I]; apply in_or_app; [now left|right; now right])). lia. }
      rewrite (u64_small (a_at m + a_nb m)) by (pose proof (chain_le _ _ _ C); lia). destruct (Z.ltb_spec (a_at y) (a_at m)) as [_|]; [|lia].
      assert (HF' : filter (fun y0 => negb (a_at m <? a_at y0)) (m_hfree s) = frees T1 ++ frees (T0 ++ [(true, m)])).
      { rewrite HF. apply filter_all. intros z I. specialize (FR z). rewrite !frees_app in *. change (frees [(true, m)]) with (@nil ad) in I. rewrite app_nil_r in I. specialize (FR I). destruct (Z.ltb_spec (a_at m) (a_at z)); [lia|reflexivity]. }
      rewrite HF'. set (T2 := T0 ++ [(true, m)]) in *.
      assert (EI : insert_ordered y (frees T1 ++ frees T2) = frees (T1 ++ (false, y) :: T2)).
      { rewrite frees_app. change (frees ((false, y) :: T2)) with (y :: frees T2). apply chain_app in C as (p1 & C1 & C2). cbn [chain] in C2. destruct C2 as (C2 & C3 & C4 & C5). apply insert_mid; intros z I; apply in_frees in I.
        - destruct (chain_in _ _ _ _ _ C1 I). lia.
        - destruct (chain_in _ _ _ _ _ C5 I). lia. }
      rewrite EI. destruct (join_frees _ _ _ S0 S1 C) as (J1 & _ & _). destruct (join_chain _ _ _ S0 S1 C) as (J2 & _).
      exists (join None (T1 ++ (false, y) :: T2)). cbn [m_hp m_hfree set_heap m_hused]. repeat split.
      * lia.
      * rewrite <- EH. exact J2.
      * symmetry. exact J1.
      * rewrite (proj1 (join_useds _)), useds_app. reflexivity.
      * apply join_last. right. exists (T1 ++ (false, y) :: T0), m. unfold T2. now rewrite <- app_assoc.
      * apply join_sep.
  - rewrite R in HU. apply Permutation_nil in HU. exists []. cbn [m_hp m_hfree set_heap m_hused chain]. rewrite R, HU. pose proof (chain_le _ _ _ C). repeat split; auto. now left.
Qed.
