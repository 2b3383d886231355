(** Lemmas about the product of two sparse matrices: the table of the elements. *)
From Verif Require Import SpecSprs MBase MNb MHandle MGroup MSparse MSprs SpecSprs3 MSprs3 LNb LDist LRadix LStore LIterBlk LTile LNotify LSprs LSprs2 LSprs3 LSprs4 LSprs5 LSprs7.
From Coq Require Import Permutation.
Open Scope Z_scope.

Definition keyb (k k' : Z * Z) : bool := (fst k =? fst k') && (snd k =? snd k').
Lemma keyb_eq k k' : keyb k k' = true <-> k = k'.
Proof.
  unfold keyb. destruct k as [i j], k' as [i' j']. cbn. rewrite andb_true_iff, !Z.eqb_eq. split; [intros [-> ->]; reflexivity|intros E; injection E as -> ->; split; reflexivity].
Qed.

Section Table.
Context {V : Type}.
Variables (jdim : Z) (add : V -> V -> V) (zero : V) (bufsize : Z).
Hypothesis AD : addition add zero.
Definition hash (k : Z * Z) : Z := Z.rem (fst k * jdim + snd k) bufsize.
Definition values_at (k : Z * Z) (l : list (elt V)) : list V := map evalue (filter (fun e => keyb (fst e) k) l).

Lemma look_ok (es : list (elt V)) next i j x l : vchain (map fst es) next x l -> forall f, (Z.to_nat (x + 1) <= f)%nat ->
  exists y, look f es next i j x = Done y /\ (y = -1 /\ ~ In (i, j) l \/ 0 <= y /\ exists v, nth_error es (Z.to_nat y) = Some (i, j, v)).
Proof.
  induction 1 as [|x k l X E N C IH]; intros f F.
  - exists (-1). split; [destruct f; reflexivity|]. left. split; [reflexivity|intros []].
  - destruct f as [|f]; [lia|]. cbn [look]. replace (0 <=? x) with true by lia. unfold elt in *. rewrite List.nth_error_map in E. destruct (nth_error es (Z.to_nat x)) as [[k' v]|] eqn:EN; cbn [option_map fst] in E; [|discriminate E]. injection E as ->.
    destruct k as [i' j']. change (erow (i', j', v)) with i'. change (ecol (i', j', v)) with j'.
    destruct ((i =? i') && (j =? j')) eqn:B.
    + exists x. split; [reflexivity|]. right. split; [exact X|]. exists v. assert (i = i' /\ j = j') as [-> ->] by lia. exact EN.
    + destruct (IH f ltac:(lia)) as (y & Ey & H). exists y. split; [exact Ey|]. destruct H as [[-> H]|H]; [left|right; exact H]. split; [reflexivity|]. intros [I|I]; [injection I as -> ->; lia|contradiction].
Qed.

Record inv (done : list (elt V)) (t : bins * list (elt V)) : Prop := {
  in_bins : binned bufsize hash (map fst (snd t)) (fst t);
  in_nodup : NoDup (map fst (snd t));
  in_keys : forall k, In k (map fst (snd t)) <-> In k (map fst done);
  in_vals : forall k v, In (k, v) (snd t) -> v = lsum add zero (values_at k done) }.

Lemma values_at_snoc k l p : values_at k (l ++ [p]) = values_at k l ++ (if keyb (fst p) k then [evalue p] else []).
Proof. unfold values_at. rewrite filter_app, map_app. cbn [filter]. destruct (keyb (fst p) k); reflexivity. Qed.
Lemma values_at_none k (l : list (elt V)) : ~ In k (map fst l) -> values_at k l = [].
Proof.
  unfold values_at. induction l as [|e l IH]; intros N; [reflexivity|]. cbn [filter]. destruct (keyb (fst e) k) eqn:B; [exfalso; apply N; left; apply keyb_eq; exact B|]. apply IH. intros I. apply N. right. exact I.
Qed.
Lemma upd_map {A B} (f : A -> B) : forall (l : list A) k a, map f (upd k a l) = upd k (f a) (map f l).
Proof. induction l as [|x l IH]; intros [|k] a; cbn; try reflexivity. rewrite IH. reflexivity. Qed.
Lemma upd_same {A} : forall (l : list A) k a, nth_error l k = Some a -> upd k a l = l.
Proof. induction l as [|x l IH]; intros [|k] a E; cbn in *; try discriminate; [injection E as ->; reflexivity|]. rewrite IH by exact E. reflexivity. Qed.
Lemma NoDup_fst_eq (l : list (elt V)) k v v' : NoDup (map fst l) -> In (k, v) l -> In (k, v') l -> v = v'.
Proof.
  induction l as [|e l IH]; intros N I I'; [destruct I|]. inversion N as [|? ? N1 N2]; subst. destruct I as [->|I], I' as [E|I'].
  - injection E as ->. reflexivity.
  - exfalso. apply N1. apply (in_map fst) in I'. exact I'.
  - exfalso. subst e. apply N1. apply (in_map fst) in I. exact I.
  - apply IH; assumption.
Qed.

Lemma add_product_ok done t p : inv done t -> 1 <= bufsize -> 0 <= erow p * jdim + ecol p ->
  (~ In (fst p) (map fst (snd t)) -> zlen (snd t) < bufsize) ->
  exists t', add_product jdim add bufsize p t = Done t' /\ inv (done ++ [p]) t'.
Proof.
  destruct t as [b es]. intros [B N K W] BS HP CAP. unfold elt in *. cbn [fst snd] in *. unfold add_product. replace (bufsize =? 0) with false by lia.
  set (h := Z.rem (erow p * jdim + ecol p) bufsize). assert (HR : 0 <= h < bufsize) by (apply Z.rem_bound_pos; lia).
  assert (HE : hash (fst p) = h) by reflexivity.
  replace ((0 <=? h) && (h <? bufsize)) with true by lia. destruct (B h HR) as [CH _].
  pose proof (vchain_top _ _ _ _ CH) as TOP. rewrite map_length in TOP.
  destruct (look_ok es (b_next b) (erow p) (ecol p) _ _ CH (length es)) as (y & E & H); [unfold elt in *; lia|]. unfold elt in *. rewrite E.
  destruct p as [[i j] v]. change (erow (i, j, v)) with i in *. change (ecol (i, j, v)) with j in *. change (evalue (i, j, v)) with v. cbn [fst] in *.
  destruct H as [[-> NI]|(Y & u & EN)].
  - assert (NK : ~ In (i, j) (map fst es)).
    { intros I. apply NI. apply -> in_rev. apply filter_In. split; [exact I|]. apply Z.eqb_eq. exact HE. }
    cbn [Z.leb Z.compare]. specialize (CAP NK). unfold zlen in CAP. replace (Z.of_nat (length es) <? bufsize) with true by lia.
    unfold bin_one. unfold elt in *. replace ((0 <=? h) && (h <? bufsize)) with true by lia. eexists. split; [reflexivity|]. constructor; cbn [fst snd].
    + intros k KR. destruct (B k KR) as [C Q]. cbn [b_next b_top b_count]. rewrite map_app, filter_app. cbn [map filter fst]. rewrite HE. rewrite <- (map_length fst es).
      destruct (Z.eqb_spec h k) as [<-|Ne].
      * rewrite !fset_same, rev_app_distr, app_length. cbn [rev app length]. split; [|lia].
        constructor; [lia| | |].
        -- rewrite Nat2Z.id, nth_error_app2, Nat.sub_diag by lia. reflexivity.
        -- rewrite fset_same. apply (vchain_top _ _ _ _ C).
        -- rewrite fset_same. apply vchain_grow. exact C.
      * rewrite !fset_other by congruence. rewrite app_nil_r. split; [apply vchain_grow; exact C|exact Q].
    + rewrite map_app. cbn [map fst]. apply (Permutation_NoDup (Permutation_cons_append (map fst es) (i, j))). constructor; assumption.
    + intros k. rewrite !map_app, !in_app_iff, K. reflexivity.
    + intros k u I. rewrite values_at_snoc. cbn [fst]. change (evalue (i, j, v)) with v. apply in_app_iff in I. destruct I as [I|[I|[]]].
      * destruct (keyb (i, j) k) eqn:KB; [exfalso; apply keyb_eq in KB; subst k; apply NK; apply (in_map fst) in I; exact I|]. rewrite app_nil_r. apply W. exact I.
      * injection I as <- <-. replace (keyb (i, j) (i, j)) with true by (symmetry; apply keyb_eq; reflexivity). rewrite values_at_none by (rewrite <- K; exact NK). cbn. symmetry. apply add_zero_r. exact AD.
  - replace (0 <=? y) with true by lia. assert (LY : (Z.to_nat y < length es)%nat) by (apply nth_error_Some; congruence).
    unfold rdl. replace (0 <=? y) with true by lia. rewrite EN. cbn [fst]. change (evalue (i, j, u)) with u.
    assert (ZS : zset es y (i, j, add u v) = Some (upd (Z.to_nat y) (i, j, add u v) es)).
    { unfold zset. destruct ((y <? 0) || _) eqn:EB; [lia|reflexivity]. }
    rewrite ZS. eexists. split; [reflexivity|].
    assert (MK : map fst (upd (Z.to_nat y) (i, j, add u v) es) = map fst es).
    { rewrite upd_map. apply upd_same. rewrite List.nth_error_map, EN. reflexivity. }
    assert (IU : In (i, j, u) es) by (apply (nth_error_In _ _ EN)).
    constructor; cbn [fst snd]; rewrite ?MK.
    + exact B.
    + exact N.
    + intros k. rewrite K, map_app, in_app_iff. cbn [map fst In]. split; [tauto|]. intros [I|[<-|[]]]; [exact I|]. apply K. apply (in_map fst) in IU. exact IU.
    + intros k w I. rewrite values_at_snoc. cbn [fst]. change (evalue (i, j, v)) with v. destruct (keyb (i, j) k) eqn:KB.
      * apply keyb_eq in KB. subst k. assert (I' : In (i, j, add u v) (upd (Z.to_nat y) (i, j, add u v) es)).
        { apply nth_error_In with (Z.to_nat y). rewrite nth_error_upd, Nat.eqb_refl. apply Nat.ltb_lt in LY. rewrite LY. reflexivity. }
        rewrite (NoDup_fst_eq _ _ w (add u v) ltac:(rewrite MK; exact N) I I'). rewrite (lsum_app add zero AD), <- (W _ _ IU). cbn [lsum fold_right]. rewrite (add_zero_r add zero AD). reflexivity.
      * rewrite app_nil_r. apply In_nth_error in I. destruct I as (q & E4). rewrite nth_error_upd in E4. destruct (Nat.eqb (Z.to_nat y) q).
        -- destruct (Nat.ltb (Z.to_nat y) (length es)); [|discriminate E4]. injection E4 as <- <-. exfalso. assert (keyb (i, j) (i, j) = true) by (apply keyb_eq; reflexivity). congruence.
        -- apply W. apply (nth_error_In _ _ E4).
Qed.
End Table.
