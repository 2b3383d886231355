(** Lemmas about the memory of sparse arrays. *)
From Verif Require Import MBase MNb MHandle MGroup MSparse LNb LRadix LStore LIterBlk LSprs MSprs8.
From Coq Require Import Permutation.
Open Scope Z_scope.

(** Exactly the pieces in [l] are allocated. *)
Definition own (m : mem) (l : list ptr) : Prop := Permutation (live m) l /\ NoDup (live m) /\ Forall (fun q => fst q < fresh m) (live m).
Definition one (p : option ptr) : list ptr := match p with None => [] | Some q => [q] end.
Definition ptrs3 (t : three) : list ptr := let '(a, b, c) := t in one a ++ one b ++ one c.
Definition ptrs (e : entry) : list ptr := ptrs3 (blk e) ++ ptrs3 (buf e).

Lemma own_perm m l l' : own m l -> Permutation l l' -> own m l'.
Proof. intros (A & B & C) P. split; [eapply perm_trans; eassumption|]. split; assumption. Qed.
Lemma remove_head (q : ptr) : forall l, NoDup l -> In q l -> Permutation l (q :: remove ptr_dec q l).
Proof.
  induction l as [|a l IH]; intros N I; [destruct I|]. inversion N as [|? ? N1 N2]; subst. cbn [remove]. destruct (ptr_dec q a) as [->|D].
  - rewrite notin_remove by exact N1. apply Permutation_refl.
  - destruct I as [->|I]; [congruence|]. eapply perm_trans; [apply perm_skip, (IH N2 I)|apply perm_swap].
Qed.
Lemma free_ok p m l : own m (one p ++ l) -> exists m', free p m = Done m' /\ own m' l.
Proof.
  destruct p as [q|]; cbn [one app free]; [|intros O; exists m; split; [reflexivity|exact O]]. intros (P & N & F). assert (I : In q (live m)) by (apply (Permutation_in q (Permutation_sym P)); left; reflexivity).
  destruct (in_dec ptr_dec q (live m)) as [_|]; [|contradiction]. eexists. split; [reflexivity|]. pose proof (remove_head q _ N I) as R. split; [|split]; cbn [live fresh].
  - apply (Permutation_cons_inv (a := q)). eapply perm_trans; [apply Permutation_sym; exact R|exact P].
  - apply (Permutation_NoDup R) in N. inversion N; assumption.
  - rewrite Forall_forall in *. intros x X. apply F. apply in_remove in X. apply X.
Qed.
Lemma malloc_ok z m l : own m l -> own (snd (malloc z m)) (fst (malloc z m) :: l).
Proof.
  intros (P & N & F). unfold malloc. cbn [fst snd]. split; [|split]; cbn [live fresh].
  - apply perm_skip. exact P.
  - constructor; [|exact N]. intros I. rewrite Forall_forall in F. apply F in I. cbn in I. lia.
  - constructor; [cbn; lia|]. eapply Forall_impl; [|exact F]. cbn. intros; lia.
Qed.
Definition sized (t : three) (z : Z) : Prop := exists a b c, t = (Some a, Some b, Some c) /\ snd a = z /\ snd b = z /\ snd c = z.
Lemma malloc3_ok z m l : own m l -> exists t m', malloc3 z m = (t, m') /\ own m' (ptrs3 t ++ l) /\ sized t z.
Proof.
  intros O. unfold malloc3. pose proof (malloc_ok z m l O) as O1. destruct (malloc z m) as [a m1] eqn:E1. cbn [fst snd] in O1. pose proof (malloc_ok z m1 _ O1) as O2. destruct (malloc z m1) as [b m2] eqn:E2. cbn [fst snd] in O2.
  pose proof (malloc_ok z m2 _ O2) as O3. destruct (malloc z m2) as [c m3] eqn:E3. cbn [fst snd] in O3. eexists. eexists. split; [reflexivity|]. split.
  - eapply own_perm; [exact O3|]. cbn. eapply perm_trans; [apply perm_swap|]. eapply perm_trans; [apply perm_skip, perm_swap|]. apply perm_swap.
  - exists a, b, c. unfold malloc in *. injection E1 as <- _. injection E2 as <- _. injection E3 as <- _. repeat split.
Qed.
Lemma free3_ok t m l : own m (ptrs3 t ++ l) -> exists m', free3 t m = Done m' /\ own m' l.
Proof.
  destruct t as [[a b] c]. unfold ptrs3, free3. rewrite <- !app_assoc. intros O. destruct (free_ok a m _ O) as (m1 & E1 & O1). rewrite E1. destruct (free_ok b m1 _ O1) as (m2 & E2 & O2). rewrite E2. apply (free_ok c m2 _ O2).
Qed.
Lemma use_ok q i m l : own m l -> In q l -> 0 <= i < snd q -> use (Some q) i m = Done m.
Proof.
  intros (P & _ & _) I B. unfold use. destruct (in_dec ptr_dec q (live m)) as [_|X]; [|exfalso; apply X, (Permutation_in q (Permutation_sym P)), I]. replace ((0 <=? i) && (i <? snd q)) with true by lia. reflexivity.
Qed.
Lemma use3_ok t z i m l : own m (ptrs3 t ++ l) -> sized t z -> 0 <= i < z -> use3 t i m = Done m.
Proof.
  intros O (a & b & c & -> & A & B & C) I. unfold use3. rewrite (use_ok a i m _ O), (use_ok b i m _ O), (use_ok c i m _ O); [reflexivity|cbn; tauto|lia|cbn; tauto|lia|cbn; tauto|lia].
Qed.
Lemma use_first_ok t z k m l : own m (ptrs3 t ++ l) -> (0 < k -> sized t z /\ k <= z) -> use_first t k m = Done m.
Proof. intros O H. unfold use_first. destruct (0 <? k) eqn:K; [|reflexivity]. destruct H as [S L]; [lia|]. apply (use3_ok t z (k - 1) m l O S). lia. Qed.

(** The pieces of all entries. *)
Definition all_ptrs (size : Z) (t : Z -> entry) : list ptr := flat_map (fun h => ptrs (t h)) (zseq 0 (Z.to_nat size)).
Lemma flat_map_ext_nin (f g : Z -> list ptr) l : (forall a, In a l -> f a = g a) -> flat_map f l = flat_map g l.
Proof. induction l as [|a l IH]; intros H; [reflexivity|]. cbn [flat_map]. rewrite (H a (or_introl eq_refl)), IH; [reflexivity|]. intros b I. apply H. right. exact I. Qed.
Lemma entry_split size t h : 0 <= h < size -> exists rest, forall e, Permutation (all_ptrs size (fset t h e)) (ptrs e ++ rest).
Proof.
  intros H. unfold all_ptrs. assert (I : In h (zseq 0 (Z.to_nat size))) by (apply zseq_In; lia). pose proof (zseq_NoDup 0 (Z.to_nat size)) as N.
  destruct (in_split _ _ I) as (a & b & E). rewrite E in N. apply NoDup_remove_2 in N. exists (flat_map (fun h => ptrs (t h)) a ++ flat_map (fun h => ptrs (t h)) b). intros e. rewrite E, flat_map_app. cbn [flat_map].
  rewrite (flat_map_ext_nin (fun x => ptrs (fset t h e x)) (fun x => ptrs (t x)) a), (flat_map_ext_nin (fun x => ptrs (fset t h e x)) (fun x => ptrs (t x)) b).
  - unfold fset at 1. rewrite Z.eqb_refl. apply Permutation_app_swap_app.
  - intros x X. unfold fset. replace (x =? h) with false; [reflexivity|]. symmetry. apply Z.eqb_neq. intros ->. apply N, in_or_app. right. exact X.
  - intros x X. unfold fset. replace (x =? h) with false; [reflexivity|]. symmetry. apply Z.eqb_neq. intros ->. apply N, in_or_app. left. exact X.
Qed.
Lemma entry_self size t h : 0 <= h < size -> exists rest, Permutation (all_ptrs size t) (ptrs (t h) ++ rest) /\ forall e, Permutation (all_ptrs size (fset t h e)) (ptrs e ++ rest).
Proof.
  intros H. destruct (entry_split size t h H) as (rest & R). exists rest. split; [|exact R]. eapply perm_trans; [|apply R]. unfold all_ptrs.
  rewrite (flat_map_ext_nin (fun x => ptrs (fset t h (t h) x)) (fun x => ptrs (t x))); [apply Permutation_refl|]. intros x _. unfold fset. destruct (Z.eqb_spec x h) as [->|]; reflexivity.
Qed.

(** What an entry is for the program. *)
Definition entry_ok (x : option bool) (e : entry) : Prop :=
  match x with
  | None => active e = false /\ ready e = false /\ buf e = none3 /\ blk e = none3
  | Some false => active e = true /\ ready e = false /\ sized (buf e) (maxval e) /\ blk e = none3 /\ 0 <= nval e <= maxval e /\ 1 <= maxval e
  | Some true => active e = true /\ ready e = true /\ buf e = none3 /\ 0 <= nblocks e /\ (0 < nblocks e -> sized (blk e) (nblocks e))
  end.
(** [lost] has no owner. *)
Definition good (size : Z) (v : arrays) (s : spa) (lost : list ptr) : Prop :=
  own (heap s) (all_ptrs size (tab s) ++ lost) /\ (forall h, entry_ok (v h) (tab s h)) /\ forall h, v h <> None -> 0 <= h < size.
Section Steps.
Variable size : Z.
Lemma good_put v s lost lost' h x e m rest : good size v s lost -> 0 <= h < size -> (forall e, Permutation (all_ptrs size (fset (tab s) h e)) (ptrs e ++ rest)) ->
  entry_ok x e -> own m (ptrs e ++ rest ++ lost') -> good size (put v h x) (Spa (fset (tab s) h e) m) lost'.
Proof.
  intros (_ & G2 & G3) H R X O. split; [|split].
  - cbn [heap tab]. eapply own_perm; [exact O|]. rewrite app_assoc. apply Permutation_app_tail. apply Permutation_sym, R.
  - intros k. cbn [tab]. unfold put, fset. destruct (k =? h); [exact X|apply G2].
  - intros k. unfold put. destruct (Z.eqb_spec k h) as [->|]; [intros _; exact H|apply G3].
Qed.
Lemma good_at v s lost h : good size v s lost -> 0 <= h < size ->
  exists rest, own (heap s) (ptrs (tab s h) ++ rest ++ lost) /\ forall e, Permutation (all_ptrs size (fset (tab s) h e)) (ptrs e ++ rest).
Proof.
  intros (G1 & _ & _) H. destruct (entry_self size (tab s) h H) as (rest & R1 & R2). exists rest. split; [|exact R2]. eapply own_perm; [exact G1|]. rewrite app_assoc. apply Permutation_app_tail. exact R1.
Qed.
Lemma ptrs_buf e : blk e = none3 -> ptrs e = ptrs3 (buf e).
Proof. intros E. unfold ptrs. rewrite E. reflexivity. Qed.
Lemma ptrs_blk e : buf e = none3 -> ptrs e = ptrs3 (blk e).
Proof. intros E. unfold ptrs. rewrite E. cbn. apply app_nil_r. Qed.

(** 134-170 *)
Lemma create_ok v s lost : good size v s lost -> (exists h, 0 <= h < size /\ v h = None) ->
  exists s' r, create size s = Done (s', r) /\ good size (put v r (Some false)) s' lost /\ 0 <= r < size /\ v r = None /\
    (exists b m, malloc3 INIT_BUF_SIZE (heap s) = (b, m) /\ heap s' = m /\ tab s' = fset (tab s) r (Entry true false (nblocks (tab s r)) 0 INIT_BUF_SIZE b none3)).
Proof.
  intros G (h & H & Vh). pose proof G as (G1 & G2 & G3). unfold create, first_free. destruct (find _ _) as [r|] eqn:F.
  - apply find_some in F. destruct F as [I A]. apply zseq_In in I. assert (Rr : 0 <= r < size) by lia. pose proof (G2 r) as E. destruct (v r) as [[|]|] eqn:Vr; cbn [entry_ok] in E.
    + destruct E as (E & _). rewrite E in A. discriminate.
    + destruct E as (E & _). rewrite E in A. discriminate.
    + destruct E as (E1 & E2 & E3 & E4). destruct (good_at v s lost r G Rr) as (rest & O & R). rewrite (ptrs_buf _ E4), E3 in O. cbn [ptrs3 none3 one app] in O.
      destruct (malloc3_ok INIT_BUF_SIZE (heap s) _ O) as (b & m & EM & OM & SM). rewrite EM, E2, E4. eexists. eexists. split; [reflexivity|]. split; [|split; [exact Rr|split; [exact Vr|exists b, m; repeat split]]].
      apply (good_put v s lost lost r (Some false) _ m rest G Rr R).
      * cbn. repeat split; try reflexivity; [exact SM|unfold INIT_BUF_SIZE; lia..].
      * exact OM.
  - exfalso. assert (I : In h (zseq 0 (Z.to_nat size))) by (apply zseq_In; lia). pose proof (find_none _ _ F h I) as A. cbn beta in A. pose proof (G2 h) as E. rewrite Vh in E. destruct E as (E & _). rewrite E in A. discriminate.
Qed.
(** 181-228 *)
Lemma good_view v v' s lost : good size v s lost -> (forall h, v' h = v h) -> good size v' s lost.
Proof. intros (A & B & C) E. split; [exact A|]. split; intros h; rewrite E; [apply B|apply C]. Qed.
Lemma add_ok v s lost h : good size v s lost -> v h = Some false -> exists s', add_element s h = Done (s', 0) /\ good size v s' lost.
Proof.
  intros G Vh. pose proof G as (G1 & G2 & G3). assert (H : 0 <= h < size) by (apply G3; congruence). pose proof (G2 h) as E. rewrite Vh in E. destruct E as (E1 & E2 & E3 & E4 & E5 & E6).
  destruct (good_at v s lost h G H) as (rest & O & R). rewrite (ptrs_buf _ E4) in O. unfold add_element. rewrite E1, E2. cbn [negb].
  assert (FIN : forall b m mx, own m (ptrs3 b ++ rest ++ lost) -> sized b mx -> nval (tab s h) < mx -> exists s', (try m' <- use3 b (nval (tab s h)) m;
     Done (Spa (fset (tab s) h (Entry true false (nblocks (tab s h)) (nval (tab s h) + 1) mx b (blk (tab s h)))) m', 0)) = Done (s', 0) /\ good size v s' lost).
  { intros b m mx OB SB L. rewrite (use3_ok b mx _ m _ OB SB) by lia. eexists. split; [reflexivity|]. apply (good_view (put v h (Some false))).
    - apply (good_put v s lost lost h (Some false) _ m rest G H R); [cbn; rewrite E4; repeat split; try reflexivity; [exact SB|lia..]|]. rewrite ptrs_buf by (cbn; exact E4). cbn [buf]. exact OB.
    - intros k. unfold put. destruct (Z.eqb_spec k h) as [->|]; [exact Vh|reflexivity]. }
  destruct (maxval (tab s h) <=? nval (tab s h)) eqn:L.
  - destruct (malloc3_ok (2 * maxval (tab s h)) (heap s) _ O) as (b & m & EM & OM & SM). rewrite EM.
    assert (OM' : own m (ptrs3 (buf (tab s h)) ++ ptrs3 b ++ rest ++ lost)) by (eapply own_perm; [exact OM|apply Permutation_app_swap_app]).
    rewrite (use_first_ok _ (maxval (tab s h)) _ m _ OM') by (intros _; split; [exact E3|lia]). rewrite (use_first_ok b (2 * maxval (tab s h)) _ m _ OM) by (intros _; split; [exact SM|lia]).
    destruct (free3_ok _ m _ OM') as (m4 & E & O4). rewrite E. apply FIN; [exact O4|exact SM|lia].
  - apply FIN; [exact O|exact E3|lia].
Qed.
(** 267-875 *)
Lemma assemble_mem_ok v s lost h nv nb : good size v s lost -> v h = Some false -> 0 <= nv -> 0 <= nb -> exists s', assemble_mem s h nv nb = Done (s', 1) /\ good size (put v h (Some true)) s' lost.
Proof.
  intros G Vh NV NB. pose proof G as (G1 & G2 & G3). assert (H : 0 <= h < size) by (apply G3; congruence). pose proof (G2 h) as E. rewrite Vh in E. destruct E as (E1 & E2 & E3 & E4 & E5 & E6).
  destruct (good_at v s lost h G H) as (rest & O & R). rewrite (ptrs_buf _ E4) in O. unfold assemble_mem. rewrite (use_first_ok _ (maxval (tab s h)) _ _ _ O) by (intros _; split; [exact E3|lia]).
  destruct (free3_ok _ _ _ O) as (m2 & F2 & O2). rewrite F2.
  assert (K : exists k m3, (if 0 <? nb then malloc3 nb m2 else (blk (tab s h), m2)) = (k, m3) /\ own m3 (ptrs3 k ++ rest ++ lost) /\ (0 < nb -> sized k nb)).
  { destruct (0 <? nb) eqn:B; [destruct (malloc3_ok nb m2 _ O2) as (k & m3 & Ek & Ok & Sk); exists k, m3; split; [exact Ek|split; [exact Ok|intros _; exact Sk]]|].
    exists none3, m2. rewrite E4. split; [reflexivity|]. split; [exact O2|lia]. }
  destruct K as (k & m3 & Ek & Ok & Sk). rewrite Ek. destruct (malloc3_ok nv m3 _ Ok) as (b & m4 & Eb & Ob & Sb). rewrite Eb.
  rewrite (use_first_ok b nv nv m4 _ Ob) by (intros _; split; [exact Sb|lia]).
  rewrite (use_first_ok k nb nb m4 (ptrs3 b ++ rest ++ lost)); [|eapply own_perm; [exact Ob|apply Permutation_app_swap_app]|intros B; split; [apply Sk; exact B|lia]].
  destruct (free3_ok b m4 _ Ob) as (m7 & F7 & O7). rewrite F7. eexists. split; [reflexivity|]. apply (good_put v s lost lost h (Some true) _ m7 rest G H R).
  - cbn. repeat split; try reflexivity; [exact E1|exact NB|exact Sk].
  - rewrite ptrs_blk by reflexivity. cbn [blk]. exact O7.
Qed.
(** 1314-1351 *)
Lemma destroy_ok v s lost h : good size v s lost -> v h <> None -> exists s', destroy s h = Done (s', 1) /\ good size (put v h None) s' lost.
Proof.
  intros G Vh. pose proof G as (G1 & G2 & G3). assert (H : 0 <= h < size) by (apply G3; exact Vh). pose proof (G2 h) as E. destruct (good_at v s lost h G H) as (rest & O & R). unfold destroy.
  destruct (v h) as [[|]|]; [| |congruence]; cbn [entry_ok] in E.
  - destruct E as (E1 & E2 & E3 & E4 & E5). rewrite E2. rewrite (ptrs_blk _ E3) in O. destruct (free3_ok _ _ _ O) as (m & F & Om). rewrite F. eexists. split; [reflexivity|].
    apply (good_put v s lost lost h None _ m rest G H R); [cbn; repeat split; exact E3|]. unfold ptrs. cbn [blk buf]. rewrite E3. exact Om.
  - destruct E as (E1 & E2 & E3 & E4 & E5). rewrite E2, E1. rewrite (ptrs_buf _ E4) in O. destruct (free3_ok _ _ _ O) as (m & F & Om). rewrite F. eexists. split; [reflexivity|].
    apply (good_put v s lost lost h None _ m rest G H R); [cbn; repeat split; exact E4|]. unfold ptrs. cbn [blk buf]. rewrite E4. exact Om.
Qed.
(** 2678-2728 *)
Lemma matmat_mem_ok v s lost nv nb : good size v s lost -> (exists h, 0 <= h < size /\ v h = None) -> 0 <= nv -> 1 <= nb ->
  exists s' r, matmat_mem size s nv nb = Done (s', r) /\ good size (put v r (Some true)) s' lost /\ 0 <= r < size /\ v r = None.
Proof.
  intros G X NV NB. destruct (create_ok v s lost G X) as (s1 & r & E & G' & Rr & Vr & _). unfold matmat_mem. rewrite E. pose proof G' as (_ & G2 & _). pose proof (G2 r) as Er. unfold put in Er at 1. rewrite Z.eqb_refl in Er. destruct Er as (A1 & A2 & A3 & A4 & A5 & A6).
  destruct (good_at _ s1 lost r G' Rr) as (rest & O & R). rewrite (ptrs_buf _ A4) in O. destruct (free3_ok _ _ _ O) as (m1 & F1 & O1). rewrite F1. destruct (malloc3_ok nb m1 _ O1) as (k & m2 & Ek & Ok & Sk). rewrite Ek.
  rewrite (use3_ok k nb 0 m2 _ Ok Sk) by lia. rewrite (use_first_ok k nb nb m2 _ Ok) by (intros _; split; [exact Sk|lia]). destruct (malloc3_ok nv m2 _ Ok) as (b & m5 & Eb & Ob & Sb). rewrite Eb.
  rewrite (use_first_ok b nv nv m5 _ Ob) by (intros _; split; [exact Sb|lia]). destruct (free3_ok b m5 _ Ob) as (m7 & F7 & O7). rewrite F7. eexists. eexists. split; [reflexivity|]. split; [|split; assumption].
  eapply good_view; [apply (good_put (put v r (Some false)) s1 lost lost r (Some true) _ m7 rest G' Rr R)|].
  - cbn. repeat split; try reflexivity; [exact A1|lia|intros _; exact Sk].
  - rewrite ptrs_blk by reflexivity. cbn [blk]. exact O7.
  - intros h. unfold put. destruct (h =? r); reflexivity.
Qed.
(** 2082-2170: the buffers from create are lost. *)
Lemma duplicate_ok v s lost h : good size v s lost -> (exists h, 0 <= h < size /\ v h = None) -> v h = Some true ->
  exists s' r b, duplicate size s h = Done (s', r) /\ good size (put v r (Some true)) s' (ptrs3 b ++ lost) /\ 0 <= r < size /\ v r = None /\ sized b INIT_BUF_SIZE.
Proof.
  intros G X Vh. pose proof G as (_ & H2 & H3). assert (Hh : 0 <= h < size) by (apply H3; congruence). pose proof (H2 h) as Eh. rewrite Vh in Eh. destruct Eh as (B1 & B2 & B3 & B4 & B5).
  destruct (create_ok v s lost G X) as (s1 & r & E & G' & Rr & Vr & (b0 & m0 & _ & _ & T0)). unfold duplicate. rewrite B2. cbn [negb]. rewrite E. pose proof G' as (_ & G2 & _). pose proof (G2 r) as Er. unfold put in Er at 1. rewrite Z.eqb_refl in Er. destruct Er as (A1 & A2 & A3 & A4 & A5 & A6).
  assert (MX : maxval (tab s1 r) = INIT_BUF_SIZE) by (rewrite T0; unfold fset; rewrite Z.eqb_refl; reflexivity). rewrite MX in A3.
  destruct (good_at _ s1 lost r G' Rr) as (rest & O & R). rewrite (ptrs_buf _ A4) in O.
  assert (NE : h <> r) by (intros ->; congruence).
  assert (TH : tab s1 h = tab s h) by (rewrite T0; unfold fset; replace (h =? r) with false by lia; reflexivity).
  destruct (good_at _ s1 lost h G' Hh) as (rest2 & O' & _). rewrite TH, (ptrs_blk _ B3) in O'.
  set (b := buf (tab s1 r)) in *. set (e := tab s h) in *.
  assert (KU : exists k m, (if 0 <? nblocks e then malloc3 (nblocks e) (heap s1) else (blk (tab s1 r), heap s1)) = (k, m) /\ own m (ptrs3 k ++ rest ++ ptrs3 b ++ lost) /\ (0 < nblocks e -> sized k (nblocks e)) /\ use_first (blk e) (nblocks e) m = Done m).
  { destruct (0 <? nblocks e) eqn:B.
    - destruct (malloc3_ok (nblocks e) (heap s1) _ O) as (k & m & Ek & Ok & Sk). destruct (malloc3_ok (nblocks e) (heap s1) _ O') as (k' & m' & Ek' & Ok' & _). assert (k' = k /\ m' = m) as [-> ->] by (split; congruence).
      exists k, m. split; [exact Ek|]. split; [|split; [intros _; exact Sk|]].
      + eapply own_perm; [exact Ok|]. apply Permutation_app_head. apply Permutation_app_swap_app.
      + apply (use_first_ok (blk e) (nblocks e) (nblocks e) m (ptrs3 k ++ rest2 ++ lost)); [eapply own_perm; [exact Ok'|apply Permutation_app_swap_app]|]. intros P. split; [apply B5; exact P|lia].
    - exists none3, (heap s1). rewrite A4. split; [reflexivity|]. split; [eapply own_perm; [exact O|cbn [ptrs3 none3 one app]; apply Permutation_app_swap_app]|]. split; [lia|]. unfold use_first. rewrite B. reflexivity. }
  destruct KU as (k & m & Ek & Ok & Sk & Uk). rewrite Ek, Uk. rewrite (use_first_ok k (nblocks e) (nblocks e) m _ Ok) by (intros P; split; [apply Sk; exact P|lia]).
  eexists. eexists. exists b. split; [reflexivity|]. split; [|split; [exact Rr|split; [exact Vr|exact A3]]].
  eapply good_view; [apply (good_put (put v r (Some false)) s1 lost (ptrs3 b ++ lost) r (Some true) _ m rest G' Rr R)|].
  - cbn. repeat split; try reflexivity; [exact A1|exact B4|exact Sk].
  - rewrite ptrs_blk by reflexivity. cbn [blk]. exact Ok.
  - intros x. unfold put. destruct (x =? r); reflexivity.
Qed.
Lemma terminate_ok t lost : forall hs m, own m (flat_map (fun h => ptrs (t h)) hs ++ lost) -> exists m', terminate t hs m = Done m' /\ own m' lost.
Proof.
  induction hs as [|h hs IH]; intros m O; [exists m; split; [reflexivity|exact O]|]. cbn [flat_map terminate] in *. unfold ptrs at 1 in O. rewrite <- !app_assoc in O. destruct (free3_ok _ _ _ O) as (m1 & E1 & O1). rewrite E1.
  destruct (free3_ok _ _ _ O1) as (m2 & E2 & O2). rewrite E2. apply IH. exact O2.
Qed.
Lemma good_init : good size (fun _ => None) init [].
Proof.
  split; [|split; [intros h; cbn; repeat split|intros h H; congruence]]. unfold all_ptrs. cbn [tab init heap]. assert (E : flat_map (fun _ : Z => ptrs (Entry false false 0 0 0 none3 none3)) (zseq 0 (Z.to_nat size)) = []) by (induction (zseq 0 (Z.to_nat size)) as [|x l IH]; [reflexivity|exact IH]).
  rewrite E. split; [apply Permutation_refl|]. split; constructor.
Qed.
End Steps.
