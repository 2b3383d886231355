(** Lemmas: sums of arrays. *)
From Verif Require Import LRadix LDist LStrided LStrided2 LIterReg LIterReg3 LIterSca LStore LXfer LXfer2 LLoc LAccess LSelect LSelect2 LOdo LGcopy5 LCpatch4.
From Verif Require Export LPw2 MAdd.
Open Scope Z_scope.

(** ---- phases ---- *)
Definition zipc {E} (l : list (list E)) (progs : list (list (list E))) : list (list (list E)) :=
  map (fun p => fst p :: snd p) (combine l progs).
Lemma zipc_length {E} (l : list (list E)) progs : length l = length progs -> length (zipc l progs) = length progs.
Proof. intros H. unfold zipc. rewrite map_length, combine_length. lia. Qed.
Lemma phases_zipc {E} n (l : list (list E)) progs : length l = length progs ->
  phases_of (S n) (zipc l progs) = concat l :: phases_of n progs.
Proof.
  intros HL. unfold phases_of. cbn [seq map]. f_equal.
  - revert progs HL. induction l as [|x l IH]; intros [|p progs] HL; try discriminate; [reflexivity|].
    cbn. f_equal. apply IH. cbn in HL. lia.
  - rewrite <- seq_shift, map_map. apply map_ext. intros k.
    revert progs HL. induction l as [|x l IH]; intros [|p progs] HL; try discriminate; [reflexivity|].
    cbn. f_equal. apply IH. cbn in HL. lia.
Qed.
Lemma phases_one {E} (l : list (list E)) : phases_of 1 (map (fun x => [x]) l) = [concat l].
Proof. unfold phases_of. cbn. f_equal. induction l as [|x l IH]; [reflexivity|]. cbn. f_equal. exact IH. Qed.
Lemma zipc_Forall2 {E J} (P : J -> list E -> Prop) (R : J -> list (list E) -> Prop) js l progs :
  Forall2 P js l -> Forall2 R js progs -> Forall2 (fun j pr => exists es rest, pr = es :: rest /\ P j es /\ R j rest) js (zipc l progs).
Proof.
  intros H. revert progs. induction H as [|j es js l HP F IH]; intros progs H2; inversion H2; subst; [constructor|].
  cbn. constructor; [cbn; eauto|]. apply IH. assumption.
Qed.
Lemma one_Forall2 {E J} (P : J -> list E -> Prop) js l : Forall2 P js l -> Forall2 (fun j pr => exists es, pr = [es] /\ P j es) js (map (fun x => [x]) l).
Proof. induction 1; constructor; eauto. Qed.
Lemma all_runs_cons {S E} (step : S -> E -> option S) s ph rest (P Q : S -> Prop) :
  (forall es, Permutation ph es -> exists s', run_elems step s es = Some s' /\ P s') ->
  (forall s', P s' -> all_runs step s' rest Q) -> all_runs step s (ph :: rest) Q.
Proof. intros H1 H2 es HP. destruct (H1 es HP) as (s' & E1 & X). eauto. Qed.
Lemma all_runs_imp {S E} (step : S -> E -> option S) phs : forall s (P Q : S -> Prop),
  (forall s', P s' -> Q s') -> all_runs step s phs P -> all_runs step s phs Q.
Proof.
  induction phs as [|ph phs IH]; intros s P Q H HR; cbn in *; [auto|]. intros es HP. destruct (HR es HP) as (s' & E1 & X).
  exists s'. split; [exact E1|]. eapply IH; eauto.
Qed.

Section Run.
Context {V : Type} (sa : V -> V) (acc : V -> V -> V).
Notation gs := (gstep sa acc).
Lemma sset_same (st : store V) h q v : sset st h q v h = hset (st h) q v.
Proof. unfold sset. rewrite Z.eqb_refl. reflexivity. Qed.
Lemma sset_other (st : store V) h q v k : k <> h -> sset st h q v k = st k.
Proof. unfold sset. intros H. destruct (Z.eqb_spec k h); congruence. Qed.

(** ---- copies ---- *)
Lemma copies_run hd hs es : hd <> hs -> forall (st : store V) m', run_elems (MGcopy.copy_elem (st hs)) (st hd) es = Some m' ->
  exists st', run_elems gs st (copy_ops hd hs es) = Some st' /\ st' hd = m' /\ forall k, k <> hd -> st' k = st k.
Proof.
  intros HN. induction es as [|e es IH]; intros st m' H.
  { injection H as <-. exists st. auto. }
  cbn [run_elems copy_ops map gstep] in *. unfold MGcopy.copy_elem at 1 in H.
  destruct (hget (st hs) (snd e)) as [v|]; [|discriminate]. destruct (hget (st hd) (fst e)) as [u|]; [|discriminate].
  destruct (IH (sset st hd (fst e) v) m') as (st' & E1 & E2 & E3).
  { rewrite sset_same, sset_other by congruence. exact H. }
  exists st'. split; [exact E1|]. split; [exact E2|]. intros k Hk. rewrite E3 by exact Hk. apply sset_other, Hk.
Qed.
Lemma copies_self h es : forall (st : store V) m', run_elems self_elem (st h) es = Some m' ->
  exists st', run_elems gs st (copy_ops h h es) = Some st' /\ st' h = m' /\ forall k, k <> h -> st' k = st k.
Proof.
  induction es as [|e es IH]; intros st m' H.
  { injection H as <-. exists st. auto. }
  cbn [run_elems copy_ops map gstep] in *. unfold self_elem at 1, MGcopy.copy_elem at 1 in H.
  destruct (hget (st h) (snd e)) as [v|]; [|discriminate]. destruct (hget (st h) (fst e)) as [u|]; [|discriminate].
  destruct (IH (sset st h (fst e) v) m') as (st' & E1 & E2 & E3).
  { rewrite sset_same. exact H. }
  exists st'. split; [exact E1|]. split; [exact E2|]. intros k Hk. rewrite E3 by exact Hk. apply sset_other, Hk.
Qed.
(** ---- scaling ---- *)
Lemma scales_run h cs : forall (st : store V) m', run_elems (upd_elem sa) (st h) cs = Some m' ->
  exists st', run_elems gs st (map (GScale h) cs) = Some st' /\ st' h = m' /\ forall k, k <> h -> st' k = st k.
Proof.
  induction cs as [|q cs IH]; intros st m' H.
  { injection H as <-. exists st. auto. }
  cbn [run_elems map gstep] in *. unfold upd_elem at 1 in H. destruct (hget (st h) q) as [v|]; [|discriminate].
  destruct (IH (sset st h q (sa v)) m') as (st' & E1 & E2 & E3).
  { rewrite sset_same. exact H. }
  exists st'. split; [exact E1|]. split; [exact E2|]. intros k Hk. rewrite E3 by exact Hk. apply sset_other, Hk.
Qed.
(** ---- sums ---- *)
Definition sums (g : V -> V -> V) (ha hb hc : Z) (pa pb pc : list Z -> place -> Prop) (x : list Z) (e : gop) : Prop :=
  exists qa qb qc, pa x qa /\ pb x qb /\ pc x qc /\
    forall st, gs st e = do va <- hget (st ha) qa; do vb <- hget (st hb) qb; do u <- hget (st hc) qc; Some (sset st hc qc (g va vb)).

Lemma sums_run g ha hb hc (pa pb pc : list Z -> place -> Prop) (D : list Z -> Prop) es (st : store V) :
  (forall x q q', pa x q -> pa x q' -> q = q') -> (forall x q q', pb x q -> pb x q' -> q = q') -> (forall x q q', pc x q -> pc x q' -> q = q') ->
  (forall x y q, pc x q -> pc y q -> x = y) -> (ha = hc -> pa = pc) -> (hb = hc -> pb = pc) ->
  allocated pa (st ha) -> allocated pb (st hb) -> allocated pc (st hc) -> marked (sums g ha hb hc pa pb pc) D es ->
  exists st', run_elems gs st es = Some st' /\
    (forall x qa qb qc, D x -> pa x qa -> pb x qb -> pc x qc ->
       exists va vb, hget (st ha) qa = Some va /\ hget (st hb) qb = Some vb /\ hget (st' hc) qc = Some (g va vb)) /\
    (forall q, (forall x, D x -> ~ pc x q) -> hget (st' hc) q = hget (st hc) q) /\ forall k, k <> hc -> st' k = st k.
Proof.
  intros FA FB FC IC EA EB AA AB AC (l & -> & N & I & J).
  assert (X : exists st', run_elems gs st (map fst l) = Some st' /\
    (forall x qa qb qc, In x (map snd l) -> pa x qa -> pb x qb -> pc x qc ->
       exists va vb, hget (st ha) qa = Some va /\ hget (st hb) qb = Some vb /\ hget (st' hc) qc = Some (g va vb)) /\
    (forall q, (forall x, In x (map snd l) -> ~ pc x q) -> hget (st' hc) q = hget (st hc) q) /\ forall k, k <> hc -> st' k = st k).
  2:{ destruct X as (st' & E1 & E2 & E3 & E4). exists st'. split; [exact E1|]. split; [|split; [|exact E4]].
      - intros x qa qb qc Hx. apply E2. apply I, Hx.
      - intros q Hq. apply E3. intros x Hx. apply Hq, I, Hx. }
  clear I. revert st AA AB AC. induction l as [|[e x] l IH]; intros st AA AB AC.
  { exists st. split; [reflexivity|]. split; [intros ? ? ? ? []|]. split; reflexivity. }
  cbn [map fst snd] in *. apply NoDup_cons_iff in N as [Hn N].
  destruct (J e x (or_introl eq_refl)) as (qa & qb & qc & Ha & Hb & Hc & Ge). cbn [run_elems]. rewrite Ge.
  pose proof (AA x qa Ha) as DA. pose proof (AB x qb Hb) as DB. pose proof (AC x qc Hc) as DC.
  destruct (hget (st ha) qa) as [va|] eqn:Va; [|congruence]. destruct (hget (st hb) qb) as [vb|] eqn:Vb; [|congruence].
  destruct (hget (st hc) qc) as [u|] eqn:Vc; [|congruence].
  set (st1 := sset st hc qc (g va vb)).
  assert (KEEP : forall h p (y : list Z) q, (h = hc -> p = pc) -> p y q -> y <> x -> hget (st1 h) q = hget (st h) q).
  { intros h p y q Hp Hq Hy. unfold st1. destruct (Z.eq_dec h hc) as [->|Hh]; [|rewrite sset_other by exact Hh; reflexivity].
    rewrite sset_same. apply hget_hset_other. intros ->. apply Hy. rewrite (Hp eq_refl) in Hq. eapply IC; eauto. }
  assert (ALL : forall h (p : list Z -> place -> Prop), allocated p (st h) -> allocated p (st1 h)).
  { intros h p A y q Hq. unfold st1. destruct (Z.eq_dec h hc) as [->|Hh]; [|rewrite sset_other by exact Hh; apply (A y q Hq)].
    rewrite sset_same. destruct (place_dec qc q) as [<-|Hd]; [rewrite hget_hset_same; discriminate|].
    rewrite hget_hset_other by congruence. apply (A y q Hq). }
  destruct (IH N (fun e x H => J e x (or_intror H)) st1 (ALL _ _ AA) (ALL _ _ AB) (ALL _ _ AC)) as (st' & E1 & E2 & E3 & E4).
  exists st'. split; [exact E1|]. split; [|split].
  - intros y ya yb yc [<-|Hy] Hya Hyb Hyc.
    + exists va, vb. rewrite (FA _ _ _ Hya Ha), (FB _ _ _ Hyb Hb), (FC _ _ _ Hyc Hc). split; [exact Va|]. split; [exact Vb|].
      rewrite E3 by (intros z Hz Hzq; apply Hn; rewrite (IC _ _ _ Hc Hzq); exact Hz). unfold st1. rewrite sset_same. apply hget_hset_same.
    + assert (NE : y <> x) by (intros ->; auto). destruct (E2 y ya yb yc Hy Hya Hyb Hyc) as (v & w & X1 & X2 & X3).
      rewrite (KEEP ha pa y ya EA Hya NE) in X1. rewrite (KEEP hb pb y yb EB Hyb NE) in X2. eauto.
  - intros q Hq. rewrite E3 by (intros y Hy; apply Hq; now right). unfold st1. rewrite sset_same. apply hget_hset_other.
    intros ->. apply (Hq x); [now left|exact Hc].
  - intros k Hk. rewrite E4 by exact Hk. apply sset_other, Hk.
Qed.
Lemma sums_add ha hb hc (pa pb pc : list Z -> place -> Prop) x qa qb qc : pa x qa -> pb x qb -> pc x qc ->
  sums (fun u v => acc (sa u) v) ha hb hc pa pb pc x (GAdd hc qc ha qa hb qb).
Proof. intros. exists qa, qb, qc. repeat split; auto. Qed.
Lemma sums_acc hb hc (pb pc : list Z -> place -> Prop) x qb qc : pb x qb -> pc x qc ->
  sums acc hc hb hc pc pb pc x (GAcc hc qc hb qb).
Proof.
  intros. exists qc, qb, qc. repeat split; auto. intros st. cbn [gstep]. destruct (hget (st hb) qb), (hget (st hc) qc); reflexivity.
Qed.
End Run.
