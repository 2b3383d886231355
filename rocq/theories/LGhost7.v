(** The update of the ghost cells of an array. *)
From Coq Require Import ZArith List Lia Bool.
From Verif Require Import SpecBox SpecStore SpecPeri SpecGhost MBase SpecCopy MXfer MOdo MGhost LRadix LAxis LIterReg LIterReg2 LIterReg3 LXfer LOdo LIterBlk LGhost LGhost2 LGhost3 LGhost4 LGhost5 LGhost6 LDist.

Lemma in_array_nth ds : forall x, length x = length ds -> (forall j, (j < length ds)%nat -> 1 <= nth j x 0 <= nth j ds 0) -> in_array ds x.
Proof.
  induction ds as [|d ds IH]; intros [|y x]; try discriminate; intros HL HB; [exact I|]. cbn [length] in *. apply Sn_all in HB as [B0 B]. split; [exact B0|]. apply IH; [lia|exact B].
Qed.

Lemma wrapv_id_array ds : forall x, in_array ds x -> wrapv ds x = x.
Proof. induction ds as [|d ds IH]; intros [|y x]; cbn; try tauto. intros [B H]. rewrite wrap_id, IH by auto. reflexivity. Qed.

Section F.
Variable guess : Z -> Z -> Z -> Z.
Variable a : garray.
Variable seg : Z -> Z.
Hypothesis Hg : good_guess guess.
Hypothesis HA : ghost_array a.
Notation g := (ga_desc a).
Notation n := (length (dims (ga_desc a))).
Notation es := (ga_elemsize a).
Notation nproc := (ga_nproc a).
Notation Lo := (L a). Notation Hi := (H a). Notation Wi := (W a).
Notation ps := (zseq 0 (Z.to_nat (ga_nproc a))).

Lemma own_in_box p x : in_box (lo a p) (hi a p) x <-> own_box a p x.
Proof.
  split.
  - intros B. destruct (in_box_lengths _ _ _ B) as [B1 B2]. assert (Lx : length x = n) by (rewrite lo_len in B1; auto). split; [exact Lx|].
    rewrite (in_box_nth n) in B by (rewrite ?lo_len, ?hi_len; auto). intros j Hj. specialize (B j Hj). rewrite lo_nth, hi_nth in B by auto. exact B.
  - intros [Lx B]. apply (in_box_nth n); rewrite ?lo_len, ?hi_len; auto. intros j Hj. specialize (B j Hj). rewrite lo_nth, hi_nth by auto. exact B.
Qed.

Definition ownb (x : list Z) (p : Z) : bool := forallb (fun j => (Lo p j <=? nth j x 0) && (nth j x 0 <=? Hi p j)) (seq 0 n).
Definition owner (x : list Z) : Z := match find (ownb x) ps with Some p => p | None => 0 end.
Lemma wf : wf_regular nproc g. Proof. destruct HA as (W & _). exact W. Qed.

Lemma own_array p x : 0 <= p < nproc -> own_box a p x -> in_array (dims g) x.
Proof.
  intros Hp [Lx B]. apply in_array_nth; auto. intros j Hj. specialize (B j Hj). pose proof (LH a HA p j Hp Hj). lia.
Qed.
Lemma own_unique p q x : 0 <= p < nproc -> 0 <= q < nproc -> own_box a p x -> own_box a q x -> p = q.
Proof.
  intros Hp Hq Bp Bq. destruct (regular_unique_owner nproc g x wf (own_array p x Hp Bp)) as (r & _ & _ & U).
  rewrite (U p (lo a p) (hi a p)), (U q (lo a q) (hi a q)); auto using dist_ok; now apply own_in_box.
Qed.
Lemma owner_ok p x : 0 <= p < nproc -> own_box a p x -> owner x = p.
Proof.
  intros Hp B. unfold owner. assert (T : ownb x p = true).
  { apply forallb_forall. intros j Hj. apply in_seq in Hj. destruct B as [_ B]. specialize (B j ltac:(lia)). lia. }
  destruct (find (ownb x) ps) as [q|] eqn:F; [|exfalso; pose proof (find_none _ _ F p (proj2 (ps_In a seg p) Hp)) as Y; rewrite T in Y; discriminate].
  apply find_some in F as [F1 F2]. apply (ps_In a seg) in F1. apply (own_unique q p x); auto. destruct B as [Lx _]. split; [exact Lx|].
  unfold ownb in F2. rewrite forallb_forall in F2. intros j Hj. specialize (F2 j ltac:(apply in_seq; lia)). lia.
Qed.

Lemma place_own x q : reg_place a x q -> 0 <= fst q < nproc /\ own_box a (fst q) x /\ snd q = cell a (fst q) x.
Proof.
  intros (p & l & h & Hp & D & B & R & S). rewrite dist_ok in D by auto. injection D as <- <-. unfold abs_rank in R. rewrite ga_world in R by auto. injection R as <-.
  apply own_in_box in B. auto.
Qed.
Lemma own_place p x : 0 <= p < nproc -> own_box a p x -> reg_place a x (p, cell a p x).
Proof.
  intros Hp B. exists p, (lo a p), (hi a p). repeat split; try apply Hp; [now apply dist_ok|now apply own_in_box|]. cbn [fst]. unfold abs_rank. now rewrite ga_world.
Qed.
Lemma wrapped_place x : length x = n -> exists q, reg_place a (wrapv (dims g) x) q.
Proof.
  intros Lx. assert (IA : in_array (dims g) (wrapv (dims g) x)).
  { apply in_array_nth; [now rewrite wrapv_length|]. intros j Hj. rewrite nth_wrapv by (rewrite ?Lx; auto).
    pose proof (dim_pos a HA j Hj). unfold wrap. pose proof (Z.mod_pos_bound (nth j x 0 - 1) (nth j (dims g) 0) ltac:(lia)). lia. }
  destruct (regular_unique_owner nproc g _ wf IA) as (p & Hp & (l & h & D & B) & _). rewrite dist_ok in D by auto. injection D as <- <-.
  exists (p, cell a p (wrapv (dims g) x)). apply own_place; auto. now apply own_in_box.
Qed.

Lemma filled_done flag p x : 0 <= p < nproc -> (has_cell (ga_width a) (lo a p) (hi a p) x /\ filled flag (lo a p) (hi a p) x <-> done_box a flag n p x).
Proof.
  intros Hp. rewrite has_cell_pad by auto. unfold filled, face_cell, done_box, pad_box. split.
  - intros ((A & B) & C). split; [exact A|]. split; [intros j Hj; specialize (B j Hj); destruct (Nat.ltb_spec j n); [exact B|lia]|].
    intros ->. destruct C as (i & C). exists i. intros j Hj N. specialize (C j ltac:(rewrite A; auto) N). rewrite lo_nth, hi_nth in C by auto. exact C.
  - intros (A & B & C). split; [split; [exact A|]; intros j Hj; specialize (B j Hj); destruct (Nat.ltb_spec j n); [exact B|lia]|].
    destruct flag; [exact I|]. destruct (C eq_refl) as (i & C'). exists i. intros j Hj N. rewrite A in Hj. specialize (C' j Hj N). rewrite lo_nth, hi_nth by auto. exact C'.
Qed.

Lemma update_ok {V} flag (m : Z -> pmem V) : ghosts_allocated a seg m ->
  exists tabs m', ghost_tables guess a seg flag = Some tabs /\ update_ghosts es tabs m = Some m' /\ ghosts_updated flag a seg m m'.
Proof.
  intros HM. exists (map (fun p => (p, (bufn a p, msgs a seg flag 0 n p))) ps).
  assert (N1 : 1 <= nproc). { rewrite <- (ga_np a HA). apply zprod_pos, nb_pos, HA. }
  assert (HP : forall p x, 0 <= p < nproc -> pad_box a p x -> m p (seg p) (cell a p x) <> None).
  { intros p x Hp B. apply (HM p (lo a p) (hi a p)); [auto|now apply dist_ok|now apply has_cell_pad]. }
  assert (OP : forall p x, own_box a p x -> pad_box a p x) by (intros p x B; apply (done_pad a seg HA true 0), done_0, B).
  assert (OL : own_box a 0 (lo a 0)).
  { split; [now apply lo_len|]. intros j Hj. rewrite lo_nth by auto. pose proof (LH a HA 0 j ltac:(lia) Hj). lia. }
  destruct (m 0 (seg 0) (cell a 0 (lo a 0))) as [v0|] eqn:E0; [|exfalso; apply (HP 0 (lo a 0)); auto; lia].
  set (G := fun x => match m (owner x) (seg (owner x)) (cell a (owner x) x) with Some v => v | None => v0 end).
  assert (HG : forall p x, 0 <= p < nproc -> own_box a p x -> m p (seg p) (cell a p x) = Some (G x)).
  { intros p x Hp B. unfold G. rewrite (owner_ok p x Hp B). pose proof (HP p x Hp (OP p x B)). destruct (m p (seg p) (cell a p x)); [reflexivity|contradiction]. }
  destruct (exchange_ok a seg HA flag G m n 0 m) as (m' & E & A & B); [lia|exact HP| | |].
  { intros p x Hp D. apply done_0 in D. rewrite (wrapv_id_array _ _ (own_array p x Hp D)). now apply HG. }
  { reflexivity. }
  exists m'. split; [now apply tables_ok|]. split.
  - unfold update_ghosts. destruct (map _ ps) as [|c r] eqn:M.
    + apply (f_equal (@length _)) in M. rewrite map_length, zseq_length in M. cbn in M. lia.
    + assert (Ec : length (snd (snd c)) = length (msgs a seg flag 0 n 0)); [|rewrite Ec; exact E].
      assert (I : In c (map (fun p => (p, (bufn a p, msgs a seg flag 0 n p))) ps)) by (rewrite M; now left). apply in_map_iff in I as (p & <- & _). cbn [snd]. apply msgs_len.
  - split; [|split].
    + intros p l h x Hp D C F. rewrite dist_ok in D by auto. injection D as <- <-. assert (DB : done_box a flag n p x) by (apply filled_done; auto).
      split; [apply wrapped_place, DB|]. intros q Q. apply place_own in Q as (Q1 & Q2 & ->). change (ghost_cell _ _ _ _) with (cell a p x). rewrite A by auto. symmetry. now apply HG.
    + intros x q Q. apply place_own in Q as (Q1 & Q2 & ->). rewrite HG by auto. rewrite A; auto; [now rewrite (wrapv_id_array _ _ (own_array _ x Q1 Q2))|].
      assert (D0 : done_box a flag 0 (fst q) x) by (now apply done_0). clear -D0 HA. induction n as [|k IH]; [exact D0|]. now apply done_mono.
    + intros p s o O. apply B. intros Hp Es x D. apply filled_done in D as [D1 D2]; auto. apply (O (lo a p) (hi a p) x); auto using dist_ok.
Qed.
End F.
