(** Lemmas on the tree of sgai_bin_offset. *)
From Verif Require Import SpecBin MNb MHandle MSort MBin LRadix LNb LIterBC LIterBlk LStore LSparse.
From Coq Require Import Permutation.

(** Segments one behind the other. *)
Fixpoint laid (off x : Z -> Z) (o : Z) (l : list Z) : Prop :=
  match l with [] => True | q :: t => off q = o /\ laid off x (o + x q) t end.
Lemma laid_app off x l1 : forall o l2, laid off x o (l1 ++ l2) <-> laid off x o l1 /\ laid off x (o + zsum (map x l1)) l2.
Proof.
  induction l1 as [|a l IH]; intros o l2; cbn [app laid map zsum].
  - rewrite Z.add_0_r. tauto.
  - rewrite IH. rewrite Z.add_assoc. tauto.
Qed.
Lemma laid_at off x o o' l : laid off x o l -> o = o' -> laid off x o' l.
Proof. intros H <-. exact H. Qed.
Lemma laid_split off x l1 q l2 o : laid off x o (l1 ++ q :: l2) -> off q = o + zsum (map x l1).
Proof. intros H. apply laid_app in H. destruct H as [_ [H _]]. exact H. Qed.

Section tree.
Context (nproc : Z) (N : 1 <= nproc).
Local Notation L := (left_of nproc).
Local Notation R := (right_of nproc).
Lemma left_yes p : 2 * p + 1 < nproc -> L p = 2 * p + 1.
Proof. intros H. unfold left_of. destruct (Z.leb_spec nproc (2 * p + 1)); lia. Qed.
Lemma left_no p : nproc <= 2 * p + 1 -> L p = -1.
Proof. intros H. unfold left_of. destruct (Z.leb_spec nproc (2 * p + 1)); lia. Qed.
Lemma right_yes p : 2 * p + 2 < nproc -> R p = 2 * p + 2.
Proof. intros H. unfold right_of. destruct (Z.leb_spec nproc (2 * p + 2)); lia. Qed.
Lemma right_no p : nproc <= 2 * p + 2 -> R p = -1.
Proof. intros H. unfold right_of. destruct (Z.leb_spec nproc (2 * p + 2)); lia. Qed.

(** The processes of the subtree of [p]: left, right, own. *)
Fixpoint tree (fuel : nat) (p : Z) : list Z :=
  match fuel with
  | O => []
  | S f => (if 2 * p + 1 <? nproc then tree f (2 * p + 1) else []) ++ (if 2 * p + 2 <? nproc then tree f (2 * p + 2) else []) ++ [p]
  end.
Lemma tree_fuel : forall f f' p, 0 <= p < nproc -> nproc - p <= Z.of_nat f -> nproc - p <= Z.of_nat f' -> tree f p = tree f' p.
Proof.
  induction f as [|f IH]; intros f' p P F F'; [lia|]. destruct f' as [|f']; [lia|]. cbn [tree].
  f_equal; [|f_equal]; [destruct (Z.ltb_spec (2 * p + 1) nproc)|destruct (Z.ltb_spec (2 * p + 2) nproc)]; try reflexivity; apply IH; lia.
Qed.
Lemma tree_ge : forall f p q, 0 <= p -> In q (tree f p) -> p <= q < Z.max nproc (p + 1).
Proof.
  induction f as [|f IH]; intros p q P H; [destruct H|]. cbn [tree] in H. apply in_app_or in H. destruct H as [H|H].
  - destruct (Z.ltb_spec (2 * p + 1) nproc); [|destruct H]. apply IH in H; lia.
  - apply in_app_or in H. destruct H as [H|H]; [|destruct H as [->|[]]; lia].
    destruct (Z.ltb_spec (2 * p + 2) nproc); [|destruct H]. apply IH in H; lia.
Qed.
Lemma tree_self f p : In p (tree (S f) p).
Proof. cbn [tree]. apply in_or_app. right. apply in_or_app. right. left. reflexivity. Qed.
Lemma tree_child : forall f p q c, 0 <= p < nproc -> nproc - p <= Z.of_nat f -> In q (tree f p) -> c = 2 * q + 1 \/ c = 2 * q + 2 -> c < nproc -> In c (tree f p).
Proof.
  induction f as [|f IH]; intros p q c P F H C CN; [destruct H|]. cbn [tree] in *. apply in_app_or in H. destruct H as [H|H].
  - apply in_or_app. left. destruct (Z.ltb_spec (2 * p + 1) nproc); [|destruct H]. apply (IH _ q); lia || auto.
  - apply in_app_or in H. destruct H as [H|H].
    + apply in_or_app. right. apply in_or_app. left. destruct (Z.ltb_spec (2 * p + 2) nproc); [|destruct H]. apply (IH _ q); lia || auto.
    + destruct H as [->|[]]. assert (1 <= f)%nat as F1 by lia. destruct f as [|f]; [lia|]. destruct C as [->| ->].
      * apply in_or_app. left. destruct (Z.ltb_spec (2 * q + 1) nproc); [|lia]. apply tree_self.
      * apply in_or_app. right. apply in_or_app. left. destruct (Z.ltb_spec (2 * q + 2) nproc); [|lia]. apply tree_self.
Qed.
Lemma tree_parent : forall f p q, 0 <= p -> In q (tree f p) -> q <> p -> In ((q - 1) / 2) (tree f p).
Proof.
  assert (forall p, (2 * p + 1 - 1) / 2 = p) as D1 by (intros p; replace (2 * p + 1 - 1) with (p * 2) by lia; apply Z.div_mul; lia).
  assert (forall p, (2 * p + 2 - 1) / 2 = p) as D2 by (intros p; symmetry; apply (Z.div_unique _ 2 _ 1); lia).
  induction f as [|f IH]; intros p q P H NE; [destruct H|]. cbn [tree] in *. apply in_app_or in H. destruct H as [H|H].
  - destruct (Z.ltb_spec (2 * p + 1) nproc); [|destruct H]. destruct (Z.eq_dec q (2 * p + 1)) as [->|NQ].
    + rewrite D1. apply in_or_app. right. apply in_or_app. right. left. reflexivity.
    + apply in_or_app. left. apply IH; lia || auto.
  - apply in_app_or in H. destruct H as [H|H]; [|destruct H as [->|[]]; congruence].
    destruct (Z.ltb_spec (2 * p + 2) nproc); [|destruct H]. destruct (Z.eq_dec q (2 * p + 2)) as [->|NQ].
    + rewrite D2. apply in_or_app. right. apply in_or_app. right. left. reflexivity.
    + apply in_or_app. right. apply in_or_app. left. apply IH; lia || auto.
Qed.
Lemma tree_apart f p : 0 <= p -> forall k q, q < Z.of_nat k -> In q (tree f (2 * p + 1)) -> In q (tree f (2 * p + 2)) -> False.
Proof.
  intros P. induction k as [|k IH]; intros q K H1 H2.
  - apply tree_ge in H1; lia.
  - pose proof (tree_ge f (2 * p + 1) q ltac:(lia) H1). pose proof (tree_ge f (2 * p + 2) q ltac:(lia) H2).
    pose proof (tree_parent f (2 * p + 1) q ltac:(lia) H1 ltac:(lia)) as Q1. destruct (Z.eq_dec q (2 * p + 2)) as [->|NE].
    + apply tree_ge in Q1; [|lia]. assert ((2 * p + 2 - 1) / 2 = p) by (symmetry; apply (Z.div_unique _ 2 _ 1); lia). lia.
    + pose proof (tree_parent f (2 * p + 2) q ltac:(lia) H2 NE) as Q2. apply (IH ((q - 1) / 2)); auto.
      assert ((q - 1) / 2 < q) by (apply Z.div_lt_upper_bound; lia). lia.
Qed.
Lemma tree_NoDup : forall f p, 0 <= p -> NoDup (tree f p).
Proof.
  assert (forall (A : Type) (l1 l2 : list A), NoDup l1 -> NoDup l2 -> (forall a, In a l1 -> In a l2 -> False) -> NoDup (l1 ++ l2)) as AP.
  { intros A l1 l2 H1 H2 H. induction H1 as [|a l NI ND IH]; [exact H2|]. cbn. constructor.
    - intros I. apply in_app_or in I. destruct I as [I|I]; [contradiction|]. apply (H a); [left; reflexivity|exact I].
    - apply IH. intros b B1 B2. apply (H b); [right; exact B1|exact B2]. }
  induction f as [|f IH]; intros p P; [constructor|]. cbn [tree]. apply AP.
  - destruct (2 * p + 1 <? nproc); [apply IH; lia|constructor].
  - apply AP; [destruct (2 * p + 2 <? nproc); [apply IH; lia|constructor]|constructor; [intros []|constructor]|].
    intros a H1 [<-|[]]. destruct (Z.ltb_spec (2 * p + 2) nproc); [|destruct H1]. apply tree_ge in H1; lia.
  - intros a H1 H2. destruct (Z.ltb_spec (2 * p + 1) nproc); [|destruct H1]. apply in_app_or in H2. destruct H2 as [H2|[<-|[]]].
    + destruct (Z.ltb_spec (2 * p + 2) nproc); [|destruct H2]. apply (tree_apart f p P (S (Z.to_nat a)) a); auto. apply tree_ge in H1; lia.
    + apply tree_ge in H1; lia.
Qed.
Lemma tree_all : all_procs nproc (tree (Z.to_nat nproc) 0).
Proof.
  apply NoDup_Permutation; [apply tree_NoDup; lia|apply zseq_NoDup|]. intros q. rewrite zseq_In. split.
  - intros H. apply tree_ge in H; lia.
  - intros Q. assert (forall k q, q < Z.of_nat k -> 0 <= q < nproc -> In q (tree (Z.to_nat nproc) 0)) as G; [|apply (G (S (Z.to_nat q))); lia].
    clear q Q. induction k as [|k IH]; intros q K Q; [lia|]. destruct (Z.eq_dec q 0) as [->|NE].
    + replace (Z.to_nat nproc) with (S (Z.to_nat (nproc - 1))) by lia. apply tree_self.
    + pose proof (Z.div_mod (q - 1) 2 ltac:(lia)). pose proof (Z.mod_pos_bound (q - 1) 2 ltac:(lia)).
      apply (tree_child _ _ ((q - 1) / 2)); try lia. apply IH; lia.
Qed.

Context (x r : Z -> Z).
Lemma up_val_sum : forall f p, 0 <= p < nproc -> nproc - p <= Z.of_nat f -> up_val nproc x f p = zsum (map x (tree f p)).
Proof.
  induction f as [|f IH]; intros p P F; [lia|]. cbn [up_val tree]. rewrite !map_app, !zsum_app. cbn [map zsum].
  destruct (Z.ltb_spec (2 * p + 1) nproc) as [A|A].
  - rewrite left_yes by exact A. destruct (Z.ltb_spec (2 * p + 2) nproc) as [B|B].
    + rewrite right_yes by exact B. destruct (Z.ltb_spec (-1) (2 * p + 2)); [|lia]. destruct (Z.ltb_spec (-1) (2 * p + 1)); [|lia]. cbn [andb]. rewrite !IH by lia. lia.
    + rewrite right_no by exact B. cbn [Z.ltb Z.compare CompOpp andb Pos.compare Pos.compare_cont]. destruct (Z.ltb_spec (-1) (2 * p + 1)); [|lia]. rewrite IH by lia. cbn [map zsum]. lia.
  - rewrite left_no by exact A. rewrite right_no by lia. cbn [Z.ltb Z.compare CompOpp andb Pos.compare Pos.compare_cont].
    destruct (Z.ltb_spec (2 * p + 2) nproc); [lia|]. cbn [map zsum]. lia.
Qed.
Lemma down_fuel : forall f f' p, 0 <= p -> p < Z.of_nat f -> p < Z.of_nat f' -> down_val nproc x r f p = down_val nproc x r f' p.
Proof.
  induction f as [|f IH]; intros f' p P F F'; [lia|]. destruct f' as [|f']; [lia|]. cbn [down_val].
  destruct (Z.eqb_spec p 0) as [E|E]; [reflexivity|]. cbv zeta. rewrite (IH f' (up_of p)); [reflexivity| | |]; unfold up_of;
    pose proof (Z.quot_div_nonneg (p - 1) 2 ltac:(lia) ltac:(lia)) as Q; rewrite Q; pose proof (Z.div_mod (p - 1) 2 ltac:(lia)); pose proof (Z.mod_pos_bound (p - 1) 2 ltac:(lia)); lia.
Qed.

(** A process with a left child only must find zero in workR. *)
Hypothesis ZR : forall p, 0 <= p -> 2 * p + 2 = nproc -> r p = 0.
Local Notation down := (down_val nproc x r (Z.to_nat nproc)).
Local Notation sub p := (zsum (map x (tree (Z.to_nat nproc) p))).
Lemma down_left p : 0 <= p -> 2 * p + 1 < nproc -> down (2 * p + 1) = down p - x p - (if 2 * p + 2 <? nproc then sub (2 * p + 2) else 0).
Proof.
  intros P A. rewrite (down_fuel (Z.to_nat nproc) (S (Z.to_nat nproc)) (2 * p + 1)) by lia. cbn [down_val].
  destruct (Z.eqb_spec (2 * p + 1) 0); [lia|]. assert (up_of (2 * p + 1) = p) as ->.
  { unfold up_of. replace (2 * p + 1 - 1) with (p * 2) by lia. apply Z.quot_mul. lia. }
  unfold work_r. destruct (Z.ltb_spec (2 * p + 2) nproc) as [B|B].
  - rewrite right_yes by exact B. destruct (Z.eqb_spec (2 * p + 1) (2 * p + 2)); [lia|]. destruct (Z.ltb_spec (-1) (2 * p + 2)); [|lia].
    rewrite up_val_sum by lia. reflexivity.
  - rewrite right_no by exact B. destruct (Z.eqb_spec (2 * p + 1) (-1)); [lia|]. cbn [Z.ltb Z.compare CompOpp Pos.compare Pos.compare_cont]. rewrite ZR by lia. reflexivity.
Qed.
Lemma down_right p : 0 <= p -> 2 * p + 2 < nproc -> down (2 * p + 2) = down p - x p.
Proof.
  intros P B. rewrite (down_fuel (Z.to_nat nproc) (S (Z.to_nat nproc)) (2 * p + 2)) by lia. cbn [down_val].
  destruct (Z.eqb_spec (2 * p + 2) 0); [lia|]. assert (up_of (2 * p + 2) = p) as ->.
  { unfold up_of. rewrite Z.quot_div_nonneg by lia. symmetry. apply (Z.div_unique _ 2 _ 1); lia. }
  rewrite right_yes by exact B. rewrite Z.eqb_refl. reflexivity.
Qed.
Lemma offset_laid : forall f p, 0 <= p < nproc -> nproc - p <= Z.of_nat f -> 
  laid (bin_offset nproc x r) x (down p - zsum (map x (tree f p))) (tree f p).
Proof.
  induction f as [|f IH]; intros p P F; [lia|]. cbn [tree]. rewrite !map_app, !zsum_app. cbn [map zsum]. rewrite laid_app, laid_app. cbn [laid].
  assert (forall c, 0 <= c < nproc -> c > p -> tree f c = tree (Z.to_nat nproc) c) as TF by (intros c C1 C2; apply tree_fuel; lia).
  destruct (Z.ltb_spec (2 * p + 1) nproc) as [A|A].
  - destruct (Z.ltb_spec (2 * p + 2) nproc) as [B|B].
    + pose proof (down_left p ltac:(lia) A) as DL. pose proof (down_right p ltac:(lia) B) as DR.
      destruct (Z.ltb_spec (2 * p + 2) nproc); [|lia]. rewrite <- TF in DL by lia.
      pose proof (IH (2 * p + 1) ltac:(lia) ltac:(lia)) as I1. pose proof (IH (2 * p + 2) ltac:(lia) ltac:(lia)) as I2.
      repeat split.
      * eapply laid_at; [exact I1|]. lia.
      * eapply laid_at; [exact I2|]. lia.
      * unfold bin_offset. lia.
    + pose proof (down_left p ltac:(lia) A) as DL. destruct (Z.ltb_spec (2 * p + 2) nproc); [lia|].
      pose proof (IH (2 * p + 1) ltac:(lia) ltac:(lia)) as I1. cbn [map zsum laid]. repeat split.
      * eapply laid_at; [exact I1|]. lia.
      * unfold bin_offset. lia.
  - destruct (Z.ltb_spec (2 * p + 2) nproc); [lia|]. cbn [map zsum laid]. repeat split. unfold bin_offset. lia.
Qed.
Theorem bin_offset_laid : laid (bin_offset nproc x r) x 0 (tree (Z.to_nat nproc) 0).
Proof.
  pose proof (offset_laid (Z.to_nat nproc) 0 ltac:(lia) ltac:(lia)) as H. eapply laid_at; [exact H|].
  replace (down 0) with (up_val nproc x (Z.to_nat nproc) 0).
  - rewrite up_val_sum by lia. lia.
  - replace (Z.to_nat nproc) with (S (Z.to_nat (nproc - 1))) at 2 by lia. reflexivity.
Qed.
End tree.
