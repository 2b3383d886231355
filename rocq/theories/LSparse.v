(** Lemmas on operations with a mask: all processes, enumeration and copy. *)
From Verif Require Import SpecWf MDist MBase MNb MHandle LRadix LAxis LDist LDist2 LNb MSparse LLine.
From Coq Require Import Permutation.

(** Steps that only look at what is written: the order does not matter. *)
Lemma each_rel {V} (R : Z -> Z -> V -> V -> Prop) (f : Z -> (Z -> V) -> out (Z -> V)) ps :
  (forall p s, In p ps -> exists s', f p s = Done s' /\ forall x, R p x (s x) (s' x)) -> NoDup ps -> forall s,
  exists s', each f ps s = Done s' /\ forall x,
    (forall p, In p ps -> (forall q v v', In q ps -> q <> p -> R q x v v' -> v' = v) -> R p x (s x) (s' x)) /\
    ((forall q v v', In q ps -> R q x v v' -> v' = v) -> s' x = s x).
Proof.
  induction ps as [|p ps IH]; intros H ND s.
  - exists s. split; [reflexivity|]. intros x. split; [intros p []|auto].
  - inversion ND as [|? ? NI ND']; subst. destruct (H p s (or_introl eq_refl)) as (s1 & E1 & R1).
    destruct (IH (fun q s' Q => H q s' (or_intror Q)) ND' s1) as (s' & E' & R'). exists s'. cbn [each]. rewrite E1. split; [exact E'|].
    intros x. destruct (R' x) as [A B]. split.
    + intros q [<-|Q] O.
      * rewrite B; [apply R1|]. intros q v v' Q. apply O; [right; exact Q|]. intros ->. contradiction.
      * rewrite <- (O p (s x) (s1 x)); [|left; reflexivity|intros ->; contradiction|apply R1].
        apply A; [exact Q|]. intros q' v v' Q'. apply O. right. exact Q'.
    + intros O. rewrite B; [|intros q v v' Q; apply O; right; exact Q]. apply (O p); [left; reflexivity|apply R1].
Qed.

Lemma collect_ok {A} (f : Z -> out A) (h : Z -> A) ps : (forall p, In p ps -> f p = Done (h p)) -> collect f ps = Done (map h ps).
Proof.
  induction ps as [|p ps IH]; intros H; [reflexivity|]. cbn [collect map]. rewrite H by (left; reflexivity).
  rewrite IH by (intros q Q; apply H; right; exact Q). reflexivity.
Qed.
Lemma collect_rel {A} (R : Z -> A -> Prop) (f : Z -> out A) ps : (forall p, In p ps -> exists a, f p = Done a /\ R p a) ->
  exists l, collect f ps = Done l /\ Forall2 R ps l.
Proof.
  induction ps as [|p ps IH]; intros H; [exists []; split; [reflexivity|constructor]|].
  destruct (H p (or_introl eq_refl)) as (a & E & Ra). destruct IH as (l & El & Rl); [intros q Q; apply H; right; exact Q|].
  exists (a :: l). cbn [collect]. rewrite E, El. split; [reflexivity|constructor; assumption].
Qed.

Lemma all_procs_In nproc ps p : all_procs nproc ps -> In p ps -> 0 <= p < nproc.
Proof. intros H I. apply (Permutation_in _ H) in I. apply zseq_In in I. lia. Qed.
Lemma all_procs_all nproc ps p : all_procs nproc ps -> 0 <= p < nproc -> In p ps.
Proof. intros H I. apply (Permutation_in _ (Permutation_sym H)). apply zseq_In. lia. Qed.
Lemma all_procs_NoDup nproc ps : all_procs nproc ps -> NoDup ps.
Proof. intros H. apply (Permutation_NoDup (Permutation_sym H)). apply zseq_NoDup. Qed.

Section line.
Variables (guess : Z -> Z -> Z -> Z) (nproc : Z) (g : gadesc) (d n : Z) (b own : Z -> Z).
Hypothesis L : line guess nproc g d n b own.

Lemma line_blk x : 1 <= x <= d -> exists k, 0 <= k < n /\ b k <= x < b (k + 1).
Proof. intros X. destruct (ln_find _ _ _ _ _ _ _ L x X) as (k & K & B & _). exists k. auto. Qed.
Lemma line_b k : 0 <= k < n -> 1 <= b k < b (k + 1) /\ b (k + 1) <= d + 1.
Proof.
  intros K. pose proof (strict_mono b n (ln_inc _ _ _ _ _ _ _ L)) as M.
  pose proof (M 0 k ltac:(lia) ltac:(lia) ltac:(lia)). rewrite (ln_fst _ _ _ _ _ _ _ L) in *.
  pose proof (M (k + 1) n ltac:(lia) ltac:(lia) ltac:(lia)). rewrite (ln_last _ _ _ _ _ _ _ L) in *.
  pose proof (ln_inc _ _ _ _ _ _ _ L k K). lia.
Qed.
Lemma line_lt j k : 0 <= j -> j < k -> k < n -> b (j + 1) <= b k.
Proof. intros J JK K. pose proof (strict_mono b n (ln_inc _ _ _ _ _ _ _ L) (j + 1) k ltac:(lia) ltac:(lia) ltac:(lia)). lia. Qed.

(** Whether process [p] has subscript [x]. *)
Definition has (p x : Z) : Prop := exists k, 0 <= k < n /\ p = own k /\ b k <= x < b (k + 1).
Lemma has_own k x : 0 <= k < n -> has (own k) x <-> b k <= x < b (k + 1).
Proof.
  intros K. split; [|intros H; exists k; auto]. intros (j & J & E & B). apply (ln_inj _ _ _ _ _ _ _ L) in E; auto. subst. exact B.
Qed.
Lemma has_one p q x : has p x -> has q x -> p = q.
Proof. intros (j & J & -> & B) (k & K & -> & B'). f_equal. apply (strict_block b n x j k (ln_inc _ _ _ _ _ _ _ L)); auto. Qed.
Lemma has_some x : 1 <= x <= d -> exists p, 0 <= p < nproc /\ has p x.
Proof. intros X. destruct (line_blk x X) as (k & K & B). exists (own k). split; [apply (ln_own _ _ _ _ _ _ _ L k K)|exists k; auto]. Qed.
Lemma has_range p x : has p x -> 1 <= x <= d.
Proof. intros (k & K & _ & B). pose proof (line_b k K). lia. Qed.
Lemma has_dec p x : has p x \/ ~ has p x.
Proof.
  destruct (Z_le_dec 1 x); [|right; intros H; apply has_range in H; lia].
  destruct (Z_le_dec x d); [|right; intros H; apply has_range in H; lia].
  destruct (has_some x ltac:(lia)) as (q & _ & Q). destruct (Z.eq_dec p q) as [->|NE]; [left; exact Q|].
  right. intros H. apply NE. apply (has_one p q x); auto.
Qed.

(** A step that changes only what a process has. *)
Lemma each_line {V} (R : Z -> V -> V -> Prop) (f : Z -> (Z -> V) -> out (Z -> V)) ps (s : Z -> V) :
  all_procs nproc ps ->
  (forall k, 0 <= k < n -> forall s, exists s', f (own k) s = Done s' /\
     forall x, (b k <= x < b (k + 1) -> R x (s x) (s' x)) /\ (~ b k <= x < b (k + 1) -> s' x = s x)) ->
  (forall p s, dist1 g p = Done (0, -1) -> f p s = Done s) ->
  exists s', each f ps s = Done s' /\ (forall x, 1 <= x <= d -> R x (s x) (s' x)) /\ (forall x, ~ 1 <= x <= d -> s' x = s x).
Proof.
  intros AP H1 H2.
  destruct (each_rel (fun p x v v' => (has p x -> R x v v') /\ (~ has p x -> v' = v)) f ps) with (s := s) as (s' & E & H).
  - intros p s0 I. apply (all_procs_In nproc) in I; auto. destruct (ln_none _ _ _ _ _ _ _ L p I) as [(k & K & ->)|N].
    + destruct (H1 k K s0) as (s1 & E1 & A). exists s1. split; [exact E1|]. intros x. rewrite has_own by exact K. apply A.
    + exists s0. split; [apply H2; exact N|]. intros x. split; [|auto]. intros (k & K & -> & _). exfalso.
      rewrite (ln_dist _ _ _ _ _ _ _ L k K) in N. injection N as N1 N2. pose proof (line_b k K). lia.
  - apply (all_procs_NoDup nproc); auto.
  - exists s'. split; [exact E|]. split; intros x X; destruct (H x) as [A B].
    + destruct (has_some x X) as (p & P & HP). apply (A p); auto.
      * apply (all_procs_all nproc); auto.
      * intros q v v' Q NE [_ R']. apply R'. intros HQ. apply NE. apply (has_one q p x); auto.
    + apply B. intros q v v' Q [_ R']. apply R'. intros HQ. apply has_range in HQ. lia.
Qed.

Lemma access_ok k : 0 <= k < n -> access1 (b k) (b (k + 1) - 1) = Done tt.
Proof. intros K. unfold access1. pose proof (line_b k K). destruct (Z.leb_spec (b k) (b (k + 1) - 1)); [reflexivity|lia]. Qed.

(** * Enumeration *)
Lemma enum_loop_spec {V} (val : Z -> V) m : forall i lop off a x,
  enum_loop val m i lop off a x = if (lop + i <=? x) && (x <? lop + i + Z.of_nat m) then val (off + (x - lop)) else a x.
Proof.
  induction m as [|m IH]; intros i lop off a x; cbn [enum_loop].
  - destruct (Z.leb_spec (lop + i) x), (Z.ltb_spec x (lop + i + Z.of_nat 0)); cbn [andb]; try reflexivity. lia.
  - rewrite IH. destruct (Z.eq_dec x (lop + i)) as [->|NE].
    + rewrite fset_same. destruct (Z.leb_spec (lop + (i + 1)) (lop + i)); [lia|]. cbn [andb].
      destruct (Z.leb_spec (lop + i) (lop + i)); [|lia]. destruct (Z.ltb_spec (lop + i) (lop + i + Z.of_nat (S m))); [|lia]. cbn [andb]. f_equal. lia.
    + rewrite fset_other by exact NE.
      destruct (Z.leb_spec (lop + (i + 1)) x), (Z.leb_spec (lop + i) x); cbn [andb]; try lia; try reflexivity.
      replace (lop + (i + 1) + Z.of_nat m) with (lop + i + Z.of_nat (S m)) by lia. reflexivity.
Qed.
Theorem patch_enum_ok {V} (val : Z -> V) lo hi ps a : all_procs nproc ps -> lo <= hi ->
  exists a', patch_enum g ps val lo hi a = Done a' /\ forall x,
    (1 <= x <= d -> lo <= x <= hi -> a' x = val (x - lo)) /\ (~ (1 <= x <= d /\ lo <= x <= hi) -> a' x = a x).
Proof.
  intros AP LH. destruct (each_line (fun x v v' => (lo <= x <= hi -> v' = val (x - lo)) /\ (~ lo <= x <= hi -> v' = v)) (patch_enum1 g val lo hi) ps a AP)
    as (a' & E & A & B).
  - intros k K s. unfold patch_enum1. rewrite (ln_dist _ _ _ _ _ _ _ L k K). pose proof (line_b k K) as BK.
    destruct (Z.ltb_spec 0 (b k)); [|lia].
    destruct (Z.ltb_spec hi (b k)); [exists s; split; [reflexivity|]; intros x; split; [intros X; split; [lia|auto]|auto]|].
    destruct (Z.ltb_spec (b (k + 1) - 1) lo); [exists s; split; [reflexivity|]; intros x; split; [intros X; split; [lia|auto]|auto]|].
    cbn [orb].
    destruct (Z.ltb_spec (b k) lo); destruct (Z.ltb_spec hi (b (k + 1) - 1)); unfold access1;
    lazymatch goal with |- context [Z.leb ?u ?v] => destruct (Z.leb_spec u v) end.
    all: try lia.
    all: eexists; split; [reflexivity|]; intros x; rewrite enum_loop_spec.
    all: lazymatch goal with |- context [Z.leb ?u ?v && Z.ltb ?x ?w] => destruct (Z.leb_spec u v), (Z.ltb_spec x w) end; cbn [andb].
    all: split; [intros X; split|]; intros; try reflexivity; try lia; f_equal; lia.
  - intros p s E. unfold patch_enum1. rewrite E. reflexivity.
  - exists a'. split; [exact E|]. intros x. split.
    + intros X Y. apply A; auto.
    + intros N. destruct (Z_le_dec 1 x), (Z_le_dec x d); try (apply B; lia). apply A; lia.
Qed.


(** * The last set subscripts *)
Variables (msk : Z -> bool) (lo hi : Z).
Hypothesis LO : 1 <= lo.

Lemma last_dec l h : (exists j, last_set msk l h j) \/ none_set msk l h.
Proof.
  destruct (Z_le_dec l h) as [LH|LH]; [|right; intros k K; lia].
  remember (Z.to_nat (h - l)) as m eqn:E. revert h LH E. induction m as [|m IH]; intros h LH E.
  - replace h with l by lia. destruct (msk l) eqn:M; [left; exists l|right]; [split; [lia|split; [exact M|lia]]|]. intros k K. replace k with l by lia. exact M.
  - destruct (msk h) eqn:M; [left; exists h; split; [lia|split; [exact M|lia]]|].
    destruct (IH (h - 1) ltac:(lia) ltac:(lia)) as [(j & A & B & C)|N].
    + left. exists j. split; [lia|split; [exact B|]]. intros k K. destruct (Z.eq_dec k h) as [->|]; [exact M|apply C; lia].
    + right. intros k K. destruct (Z.eq_dec k h) as [->|]; [exact M|apply N; lia].
Qed.
Lemma last_one l h i j : last_set msk l h i -> last_set msk l h j -> i = j.
Proof.
  intros (A & B & C) (A' & B' & C'). destruct (Z.lt_trichotomy i j) as [H|[H|H]]; [|exact H|].
  - rewrite C in B' by lia. discriminate.
  - rewrite C' in B by lia. discriminate.
Qed.

(** [r] is the last set subscript of [l..h], or -1 and there is none. *)
Definition lastr (l h r : Z) : Prop := last_set msk l h r \/ r = -1 /\ none_set msk l h.

Lemma lim_loop_spec m : forall i lop r, 0 <= i -> lastr (Z.max lo lop) (Z.min hi (lop + i - 1)) r ->
  lastr (Z.max lo lop) (Z.min hi (lop + i + Z.of_nat m - 1)) (lim_loop msk m i lop lo hi r).
Proof.
  induction m as [|m IH]; intros i lop r I H; cbn [lim_loop].
  - replace (lop + i + Z.of_nat 0 - 1) with (lop + i - 1) by lia. exact H.
  - replace (lop + i + Z.of_nat (S m) - 1) with (lop + (i + 1) + Z.of_nat m - 1) by lia. apply IH; [lia|]. clear IH.
    replace (lop + (i + 1) - 1) with (lop + i) by lia. rewrite (Z.add_comm i lop). destruct (msk (lop + i)) eqn:M.
    + destruct (Z.leb_spec lo (lop + i)), (Z.leb_spec (lop + i) hi); cbn [andb].
      * left. split; [lia|split; [exact M|lia]].
      * replace (Z.min hi (lop + i)) with (Z.min hi (lop + i - 1)) by lia. exact H.
      * destruct H as [(A & _)|(-> & N)]; [lia|]. right. split; [reflexivity|]. intros k K. lia.
      * destruct H as [(A & _)|(-> & N)]; [lia|]. right. split; [reflexivity|]. intros k K. lia.
    + destruct H as [(A & B & C)|(-> & N)].
      * left. split; [lia|split; [exact B|]]. intros k K. destruct (Z.eq_dec k (lop + i)) as [->|]; [exact M|apply C; lia].
      * right. split; [reflexivity|]. intros k K. destruct (Z.eq_dec k (lop + i)) as [->|]; [exact M|apply N; lia].
Qed.
Lemma lim_of_spec p : 0 <= p < nproc -> exists r, lim_of g msk lo hi p = Done r /\ ((exists k, 0 <= k < n /\ p = own k /\ lastr (Z.max lo (b k)) (Z.min hi (b (k + 1) - 1)) r) \/ r = -1).
Proof.
  intros P. unfold lim_of. destruct (ln_none _ _ _ _ _ _ _ L p P) as [(k & K & ->)|E].
  - rewrite (ln_dist _ _ _ _ _ _ _ L k K). pose proof (line_b k K) as BK. destruct (Z.ltb_spec 0 (b k)); [|lia].
    rewrite access_ok by exact K. eexists. split; [reflexivity|]. left. exists k. split; [exact K|]. split; [reflexivity|].
    replace (Z.min hi (b (k + 1) - 1)) with (Z.min hi (b k + 0 + Z.of_nat (Z.to_nat (b (k + 1) - 1 - b k + 1)) - 1)) by lia.
    apply lim_loop_spec; [lia|]. right. split; [reflexivity|]. intros j J. lia.
  - rewrite E. exists (-1). split; [reflexivity|right; reflexivity].
Qed.
Definition limr (p r : Z) : Prop :=
  (exists k, 0 <= k < n /\ p = own k /\ lastr (Z.max lo (b k)) (Z.min hi (b (k + 1) - 1)) r) \/ r = -1 /\ forall k, 0 <= k < n -> p <> own k.
Lemma lims_spec : exists ls, lims g nproc msk lo hi = Done ls /\ Forall2 limr (zseq 0 (Z.to_nat nproc)) ls.
Proof.
  apply collect_rel. intros p I. apply zseq_In in I. assert (0 <= p < nproc) as P by lia.
  destruct (lim_of_spec p P) as (r & E & _). exists r. split; [exact E|]. unfold lim_of in E.
  destruct (ln_none _ _ _ _ _ _ _ L p P) as [(k & K & ->)|N].
  - destruct (lim_of_spec (own k) P) as (r' & E' & H). unfold lim_of in E'. rewrite E' in E. injection E as <-.
    destruct H as [H|H]; [left; exact H|]. left. exists k. split; [exact K|]. split; [reflexivity|].
    rewrite (ln_dist _ _ _ _ _ _ _ L k K) in E'. pose proof (line_b k K) as BK. destruct (Z.ltb_spec 0 (b k)); [|lia].
    rewrite access_ok in E' by exact K. injection E' as E'. rewrite <- E'.
    replace (Z.min hi (b (k + 1) - 1)) with (Z.min hi (b k + 0 + Z.of_nat (Z.to_nat (b (k + 1) - 1 - b k + 1)) - 1)) by lia.
    apply lim_loop_spec; [lia|]. right. split; [reflexivity|]. intros j J. lia.
  - rewrite N in E. injection E as <-. right. split; [reflexivity|]. intros k K ->.
    rewrite (ln_dist _ _ _ _ _ _ _ L k K) in N. injection N as N1 N2. pose proof (line_b k K). lia.
Qed.

Lemma rmt_loop_spec lop ls : forall r, -1 <= r < lop -> let r' := rmt_loop lop ls r in
  -1 <= r' < lop /\ (r' = r \/ In r' ls) /\ r <= r' /\ forall x, In x ls -> x < lop -> 0 <= x -> x <= r'.
Proof.
  induction ls as [|y ls IH]; intros r H; cbn [rmt_loop]; [cbn [In]; split; [lia|split; [auto|split; [lia|tauto]]]|].
  assert (-1 <= (if negb (-1 =? y) && (r <? y) && (y <? lop) then y else r) < lop) as H1.
  { destruct (Z.eqb_spec (-1) y), (Z.ltb_spec r y), (Z.ltb_spec y lop); cbn [negb andb]; lia. }
  destruct (IH _ H1) as (A & B & C & D). split; [exact A|]. split; [|split].
  - destruct B as [B|B]; [|right; right; exact B]. rewrite B.
    destruct (negb (-1 =? y) && (r <? y) && (y <? lop)); [right; left; reflexivity|left; reflexivity].
  - destruct (Z.eqb_spec (-1) y), (Z.ltb_spec r y), (Z.ltb_spec y lop); cbn [negb andb] in C |- *; lia.
  - intros x [->|X] Y Z0; [|apply D; auto]. destruct (Z.eqb_spec (-1) x), (Z.ltb_spec r x), (Z.ltb_spec x lop); cbn [negb andb] in C |- *; lia.
Qed.
Lemma rmt_spec ls k : Forall2 limr (zseq 0 (Z.to_nat nproc)) ls -> 0 <= k < n -> b k <= hi -> lastr lo (b k - 1) (rmt_loop (b k) ls (-1)).
Proof.
  intros F K BH. pose proof (line_b k K) as BK. destruct (rmt_loop_spec (b k) ls (-1) ltac:(lia)) as (A & B & C & D).
  set (r := rmt_loop (b k) ls (-1)) in *. clearbody r.
  assert (forall y, lo <= y <= b k - 1 -> msk y = true -> y <= r) as UB.
  { intros y Y M. destruct (line_blk y ltac:(lia)) as (j & J & BJ).
    assert (j < k) as JK. { destruct (Z_lt_ge_dec j k) as [|G]; [assumption|]. destruct (Z.eq_dec j k) as [->|]; [lia|]. pose proof (line_lt k j ltac:(lia) ltac:(lia) ltac:(lia)). lia. }
    pose proof (line_lt j k ltac:(lia) JK ltac:(lia)) as LT.
    pose proof (ln_own _ _ _ _ _ _ _ L j J) as OJ.
    assert (exists x, In x ls /\ limr (own j) x) as (x & X & LX).
    { assert (In (own j) (zseq 0 (Z.to_nat nproc))) as I by (apply zseq_In; lia). clear - F I. induction F as [|? ? ? ? H F IH]; [destruct I|].
      destruct I as [->|I]; [exists y; split; [left; reflexivity|exact H]|]. destruct (IH I) as (x' & ? & ?). exists x'. split; [right|]; assumption. }
    destruct LX as [(j' & J' & EJ & LX)|(_ & N)]; [|exfalso; apply (N j J); reflexivity].
    apply (ln_inj _ _ _ _ _ _ _ L) in EJ; auto. subst j'. destruct LX as [(X1 & X2 & X3)|(-> & N)].
    - assert (y <= x). { destruct (Z_le_gt_dec y x) as [|G]; [assumption|]. rewrite X3 in M by lia. discriminate. }
      specialize (D x X ltac:(lia) ltac:(lia)). lia.
    - rewrite N in M by lia. discriminate. }
  destruct (Z.eq_dec r (-1)) as [E|NE].
  - right. split; [exact E|]. intros y Y. destruct (msk y) eqn:M; [|reflexivity]. specialize (UB y Y M). lia.
  - left. destruct B as [B|B]; [contradiction|].
    assert (exists p, limr p r) as (p & [(j & J & _ & LX)|(X & _)]); [|destruct LX as [(X1 & X2 & X3)|(X & _)]; [|contradiction]|contradiction].
    { clear - F B. induction F as [|p ? ? ? H F IH]; [destruct B|]. destruct B as [<-|B]; [exists p; exact H|exact (IH B)]. }
    split; [lia|]. split; [exact X2|]. intros y Y. destruct (msk y) eqn:M; [|reflexivity]. specialize (UB y ltac:(lia) M). lia.
Qed.

(** * Copy *)
Lemma copy_loop_spec {V} (src : Z -> V) m : forall i lop last dst x,
  let l := lop + i in
  (~ l <= x < l + Z.of_nat m -> copy_loop msk src m i lop last dst x = dst x) /\ (l <= x < l + Z.of_nat m -> forall j, last_set msk l x j -> copy_loop msk src m i lop last dst x = src j) /\ (l <= x < l + Z.of_nat m -> none_set msk l x -> copy_loop msk src m i lop last dst x = last).
Proof.
  induction m as [|m IH]; intros i lop last dst x l; cbn [copy_loop]; [split; [reflexivity|split; intros; lia]|].
  set (last' := if msk (lop + i) then src (lop + i) else last).
  destruct (IH (i + 1) lop last' (fset dst (lop + i) last') x) as (A & B & C). replace (lop + (i + 1)) with (l + 1) in * by lia. fold l. fold l in A, B, C.
  split; [|split].
  - intros X. rewrite A by lia. apply fset_other. lia.
  - intros X j (J1 & J2 & J3). destruct (Z.eq_dec x l) as [->|NE].
    + rewrite A by lia. rewrite fset_same. replace j with l in * by lia. unfold last'. fold l. rewrite J2. reflexivity.
    + destruct (Z.eq_dec j l) as [->|NJ].
      * rewrite C; [|lia|intros y Y; apply J3; lia]. unfold last'. fold l. rewrite J2. reflexivity.
      * apply B; [lia|]. split; [lia|]. split; [exact J2|exact J3].
  - intros X N. assert (last' = last) as EL by (unfold last'; fold l; rewrite N by lia; reflexivity).
    destruct (Z.eq_dec x l) as [->|NE].
    + rewrite A by lia. rewrite fset_same. exact EL.
    + rewrite C; [exact EL|lia|]. intros y Y. apply N. lia.
Qed.
Theorem scan_copy_ok {V} (zero : V) (src : Z -> V) ps dst : all_procs nproc ps -> lo <= hi -> hi <= d ->
  exists dst', scan_copy zero g nproc ps msk src lo hi dst = Done dst' /\ forall x,
    (lo <= x <= hi -> forall j, last_set msk lo x j -> dst' x = src j) /\ (lo <= x <= hi -> none_set msk lo x -> dst' x = zero) /\ (~ lo <= x <= hi -> dst' x = dst x).
Proof.
  intros AP LH HD. unfold scan_copy. destruct lims_spec as (ls & -> & F).
  destruct (each_line (fun x v v' => (lo <= x <= hi -> forall j, last_set msk lo x j -> v' = src j) /\ (lo <= x <= hi -> none_set msk lo x -> v' = zero) /\ (~ lo <= x <= hi -> v' = v)) (scan_copy1 zero g msk src lo hi ls) ps dst AP) as (s' & E & A & B).
  - intros k K s. unfold scan_copy1. rewrite (ln_dist _ _ _ _ _ _ _ L k K). pose proof (line_b k K) as BK.
    destruct (Z.ltb_spec hi (b k)); [exists s; split; [reflexivity|]; intros x; split; [intros X; split; [lia|split; [lia|auto]]|auto]|].
    destruct (Z.ltb_spec (b (k + 1) - 1) lo); [exists s; split; [reflexivity|]; intros x; split; [intros X; split; [lia|split; [lia|auto]]|auto]|].
    cbn [orb]. rewrite access_ok by exact K. eexists. split; [reflexivity|]. intros x.
    pose proof (rmt_spec ls k F K ltac:(lia)) as RM. set (r := rmt_loop (b k) ls (-1)) in *. clearbody r.
    assert (b k + start_of (b k) lo = Z.max lo (b k)) as ES by (unfold start_of; destruct (Z.ltb_spec (b k) lo); lia).
    assert (b k + start_of (b k) lo + Z.of_nat (Z.to_nat (stop_of (b k) (b (k + 1) - 1) hi - start_of (b k) lo)) = Z.min hi (b (k + 1) - 1) + 1) as EE.
    { unfold start_of, stop_of. destruct (Z.ltb_spec (b k) lo), (Z.ltb_spec hi (b (k + 1) - 1)); lia. }
    destruct (copy_loop_spec src (Z.to_nat (stop_of (b k) (b (k + 1) - 1) hi - start_of (b k) lo)) (start_of (b k) lo) (b k) (if -1 =? r then zero else src r) s x) as (C1 & C2 & C3).
    rewrite EE, ES in *. split.
    + intros X. split; [|split].
      * intros Y j (J1 & J2 & J3). destruct (Z_le_gt_dec (Z.max lo (b k)) j) as [G|G].
        -- apply C2; [lia|]. split; [lia|]. split; [exact J2|exact J3].
        -- rewrite C3; [|lia|intros y Y'; apply J3; lia]. destruct RM as [RM|(-> & N)]; [|rewrite N in J2 by lia; discriminate].
           assert (r = j) as ->. { apply (last_one lo (b k - 1)); [exact RM|]. split; [lia|]. split; [exact J2|intros y Y'; apply J3; lia]. }
           destruct (Z.eqb_spec (-1) j); [lia|reflexivity].
      * intros Y N. rewrite C3; [|lia|intros y Y'; apply N; lia]. destruct RM as [(R1 & R2 & _)|(-> & _)]; [|reflexivity].
        rewrite N in R2 by lia. discriminate.
      * intros Y. apply C1. lia.
    + intros X. apply C1. lia.
  - intros p s Ep. unfold scan_copy1. rewrite Ep. destruct (Z.ltb_spec (-1) lo); [|lia]. rewrite orb_true_r. reflexivity.
  - exists s'. split; [exact E|]. intros x. destruct (Z_le_dec 1 x), (Z_le_dec x d); try (split; [lia|split; [lia|intros _; apply B; lia]]). apply A. lia.
Qed.
End line.
