(** Lemmas on splitting process groups. *)
From Verif Require Import SpecGroup MBase MNb MHandle MGroup LRadix LDist LNb LIterBlk LGroup.

(** The groups that the loop creates, with the value of [i] at which it does. *)
Fixpoint split_pure (fuel : nat) (i gs : Z) (nodes : list Z) : list (Z * list Z) * list Z :=
  match fuel with
  | O => ([], nodes)
  | S f => if (Z.rem (Z.of_nat (length nodes)) gs =? 0) && (0 <? i)
           then let r := split_pure f (i + 1) gs [i] in ((i, nodes) :: fst r, snd r)
           else split_pure f (i + 1) gs (nodes ++ [i])
  end.
Lemma chunks_shift base gs T a :
  map (fun t => (base + gs + gs * (t + 1), zseq (base + gs + gs * t) (Z.to_nat gs))) (zseq a T) =
  map (fun t => (base + gs * (t + 1), zseq (base + gs * t) (Z.to_nat gs))) (zseq (a + 1) T).
Proof.
  revert a; induction T as [|T IHT]; intros a; cbn [zseq map]; auto.
  f_equal; [f_equal; [|f_equal]; ring|]. apply IHT.
Qed.
Lemma split_pure_ok gs : 0 < gs -> forall f base c, 0 <= base -> 1 <= Z.of_nat c <= gs ->
  exists T rest, split_pure f (base + Z.of_nat c) gs (zseq base c) =
    (map (fun t => (base + gs * (t + 1), zseq (base + gs * t) (Z.to_nat gs))) (zseq 0 T), zseq (base + gs * Z.of_nat T) rest) /\
    1 <= Z.of_nat rest <= gs /\ base + gs * Z.of_nat T + Z.of_nat rest = base + Z.of_nat c + Z.of_nat f.
Proof.
  intros G; induction f as [|f IH]; intros base c B C; cbn [split_pure].
  - exists O, c. cbn [zseq map]. replace (base + gs * Z.of_nat 0) with base by lia. repeat split; auto; lia.
  - rewrite zseq_length. destruct (Z.ltb_spec 0 (base + Z.of_nat c)); [|lia]. rewrite andb_true_r.
    destruct (Z.eqb_spec (Z.rem (Z.of_nat c) gs) 0) as [E|N].
    + assert (EC : Z.of_nat c = gs).
      { rewrite Z.rem_mod_nonneg in E by lia. destruct (Z.eq_dec (Z.of_nat c) gs); auto. rewrite Z.mod_small in E by lia. lia. }
      destruct (IH (base + gs) 1%nat) as (T & rest & E1 & E2 & E3); try lia.
      cbn [zseq] in E1. replace (base + Z.of_nat c) with (base + gs) by lia.
      replace (base + gs + 1) with (base + gs + Z.of_nat 1) by lia. rewrite E1. cbn [fst snd].
      exists (S T), rest. split; [|split; lia]. cbn [zseq map]. f_equal.
      * f_equal; [f_equal; [lia|]; replace c with (Z.to_nat gs) by lia; f_equal; lia|]. apply chunks_shift.
      * f_equal. lia.
    + assert (c <> Z.to_nat gs) by (intros ->; apply N; rewrite Z2Nat.id by lia; apply Z.rem_same; lia).
      destruct (IH base (S c)) as (T & rest & E1 & E2 & E3); try lia.
      exists T, rest. split; [|split; auto; lia]. rewrite <- E1. f_equal; [lia|].
      replace (S c) with (c + 1)%nat by lia. rewrite zseq_app. reflexivity.
Qed.
Lemma split_pure_start gs np : 0 < gs -> 1 <= np ->
  exists T rest, split_pure (Z.to_nat np) 0 gs [] =
    (map (fun t => (gs * (t + 1), zseq (gs * t) (Z.to_nat gs))) (zseq 0 T), zseq (gs * Z.of_nat T) rest) /\
    1 <= Z.of_nat rest <= gs /\ gs * Z.of_nat T + Z.of_nat rest = np.
Proof.
  intros G H. destruct (split_pure_ok gs G (Z.to_nat np - 1) 0 1) as (T & rest & E1 & E2 & E3); try lia.
  exists T, rest. split; [|split; auto; lia].
  replace (Z.to_nat np) with (S (Z.to_nat np - 1)) by lia. cbn [split_pure]. rewrite andb_false_r. cbn [app]. exact E1.
Qed.

(** Handles that are not in use. *)
Definition gfree (max : Z) (b : gbook) : list Z := filter (fun h => match gb_grp b h with None => true | Some _ => false end) (zseq 1 (Z.to_nat (max - 1))).
Lemma gfree_In max b h : In h (gfree max b) <-> ghandle_ok max h /\ gb_grp b h = None.
Proof.
  unfold gfree, ghandle_ok; rewrite filter_In, zseq_In. destruct (gb_grp b h); split; intros []; split; auto; try lia; try discriminate.
Qed.
Lemma gfree_room max b : (1 <= length (gfree max b))%nat -> groom max b.
Proof. intros H. destruct (gfree max b) as [|h l] eqn:E; [cbn in H; lia|]. exists h. apply gfree_In; rewrite E; cbn; auto. Qed.
Lemma filter_one (f g : Z -> bool) h : forall l, NoDup l -> In h l -> f h = true -> g h = false -> (forall x, x <> h -> g x = f x) ->
  length (filter f l) = S (length (filter g l)).
Proof.
  induction l as [|x l IH]; intros ND I F G E; [contradiction|]. inversion ND as [|? ? NI ND']; subst. cbn [filter].
  destruct (Z.eq_dec x h) as [->|N].
  - rewrite F, G; cbn [length]; f_equal. f_equal. apply filter_ext_in. intros y J. symmetry; apply E. intros ->; contradiction.
  - rewrite (E x N). destruct I as [->|I]; [contradiction|]. destruct (f x); cbn [length]; rewrite IH; auto.
Qed.
Lemma gfree_create max b h c par d : ghandle_ok max h -> gb_grp b h = None ->
  length (gfree max b) = S (length (gfree max (GBook (gput (gb_grp b) h (Some c)) par d))).
Proof.
  intros H N. unfold gfree. apply (filter_one _ _ h); cbn [gb_grp].
  - apply zseq_NoDup.
  - apply zseq_In; unfold ghandle_ok in H; lia.
  - now rewrite N.
  - unfold gput; now rewrite Z.eqb_refl.
  - intros x NX; unfold gput. destruct (Z.eqb_spec x h); [contradiction|auto].
Qed.

(** Creating the groups with the lists of ranks [ls] one after the other. *)
Inductive creates (n max : Z) (d : Z) (gm : list Z) : gbook -> list (list Z) -> list Z -> gbook -> Prop :=
| C_nil b : creates n max d gm b [] [] b
| C_cons b l h c ls hs b' : ghandle_ok max h -> gb_grp b h = None -> chosen gm l c ->
    creates n max d gm (GBook (gput (gb_grp b) h (Some c)) (gput (gb_par b) h d) d) ls hs b' -> creates n max d gm b (l :: ls) (h :: hs) b'.
Lemma creates_app n max d gm b ls hs b1 l h c : creates n max d gm b ls hs b1 -> ghandle_ok max h -> gb_grp b1 h = None -> chosen gm l c ->
  creates n max d gm b (ls ++ [l]) (hs ++ [h]) (GBook (gput (gb_grp b1) h (Some c)) (gput (gb_par b1) h d) d).
Proof.
  intros C; induction C as [b|b l1 h1 c1 ls hs b' H1 H2 H3 C IH]; intros A1 A2 A3; cbn [app].
  - econstructor; eauto. constructor.
  - econstructor; eauto.
Qed.
Lemma creates_grp n max d gm b ls hs b1 : creates n max d gm b ls hs b1 ->
  length hs = length ls /\ (forall h c, gb_grp b h = Some c -> gb_grp b1 h = Some c) /\
  (forall h, ~ In h hs -> gb_grp b1 h = gb_grp b h) /\ NoDup hs /\ (forall h, In h hs -> gb_grp b h = None /\ ghandle_ok max h) /\
  (forall j l, nth_error ls j = Some l -> exists h c, nth_error hs j = Some h /\ gb_grp b1 h = Some c /\ chosen gm l c).
Proof.
  induction 1 as [b|b l h c ls hs b' HO HN HC CR (L & P & Q & ND & FR & G)].
  - repeat split; auto; try constructor; try contradiction. intros [|j] l; discriminate.
  - assert (PS : gput (gb_grp b) h (Some c) h = Some c) by (unfold gput; now rewrite Z.eqb_refl).
    assert (PO : forall h', h' <> h -> gput (gb_grp b) h (Some c) h' = gb_grp b h') by (intros h' N; unfold gput; destruct (Z.eqb_spec h' h); congruence).
    cbn [gb_grp] in *. split; [cbn; congruence|]. split; [|split; [|split; [|split]]].
    + intros h' c' E. apply P. rewrite PO by congruence. auto.
    + intros h' NI. cbn in NI. rewrite Q by tauto. apply PO. intros ->; tauto.
    + constructor; auto. intros I. apply FR in I. destruct I as [I _]. rewrite PS in I; discriminate.
    + intros h' [<-|I]; [auto|]. destruct (FR h' I) as [F1 F2]. split; auto. destruct (Z.eq_dec h' h) as [->|N]; auto. rewrite <- F1; symmetry; auto.
    + intros [|j] l' E; cbn [nth_error] in *; [injection E as <-|auto]. exists h, c. repeat split; auto.
Qed.

Lemma split_loop_ok k g gm gs fin : (g = -1 \/ 1 <= g) -> 0 < gs -> forall f i s b nodes ret,
  gsim k s b -> gb_def b = g -> gmembers (gc_n k) b g = Some gm ->
  (forall j l, In (j, l) (fst (split_pure f i gs nodes)) -> NoDup l /\ forall r, In r l -> 0 <= r < Z.of_nat (length gm)) ->
  (length (fst (split_pure f i gs nodes)) <= length (gfree (gc_max k) b))%nat ->
  exists s' b' hs, split_loop f k s i gs fin nodes ret =
     Done (s', (snd (split_pure f i gs nodes),
       fold_left (fun a p => if fst (fst p) =? fin + 1 then snd p else a) (combine (fst (split_pure f i gs nodes)) hs) ret)) /\
    gsim k s' b' /\ creates (gc_n k) (gc_max k) g gm b (map snd (fst (split_pure f i gs nodes))) hs b' /\ gb_def b' = g /\
    gmembers (gc_n k) b' g = Some gm /\ (length (gfree (gc_max k) b) = length hs + length (gfree (gc_max k) b'))%nat.
Proof.
  intros HG G; induction f as [|f IH]; intros i s b nodes ret S D GM OK RM; cbn [split_pure split_loop] in *.
  - cbn [fst snd map combine fold_left]. exists s, b, []. split; auto. split; auto. split; [constructor|]. auto.
  - destruct ((Z.rem (Z.of_nat (length nodes)) gs =? 0) && (0 <? i)) eqn:E; [|apply IH; auto].
    cbn [fst snd map length] in *.
    destruct (OK i nodes (or_introl eq_refl)) as [ND HB].
    destruct (create_sim k s b nodes S) as (s1 & h & c & pm & E1 & H1 & H2 & H3 & H4 & H5).
    { split; [apply gfree_room; lia|]. split; auto. exists gm; rewrite D; auto. }
    rewrite E1. cbn [fst snd]. rewrite D in *. rewrite GM in H3; injection H3 as <-.
    assert (GM1 : gmembers (gc_n k) (GBook (gput (gb_grp b) h (Some c)) (gput (gb_par b) h g) g) g = Some gm).
    { unfold gmembers in *. destruct (Z.eqb_spec g (-1)); auto. cbn [gb_grp]. unfold gput. destruct (Z.eqb_spec g h); [congruence|auto]. }
    pose proof (gfree_create (gc_max k) b h c (gput (gb_par b) h g) g H1 H2) as FR.
    destruct (IH (i + 1) s1 _ [i] (if i =? fin + 1 then h else ret) H5 eq_refl GM1) as (s' & b' & hs & F1 & F2 & F3 & F4 & F5 & F6); [intros j l J; apply (OK j l); right; exact J|lia|].
    cbn [app] in *. rewrite F1. exists s', b', (h :: hs). cbn [combine fold_left fst snd length].
    split; [auto|]. split; [auto|]. split; [econstructor; eauto|]. split; auto. split; auto. lia.
Qed.

Lemma sim_nnodes k s b g gm : gsim k s b -> gt_def s = g -> gb_def b = g -> gmembers (gc_n k) b g = Some gm -> nnodes k s = Done (Z.of_nat (length gm)).
Proof.
  intros S D D' GM. unfold nnodes. rewrite D. unfold gmembers in GM. destruct (Z.eqb_spec g (-1)) as [->|N].
  - injection GM as <-. cbn. rewrite zseq_length. destruct (gs_cfg _ _ _ S). f_equal; lia.
  - destruct (gs_live _ _ _ S _ _ GM) as (H1 & H2 & H3 & mp & inv & id & T & M & F & NI).
    destruct (Z.ltb_spec 0 g); [|lia]. unfold pg_read, in_table. destruct (Z.leb_spec 0 g); [|lia]. destruct (Z.ltb_spec g (gc_max k)); [|lia].
    cbn [andb]. rewrite T; auto.
Qed.
Lemma sim_nodeid k s b g gm m : gsim k s b -> gt_def s = g -> gb_def b = g -> gmembers (gc_n k) b g = Some gm -> zget gm m = Some (gc_me k) -> nodeid k s = Done m.
Proof.
  intros S D D' GM Z. unfold nodeid. rewrite D. unfold gmembers in GM. destruct (Z.eqb_spec g (-1)) as [->|N].
  - injection GM as <-. cbn. f_equal. assert (B := zget_inv _ _ _ Z). rewrite zseq_length in B. rewrite (zget_Some _ _ 0) in Z by (rewrite zseq_length; auto).
    rewrite zseq_nth in Z by lia. injection Z; lia.
  - destruct (gs_live _ _ _ S _ _ GM) as (H1 & H2 & H3 & mp & inv & id & T & M & F & NI).
    destruct (Z.ltb_spec 0 g); [|lia]. unfold pg_maps, pg_read, in_table. destruct (Z.leb_spec 0 g); [|lia]. destruct (Z.ltb_spec g (gc_max k)); [|lia].
    cbn [andb]. rewrite T; cbn [pg_mem fst]. destruct M as (_ & _ & M & _). apply M in Z; destruct Z as [-> _]; auto.
Qed.

Lemma chosen_seq pm a n c : 0 <= a -> chosen pm (zseq a n) c -> Forall2 (fun r p => 0 <= r /\ nth_error pm (Z.to_nat r) = Some p) (zseq a n) c.
Proof.
  intros A (l' & P & S & F). assert (E : l' = zseq a n).
  { apply sorted_unique; auto; [apply zseq_sorted|]. intros x; split; apply Permutation_in; auto. now symmetry. }
  now subst.
Qed.
Lemma chosen_In pm l c p : chosen pm l c -> (In p c <-> exists r, In r l /\ zget pm r = Some p).
Proof.
  intros (l' & P & _ & F). assert (G : In p c <-> exists r, In r l' /\ zget pm r = Some p).
  { clear P. induction F as [|r q l0 c [H E] F IH]; cbn.
    - split; [contradiction|intros (r & [] & _)].
    - rewrite IH. split.
      + intros [->|(r' & I & Z)]; [exists r; split; auto; unfold zget; destruct (Z.ltb_spec r 0); [lia|auto]|exists r'; auto].
      + intros (r' & [<-|I] & Z); [left|right; eauto]. unfold zget in Z. destruct (r <? 0); congruence. }
  rewrite G. split; intros (r & I & Z); exists r; split; auto; [apply Permutation_in with l'; auto; now symmetry|apply Permutation_in with l; auto].
Qed.

Lemma fold_pick gs ratio : 0 < gs -> forall T a hs ret, length hs = T ->
  fold_left (fun (x : Z) (p : (Z * list Z) * Z) => if fst (fst p) =? gs * (ratio + 1) then snd p else x)
    (combine (map (fun t => (gs * (t + 1), zseq (gs * t) (Z.to_nat gs))) (zseq a T)) hs) ret =
  if (a <=? ratio) && (ratio <? a + Z.of_nat T) then nth (Z.to_nat (ratio - a)) hs ret else ret.
Proof.
  intros G; induction T as [|T IH]; intros a hs ret L.
  - cbn [zseq map combine fold_left]. destruct (Z.leb_spec a ratio); destruct (Z.ltb_spec ratio (a + Z.of_nat 0)); auto; lia.
  - destruct hs as [|h hs]; [discriminate|]. cbn [length] in L. cbn [zseq map combine fold_left fst snd]. rewrite IH by lia.
    destruct (Z.eqb_spec (gs * (a + 1)) (gs * (ratio + 1))) as [E|N].
    + assert (a = ratio) by nia. subst a. destruct (Z.leb_spec (ratio + 1) ratio); [lia|]. cbn [andb].
      destruct (Z.leb_spec ratio ratio); [|lia]. destruct (Z.ltb_spec ratio (ratio + Z.of_nat (S T))); [|lia]. cbn [andb].
      rewrite Z.sub_diag. reflexivity.
    + assert (a <> ratio) by (intros ->; auto). destruct (Z.leb_spec (a + 1) ratio); destruct (Z.leb_spec a ratio); try lia; cbn [andb]; auto.
      destruct (Z.ltb_spec ratio (a + 1 + Z.of_nat T)); destruct (Z.ltb_spec ratio (a + Z.of_nat (S T))); try lia; auto.
      replace (Z.to_nat (ratio - a)) with (S (Z.to_nat (ratio - (a + 1)))) by lia. cbn [nth]. apply nth_indep. lia.
Qed.

(** The number of processes per group and the number of groups. *)
Definition split_size (np num : Z) : Z := (np + num - 1) / num.
Definition split_count (np num : Z) : Z := (np - 1) / split_size np num + 1.
Lemma split_size_code np num : 1 <= np -> 1 <= num ->
  (let q := Z.quot np num in if q * num <? np then q + 1 else q) = split_size np num.
Proof.
  intros H1 H2. cbv zeta. unfold split_size. rewrite Z.quot_div_nonneg by lia.
  pose proof (Z.div_mod np num ltac:(lia)) as D. pose proof (Z.mod_pos_bound np num ltac:(lia)) as B.
  set (q := np / num) in *. set (r := np mod num) in *. clearbody q r.
  destruct (Z.ltb_spec (q * num) np).
  - apply Z.div_unique with (r - 1); lia.
  - apply Z.div_unique with (num - 1); lia.
Qed.
Lemma split_size_pos np num : 1 <= np -> 1 <= num -> 1 <= split_size np num.
Proof. intros H1 H2. unfold split_size. apply Z.div_le_lower_bound; lia. Qed.
Lemma split_count_le np num : 1 <= np -> 1 <= num -> split_count np num <= num.
Proof.
  intros H1 H2. unfold split_count. pose proof (split_size_pos np num H1 H2).
  enough ((np - 1) / split_size np num < num) by lia. apply Z.div_lt_upper_bound; [lia|].
  unfold split_size. pose proof (Z.div_mod (np + num - 1) num ltac:(lia)). pose proof (Z.mod_pos_bound (np + num - 1) num ltac:(lia)). nia.
Qed.
Lemma split_count_eq np num : 1 <= np -> 1 <= num -> (num - 1) * split_size np num < np -> split_count np num = num.
Proof.
  intros H1 H2 H3. pose proof (split_count_le np num H1 H2) as L. pose proof (split_size_pos np num H1 H2). unfold split_count in *.
  enough (num - 1 <= (np - 1) / split_size np num) by lia. apply Z.div_le_lower_bound; lia.
Qed.

Lemma split_sim k s b g gm m num : gsim k s b -> gallowed (gc_n k) (gc_max k) b (GSetDefault g) -> gmembers (gc_n k) b g = Some gm ->
  zget gm m = Some (gc_me k) -> 1 <= num -> split_count (Z.of_nat (length gm)) num <= Z.of_nat (length (gfree (gc_max k) b)) ->
  exists s' b' hs h, pgroup_split k s g num = Done (s', h) /\ gsim k s' b' /\ gb_def b' = gb_def b /\
    Z.of_nat (length hs) = split_count (Z.of_nat (length gm)) num /\ NoDup hs /\
    (forall h', In h' hs -> gb_grp b h' = None /\ ghandle_ok (gc_max k) h') /\
    (forall h', ~ In h' hs -> gb_grp b' h' = gb_grp b h') /\
    zget hs (m / split_size (Z.of_nat (length gm)) num) = Some h /\
    (forall j h', zget hs j = Some h' -> exists c, gb_grp b' h' = Some c /\
      (forall p, In p c <-> exists r, zget gm r = Some p /\ r / split_size (Z.of_nat (length gm)) num = j)).
Proof.
  intros S A GM ME NUM RM.
  assert (HG : g = -1 \/ 1 <= g).
  { destruct A as [->|(c & E)]; auto. right. destruct (gs_live _ _ _ S _ _ E); lia. }
  assert (DA : gallowed (gc_n k) (gc_max k) b (GSetDefault (gb_def b))).
  { destruct (gs_adef _ _ _ S) as [[-> _]|(c & E & _)]; [left; auto|right; eauto]. }
  destruct (default_sim k s b g S A) as (s1 & E1 & C1 & T1 & D1 & S1).
  set (b1 := GBook (gb_grp b) (gb_par b) g) in *.
  assert (GM1 : gmembers (gc_n k) b1 g = Some gm) by exact GM.
  pose proof (sim_nnodes k s1 b1 g gm S1 D1 eq_refl GM1) as NN.
  pose proof (sim_nodeid k s1 b1 g gm m S1 D1 eq_refl GM1 ME) as NI.
  pose proof (zget_inv _ _ _ ME) as MB.
  set (np := Z.of_nat (length gm)) in *. assert (NP : 1 <= np) by lia.
  pose proof (split_size_code np num NP NUM) as SC. cbv zeta in SC. pose proof (split_size_pos np num NP NUM) as SP.
  set (gs := split_size np num) in *.
  unfold pgroup_split. destruct (Z.ltb_spec num 0); [lia|]. destruct (Z.eqb_spec num 0); [lia|]. cbv zeta.
  rewrite E1. cbn [need]. rewrite NN, NI. rewrite SC. destruct (Z.eqb_spec gs 0); [lia|].
  rewrite (Z.quot_div_nonneg m gs) by lia.
  pose proof (Z.div_mod m gs ltac:(lia)) as DM. pose proof (Z.mod_pos_bound m gs ltac:(lia)) as MM.
  set (ratio := m / gs) in *. assert (R0 : 0 <= ratio) by (apply Z.div_pos; lia).
  set (fin := Z.min ((ratio + 1) * gs - 1) (np - 1)).
  destruct (Z.ltb_spec fin (ratio * gs)); [subst fin; nia|].
  destruct (split_pure_start gs np ltac:(lia) NP) as (T & rest & SPE & RB & RT).
  assert (CNT : split_count np num = Z.of_nat T + 1).
  { unfold split_count. fold gs. f_equal. symmetry. apply Z.div_unique with (Z.of_nat rest - 1); lia. }
  assert (FR : gfree (gc_max k) b1 = gfree (gc_max k) b) by reflexivity.
  destruct (split_loop_ok k g gm gs fin HG ltac:(lia) (Z.to_nat np) 0 s1 b1 [] (-1) S1 eq_refl GM1) as (s2 & b2 & hs & L1 & L2 & L3 & L4 & L5 & L6).
  { rewrite SPE; cbn [fst]. intros j l I. apply in_map_iff in I. destruct I as (t & E & I). injection E as <- <-. apply zseq_In in I.
    split; [apply zseq_NoDup|]. intros r J. apply zseq_In in J. fold np. nia. }
  { rewrite SPE; cbn [fst]. rewrite map_length, zseq_length, FR. lia. }
  rewrite L1, SPE in *. cbn [fst snd] in *.
  destruct (creates_grp _ _ _ _ _ _ _ _ L3) as (Q1 & Q2 & Q3 & Q4 & Q5 & Q6). rewrite !map_length, zseq_length in Q1.
  destruct (create_sim k s2 b2 (zseq (gs * Z.of_nat T) rest) L2) as (s3 & h3 & c3 & pm & F1 & F2 & F3 & F4 & F5 & F6).
  { split; [apply gfree_room; rewrite FR in L6; lia|]. split; [apply zseq_NoDup|]. exists gm. rewrite L4. split; auto.
    intros r I; apply zseq_In in I. fold np. nia. }
  rewrite L4 in F4. rewrite L5 in F4; injection F4 as <-. rewrite F1. cbn [fst snd].
  rewrite L4 in F6. pose proof (creates_app _ _ _ _ _ _ _ _ _ h3 c3 L3 F2 F3 F5) as CA.
  destruct (creates_grp _ _ _ _ _ _ _ _ CA) as (P1 & P2 & P3 & P4 & P5 & P6).
  set (b3 := GBook (gput (gb_grp b2) h3 (Some c3)) (gput (gb_par b2) h3 g) g) in *.
  assert (DA3 : gallowed (gc_n k) (gc_max k) b3 (GSetDefault (gb_def b))).
  { destruct DA as [->|(c & E)]; [left; auto|right; exists c]. apply P2; auto. }
  assert (DEF : gt_def s = gb_def b) by apply S. rewrite DEF.
  destruct (default_sim k s3 b3 (gb_def b) F6 DA3) as (s4 & E4 & _ & _ & _ & S4). rewrite E4.
  assert (RL : ratio <= Z.of_nat T) by nia.
  assert (GETR : zget (hs ++ [h3]) ratio = Some (if fin =? np - 1 then h3 else
      fold_left (fun a p => if fst (fst p) =? fin + 1 then snd p else a) (combine (map (fun t => (gs * (t + 1), zseq (gs * t) (Z.to_nat gs))) (zseq 0 T)) hs) (-1))).
  { destruct (Z.eq_dec ratio (Z.of_nat T)) as [ER|NR].
    - assert (fin = np - 1) by (subst fin; nia). destruct (Z.eqb_spec fin (np - 1)); [|lia].
      rewrite (zget_Some _ _ 0) by (rewrite app_length; cbn [length]; lia). f_equal. rewrite app_nth2 by lia.
      replace (Z.to_nat ratio - length hs)%nat with O by lia. reflexivity.
    - assert (fin = gs * (ratio + 1) - 1) by (subst fin; nia). assert (fin <> np - 1) by nia.
      destruct (Z.eqb_spec fin (np - 1)); [lia|]. replace (fin + 1) with (gs * (ratio + 1)) by lia.
      rewrite fold_pick by lia. destruct (Z.leb_spec 0 ratio); [|lia]. destruct (Z.ltb_spec ratio (0 + Z.of_nat T)); [|lia]. cbn [andb].
      rewrite (zget_Some _ _ (-1)) by (rewrite app_length; cbn [length]; lia). f_equal. rewrite app_nth1 by lia. f_equal; lia. }
  set (ret := if fin =? np - 1 then h3 else _) in *. clearbody ret.
  assert (RH : In ret (hs ++ [h3])).
  { unfold zget in GETR. destruct (ratio <? 0); [discriminate|]. eapply nth_error_In; eauto. }
  destruct (P5 ret RH) as [_ RO]. unfold ghandle_ok in RO. destruct (Z.eqb_spec ret (-1)); [lia|].
  exists s4, (GBook (gb_grp b3) (gb_par b3) (gb_def b)), (hs ++ [h3]), ret.
  split; [reflexivity|]. split; [exact S4|]. split; [reflexivity|].
  split; [rewrite app_length; cbn [length]; lia|]. split; [exact P4|]. split; [exact P5|]. split; [exact P3|]. split; [exact GETR|].
  intros j h' J. pose proof (zget_inv _ _ _ J) as JB. rewrite app_length in JB; cbn [length] in JB.
  set (l := if j <? Z.of_nat T then zseq (gs * j) (Z.to_nat gs) else zseq (gs * Z.of_nat T) rest).
  assert (NL : nth_error (map snd (map (fun t => (gs * (t + 1), zseq (gs * t) (Z.to_nat gs))) (zseq 0 T)) ++ [zseq (gs * Z.of_nat T) rest]) (Z.to_nat j) = Some l).
  { subst l. rewrite map_map. cbn [snd]. destruct (Z.ltb_spec j (Z.of_nat T)).
    - rewrite nth_error_app1 by (rewrite map_length, zseq_length; lia). rewrite nth_error_map.
      rewrite (nth_error_nth' (zseq 0 T) 0) by (rewrite zseq_length; lia). cbn [option_map]. rewrite zseq_nth by lia. do 2 f_equal. lia.
    - rewrite nth_error_app2 by (rewrite map_length, zseq_length; lia). rewrite map_length, zseq_length.
      replace (Z.to_nat j - T)%nat with O by lia. reflexivity. }
  destruct (P6 _ _ NL) as (h2 & c & N1 & N2 & N3). exists c.
  assert (h2 = h') by (unfold zget in J; destruct (j <? 0); congruence). subst h2. split; [exact N2|].
  intros p. rewrite (chosen_In _ _ _ p N3). split.
  - intros (r & I & Z). exists r. split; auto. symmetry. subst l. destruct (Z.ltb_spec j (Z.of_nat T)); apply zseq_In in I.
    + apply Z.div_unique with (r - gs * j); lia.
    + assert (j = Z.of_nat T) by lia. apply Z.div_unique with (r - gs * j); subst; lia.
  - intros (r & Z & E). exists r. split; auto. pose proof (zget_inv _ _ _ Z) as RBD. fold np in RBD.
    pose proof (Z.div_mod r gs ltac:(lia)) as D2. pose proof (Z.mod_pos_bound r gs ltac:(lia)) as M2. rewrite E in D2.
    subst l. destruct (Z.ltb_spec j (Z.of_nat T)); apply zseq_In; [lia|]. assert (j = Z.of_nat T) by lia. subst j. lia.
Qed.

Lemma irreg_sim k s b g gm m col : gsim k s b -> gallowed (gc_n k) (gc_max k) b (GSetDefault g) -> gmembers (gc_n k) b g = Some gm ->
  zget gm m = Some (gc_me k) -> 0 <= col m -> groom (gc_max k) b ->
  exists s' b' h c, pgroup_split_irreg k s g col (col m) = Done (s', h) /\ gsim k s' b' /\ gb_def b' = gb_def b /\
    gb_grp b h = None /\ gb_grp b' h = Some c /\ (forall h', h' <> h -> gb_grp b' h' = gb_grp b h') /\
    (forall p, In p c <-> exists r, zget gm r = Some p /\ col r = col m).
Proof.
  intros S A GM ME NUM RM.
  assert (DA : gallowed (gc_n k) (gc_max k) b (GSetDefault (gb_def b))).
  { destruct (gs_adef _ _ _ S) as [[-> _]|(c & E & _)]; [left; auto|right; eauto]. }
  destruct (default_sim k s b g S A) as (s1 & E1 & C1 & T1 & D1 & S1).
  set (b1 := GBook (gb_grp b) (gb_par b) g) in *.
  assert (GM1 : gmembers (gc_n k) b1 g = Some gm) by exact GM.
  pose proof (sim_nnodes k s1 b1 g gm S1 D1 eq_refl GM1) as NN.
  set (l := filter (fun i => col i =? col m) (zseq 0 (Z.to_nat (Z.of_nat (length gm))))).
  destruct (create_sim k s1 b1 l S1) as (s3 & h3 & c3 & pm & F1 & F2 & F3 & F4 & F5 & F6).
  { split; [exact RM|]. split; [apply NoDup_filter, zseq_NoDup|]. exists gm. split; auto.
    intros r I. apply filter_In in I; destruct I as [I _]; apply zseq_In in I. lia. }
  change (gb_def b1) with g in *. rewrite GM1 in F4; injection F4 as <-.
  set (b3 := GBook (gput (gb_grp b1) h3 (Some c3)) (gput (gb_par b1) h3 g) g) in *.
  assert (OTH : forall h', h' <> h3 -> gb_grp b3 h' = gb_grp b h').
  { intros h' N. cbn [b3 gb_grp b1]. unfold gput. destruct (Z.eqb_spec h' h3); congruence. }
  assert (DA3 : gallowed (gc_n k) (gc_max k) b3 (GSetDefault (gb_def b))).
  { destruct DA as [->|(c & E)]; [left; auto|right; exists c]. rewrite OTH; auto. change (gb_grp b1) with (gb_grp b) in F3. congruence. }
  destruct (default_sim k s3 b3 (gb_def b) F6 DA3) as (s4 & E4 & _ & _ & _ & S4).
  exists s4, (GBook (gb_grp b3) (gb_par b3) (gb_def b)), h3, c3.
  assert (DEF : gt_def s = gb_def b) by apply S.
  split. { unfold pgroup_split_irreg. destruct (Z.ltb_spec (col m) 0); [lia|]. cbv zeta. rewrite E1. rewrite NN. fold l. rewrite F1. cbn [fst snd]. rewrite DEF, E4. auto. }
  split; [exact S4|]. split; [auto|]. split; [exact F3|]. split; [cbn; unfold gput; now rewrite Z.eqb_refl|]. split; [exact OTH|].
  intros p. rewrite (chosen_In _ _ _ p F5). subst l. split.
  - intros (r & I & Z). apply filter_In in I. destruct I as [_ I]. exists r; split; auto. lia.
  - intros (r & Z & E). exists r; split; auto. apply filter_In. split; [|lia]. pose proof (zget_inv _ _ _ Z). apply zseq_In; lia.
Qed.
