(** Lemmas about the product of two sparse matrices: the products of the pairs of blocks. *)
From Verif Require Import SpecSprs MBase MNb MHandle MGroup MSparse MSprs SpecSprs3 MSprs3 LNb LRadix LStore LIterBlk LTile LNotify LSprs LSprs2 LSprs3 LSprs4 LSprs5.
From Coq Require Import Permutation.
Open Scope Z_scope.

Lemma gather_perm {A B} (f : A -> out (list B)) g : forall l, (forall a, In a l -> exists r, f a = Done r /\ Permutation r (g a)) ->
  exists r, gather f l = Done r /\ Permutation r (flat_map g l).
Proof.
  induction l as [|a l IH]; intros H; [exists []; split; [reflexivity|constructor]|]. destruct (H a (or_introl eq_refl)) as (x & Ex & Px).
  destruct IH as (y & Ey & Py); [intros b I; apply H; right; exact I|]. exists (x ++ y). cbn [gather flat_map]. rewrite Ex, Ey. split; [reflexivity|apply Permutation_app; assumption].
Qed.
Lemma gather_In {A B} (f : A -> out (list B)) (g : A -> list B) : forall l, (forall a, In a l -> f a = Done (g a)) -> gather f l = Done (flat_map g l).
Proof.
  induction l as [|a l IH]; intros H; [reflexivity|]. cbn [gather flat_map]. rewrite (H a (or_introl eq_refl)), IH; [reflexivity|]. intros b I. apply H. right. exact I.
Qed.
Lemma flat_map_nil {A B} (f : A -> list B) l : (forall a, In a l -> f a = []) -> flat_map f l = [].
Proof. induction l as [|a l IH]; intros H; [reflexivity|]. cbn [flat_map]. rewrite (H a (or_introl eq_refl)). apply IH. intros b I. apply H. right. exact I. Qed.
Lemma flat_map_ext_in' {A B} (f g : A -> list B) l : (forall a, In a l -> f a = g a) -> flat_map f l = flat_map g l.
Proof. induction l as [|a l IH]; intros H; [reflexivity|]. cbn [flat_map]. rewrite (H a (or_introl eq_refl)). f_equal. apply IH. intros b I. apply H. right. exact I. Qed.
Lemma flat_map_perm_in {A B} (f g : A -> list B) l : (forall a, In a l -> Permutation (f a) (g a)) -> Permutation (flat_map f l) (flat_map g l).
Proof. induction l as [|a l IH]; intros H; [constructor|]. cbn [flat_map]. apply Permutation_app; [apply H; left; reflexivity|apply IH; intros b I; apply H; right; exact I]. Qed.
Lemma flat_map_app2 {A B} (f g : A -> list B) l : Permutation (flat_map (fun a => f a ++ g a) l) (flat_map f l ++ flat_map g l).
Proof.
  induction l as [|a l IH]; [constructor|]. cbn [flat_map]. rewrite <- !app_assoc. apply Permutation_app_head. eapply perm_trans; [apply Permutation_app_head; exact IH|].
  rewrite !app_assoc. apply Permutation_app_tail. apply Permutation_app_comm.
Qed.
Lemma flat_map_swap {A B C} (f : A -> B -> list C) lb : forall la, Permutation (flat_map (fun a => flat_map (f a) lb) la) (flat_map (fun b => flat_map (fun a => f a b) la) lb).
Proof.
  induction la as [|a la IH]; cbn [flat_map].
  - rewrite flat_map_nil by reflexivity. constructor.
  - eapply perm_trans; [apply Permutation_app_head; exact IH|]. symmetry. apply (flat_map_app2 (f a) (fun b => flat_map (fun a => f a b) la) lb).
Qed.
Lemma flat_map_flat {A B C} (f : B -> list C) (g : A -> list B) l : flat_map f (flat_map g l) = flat_map (fun a => flat_map f (g a)) l.
Proof. induction l as [|a l IH]; [reflexivity|]. cbn [flat_map]. rewrite flat_map_app, IH. reflexivity. Qed.
Lemma map_flat {A B C} (f : B -> C) (g : A -> list B) l : map f (flat_map g l) = flat_map (fun a => map f (g a)) l.
Proof. induction l as [|a l IH]; [reflexivity|]. cbn [flat_map]. rewrite map_app, IH. reflexivity. Qed.
Lemma flat_map_map' {A B C} (f : B -> list C) (g : A -> B) l : flat_map f (map g l) = flat_map (fun a => f (g a)) l.
Proof. induction l as [|a l IH]; [reflexivity|]. cbn [map flat_map]. rewrite IH. reflexivity. Qed.

Lemma get_block_cases {V} (s : sprs V) c i r : block_row s c i = Done r ->
  (get_block false s c = Done None /\ forall i, block_row s c i = Done []) \/
  exists w, get_block false s c = Done (Some w) /\ forall i, read_row s w i = block_row s c i.
Proof.
  unfold block_row, get_block. intros H. destruct (access_col_block s c) as [[w|]| |]; try discriminate.
  - right. eexists. split; [reflexivity|]. intros j. reflexivity.
  - left. split; [reflexivity|]. reflexivity.
Qed.

Lemma rows_of_In {V} (s : sprs V) i : s_ilo s <= s_ihi s -> (In i (rows_of s) <-> s_ilo s <= i <= s_ihi s).
Proof. intros L. unfold rows_of. rewrite zseq_In. lia. Qed.
Section Products.
Context {V : Type}.
Variables (n ia ja jb : Z) (mul : V -> V -> V) (la lb : list (elt V)).
Hypotheses (NI : 1 <= n <= ia) (NJ : n <= ja) (NB : 1 <= jb) (INA : Forall (inside ia ja) la) (INB : Forall (inside ja jb) lb).
Notation ce := (fun e : elt V => (ecol e, evalue e)).
Notation procs := (zseq 0 (Z.to_nat n)).

Lemma row_parts_all idim jdim (l : list (elt V)) i : 1 <= jdim -> Forall (inside idim jdim) l ->
  Permutation (flat_map (fun c => row_part n jdim c i l) procs) (map ce (filter (fun e => erow e =? i) l)).
Proof.
  intros J IN. set (l' := filter (fun e => erow e =? i) l). assert (F : Forall (inside idim jdim) l') by (eapply incl_Forall; [|exact IN]; intros e I; apply filter_In in I; apply I).
  rewrite Forall_forall in F. rewrite (flat_map_ext_in' _ (fun c => map ce (filter (fun e => owner n jdim (ecol e) =? c) l'))).
  - rewrite <- map_flat. apply Permutation_map. apply parts_perm. apply Forall_forall. intros e I. destruct (F e I) as [_ Hc]. pose proof (owner_range n jdim (ecol e) ltac:(lia) J Hc). lia.
  - intros c _. unfold row_part. f_equal. unfold l'. rewrite filter_filter2. apply filter_ext_Forall. apply Forall_forall. intros e I. rewrite Forall_forall in IN. destruct (IN e I) as [_ Hc].
    rewrite (owner_partb n jdim (ecol e) c) by lia. apply andb_comm.
Qed.

(** What the products of row [i], element [kx] of A and block [c] are. *)
Definition mm (i : Z) (kx jy : Z * V) : elt V := (i, fst jy, mul (snd kx) (snd jy)).
Definition pair_spec (rows : list Z) (l c : Z) : list (elt V) :=
  flat_map (fun i => flat_map (fun kx => map (mm i kx) (row_part n jb c (fst kx) lb)) (row_part n ja l i la)) rows.

Variables (sa : sprs V) (ssb : list (sprs V)).
Hypothesis ROWSA : forall c i, 0 <= c < n -> s_ilo sa <= i <= s_ihi sa -> exists r, block_row sa c i = Done r /\ Permutation r (row_part n ja c i la).
Hypothesis LA : s_ilo sa <= s_ihi sa.
Hypothesis LENB : length ssb = Z.to_nat n.
Hypothesis ROWSB : forall l sb, 0 <= l < n -> nth_error ssb (Z.to_nat l) = Some sb ->
  s_ilo sb <= s_ihi sb /\ (forall k, 0 <= k < ja -> (s_ilo sb <= k <= s_ihi sb <-> in_part n ja l k)) /\
  forall c i, 0 <= c < n -> s_ilo sb <= i <= s_ihi sb -> exists r, block_row sb c i = Done r /\ Permutation r (row_part n jb c i lb).

Lemma row_part_In c i k x jd (l : list (elt V)) : In (k, x) (row_part n jd c i l) -> exists e, In e l /\ erow e = i /\ ecol e = k /\ evalue e = x /\ in_part n jd c k.
Proof.
  unfold row_part. intros I. apply in_map_iff in I. destruct I as (e & E & I). injection E as <- <-. apply filter_In in I. destruct I as [I C]. apply andb_prop in C. destruct C as [C1 C2].
  exists e. split; [exact I|]. split; [lia|]. split; [reflexivity|]. split; [reflexivity|]. apply in_partb_spec. exact C2.
Qed.
Lemma block_pair_ok l c : 0 <= l < n -> 0 <= c < n ->
  exists r, block_pair false mul sa ssb l c = Done r /\ Permutation r (pair_spec (rows_of sa) l c).
Proof.
  intros L C. unfold block_pair. destruct (ROWSA l (s_ilo sa) L ltac:(lia)) as (r0 & E0 & _).
  destruct (get_block_cases sa l _ _ E0) as [[G H]|(wa & G & RA)]; rewrite G.
  { exists []. split; [reflexivity|]. unfold pair_spec. rewrite flat_map_nil; [constructor|]. intros i I. apply rows_of_In in I; [|exact LA].
    destruct (ROWSA l i L I) as (r & E & P). rewrite H in E. injection E as <-. apply Permutation_nil in P. rewrite P. reflexivity. }
  destruct (nth_error ssb (Z.to_nat l)) as [sb|] eqn:NS; [|apply nth_error_None in NS; lia]. destruct (ROWSB l sb L NS) as (LB & RNG & RB).
  assert (KR : forall i k x, In (k, x) (row_part n ja l i la) -> s_ilo sb <= k <= s_ihi sb).
  { intros i k x I. apply row_part_In in I. destruct I as (e & Ie & _ & <- & _ & Pe). rewrite Forall_forall in INA. destruct (INA e Ie) as [_ Hc]. apply RNG; assumption. }
  destruct (RB c (s_ilo sb) C ltac:(lia)) as (r1 & E1 & _).
  destruct (get_block_cases sb c _ _ E1) as [[G' H]|(wb & G' & RBW)]; rewrite G'.
  { exists []. split; [reflexivity|]. unfold pair_spec. rewrite flat_map_nil; [constructor|]. intros i I. rewrite flat_map_nil; [reflexivity|]. intros [k x] Ik. cbn [fst].
    destruct (RB c k C (KR i k x Ik)) as (r & E & P). rewrite H in E. injection E as <-. apply Permutation_nil in P. rewrite P. reflexivity. }
  unfold pair_products, pair_spec. apply gather_perm. intros i I. apply rows_of_In in I; [|exact LA]. destruct (ROWSA l i L I) as (r & E & P). rewrite RA, E.
  destruct (gather_perm (fun kx => try lb0 <- read_row sb wb (fst kx); Done (map (fun jy => (i, fst jy, mul (snd kx) (snd jy))) lb0))
    (fun kx => map (mm i kx) (row_part n jb c (fst kx) lb)) r) as (t & Et & Pt).
  { intros [k x] Ik. cbn [fst snd]. destruct (RB c k C (KR i k x (Permutation_in _ P Ik))) as (r' & E' & P'). rewrite RBW, E'. eexists. split; [reflexivity|]. apply (Permutation_map (mm i (k, x)) P'). }
  exists t. split; [exact Et|]. eapply perm_trans; [exact Pt|]. apply flat_map_Permutation. exact P.
Qed.

(** The products for an element of A. *)
Definition of_elt (a : elt V) : list (elt V) := map (fun b => (erow a, ecol b, mul (evalue a) (evalue b))) (filter (fun b => erow b =? ecol a) lb).
Variable p : Z.
Hypothesis RNGA : forall i, 0 <= i < ia -> (s_ilo sa <= i <= s_ihi sa <-> owner n ia i = p).
Definition own_part : list (elt V) := filter (fun a => owner n ia (erow a) =? p) la.
Lemma own_rows : Permutation (flat_map (fun i => filter (fun a => erow a =? i) la) (rows_of sa)) own_part.
Proof using INA LA RNGA.
  clear ROWSA ROWSB LENB NB NJ INB NI. rewrite Forall_forall in INA. rewrite (flat_map_ext_in' _ (fun i => filter (fun a => erow a =? i) own_part)).
  - unfold rows_of. apply parts_perm. apply Forall_forall. intros a I. apply filter_In in I. destruct I as [I O]. destruct (INA a I) as [Hr _]. apply Z.eqb_eq in O. apply RNGA in O; lia.
  - intros i I. apply rows_of_In in I; [|exact LA]. unfold own_part. rewrite filter_filter2. apply filter_ext_Forall. apply Forall_forall. intros a Ia. destruct (INA a Ia) as [Hr _].
    destruct (Z.eqb_spec (erow a) i) as [<-|]; [|reflexivity]. symmetry. apply Z.eqb_eq. apply RNGA; lia.
Qed.
Lemma all_products_ok : exists r, all_products false n mul sa ssb = Done r /\ Permutation r (flat_map of_elt own_part).
Proof.
  unfold all_products. destruct (gather_perm (fun l => gather (block_pair false mul sa ssb l) procs) (fun l => flat_map (pair_spec (rows_of sa) l) procs) procs) as (r & E & P).
  { intros l L. apply zseq_In in L. apply gather_perm. intros c C. apply zseq_In in C. apply block_pair_ok; lia. }
  exists r. split; [exact E|]. eapply perm_trans; [exact P|]. clear r E P.
  set (H := fun i (kx : Z * V) => map (mm i kx) (map ce (filter (fun e => erow e =? fst kx) lb))).
  eapply perm_trans; [apply flat_map_perm_in with (g := fun l => flat_map (fun i => flat_map (H i) (row_part n ja l i la)) (rows_of sa))|].
  { intros l _. unfold pair_spec. eapply perm_trans; [apply flat_map_swap|]. apply flat_map_perm_in. intros i _. eapply perm_trans; [apply flat_map_swap|]. apply flat_map_perm_in. intros kx _.
    rewrite <- map_flat. apply Permutation_map. apply (row_parts_all ja jb lb); [lia|exact INB]. }
  eapply perm_trans; [apply flat_map_swap|].
  eapply perm_trans; [apply flat_map_perm_in with (g := fun i => flat_map of_elt (filter (fun a => erow a =? i) la))|].
  { intros i _. rewrite <- flat_map_flat. eapply perm_trans; [apply flat_map_Permutation; apply (row_parts_all ia ja la); [lia|exact INA]|]. rewrite flat_map_map'.
    apply flat_map_perm_in. intros a Ia. apply filter_In in Ia. destruct Ia as [_ Ia]. apply Z.eqb_eq in Ia. unfold H, of_elt. cbn [fst snd]. rewrite map_map. subst i. unfold mm. cbn [fst snd]. apply Permutation_refl. }
  rewrite <- flat_map_flat. apply flat_map_Permutation. exact own_rows.
Qed.
End Products.
