(** Lemmas: operations on the elements of one array that may be undefined. *)
From Verif Require Import LRadix LStrided LStrided2 LIterReg LIterReg3 LIterSca LStore LXfer LXfer2 LLoc LAccess LSelect LSelect2 LOdo.
From Verif Require Export LPw MUn.
Open Scope Z_scope.

Lemma try_run {V} (f : V -> option V) es : forall m,
  NoDup es -> (forall q, In q es -> exists v v', hget m q = Some v /\ f v = Some v') ->
  exists m', run_elems (try_elem f) m es = Some m' /\
    (forall q, In q es -> exists v v', hget m q = Some v /\ f v = Some v' /\ hget m' q = Some v') /\
    (forall q, ~ In q es -> hget m' q = hget m q).
Proof.
  induction es as [|e es IH]; intros m ND HD.
  { exists m. split; [reflexivity|]. split; [intros ? []|reflexivity]. }
  apply NoDup_cons_iff in ND as [Hn ND]. destruct (HD e (or_introl eq_refl)) as (v & v' & Ev & Ef).
  destruct (IH (hset m e v') ND) as (m' & E & P1 & P2).
  { intros q Hq. rewrite hget_hset_other; [apply HD; now right|]. intros ->. auto. }
  exists m'. split; [cbn [run_elems]; unfold try_elem at 1; rewrite Ev, Ef; exact E|]. split.
  - intros q [<-|Hq].
    + exists v, v'. split; [exact Ev|]. split; [exact Ef|]. rewrite (P2 _ Hn). apply hget_hset_same.
    + destruct (P1 q Hq) as (u & u' & E1 & E2). exists u, u'. split; [|exact E2]. rewrite <- E1. symmetry. apply hget_hset_other. intros ->. auto.
  - intros q Hq. rewrite P2 by (intros X; apply Hq; now right). apply hget_hset_other. intros ->. apply Hq. now left.
Qed.
Lemma try_run_none {V} (f : V -> option V) es : forall m,
  NoDup es -> (exists q v, In q es /\ hget m q = Some v /\ f v = None) -> run_elems (try_elem f) m es = None.
Proof.
  induction es as [|e es IH]; intros m ND (q & v & Hq & E1 & E2); [destruct Hq|].
  apply NoDup_cons_iff in ND as [Hn ND]. cbn [run_elems]. unfold try_elem at 1. destruct Hq as [->|Hq].
  - rewrite E1, E2. reflexivity.
  - destruct (hget m e) as [u|]; [|reflexivity]. destruct (f u) as [u'|]; [|reflexivity].
    apply (IH (hset m e u') ND). exists q, v. split; [exact Hq|]. split; [|exact E2]. rewrite hget_hset_other; [exact E1|]. intros ->. auto.
Qed.
Lemma all_or_one {V} (f : V -> option V) (m : heap V) es : (forall q, In q es -> hget m q <> None) ->
  (forall q, In q es -> exists v v', hget m q = Some v /\ f v = Some v') \/ (exists q v, In q es /\ hget m q = Some v /\ f v = None).
Proof.
  induction es as [|e es IH]; intros H; [left; intros ? []|].
  destruct (hget m e) as [v|] eqn:E; [|destruct (H e (or_introl eq_refl) E)].
  destruct (f v) as [v'|] eqn:F; [|right; exists e, v; auto with datatypes].
  destruct IH as [A|(q & u & A & B)]; [intros q Hq; apply H; now right| |].
  - left. intros q [<-|Hq]; eauto.
  - right. exists q, u. split; [now right|exact B].
Qed.

Lemma marked_tried {V} (placed : list Z -> place -> Prop) (D : list Z -> Prop) (f : V -> option V) m es :
  (forall x q q', placed x q -> placed x q' -> q = q') -> (forall x y q, placed x q -> placed y q -> x = y) ->
  allocated placed m -> marked placed D es ->
  match run_elems (try_elem f) m es with
  | Some m' => updated_by D f placed m m'
  | None => undefined_in D f placed m
  end.
Proof.
  intros HF HI HA HM. pose proof (marked_NoDup placed D es HI HM) as ND. destruct HM as (l & -> & N & I & J).
  destruct (all_or_one f m (map fst l)) as [A|A].
  { intros q Hq. apply in_map_iff in Hq as ((q' & x) & <- & Hin). eapply HA, J, Hin. }
  - destruct (try_run f (map fst l) m ND A) as (m' & -> & P1 & P2). split.
    + intros x q Hx Hq. apply I in Hx. apply in_map_iff in Hx as ((q' & x') & <- & Hin). cbn [snd] in *.
      rewrite (HF _ _ _ Hq (J _ _ Hin)). apply P1. apply (in_map fst _ _ Hin).
    + intros q Hq. apply P2. intros Hin. apply in_map_iff in Hin as ((q' & x) & <- & Hin). cbn [fst] in *.
      apply (Hq x); [apply I, (in_map snd _ _ Hin)|apply (J _ _ Hin)].
  - rewrite (try_run_none f _ m ND A). destruct A as (q & v & Hq & E1 & E2).
    apply in_map_iff in Hq as ((q' & x) & <- & Hin). exists x, q', v. cbn [fst] in *.
    split; [apply I, (in_map snd _ _ Hin)|]. split; [apply (J _ _ Hin)|auto].
Qed.

(** The types that are listed. *)
Lemma oper_piece_listed t plo phi q : listed_type t = true -> oper_piece t plo phi q = piece_cells plo phi q.
Proof. intros H. unfold oper_piece. rewrite H. destruct (piece_cells plo phi q) as [[|]|]; reflexivity. Qed.
Lemma mapM_eq {A B} (f g : A -> option B) l : (forall x, f x = g x) -> mapM f l = mapM g l.
Proof. intros H. induction l as [|x l IH]; [reflexivity|]. cbn [mapM]. rewrite H, IH. reflexivity. Qed.
Lemma oper_cells_listed fuel guess near wn t a me plo phi : listed_type t = true ->
  oper_cells fuel guess near wn t a me plo phi = patch_cells fuel guess near wn a me plo phi.
Proof.
  intros H. unfold oper_cells, patch_cells. destruct (local_iterate fuel guess near wn a me) as [ps|]; [|reflexivity].
  rewrite (mapM_eq _ _ ps (fun q => oper_piece_listed t plo phi q H)). reflexivity.
Qed.

(** The types that are not: an error of a process that has an element of the
    patch. *)
Lemma mapM_oper_none t plo phi ps : listed_type t = false -> forall ls,
  mapM (piece_cells plo phi) ps = Some ls ->
  mapM (oper_piece t plo phi) ps = if existsb (fun l : list place => negb (Nat.eqb (length l) 0)) ls then None else Some ls.
Proof.
  intros H. induction ps as [|p ps IH]; intros ls E; cbn [mapM] in *; [inversion E; reflexivity|].
  destruct (piece_cells plo phi p) as [cs|] eqn:EP; [|discriminate]. destruct (mapM (piece_cells plo phi) ps) as [ls'|]; [|discriminate].
  inversion E; subst. rewrite (IH ls' eq_refl). unfold oper_piece. rewrite EP, H. destruct cs as [|c cs]; cbn [existsb length Nat.eqb negb orb]; [|reflexivity].
  destruct (existsb _ ls'); reflexivity.
Qed.
Lemma oper_cells_unlisted fuel guess near wn t a me plo phi cs : listed_type t = false ->
  patch_cells fuel guess near wn a me plo phi = Some cs ->
  oper_cells fuel guess near wn t a me plo phi = match cs with [] => Some [] | _ => None end.
Proof.
  unfold oper_cells, patch_cells. intros H E. destruct (local_iterate fuel guess near wn a me) as [ps|]; [|discriminate].
  destruct (mapM (piece_cells plo phi) ps) as [ls|] eqn:EM; [|discriminate]. inversion E; subst. rewrite (mapM_oper_none t plo phi ps H ls EM).
  clear. induction ls as [|l ls IH]; [reflexivity|]. destruct l as [|c l]; cbn [existsb length Nat.eqb negb orb concat app]; [|reflexivity].
  destruct (existsb _ ls); exact IH.
Qed.

