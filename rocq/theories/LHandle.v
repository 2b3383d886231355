(** Proofs about array handles and memory accounting. *)
From Coq Require Import ZArith List Lia Bool.
From Verif Require Import LRadix.
From Verif Require Export LNb MHandle.
Import ListNotations.
Open Scope Z_scope.

(** ---- who owns a block ---- *)
Inductive owner := OArr (i : Z) | OCache (i : Z) | ORaw (b : Z).
Lemma owner_dec (a b : owner) : {a = b} + {a <> b}.
Proof. decide equality; apply Z.eq_dec. Qed.
Definition set_own (own : owner -> option Z) (o : owner) (v : option Z) : owner -> option Z :=
  fun o' => if owner_dec o' o then v else own o'.
Record own_ok (own : owner -> option Z) (blocks : list Z) (next : Z) : Prop := OwnOk {
  ow_in : forall o b, own o = Some b -> In b blocks;
  ow_inj : forall o o' b, own o = Some b -> own o' = Some b -> o = o';
  ow_next : forall b, In b blocks -> b < next }.

Lemma own_ext own own' bl nx : (forall o, own' o = own o \/ own' o = None) -> own_ok own bl nx -> own_ok own' bl nx.
Proof.
  intros H [A B C]. constructor; [intros o b E|intros o o' b E E'|exact C].
  - destruct (H o) as [X|X]; rewrite X in E; [eauto|discriminate].
  - destruct (H o) as [X|X], (H o') as [Y|Y]; rewrite X in E; rewrite Y in E'; try discriminate. eauto.
Qed.
Lemma own_new own own' bl nx o : (forall o', o' <> o -> own' o' = own o' \/ own' o' = None) -> own' o = Some nx ->
  own_ok own bl nx -> own_ok own' (nx :: bl) (nx + 1).
Proof.
  intros H E [A B C]. constructor.
  - intros o' b E'. destruct (owner_dec o' o) as [->|N]; [left; congruence|right].
    destruct (H o' N) as [X|X]; rewrite X in E'; [eauto|discriminate].
  - assert (F : forall o' b, o' <> o -> own' o' = Some b -> own o' = Some b /\ b <> nx).
    { intros o' b N E'. destruct (H o' N) as [X|X]; rewrite X in E'; [|discriminate]. split; [exact E'|].
      apply A in E'. apply C in E'. lia. }
    intros o1 o2 b E1 E2. destruct (owner_dec o1 o) as [->|N1], (owner_dec o2 o) as [->|N2]; [reflexivity| | |].
    + destruct (F o2 b N2 E2) as [_ X]. congruence.
    + destruct (F o1 b N1 E1) as [_ X]. congruence.
    + destruct (F o1 b N1 E1) as [X _]. destruct (F o2 b N2 E2) as [Y _]. eauto.
  - intros b [<-|I]; [lia|]. apply C in I. lia.
Qed.
Lemma own_free own own' bl nx o b : own o = Some b -> (forall o', own' o' = own o' \/ own' o' = None) -> own' o <> Some b ->
  own_ok own bl nx -> own_ok own' (remove Z.eq_dec b bl) nx.
Proof.
  intros E H N [A B C]. constructor.
  - intros o' c E'. destruct (H o') as [X|X]; rewrite X in E'; [|discriminate]. apply in_in_remove; [|eauto].
    intros ->. assert (o' = o) by eauto. subst. congruence.
  - intros o1 o2 c E1 E2. destruct (H o1) as [X|X], (H o2) as [Y|Y]; rewrite X in E1; rewrite Y in E2; try discriminate. eauto.
  - intros c I. apply in_remove in I. apply C. tauto.
Qed.

Lemma release_ok s b : In b (h_blocks s) -> release s (Blk b) = Done (set_blocks s (remove Z.eq_dec b (h_blocks s)) (h_next s)).
Proof.
  intros H. unfold release. destruct (existsb _ _) eqn:E; [reflexivity|]. exfalso.
  assert (X : existsb (Z.eqb b) (h_blocks s) = true) by (apply existsb_exists; exists b; split; [exact H|apply Z.eqb_refl]). congruence.
Qed.

(** ---- scans of the table ---- *)
Lemma first_free_spec tab n : forall i, match first_free tab i n with
  | Some j => i <= j < i + Z.of_nat n /\ hnd (tab j) = false
  | None => forall j, i <= j < i + Z.of_nat n -> hnd (tab j) = true end.
Proof.
  induction n as [|n IH]; intros i; cbn [first_free]; [intros; lia|].
  destruct (hnd (tab i)) eqn:E; [|split; [lia|exact E]].
  specialize (IH (i + 1)). destruct (first_free tab (i + 1) n).
  - split; [lia|tauto].
  - intros j Hj. destruct (Z.eq_dec j i) as [->|]; [exact E|apply IH; lia].
Qed.
Lemma sum_over_ext f f' n : forall g, (forall j, g <= j < g + Z.of_nat n -> f j = f' j) -> sum_over f g n = sum_over f' g n.
Proof.
  induction n as [|n IH]; intros g H; cbn [sum_over]; [reflexivity|]. rewrite (H g) by lia. rewrite (IH (g + 1)); [reflexivity|].
  intros j Hj. apply H. lia.
Qed.
Lemma sum_over_change f f' n k : forall g, g <= k < g + Z.of_nat n -> (forall j, j <> k -> f' j = f j) ->
  sum_over f' g n = sum_over f g n - f k + f' k.
Proof.
  induction n as [|n IH]; intros g Hk H; [lia|]. cbn [sum_over]. destruct (Z.eq_dec g k) as [->|N].
  - rewrite (sum_over_ext f' f) by (intros j Hj; apply H; lia). lia.
  - rewrite (H g N), (IH (g + 1)) by (try lia; exact H). lia.
Qed.
Lemma sum_over_nonneg f n : (forall j, 0 <= f j) -> forall g, 0 <= sum_over f g n.
Proof. intros H. induction n as [|n IH]; intros g; cbn [sum_over]; [lia|]. specialize (H g). specialize (IH (g + 1)). lia. Qed.
Lemma sum_sizes_eq tab n : forall i, sum_sizes tab (i + 1000) n = sum_over (fun g => if actv (tab (g + 1000)) then size (tab (g + 1000)) else 0) i n.
Proof.
  induction n as [|n IH]; intros i; cbn [sum_sizes sum_over]; [reflexivity|]. rewrite <- IH. f_equal. f_equal. lia.
Qed.
Lemma attached_false tab p n : forall i, (forall j, i <= j < i + Z.of_nat n -> actv (tab j) = true -> grp (tab j) <> p) -> attached tab p i n = false.
Proof.
  induction n as [|n IH]; intros i H; cbn [attached]; [reflexivity|]. rewrite (IH (i + 1)) by (intros j Hj; apply H; lia).
  rewrite orb_false_r. destruct (actv (tab i)) eqn:E; [|reflexivity]. cbn [andb]. apply Z.eqb_neq. apply H; [lia|exact E].
Qed.

(** ---- the simulation ---- *)
Definition prop_no (p : property) : Z := match p with Plain => NO_PROPERTY | ReadOnly => READ_ONLY | ReadCache => READ_CACHE end.
Definition slot_ok (o : option entry) (x : slot) : Prop :=
  overlay x = false /\
  match o with
  | None => hnd x = false /\ actv x = false
  | Some e => hnd x = true /\ ndim x = Some (e_nd e) /\ grp x = e_grp e /\ content x = e_desc e /\ prop x = prop_no (e_prop e) /\
      (e_prop e = ReadOnly -> oldgrp x = -1) /\
      match e_alloc e with Some n => actv x = true /\ size x = n /\ 0 <= n | None => actv x = false end
  end.
Definition aptr (w : self) (s : gas) (i : Z) : ptrv := ptr (h_tab s i) (rank_in w (grp (h_tab s i))).
Definition own_of (w : self) (s : gas) (o : owner) : option Z :=
  match o with
  | OArr i => if actv (h_tab s i) then match aptr w s i with Blk b => Some b | _ => None end else None
  | OCache i => if hnd (h_tab s i) && (prop (h_tab s i) =? READ_CACHE) then match chead (h_tab s i) with Blk b => Some b | _ => None end else None
  | ORaw b => if existsb (fun e => fst e =? b) (h_raw s) then Some b else None
  end.
Definition raw_sum (l : list (Z * Z)) : Z := fold_right (fun e a => snd e + a) 0 l.


Record sim (w : self) (max : Z) (s : gas) (b : book) : Prop := Sim {
  si_max : h_max s = max;
  si_slot : forall g, slot_ok (b_arr b g) (h_tab s (g + 1000));
  si_range : forall g, b_arr b g <> None -> handle_ok max g;
  si_own : own_ok (own_of w s) (h_blocks s) (h_next s);
  si_arr : forall i, actv (h_tab s i) = true -> exists k, aptr w s i = Blk k;
  si_cache : forall i, hnd (h_tab s i) = true -> prop (h_tab s i) = READ_CACHE ->
     chead (h_tab s i) = Null \/ (actv (h_tab s i) = true /\ exists k, chead (h_tab s i) = Blk k);
  si_raw : h_raw s = b_raw b /\ NoDup (map fst (b_raw b)) /\ Forall (fun e => 0 <= snd e) (b_raw b);
  si_mem : match b_limit b with
           | None => h_limited s = false
           | Some l => h_limited s = true /\ h_total s = l - in_use max b /\ h_limit s = b_first b
           end;
  si_grp : forall p, h_groups s p = b_groups b p;
  si_grp_live : forall g e, b_arr b g = Some e ->
     (e_grp e = -2 /\ e_alloc e = None) \/ -1 <= e_grp e <= 0 \/ (0 < e_grp e < max /\ b_groups b (e_grp e) = true);
  si_ro : forall g e, b_arr b g = Some e -> e_prop e = ReadOnly -> exists n, e_alloc e = Some n /\ 0 < e_grp e;
  si_dflt : -1 <= s_dflt w <= 0 \/ (0 < s_dflt w < max /\ b_groups b (s_dflt w) = true) }.

Lemma in_use_change max b g o : handle_ok max g ->
  in_use max (set_entry b g o) = in_use max b - bytes_of (b_arr b g) + bytes_of o.
Proof.
  intros H. unfold in_use, in_arrays, set_entry. cbn [b_arr b_raw].
  rewrite (sum_over_change (fun g0 => bytes_of (b_arr b g0)) (fun g0 => bytes_of (put (b_arr b) g o g0)) (Z.to_nat max) g).
  - unfold put at 1. rewrite Z.eqb_refl. lia.
  - unfold handle_ok in H. lia.
  - intros j Hj. unfold put. destruct (Z.eqb_spec j g); [contradiction|reflexivity].
Qed.
Lemma put_same {A} (f : Z -> A) i a : put f i a i = a.
Proof. unfold put. rewrite Z.eqb_refl. reflexivity. Qed.
Lemma put_other {A} (f : Z -> A) i j a : j <> i -> put f i a j = f j.
Proof. unfold put. intros H. destruct (Z.eqb_spec j i); [contradiction|reflexivity]. Qed.

Definition upds (s : gas) (i : Z) (x : slot) (total cur : Z) (bl : list Z) (nx : Z) : gas :=
  Gas (h_max s) (fset (h_tab s) i x) total (h_limited s) (h_limit s) cur bl nx (h_groups s) (h_raw s).

Lemma own_upds_other w s i x t c bl nx o : o <> OArr i -> o <> OCache i -> own_of w (upds s i x t c bl nx) o = own_of w s o.
Proof.
  intros H1 H2. destruct o as [j|j|k]; cbn [own_of upds h_tab h_raw]; [| |reflexivity].
  - unfold aptr. cbn [upds h_tab]. rewrite fset_other by congruence. reflexivity.
  - rewrite fset_other by congruence. reflexivity.
Qed.
Lemma own_upds_arr w s i x t c bl nx : own_of w (upds s i x t c bl nx) (OArr i) =
  if actv x then match ptr x (rank_in w (grp x)) with Blk b => Some b | _ => None end else None.
Proof. cbn [own_of]. unfold aptr. cbn [upds h_tab]. rewrite !fset_same. reflexivity. Qed.
Lemma own_upds_cache w s i x t c bl nx : own_of w (upds s i x t c bl nx) (OCache i) =
  if hnd x && (prop x =? READ_CACHE) then match chead x with Blk b => Some b | _ => None end else None.
Proof. cbn [own_of]. cbn [upds h_tab]. rewrite !fset_same. reflexivity. Qed.

(** One slot and its entry change. *)
Lemma sim_change w max s b g o x t c bl nx : sim w max s b -> handle_ok max g ->
  slot_ok o x -> own_ok (own_of w (upds s (g + 1000) x t c bl nx)) bl nx ->
  (actv x = true -> exists k, ptr x (rank_in w (grp x)) = Blk k) ->
  (hnd x = true -> prop x = READ_CACHE -> chead x = Null \/ (actv x = true /\ exists k, chead x = Blk k)) ->
  (h_limited s = true -> t = h_total s + bytes_of (b_arr b g) - bytes_of o) ->
  (forall e, o = Some e -> (e_grp e = -2 /\ e_alloc e = None) \/ -1 <= e_grp e <= 0 \/ (0 < e_grp e < max /\ b_groups b (e_grp e) = true)) ->
  (forall e, o = Some e -> e_prop e = ReadOnly -> exists n, e_alloc e = Some n /\ 0 < e_grp e) ->
  sim w max (upds s (g + 1000) x t c bl nx) (set_entry b g o).
Proof.
  intros [S1 S2 S3 S4 S5 S6 S7 S8 S9 S10 S11 S12] Hg Hx Ho Ha Hc Ht He Hr. constructor; cbn [upds h_max h_tab h_blocks h_next h_raw h_limited h_total h_limit h_groups set_entry b_arr b_raw b_limit b_first b_groups]; auto.
  - intros g'. destruct (Z.eq_dec g' g) as [->|N].
    + rewrite put_same, fset_same. exact Hx.
    + rewrite put_other, fset_other by lia. apply S2.
  - intros g' H. destruct (Z.eq_dec g' g) as [->|N]; [exact Hg|]. rewrite put_other in H by exact N. auto.
  - intros i H. unfold aptr. cbn [upds h_tab]. destruct (Z.eq_dec i (g + 1000)) as [->|N].
    + rewrite fset_same in *. auto.
    + rewrite fset_other in * by exact N. apply S5, H.
  - intros i. destruct (Z.eq_dec i (g + 1000)) as [->|N].
    + rewrite fset_same. auto.
    + rewrite fset_other by exact N. apply S6.
  - change (in_use max _) with (in_use max (set_entry b g o)). rewrite in_use_change by exact Hg. destruct (b_limit b); [|exact S8]. destruct S8 as (A & B & C).
    split; [exact A|]. split; [|exact C]. rewrite (Ht A). lia.
  - intros g' e. destruct (Z.eq_dec g' g) as [->|N]; [rewrite put_same; apply He|rewrite put_other by exact N; apply S10].
  - intros g' e. destruct (Z.eq_dec g' g) as [->|N]; [rewrite put_same; apply Hr|rewrite put_other by exact N; apply S11].
Qed.

Lemma index_ok w max s b g : sim w max s b -> handle_ok max g -> index s g = Done (g + 1000).
Proof.
  intros S H. unfold index, GA_OFFSET. rewrite (si_max _ _ _ _ S). unfold handle_ok in H.
  destruct (Z.leb_spec 0 (g + 1000)), (Z.ltb_spec (g + 1000) max); try lia. reflexivity.
Qed.
Lemma use_group_ok w max s b p : sim w max s b -> -2 <= p <= 0 \/ (0 < p < max /\ b_groups b p = true) -> use_group s p = Done tt.
Proof.
  intros S [H|[H E]]; unfold use_group.
  - destruct (Z.ltb_spec 0 p); [lia|reflexivity].
  - rewrite (si_grp _ _ _ _ S), E. rewrite andb_false_r. reflexivity.
Qed.
Lemma gas_eta s : s = Gas (h_max s) (h_tab s) (h_total s) (h_limited s) (h_limit s) (h_cur s) (h_blocks s) (h_next s) (h_groups s) (h_raw s).
Proof. destruct s; reflexivity. Qed.
Lemma set_tab_upds s i x : set_tab s i x = upds s i x (h_total s) (h_cur s) (h_blocks s) (h_next s).
Proof. reflexivity. Qed.

(** A change that keeps the storage of the slot and touches no block. *)
Lemma sim_plain w max s b g o x : sim w max s b -> handle_ok max g -> slot_ok o x ->
  bytes_of o = bytes_of (b_arr b g) ->
  (actv x = true -> actv (h_tab s (g + 1000)) = true /\ ptr x (rank_in w (grp x)) = aptr w s (g + 1000)) ->
  (hnd x = true -> prop x = READ_CACHE -> chead x = Null \/ (hnd (h_tab s (g + 1000)) = true /\ prop (h_tab s (g + 1000)) = READ_CACHE /\ actv x = actv (h_tab s (g + 1000)) /\ chead x = chead (h_tab s (g + 1000)))) ->
  (forall e, o = Some e -> (e_grp e = -2 /\ e_alloc e = None) \/ -1 <= e_grp e <= 0 \/ (0 < e_grp e < max /\ b_groups b (e_grp e) = true)) ->
  (forall e, o = Some e -> e_prop e = ReadOnly -> exists n, e_alloc e = Some n /\ 0 < e_grp e) ->
  sim w max (set_tab s (g + 1000) x) (set_entry b g o).
Proof.
  intros S Hg Hx Hb Ha Hc He Hr. rewrite set_tab_upds. apply sim_change; auto.
  - eapply own_ext; [|exact (si_own _ _ _ _ S)]. intros o'. destruct (owner_dec o' (OArr (g + 1000))) as [->|N1].
    + rewrite own_upds_arr. destruct (actv x) eqn:E; [|right; reflexivity]. destruct (Ha eq_refl) as [A B]. left. cbn [own_of]. rewrite A, B. reflexivity.
    + destruct (owner_dec o' (OCache (g + 1000))) as [->|N2].
      * rewrite own_upds_cache. destruct (hnd x && _) eqn:E; [|right; reflexivity]. apply andb_prop in E as [E1 E2]. apply Z.eqb_eq in E2.
        destruct (Hc E1 E2) as [->|(A & B & _ & C)]; [right; reflexivity|]. left. cbn [own_of]. rewrite A, B, C. reflexivity.
      * left. apply own_upds_other; assumption.
  - intros E. destruct (Ha E) as [A B]. destruct (si_arr _ _ _ _ S _ A) as (k & K). exists k. congruence.
  - intros E1 E2. destruct (Hc E1 E2) as [->|(A & B & C & D)]; [left; reflexivity|]. destruct (si_cache _ _ _ _ S _ A B) as [K|(K1 & K2)].
    + left. congruence.
    + right. split; [congruence|]. rewrite D. exact K2.
  - intros _. rewrite Hb. lia.
Qed.

Lemma slot_of w max s b g e : sim w max s b -> b_arr b g = Some e -> handle_ok max g /\ slot_ok (Some e) (h_tab s (g + 1000)).
Proof.
  intros S E. split; [apply (si_range _ _ _ _ S); congruence|]. rewrite <- E. apply (si_slot _ _ _ _ S).
Qed.
Lemma grp_usable w max s b g e : sim w max s b -> b_arr b g = Some e -> use_group s (e_grp e) = Done tt.
Proof.
  intros S E. eapply use_group_ok; [exact S|]. destruct (si_grp_live _ _ _ _ S g e E) as [[H _]|[H|H]]; [left; lia|left; lia|right; exact H].
Qed.

Lemma first_free_sim w max s b : sim w max s b -> match first_free (h_tab s) 0 (Z.to_nat (h_max s)) with
  | Some i => handle_ok max (i - 1000) /\ b_arr b (i - 1000) = None
  | None => ~ room max b end.
Proof.
  intros S. pose proof (first_free_spec (h_tab s) (Z.to_nat (h_max s)) 0) as F. rewrite (si_max _ _ _ _ S) in *.
  destruct (first_free _ _ _) as [i|].
  - destruct F as [F1 F2]. split; [unfold handle_ok; lia|]. pose proof (si_slot _ _ _ _ S (i - 1000)) as [_ H].
    replace (i - 1000 + 1000) with i in H by lia. destruct (b_arr b (i - 1000)); [|reflexivity]. destruct H. congruence.
  - intros (h & Hh & E). pose proof (si_slot _ _ _ _ S h) as [_ H]. rewrite E in H. destruct H as [H _].
    rewrite F in H; [discriminate|]. unfold handle_ok in Hh. lia.
Qed.

Lemma create_sim w max s b : sim w max s b -> room max b -> exists s' h, create_handle s = Done (s', h) /\
  handle_ok max h /\ b_arr b h = None /\ h_cur s' = h_cur s /\ sim w max s' (set_entry b h (Some (Entry None (-1) (-2) [] Plain))).
Proof.
  intros S R. unfold create_handle. pose proof (first_free_sim w max s b S) as F. destruct (first_free _ _ _) as [i|]; [|contradiction].
  destruct F as [F1 F2]. pose proof (si_slot _ _ _ _ S (i - 1000)) as H. rewrite F2 in H. replace (i - 1000 + 1000) with i in H by lia.
  destruct H as (H1 & H2 & H3). eexists. exists (i - 1000). split; [reflexivity|]. split; [exact F1|]. split; [exact F2|]. split; [reflexivity|].
  replace i with (i - 1000 + 1000) at 1 by lia. apply sim_plain; [exact S|exact F1| | | | | |].
  - split; [exact H1|]. cbn. split; [reflexivity|]. split; [reflexivity|]. split; [reflexivity|]. split; [reflexivity|]. split; [reflexivity|]. split; [discriminate|exact H3].
  - rewrite F2. reflexivity.
  - cbn. rewrite H3. discriminate.
  - cbn. discriminate.
  - intros e [= <-]. cbn. left. auto.
  - intros e [= <-]. cbn. discriminate.
Qed.
Lemma create_full w max s b : sim w max s b -> ~ room max b -> create_handle s = Abort.
Proof.
  intros S R. unfold create_handle. pose proof (first_free_sim w max s b S) as F. destruct (first_free _ _ _) as [i|]; [|reflexivity].
  exfalso. apply R. eexists; exact F.
Qed.

Lemma set_data_sim w max s b g nd d e : sim w max s b -> b_arr b g = Some e -> e_alloc e = None -> 1 <= nd <= 7 ->
  exists s', set_data s g nd d = Done s' /\ h_cur s' = h_cur s /\ sim w max s' (set_entry b g (Some (Entry None nd (e_grp e) d (e_prop e)))).
Proof.
  intros S E A Hn. destruct (slot_of _ _ _ _ _ _ S E) as [Hg (H1 & H2 & H3 & H4 & H5 & H6 & H7 & H8)]. rewrite A in H8. unfold set_data. rewrite (index_ok _ _ _ _ _ S Hg).
  cbv zeta. rewrite H8. destruct (Z.ltb_spec nd 1), (Z.ltb_spec 7 nd); try lia. cbn [orb]. eexists. split; [reflexivity|]. split; [reflexivity|].
  apply sim_plain; [exact S|exact Hg| | | | | |].
  - split; [exact H1|]. cbn. repeat split; auto.
  - rewrite E. cbn. rewrite A. reflexivity.
  - cbn. discriminate.
  - cbn. intros X Y. right. auto.
  - intros e' [= <-]. cbn. destruct (si_grp_live _ _ _ _ S g e E) as [[X _]|[X|X]]; auto.
  - intros e' [= <-]. cbn. intros X. destruct (si_ro _ _ _ _ S g e E X) as (n & Y & _). congruence.
Qed.

Lemma set_pgroup_sim w max s b g p e : sim w max s b -> b_arr b g = Some e -> e_alloc e = None -> e_prop e <> ReadOnly ->
  p = -1 \/ (0 <= p < max /\ b_groups b p = true) ->
  exists s', set_pgroup s g p = Done s' /\ h_cur s' = h_cur s /\ sim w max s' (set_entry b g (Some (Entry None (e_nd e) p (e_desc e) (e_prop e)))).
Proof.
  intros S E A NR Hp. destruct (slot_of _ _ _ _ _ _ S E) as [Hg (H1 & H2 & H3 & H4 & H5 & H6 & H7 & H8)]. rewrite A in H8.
  set (x := h_tab s (g + 1000)) in *.
  exists (set_tab s (g + 1000) (Slot (actv x) (hnd x) (ndim x) p (size x) (ptr x) (overlay x) (prop x) (chead x) (content x) (oldgrp x))).
  split; [|split; [reflexivity|]].
  - unfold set_pgroup. rewrite (index_ok _ _ _ _ _ S Hg). cbv zeta. fold x. rewrite H8. destruct Hp as [->|[Hp Hl]]; [reflexivity|].
    rewrite (si_max _ _ _ _ S), (si_grp _ _ _ _ S), Hl.
    destruct (Z.eqb_spec p (-1)); [lia|]. destruct (Z.ltb_spec p 0), (Z.leb_spec max p); try lia. reflexivity.
  - apply sim_plain; [exact S|exact Hg| | | | | |].
    + split; [exact H1|]. cbn. repeat split; auto.
    + rewrite E. cbn. rewrite A. reflexivity.
    + cbn. fold x. rewrite H8. discriminate.
    + cbn. intros X Y. right. auto.
    + intros e' [= <-]. cbn. destruct Hp as [->|[Hp Hl]]; [right; left; lia|]. destruct (Z.eq_dec p 0); [right; left; lia|right; right; split; [lia|exact Hl]].
    + intros e' [= <-]. cbn. contradiction.
Qed.

Lemma credit_upds s n : credit s n = Gas (h_max s) (h_tab s) (if h_limited s then h_total s + n else h_total s) (h_limited s) (h_limit s) (h_cur s) (h_blocks s) (h_next s) (h_groups s) (h_raw s).
Proof. unfold credit. destruct s; cbn. destruct h_limited; reflexivity. Qed.
(** States that agree at every index. *)
Definition gas_eq (s s' : gas) : Prop :=
  h_max s' = h_max s /\ (forall i, h_tab s' i = h_tab s i) /\ h_total s' = h_total s /\ h_limited s' = h_limited s /\ h_limit s' = h_limit s /\
  h_blocks s' = h_blocks s /\ h_next s' = h_next s /\ (forall p, h_groups s' p = h_groups s p) /\ h_raw s' = h_raw s.
Lemma own_of_eq w s s' o : gas_eq s s' -> own_of w s' o = own_of w s o.
Proof.
  intros (_ & H & _ & _ & _ & _ & _ & _ & R). destruct o; cbn [own_of]; unfold aptr; rewrite ?H, ?R; reflexivity.
Qed.
Lemma sim_eq w max s s' b : gas_eq s s' -> sim w max s b -> sim w max s' b.
Proof.
  intros Q S. pose proof Q as (E1 & E2 & E3 & E4 & E5 & E6 & E7 & E8 & E9). destruct S as [S1 S2 S3 S4 S5 S6 S7 S8 S9 S10 S11 S12]. constructor; auto.
  - congruence.
  - intros g. rewrite E2. apply S2.
  - rewrite E6, E7. eapply own_ext; [|exact S4]. intros o. left. apply own_of_eq. exact Q.
  - intros i. unfold aptr. rewrite E2. apply S5.
  - intros i. rewrite E2. apply S6.
  - rewrite E9. exact S7.
  - rewrite E3, E4, E5. exact S8.
  - intros p. rewrite E8. apply S9.
Qed.
Lemma fset_twice {A} (f : Z -> A) i a a' j : fset (fset f i a) i a' j = fset f i a' j.
Proof. unfold fset. destruct (j =? i); reflexivity. Qed.

(** The vote of the process is the one the specification asks for. *)
Lemma vote_granted w max s b n o t : sim w max s b -> (h_limited s = true -> t = h_total s - n) ->
  (if h_limited s then (0 <=? t) && o else true) = granted max b n o.
Proof.
  intros S Ht. unfold granted. pose proof (si_mem _ _ _ _ S) as M. destruct (b_limit b) as [l|].
  - destruct M as (A & B & _). rewrite A in *. rewrite (Ht eq_refl), B. f_equal.
    destruct (Z.leb_spec 0 (l - in_use max b - n)), (Z.leb_spec (in_use max b + n) l); auto; lia.
  - rewrite M. reflexivity.
Qed.

(** Giving slot [g] fresh storage. *)
Lemma sim_grant w max s b g e x n t c p :
  sim w max s b -> handle_ok max g -> (b_arr b g = None \/ exists e0, b_arr b g = Some e0 /\ e_alloc e0 = None) ->
  e_alloc e = Some n -> 0 <= n -> p = e_grp e ->
  overlay x = false -> hnd x = true -> ndim x = Some (e_nd e) -> grp x = p -> content x = e_desc e -> prop x = prop_no (e_prop e) ->
  actv x = true -> size x = n -> ptr x (rank_in w p) = Blk (h_next s) -> e_prop e <> ReadOnly ->
  (e_prop e = ReadCache -> chead x = Null) ->
  (h_limited s = true -> t = h_total s - n) ->
  (-1 <= p <= 0 \/ (0 < p < max /\ b_groups b p = true)) ->
  sim w max (upds s (g + 1000) x t c (h_next s :: h_blocks s) (h_next s + 1)) (set_entry b g (Some e)).
Proof.
  intros S Hg Hb EA Hn -> X1 X2 X3 X4 X5 X6 X7 X8 X9 NR HC Ht Hp. apply sim_change; [exact S|exact Hg| | | | | | |].
  - split; [exact X1|]. rewrite EA. split; [exact X2|]. split; [exact X3|]. split; [exact X4|]. split; [exact X5|]. split; [exact X6|]. split; [contradiction|]. auto.
  - apply (own_new (own_of w s)) with (o := OArr (g + 1000)).
    + intros o N. destruct (owner_dec o (OCache (g + 1000))) as [->|N2].
      * right. rewrite own_upds_cache, X2, X6. destruct (Z.eqb_spec (prop_no (e_prop e)) READ_CACHE) as [Q|Q]; [|reflexivity].
        rewrite HC; [reflexivity|]. destruct (e_prop e); cbn in Q; try discriminate Q. reflexivity.
      * left. apply own_upds_other; assumption.
    + rewrite own_upds_arr, X7, X4, X9. reflexivity.
    + exact (si_own _ _ _ _ S).
  - intros _. rewrite X4, X9. eauto.
  - intros _ Q. left. apply HC. rewrite X6 in Q. destruct (e_prop e); cbn in Q; try discriminate Q. reflexivity.
  - intros L. rewrite (Ht L). cbn [bytes_of]. rewrite EA. destruct Hb as [->|(e0 & -> & A)]; cbn [bytes_of]; [lia|rewrite A; lia].
  - intros e' [= <-]. auto.
  - intros e' [= <-]. contradiction.
Qed.
(** Slot [g] is empty again and nothing was allocated. *)
Lemma sim_drop w max s b g x c : sim w max s b -> handle_ok max g ->
  (b_arr b g = None \/ exists e0, b_arr b g = Some e0 /\ e_alloc e0 = None) ->
  overlay x = false -> hnd x = false -> actv x = false ->
  sim w max (upds s (g + 1000) x (h_total s) c (h_blocks s) (h_next s)) (set_entry b g None).
Proof.
  intros S Hg Hb X1 X2 X3. apply sim_change; [exact S|exact Hg| | | | | | |].
  - split; auto.
  - eapply own_ext; [|exact (si_own _ _ _ _ S)]. intros o. destruct (owner_dec o (OArr (g + 1000))) as [->|N1].
    + right. rewrite own_upds_arr, X3. reflexivity.
    + destruct (owner_dec o (OCache (g + 1000))) as [->|N2]; [right; rewrite own_upds_cache, X2; reflexivity|left; apply own_upds_other; assumption].
  - congruence.
  - congruence.
  - intros _. destruct Hb as [->|(e0 & -> & A)]; cbn [bytes_of]; [lia|rewrite A; lia].
  - discriminate.
  - discriminate.
Qed.
