(** C34, C35, C55: cached reads. *)
From Coq Require Import ZArith List Lia Permutation.
From Verif Require Import SpecBox SpecStore SpecHome SpecXfer SpecCopy SpecCache MBase MXfer MOdo MCache LRadix LStore LXfer LXfer2 LCache PDist PIter PIterBlk PXfer.
Import ListNotations.
Open Scope Z_scope.

(** A request the array and the cache can serve; [shape] as in good_request. *)
Definition readable (a : garray) (shape : list Z -> Prop) (lo hi ld : list Z) : Prop :=
  splittable (ga_elemsize a) lo hi /\ good_request a shape lo hi ld.
(** A history of gets, set_property "read_cache" and unset_property. *)
Definition good_history {V} (a : garray) (shape : list Z -> Prop) (h : list (cevent V)) : Prop :=
  Forall (fun e => match e with
    | CGet lo hi ld buf => length lo = length (dims (ga_desc a)) /\ cacheable (ga_elemsize a) lo hi ld /\ readable a shape lo hi ld /\ whole buf lo hi ld
    | CSet | CUnset => True end) h.

Lemma in_array_between ds : forall lo hi x, in_array ds lo -> in_array ds hi -> in_box lo hi x -> in_array ds x.
Proof.
  unfold in_array. induction ds as [|d ds IH]; intros [|l lo] [|h hi] [|x xs]; cbn in *; try tauto.
  intros (A & A') (B & B') (C & C'). split; [lia|exact (IH lo hi xs A' B' C')].
Qed.

(** With enough fuel for the gets of a history, every get of the history reads the array. *)
Lemma reads V guess rnd nn smp a placed shape (m : heap V) order (h : list (cevent V)) :
  (forall x, in_array (dims (ga_desc a)) x -> exists q, placed x q) -> allocated placed m -> (forall ts, Permutation ts (order ts)) ->
  (forall lo hi ld buf, readable a shape lo hi ld -> buffer_ok buf lo hi ld -> exists ts fuel0,
    (forall fuel, (fuel0 <= fuel)%nat -> transfers fuel guess rnd nn smp a lo hi ld = Some ts) /\
    forall ts', Permutation ts ts' -> exists buf', run_elems (get_elem m) buf ts' = Some buf' /\ get_effect placed lo hi ld m buf buf') ->
  good_history a shape h ->
  exists fuel0, forall fuel, (fuel0 <= fuel)%nat -> forall lo hi ld buf,
    (readable a shape lo hi ld /\ exists b, In (CGet lo hi ld b) h) -> buffer_ok buf lo hi ld ->
    exists buf', get_common fuel guess rnd nn smp order a m lo hi ld buf = Some buf' /\ get_effect placed lo hi ld m buf buf' /\ buffer_ok buf' lo hi ld.
Proof.
  intros T AL P G H.
  assert (F : exists fuel0, forall fuel, (fuel0 <= fuel)%nat -> forall lo hi ld b, In (CGet lo hi ld b) h -> exists ts, (forall f, (fuel <= f)%nat -> transfers f guess rnd nn smp a lo hi ld = Some ts)).
  { clear - G H. induction H as [|e h He H IH]; [exists O; intros fuel _ lo hi ld b HI; destruct HI|].
    destruct IH as (f0 & IH). destruct e as [lo hi ld buf| |]; [|exists f0; intros fuel Hf lo hi ld b [HI|HI]; [discriminate|eauto]..].
    destruct He as (_ & (_ & _ & LE & _ & _ & VL & _) & RD & WH). destruct (G lo hi ld buf RD (whole_ok buf lo hi ld LE VL WH)) as (ts & f1 & E & _).
    exists (Nat.max f0 f1). intros fuel Hf lo' hi' ld' b [HI|HI].
    - injection HI as <- <- <- <-. exists ts. intros f Hff. apply E. lia.
    - exact (IH fuel ltac:(lia) lo' hi' ld' b HI). }
  destruct F as (f0 & F). exists f0. intros fuel Hf lo hi ld buf (RD & b & IN) B.
  destruct (F fuel Hf lo hi ld b IN) as (ts & E). destruct (G lo hi ld buf RD B) as (ts1 & f1 & E1 & K).
  assert (ts = ts1) by (specialize (E (Nat.max fuel f1) ltac:(lia)); specialize (E1 (Nat.max fuel f1) ltac:(lia)); congruence). subst ts1.
  destruct (K (order ts) (P ts)) as (b' & E' & GE). exists b'. unfold get_common. rewrite (E fuel (Nat.le_refl _)). split; [exact E'|]. split; [exact GE|].
  intros x Bx. destruct RD as (_ & Q1 & Q2 & _). destruct (T x (in_array_between _ _ _ _ Q1 Q2 Bx)) as (q & Pq).
  rewrite (proj1 GE x q Bx Pq). apply AL with x. exact Pq.
Qed.
Lemma block_total a nn placed shape : block_layout a nn placed shape -> forall x, in_array (dims (ga_desc a)) x -> exists q, placed x q.
Proof.
  intros (HG & [(T & W & -> & HN & -> & ->)|[(T & W & WG & HF & -> & ->)|(T & W & WG & HF & -> & ->)]]).
  - destruct (bc_storage a T W HG (proj1 HN)) as (H & _). exact H.
  - destruct (tiled_storage a 0 T W WG HG) as (H & _). exact H.
  - destruct (scalapack_storage a 0 T W WG HG) as (H & _). exact H.
Qed.
Lemma good_events V a shape (h : list (cevent V)) h' : good_history a shape h -> (forall e, In e h' -> In e h) ->
  Forall (good_event (fun lo hi ld => readable a shape lo hi ld /\ exists b, In (CGet lo hi ld b) h) (ga_elemsize a) (length (dims (ga_desc a)))) h'.
Proof.
  unfold good_history. rewrite !Forall_forall. intros H S e He. specialize (H e (S e He)). destruct e as [lo hi ld buf| |]; [|exact I|exact I].
  destruct H as (H1 & H2 & H3 & H4). split; [exact H1|]. split; [exact H2|]. split; [|exact H4]. split; [exact H3|]. exists buf. auto.
Qed.

Lemma cached_gets V a placed shape (m : heap V) fetch junk h :
  (forall lo hi ld buf, (readable a shape lo hi ld /\ exists b, In (CGet lo hi ld b) h) -> buffer_ok buf lo hi ld ->
    exists buf', fetch lo hi ld buf = Some buf' /\ get_effect placed lo hi ld m buf buf' /\ buffer_ok buf' lo hi ld) ->
  good_history a shape h ->
  exists c rs, crun fetch junk (ga_elemsize a) no_cache h = Some (c, rs) /\
    forall h1 lo hi ld buf h2, h = h1 ++ CGet lo hi ld buf :: h2 ->
      exists buf', nth_error rs (length h1) = Some (Some buf') /\
        (tight lo hi ld \/ (forall lo' hi' ld' b', In (CGet lo' hi' ld' b') h1 -> ~ within lo hi lo' hi') ->
         get_effect placed lo hi ld m buf buf').
Proof.
  intros FR H.
  destruct (run_ok placed m _ fetch junk (ga_elemsize a) (length (dims (ga_desc a))) FR h [] no_cache) as (c & rs & E & _ & _ & _ & K).
  - split; [cbn; lia|]. split; [intros i HI; destruct HI; reflexivity|exact I].
  - intros i n HI. discriminate.
  - apply (good_events V a shape h h H). auto.
  - exists c, rs. split; [exact E|]. intros h1 lo hi ld buf h2 EQ. destruct (K h1 lo hi ld buf h2 EQ) as (b' & N & [GE|(GE & lo' & hi' & ld' & b0 & IN & WI)]); exists b'; (split; [exact N|]); intros C; [exact GE|].
    destruct C as [T|C]; [|destruct (C lo' hi' ld' b0 IN WI)].
    unfold good_history in H. rewrite Forall_forall in H. specialize (H (CGet lo hi ld buf)). rewrite EQ in H. specialize (H ltac:(apply in_or_app; right; left; reflexivity)).
    destruct H as (_ & (_ & HL & LE & _) & _). assert (N0 : lo <> []) by (intros ->; cbn in HL; lia).
    assert (LX : forall x, in_box lo hi x -> lin ld (vsub x lo) = lin (extents lo hi) (vsub x lo)).
    { intros x B. apply tight_lin; auto. rewrite (in_range0_length _ _ (box_range _ _ _ B)). apply ext_len. exact LE. }
    destruct GE as (G1 & G2). split.
    + intros x q B P. unfold buf_at. rewrite LX by exact B. exact (G1 x q B P).
    + intros i Hi. apply G2. intros x B. rewrite <- LX by exact B. apply Hi. exact B.
Qed.

Lemma cached_safe V a placed shape (m : heap V) fetch junk h :
  (forall lo hi ld buf, (readable a shape lo hi ld /\ exists b, In (CGet lo hi ld b) h) -> buffer_ok buf lo hi ld ->
    exists buf', fetch lo hi ld buf = Some buf' /\ get_effect placed lo hi ld m buf buf' /\ buffer_ok buf' lo hi ld) ->
  good_history a shape h ->
  exists c rs, crun fetch junk (ga_elemsize a) no_cache h = Some (c, rs) /\
    (forall i, c_head c = Some i -> exists n, c_nodes c i = Some n /\ n_next n = None) /\
    (forall h', h = CSet :: h' -> ~ In CSet h' -> forall i, c_nodes c i <> None -> c_head c = Some i).
Proof.
  intros FR H. pose proof (run_ok placed m _ fetch junk (ga_elemsize a) (length (dims (ga_desc a))) FR) as RUN.
  destruct (RUN h [] no_cache) as (c & rs & E & (_ & _ & IH) & _ & _ & _).
  - split; [cbn; lia|]. split; [intros i HI; destruct HI; reflexivity|exact I].
  - intros i n HI. discriminate.
  - apply (good_events V a shape h h H). auto.
  - exists c, rs. split; [exact E|]. split.
    + intros i EI. rewrite EI in IH. destruct IH as (n & EN & _ & _ & NX & _). exists n. auto.
    + intros h' -> NI. destruct (RUN h' [] (set_read_cache no_cache)) as (c2 & rs2 & E2 & _ & _ & O & _).
      * split; [cbn; lia|]. split; [intros i HI; destruct HI; reflexivity|exact I].
      * intros i n HI. discriminate.
      * apply (good_events V a shape (CSet :: h') h' H). intros e He. right. exact He.
      * cbn [crun cstep fst snd] in E. rewrite E2 in E. injection E as <- _. apply O; [|exact NI]. intros i HI. destruct HI. reflexivity.
Qed.

(** * C34 *)
(** A get of an unmodified array with the read-cache property (or without)
    returns the contents of the array, after any history, if the leading
    dimensions of the caller's buffer are the extents of the region or no
    region read before encloses it. *)
Theorem C34_get_partial : forall V guess rnd nn smp a (m : heap V) order junk h,
  good_guess guess -> (forall k, 0 <= rnd k) -> wf_array a -> allocated (reg_place a) m -> (forall ts, Permutation ts (order ts)) ->
  good_history a (reg_shape a) h ->
  exists fuel0, forall fuel, (fuel0 <= fuel)%nat -> exists c rs, crun (get_common fuel guess rnd nn smp order a m) junk (ga_elemsize a) no_cache h = Some (c, rs) /\
    forall h1 lo hi ld buf h2, h = h1 ++ CGet lo hi ld buf :: h2 ->
      exists buf', nth_error rs (length h1) = Some (Some buf') /\
        (tight lo hi ld \/ (forall lo' hi' ld' b', In (CGet lo' hi' ld' b') h1 -> ~ within lo hi lo' hi') ->
         get_effect (reg_place a) lo hi ld m buf buf').
Proof.
  intros V guess rnd nn smp a m order junk h G R W AL P H.
  destruct (reads V guess rnd nn smp a (reg_place a) (reg_shape a) m order h (proj1 (regular_storage a 0 W)) AL P) as (f0 & F); [|exact H|].
  - intros lo hi ld buf (S & Q) B. exact (C19_get V guess rnd nn smp a lo hi ld buf m G R W S Q AL B).
  - exists f0. intros fuel Hf. apply (cached_gets V a (reg_place a) (reg_shape a) m _ junk h); [|exact H]. exact (F fuel Hf).
Qed.
Theorem C34_block_get_partial : forall V guess rnd nn smp a placed shape (m : heap V) order junk h,
  block_layout a nn placed shape -> allocated placed m -> (forall ts, Permutation ts (order ts)) -> good_history a shape h ->
  exists fuel0, forall fuel, (fuel0 <= fuel)%nat -> exists c rs, crun (get_common fuel guess rnd nn smp order a m) junk (ga_elemsize a) no_cache h = Some (c, rs) /\
    forall h1 lo hi ld buf h2, h = h1 ++ CGet lo hi ld buf :: h2 ->
      exists buf', nth_error rs (length h1) = Some (Some buf') /\
        (tight lo hi ld \/ (forall lo' hi' ld' b', In (CGet lo' hi' ld' b') h1 -> ~ within lo hi lo' hi') ->
         get_effect placed lo hi ld m buf buf').
Proof.
  intros V guess rnd nn smp a placed shape m order junk h B AL P H.
  destruct (reads V guess rnd nn smp a placed shape m order h (block_total a nn placed shape B) AL P) as (f0 & F); [|exact H|].
  - intros lo hi ld buf (S & Q) BO. exact (C49_block_get_partial V guess rnd nn smp a placed shape lo hi ld buf m B Q AL BO).
  - exists f0. intros fuel Hf. apply (cached_gets V a placed shape m _ junk h); [|exact H]. exact (F fuel Hf).
Qed.

(** * C35 *)
(** No history makes the cache use or free a released entry; the list never
    has more than one entry, and without a set_property that forgets entries
    nothing else is allocated. *)
Theorem C35_no_use_after_free : forall V guess rnd nn smp a (m : heap V) order junk h,
  good_guess guess -> (forall k, 0 <= rnd k) -> wf_array a -> allocated (reg_place a) m -> (forall ts, Permutation ts (order ts)) ->
  good_history a (reg_shape a) h ->
  exists fuel0, forall fuel, (fuel0 <= fuel)%nat -> exists c rs, crun (get_common fuel guess rnd nn smp order a m) junk (ga_elemsize a) no_cache h = Some (c, rs) /\
    (forall i, c_head c = Some i -> exists n, c_nodes c i = Some n /\ n_next n = None) /\
    (forall h', h = CSet :: h' -> ~ In CSet h' -> forall i, c_nodes c i <> None -> c_head c = Some i).
Proof.
  intros V guess rnd nn smp a m order junk h G R W AL P H.
  destruct (reads V guess rnd nn smp a (reg_place a) (reg_shape a) m order h (proj1 (regular_storage a 0 W)) AL P) as (f0 & F); [|exact H|].
  - intros lo hi ld buf (S & Q) B. exact (C19_get V guess rnd nn smp a lo hi ld buf m G R W S Q AL B).
  - exists f0. intros fuel Hf. apply (cached_safe V a (reg_place a) (reg_shape a) m _ junk h); [|exact H]. exact (F fuel Hf).
Qed.
Theorem C35_block_no_use_after_free : forall V guess rnd nn smp a placed shape (m : heap V) order junk h,
  block_layout a nn placed shape -> allocated placed m -> (forall ts, Permutation ts (order ts)) -> good_history a shape h ->
  exists fuel0, forall fuel, (fuel0 <= fuel)%nat -> exists c rs, crun (get_common fuel guess rnd nn smp order a m) junk (ga_elemsize a) no_cache h = Some (c, rs) /\
    (forall i, c_head c = Some i -> exists n, c_nodes c i = Some n /\ n_next n = None) /\
    (forall h', h = CSet :: h' -> ~ In CSet h' -> forall i, c_nodes c i <> None -> c_head c = Some i).
Proof.
  intros V guess rnd nn smp a placed shape m order junk h B AL P H.
  destruct (reads V guess rnd nn smp a placed shape m order h (block_total a nn placed shape B) AL P) as (f0 & F); [|exact H|].
  - intros lo hi ld buf (S & Q) BO. exact (C49_block_get_partial V guess rnd nn smp a placed shape lo hi ld buf m B Q AL BO).
  - exists f0. intros fuel Hf. apply (cached_safe V a placed shape m _ junk h); [|exact H]. exact (F fuel Hf).
Qed.

(** * Example *)
(** The 9 x 7 array of PXfer; the memories hold 1000 * process + offset. *)
Definition num_mem : heap Z := fun p o => if (0 <=? o) && (o <? 56) then Some (1000 * p + o) else None.
Ltac solve_ints := repeat (apply Forall_cons; [unfold int_max; lia|]); apply Forall_nil.
Definition ex_history (ld : Z) : list (cevent Z) :=
  [CSet; CGet [3; 2] [7; 5] [9] (ex_buf 32); CGet [4; 3] [6; 4] [ld] (ex_buf 32)].
Lemma ex_history_good ld : 3 <= ld <= 20 -> good_history ex_ga (reg_shape ex_ga) (ex_history ld).
Proof.
  intros L.
  assert (Q : good_request ex_ga (reg_shape ex_ga) [4; 3] [6; 4] [ld]).
  { split; [cbn; lia|]. split; [cbn; lia|]. split; [repeat constructor; lia|]. split; [cbn; lia|].
    split; [cbn; unfold int_max; lia|]. split; [unfold int_counts; cbn [extents ex_ga ga_elemsize]; unfold int_max; split; [lia|repeat constructor; lia]|].
    split; [intros [|i] Hi; cbn in Hi; [cbn [firstn zprod ex_ga ga_elemsize]; unfold int_max; lia|lia]|].
    intros sh Hs. apply ex_ga_shape in Hs as [-> | ->]; intros [|i] Hi; cbn in Hi; try lia; vm_compute; discriminate. }
  assert (S : forall lo0 lo1 hi0 hi1, 0 <= hi0 - lo0 <= 20 -> 0 <= hi1 - lo1 <= 20 -> splittable (ga_elemsize ex_ga) [lo0; lo1] [hi0; hi1]).
  { intros lo0 lo1 hi0 hi1 A B [|[|i]] Hi; cbn in Hi; cbn [extents upd zprod ex_ga ga_elemsize]; unfold max_int_value; try lia; cbn; lia. }
  constructor; [exact I|]. constructor; [|constructor; [|constructor]].
  - split; [reflexivity|]. split; [|split; [split; [apply S; lia|exact ex_request]|]].
    + split; [cbn; lia|]. split; [cbn; lia|]. split; [repeat constructor; lia|].
      split; [solve_ints|]. split; [solve_ints|]. split; [cbn; lia|]. vm_compute. discriminate.
    + intros i Hi. cbn [vsub] in Hi. rewrite lin_cons in Hi. cbn [lin] in Hi. unfold ex_buf. replace ((0 <=? i) && (i <? 32)) with true by lia. discriminate.
  - split; [reflexivity|]. split; [|split; [split; [apply S; lia|exact Q]|]].
    + split; [cbn; lia|]. split; [cbn; lia|]. split; [repeat constructor; lia|].
      split; [solve_ints|]. split; [solve_ints|]. split; [cbn; lia|]. unfold small_buffer. cbn [extents length firstn Nat.sub app last zprod ex_ga ga_elemsize]. unfold int_max. lia.
    + intros i Hi. cbn [vsub] in Hi. rewrite lin_cons in Hi. cbn [lin] in Hi. unfold ex_buf. replace ((0 <=? i) && (i <? 32)) with true by lia. discriminate.
Qed.
Lemma num_mem_allocated : allocated (reg_place ex_ga) num_mem.
Proof.
  intros x q H. pose proof (ex_mem_allocated x q H) as X. unfold hget, ex_mem, num_mem in *. destruct ((0 <=? snd q) && (snd q <? 56)); [discriminate|exact X].
Qed.
Definition ex_run (k : nat) (ld : Z) : option (cache Z * list (option (buffer Z))) :=
  crun (get_common (9 + k) ex_guess (fun _ => 0) 8 (fun _ => false) (fun ts => ts) ex_ga num_mem) (fun _ => 7) 8 no_cache (ex_history ld).
(** The second get is served from the entry of the first; the entry is then
    the only one. *)
Example C34_ex :
  good_history ex_ga (reg_shape ex_ga) (ex_history 3) /\ tight [4; 3] [6; 4] [3] /\ allocated (reg_place ex_ga) num_mem /\
  match ex_run 0 3 with
  | Some (c, [None; Some b1; Some b2]) =>
      map b2 (zseq 0 7) = map b1 [10; 11; 12; 19; 20; 21] ++ [Some 106] /\ c_head c = Some 0 /\ c_fresh c = 1
  | _ => False
  end.
Proof. split; [apply ex_history_good; lia|]. split; [reflexivity|]. split; [exact num_mem_allocated|]. vm_compute. auto. Qed.

(** A get into a buffer with longer columns that is served from the cache
    writes packed columns. *)
Theorem C34_padded_get_refuted : exists guess rnd nn smp a (m : heap Z) order junk h,
  good_guess guess /\ (forall k, 0 <= rnd k) /\ wf_array a /\ allocated (reg_place a) m /\ (forall ts, Permutation ts (order ts)) /\
  good_history a (reg_shape a) h /\
  ~ exists fuel0, forall fuel, (fuel0 <= fuel)%nat -> exists c rs, crun (get_common fuel guess rnd nn smp order a m) junk (ga_elemsize a) no_cache h = Some (c, rs) /\
    forall h1 lo hi ld buf h2, h = h1 ++ CGet lo hi ld buf :: h2 ->
      exists buf', nth_error rs (length h1) = Some (Some buf') /\ get_effect (reg_place a) lo hi ld m buf buf'.
Proof.
  exists ex_guess, (fun _ => 0), 8, (fun _ => false), ex_ga, num_mem, (fun ts => ts), (fun _ => 7), (ex_history 5).
  split; [exact ex_guess_good|]. split; [intros; lia|]. split; [exact ex_ga_wf|]. split; [exact num_mem_allocated|].
  split; [intros; reflexivity|]. split; [apply ex_history_good; lia|]. intros (f0 & H).
  assert (R : forall k, match ex_run k 5 with Some (_, [_; _; Some b]) => b 3 <> Some 103 | _ => False end) by (intros k; vm_compute; discriminate).
  specialize (R f0). unfold ex_run in R. destruct (H (9 + f0)%nat ltac:(lia)) as (c & rs & E & K). change (ga_elemsize ex_ga) with 8 in E. rewrite E in R.
  destruct (K [CSet; CGet [3; 2] [7; 5] [9] (ex_buf 32)] [4; 3] [6; 4] [5] (ex_buf 32) [] eq_refl) as (b' & N & _ & G).
  clear E K H. destruct rs as [|r1 [|r2 [|[b|] [|]]]]; try (exfalso; exact R). apply R. cbn [length nth_error] in N. assert (b = b') as -> by congruence.
  rewrite (G 3); [reflexivity|]. intros [|x [|y [|z l]]]; cbn [in_box]; try tauto. intros (Hx & Hy & _). cbn [vsub]. rewrite lin_cons. cbn [lin]. lia.
Qed.


(** * C55 *)
Lemma unset_ok V (placed : list Z -> place -> Prop) (m : heap V) (junk : Z -> V) es nd c : inv placed m es nd c ->
  exists c', unset_property c = Some c' /\ (c_on c' = true -> c_head c' = None) /\ 0 <= c_fresh c' /\ (forall i, c_nodes c' i <> None -> 0 <= i < c_fresh c').
Proof.
  intros I. unfold unset_property. destruct (c_on c) eqn:ON.
  - destruct (clear_ok placed m junk es nd c I) as (c' & E & (F0 & FR & _) & H & _ & _). exists c'. auto.
  - eexists. split; [reflexivity|]. destruct I as (F0 & FR & _). split; [discriminate|]. split; [exact F0|exact FR].
Qed.
(** unset_property after any history succeeds, and the next get, whatever its
    leading dimensions, returns the contents that the array then has. *)
Theorem C55_first_get_after_unset_partial : forall V guess rnd nn smp a (m m' : heap V) order junk h lo hi ld buf,
  good_guess guess -> (forall k, 0 <= rnd k) -> wf_array a -> allocated (reg_place a) m -> allocated (reg_place a) m' -> (forall ts, Permutation ts (order ts)) ->
  good_history a (reg_shape a) (CGet lo hi ld buf :: h) ->
  exists fuel0, forall fuel, (fuel0 <= fuel)%nat -> exists c rs c1 c2 buf',
    crun (get_common fuel guess rnd nn smp order a m) junk (ga_elemsize a) no_cache h = Some (c, rs) /\
    unset_property c = Some c1 /\
    pnga_get (get_common fuel guess rnd nn smp order a m') junk (ga_elemsize a) c1 lo hi ld buf = Some (c2, buf') /\
    get_effect (reg_place a) lo hi ld m' buf buf'.
Proof.
  intros V guess rnd nn smp a m m' order junk h lo hi ld buf G R W AL AL' P H.
  destruct (reads V guess rnd nn smp a (reg_place a) (reg_shape a) m order (CGet lo hi ld buf :: h) (proj1 (regular_storage a 0 W)) AL P) as (f0 & F); [|exact H|].
  { intros lo1 hi1 ld1 buf1 (S & Q) B. exact (C19_get V guess rnd nn smp a lo1 hi1 ld1 buf1 m G R W S Q AL B). }
  destruct (reads V guess rnd nn smp a (reg_place a) (reg_shape a) m' order (CGet lo hi ld buf :: h) (proj1 (regular_storage a 0 W)) AL' P) as (f1 & F'); [|exact H|].
  { intros lo1 hi1 ld1 buf1 (S & Q) B. exact (C19_get V guess rnd nn smp a lo1 hi1 ld1 buf1 m' G R W S Q AL' B). }
  exists (Nat.max f0 f1). intros fuel Hf. specialize (F fuel ltac:(lia)). specialize (F' fuel ltac:(lia)).
  pose proof (good_events V a (reg_shape a) _ (CGet lo hi ld buf :: h) H ltac:(auto)) as GE.
  inversion GE as [|? ? GE1 GE2]; subst.
  destruct (run_ok (reg_place a) m _ _ junk (ga_elemsize a) (length (dims (ga_desc a))) F h [] no_cache) as (c & rs & E & I & _).
  - split; [cbn; lia|]. split; [intros i HI; destruct HI; reflexivity|exact I].
  - intros i n HI. discriminate.
  - exact GE2.
  - destruct (unset_ok V _ _ junk _ _ c I) as (c1 & E1 & H1 & F0 & FR). exists c, rs, c1. destruct (c_on c1) eqn:ON.
    + destruct (get_step (reg_place a) m' _ _ junk (ga_elemsize a) (length (dims (ga_desc a))) F' c1 [] lo hi ld buf) as (c2 & b' & E2 & _ & _ & _ & _ & K).
      * split; [exact F0|]. split; [exact FR|]. rewrite (H1 eq_refl). exact Logic.I.
      * intros i n HI. rewrite (H1 eq_refl) in HI. discriminate.
      * exact GE1.
      * exists c2, b'. split; [exact E|]. split; [exact E1|]. split; [exact E2|]. destruct K as [K|(_ & _ & lo' & hi' & ld' & b0 & IN & _)]; [exact K|destruct IN].
    + destruct GE1 as (_ & (_ & _ & LE & _ & _ & VL & _) & RD & WH). destruct (F' lo hi ld buf RD (whole_ok buf lo hi ld LE VL WH)) as (b' & E2 & K & _).
      exists c1, b'. split; [exact E|]. split; [exact E1|]. unfold pnga_get. rewrite ON, E2. split; [reflexivity|exact K].
Qed.
(** But the array keeps the property: a get, a modification of the array and
    the same get again return the old contents. *)
Theorem C55_unset_property_refuted : exists guess rnd nn smp a (m m' : heap Z) order junk lo hi ld buf,
  good_guess guess /\ (forall k, 0 <= rnd k) /\ wf_array a /\ allocated (reg_place a) m /\ allocated (reg_place a) m' /\ (forall ts, Permutation ts (order ts)) /\
  good_history a (reg_shape a) [CSet; CUnset; CGet lo hi ld buf] /\
  ~ exists fuel0, forall fuel, (fuel0 <= fuel)%nat -> exists c rs c2 buf',
      crun (get_common fuel guess rnd nn smp order a m) junk (ga_elemsize a) no_cache [CSet; CUnset; CGet lo hi ld buf] = Some (c, rs) /\
      pnga_get (get_common fuel guess rnd nn smp order a m') junk (ga_elemsize a) c lo hi ld buf = Some (c2, buf') /\
      get_effect (reg_place a) lo hi ld m' buf buf'.
Proof.
  exists ex_guess, (fun _ => 0), 8, (fun _ => false), ex_ga, num_mem, (ex_mem 56 (-1)), (fun ts => ts), (fun _ => 7), [4; 3], [6; 4], [3], (ex_buf 32).
  assert (AL : allocated (reg_place ex_ga) (ex_mem 56 (-1))).
  { intros x q H. pose proof (ex_mem_allocated x q H) as X. unfold hget, ex_mem in *. destruct ((0 <=? snd q) && (snd q <? 56)); [discriminate|exact X]. }
  split; [exact ex_guess_good|]. split; [intros; lia|]. split; [exact ex_ga_wf|]. split; [exact num_mem_allocated|]. split; [exact AL|].
  split; [intros; reflexivity|]. split.
  { pose proof (ex_history_good 3 ltac:(lia)) as H. inversion H as [|? ? _ H1]; subst. inversion H1 as [|? ? _ H2]; subst. inversion H2 as [|? ? H3 _]; subst.
    constructor; [exact I|]. constructor; [exact I|]. constructor; [exact H3|constructor]. }
  intros (f0 & H).
  assert (R : forall k, match crun (get_common (9 + k) ex_guess (fun _ => 0) 8 (fun _ => false) (fun ts => ts) ex_ga num_mem) (fun _ => 7) 8 no_cache [CSet; CUnset; CGet [4; 3] [6; 4] [3] (ex_buf 32)] with
     | Some (c, _) => match pnga_get (get_common (9 + k) ex_guess (fun _ => 0) 8 (fun _ => false) (fun ts => ts) ex_ga (ex_mem 56 (-1))) (fun _ => 7) 8 c [4; 3] [6; 4] [3] (ex_buf 32) with
                      | Some (_, b) => b 0 <> Some (-1)
                      | None => False end
     | None => False end) by (intros k; vm_compute; discriminate).
  specialize (R f0). destruct (H (9 + f0)%nat ltac:(lia)) as (c & rs & c2 & b' & E & E2 & G & _). change (ga_elemsize ex_ga) with 8 in E, E2. rewrite E, E2 in R.
  clear E E2 H. apply R. destruct (proj1 (regular_storage ex_ga 0 ex_ga_wf) [4; 3] ltac:(cbn; lia)) as (q & Pq).
  specialize (G [4; 3] q ltac:(cbn; lia) Pq). change (buf_at b' [4; 3] [3] [4; 3]) with (b' 0) in G. rewrite G.
  pose proof (AL _ _ Pq) as X. unfold hget, ex_mem in *. destruct ((0 <=? snd q) && (snd q <? 56)); [reflexivity|destruct X; reflexivity].
Qed.

Print Assumptions C34_get_partial.
Print Assumptions C34_block_get_partial.
Print Assumptions C34_padded_get_refuted.
Print Assumptions C35_no_use_after_free.
Print Assumptions C35_block_no_use_after_free.
Print Assumptions C55_first_get_after_unset_partial.
Print Assumptions C55_unset_property_refuted.
