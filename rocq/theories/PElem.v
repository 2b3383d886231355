(** Property theorems: the elementwise operations on two arrays (C87). *)
From Coq Require Import Lqa Qfield.
From Verif Require Import LRadix LDist2 LXfer2 LGcopy LGcopy2 LGcopy4 LGcopy5 LGat LCpatch4 LAdd4 LZip3 PDist PIter PIterBlk PXfer PLoc PGat PGcopy PCpatch PAdd.
Open Scope Z_scope.

(** The patch versions on map-distributed arrays of the world group, for any
    operation.  [f] is what the code computes from two elements, given which of
    them are the destination; [g] is what it should compute. *)
Theorem C87_elem2_patch_partial : forall {V} (f : list bool -> list V -> option V) (g : V -> V -> option V) guess near wn pre rnda rndb smp t ta tb ha hb hc a b c
    alo ahi blo bhi clo chi (st : store V),
  good_guess guess -> (forall me, near me me = true) -> (forall me q k, 0 <= rnda me q k) -> (forall me q k, 0 <= rndb me q k) -> t <> E_longlong ->
  wf_array a -> wf_array b -> wf_array c -> ga_group a = None -> ga_group b = None -> ga_group c = None ->
  ga_nproc a = wn -> ga_nproc b = wn -> ga_nproc c = wn -> 1 <= wn ->
  ga_elemsize a = ga_elemsize b -> ga_elemsize a = ga_elemsize c ->
  small_local a (reg_shape a) -> small_local b (reg_shape b) -> small_local c (reg_shape c) ->
  patch_of (dims (ga_desc a)) alo ahi -> patch_of (dims (ga_desc b)) blo bhi -> patch_of (dims (ga_desc c)) clo chi ->
  fits wn pre c alo ahi clo chi -> fits wn pre c blo bhi clo chi ->
  (length (dims (ga_desc a)) = length (dims (ga_desc c)) \/ differ alo ahi clo chi) ->
  (length (dims (ga_desc b)) = length (dims (ga_desc c)) \/ differ blo bhi clo chi) ->
  (aligned a c alo ahi clo chi -> ga_width a = ga_width c) -> (aligned b c blo bhi clo chi -> ga_width b = ga_width c) ->
  ta <> tb -> ta <> ha /\ ta <> hb /\ ta <> hc -> tb <> ha /\ tb <> hb /\ tb <> hc ->
  (ha = hc -> a = c /\ ((alo = clo /\ ahi = chi) \/ forall x, in_box alo ahi x -> in_box clo chi x -> False)) ->
  (hb = hc -> b = c) ->
  (forall al bl u v, (al = true -> ha = hc \/ (hb <> hc /\ ~ aligned a c alo ahi clo chi)) -> (bl = true -> hb = hc) -> f [al; bl] [u; v] = g u v) ->
  allocated (reg_place a) (st ha) -> allocated (reg_place b) (st hb) -> allocated (reg_place c) (st hc) ->
  allocated (reg_place c) (st ta) -> allocated (reg_place c) (st tb) ->
  exists progs k n,
    Forall2 (fun me pr => length pr = k /\ forall fuel, (n <= fuel)%nat ->
        elem2_patch fuel guess (near me) wn me (pre me) (rnda me) (rndb me) (smp me) t ta tb ha hb hc a b c me me me alo ahi blo bhi clo chi = Some pr)
      (zseq 0 (Z.to_nat wn)) progs /\
    every_run (zstep f) st (phases_of k progs) (fun r =>
      match r with
      | Some st' => zipped2 g (reg_place a) (reg_place b) (reg_place c) alo ahi blo bhi clo chi (st ha) (st hb) (st hc) (st' hc) /\
                    forall k, k <> hc -> k <> ta -> k <> tb -> st' k = st k
      | None => undefined2 g (reg_place a) (reg_place b) alo ahi blo bhi clo chi (st ha) (st hb)
      end).
Proof.
  intros V f g guess near wn pre rnda rndb smp t ta tb ha hb hc a b c alo ahi blo bhi clo chi st HG HN HRa HRb Ht WA WB WC GA GB GC NA NB NC Hw EAB EAC
    SA SB SC PA PB PC FA FB RA RB WDA WDB T1 T2 T3 HAC HBC HF AA AB AC ATa ATb.
  assert (ZA : zprod (extents alo ahi) = zprod (extents clo chi)) by (destruct FA as [E|[E _]]; congruence).
  assert (ZB : zprod (extents blo bhi) = zprod (extents clo chi)) by (destruct FB as [E|[E _]]; congruence).
  apply (elem2_regular f g guess near wn pre rnda rndb smp t ta tb ha hb hc a b c alo ahi blo bhi clo chi); auto.
  - destruct t; auto; congruence.
  - intros E. apply HAC, E.
  - intros E. apply HAC, E.
  - apply regular_copyable; auto. now left.
  - intros E HD. apply regular_copyable; auto. right. split; [|exact HD]. destruct (HAC E) as [-> _].
    destruct (patch_lens _ _ _ PA) as [A1 A2]. destruct (patch_lens _ _ _ PC) as [C1 C2]. lia.
  - apply regular_copyable; auto; [congruence|now left].
Qed.
Print Assumptions C87_elem2_patch_partial.

(** The patch versions if one of the arrays is not map-distributed: the operands
    are copied, so that they are never the destination. *)
Theorem C87_elem2_patch_blocked_partial : forall {V} (f : list bool -> list V -> option V) (g : V -> V -> option V) guess near wn pre rnda rndb smp t ta tb ha hb hc a b c
    pa pb pc sha shb shc alo ahi blo bhi clo chi (st : store V),
  good_guess guess -> (forall me, near me me = true) -> (forall me q k, 0 <= rnda me q k) -> (forall me q k, 0 <= rndb me q k) -> t <> E_longlong ->
  walk_layout a wn pa sha -> walk_layout b wn pb shb -> walk_layout c wn pc shc ->
  ~ (distr_type (ga_desc a) = REGULAR /\ distr_type (ga_desc b) = REGULAR /\ distr_type (ga_desc c) = REGULAR) ->
  ga_group a = None -> ga_group b = None -> ga_group c = None ->
  ga_nproc a = wn -> ga_nproc b = wn -> ga_nproc c = wn -> 1 <= wn ->
  ga_elemsize a = ga_elemsize b -> ga_elemsize a = ga_elemsize c ->
  small_local a sha -> small_local b shb -> small_local c shc ->
  patch_of (dims (ga_desc a)) alo ahi -> patch_of (dims (ga_desc b)) blo bhi -> patch_of (dims (ga_desc c)) clo chi ->
  extents alo ahi = extents clo chi -> extents blo bhi = extents clo chi ->
  ta <> tb -> ta <> ha /\ ta <> hb /\ ta <> hc -> tb <> ha /\ tb <> hb /\ tb <> hc ->
  (forall u v, f [false; false] [u; v] = g u v) ->
  allocated pa (st ha) -> allocated pb (st hb) -> allocated pc (st hc) -> allocated pc (st ta) -> allocated pc (st tb) ->
  exists progs k n,
    Forall2 (fun me pr => length pr = k /\ forall fuel, (n <= fuel)%nat ->
        elem2_patch fuel guess (near me) wn me (pre me) (rnda me) (rndb me) (smp me) t ta tb ha hb hc a b c me me me alo ahi blo bhi clo chi = Some pr)
      (zseq 0 (Z.to_nat wn)) progs /\
    every_run (zstep f) st (phases_of k progs) (fun r =>
      match r with
      | Some st' => zipped2 g pa pb pc alo ahi blo bhi clo chi (st ha) (st hb) (st hc) (st' hc) /\
                    forall k, k <> hc -> k <> ta -> k <> tb -> st' k = st k
      | None => undefined2 g pa pb alo ahi blo bhi clo chi (st ha) (st hb)
      end).
Proof.
  intros V f g guess near wn pre rnda rndb smp t ta tb ha hb hc a b c pa pb pc sha shb shc alo ahi blo bhi clo chi st HG HN HRa HRb Ht LA LB LC NR GA GB GC
    NA NB NC Hw EAB EAC SA SB SC PA PB PC XA XB T1 T2 T3 HF AA AB AC ATa ATb.
  apply (elem2_blocked f g guess near wn pre rnda rndb smp t ta tb ha hb hc a b c alo ahi blo bhi clo chi)
    with (sha := sha) (shb := shb) (shc := shc); auto; try congruence; try apply LA; try apply LB.
  - destruct t; auto; congruence.
  - apply not_true_is_false. intros X. apply NR. unfold is_regular in X. apply andb_prop in X as [X X3]. apply andb_prop in X as [X1 X2].
    destruct (distr_type (ga_desc a)), (distr_type (ga_desc b)), (distr_type (ga_desc c)); try discriminate; auto.
  - eapply straight_copyable; eauto; [apply LC|lia|now left].
  - eapply straight_copyable; eauto; [apply LC|congruence|lia|now left].
Qed.
Print Assumptions C87_elem2_patch_blocked_partial.

Lemma elem2_whole fuel guess near wn w pre rnda rndb smp t ta tb ha hb hc a b c me :
  length (dims (ga_desc a)) = length (dims (ga_desc c)) -> length (dims (ga_desc b)) = length (dims (ga_desc c)) ->
  elem2 fuel guess near wn w pre rnda rndb smp t ta tb ha hb hc a b c me =
  elem2_patch fuel guess near wn w pre rnda rndb smp t ta tb ha hb hc a b c me me me
    (repeat 1 (length (dims (ga_desc a)))) (dims (ga_desc a)) (repeat 1 (length (dims (ga_desc b)))) (dims (ga_desc b))
    (repeat 1 (length (dims (ga_desc c)))) (dims (ga_desc c)).
Proof. intros EA EB. unfold elem2. cbv zeta. rewrite EA, EB, Nat.eqb_refl. reflexivity. Qed.

(** GA_Elem_multiply, _divide, _maximum and _minimum: whole arrays. *)
Theorem C87_elem2_partial : forall {V} (f : list bool -> list V -> option V) (g : V -> V -> option V) guess near wn pre rnda rndb smp t ta tb ha hb hc a b c (st : store V),
  good_guess guess -> (forall me, near me me = true) -> (forall me q k, 0 <= rnda me q k) -> (forall me q k, 0 <= rndb me q k) -> t <> E_longlong ->
  wf_array a -> wf_array b -> wf_array c -> ga_group a = None -> ga_group b = None -> ga_group c = None ->
  ga_nproc a = wn -> ga_nproc b = wn -> ga_nproc c = wn -> 1 <= wn ->
  ga_elemsize a = ga_elemsize b -> ga_elemsize a = ga_elemsize c ->
  small_local a (reg_shape a) -> small_local b (reg_shape b) -> small_local c (reg_shape c) ->
  let ds := dims (ga_desc c) in let ones := repeat 1 (length ds) in
  dims (ga_desc a) = ds -> dims (ga_desc b) = ds ->
  (aligned a c ones ds ones ds -> ga_width a = ga_width c) -> (aligned b c ones ds ones ds -> ga_width b = ga_width c) ->
  ta <> tb -> ta <> ha /\ ta <> hb /\ ta <> hc -> tb <> ha /\ tb <> hb /\ tb <> hc ->
  (ha = hc -> a = c) -> (hb = hc -> b = c) ->
  (forall al bl u v, (al = true -> ha = hc \/ (hb <> hc /\ ~ aligned a c ones ds ones ds)) -> (bl = true -> hb = hc) -> f [al; bl] [u; v] = g u v) ->
  allocated (reg_place a) (st ha) -> allocated (reg_place b) (st hb) -> allocated (reg_place c) (st hc) ->
  allocated (reg_place c) (st ta) -> allocated (reg_place c) (st tb) ->
  exists progs k n,
    Forall2 (fun me pr => length pr = k /\ forall fuel, (n <= fuel)%nat ->
        elem2 fuel guess (near me) wn me (pre me) (rnda me) (rndb me) (smp me) t ta tb ha hb hc a b c me = Some pr)
      (zseq 0 (Z.to_nat wn)) progs /\
    every_run (zstep f) st (phases_of k progs) (fun r =>
      match r with
      | Some st' => zipped2 g (reg_place a) (reg_place b) (reg_place c) ones ds ones ds ones ds (st ha) (st hb) (st hc) (st' hc) /\
                    forall k, k <> hc -> k <> ta -> k <> tb -> st' k = st k
      | None => undefined2 g (reg_place a) (reg_place b) ones ds ones ds ones ds (st ha) (st hb)
      end).
Proof.
  intros V f g guess near wn pre rnda rndb smp t ta tb ha hb hc a b c st HG HN HRa HRb Ht WA WB WC GA GB GC NA NB NC Hw EAB EAC
    SA SB SC ds ones EDA EDB WDA WDB T1 T2 T3 SAC SBC HF AA AB AC ATa ATb.
  pose proof (LAdd4.whole_patch a wn _ _ (or_introl (conj WA (conj eq_refl eq_refl)))) as PA.
  pose proof (LAdd4.whole_patch b wn _ _ (or_introl (conj WB (conj eq_refl eq_refl)))) as PB.
  pose proof (LAdd4.whole_patch c wn _ _ (or_introl (conj WC (conj eq_refl eq_refl)))) as PC.
  rewrite EDA in PA. rewrite EDB in PB. fold ds in PC. fold ones in PA, PB, PC.
  destruct (C87_elem2_patch_partial f g guess near wn pre rnda rndb smp t ta tb ha hb hc a b c ones ds ones ds ones ds st) as (progs & k & n & F & R); auto;
      try (rewrite EDA; exact PA); try (rewrite EDB; exact PB); try (now left); try (left; rewrite ?EDA, ?EDB; reflexivity).
  exists progs, k, n. split; [|exact R]. eapply Forall2_weaken; [|exact F]. cbn beta. intros me pr [L E]. split; [exact L|]. intros fuel Hf.
  rewrite elem2_whole by (rewrite ?EDA, ?EDB; reflexivity). rewrite EDA, EDB. apply E, Hf.
Qed.
Print Assumptions C87_elem2_partial.

Theorem C87_elem2_blocked_partial : forall {V} (f : list bool -> list V -> option V) (g : V -> V -> option V) guess near wn pre rnda rndb smp t ta tb ha hb hc a b c
    pa pb pc sha shb shc (st : store V),
  good_guess guess -> (forall me, near me me = true) -> (forall me q k, 0 <= rnda me q k) -> (forall me q k, 0 <= rndb me q k) -> t <> E_longlong ->
  walk_layout a wn pa sha -> walk_layout b wn pb shb -> walk_layout c wn pc shc ->
  ~ (distr_type (ga_desc a) = REGULAR /\ distr_type (ga_desc b) = REGULAR /\ distr_type (ga_desc c) = REGULAR) ->
  ga_group a = None -> ga_group b = None -> ga_group c = None ->
  ga_nproc a = wn -> ga_nproc b = wn -> ga_nproc c = wn -> 1 <= wn ->
  ga_elemsize a = ga_elemsize b -> ga_elemsize a = ga_elemsize c ->
  small_local a sha -> small_local b shb -> small_local c shc ->
  let ds := dims (ga_desc c) in let ones := repeat 1 (length ds) in
  dims (ga_desc a) = ds -> dims (ga_desc b) = ds ->
  ta <> tb -> ta <> ha /\ ta <> hb /\ ta <> hc -> tb <> ha /\ tb <> hb /\ tb <> hc ->
  (forall u v, f [false; false] [u; v] = g u v) ->
  allocated pa (st ha) -> allocated pb (st hb) -> allocated pc (st hc) -> allocated pc (st ta) -> allocated pc (st tb) ->
  exists progs k n,
    Forall2 (fun me pr => length pr = k /\ forall fuel, (n <= fuel)%nat ->
        elem2 fuel guess (near me) wn me (pre me) (rnda me) (rndb me) (smp me) t ta tb ha hb hc a b c me = Some pr)
      (zseq 0 (Z.to_nat wn)) progs /\
    every_run (zstep f) st (phases_of k progs) (fun r =>
      match r with
      | Some st' => zipped2 g pa pb pc ones ds ones ds ones ds (st ha) (st hb) (st hc) (st' hc) /\
                    forall k, k <> hc -> k <> ta -> k <> tb -> st' k = st k
      | None => undefined2 g pa pb ones ds ones ds ones ds (st ha) (st hb)
      end).
Proof.
  intros V f g guess near wn pre rnda rndb smp t ta tb ha hb hc a b c pa pb pc sha shb shc st HG HN HRa HRb Ht LA LB LC NR GA GB GC NA NB NC Hw EAB EAC
    SA SB SC ds ones EDA EDB T1 T2 T3 HF AA AB AC ATa ATb.
  pose proof (LAdd4.whole_patch a wn _ _ (proj1 LA)) as PA. pose proof (LAdd4.whole_patch b wn _ _ (proj1 LB)) as PB. pose proof (LAdd4.whole_patch c wn _ _ (proj1 LC)) as PC.
  rewrite EDA in PA. rewrite EDB in PB. fold ds in PC. fold ones in PA, PB, PC.
  destruct (C87_elem2_patch_blocked_partial f g guess near wn pre rnda rndb smp t ta tb ha hb hc a b c pa pb pc sha shb shc ones ds ones ds ones ds st)
    as (progs & k & n & F & R); auto; try (rewrite EDA; exact PA); try (rewrite EDB; exact PB).
  exists progs, k, n. split; [|exact R]. eapply Forall2_weaken; [|exact F]. cbn beta. intros me pr [L E]. split; [exact L|]. intros fuel Hf.
  rewrite elem2_whole by (rewrite ?EDA, ?EDB; reflexivity). rewrite EDA, EDB. apply E, Hf.
Qed.
Print Assumptions C87_elem2_blocked_partial.

(** ** The operations *)
(** What the code computes from two elements if it reads both before it writes. *)
Definition plain {V} (g : V -> V -> option V) (al : list bool) (vs : list V) : option V :=
  match vs with [u; v] => g u v | _ => None end.
Theorem C87_plain : forall {V} (g : V -> V -> option V) al bl u v, plain g [al; bl] [u; v] = g u v.
Proof. reflexivity. Qed.
(** The product. *)
Definition product {R} (radd rsub rmul : R -> R -> R) (u v : val R) : option (val R) :=
  match u, v with
  | Re a, Re b => Some (Re (rmul a b))
  | Cx ar ai, Cx br bi => Some (Cx (rsub (rmul ar br) (rmul ai bi)) (radd (rmul ar bi) (rmul ai br)))
  | _, _ => None
  end.
(** The product of complex elements is right if neither operand is the
    destination: if C is neither A nor B, and A is distributed as C or one of the
    arrays is not map-distributed. *)
Theorem C87_multiply_partial : forall {R} (radd rsub rmul : R -> R -> R) (u v : val R),
  code_times radd rsub rmul [false; false] [u; v] = product radd rsub rmul u v.
Proof. intros R radd rsub rmul [a|ar ai] [b|br bi]; reflexivity. Qed.
Theorem C87_multiply_real : forall {R} (radd rsub rmul : R -> R -> R) al a b,
  code_times radd rsub rmul al [Re a; Re b] = Some (Re (rmul a b)).
Proof. reflexivity. Qed.

Lemma qabs_nonneg a : (0 <= qabs a)%Q.
Proof.
  unfold qabs. destruct (Qle_bool 0 a) eqn:E; [apply Qle_bool_iff, E|]. apply Qnot_lt_le. intros X.
  assert (0 <= a)%Q by lra. apply Qle_bool_iff in H. congruence.
Qed.
Lemma qabs_cases a : (qabs a == a)%Q \/ (qabs a == - a)%Q.
Proof. unfold qabs. destruct (Qle_bool 0 a); [left|right]; reflexivity. Qed.
Lemma qabs_zero a : (qabs a == 0)%Q -> (a == 0)%Q.
Proof. intros H. destruct (qabs_cases a) as [E|E]; rewrite E in H; lra. Qed.
Lemma square_pos (x : Q) : (0 <= x * x)%Q.
Proof. destruct (Qlt_le_dec x 0); nra. Qed.

(** Division of complex elements: the quotient times the divisor is the dividend;
    it is refused exactly for the divisor zero. *)
Theorem C87_divide_cpl : forall a b,
  match code_div_cpl a b with
  | Some c => qceq (qmul c b) a /\ ~ qceq b (0, 0)%Q
  | None => qceq b (0, 0)%Q
  end.
Proof.
  intros [ar ai] [br bi]. unfold code_div_cpl, qceq, qmul. cbn [fst snd].
  destruct (Qle_bool (qabs bi) (qabs br)) eqn:E1.
  - apply Qle_bool_iff in E1. destruct (Qeq_bool br 0) eqn:E2.
    + apply Qeq_bool_iff in E2. split; [exact E2|]. apply qabs_zero. assert (qabs br == 0)%Q by (destruct (qabs_cases br) as [X|X]; rewrite X, E2; reflexivity).
      pose proof (qabs_nonneg bi). lra.
    + apply Qeq_bool_neq in E2. cbn [fst snd]. assert (N : ~ (1 + (bi / br) * (bi / br) == 0)%Q) by (pose proof (square_pos (bi / br)); lra).
      assert (N2 : ~ (br * br + bi * bi == 0)%Q).
      { intros X. apply E2. pose proof (square_pos br). pose proof (square_pos bi). nra. }
      split; [|intros [X _]; contradiction]. split; field; repeat split; auto.
  - assert (E3 : ~ (bi == 0)%Q).
    { intros X. assert (Y : (qabs bi <= qabs br)%Q); [|apply Qle_bool_iff in Y; congruence].
      assert (qabs bi == 0)%Q by (destruct (qabs_cases bi) as [Z0|Z0]; rewrite Z0, X; reflexivity). pose proof (qabs_nonneg br). lra. }
    cbn [fst snd]. assert (N2 : ~ (br * br + bi * bi == 0)%Q).
    { intros X. apply E3. pose proof (square_pos br). pose proof (square_pos bi). nra. }
    split; [|intros [_ X]; contradiction]. split; field; repeat split; auto; rewrite Qplus_comm; exact N2.
Qed.
Print Assumptions C87_divide_cpl.
(** Division of real elements. *)
Theorem C87_divide_real : forall {R} (is_zero : R -> bool) rdiv u v,
  code_div is_zero rdiv u v = if is_zero v then None else Some (rdiv u v).
Proof. reflexivity. Qed.
(** Maximum and minimum of real elements, for any total preorder. *)
Theorem C87_max_real : forall {R} (leb : R -> R -> bool), (forall x y, leb x y = true \/ leb y x = true) -> forall u v,
  (code_max leb u v = u \/ code_max leb u v = v) /\ leb u (code_max leb u v) = true /\ leb v (code_max leb u v) = true.
Proof.
  intros R leb T u v. unfold code_max. destruct (leb v u) eqn:E; [destruct (T u u) as [X|X]; auto|]. split; [auto|]. destruct (T u v) as [X|X]; [|congruence]. split; [exact X|]. destruct (T v v); auto.
Qed.
Theorem C87_min_real : forall {R} (leb : R -> R -> bool), (forall x y, leb x y = true \/ leb y x = true) -> forall u v,
  (code_min leb u v = u \/ code_min leb u v = v) /\ leb (code_min leb u v) u = true /\ leb (code_min leb u v) v = true.
Proof.
  intros R leb T u v. unfold code_min. destruct (leb u v) eqn:E; [destruct (T u u) as [X|X]; auto|]. split; [auto|]. destruct (T u v) as [X|X]; [congruence|]. split; [exact X|]. destruct (T v v); auto.
Qed.
(** Maximum and minimum of complex elements: by the absolute value. *)
Lemma qmax_le u v : (u <= code_max Qle_bool u v)%Q /\ (v <= code_max Qle_bool u v)%Q.
Proof.
  unfold code_max. destruct (Qle_bool v u) eqn:E; [apply Qle_bool_iff in E; lra|]. split; [|lra]. apply Qnot_lt_le. intros X.
  assert (v <= u)%Q by lra. apply Qle_bool_iff in H. congruence.
Qed.
Lemma largest_bound a b : (qabs (fst a) <= largest_part a b /\ qabs (snd a) <= largest_part a b /\ qabs (fst b) <= largest_part a b /\ qabs (snd b) <= largest_part a b)%Q.
Proof.
  unfold largest_part. destruct (qmax_le (qabs (fst a)) (qabs (snd a))). destruct (qmax_le (qabs (fst b)) (qabs (snd b))).
  destruct (qmax_le (code_max Qle_bool (qabs (fst a)) (qabs (snd a))) (code_max Qle_bool (qabs (fst b)) (qabs (snd b)))). repeat split; lra.
Qed.
Lemma scaled_norm x a : ~ (x == 0)%Q -> (scaled2 x a == (1 / x) * (1 / x) * qnorm2 a)%Q.
Proof. intros H. unfold scaled2, qnorm2. field. exact H. Qed.
Lemma scaled_order x a b : ~ (x == 0)%Q -> ((scaled2 x a <= scaled2 x b) <-> (qnorm2 a <= qnorm2 b))%Q.
Proof.
  intros H. rewrite !scaled_norm by exact H.
  assert (P : (0 < (1 / x) * (1 / x))%Q).
  { pose proof (square_pos (1 / x)). assert (~ ((1 / x) * (1 / x) == 0)%Q); [|lra]. intros X.
    assert (Y : ((1 / x) * (1 / x) * (x * x) == 1)%Q) by (field; exact H). rewrite X in Y. lra. }
  split; intros X; [apply (Qmult_le_l _ _ _ P); exact X|apply (Qmult_le_l _ _ _ P) in X; exact X].
Qed.
Lemma all_zero a b : (largest_part a b == 0)%Q -> (qnorm2 a == 0 /\ qnorm2 b == 0)%Q.
Proof.
  intros H. destruct (largest_bound a b) as (A & B & C & D).
  assert (Z1 : (fst a == 0)%Q) by (apply qabs_zero; pose proof (qabs_nonneg (fst a)); lra).
  assert (Z2 : (snd a == 0)%Q) by (apply qabs_zero; pose proof (qabs_nonneg (snd a)); lra).
  assert (Z3 : (fst b == 0)%Q) by (apply qabs_zero; pose proof (qabs_nonneg (fst b)); lra).
  assert (Z4 : (snd b == 0)%Q) by (apply qabs_zero; pose proof (qabs_nonneg (snd b)); lra).
  unfold qnorm2. rewrite Z1, Z2, Z3, Z4. split; reflexivity.
Qed.
Theorem C87_max_cpl : forall a b,
  (code_max_cpl a b = a \/ code_max_cpl a b = b) /\ (qnorm2 a <= qnorm2 (code_max_cpl a b))%Q /\ (qnorm2 b <= qnorm2 (code_max_cpl a b))%Q.
Proof.
  intros a b. unfold code_max_cpl. cbv zeta. destruct (Qeq_bool (largest_part a b) 0) eqn:E.
  - apply Qeq_bool_iff in E. destruct (all_zero a b E) as [X Y]. split; [auto|]. split; lra.
  - apply Qeq_bool_neq in E. destruct (Qle_bool (scaled2 (largest_part a b) a) (scaled2 (largest_part a b) b)) eqn:L.
    + apply Qle_bool_iff in L. apply (scaled_order _ _ _ E) in L. split; [auto|]. split; lra.
    + split; [auto|]. split; [lra|]. apply (scaled_order _ _ _ E). apply Qnot_lt_le. intros X.
      assert (Y : (scaled2 (largest_part a b) a <= scaled2 (largest_part a b) b)%Q) by lra. apply Qle_bool_iff in Y. congruence.
Qed.
Theorem C87_min_cpl : forall a b,
  (code_min_cpl a b = a \/ code_min_cpl a b = b) /\ (qnorm2 (code_min_cpl a b) <= qnorm2 a)%Q /\ (qnorm2 (code_min_cpl a b) <= qnorm2 b)%Q.
Proof.
  intros a b. unfold code_min_cpl. cbv zeta. destruct (Qeq_bool (largest_part a b) 0) eqn:E.
  - apply Qeq_bool_iff in E. destruct (all_zero a b E) as [X Y]. split; [auto|]. split; lra.
  - apply Qeq_bool_neq in E. destruct (Qle_bool (scaled2 (largest_part a b) b) (scaled2 (largest_part a b) a)) eqn:L.
    + apply Qle_bool_iff in L. apply (scaled_order _ _ _ E) in L. split; [auto|]. split; lra.
    + split; [auto|]. split; [lra|]. apply (scaled_order _ _ _ E). apply Qnot_lt_le. intros X.
      assert (Y : (scaled2 (largest_part a b) b <= scaled2 (largest_part a b) a)%Q) by lra. apply Qle_bool_iff in Y. congruence.
Qed.
Print Assumptions C87_max_cpl.

(** ** Examples *)
Fixpoint zx_phases {V} (f : list bool -> list V -> option V) (st : store V) (phs : list (list zop)) : option (store V) :=
  match phs with [] => Some st | ph :: rest => do st' <- run_elems (zstep f) st ph; zx_phases f st' rest end.
Definition zx_all {V} (f : list bool -> list V -> option V) (st : store V) k (progs : list (option (list (list zop)))) : option (store V) :=
  do ps <- mapM (fun r => r) progs; zx_phases f st (phases_of k ps).
(** The difference of rows 1..3, columns 1..2 of A and rows 3..5, columns 2..3 of
    B in rows 2..4, columns 3..4 of C: (3,4) of C receives A(2,2) - B(4,3). *)
Example C87_ex_patch :
  wf_array ex_A /\ wf_array ex_B /\ wf_array ex_C /\
  patch_of [4; 3] [1; 1] [3; 2] /\ patch_of [5; 3] [3; 2] [5; 3] /\ patch_of [4; 4] [2; 3] [4; 4] /\
  fits 2 (fun _ => None) ex_C [1; 1] [3; 2] [2; 3] [4; 4] /\ fits 2 (fun _ => None) ex_C [3; 2] [5; 3] [2; 3] [4; 4] /\
  ~ aligned ex_A ex_C [1; 1] [3; 2] [2; 3] [4; 4] /\
  (do st' <- zx_all (plain (fun u v => Some (u - v))) ex_st 4
     (map (fun me => elem2_patch 9 ex_guess (fun w => w =? me) 2 me None (fun _ i => i) (fun _ i => 2 * i) (fun _ => true) E_long 7 8 0 1 2 ex_A ex_B ex_C me me me
                       [1; 1] [3; 2] [3; 2] [5; 3] [2; 3] [4; 4]) [0; 1]);
   Some (hget (st' 2) (1, 13), hget (st' 2) (1, 9), hget (st' 2) (1, 12))) = Some (Some (3 - 1300), Some (1 - 800), Some (-1)).
Proof.
  split; [exact ex_A_wf|]. split; [exact ex_B_wf|]. split; [exact ex_C_wf|].
  split; [repeat constructor; cbn; lia|]. split; [repeat constructor; cbn; lia|]. split; [repeat constructor; cbn; lia|].
  split; [left; reflexivity|]. split; [left; reflexivity|]. split; [intros (X & _); discriminate|]. vm_compute. reflexivity.
Qed.
(** Division of a map-distributed array by a block-cyclic one, and the divisor zero. *)
Example C87_ex_blocked :
  let c := ex_bc1 9 2 None in let a := ex_arr [9] [2] [1; 6] [0] None 2 in
  walk_layout c 2 (block_place c) (block_shape c) /\ dims (ga_desc a) = dims (ga_desc c) /\
  (do st' <- zx_all (plain (code_div (Z.eqb 0) Z.div)) (fun h p o => option_map (Z.add 1) (ex_st h p o)) 3
     (map (fun me => elem2 9 ex_guess (fun w => w =? me) 2 me None (fun _ i => i) (fun _ i => 2 * i) (fun _ => true) E_long 7 8 1 0 2 a a c me) [0; 1]);
   do h <- gat_home ex_guess 2 c [7]; do q' <- gat_ptr ex_guess 2 c h [7]; hget (st' 2) q') = Some (1101 / 12) /\
  zx_all (plain (code_div (Z.eqb 0) Z.div)) ex_st 3
     (map (fun me => elem2 9 ex_guess (fun w => w =? me) 2 me None (fun _ i => i) (fun _ i => 2 * i) (fun _ => true) E_long 7 8 1 0 2 a a c me) [0; 1]) = None.
Proof.
  cbv zeta. split; [|split; [reflexivity|split; vm_compute; reflexivity]]. split; [right|discriminate].
  split; [reflexivity|]. left. split; [reflexivity|]. split; [apply ex_bc1_wf; lia|]. split; [reflexivity|].
  split; [vm_compute; split; discriminate|auto].
Qed.

(** ** Where it fails *)
Definition cx_times := code_times Z.add Z.sub Z.mul.
Definition cx_st : store (val Z) := fun h p o => if (0 <=? o) && (o <? 30) then Some (Cx (h + 1) 3) else None.
(** The product of complex arrays A and B in C, three different arrays of which
    A is distributed otherwise: A is copied to C itself, the real part of the
    product is stored there, and the imaginary part is computed from it. *)
Theorem C87_multiply_refuted : exists a b (st : store (val Z)) fuel,
  wf_array a /\ wf_array b /\ ga_group a = None /\ ga_nproc a = 2 /\ ga_nproc b = 2 /\ dims (ga_desc a) = dims (ga_desc b) /\
  ga_width a = [0] /\ ga_width b = [0] /\ reg_place a [1] (0, 0) /\ reg_place b [1] (0, 0) /\
  hget (st 0) (0, 0) = Some (Cx 1 3) /\ hget (st 1) (0, 0) = Some (Cx 2 3) /\
  (do st' <- zx_all cx_times st 3
     (map (fun me => elem2 fuel ex_guess (fun w => w =? me) 2 me None (fun _ i => i) (fun _ i => i) (fun _ => true) E_dcpl 7 8 0 1 2 a b b me) [0; 1]);
   hget (st' 2) (0, 0)) = Some (Cx (1 * 2 - 3 * 3) ((1 * 2 - 3 * 3) * 3 + 3 * 2)) /\ (1 * 2 - 3 * 3) * 3 + 3 * 2 <> 1 * 3 + 3 * 2.
Proof.
  exists (ex_arr [4] [2] [1; 2] [0] None 2), (ex_arr [4] [2] [1; 3] [0] None 2), cx_st, 9%nat.
  split; [solve_arr; split; [solve_map|exact I]|]. split; [solve_arr; split; [solve_map|exact I]|]. do 6 (split; [reflexivity|]).
  split; [exists 0, [1], [1]; repeat split; cbn; try lia; reflexivity|]. split; [exists 0, [1], [2]; repeat split; cbn; try lia; reflexivity|].
  split; [reflexivity|]. split; [reflexivity|].
  split; [vm_compute; reflexivity|lia].
Qed.
Print Assumptions C87_multiply_refuted.
(** In place: A times B in A. *)
Theorem C87_in_place_refuted : exists a (st : store (val Z)) fuel,
  wf_array a /\ ga_group a = None /\ ga_nproc a = 1 /\ ga_width a = [0] /\ reg_place a [1] (0, 0) /\
  hget (st 0) (0, 0) = Some (Cx 1 3) /\ hget (st 1) (0, 0) = Some (Cx 2 3) /\
  (do st' <- zx_all cx_times st 1
     [elem2 fuel ex_guess (fun _ => true) 1 0 None (fun _ i => i) (fun _ i => i) (fun _ => true) E_dcpl 7 8 0 1 0 a a a 0];
   hget (st' 0) (0, 0)) = Some (Cx (-7) (-15)) /\ -15 <> 1 * 3 + 3 * 2.
Proof.
  exists (ex_arr [4] [1] [1] [0] None 1), cx_st, 9%nat.
  split; [solve_arr; split; [solve_map|exact I]|]. do 3 (split; [reflexivity|]).
  split; [exists 0, [1], [4]; repeat split; cbn; try lia; reflexivity|]. split; [reflexivity|]. split; [reflexivity|].
  split; [vm_compute; reflexivity|lia].
Qed.
Print Assumptions C87_in_place_refuted.
(** Arrays of long long: an error for every operation. *)
Theorem C87_longlong_refuted : exists a, wf_array a /\ ga_group a = None /\ ga_nproc a = 1 /\ ga_width a = [0] /\
  forall fuel near pre rnda rndb smp ta tb ha hb hc, elem2 fuel ex_guess near 1 0 pre rnda rndb smp E_longlong ta tb ha hb hc a a a 0 = None.
Proof.
  exists (ex_arr [4] [1] [1] [0] None 1). split; [solve_arr; split; [solve_map|exact I]|]. do 3 (split; [reflexivity|]).
  intros. vm_compute. reflexivity.
Qed.
Print Assumptions C87_longlong_refuted.
(** A and B have ghost cells, C does not, and the blocks are the same: the wrong
    elements are combined. *)
Theorem C87_ghost_refuted : exists a c (st : store Z) fuel,
  wf_array a /\ wf_array c /\ ga_nproc c = 1 /\ aligned a c [1; 1] [2; 2] [1; 1] [2; 2] /\ ga_width a = [1; 1] /\ ga_width c = [0; 0] /\
  reg_place a [1; 2] (0, 9) /\ reg_place c [1; 2] (0, 2) /\ (forall o, 0 <= o < 16 -> hget (st 0) (0, o) = Some o) /\
  (do st' <- zx_all (plain (fun u v => Some (u + v))) st 1
     [elem2 fuel ex_guess (fun _ => true) 1 0 None (fun _ i => i) (fun _ i => i) (fun _ => true) E_long 7 8 0 0 2 a a c 0];
   hget (st' 2) (0, 2)) = Some (7 + 7) /\ 7 + 7 <> 9 + 9.
Proof.
  set (c := ex_arr [2; 2] [1; 1] [1; 1] [0; 0] None 1). set (a := ex_arr [2; 2] [1; 1] [1; 1] [1; 1] None 1).
  exists a, c, (fun h p o => if (0 <=? o) && (o <? 16) then Some o else None), 9%nat.
  split. { solve_arr. cbn [valid_maps a ex_arr ga_desc dims nblock mapc]. change (skipn (Z.to_nat 1) [1; 1]) with [1]. split; [solve_map|]. split; [solve_map|exact I]. }
  split. { solve_arr. cbn [valid_maps c ex_arr ga_desc dims nblock mapc]. change (skipn (Z.to_nat 1) [1; 1]) with [1]. split; [solve_map|]. split; [solve_map|exact I]. }
  split; [reflexivity|]. split.
  { split; [reflexivity|]. split; [reflexivity|]. intros p Hp. cbn in Hp. assert (p = 0) as -> by lia. reflexivity. }
  split; [reflexivity|]. split; [reflexivity|].
  split; [exists 0, [1; 1], [2; 2]; repeat split; cbn; try lia; reflexivity|]. split; [exists 0, [1; 1], [2; 2]; repeat split; cbn; try lia; reflexivity|].
  split. { intros o Ho. unfold hget. cbn [fst snd]. destruct (Z.leb_spec 0 o), (Z.ltb_spec o 16); try lia. reflexivity. }
  split; [vm_compute; reflexivity|lia].
Qed.
Print Assumptions C87_ghost_refuted.
(** Arrays on the group [1; 0]. *)
Theorem C87_group_refuted : exists a, wf_array a /\ ga_group a = Some [1; 0] /\ ga_nproc a = 2 /\
  forall fuel pre rnda rndb smp ta tb hb hc,
    elem2_patch fuel ex_guess (fun w => w =? 1) 2 1 pre rnda rndb smp E_long ta tb 0 hb hc a a a 0 0 0 [1] [4] [1] [4] [1] [4] = None.
Proof.
  exists (ex_arr [4] [2] [1; 3] [0] (Some [1; 0]) 2). split.
  - split; [|split; [reflexivity|split; [repeat constructor; lia|split; [split; [repeat constructor; cbn; intuition discriminate|reflexivity]|cbn; lia]]]].
    split; [reflexivity|]. split; [discriminate|]. split; [|left; split; [reflexivity|cbn; lia]]. split; [solve_map|exact I].
  - split; [reflexivity|]. split; [reflexivity|]. intros. vm_compute. reflexivity.
Qed.
Print Assumptions C87_group_refuted.
(** A has a third dimension of extent 1. *)
Theorem C87_rank_refuted : exists a b, wf_array a /\ wf_array b /\ ga_group a = None /\ ga_nproc a = 1 /\
  ga_width a = [0; 0; 0] /\ ga_width b = [0; 0] /\ patch_of (dims (ga_desc a)) [1; 1; 1] [2; 2; 1] /\ patch_of (dims (ga_desc b)) [1; 1] [2; 2] /\
  zprod (extents [1; 1; 1] [2; 2; 1]) = zprod (extents [1; 1] [2; 2]) /\
  forall fuel near pre rnda rndb smp ta tb ha hb hc,
    elem2_patch fuel ex_guess near 1 0 pre rnda rndb smp E_long ta tb ha hb hc a b b 0 0 0 [1; 1; 1] [2; 2; 1] [1; 1] [2; 2] [1; 1] [2; 2] = None.
Proof.
  exists (ex_arr [2; 2; 1] [1; 1; 1] [1; 1; 1] [0; 0; 0] None 1), (ex_arr [2; 2] [1; 1] [1; 1] [0; 0] None 1).
  split. { solve_arr. cbn [valid_maps ex_arr ga_desc dims nblock mapc]. change (skipn (Z.to_nat 1) [1; 1; 1]) with [1; 1].
    change (skipn (Z.to_nat 1) [1; 1]) with [1]. split; [solve_map|]. split; [solve_map|]. split; [solve_map|exact I]. }
  split. { solve_arr. cbn [valid_maps ex_arr ga_desc dims nblock mapc]. change (skipn (Z.to_nat 1) [1; 1]) with [1]. split; [solve_map|]. split; [solve_map|exact I]. }
  do 4 (split; [reflexivity|]). split; [repeat constructor; cbn; lia|]. split; [repeat constructor; cbn; lia|]. split; [reflexivity|].
  intros. vm_compute. reflexivity.
Qed.
Print Assumptions C87_rank_refuted.
