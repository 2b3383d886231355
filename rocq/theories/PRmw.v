(** Property theorems: read-and-increment (C24, C25). *)
From Verif Require Import LRmw PDist PIter PIterBlk.
Open Scope Z_scope.

(** * C24 *)
(** Any history of read-and-increment calls by any processes on any elements,
    in the order in which the calls take effect: every call returns the value of
    its element plus the increments applied before, at the end every element
    has received all its increments and nothing else has changed.  [v] is the
    contents of the array before; increments are C ints and the values stay in
    the range of the element type ([bits] bits). *)
Theorem C24_read_inc_history : forall guess nn bits a placed calls m v,
  good_guess guess -> elem_layout a nn placed ->
  (forall x q, placed x q -> hget m q = Some (v x)) ->
  (forall c, In c calls -> in_array (dims (ga_desc a)) (fst c) /\ - 2 ^ 31 <= snd c < 2 ^ 31) ->
  (forall pre post x, calls = pre ++ post -> in_array (dims (ga_desc a)) x ->
     - 2 ^ (bits - 1) <= v x + increments x pre < 2 ^ (bits - 1)) ->
  exists rs m', read_incs guess nn bits a m calls = Some (rs, m') /\ length rs = length calls /\
    (forall i c, nth_error calls i = Some c ->
       nth_error rs i = Some (v (fst c) + increments (fst c) (firstn i calls))) /\
    (forall x q, placed x q -> hget m' q = Some (v x + increments x calls)) /\
    (forall q, (forall c, In c calls -> ~ placed (fst c) q) -> hget m' q = hget m q).
Proof.
  intros guess nn bits a placed calls m v H1 H2 H3 H4 H5.
  destruct (read_incs_spec guess nn bits a placed calls m v H1 H2 H3 H4 H5) as (m' & E & V & F).
  exists (results v calls), m'. split; [exact E|]. split; [apply results_length|].
  split; [intros; apply results_nth; assumption|]. split; assumption.
Qed.
Print Assumptions C24_read_inc_history.

(** [n] calls with increment one on the same element, made by any processes in
    any order: the values returned are v, v+1, ..., v+n-1, all distinct. *)
Theorem C24_tickets : forall guess nn bits a placed m v x q (sched : list Z),
  good_guess guess -> elem_layout a nn placed -> 32 <= bits ->
  (forall y p, placed y p -> hget m p = Some (v y)) ->
  (forall y, - 2 ^ (bits - 1) <= v y < 2 ^ (bits - 1)) ->
  in_array (dims (ga_desc a)) x -> placed x q ->
  v x + Z.of_nat (length sched) < 2 ^ (bits - 1) ->
  exists rs m', read_incs guess nn bits a m (map (fun _ => (x, 1)) sched) = Some (rs, m') /\
    NoDup rs /\ length rs = length sched /\
    (forall r, In r rs <-> v x <= r < v x + Z.of_nat (length sched)) /\
    hget m' q = Some (v x + Z.of_nat (length sched)) /\
    (forall q', q' <> q -> hget m' q' = hget m q').
Proof.
  intros guess nn bits a placed m v x q sched HG HL HB HM HV Hx Hq HN.
  assert (ER : map (fun _ : Z => (x, 1)) sched = repeat (x, 1) (length sched)).
  { clear. induction sched; cbn; congruence. }
  assert (INC : forall y n, increments y (repeat (x, 1) n) = if list_eq_dec Z.eq_dec x y then Z.of_nat n else 0).
  { intros y n. induction n as [|n IH]; [cbn; destruct (list_eq_dec Z.eq_dec x y); reflexivity|].
    cbn [repeat increments fst snd]. rewrite IH. destruct (list_eq_dec Z.eq_dec x y); lia. }
  destruct (read_incs_spec guess nn bits a placed (repeat (x, 1) (length sched)) m v) as (m' & E & V & F); auto.
  { intros c Hc. apply repeat_spec in Hc. subst c. cbn [fst snd]. split; [exact Hx|lia]. }
  { intros pre post y E Hy.
    assert (pre = repeat (x, 1) (length pre)) as ->.
    { assert (HF : forall c, In c pre -> c = (x, 1)).
      { intros c Hc. apply (repeat_spec (length sched)). rewrite E. apply in_or_app. now left. }
      clear - HF. induction pre as [|c pre IH]; [reflexivity|]. cbn. f_equal; [apply HF; now left|].
      apply IH. intros; apply HF; now right. }
    rewrite INC. specialize (HV y).
    assert (length pre <= length sched)%nat.
    { apply (f_equal (@length _)) in E. rewrite app_length, repeat_length in E. lia. }
    destruct (list_eq_dec Z.eq_dec x y); [subst|]; lia. }
  exists (zseq (v x) (length sched)), m'. rewrite ER, E, results_ticket. split; [reflexivity|].
  split; [apply zseq_NoDup|]. split; [apply zseq_length|]. split; [intros; apply zseq_In|].
  split.
  - rewrite (V x q Hq), INC. destruct (list_eq_dec Z.eq_dec x x); [reflexivity|congruence].
  - destruct (elem_layout_placed a nn placed HL) as (_ & HU & HI). intros q' Hne.
    apply F. intros c Hc. apply repeat_spec in Hc. subst c. cbn [fst]. intros Hp. apply Hne. eapply HU; eauto.
Qed.
Print Assumptions C24_tickets.

(** Hypotheses are met by map-distributed arrays ([ex_ga_wf]) and by block-type
    ones; two processes draw two tickets each. *)
Definition full_heap (v : Z) : heap Z := fun p o => if (0 <=? p) && (p <? 8) && (0 <=? o) && (o <? 100) then Some v else None.
Example C24_layouts : elem_layout ex_ga 8 (reg_place ex_ga) /\
  elem_layout (ex_grid TILED) 4 (block_place (ex_grid TILED)) /\
  elem_layout (ex_grid SCALAPACK) 4 (scalapack_place (ex_grid SCALAPACK)) /\
  elem_layout (ex_bc1 9 2 None) 2 (block_place (ex_bc1 9 2 None)).
Proof.
  split; [left; split; [exact ex_ga_wf|reflexivity]|].
  split; [right; split; [reflexivity|]; right; split; [apply ex_grid_wf; tauto|]; right; right;
          split; [reflexivity|]; split; [apply ex_grid_wf; tauto|]; split; [repeat constructor|reflexivity]|].
  split; [right; split; [reflexivity|]; right; split; [apply ex_grid_wf; tauto|]; right; left;
          split; [reflexivity|]; split; [apply ex_grid_wf; tauto|reflexivity]|].
  right; split; [reflexivity|]; left; split; [reflexivity|]; split; [apply ex_bc1_wf; lia|].
  split; [reflexivity|]; split; [cbn; lia|reflexivity].
Qed.
Example C24_ex :
  option_map fst (read_incs ex_guess 8 32 ex_ga (full_heap 7) [([7; 2], 1); ([7; 2], 1); ([1; 1], 5); ([7; 2], 1)])
  = Some [7; 8; 7; 9] /\
  option_map fst (read_incs ex_guess 4 64 (ex_grid TILED) (full_heap 7) [([7; 2], 1); ([7; 2], 1)]) = Some [7; 8].
Proof. split; vm_compute; reflexivity. Qed.

(** * C25 *)
(** Increments in the range of a C int. *)
Theorem C25_increment_partial : forall guess nn bits a placed m x q v inc,
  good_guess guess -> elem_layout a nn placed -> in_array (dims (ga_desc a)) x -> placed x q ->
  hget m q = Some v -> - 2 ^ 31 <= inc < 2 ^ 31 -> - 2 ^ (bits - 1) <= v + inc < 2 ^ (bits - 1) ->
  exists m', read_inc guess nn bits a m x inc = Some (v, m') /\ hget m' q = Some (v + inc) /\
    forall q', q' <> q -> hget m' q' = hget m q'.
Proof. exact read_inc_spec. Qed.
Print Assumptions C25_increment_partial.

(** An array of 64-bit integers: adding 2^32 + 1 adds 1. *)
Theorem C25_truncated_refuted : exists a m x q v inc m',
  wf_array a /\ in_array (dims (ga_desc a)) x /\ reg_place a x q /\ hget m q = Some v /\
  - 2 ^ 63 <= inc < 2 ^ 63 /\ - 2 ^ 63 <= v + inc < 2 ^ 63 /\
  read_inc ex_guess 8 64 a m x inc = Some (v, m') /\ hget m' q <> Some (v + inc).
Proof.
  exists ex_ga, (full_heap 7), [7; 2], (2, 23), 7, (2 ^ 32 + 1), (hset (full_heap 7) (2, 23) 8).
  split; [exact ex_ga_wf|]. split; [cbn; lia|]. split.
  { exists 1, [6; 1], [10; 3]. split; [cbn; lia|]. split; [vm_compute; reflexivity|]. split; [cbn; lia|].
    split; vm_compute; reflexivity. }
  split; [reflexivity|]. split; [lia|]. split; [lia|]. split; [vm_compute; reflexivity|].
  vm_compute. discriminate.
Qed.
Print Assumptions C25_truncated_refuted.
