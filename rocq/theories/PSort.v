(** C68: the heap sort that groups the entries of a scatter by process. *)
From Verif Require Import SpecSort MNb MHandle MSort LRadix LSort.
From Coq Require Import Permutation.

Definition int_range (x : Z) : Prop := - 2 ^ 31 <= x < 2 ^ 31.
(** With values of type int the process and the subscripts must fit in an int. *)
Definition fits {V} (t : sort_type) (e : entry V) : Prop := t = T_int -> int_range (e_proc e) /\ int_range (e_i e) /\ int_range (e_j e).
Lemma wrap32_id x : int_range x -> wrap32 x = x.
Proof. intros H. unfold int_range in H. unfold wrap32. rewrite Z.mod_small; lia. Qed.
Lemma fits_kept {V} t (e : entry V) : fits t e -> through t e = e.
Proof. intros F. destruct t; try reflexivity. destruct (F eq_refl) as (F1 & F2 & F3). destruct e. cbn in *. rewrite !wrap32_id by assumption. reflexivity. Qed.

(** The list of integers: sorted, the same numbers, nothing else written. *)
Theorem C68_hsort : forall a n, let b := gai_hsort a n in
  sorted_by (fun x => x) b 1 n /\ Permutation (content b n) (content a n) /\ (forall i, i < 1 \/ n < i -> b i = a i).
Proof. intros a n. apply index_sort_spec. intros i I. reflexivity. Qed.

(** Entries with their process as key, of every type but long long. *)
Theorem C68_sort_partial : forall V t (a : Z -> entry V) n, t <> T_longlong -> (forall i, 1 <= i <= n -> fits t (a i)) ->
  exists b, ga_sort_scat t a n = Done b /\ sorted_by e_proc b 1 n /\ Permutation (content b n) (content a n) /\ (forall i, i < 1 \/ n < i -> b i = a i).
Proof.
  intros V t a n T F. exists (index_sort e_proc (through t) a n). split; [destruct t; try reflexivity; congruence|].
  apply index_sort_spec. intros i I. apply fits_kept, F, I.
Qed.
(** Every entry travels exactly once, to its own process, and a process gets at
    most one group. *)
Theorem C68_groups_partial : forall V t (a : Z -> entry V) n, 0 <= n -> t <> T_longlong -> (forall i, 1 <= i <= n -> fits t (a i)) ->
  exists gs b, scatter_acc2d t a n = Done (gs, b) /\ Permutation (concat (map snd gs)) (content a n) /\
    Forall (fun g => snd g <> [] /\ Forall (fun e => e_proc e = fst g) (snd g)) gs /\ NoDup (map fst gs) /\
    (forall i, i < 1 \/ n < i -> b i = a i).
Proof.
  intros V t a n N T F. unfold scatter_acc2d. destruct (Z.ltb_spec n 1) as [L|L].
  - exists [], a. assert (n = 0) as -> by lia. split; [reflexivity|]. cbn. repeat split; try constructor.
  - destruct (C68_sort_partial V t a n T F) as (b & -> & SO & P & O). cbn beta iota.
    destruct (groups_spec b n SO (Z.to_nat n) 1) as (G1 & G2 & G3); try lia.
    exists (groups b n (Z.to_nat n) 1), b. split; [reflexivity|]. split.
    + rewrite G1. replace (n - 1 + 1) with n by lia. exact P.
    + split; [|split; [exact G3|exact O]]. eapply Forall_impl; [|exact G2]. intros g (A1 & A2 & _). split; assumption.
Qed.
Definition ex_entries (i : Z) : entry Z := Entry (Z.modulo (- 5 * i) 3) (100 + i) i (i * i).
Example C68_cases : (forall i, 1 <= i <= 7 -> fits T_int (ex_entries i)) /\ (exists gs b, scatter_acc2d T_int ex_entries 7 = Done (gs, b) /\
  map fst gs = [0; 1; 2] /\ map (fun g => map e_i (snd g)) gs = [[6; 3]; [7; 1; 4]; [5; 2]]) /\ map (gai_hsort (fun i => Z.modulo (i * 7) 11) 5) [1; 2; 3; 4; 5] = [2; 3; 6; 7; 10].
Proof.
  split; [|split].
  - intros i I _. unfold int_range, ex_entries. cbn [e_proc e_i e_j]. pose proof (Z.mod_pos_bound (-5 * i) 3 ltac:(lia)). nia.
  - eexists. eexists. split; [reflexivity|]. split; vm_compute; reflexivity.
  - vm_compute. reflexivity.
Qed.

(** The model beyond the hypotheses. *)
Definition far_entries (i : Z) : entry Z := Entry (2 - i) 7 (2 ^ 31 + i) 1.
Theorem C68_groups_refuted :
  (* values of type int and a subscript beyond int: an entry of the caller is lost and another is sent *)
  (exists a n gs b, (forall i, 1 <= i <= n -> 0 <= e_proc (a i) < 2 /\ 0 < e_i (a i) /\ 0 < e_j (a i)) /\ scatter_acc2d (V := Z) T_int a n = Done (gs, b) /\
     ~ In (a 1) (concat (map snd gs)) /\ exists e, In e (concat (map snd gs)) /\ e_i e < 0) /\
  (* long long is refused *)
  (forall V (a : Z -> entry V) n, 1 <= n -> scatter_acc2d T_longlong a n = Abort) /\
  (* the arrays of the caller are reordered *)
  (exists a n gs b, (forall i, 1 <= i <= n -> fits T_dbl (a i)) /\ scatter_acc2d (V := Z) T_dbl a n = Done (gs, b) /\ e_val (b 1) <> e_val (a 1)).
Proof.
  split; [|split].
  - exists far_entries, 2. eexists. eexists. split.
    { intros i I. unfold far_entries. cbn [e_proc e_i e_j]. lia. }
    split; [reflexivity|]. split.
    + vm_compute. intros [H|[H|[]]]; discriminate.
    + exists (Entry 1 7 (1 - 2 ^ 31) 1). split; [vm_compute; auto|reflexivity].
  - intros V a n N. unfold scatter_acc2d. destruct (Z.ltb_spec n 1); [lia|]. reflexivity.
  - exists ex_entries, 7. eexists. eexists. split; [intros i I H; discriminate|]. split; [reflexivity|]. vm_compute. discriminate.
Qed.

Print Assumptions C68_hsort.
Print Assumptions C68_sort_partial.
Print Assumptions C68_groups_partial.
Print Assumptions C68_cases.
Print Assumptions C68_groups_refuted.
