(** Lemmas: norms of arrays. *)
From Verif Require Import LRadix LXfer LXfer2 LStore LLoc LGcopy LGcopy2 LGcopy3 LGcopy4 LGcopy5 LPw LDot LDiag MNorm.
Open Scope Z_scope.

(** ---- the cells of a block ---- *)
Definition block_list (byrow : bool) (q : lpiece) : option (list place) :=
  match norm_cells byrow q with
  | Some (Some (c :: cs)) => if (fst c =? lp_seg q) && (snd c =? lp_off q) then Some (c :: cs) else None
  | _ => None
  end.
Lemma block_list_inv byrow q l : block_list byrow q = Some l ->
  exists cs, l = (lp_seg q, lp_off q) :: cs /\ norm_cells byrow q = Some (Some l).
Proof.
  unfold block_list. destruct (norm_cells byrow q) as [[[|[c1 c2] cs]|]|]; try discriminate. cbn [fst snd].
  destruct (Z.eqb_spec c1 (lp_seg q)); [|discriminate]. destruct (Z.eqb_spec c2 (lp_off q)); [|discriminate]. cbn [andb]. intros E. injection E as <-. subst. eauto.
Qed.

Lemma cells_marked (pa : list Z -> place -> Prop) (D : list Z -> Prop) w xs (h : list Z -> Z) :
  NoDup xs -> (forall x, In x xs <-> D x) -> (forall x, D x -> pa x (w, h x)) -> marked pa D (map (fun x => (w, h x)) xs).
Proof.
  intros N I H. exists (map (fun x => ((w, h x), x)) xs). rewrite !map_map. cbn [fst snd]. rewrite map_id.
  split; [reflexivity|]. split; [exact N|]. split; [exact I|]. intros e x Hin. apply in_map_iff in Hin as (y & E & Hy). injection E as <- <-.
  apply H, I, Hy.
Qed.

Lemma counts_cons n : 1 <= n -> exists r, counts n = 0 :: r.
Proof.
  intros H. rewrite <- zseq_counts. destruct (Z.to_nat n) eqn:X; [lia|]. cbn [zseq]. eauto.
Qed.
Lemma uses_head (byrow : bool) nr nc ld : 1 <= nr -> 1 <= nc -> exists u r, (if byrow then row_uses nr nc ld else col_uses nr nc ld) = u :: r /\ fst u = 0.
Proof.
  intros H1 H2. unfold row_uses, col_uses. destruct (counts_cons nr H1) as (r1 & ->). destruct (counts_cons nc H2) as (r2 & ->).
  destruct byrow; cbn [flat_map map app]; eexists; eexists; (split; [reflexivity|cbn [fst]; lia]).
Qed.

Lemma norm_cells_marked (byrow : bool) (pa : list Z -> place -> Prop) sd (d : garray) w ps q :
  (length (dims (ga_desc d)) <= 2)%nat -> dims (ga_desc d) <> [] ->
  local_cover pa (dims (ga_desc d)) w ps -> In q ps -> ld_shape sd (lp_lo q) (lp_hi q) (lp_ld q) ->
  exists cs, norm_cells byrow q = Some (Some ((lp_seg q, lp_off q) :: cs)) /\
    marked pa (in_box (lp_lo q) (lp_hi q)) ((lp_seg q, lp_off q) :: cs).
Proof.
  intros HL HN C Hq HS. destruct (piece_in_array _ _ _ _ _ C Hq) as (QL & I1 & I2). destruct (proj2 C q Hq) as (_ & ES & HP).
  assert (L1 := in_array_length _ _ I1). assert (O : length (dims (ga_desc d)) = 1%nat \/ length (dims (ga_desc d)) = 2%nat).
  { destruct (dims (ga_desc d)) as [|? [|? [|? ?]]]; cbn in HL; try lia; try congruence; cbn; auto. }
  assert (HD : forall nr nc ld, 1 <= nr -> 1 <= nc -> exists cs,
     map (fun u => (lp_seg q, lp_off q + fst u)) (if byrow then row_uses nr nc ld else col_uses nr nc ld) = (lp_seg q, lp_off q) :: cs).
  { intros nr nc ld H1 H2. destruct (uses_head byrow nr nc ld H1 H2) as (u & r & -> & E). cbn [map]. rewrite E, Z.add_0_r. eauto. }
  destruct O as [O|O].
  - destruct (lp_lo q) as [|l [|? ?]] eqn:E1; cbn in L1; try lia. inversion QL as [|? h ? ? Q1 Q2 EE1 E2]; subst. inversion Q2; subst.
    destruct (dims (ga_desc d)) as [|n [|? ?]]; cbn in O; try lia. cbn in I1.
    assert (EC : map (fun u => (lp_seg q, lp_off q + fst u)) (if byrow then row_uses (h - l + 1) 1 0 else col_uses (h - l + 1) 1 0)
                 = map (fun x => (lp_seg q, lp_off q + (hd 0 x - l))) (map (fun i => [l + i]) (counts (h - l + 1)))).
    { rewrite map_map. cbn [hd]. destruct byrow; unfold row_uses, col_uses.
      - rewrite map_flat. change (counts 1) with [0]. induction (counts (h - l + 1)) as [|i r IH]; [reflexivity|]. cbn [flat_map]. rewrite IH. cbn [map app fst]. f_equal. f_equal. lia.
      - change (counts 1) with [0]. cbn [flat_map]. rewrite app_nil_r, map_map. apply map_ext. intros i. cbn [fst]. f_equal. lia. }
    destruct (HD (h - l + 1) 1 0 ltac:(lia) ltac:(lia)) as (cs & EH). exists cs. unfold norm_cells. rewrite E1, <- E2.
    destruct (Z.ltb_spec 0 h); [|lia]. rewrite EH. split; [reflexivity|]. rewrite <- EH, EC.
    apply cells_marked.
    + apply NoDup_map_inj; [|apply counts_NoDup]. intros i j _ _ E. injection E as E. lia.
    + intros x. rewrite in_map_iff. split.
      * intros (i & <- & Hi). apply counts_In in Hi. cbn. lia.
      * intros Hx. destruct x as [|x0 [|? ?]]; cbn in Hx; try tauto. exists (x0 - l). rewrite counts_In. split; [f_equal; lia|lia].
    + intros x Hx. specialize (HP x). rewrite <- E2 in HP. specialize (HP Hx).
      destruct x as [|x0 [|? ?]]; cbn in Hx; [contradiction| |exfalso; tauto]. cbn [hd]. replace (x0 - l) with (lin (lp_ld q) (vsub [x0] [l])) by (destruct (lp_ld q); cbn; lia). exact HP.
  - destruct (piece2 d pa sd w ps q O C Hq HS) as (l0 & l1 & h0 & h1 & ld & ldt & s0 & s1 & E1 & E2 & E3 & S1 & B0 & B1).
    destruct (dims (ga_desc d)) as [|n0 [|n1 [|? ?]]] eqn:ED; cbn in O; try lia. rewrite E1 in I1. cbn in I1.
    assert (EC : exists xs, NoDup xs /\ (forall x, In x xs <-> in_box [l0; l1] [h0; h1] x) /\
       map (fun u => (lp_seg q, lp_off q + fst u)) (if byrow then row_uses (h0 - l0 + 1) (h1 - l1 + 1) ld else col_uses (h0 - l0 + 1) (h1 - l1 + 1) ld)
       = map (fun x => (lp_seg q, lp_off q + cell_off l0 l1 ld x)) xs).
    { destruct byrow.
      - exists (row_xs l0 l1 h0 h1). split; [apply (row_xs_NoDup pa pa w q l0 l1 h0 h1 ldt HP)|]. split; [intros x; pose proof (row_xs_In pa pa w q l0 l1 h0 h1 ldt E1 E2 HP x) as R; rewrite E1, E2 in R; exact R|].
        rewrite (row_uses_spec pa pa w q l0 l1 h0 h1 ld ldt HP), map_map. reflexivity.
      - exists (col_xs l0 l1 h0 h1). split; [apply (col_xs_NoDup pa pa w q l0 l1 h0 h1 ldt HP)|]. split; [intros x; pose proof (col_xs_In pa pa w q l0 l1 h0 h1 ldt E1 E2 HP x) as R; rewrite E1, E2 in R; exact R|].
        rewrite (col_uses_spec pa pa w q l0 l1 h0 h1 ld ldt HP), map_map. reflexivity. }
    destruct EC as (xs & ND & IX & EC).
    destruct (HD (h0 - l0 + 1) (h1 - l1 + 1) ld ltac:(lia) ltac:(lia)) as (cs & EH). exists cs. unfold norm_cells. rewrite E1, E2, E3.
    destruct (Z.ltb_spec 0 h0); [|lia]. destruct (Z.ltb_spec 0 h1); [|lia]. cbn [andb]. rewrite EH. split; [reflexivity|]. rewrite <- EH, EC.
    apply cells_marked; auto. intros x Hx. specialize (HP x). rewrite E1, E2, E3 in HP. specialize (HP Hx). rewrite ES.
    destruct (box2 _ _ _ _ _ Hx) as (x0 & x1 & -> & _). unfold cell_off. cbn [hd tl].
    replace ((x1 - l1) * ld + (x0 - l0)) with (lin (ld :: ldt) (vsub [x0; x1] [l0; l1])) by (destruct ldt; cbn; lia). exact HP.
Qed.

(** ---- values ---- *)
Lemma values_of {V} (pa : list Z -> place -> Prop) (D : list Z -> Prop) (m : heap V) ess :
  allocated pa m -> marked pa D (concat ess) ->
  exists vss, Forall2 (fun cs vs => Forall2 (fun c v => hget m c = Some v) cs vs) ess vss /\
    forall xs, NoDup xs -> (forall x, In x xs <-> D x) -> exists vs, values pa m xs vs /\ Permutation (concat vss) vs.
Proof.
  intros AA (l & El & ND & HI & HQ).
  assert (OK : forall c, In c (concat ess) -> exists v, hget m c = Some v).
  { intros c Hc. rewrite El in Hc. apply in_map_iff in Hc as ((c' & x) & <- & Hc). specialize (AA x _ (HQ _ _ Hc)). destruct (hget m (fst (c', x))) as [v|] eqn:E; [eauto|cbn in E; congruence]. }
  assert (EX : exists vss, Forall2 (fun cs vs => Forall2 (fun c v => hget m c = Some v) cs vs) ess vss).
  { clear El. induction ess as [|cs ess IH]; [exists []; constructor|]. destruct IH as (vss & F); [intros c Hc; apply OK; cbn; apply in_app_iff; now right|].
    assert (X : exists vs, Forall2 (fun c v => hget m c = Some v) cs vs).
    { assert (OK' : forall c, In c cs -> exists v, hget m c = Some v) by (intros c Hc; apply OK; cbn; apply in_app_iff; now left). clear - OK'.
      induction cs as [|c cs IH]; [exists []; constructor|]. destruct (OK' c (or_introl eq_refl)) as (v & Ev).
      destruct IH as (vs & F); [intros; apply OK'; now right|]. exists (v :: vs). constructor; auto. }
    destruct X as (vs & Fv). exists (vs :: vss). constructor; auto. }
  destruct EX as (vss & F). exists vss. split; [exact F|]. intros xs NX HX.
  assert (FC : Forall2 (fun c v => hget m c = Some v) (concat ess) (concat vss)).
  { clear - F. induction F; cbn; [constructor|]. apply Forall2_app; auto. }
  assert (PX : Permutation (map snd l) xs) by (apply NoDup_Permutation; auto; intros x; rewrite HI, HX; reflexivity).
  apply Permutation_sym in PX. apply Permutation_map_inv in PX as (l' & -> & PL).
  rewrite El in FC.
  assert (FP : Forall2 (fun cx v => hget m (fst cx) = Some v) l (concat vss)).
  { clear - FC. revert FC. generalize (concat vss). induction l as [|a l IH]; intros k FC; cbn in FC; inversion FC; subst; constructor; auto. }
  destruct (Permutation_Forall2 PL FP) as (vs & PV & FV). exists vs. split; [|exact PV].
  unfold values. assert (HQ' : forall e x, In (e, x) l' -> pa x e) by (intros e x Hin; apply HQ; eapply Permutation_in; [apply Permutation_sym; exact PL|exact Hin]).
  clear - FV HQ'. induction FV as [|[c x] v l' vs H F IH]; [constructor|]. cbn [map snd]. constructor.
  - exists c. split; [apply HQ'; now left|exact H].
  - apply IH. intros e y Hin. apply HQ'. now right.
Qed.

Section Loops.
Context {V N : Type} (nrm sgn : V -> N) (add : N -> N -> N) (zero : N) (ltb : N -> N -> bool).

Lemma sum_loop_ok (m : heap V) cs vs : sums_freely add zero -> Forall2 (fun c v => hget m c = Some v) cs vs ->
  forall s, sum_loop nrm add m s cs = Some (add s (fold_right add zero (map nrm vs))).
Proof.
  intros HM F. pose proof HM as (A & C & U). induction F as [|c v cs vs E F IH]; intros s; cbn; [rewrite C, U; reflexivity|]. rewrite E, IH, A. reflexivity.
Qed.

Hypothesis HO : ordered nrm ltb zero sgn.
Lemma ltb_irrefl x : ltb x x = false.
Proof. destruct HO as (H & _). destruct (ltb x x) eqn:E; [|reflexivity]. rewrite (H _ _ E) in E. discriminate. Qed.
Lemma max_loop_ok (m : heap V) cs vs : Forall2 (fun c v => hget m c = Some v) cs vs ->
  forall s, exists r, max_loop nrm ltb m s cs = Some r /\ (r = s \/ In r (map nrm vs)) /\ ltb r s = false /\
    forall v, In v vs -> ltb r (nrm v) = false.
Proof.
  destruct HO as (HA & HT & _). induction 1 as [|c v cs vs E F IH]; intros s; cbn [max_loop map].
  - exists s. split; [reflexivity|]. split; [now left|]. split; [apply ltb_irrefl|intros v []].
  - rewrite E. destruct (IH (if ltb s (nrm v) then nrm v else s)) as (r & -> & H1 & H2 & H3). exists r. split; [reflexivity|].
    destruct (ltb s (nrm v)) eqn:L.
    + split; [destruct H1 as [-> | H1]; [right; now left|right; now right]|]. split.
      * eapply HT; [|exact H2]. apply HA, L.
      * intros u [<-|Hu]; [exact H2|auto].
    + split; [destruct H1 as [-> | H1]; [now left|right; now right]|]. split; [exact H2|].
      intros u [<-|Hu]; [|auto]. eapply HT; [exact L|exact H2].
Qed.

(** The reduction. *)
Lemma gop_max_ok cs : cs <> [] -> In (gop_max zero ltb cs) cs /\ forall c, In c cs -> ltb (gop_max zero ltb cs) c = false.
Proof.
  destruct HO as (HA & HT & _). destruct cs as [|c cs]; [congruence|]. intros _. cbn [gop_max]. revert c. induction cs as [|d cs IH]; intros c; cbn [fold_left].
  - split; [now left|]. intros e [<-|[]]. apply ltb_irrefl.
  - destruct (IH (if ltb c d then d else c)) as [H1 H2]. set (r := fold_left _ _ _) in *. clearbody r. destruct (ltb c d) eqn:L.
    + split; [right; exact H1|]. intros e [<-|He]; [|auto]. eapply HT; [|apply H2; now left]. apply HA, L.
    + split; [destruct H1 as [H1|H1]; [now left|right; now right]|]. intros e [<-|[<-|He]]; [apply H2; now left| |apply H2; now right].
      eapply HT; [exact L|apply H2; now left].
Qed.

(** Contribution of a process with the values [vs]. *)
Definition max_part (c : N) (vs : list V) : Prop :=
  match vs with [] => c = zero | _ => In c (map nrm vs) /\ forall v, In v vs -> ltb c (nrm v) = false end.
Lemma max_parts cs vss : Forall2 max_part cs vss -> concat vss <> [] ->
  In (gop_max zero ltb cs) (map nrm (concat vss)) /\ forall v, In v (concat vss) -> ltb (gop_max zero ltb cs) (nrm v) = false.
Proof.
  intros F NE. assert (NC : cs <> []) by (inversion F; subst; [cbn in NE; congruence|discriminate]).
  destruct (gop_max_ok cs NC) as [G1 G2]. set (r := gop_max zero ltb cs) in *. clearbody r.
  pose proof HO as (HA & HT & HZ & _).
  assert (UP : forall v, In v (concat vss) -> ltb r (nrm v) = false).
  { intros v Hv. apply in_concat in Hv as (vs & Hvs & Hv). 
    assert (X : exists c, In c cs /\ max_part c vs).
    { clear - F Hvs. induction F; [destruct Hvs|]. destruct Hvs as [->|Hvs]; [eexists; split; [now left|assumption]|].
      destruct (IHF Hvs) as (c & A & B). exists c. split; [now right|exact B]. }
    destruct X as (c & Hc & MP). unfold max_part in MP. destruct vs as [|v0 vs]; [destruct Hv|]. destruct MP as [_ MP].
    eapply HT; [apply MP, Hv|apply G2, Hc]. }
  split; [|exact UP].
  assert (X : exists vs, In vs vss /\ max_part r vs).
  { clear - F G1. induction F; [destruct G1|]. destruct G1 as [->|G1]; [eexists; split; [now left|assumption]|].
    destruct (IHF G1) as (vs & A & B). exists vs. split; [now right|exact B]. }
  destruct X as (vs & Hvs & MP). destruct vs as [|v0 vs].
  - cbn in MP. subst r. destruct (concat vss) as [|v l] eqn:E; [congruence|]. specialize (UP v (or_introl eq_refl)).
    destruct (HZ v) as [Z0|Z0]; [|congruence]. cbn. now left.
  - destruct MP as [MP _]. apply in_map_iff in MP as (v & <- & Hv). apply in_map. apply in_concat. exists (v0 :: vs). auto.
Qed.
End Loops.
