(** The tests of CycModel followed to the end on a material that flows at a constant rate. *)
From Verif Require Import Base Diff.
From Verif Require Import SolverModel SubstepModel CreepModel NlModel NlSpec NlProofs UniModel UniSpec UniProofs DrvModel DrvSpec DrvProofs DrvDeriv TestsModel TestsSpec TestsProofs TestsElastic TestsMore TestsCreep TestsEx PyEx.
From Verif Require Import CycModel CycSpec CycProofs CycMore CycJump.
From Coq Require Import ZArith String List FunctionalExtensionality.
Import ListNotations.

(** stress = strain - c t along axis j *)
Definition dflow (j : nat) (c : R) : pymodel := {| pm_base := {| ba_nh := 0; ba_update := fun l1 _ _ _ _ _ => Some {| pr_s := fun i => ld_e l1 i - c * ld_t l1 * axis j 1 i; pr_h := v0; pr_A := delta; pr_u := 0; pr_p := 0 |}; ba_init := v0 |};
  pm_alpha := fun _ => 0; pm_estrain := fun s _ _ => s; pm_damage := fun _ => 0 |}.
Lemma dflow_upd P j c d e t1 T1 : dp_nts P = true -> dupd (dflow j c) P d e t1 T1 = Some {| pr_s := fun i => e i - 0 - c * t1 * axis j 1 i; pr_h := v0; pr_A := delta; pr_u := 0; pr_p := 0 |}.
Proof. intros HN. unfold dupd, upd, thermal. rewrite HN. reflexivity. Qed.
Lemma dflow_erate P j c d sdir erate t1 T1 ge ga : exactP P -> dp_nts P = true -> 0 < norm2 6 sdir -> t1 <> topr (dv_t d) -> exists d' ei a, erate_step (dflow j c) P d sdir erate t1 T1 ge ga = Ret (d', ei, a).
Proof.
  intros (Hr & Ha & Hm & HS & HTot) HNT HN HT. set (sd := unitv sdir) in *. set (dt := t1 - topr (dv_t d)). assert (Hdt : dt <> 0) by (unfold dt; lra). set (g := erate_guess sd ge ga).
  assert (HU : dot 6 sd sd = 1).
  { unfold sd, dot. rewrite (rsum_ext 6 _ (fun i => / (norm2 6 sdir * norm2 6 sdir) * (sdir i * sdir i))) by (intros; unfold unitv; field; lra). rewrite rsum_scal. fold (dot 6 sdir sdir). rewrite <- norm2_sqr. field. lra. }
  set (K := fun i j : nat => if Nat.ltb i 6 then (if Nat.eqb j 0 then - sd i else delta i (j - 1)%nat) else (if Nat.eqb j 0 then 0 else sd (j - 1)%nat / dt)).
  set (b := fun i : nat => if Nat.ltb i 6 then top (dv_stress d) i - top (dv_strain d) i + c * t1 * axis j 1 i else erate).
  assert (KW : forall w i, (i < 6)%nat -> mv 7 K w i = vtl w i - w 0%nat * sd i).
  { intros w i Hi. rewrite mv7. unfold K. cbn [Nat.eqb]. destruct (Nat.ltb_spec i 6); [|lia]. rewrite <- (mvd (vtl w) i Hi). unfold mv, vtl. cbn [rsum Nat.sub]. ring. }
  assert (K6 : forall w, mv 7 K w 6%nat = dot 6 (vtl w) sd / dt).
  { intros w. rewrite mv7. unfold K. cbn [Nat.eqb Nat.ltb Nat.leb]. unfold dot, vtl. cbn [rsum Nat.sub]. field. exact Hdt. }
  assert (HR : forall x, exists r, erate_RJ (dflow j c) P d sd erate t1 T1 x = Some r /\ veq 7 (fst r) (fun i => mv 7 K x i - b i) /\ forall i j, (i < 7)%nat -> (j < 7)%nat -> snd r i j = K i j).
  { intros x. unfold erate_RJ. rewrite dflow_upd by exact HNT. eexists. split; [reflexivity|]. cbn [fst snd pr_s pr_A]. split.
    - intros i Hi. unfold b. destruct (Nat.ltb_spec i 6) as [L|L].
      + rewrite KW by exact L. ring.
      + assert (i = 6%nat) as -> by lia. rewrite K6. fold dt. reflexivity.
    - intros i k Hi Hj. unfold K. destruct (Nat.ltb_spec i 6); destruct (Nat.eqb_spec k 0); reflexivity. }
  assert (NS : forall A w, (forall i j, (i < 7)%nat -> (j < 7)%nat -> A i j = K i j) -> veq 7 (mv 7 A w) (fun _ => 0) -> veq 7 w (fun _ => 0)).
  { intros A w HA Q.
    assert (Q1 : forall i, (i < 6)%nat -> vtl w i = w 0%nat * sd i) by (intros i Hi; assert (E := Q i ltac:(lia)); rewrite (mv_meq 7 A K w i ltac:(lia) HA), KW in E by exact Hi; lra).
    assert (Q2 : dot 6 (vtl w) sd = 0). { assert (E := Q 6%nat ltac:(lia)). rewrite (mv_meq 7 A K w 6%nat ltac:(lia) HA), K6 in E. replace (dot 6 (vtl w) sd) with (dot 6 (vtl w) sd / dt * dt) by (field; exact Hdt). rewrite E. ring. }
    assert (W0 : w 0%nat = 0). { rewrite <- (Rmult_1_r (w 0%nat)), <- HU, <- Q2. unfold dot. rewrite <- rsum_scal. apply rsum_ext. intros i Hi. rewrite (Q1 i Hi). ring. }
    intros [|i] Hi; [exact W0|]. change (w (Datatypes.S i)) with (vtl w i). rewrite (Q1 i ltac:(lia)), W0. ring. }
  destruct (linear_once 7 K b g (erate_RJ (dflow j c) P d sd erate t1 T1) (dp_solve P 7%nat) (dp_rt P) (dp_at P) (dp_miter P) (vlin 7)) as (x & bb & i & EN & _); try assumption; try lra.
  - intros J r v E. apply (HS 7%nat _ _ _ E).
  - intros r E. destruct (HR g) as (r' & E' & _ & HA). rewrite E' in E. injection E as <-. apply HTot. intros w. apply NS, HA.
  - unfold erate_step. fold sd. fold g. rewrite <- erate_is_vec_sys in EN by exact HT. rewrite (try_first _ _ _ _ _ _ _ _ EN).
    unfold strain_step. rewrite dflow_upd by exact HNT. eauto.
Qed.
(** the pull along the axis, up or down *)
Definition sgn (up : bool) : R := if up then 1 else -1.
Definition pull (j : nat) (up : bool) : vec := if up then axis j 1 else vopp (axis j 1).
Lemma pull_norm j up : (j < 6)%nat -> norm2 6 (pull j up) = 1.
Proof.
  intros Hj. unfold pull. destruct up; [rewrite norm_axis, Rabs_R1 by exact Hj; reflexivity|]. transitivity (norm2 6 (axis j 1)); [|rewrite norm_axis, Rabs_R1 by exact Hj; reflexivity]. unfold norm2, dot. f_equal. apply rsum_ext. intros. unfold vopp. ring.
Qed.
Lemma pull_unit j up i : (j < 6)%nat -> unitv (pull j up) i = sgn up * axis j 1 i.
Proof. intros Hj. unfold unitv. rewrite pull_norm by exact Hj. unfold pull, sgn, vopp. destruct up; field. Qed.
Lemma pull_dot j up (w : vec) : (j < 6)%nat -> dot 6 w (unitv (pull j up)) = sgn up * w j.
Proof. intros Hj. transitivity (sgn up * dot 6 w (axis j 1)); [|rewrite dot_axis by exact Hj; ring]. unfold dot. rewrite <- rsum_scal. apply rsum_ext. intros i Hi. rewrite (pull_unit j up i Hj). ring. Qed.
Lemma dflow_einc P j c d up erate einc T1 ge ga : (j < 6)%nat -> exactP P -> dp_nts P = true -> erate <> 0 -> einc <> 0 -> exists d' ei a s,
  erate_einc_step (dflow j c) P d (pull j up) erate einc T1 ge ga = Ret (d', ei, a) /\
  top (dv_strain d') j = top (dv_strain d) j + sgn up * einc /\ topr (dv_t d') = topr (dv_t d) + einc / erate /\ length (dv_strain d') = S (length (dv_strain d)) /\
  dv_stress d' = s :: dv_stress d /\ s j = top (dv_strain d') j - c * topr (dv_t d') /\ (forall i, (i < 6)%nat -> i <> j -> s i = top (dv_stress d) i).
Proof.
  intros Hj HP HNT HR HE. assert (HD : einc / erate <> 0) by (apply Rmult_integral_contrapositive_currified; [exact HE|apply Rinv_neq_0_compat, HR]).
  assert (HT : topr (dv_t d) + einc / erate <> topr (dv_t d)) by lra.
  destruct (dflow_erate P j c d (pull j up) erate (topr (dv_t d) + einc / erate) T1 ge ga HP HNT ltac:(rewrite pull_norm by exact Hj; lra) HT) as (d' & ei & a & E). exists d', ei, a.
  destruct (erate_step_sound _ _ _ _ _ _ _ _ _ _ _ _ HT E) as (S1 & S2 & _ & e & r0 & W & N1 & N2). rewrite (within_0 _ _ _ HP W) in *.
  assert (ED := E). unfold erate_step in ED. destruct (solve_try _ _ _ _) as [x|]; [|discriminate]. destruct (strain_step _ _ _ _ _ _) as [d1|] eqn:ES; [|discriminate]. injection ED as -> _ _.
  destruct (strain_step_parts _ _ _ _ _ _ _ ES) as (r & Er & Ed). rewrite dflow_upd in Er by exact HNT. injection Er as <-. exists (pr_s {| pr_s := fun i => top (dv_strain d) i + vtl x i - 0 - c * (topr (dv_t d) + einc / erate) * axis j 1 i; pr_h := v0; pr_A := delta; pr_u := 0; pr_p := 0 |}).
  split; [unfold erate_einc_step; destruct (Req_EM_T erate 0); [contradiction|exact E]|].
  assert (QE : top (dv_strain d') j = top (dv_strain d) j + sgn up * einc).
  { apply Rabs_0 in N2. replace (dot 6 (fun i => top (dv_strain d') i - top (dv_strain d) i) (unitv (pull j up))) with (sgn up * (top (dv_strain d') j - top (dv_strain d) j)) in N2.
    - replace (topr (dv_t d) + einc / erate - topr (dv_t d)) with (einc / erate) in N2 by ring. assert (X : sgn up * (top (dv_strain d') j - top (dv_strain d) j) = einc).
      { replace einc with (erate * (einc / erate)) by (field; exact HR). replace (sgn up * (top (dv_strain d') j - top (dv_strain d) j)) with (sgn up * (top (dv_strain d') j - top (dv_strain d) j) / (einc / erate) * (einc / erate)) by (field; split; assumption). f_equal. lra. }
      unfold sgn in *. destruct up; lra.
    - symmetry. apply (pull_dot j up (fun i => top (dv_strain d') i - top (dv_strain d) i) Hj). }
  split; [exact QE|]. split; [exact S2|]. split; [rewrite Ed; reflexivity|]. split; [rewrite Ed; reflexivity|]. split.
  - rewrite Ed. cbn [pr_s dv_strain dv_t top topr hd]. unfold axis. rewrite Nat.eqb_refl. ring.
  - intros i Hi Ni. assert (B := comp_bound 6 (fun i => top (dv_stress d') i - top (dv_stress d) i - a * unitv (pull j up) i) i Hi). cbv beta in B. assert (Z := Rabs_0 _ (Rle_trans _ _ _ B N1)). rewrite (pull_unit j up i Hj) in Z. assert (A0 : axis j 1 i = 0) by (unfold axis; destruct (Nat.eqb_spec i j); [contradiction|reflexivity]). rewrite A0 in Z.
    rewrite Ed in Z. cbn [dv_stress top hd] in Z. lra.
Qed.

(** *** the state of a test on this material *)
Definition FS (j : nat) (c : R) (st : tst) (e t : R) (l : list R) : Prop :=
  synced (axis j 1) st /\ top (dv_strain (ts_d st)) j = e /\ topr (dv_t (ts_d st)) = t /\ map (fun v : vec => v j) (dv_stress (ts_d st)) = l /\ ts_s st = l /\
  (j <> 0%nat -> Forall (fun v : vec => v 0%nat = 0) (dv_stress (ts_d st))).
Lemma FS0 j c : (j < 6)%nat -> FS j c (tst0 (dflow j c) 0) 0 0 [0].
Proof. intros Hj. split; [apply synced_start|]. repeat split. intros _. constructor; [reflexivity|constructor]. Qed.
Lemma top0 (l : list vec) : Forall (fun v : vec => v 0%nat = 0) l -> top l 0%nat = 0.
Proof. intros H. destruct H; [reflexivity|assumption]. Qed.
Lemma flow_ramp P j c up einc st e t l : (j < 6)%nat -> exactP P -> dp_nts P = true -> einc <> 0 -> FS j c st e t l ->
  exists st', ramp (dflow j c) P (axis j 1) (pull j up) 1 einc 0 None 1 st = (st', None) /\ FS j c st' (e + sgn up * einc) (t + einc) (e + sgn up * einc - c * (t + einc) :: l) /\ ts_e st' = e + sgn up * einc :: ts_e st.
Proof.
  intros Hj HP HNT HE (S0 & Q1 & Q2 & Q3 & Q4 & Q5).
  destruct (dflow_einc P j c (ts_d st) up 1 einc 0 (ts_ge st) (ts_ga st) Hj HP HNT ne1 HE) as (d' & ei & a & s & E & A1 & A2 & A3 & A4 & A5 & A6).
  eexists. split; [unfold ramp; cbn [passes]; rewrite E; cbn [pass]; reflexivity|].
  assert (AL : forall v, dot 6 v (axis j 1) = v j) by (intros v; rewrite dot_axis by exact Hj; ring).
  rewrite Rdiv_1 in *. destruct S0 as (B1 & B2 & B3 & B4 & B5 & B6). split.
  - unfold FS, synced, along. cbn [ts_d ts_e ts_s ts_t Datatypes.length topr hd]. rewrite A3, B1, B2, B3, B4, Q1 in *. rewrite !AL. fold (topr (dv_t d')). split; [repeat split; try congruence; lra|].
    split; [exact A1|]. split; [rewrite A2, Q2; reflexivity|]. rewrite A4. cbn [map top hd]. rewrite A5, A1, A2, Q2, Q3, Q4. split; [reflexivity|]. split; [reflexivity|].
    intros Nj. constructor; [|apply Q5, Nj]. rewrite A6 by (lia || congruence). apply top0, Q5, Nj.
  - cbn [ts_e]. unfold along. rewrite AL, A1, Q1. reflexivity.
Qed.

(** *** holds *)
Lemma dflow_hold P c d t1 T1 q E : exactP P -> dp_nts P = true -> E <> 0 -> 1 + (q - 1) / E <> 0 -> andb (negb (isclose q 1)) (isclose E (-1)) = false -> exists d' s,
  strain_hold_step (dflow 0 c) P d 0 t1 T1 q E = Ret d' /\ topr (dv_t d') = t1 /\ length (dv_strain d') = S (length (dv_strain d)) /\ dv_stress d' = s :: dv_stress d /\
  s 0%nat = top (dv_strain d') 0%nat - c * t1 /\ top (dv_strain d') 0%nat - top (dv_strain d) 0%nat + (q - 1) * ((s 0%nat - top (dv_stress d) 0%nat) / E) = 0.
Proof.
  intros HP HNT HE HQ HB. assert (HP' := HP). destruct HP as (Hr & Ha & Hm & HS & HTot). set (g := top (dv_strain d)).
  set (K := fun k j : nat => match k with O => (1 + (q - 1) / E) * delta 0 j | S _ => delta k j end).
  set (b := fun k : nat => match k with O => g 0%nat + (top (dv_stress d) 0%nat + c * t1) / E * (q - 1) | S _ => top (dv_stress d) k + c * t1 * axis 0 1 k end).
  assert (KW : forall w k, (k < 6)%nat -> mv 6 K w k = match k with O => (1 + (q - 1) / E) * w 0%nat | S _ => w k end).
  { intros w k Hk. destruct k as [|k].
    - unfold K, mv. rewrite <- (mvd w 0%nat ltac:(lia)). unfold mv. rewrite <- rsum_scal. apply rsum_ext. intros. ring.
    - apply (mvd w (S k) Hk). }
  assert (HR : forall x, exists r, hold_RJ (dflow 0 c) P d 0 t1 T1 q E x = Some r /\ veq 6 (fst r) (fun i => mv 6 K x i - b i) /\ forall i j, (i < 6)%nat -> (j < 6)%nat -> snd r i j = K i j).
  { intros x. unfold hold_RJ. rewrite dflow_upd by exact HNT. eexists. split; [reflexivity|]. cbn [fst snd pr_s pr_A]. split.
    - intros i Hi. rewrite KW by exact Hi. unfold b. destruct i as [|i]; [unfold axis; cbn [Nat.eqb]; fold g; field; exact HE|]. unfold oset. cbn [Nat.ltb Nat.leb]. ring.
    - intros i k Hi Hk. unfold K. destruct i as [|i]; [|reflexivity]. unfold delta. rewrite (Nat.eqb_sym 0 k). destruct (Nat.eqb k 0); field; exact HE. }
  assert (NS : forall A w, (forall i j, (i < 6)%nat -> (j < 6)%nat -> A i j = K i j) -> veq 6 (mv 6 A w) (fun _ => 0) -> veq 6 w (fun _ => 0)).
  { intros A w HA Q i Hi. assert (Z := Q i Hi). rewrite (mv_meq 6 A K w i Hi HA), KW in Z by exact Hi. destruct i as [|i]; [|exact Z]. apply Rmult_integral in Z. destruct Z; [contradiction|assumption]. }
  destruct (linear_once 6 K b g (hold_RJ (dflow 0 c) P d 0 t1 T1 q E) (dp_solve P 6%nat) (dp_rt P) (dp_at P) (dp_miter P) (vlin 6)) as (x & bb & i & EN & _); try assumption; try lra.
  - intros J r v Ev. apply (HS 6%nat _ _ _ Ev).
  - intros r Ev. destruct (HR g) as (r' & E' & _ & HA). rewrite E' in Ev. injection Ev as <-. apply HTot. intros w. apply NS, HA.
  - assert (EH : exists d', strain_hold_step (dflow 0 c) P d 0 t1 T1 q E = Ret d').
    { unfold strain_hold_step. rewrite HB. fold g. unfold hold_sys. rewrite (try_first _ _ _ _ _ _ _ _ EN). unfold strain_step. rewrite dflow_upd by exact HNT. eauto. }
    destruct EH as (d' & EH). exists d'.
    destruct (hold_sound _ _ _ _ _ _ _ _ _ (Nat.lt_0_succ 5) EH) as (T & _ & e & r0 & W & N & _). rewrite (within_0 _ _ _ HP' W) in N. apply Rabs_0 in N.
    assert (ED := EH). unfold strain_hold_step in ED. rewrite HB in ED. destruct (solve_try _ _ _ _) as [y|]; [|discriminate].
    destruct (strain_step_parts _ _ _ _ _ _ _ ED) as (r & Er & Ed). rewrite dflow_upd in Er by exact HNT. injection Er as <-.
    exists (fun i => y i - 0 - c * t1 * axis 0 1 i). split; [exact EH|]. split; [exact T|]. rewrite Ed in N |- *. cbn [dv_strain dv_stress top hd pr_s Datatypes.length] in N |- *. split; [reflexivity|]. split; [reflexivity|]. split; [unfold axis; cbn [Nat.eqb]; ring|exact N].
Qed.
Lemma small_E c : c = 0 \/ c = / 2 -> isclose (Rabs (1 - c)) (-1) = false.
Proof. intros H. unfold isclose. destruct (Rle_dec _ _) as [L|]; [exfalso|reflexivity]. replace (Rabs (-1)) with 1 in L by (rewrite Rabs_left; lra). assert (0 <= Rabs (1 - c)) by apply Rabs_pos. rewrite (Rabs_pos_eq (Rabs (1 - c) - -1)) in L by lra. lra. Qed.

(** *** the slope *)
Lemma ut_flow P c einc st e t l : exactP P -> dp_nts P = true -> einc <> 0 -> FS 0 c st e t l ->
  exists st', ut_pass (dflow 0 c) P (axis 0 1) 1 einc 0 (3 / 4) st = (st', None) /\ FS 0 c st' (e + einc) (t + einc) (e + einc - c * (t + einc) :: l) /\ ts_e st' = e + einc :: ts_e st.
Proof.
  intros HP HNT HE HF. destruct (flow_ramp P 0 c true einc st e t l ltac:(lia) HP HNT HE HF) as (st' & E & F & L). unfold sgn in *. rewrite !Rmult_1_l in *. exists st'. split; [|split; assumption].
  unfold ramp in E. cbn [passes pass pull] in E. unfold ut_pass. destruct (erate_einc_step _ _ _ _ _ _ _ _ _) as [[[d ei] a]|]; [|cbn [pass] in E; congruence]. cbn [pass dflow pm_damage] in *. destruct (Rlt_dec _ _); [lra|]. exact E.
Qed.
Lemma flow_slope P c : exactP P -> dp_nts P = true -> slope (dflow 0 c) P 1 0 = Ret (Rabs (1 - c)).
Proof.
  intros HP HNT. unfold slope, uniaxial_test. set (i := / 10 ^ 4 / INR 2). assert (Hi : 0 < i) by (unfold i; apply Rdiv_lt_0_compat; [apply Rinv_0_lt_compat, pow_lt; lra|apply lt_0_INR; lia]). clearbody i. assert (Ni : i <> 0) by (apply Rgt_not_eq; exact Hi). cbn [passes].
  destruct (ut_flow P c i _ _ _ _ HP HNT Ni (FS0 0 c ltac:(lia))) as (s1 & E1 & F1 & L1). rewrite E1.
  destruct (ut_flow P c i _ _ _ _ HP HNT Ni F1) as (s2 & E2 & F2 & L2). rewrite E2.
  unfold youngs. destruct F2 as (_ & _ & _ & _ & Q & _). rewrite Q, L2, L1. cbn [rev app tst0 ts_e]. f_equal. rewrite !Rplus_0_l. replace (i - c * i) with (i * (1 - c)) by ring. rewrite Rabs_mult. field. rewrite Rabs_pos_eq; lra.
Qed.

(** *** stress relaxation: two hold steps of one time unit *)
Lemma relax_one P c st e t l : exactP P -> dp_nts P = true -> c = 0 \/ c = / 2 -> FS 0 c st e t l -> exists d,
  strain_hold_step (dflow 0 c) P (ts_d st) 0 (t + 1) 0 1 (Rabs (1 - c)) = Ret d /\
  FS 0 c {| ts_d := d; ts_e := along (dv_strain d) (axis 0 1) :: ts_e st; ts_s := along (dv_stress d) (axis 0 1) :: ts_s st; ts_t := topr (dv_t d) :: ts_t st; ts_ge := ts_ge st; ts_ga := ts_ga st |} e (t + 1) (e - c * (t + 1) :: l) /\
  along (dv_strain d) (axis 0 1) = e.
Proof.
  intros HP HNT Hc (S0 & Q1 & Q2 & Q3 & Q4 & Q5). assert (HE : Rabs (1 - c) <> 0) by (apply Rabs_no_R0; lra).
  destruct (dflow_hold P c (ts_d st) (t + 1) 0 1 (Rabs (1 - c)) HP HNT HE) as (d & s & E & A1 & A2 & A3 & A4 & A5); [replace ((1 - 1) / Rabs (1 - c)) with 0 by (field; exact HE); lra|rewrite small_E by exact Hc; destruct (negb _); reflexivity|].
  exists d. split; [exact E|]. assert (AL : forall v, dot 6 v (axis 0 1) = v 0%nat) by (intros v; rewrite dot_axis by lia; ring). destruct S0 as (B1 & B2 & B3 & B4 & B5 & B6).
  replace (1 - 1) with 0 in A5 by ring. rewrite Rmult_0_l, Rplus_0_r, Q1 in A5. assert (A6 : top (dv_strain d) 0%nat = e) by lra. split; [|unfold along; rewrite AL; exact A6].
  unfold FS, synced, along. cbn [ts_d ts_e ts_s ts_t Datatypes.length topr hd]. rewrite A3, !AL. cbn [map top hd]. split; [repeat split; congruence|]. rewrite A4, A6, Q3, Q4. repeat split; try assumption. intros H. contradiction H. reflexivity.
Qed.
Lemma relaxation_peak P : exactP P -> dp_nts P = true -> exists r, relaxation (dflow 0 (/ 2)) P 0 1 1 1 2 0 1 2 1 false = Ret r /\
  ts_s (rx_st r) = [- / 2; 0; / 2; 0] /\ ts_t (rx_st r) = [3; 2; 1; 0] /\ ts_e (rx_st r) = [1; 1; 1; 0] /\ rstress r = [0] /\ rtime r = [0] /\ rrate r = [/ 2].
Proof.
  intros HP HNT. assert (Hc : / 2 = 0 \/ / 2 = / 2) by (right; reflexivity). unfold relaxation. rewrite (flow_slope P (/ 2) HP HNT). change (INR 1) with 1. rewrite Rdiv_1.
  destruct (flow_ramp P 0 (/ 2) true 1 _ _ _ _ ltac:(lia) HP HNT R1_neq_R0 (FS0 0 (/ 2) ltac:(lia))) as (s1 & E1 & F1 & L1). cbn [pull sgn] in *. rewrite E1.
  unfold hold_dts, lin_dts. cbn [repeat relax_hold]. replace (2 / INR 2) with 1 by (cbn [INR]; field).
  destruct (relax_one P (/ 2) s1 _ _ _ HP HNT Hc F1) as (d1 & E2 & F2 & L2). assert (T1 : topr (dv_t (ts_d s1)) = 0 + 1) by apply F1. rewrite T1, E2. cbn [ts_d ts_e ts_s ts_t ts_ge ts_ga].
  destruct (relax_one P (/ 2) _ _ _ _ HP HNT Hc F2) as (d2 & E3 & F3 & L3). cbn [ts_d ts_e ts_s ts_t ts_ge ts_ga] in *. assert (T2 : topr (dv_t d1) = 0 + 1 + 1) by apply F2. rewrite T2 in *. rewrite E3.
  eexists. split; [reflexivity|]. cbn [rx_up rx_st rx_ri ts_s ts_e ts_t].
  assert (LS : along (dv_stress d2) (axis 0 1) :: along (dv_stress d1) (axis 0 1) :: ts_s s1 = [- / 2; 0; / 2; 0]) by (destruct F3 as (_ & _ & _ & _ & Q & _); cbn [ts_s] in Q; rewrite Q; repeat f_equal; field).
  assert (TT : topr (dv_t d2) = 3) by (destruct F3 as (_ & _ & Q & _); cbn [ts_d] in Q; lra).
  assert (LT : ts_t s1 = [1; 0]).
  { assert (Q := E1). unfold ramp in Q. cbn [passes] in Q. destruct (erate_einc_step _ _ _ _ _ _ _ _ _) as [[[dd ei] a]|]; cbn [pass] in Q; [|congruence]. injection Q as <-. cbn [ts_t tst0 topr hd]. f_equal. field. }
  assert (LD : length (dv_strain (ts_d s1)) = 2%nat) by (destruct F1 as ((B1 & _) & _ & _ & _ & Q & _); rewrite L1 in B1; cbn in B1; congruence).
  unfold rstress, rtime, rrate, from_ri. cbn [rx_st rx_ri ts_s ts_t]. rewrite LS, TT, LT, LD, L2, L3, L1. replace (0 + 1 + 1) with 2 by ring. cbn [rev app skipn removelast hd map diffs combine fst snd tst0 ts_e].
  repeat split; repeat f_equal; field.
Qed.

(** *** strain cycles between 1 and 0 along an axis *)
Definition xcase (j : nat) : cparams := {| cp_emax := 1; cp_R := 0; cp_erate := 1; cp_T := 0; cp_nsteps := 1; cp_sdir := axis j 1; cp_hold0 := 0; cp_hold1 := 0; cp_nhold := 1; cp_dmg := None |}.
Lemma xcase_ok j : (j < 6)%nat -> cycle_ok (xcase j).
Proof. intros Hj. unfold cycle_ok. cbn [xcase cp_emax cp_R cp_nsteps cp_nhold cp_hold0 cp_hold1 cp_sdir]. repeat split; try lia; try lra. rewrite norm_axis, Rabs_R1 by exact Hj. lra. Qed.
Lemma xcase_up P j c : (j < 6)%nat -> exactP P -> dp_nts P = true -> exists st,
  ramp (dflow j c) P (axis j 1) (axis j 1) 1 (1 / INR 1) 0 None 1 (tst0 (dflow j c) 0) = (st, None) /\ FS j c st 1 1 [1 - c; 0].
Proof.
  intros Hj HP HNT. change (INR 1) with 1. rewrite Rdiv_1. destruct (flow_ramp P j c true 1 _ _ _ _ Hj HP HNT R1_neq_R0 (FS0 j c Hj)) as (s1 & E1 & F1 & L1). cbn [pull sgn] in *. exists s1. split; [exact E1|].
  replace (0 + 1 * 1) with 1 in F1 by ring. replace (0 + 1) with 1 in F1 by ring. rewrite Rmult_1_r in F1. exact F1.
Qed.
Lemma xcase_cycle P j c st t l : (j < 6)%nat -> exactP P -> dp_nts P = true -> FS j c st 1 t l -> exists st',
  one_cycle (dflow j c) P (xcase j) st = (length l, (st', None)) /\ FS j c st' 1 (t + 2) (1 - c * (t + 2) :: - c * (t + 1) :: l).
Proof.
  intros Hj HP HNT F. assert (LL : length (dv_strain (ts_d st)) = length l) by (destruct F as ((_ & B & _) & _ & _ & _ & Q & _); congruence).
  unfold one_cycle, do_hold. cbn [xcase cp_emax cp_R cp_erate cp_T cp_nsteps cp_sdir cp_hold0 cp_hold1 cp_nhold cp_dmg]. destruct (Rlt_dec 0 0); [lra|]. cbn [andthen]. change (INR 1) with 1. rewrite !Rdiv_1.
  replace (Rabs (1 * 0 - 1)) with 1 by (rewrite Rabs_left; lra). replace (Rabs (1 - 1 * 0)) with 1 by (rewrite Rabs_pos_eq; lra).
  destruct (flow_ramp P j c false 1 (flip st) _ _ _ Hj HP HNT R1_neq_R0 F) as (s1 & E1 & F1 & _). cbn [pull sgn] in *. rewrite E1. cbn [andthen].
  destruct (flow_ramp P j c true 1 (flip s1) _ _ _ Hj HP HNT R1_neq_R0 F1) as (s2 & E2 & F2 & _). cbn [pull sgn] in *. rewrite E2.
  exists s2. rewrite LL. split; [reflexivity|]. replace (1 + -1 * 1 + 1 * 1) with 1 in F2 by ring. replace (t + 1 + 1) with (t + 2) in F2 by ring. replace (1 + -1 * 1 - c * (t + 1)) with (- c * (t + 1)) in F2 by ring. exact F2.
Qed.
(** three cycles are asked for; the third is extrapolated from two *)
Definition xpar (j : nat) (allow : R) : xparams := {| xp_c := xcase j; xp_min := 2; xp_unit := 10; xp_jump := 1; xp_allow := allow; xp_ncycles := 3 |}.
Lemma cons_eq (a b : R) l m : a = b -> l = m -> a :: l = b :: m.
Proof. intros -> ->. reflexivity. Qed.
Ltac lists := repeat (apply cons_eq; [first [ring|field]|]); reflexivity.
Lemma map_at j (l : list vec) k r : map (fun v : vec => v j) l = r -> (k < length r)%nat -> nth k l v0 j = nth k r 0.
Proof. intros H Hk. rewrite <- H. symmetry. set (f := fun v : vec => v j). change 0 with (f v0). rewrite (map_nth f). reflexivity. Qed.
Lemma extrapolated_run P j c allow : (j < 6)%nat -> exactP P -> dp_nts P = true -> 0 <= allow -> (j = 0%nat -> Rabs (-4 * c) <= allow) -> exists x, extrapolated 3 (dflow j c) P (xpar j allow) = Ret x /\
  x_s x = 3%nat /\ map xc_n (x_cy x) = [3; 2; 1]%nat /\ topr (ts_t (x_st x)) = 5 /\
  map (fun v : vec => v j) (dv_stress (ts_d (x_st x))) = [1 - 9 * c; 1 - 5 * c; -4 * c; 1 - 3 * c; -2 * c; 1 - c; 0] /\
  xc_max (hd {| xc_n := 0; xc_max := 0; xc_min := 0 |} (x_cy x)) = pymax [1 - 5 * c; -4 * c] + (pymax [1 - 5 * c; -4 * c] - pymax [1 - 3 * c; -2 * c]).
Proof.
  intros Hj HP HNT HA HC. unfold extrapolated. cbn [xpar xp_c]. cbn [xcase cp_emax cp_R cp_erate cp_T cp_nsteps cp_sdir cp_dmg]. cbv zeta.
  destruct (xcase_up P j c Hj HP HNT) as (s0 & E0 & F0). rewrite E0.
  destruct (xcase_cycle P j c s0 _ _ Hj HP HNT F0) as (s1 & E1 & F1). destruct (xcase_cycle P j c s1 _ _ Hj HP HNT F1) as (s2 & E2 & F2).
  cbn [x_loop x_s xpar xp_ncycles Nat.ltb Nat.leb]. unfold x_pass at 1. cbn [xpar xp_c xcase cp_dmg xp_min x_s x_flag Nat.leb andb]. unfold x_compute. cbn [x_st xpar xp_c]. rewrite E1. cbn [x_s Nat.ltb Nat.leb x_flag x_cy].
  unfold x_pass at 1. cbn [xpar xp_c xcase cp_dmg xp_min x_s x_flag Nat.leb andb]. unfold x_compute. cbn [x_st xpar xp_c x_s x_cy]. rewrite E2. cbn [x_s Nat.ltb Nat.leb x_flag x_cy].
  unfold x_pass. cbn [xpar xp_c xcase cp_dmg xp_min x_s x_flag Nat.leb andb]. unfold x_extrapolate. cbn [x_s xp_unit Nat.leb x_cy x_st xc_n xp_c xpar xp_ncycles xp_allow xc_max xc_min]. set (w1 := since (length _) (ts_s s2)). set (w0 := since (length _) (ts_s s1)).
  assert (XS : xsteps (xcase j) = 2%nat). { unfold xsteps, rlt. cbn [xcase cp_hold0 cp_hold1 cp_nsteps]. destruct (Rlt_dec 0 0); [lra|]. destruct (Req_EM_T 0 0); reflexivity. }
  rewrite XS. replace (INR 1 / (INR 2 - INR 1)) with 1 by (cbn [INR]; field). unfold line. rewrite !Rmult_1_r.
  destruct F2 as (S2 & Q1 & Q2 & Q3 & Q4 & Q5). cbn [Nat.mul Nat.add].
  assert (V0 : top (dv_stress (ts_d s2)) j = 1 - c * (1 + 2 + 2)) by (replace (top (dv_stress (ts_d s2))) with (nth 0 (dv_stress (ts_d s2)) v0) by (destruct (dv_stress (ts_d s2)); reflexivity); apply (map_at j _ 0%nat _ Q3); cbn; lia).
  assert (V4 : nth 4 (dv_stress (ts_d s2)) v0 j = 1 - c) by (apply (map_at j _ 4%nat _ Q3); cbn; lia).
  assert (OK : Rabs (top (dv_stress (ts_d s2)) 0%nat + (top (dv_stress (ts_d s2)) 0%nat - nth 4 (dv_stress (ts_d s2)) v0 0%nat) - top (dv_stress (ts_d s2)) 0%nat) <= allow).
  { destruct (Nat.eq_dec j 0) as [->|Nj].
    - rewrite V0, V4. replace (_ + _ - _) with (-4 * c) by ring. apply HC. reflexivity.
    - assert (Z := Q5 Nj). assert (Z0 : top (dv_stress (ts_d s2)) 0%nat = 0) by (apply top0, Z). assert (Z4 : nth 4 (dv_stress (ts_d s2)) v0 0%nat = 0).
      { rewrite Forall_forall in Z. destruct (Nat.lt_ge_cases 4 (length (dv_stress (ts_d s2)))) as [L|L]; [apply Z, nth_In, L|rewrite nth_overflow by exact L; reflexivity]. }
      rewrite Z0, Z4. replace (0 + (0 - 0) - 0) with 0 by ring. rewrite Rabs_R0. exact HA. }
  destruct (Rle_dec _ _) as [_|K]; [|contradiction]. cbn [Nat.add xp_ncycles Nat.ltb Nat.leb x_s]. eexists. split; [reflexivity|]. cbn [x_s x_cy map xc_n x_st with_d ts_t ts_d push dv_stress hd xc_max].
  destruct S2 as (_ & _ & _ & B4 & _). rewrite B4, Q2, Q3, V0, V4. repeat split; try lra.
  - lists.
  - assert (W1 : w1 = [1 - 5 * c; -4 * c]) by (unfold w1; rewrite Q4; cbn; lists). assert (W0 : w0 = [1 - 3 * c; -2 * c]) by (destruct F1 as (_ & _ & _ & _ & R4 & _); unfold w0; rewrite R4; cbn; lists).
    rewrite W1, W0. reflexivity.
Qed.
Lemma extrapolated_min1 P p : exactP P -> dp_nts P = true -> xp_c p = xcase 0 -> (xp_min p <= 1)%nat -> (2 <= xp_ncycles p)%nat -> forall fuel, (2 <= fuel)%nat -> extrapolated fuel (dflow 0 0) P p = Raise PyValueError.
Proof.
  intros HP HNT EC Hm Hn fuel Hf. destruct (xcase_up P 0 0 ltac:(lia) HP HNT) as (s0 & E0 & F0). destruct (xcase_cycle P 0 0 s0 _ _ ltac:(lia) HP HNT F0) as (s1 & E1 & _).
  apply (extrapolated_early fuel (dflow 0 0) P p s0 2%nat s1 Hm Hn Hf); rewrite EC; [reflexivity|exact E0|exact E1].
Qed.

(** *** elastic follow up of two with a hold of three time units at the first limit *)
Definition fcase : fparams := {| fp_c := {| cp_emax := 1; cp_R := 0; cp_erate := 1; cp_T := 0; cp_nsteps := 1; cp_sdir := axis 0 1; cp_hold0 := 3; cp_hold1 := 0; cp_nhold := 1; cp_dmg := None |}; fp_i := 0; fp_q := 2; fp_logs := false |}.
Lemma fcase_ok : fu_ok fcase.
Proof. unfold fu_ok. cbn [fcase fp_c fp_i cp_emax cp_R cp_nsteps cp_nhold]. repeat split; try lia. lra. Qed.
Lemma followup_drifts P : exactP P -> dp_nts P = true -> exists st k, followup (dflow 0 (/ 2)) P fcase 1 = Ret (st, [k]) /\ ts_e st = [2; 1; 2; 1; 0] /\ topr (ts_t st) = 6.
Proof.
  intros HP HNT. unfold followup. cbn [fcase fp_c fp_i cp_erate cp_T cp_emax cp_nsteps cp_dmg]. cbv zeta. rewrite (flow_slope P (/ 2) HP HNT).
  assert (EE : Rabs (1 - / 2) = / 2) by (rewrite Rabs_pos_eq; lra). rewrite EE.
  change (INR 1) with 1. rewrite Rdiv_1. destruct (flow_ramp P 0 (/ 2) true 1 _ _ _ _ ltac:(lia) HP HNT R1_neq_R0 (FS0 0 (/ 2) ltac:(lia))) as (s1 & E1 & F1 & L1). cbn [pull sgn] in *. rewrite E1.
  cbn [fu_cycles]. unfold fu_cycle. cbn [fcase fp_c fp_i fp_q fp_logs cp_erate cp_T cp_emax cp_R cp_nsteps cp_dmg cp_hold0 cp_hold1 cp_nhold]. unfold fu_do_hold at 1. cbn [fcase fp_c fp_i fp_q fp_logs cp_erate cp_T cp_emax cp_R cp_nsteps cp_dmg cp_hold0 cp_hold1 cp_nhold]. destruct (Rlt_dec 0 3); [|lra].
  unfold hold_dts, lin_dts. cbn [repeat fu_hold]. change (INR 1) with 1. rewrite !Rdiv_1.
  assert (F1' := F1). destruct F1' as (S0 & Q1 & Q2 & Q3 & Q4 & Q5). assert (TT : topr (ts_t s1) = 1) by (destruct S0 as (_ & _ & _ & B & _); rewrite B, Q2; ring). rewrite TT.
  assert (QS : top (dv_stress (ts_d s1)) 0%nat = / 2). { replace (top (dv_stress (ts_d s1))) with (nth 0 (dv_stress (ts_d s1)) v0) by (destruct (dv_stress (ts_d s1)); reflexivity). rewrite (map_at 0 _ 0%nat _ Q3) by (cbn; lia). cbn [nth]. field. }
  destruct (dflow_hold P (/ 2) (ts_d s1) (1 + 3) 0 2 (/ 2) HP HNT) as (d & s & E & A1 & A2 & A3 & A4 & A5); [lra|replace ((2 - 1) / / 2) with 2 by field; lra| |].
  { assert (Z := small_E (/ 2) (or_intror eq_refl)). rewrite EE in Z. rewrite Z. destruct (negb _); reflexivity. }
  rewrite E. cbn [fu_do_hold]. rewrite Q1, QS in A5. replace ((2 - 1) * ((s 0%nat - / 2) / / 2)) with (2 * s 0%nat - 1) in A5 by field.
  assert (B1 : top (dv_strain d) 0%nat = 2) by lra. assert (B2 : s 0%nat = 0) by lra.
  set (st1 := {| ts_d := d; ts_e := along (dv_strain d) (axis 0 1) :: ts_e s1; ts_s := along (dv_stress d) (axis 0 1) :: ts_s s1; ts_t := 1 + 3 :: ts_t s1; ts_ge := ts_ge s1; ts_ga := ts_ga s1 |}).
  assert (AL : forall v, dot 6 v (axis 0 1) = v 0%nat) by (intros v; rewrite dot_axis by lia; ring).
  assert (F2 : FS 0 (/ 2) st1 2 4 (0 :: 0 + 1 * 1 - / 2 * (0 + 1) :: [0])).
  { destruct S0 as (C1 & C2 & C3 & C4 & C5 & C6). unfold FS, synced, along. cbn [st1 ts_d ts_e ts_s ts_t Datatypes.length topr hd]. unfold along. rewrite A3, !AL. cbn [map top hd]. rewrite B1, B2, Q3, Q4. fold (topr (dv_t d)). rewrite A1. repeat split; try congruence; try lra. }
  destruct (flow_ramp P 0 (/ 2) false 1 (restart (-1) st1) _ _ _ ltac:(lia) HP HNT R1_neq_R0 F2) as (s2 & E2 & F3 & L2). cbn [pull sgn] in *.
  replace (Rabs (1 * 0 - 1)) with 1 by (rewrite Rabs_left; lra). replace (Rabs (1 - 1 * 0)) with 1 by (rewrite Rabs_pos_eq; lra). rewrite E2. cbn [andthen].
  unfold fu_do_hold. cbn [fcase fp_c cp_hold1]. destruct (Rlt_dec 0 0); [lra|]. cbn [andthen].
  destruct (flow_ramp P 0 (/ 2) true 1 (restart 1 s2) _ _ _ ltac:(lia) HP HNT R1_neq_R0 F3) as (s3 & E3 & F4 & L3). cbn [pull sgn] in *. rewrite E3. eexists _, _. split; [reflexivity|]. split.
  - rewrite L3. cbn [restart ts_e]. rewrite L2. cbn [restart ts_e st1]. unfold along. rewrite AL, B1, L1. cbn [tst0 ts_e]. lists.
  - destruct F4 as ((_ & _ & _ & B & _) & _ & Q & _). rewrite B, Q. ring.
Qed.

(** *** stress cycles between 1 and 0 *)
Definition scase (etol : R) : sparams2 := {| sp_smax := 1; sp_R := 0; sp_srate := 1; sp_T := 0; sp_nsteps := 1; sp_sdir := ax1; sp_hold0 := 0; sp_hold1 := 0; sp_nhold := 1; sp_etol := etol |}.
Lemma scase_ok etol : stress_ok (scase etol).
Proof. unfold stress_ok. cbn [scase sp_nsteps sp_nhold sp_hold0 sp_hold1 sp_sdir sp_srate]. repeat split; try lia; try lra; [apply ax_not_zero|rewrite norm_ax1; lra|rewrite Rabs_R1; lra]. Qed.
Lemma norm_scaled k v : (forall i, (i < 6)%nat -> v i = k * ax1 i) -> norm2 6 v = Rabs k.
Proof. intros H. rewrite <- (norm_axis 0 k ltac:(lia)). unfold norm2, dot. f_equal. apply rsum_ext. intros i Hi. rewrite (H i Hi). unfold axis, ax1. destruct (Nat.eqb i 0); ring. Qed.
Lemma scase_step P d k k' : exactP P -> dp_nts P = true -> (forall i, (i < 6)%nat -> top (dv_stress d) i = k * ax1 i) -> (forall i, (i < 6)%nat -> top (dv_strain d) i = k * ax1 i) ->
  exists d', srate_sinc_step (flow_model 0) P d ax1 1 (k' - k) 0 = Ret d' /\ (forall i, (i < 6)%nat -> top (dv_stress d') i = k' * ax1 i) /\ (forall i, (i < 6)%nat -> top (dv_strain d') i = k' * ax1 i) /\
    topr (dv_t d') = topr (dv_t d) + Rabs (k' - k) /\ norm2 6 (fun i => top (dv_strain d') i - nth 1 (dv_strain d') v0 i) = Rabs (k' - k) /\ length (dv_t d') = S (length (dv_t d)).
Proof.
  intros HP HN HS HE. unfold srate_sinc_step. assert (ET : srate_dt d ax1 1 (k' - k) = Rabs (k' - k)).
  { rewrite srate_time; [rewrite norm_ax1, Rabs_R1; field|apply ax_not_zero|rewrite norm_ax1; lra|rewrite Rabs_R1; lra]. }
  rewrite ET. destruct (flow_step P 0 d (srate_target d ax1 (k' - k)) (topr (dv_t d) + Rabs (k' - k)) 0 HP HN) as (d' & E & T & S & N). exists d'. split; [exact E|].
  assert (TG : forall i, (i < 6)%nat -> srate_target d ax1 (k' - k) i = k' * ax1 i). { intros i Hi. unfold srate_target. rewrite ax_not_zero, norm_ax1, (HS i Hi). field. }
  assert (SS : forall i, (i < 6)%nat -> top (dv_stress d') i = k' * ax1 i) by (intros i Hi; rewrite (S i Hi), (TG i Hi); reflexivity). split; [exact SS|].
  assert (NN : forall i, (i < 6)%nat -> top (dv_strain d') i = k' * ax1 i) by (intros i Hi; rewrite (N i Hi), (TG i Hi); ring). split; [exact NN|]. split; [exact T|].
  assert (ED := E). unfold stress_step in ED. destruct (solve_try _ _ _ _) as [x|]; [|discriminate]. destruct (strain_step_parts _ _ _ _ _ _ _ ED) as (r & Er & Ed).
  split; [|rewrite Ed; reflexivity]. apply norm_scaled. intros i Hi. rewrite (NN i Hi). assert (H1 : nth 1 (dv_strain d') v0 i = top (dv_strain d) i) by (rewrite Ed; cbn [dv_strain nth]; destruct (dv_strain d); reflexivity).
  rewrite H1, (HE i Hi). ring.
Qed.
Lemma stress_cyclic_run P etol : exactP P -> dp_nts P = true -> exists st cy, stress_cyclic (flow_model 0) P (scase etol) 1 = Ret (st, cy) /\
  (1 <= etol -> length cy = 1%nat /\ ts_e st = [1; 0; 1; 0] /\ topr (dv_t (ts_d st)) = 3) /\
  (0 < etol < 1 -> cy = [] /\ ts_e st = [1; 0] /\ length (dv_t (ts_d st)) = 3%nat /\ exists up, dv_strain (ts_d st) = top (dv_strain (ts_d st)) :: up /\ norm2 6 (fun i => nth 0 up v0 i - nth 1 up v0 i) = 1).
Proof.
  intros HP HN. unfold stress_cyclic. cbn [scase sp_nsteps sp_sdir sp_srate sp_smax sp_T Nat.iter]. unfold Nat.iter. cbn [nat_rect]. change (INR 1) with 1. rewrite Rdiv_1.
  assert (Z0 : forall i, (i < 6)%nat -> top (dv_stress (drv_init (flow_model 0) 0)) i = 0 * ax1 i) by (intros i _; cbn [drv_init dv_stress dv_strain top hd]; unfold v0; ring).
  assert (Z1 : forall i, (i < 6)%nat -> top (dv_strain (drv_init (flow_model 0) 0)) i = 0 * ax1 i) by (intros i _; cbn [drv_init dv_stress dv_strain top hd]; unfold v0; ring).
  destruct (scase_step P _ 0 1 HP HN Z0 Z1) as (d1 & E1 & S1 & N1 & T1 & M1 & G1). replace (1 - 0) with 1 in * by ring. cbn [creep_up tst0 ts_d ts_e ts_s ts_t]. rewrite E1.
  destruct (scase_step P _ 1 0 HP HN S1 N1) as (d2 & E2 & S2 & N2 & T2 & M2 & G2). destruct (scase_step P _ 0 1 HP HN S2 N2) as (d3 & E3 & S3 & N3 & T3 & M3 & G3).
  assert (AB : Rabs (0 - 1) = 1) by (rewrite Rabs_left; lra). assert (AB' : Rabs (1 - 0) = 1) by (rewrite Rabs_pos_eq; lra). rewrite AB, ?AB' in *. replace (1 - 0) with 1 in * by ring. rewrite Rabs_R1 in *.
  cbn [sc_cycles]. unfold sc_cycle, sc_hold, sc_ramp. cbn [scase sp_smax sp_R sp_srate sp_T sp_nsteps sp_sdir sp_hold0 sp_hold1 sp_nhold sp_etol]. destruct (Rlt_dec 0 0); [lra|]. change (INR 1) with 1. rewrite !Rdiv_1. replace (1 * 0 - 1) with (0 - 1) by ring. replace (1 - 1 * 0) with 1 by ring.
  cbn [sc_then sc_passes ts_d]. rewrite E2. cbn [sc_pass]. rewrite M2.
  assert (A1 : along (dv_strain d1) ax1 = 1) by (rewrite along_ax, (N1 0%nat ltac:(lia)); unfold ax1; cbn [Nat.eqb]; ring).
  assert (A2 : along (dv_strain d2) ax1 = 0) by (rewrite along_ax, (N2 0%nat ltac:(lia)); unfold ax1; cbn [Nat.eqb]; ring).
  assert (A3 : along (dv_strain d3) ax1 = 1) by (rewrite along_ax, (N3 0%nat ltac:(lia)); unfold ax1; cbn [Nat.eqb]; ring).
  destruct (Rlt_dec etol 1) as [L|L].
  - cbn [sc_then]. eexists _, _. split; [reflexivity|]. split; [intros; lra|]. intros _. cbn [ts_e ts_d]. rewrite A1. split; [reflexivity|]. split; [reflexivity|]. split; [rewrite G2, G1; reflexivity|].
    assert (ED := E2). unfold srate_sinc_step, stress_step in ED. destruct (solve_try _ _ _ _) as [x|]; [|discriminate]. destruct (strain_step_parts _ _ _ _ _ _ _ ED) as (r & Er & Ed).
    exists (dv_strain d1). split; [rewrite Ed; reflexivity|]. replace (nth 0 (dv_strain d1) v0) with (top (dv_strain d1)) by (destruct (dv_strain d1); reflexivity). exact M1.
  - cbn [sc_then sc_passes ts_d ts_e]. rewrite E3. cbn [sc_pass]. rewrite M3. destruct (Rlt_dec etol 1); [contradiction|]. cbn [ts_d ts_e ts_s]. eexists _, _. split; [reflexivity|]. split; [|intros; lra]. intros _. cbn [ts_d ts_e ts_s Datatypes.length]. rewrite A1, A2, A3, T3, T2, T1. split; [reflexivity|]. split; [reflexivity|]. cbn [topr dv_t drv_init hd]. lra.
Qed.
(** *** a target strain that is not above the current one *)
Lemma rate_jump_down fuel M P sdir r T eper n e : e <= 0 -> rate_jump fuel M P sdir [r] T eper n (Some [e]) = Ret (tst0 M T).
Proof. intros H. cbn [rate_jump combine jumps_to]. rewrite while_skips by (cbn; lra). reflexivity. Qed.
(** *** logarithmically spaced holds *)
Lemma log_hold_short h n : 0 < h -> (0 < n)%nat -> total (hold_dts true h n) <> h /\ (h < 1 -> total (hold_dts true h n) < 0).
Proof. intros Hh Hn. rewrite hold_dts_total by assumption. unfold hold_time. destruct (Rlt_dec 0 h); [|lra]. split; intros; lra. Qed.
