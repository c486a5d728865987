(** Tests that can be followed to the end: exact tolerances, linear materials. *)
From Verif Require Import Base Diff.
From Verif Require Import SolverModel SubstepModel CreepModel NlModel NlSpec NlProofs UniModel UniSpec UniProofs DrvModel DrvSpec DrvProofs DrvDeriv TestsModel TestsSpec TestsProofs TestsElastic TestsMore TestsCreep PyEx.
From Coq Require Import ZArith String List FunctionalExtensionality.
Import ListNotations.

Definition exactP (P : dparams) : Prop := dp_rt P = 0 /\ dp_at P = 0 /\ (1 <= dp_miter P)%Z /\ solve_ok (dp_solve P) /\ solve_total (dp_solve P).
Definition P0 : dparams := {| dp_rt := 0; dp_at := 0; dp_miter := 5; dp_nts := true; dp_solve := the_solve; dp_bt := 0 |}.
Lemma P0_exact : exactP P0.
Proof. split; [reflexivity|]. split; [reflexivity|]. split; [cbn; lia|]. split; [apply the_solve_ok|apply the_solve_total]. Qed.
Definition PT : dparams := {| dp_rt := 0; dp_at := 0; dp_miter := 5; dp_nts := false; dp_solve := the_solve; dp_bt := 0 |}.
Lemma PT_exact : exactP PT.
Proof. split; [reflexivity|]. split; [reflexivity|]. split; [cbn; lia|]. split; [apply the_solve_ok|apply the_solve_total]. Qed.
Lemma within_0 P r r0 : exactP P -> within P r r0 -> r = 0.
Proof. intros (A & B & _) [W1 [W2|W2]]; [rewrite A, Rmult_0_l in W2|rewrite B in W2]; lra. Qed.
Lemma errors_0 P n e : exactP P -> errors P n e -> e = 0.
Proof. intros HP. induction 1 as [|n e r r0 _ IH W]; [reflexivity|]. rewrite IH, (within_0 _ _ _ HP W). ring. Qed.
Definition ax1 : vec := fun i => if Nat.eqb i 0 then 1 else 0.
Lemma norm_ax (k : R) : 0 <= k -> norm2 6 (fun i => k * ax1 i) = k.
Proof. intros H. unfold norm2, dot, ax1. cbn [rsum Nat.eqb]. match goal with |- sqrt ?x = k => replace x with (k * k) by ring end. apply sqrt_square, H. Qed.
Lemma norm_ax1 : norm2 6 ax1 = 1.
Proof. unfold norm2, dot, ax1. cbn [rsum Nat.eqb]. match goal with |- sqrt ?x = 1 => replace x with 1 by ring end. apply sqrt_1. Qed.
Lemma unit_ax1 : unitv ax1 = ax1.
Proof. apply functional_extensionality. intros i. unfold unitv. rewrite norm_ax1. field. Qed.
Lemma unit_dot v : 0 < norm2 6 v -> dot 6 (unitv v) (mv 6 delta (unitv v)) <> 0.
Proof.
  intros H. assert (E : dot 6 (unitv v) (mv 6 delta (unitv v)) = 1).
  { unfold dot. rewrite (rsum_ext 6 _ (fun i => / (norm2 6 v * norm2 6 v) * (v i * v i))). 
    - rewrite rsum_scal. fold (dot 6 v v). rewrite <- norm2_sqr. field. lra.
    - intros i Hi. rewrite (mvd (unitv v) i Hi). unfold unitv. field. lra. }
  rewrite E. lra.
Qed.
Lemma delta_inv : forall i j, (i < 6)%nat -> (j < 6)%nat -> mm 6 delta delta i j = delta i j.
Proof. intros i j Hi Hj. exact (mvd (fun k => delta k j) i Hi). Qed.
Lemma unit_step P d sdir erate t1 T1 ge ga : exactP P -> 0 < norm2 6 sdir -> t1 <> topr (dv_t d) -> exists d' ei a, erate_step unit_model P d sdir erate t1 T1 ge ga = Ret (d', ei, a).
Proof.
  intros (A & B & C & D & E) HN HT. apply (erate_elastic_works _ _ _ _ _ _ _ _ _ delta delta); try assumption; try lra; [apply unit_elastic|apply delta_inv|apply unit_dot, HN].
Qed.
Lemma unit_einc P d sdir erate einc T1 ge ga : exactP P -> 0 < norm2 6 sdir -> erate <> 0 -> einc <> 0 -> exists d' ei a, erate_einc_step unit_model P d sdir erate einc T1 ge ga = Ret (d', ei, a).
Proof.
  intros HP HN HR HE. unfold erate_einc_step. destruct (Req_EM_T erate 0); [contradiction|]. apply unit_step; try assumption.
  assert (einc / erate <> 0) by (apply Rmult_integral_contrapositive_currified; [exact HE|apply Rinv_neq_0_compat, HR]). lra.
Qed.
Lemma unit_ramp P sdir pull erate einc T : exactP P -> 0 < norm2 6 pull -> erate <> 0 -> einc <> 0 -> forall n st, exists st', ramp unit_model P sdir pull erate einc T None n st = (st', None).
Proof.
  intros HP HN HR HE. unfold ramp. induction n as [|n IH]; intros st; cbn [passes]; [eauto|].
  destruct (unit_einc P (ts_d st) pull erate einc T (ts_ge st) (ts_ga st) HP HN HR HE) as (d & ei & a & E). rewrite E. cbn [pass]. apply IH.
Qed.
Lemma ne1 : 1 <> 0. Proof. lra. Qed.
Lemma nem1 : -1 <> 0. Proof. lra. Qed.
(** one exact step *)
Lemma Rabs_0 x : Rabs x <= 0 -> x = 0.
Proof. intros H. destruct (Req_EM_T x 0) as [|N]; [assumption|]. assert (Q := Rabs_pos_lt _ N). lra. Qed.
Lemma one_step P (up : bool) T st : exactP P -> synced ax1 st -> let pull := if up then ax1 else vopp ax1 in
  exists st', ramp unit_model P ax1 pull 1 1 T None 1 st = (st', None) /\ synced ax1 st' /\ ts_e st' = topr (ts_e st) + (if up then 1 else -1) :: ts_e st /\ ts_t st' = topr (ts_t st) + 1 :: ts_t st.
Proof.
  intros HP HS pull. assert (HN : 0 < norm2 6 pull).
  { unfold pull. destruct up; [rewrite norm_ax1; lra|]. replace (norm2 6 (vopp ax1)) with (norm2 6 ax1); [rewrite norm_ax1; lra|]. unfold norm2, dot, vopp. f_equal. apply rsum_ext. intros. ring. }
  destruct (unit_ramp P ax1 pull 1 1 T HP HN ne1 ne1 1 st) as (st' & E). exists st'. split; [exact E|].
  destruct (ramp_moves _ _ _ _ _ _ _ _ _ _ _ ne1 HS E) as (S' & _ & e & We & Me). split; [exact S'|]. assert (Z := errors_0 _ _ _ HP We). subst e.
  unfold ramp in E. cbn [passes] in E. destruct (pass _ _ _ _ st) as [s1 [x|]] eqn:EP; [discriminate|]. injection E as ->. destruct (pass_ok _ _ _ _ _ _ EP) as (d & ei & a & _ & Ed & E1 & _ & E3).
  split; [|rewrite E3; do 2 f_equal; field]. rewrite E1. f_equal. rewrite <- Ed.
  assert (M1 : moved (unitv ax1) (if up then 1 else -1) 1 0 0 (ts_d st) (ts_d st')).
  { cbn [INR] in Me. rewrite !Rmult_0_l in Me. replace (1 * 1) with 1 in Me by ring. replace (1 * (1 / 1)) with 1 in Me by field. unfold pull in Me. destruct up; [exact Me|]. rewrite unitv_opp in Me. apply moved_opp in Me. exact Me. }
  assert (Q := moved_along ax1 _ _ _ _ _ _ ltac:(rewrite norm_ax1; lra) M1). rewrite norm_ax1, Rmult_0_r in Q. apply Rabs_0 in Q. destruct HS as (_ & _ & _ & _ & HS & _). rewrite HS. lra.
Qed.

(** *** a direction of length two doubles the strain *)
Lemma uniaxial_scaled P : exactP P -> exists st, uniaxial_test unit_model P (fun i => 2 * ax1 i) 1 0 1 1 false 1 = Ret st /\ ts_e st = [2; 0].
Proof.
  intros HP. assert (N2 := norm_ax 2 ltac:(lra)). set (sd := fun i => 2 * ax1 i) in *.
  assert (HN : 0 < norm2 6 sd) by (rewrite N2; lra). assert (I1 : 1 / INR 1 = 1) by (cbn [INR]; field).
  destruct (unit_einc P (drv_init unit_model 0) sd 1 1 0 None None HP HN ne1 ne1) as (d & ei & a & E).
  assert (EU : exists st, uniaxial_test unit_model P sd 1 0 1 1 false 1 = Ret st /\ length (ts_e st) = 2%nat).
  { unfold uniaxial_test. rewrite I1. cbn [passes]. unfold ut_pass. cbn [tst0 ts_d ts_ge ts_ga]. rewrite E. cbn [unit_model pm_damage]. destruct (Rlt_dec 1 0); [lra|]. eexists. split; reflexivity. }
  destruct EU as (st & EU & LU). exists st. split; [exact EU|].
  destruct (uniaxial_sound _ _ _ _ _ _ _ _ _ _ ne1 HN (Nat.lt_0_succ 0) EU) as (k & Hk & (le & lt & ls & A & B & _ & _ & _ & _ & C) & _).
  rewrite A in LU. rewrite app_length, B in LU. cbn in LU. assert (k = 1%nat) as -> by lia.
  destruct (C 1%nat ltac:(lia)) as (e & We & Q & _). rewrite (errors_0 _ _ _ HP We), N2, I1 in Q. cbn [tst0 ts_e topr hd INR] in Q.
  destruct le as [|x [|y le]]; try discriminate. unfold kth in Q. cbn [Nat.sub nth] in Q. rewrite A. cbn [app tst0 ts_e]. f_equal. rewrite Rmult_0_l, Rmult_0_r in Q. apply Rabs_0 in Q. lra.
Qed.

(** *** cycles *)
Definition cyc_case (emax r : R) : cparams := {| cp_emax := emax; cp_R := r; cp_erate := 1; cp_T := 0; cp_nsteps := 1; cp_sdir := ax1; cp_hold0 := 0; cp_hold1 := 0; cp_nhold := 1; cp_dmg := None |}.
(** starting in compression: the time goes backwards *)
Lemma cyclic_backwards P : exactP P -> exists st, strain_cyclic unit_model P (cyc_case (-1) (-1)) 0 = Ret (st, []) /\ topr (ts_t st) = -1.
Proof.
  intros HP. unfold strain_cyclic. cbn [cyc_case cp_emax cp_R cp_erate cp_T cp_nsteps cp_sdir cp_hold0 cp_hold1 cp_nhold cp_dmg].
  assert (I1 : -1 / INR 1 = -1) by (cbn [INR]; field). rewrite I1.
  destruct (unit_ramp P ax1 ax1 1 (-1) 0 HP ltac:(rewrite norm_ax1; lra) ne1 nem1 1 (tst0 unit_model 0)) as (st & E). rewrite E. cbn [cycles]. exists st. split; [reflexivity|].
  destruct (ramp_moves _ _ _ _ _ _ _ _ _ _ _ nem1 (synced_start _ _ _) E) as ((_ & _ & _ & T & _) & _ & e & _ & (Mt & _)). rewrite T, Mt. cbn. field.
Qed.
(** a ratio above one: the reversal goes the wrong way *)
Lemma cyclic_wrong_way P : exactP P -> exists st k, strain_cyclic unit_model P (cyc_case 1 2) 1 = Ret (st, [k]) /\ ts_e st = [1; 0; 1; 0].
Proof.
  intros HP. unfold strain_cyclic. cbn [cyc_case cp_emax cp_R cp_erate cp_T cp_nsteps cp_sdir cp_hold0 cp_hold1 cp_nhold cp_dmg cycles].
  assert (I1 : 1 / INR 1 = 1) by (cbn [INR]; field). rewrite I1.
  destruct (one_step P true 0 _ HP (synced_start ax1 unit_model 0)) as (s1 & E1 & S1 & L1 & T1). rewrite E1.
  assert (A1 : Rabs (1 * 2 - 1) / INR 1 = 1) by (replace (1 * 2 - 1) with 1 by ring; rewrite Rabs_R1; exact I1).
  assert (A2 : Rabs (1 - 1 * 2) / INR 1 = 1) by (replace (1 - 1 * 2) with (- (1)) by ring; rewrite Rabs_Ropp, Rabs_R1; exact I1).
  unfold one_cycle, do_hold. cbn [cyc_case cp_emax cp_R cp_erate cp_T cp_nsteps cp_sdir cp_hold0 cp_hold1 cp_nhold cp_dmg]. rewrite A1, A2. destruct (Rlt_dec 0 0) as [K|_]; [lra|].
  destruct (one_step P false 0 _ HP (synced_flip _ _ S1)) as (s2 & E2 & S2 & L2 & T2). rewrite E2. cbn [andthen].
  destruct (one_step P true 0 _ HP (synced_flip _ _ S2)) as (s3 & E3 & S3 & L3 & T3). rewrite E3. eexists _, _. split; [reflexivity|].
  change (ts_e (flip s2)) with (ts_e s2) in L3. change (ts_e (flip s1)) with (ts_e s1) in L2. rewrite L3, L2, L1. cbn [topr hd tst0 ts_e]. repeat (f_equal; try ring).
Qed.

(** *** a material that flows at the constant rate c along the axis *)
Definition flow_model (c : R) : pymodel := {| pm_base := {| ba_nh := 0; ba_update := fun l1 _ _ _ _ _ => Some {| pr_s := fun i => ld_e l1 i - c * ld_t l1 * ax1 i; pr_h := v0; pr_A := delta; pr_u := 0; pr_p := 0 |}; ba_init := v0 |};
  pm_alpha := fun _ => 0; pm_estrain := fun s _ _ => s; pm_damage := fun _ => 0 |}.
Lemma flow_step P c d s1 t1 T1 : exactP P -> dp_nts P = true -> exists d', stress_step (flow_model c) P d s1 t1 T1 = Ret d' /\ topr (dv_t d') = t1 /\
  (forall i, (i < 6)%nat -> top (dv_stress d') i = s1 i) /\ (forall i, (i < 6)%nat -> top (dv_strain d') i = s1 i + c * t1 * ax1 i).
Proof.
  intros HP HNT. assert (HP' := HP). destruct HP' as (Hr & Ha & Hm & HS & HT).
  assert (EV : forall e, dupd (flow_model c) P d e t1 T1 = Some {| pr_s := fun i => e i - 0 - c * t1 * ax1 i; pr_h := v0; pr_A := delta; pr_u := 0; pr_p := 0 |}).
  { intros e. unfold dupd, upd, thermal. rewrite HNT. reflexivity. }
  assert (HG : exists g gs, stress_guesses d = g :: gs) by (unfold stress_guesses; destruct (dv_strain d) as [|a [|b l]]; eauto). destruct HG as (g & gs & EG).
  assert (EX : exists d', stress_step (flow_model c) P d s1 t1 T1 = Ret d').
  { destruct (linear_once 6 delta (fun i => s1 i + c * t1 * ax1 i) g (sys_RJ (stress_sys (flow_model c) P d s1 t1 T1 g)) (dp_solve P 6%nat) (dp_rt P) (dp_at P) (dp_miter P) (vlin 6)) as (x & b & i & EN & _); try assumption; try lra.
    - intros J r v E. apply (HS 6%nat _ _ _ E).
    - intros e. cbn [stress_sys vec_sys sys_RJ]. rewrite EV. eexists. split; [reflexivity|]. cbn [fst snd pr_s pr_A]. split; [|reflexivity]. intros i Hi. rewrite (mvd e i Hi). ring.
    - intros b E. cbn [stress_sys vec_sys sys_RJ] in E. rewrite EV in E. injection E as <-. cbn [snd]. apply HT. intros w Hw i Hi. rewrite <- (mvd w i Hi). apply Hw, Hi.
    - unfold stress_step. rewrite EG. change (vec_sys 6 g (sys_RJ (stress_sys (flow_model c) P d s1 t1 T1 g)) (dp_solve P 6%nat)) with (stress_sys (flow_model c) P d s1 t1 T1 g) in EN.
      rewrite (try_first _ _ _ _ _ _ _ _ EN). unfold strain_step. rewrite EV. eauto. }
  destruct EX as [d' E]. exists d'. split; [exact E|]. destruct (stress_step_sound _ _ _ _ _ _ _ E) as (T & _ & g' & rg & _ & _ & W). apply (within_0 _ _ _ HP) in W.
  assert (Z : forall i, (i < 6)%nat -> top (dv_stress d') i = s1 i).
  { intros i Hi. assert (B := comp_bound 6 (fun i => top (dv_stress d') i - s1 i) i Hi). rewrite W in B. apply Rabs_0 in B. lra. }
  split; [exact T|]. split; [exact Z|]. intros i Hi. rewrite <- (Z i Hi).
  unfold stress_step in E. destruct (solve_try _ _ _ _) as [e|]; [|discriminate]. unfold strain_step in E. rewrite EV in E. injection E as <-. cbn [dv_strain dv_stress top hd pr_s]. ring.
Qed.
Lemma along_ax l : along l ax1 = top l 0%nat.
Proof. unfold along, dot, ax1. cbn [rsum Nat.eqb]. ring. Qed.
Lemma ax_not_zero : allzero ax1 = false.
Proof.
  unfold allzero, ax1. cbn [Nat.eqb]. assert (E : isclose 1 0 = false). { destruct (isclose 1 0) eqn:E; [|reflexivity]. apply isclose_0 in E. rewrite Rabs_R1 in E. assert (/ 10 ^ 8 < 1) by lra. lra. }
  rewrite E. reflexivity.
Qed.
Lemma flow_up P c smax : exactP P -> dp_nts P = true -> exists st, creep_up (flow_model c) P ax1 1 smax 0 (Ret (tst0 (flow_model c) 0)) = Ret st /\
  topr (ts_t st) = Rabs smax /\ ts_e st = [smax + c * Rabs smax; 0] /\ (forall i, (i < 6)%nat -> top (dv_stress (ts_d st)) i = smax * ax1 i) /\ topr (dv_t (ts_d st)) = Rabs smax.
Proof.
  intros HP HN. cbn [creep_up tst0 ts_d]. unfold srate_sinc_step. set (d := drv_init (flow_model c) 0).
  assert (ET : srate_dt d ax1 1 smax = Rabs smax).
  { rewrite srate_time; [rewrite norm_ax1, Rabs_R1; field|apply ax_not_zero|rewrite norm_ax1; lra|rewrite Rabs_R1; lra]. }
  rewrite ET. destruct (flow_step P c d (srate_target d ax1 smax) (topr (dv_t d) + Rabs smax) 0 HP HN) as (d' & E & T & S & N). rewrite E.
  assert (TV : forall i, srate_target d ax1 smax i = smax * ax1 i). { intros i. rewrite (srate_target_val d ax1 smax i ax_not_zero), unit_ax1. cbn [d drv_init dv_stress top hd v0]. unfold v0. ring. }
  assert (T0 : topr (dv_t d) = 0) by reflexivity. rewrite T0, Rplus_0_l in *.
  eexists. split; [reflexivity|]. cbn [ts_t ts_e ts_d topr hd]. fold (topr (dv_t d')). split; [exact T|]. split; [|split; [|exact T]].
  - f_equal. rewrite along_ax, (N 0%nat ltac:(lia)), TV. unfold ax1. cbn [Nat.eqb]. ring.
  - intros i Hi. rewrite (S i Hi). apply TV.
Qed.
(** compression creep is reported as a failure at the first step of the hold, although the step
    succeeded, as the mirrored test does *)
Lemma creep_compression P : exactP P -> dp_nts P = true ->
  (exists r, creep (flow_model (-1)) P ax1 (-1) 1 1 0 100 None 1 1 false = Ret r /\ cr_failed r = true /\ ts_e (cr_st r) = [-2; 0] /\ top (dv_strain (ts_d (cr_st r))) 0%nat = -3) /\
  (exists r, creep (flow_model 1) P ax1 1 1 1 0 100 None 1 1 false = Ret r /\ cr_failed r = false /\ ts_e (cr_st r) = [3; 2; 0]).
Proof.
  intros HP HN.
  assert (G : forall c smax, Rabs c <= 1 -> Rabs smax = 1 -> exists st d, creep_up (flow_model c) P ax1 1 (smax / INR 1) 0 (Ret (tst0 (flow_model c) 0)) = Ret st /\ ts_e st = [smax + c; 0] /\ topr (ts_t st) = 1 /\
    stress_step (flow_model c) P (ts_d st) (top (dv_stress (ts_d st))) 2 0 = Ret d /\ along (dv_strain d) ax1 = smax + 2 * c /\ exceeds 100 (top (dv_strain d)) = false /\ top (dv_strain d) 0%nat = smax + 2 * c).
  { intros c smax Hc Hs. replace (smax / INR 1) with smax by (cbn [INR]; field). destruct (flow_up P c smax HP HN) as (st & E & T & L & S & _). rewrite Hs in *. exists st.
    destruct (flow_step P c (ts_d st) (top (dv_stress (ts_d st))) 2 0 HP HN) as (d & E2 & _ & _ & N2). exists d. split; [exact E|]. split; [rewrite L; do 2 f_equal; ring|]. split; [exact T|]. split; [exact E2|].
    assert (V0 : top (dv_strain d) 0%nat = smax + 2 * c) by (rewrite (N2 0%nat ltac:(lia)), (S 0%nat ltac:(lia)); unfold ax1; cbn [Nat.eqb]; ring).
    assert (VI : forall i, (1 <= i < 6)%nat -> top (dv_strain d) i = 0) by (intros i Hi; rewrite (N2 i ltac:(lia)), (S i ltac:(lia)); unfold ax1; destruct (Nat.eqb_spec i 0); [lia|ring]).
    split; [rewrite along_ax; exact V0|]. split; [|exact V0]. unfold exceeds. rewrite V0, !VI by lia. rewrite Rabs_R0.
    destruct (Rlt_dec 100 _) as [K|]; [exfalso|reflexivity]. assert (Rabs (smax + 2 * c) <= 3). { eapply Rle_trans; [apply Rabs_triang|]. rewrite Rabs_mult, (Rabs_pos_eq 2) by lra. lra. }
    unfold Rmax in K. repeat match goal with K : context [Rle_dec ?a ?b] |- _ => destruct (Rle_dec a b) end; lra. }
  assert (LT : lin_times 1 1 1 = [2]). { unfold lin_times. cbn [seq map INR]. f_equal. field. }
  assert (A1 : Rabs (-1) = 1) by (replace (-1) with (- (1)) by ring; rewrite Rabs_Ropp; apply Rabs_R1).
  split.
  - destruct (G (-1) (-1) ltac:(lra) A1) as (st & d & E & L & T & E2 & V & X & V0). unfold creep, Nat.iter. cbn [nat_rect]. rewrite E, T, LT. cbn [creep_hold]. rewrite E2, X, V, L. cbn [topr hd].
    destruct (Rlt_dec (-1 + 2 * -1) (-1 + -1)) as [_|K]; [|lra]. eexists. split; [reflexivity|]. cbn [cr_failed cr_st ts_e ts_d]. split; [reflexivity|]. split; [do 2 f_equal; ring|rewrite V0; ring].
  - destruct (G 1 1 ltac:(rewrite Rabs_R1; lra) Rabs_R1) as (st & d & E & L & T & E2 & V & X & V0). unfold creep, Nat.iter. cbn [nat_rect]. rewrite E, T, LT. cbn [creep_hold]. rewrite E2, X, V, L. cbn [topr hd].
    destruct (Rlt_dec (1 + 2 * 1) (1 + 1)) as [K|_]; [lra|]. eexists. split; [reflexivity|]. cbn [cr_failed cr_st ts_e ts_d]. split; [reflexivity|]. repeat (f_equal; try ring).
Qed.
(** an isochronous strain is that of an earlier time: after a hold of 2 the strain is 4, not 3 *)
Lemma iso_early P : exactP P -> dp_nts P = true ->
  iso_strain (flow_model 1) P ax1 1 2 0 100 None 2 1 1 = Ret (3, false) /\
  exists r, creep (flow_model 1) P ax1 1 1 2 0 100 None 2 1 false = Ret r /\ ts_e (cr_st r) = [4; 3; 2; 0] /\ ts_t (cr_st r) = [3; 2; 1; 0].
Proof.
  intros HP HN. assert (A1 := Rabs_R1). destruct (flow_up P 1 1 HP HN) as (st & E & T & L & S & TD). rewrite A1 in *.
  assert (Etm : ts_t st = [1; 0]). { cbn [creep_up tst0 ts_d ts_t] in E. destruct (srate_sinc_step _ _ _ _ _ _ _) as [d|] eqn:K; [|discriminate]. injection E as <-. cbn [ts_t topr hd] in *. rewrite T. reflexivity. }
  destruct (flow_step P 1 (ts_d st) (top (dv_stress (ts_d st))) 2 0 HP HN) as (d1 & E1 & _ & S1 & N1).
  destruct (flow_step P 1 d1 (top (dv_stress d1)) 3 0 HP HN) as (d2 & E2 & _ & S2 & N2).
  assert (V1 : forall i, (i < 6)%nat -> top (dv_strain d1) i = 3 * ax1 i) by (intros i Hi; rewrite (N1 i Hi), (S i Hi); ring).
  assert (V2 : forall i, (i < 6)%nat -> top (dv_strain d2) i = 4 * ax1 i) by (intros i Hi; rewrite (N2 i Hi), (S1 i Hi), (S i Hi); ring).
  assert (EX : forall k v, 0 <= k <= 4 -> (forall i, (i < 6)%nat -> v i = k * ax1 i) -> exceeds 100 v = false).
  { intros k v Hk V. unfold exceeds. rewrite !V by lia. unfold ax1. cbn [Nat.eqb]. rewrite !Rmult_0_r, Rmult_1_r, Rabs_R0, Rabs_pos_eq by lra.
    destruct (Rlt_dec 100 _) as [K|]; [exfalso|reflexivity]. unfold Rmax in K. repeat match goal with K : context [Rle_dec ?a ?b] |- _ => destruct (Rle_dec a b) end; lra. }
  assert (X1 := EX 3 _ ltac:(lra) V1). assert (X2 := EX 4 _ ltac:(lra) V2).
  assert (W1 : along (dv_strain d1) ax1 = 3) by (rewrite along_ax, (V1 0%nat ltac:(lia)); unfold ax1; cbn [Nat.eqb]; ring).
  assert (W2 : along (dv_strain d2) ax1 = 4) by (rewrite along_ax, (V2 0%nat ltac:(lia)); unfold ax1; cbn [Nat.eqb]; ring).
  assert (LT : lin_times 1 2 2 = [2; 3]). { unfold lin_times. cbn [seq map INR]. repeat (f_equal; try field). }
  assert (EC : exists r, creep (flow_model 1) P ax1 1 1 2 0 100 None 2 1 false = Ret r /\ ts_e (cr_st r) = [4; 3; 2; 0] /\ ts_t (cr_st r) = [3; 2; 1; 0] /\ cr_failed r = false /\ cr_ri r = 2%nat).
  { unfold creep, Nat.iter. cbn [nat_rect]. replace (1 / INR 1) with 1 by (cbn [INR]; field). rewrite E, T, LT. cbn [creep_hold]. rewrite E1, X1, W1, L. cbn [topr hd].
    destruct (Rlt_dec 3 (1 + 1 * 1)) as [K|_]; [lra|]. cbn [ts_d ts_e]. rewrite E2, X2, W2. cbn [topr hd]. destruct (Rlt_dec 4 3) as [K|_]; [lra|]. eexists. split; [reflexivity|]. cbn [cr_st ts_e ts_t cr_failed cr_ri].
    split; [repeat (f_equal; try ring)|]. split; [rewrite Etm; reflexivity|]. split; [reflexivity|].
    destruct (up_sync (flow_model 1) P ax1 1 1 0 1 st) as ((_ & Q & _) & LL); [exact E|]. rewrite <- Q. exact LL. }
  destruct EC as (r & R1 & R2 & R3 & R4 & R5). split; [|exists r; split; [exact R1|split; assumption]].
  unfold iso_strain. rewrite R1. unfold tstrain, since. rewrite R5, R2. cbn [Datatypes.length Nat.sub firstn]. rewrite R4. reflexivity.
Qed.
(** *** a heated bar held at zero strain: two points of three come back, and the mechanical strain
    reported is the thermal strain *)
Lemma thermo_wrong P : exactP P -> dp_nts P = false -> exists s, thermomechanical unit_model P ax1 (0, 0, 0) [(1, 1, 0); (2, 2, 0)] = Ret ([(0, 0, 0); (1, 1, 0)], [0; s], [0; 1]).
Proof.
  intros HP HN. unfold thermomechanical. cbn [tm_loop].
  assert (U : 0 < norm2 6 ax1) by (rewrite norm_ax1; lra).
  destruct (unit_step P (drv_init unit_model 0) ax1 ((0 - 0) / (1 - 0)) 1 1 None None HP U ltac:(cbn; lra)) as (d1 & ei1 & a1 & E1). rewrite E1.
  assert (F1 := E1). unfold erate_step in F1. destruct (solve_try _ _ _ _) as [x1|]; [|discriminate]. destruct (strain_step unit_model P (drv_init unit_model 0) _ 1 1) as [d1'|] eqn:G1; [|discriminate]. injection F1 as -> _ _.
  destruct (strain_step_parts _ _ _ _ _ _ _ G1) as (r1 & _ & Ed1).
  destruct (unit_step P d1 ax1 ((0 - 0) / (2 - 1)) 2 2 (Some ei1) (Some a1) HP U ltac:(rewrite Ed1; cbn; lra)) as (d2 & ei2 & a2 & E2). rewrite E2.
  cbn [rev app Datatypes.length firstn map fst snd]. exists (along (dv_stress d1) ax1). do 2 f_equal. f_equal. f_equal.
  rewrite along_ax, Ed1. cbn [dv_therm top hd]. unfold thermal. rewrite HN. cbn [drv_init dv_therm dv_T top topr hd unit_model pm_alpha Nat.ltb Nat.leb]. unfold v0. field.
Qed.
