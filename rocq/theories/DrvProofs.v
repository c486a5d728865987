From Verif Require Import Base Diff.
From Verif Require Import SolverModel SubstepModel CreepModel NlModel NlSpec NlProofs UniModel UniSpec UniProofs DrvModel DrvSpec.
From Verif Require Import RiProofs WalkerProofs.
From Coq Require Import ZArith List FunctionalExtensionality.
Import ListNotations.

(** ** solve_try *)
Definition is_ret {A} (r : py A) : Prop := match r with Ret _ => True | Raise _ => False end.
Lemma try_result P n mk : (forall g, no_nan (mk g)) -> forall gs x, solve_try P n mk gs = Ret x ->
  exists g d d0, In g gs /\ sys_RJ (mk g) (sys_init (mk g)) = Some d0 /\ sys_RJ (mk g) x = Some d /\
    py_converged (dp_rt P) (dp_at P) (sys_norm (mk g) d) (sys_norm (mk g) d0).
Proof.
  intros HN. induction gs as [|g gs IH]; intros x H; cbn [solve_try] in H; [discriminate|].
  destruct (py_newton (mk g) (vlin n) _ _ _ LNone true) as [[[y d] i]|e] eqn:E1.
  - injection H as <-. destruct (run_converged _ _ _ _ _ _ _ _ _ (HN g) E1) as (d0 & A & B & C & _). exists g, d, d0. split; [left; reflexivity|]. split; [exact A|]. split; [exact B|exact C].
  - assert (Q : exists x', match e with Spins => Raise Spins | _ => match py_newton (mk g) (vlin n) (dp_rt P) (dp_at P) (dp_miter P) (LBacktracking (dp_bt P) (1 / 2) (1 / 10000)) true with
       | Ret (x0, _, _) => Ret x0 | Raise Spins => Raise Spins | Raise _ => solve_try P n mk gs end end = Ret x' /\ x' = x) by (exists x; destruct e; split; try reflexivity; exact H).
    destruct Q as (x' & Q & ->). clear H.
    destruct (py_newton (mk g) (vlin n) _ _ _ (LBacktracking _ _ _) true) as [[[y d] i]|e2] eqn:E2.
    + assert (x = y) by (destruct e; congruence). subst y. destruct (run_converged _ _ _ _ _ _ _ _ _ (HN g) E2) as (d0 & A & B & C & _). exists g, d, d0. split; [left; reflexivity|]. split; [exact A|]. split; [exact B|exact C].
    + assert (R0 : solve_try P n mk gs = Ret x) by (destruct e, e2; try discriminate; exact Q). destruct (IH x R0) as (g' & d & d0 & A & B). exists g', d, d0. split; [right; exact A|exact B].
Qed.
(** the first guess wins when plain Newton iterations converge from it *)
Lemma try_first P n mk g gs x d i : py_newton (mk g) (vlin n) (dp_rt P) (dp_at P) (dp_miter P) LNone true = Ret (x, d, i) -> solve_try P n mk (g :: gs) = Ret x.
Proof. intros H. cbn [solve_try]. rewrite H. reflexivity. Qed.
(** failure: neither solver succeeded from any guess *)
Lemma try_fails P n mk : forall gs, solve_try P n mk gs = Raise MaximumIterations -> forall g, In g gs ->
  ~ is_ret (py_newton (mk g) (vlin n) (dp_rt P) (dp_at P) (dp_miter P) LNone true) /\
  ~ is_ret (py_newton (mk g) (vlin n) (dp_rt P) (dp_at P) (dp_miter P) (LBacktracking (dp_bt P) (1 / 2) (1 / 10000)) true).
Proof.
  induction gs as [|a gs IH]; intros H g Hg; [destruct Hg|]. cbn [solve_try] in H.
  destruct (py_newton (mk a) (vlin n) _ _ _ LNone true) as [[[y d] i]|e] eqn:E1; [discriminate|].
  destruct (py_newton (mk a) (vlin n) _ _ _ (LBacktracking _ _ _) true) as [[[y d] i]|e2] eqn:E2; [destruct e; discriminate|].
  destruct Hg as [<-|Hg].
  - rewrite E1, E2. cbn. tauto.
  - apply IH; [|exact Hg]. destruct e, e2; try discriminate; exact H.
Qed.

(** ** the recorded history *)
Lemma strain_step_parts M P d e t1 T1 d' : strain_step M P d e t1 T1 = Ret d' -> exists r, dupd M P d e t1 T1 = Some r /\
  d' = {| dv_strain := e :: dv_strain d; dv_mech := (fun i => e i - thermal M P d T1 i) :: dv_mech d; dv_therm := thermal M P d T1 :: dv_therm d;
           dv_stress := pr_s r :: dv_stress d; dv_stored := pr_h r :: dv_stored d; dv_T := T1 :: dv_T d; dv_t := t1 :: dv_t d;
           dv_u := pr_u r :: dv_u d; dv_p := pr_p r :: dv_p d |}.
Proof. unfold strain_step. destruct (dupd M P d e t1 T1) as [r|]; [|discriminate]. intros H. injection H as <-. exists r. split; reflexivity. Qed.
Definition is_step (M : pymodel) (P : dparams) (d d' : drv) : Prop := exists e t1 T1, strain_step M P d e t1 T1 = Ret d'.
Lemma call_is_step M P d c d' : do_call M P d c = Ret d' -> is_step M P d d'.
Proof.
  assert (S : forall s t T d', stress_step M P d s t T = Ret d' -> is_step M P d d').
  { intros s t T d0 H. unfold stress_step in H. destruct (solve_try _ _ _ _) as [e|]; [|discriminate]. exists e, t, T. exact H. }
  assert (X : forall sd r t T ge ga d', first_of (erate_step M P d sd r t T ge ga) = Ret d' -> is_step M P d d').
  { intros sd r t T ge ga d0 H. unfold erate_step in H. destruct (solve_try _ _ _ _) as [x|]; [|discriminate].
    destruct (strain_step M P d _ t T) as [d1|] eqn:E; [|discriminate]. cbn [first_of] in H. injection H as <-. eexists _, t, T. exact E. }
  destruct c as [e t T|s t T|sd r t T ge ga|sd r i T ge ga|sd r i T|i t T q E]; cbn [do_call]; intros H.
  - exists e, t, T. exact H.
  - eapply S, H.
  - eapply X, H.
  - unfold erate_einc_step in H. destruct (Req_EM_T r 0); [discriminate|]. eapply X, H.
  - eapply S, H.
  - unfold strain_hold_step in H. destruct (andb _ _); [discriminate|]. destruct (solve_try _ _ _ _) as [e|]; [|discriminate]. exists e, t, T. exact H.
Qed.
Definition good (nts : bool) (M : pymodel) (T0 : R) (d : drv) : Prop := exists l, recorded d l /\ history_of nts M T0 l.
Lemma good_step M P T0 d d' : good (dp_nts P) M T0 d -> is_step M P d d' -> good (dp_nts P) M T0 d'.
Proof.
  intros (l & HR & HH) (e & t1 & T1 & H). destruct (strain_step_parts _ _ _ _ _ _ _ H) as (r & ER & ->).
  destruct HR as (A1 & A2 & A3 & A4 & A5 & A6 & A7 & A8 & A9).
  assert (HQ : exists q l', l = q :: l') by (inversion HH; subst; eauto). destruct HQ as (q & l' & ->). cbn [map] in *.
  set (p := {| p_e := e; p_m := fun i => e i - thermal M P d T1 i; p_th := thermal M P d T1; p_s := pr_s r; p_h := pr_h r; p_T := T1; p_t := t1; p_u := pr_u r; p_p := pr_p r |}).
  exists (p :: q :: l'). split.
  - unfold recorded. cbn [dv_strain dv_mech dv_therm dv_stress dv_stored dv_T dv_t dv_u dv_p map p p_e p_m p_th p_s p_h p_T p_t p_u p_p].
    rewrite A1, A2, A3, A4, A5, A6, A7, A8, A9. repeat split.
  - apply ho_next; [exact HH| | |].
    + intros i. cbn. ring.
    + intros i Hi. cbn [p p_th p_T]. unfold thermal. destruct (dp_nts P); [reflexivity|]. unfold top, topr. rewrite A3, A6. cbn [hd].
      destruct (Nat.ltb i 3); field.
    + exists r. split; [|repeat split]. unfold dupd in ER. cbv zeta in ER. unfold top, topr in ER. rewrite A2, A4, A5, A6, A7, A8, A9 in ER. cbn [hd] in ER.
      cbn [p p_m p_T p_t]. exact ER.
Qed.
Lemma good_init M P T0 : good (dp_nts P) M T0 (drv_init M T0).
Proof.
  exists [{| p_e := v0; p_m := v0; p_th := v0; p_s := v0; p_h := ba_init (pm_base M); p_T := T0; p_t := 0; p_u := 0; p_p := 0 |}].
  split; [repeat split|]. apply ho_start; try reflexivity; intros; reflexivity.
Qed.
Lemma drive_history M P T0 cs : good (dp_nts P) M T0 (drive M P (drv_init M T0) cs).
Proof.
  assert (G : forall cs d, good (dp_nts P) M T0 d -> good (dp_nts P) M T0 (drive M P d cs)).
  { induction cs0 as [|c cs0 IH]; intros d H; cbn [drive]; [exact H|]. apply IH. destruct (do_call M P d c) as [d'|] eqn:E; [|exact H].
    eapply good_step; [exact H|]. eapply call_is_step, E. }
  apply G, good_init.
Qed.
(** a call that succeeds adds one point and keeps the rest *)
Lemma call_appends M P d c d' : do_call M P d c = Ret d' -> exists e m th s h T t u p,
  d' = {| dv_strain := e :: dv_strain d; dv_mech := m :: dv_mech d; dv_therm := th :: dv_therm d; dv_stress := s :: dv_stress d; dv_stored := h :: dv_stored d;
          dv_T := T :: dv_T d; dv_t := t :: dv_t d; dv_u := u :: dv_u d; dv_p := p :: dv_p d |}.
Proof. intros H. destruct (call_is_step _ _ _ _ _ H) as (e & t1 & T1 & H1). destruct (strain_step_parts _ _ _ _ _ _ _ H1) as (r & _ & ->). repeat eexists. Qed.
Lemma strain_step_sound M P d e t1 T1 d' : strain_step M P d e t1 T1 = Ret d' -> top (dv_strain d') = e /\ topr (dv_t d') = t1 /\ topr (dv_T d') = T1 /\
  exists r, dupd M P d e t1 T1 = Some r /\ top (dv_stress d') = pr_s r.
Proof. intros H. destruct (strain_step_parts _ _ _ _ _ _ _ H) as (r & E & ->). repeat split. exists r. split; [exact E|reflexivity]. Qed.

(** ** stress control *)
Lemma vec_sys_no_nan n g RJ solve : no_nan (vec_sys n g RJ solve).
Proof. intros x d _. eexists. reflexivity. Qed.
Lemma stress_step_sound M P d s1 t1 T1 d' : stress_step M P d s1 t1 T1 = Ret d' ->
  topr (dv_t d') = t1 /\ topr (dv_T d') = T1 /\ exists g rg, In g (stress_guesses d) /\ dupd M P d g t1 T1 = Some rg /\
  within P (norm2 6 (fun i => top (dv_stress d') i - s1 i)) (norm2 6 (fun i => pr_s rg i - s1 i)).
Proof.
  unfold stress_step. destruct (solve_try _ _ _ _) as [e|] eqn:E; [|discriminate]. intros H. destruct (strain_step_sound _ _ _ _ _ _ _ H) as (_ & S2 & S3 & r & Er & Es).
  split; [exact S2|]. split; [exact S3|]. destruct (try_result P 6 (stress_sys M P d s1 t1 T1) (fun g => vec_sys_no_nan _ _ _ _) _ _ E) as (g & b & b0 & Hg & B0 & B & a0 & a1 & N0 & N1 & C).
  cbn [stress_sys vec_sys sys_RJ sys_init sys_norm] in *. rewrite Er in B. injection B as <-. destruct (dupd M P d g t1 T1) as [rg|] eqn:Eg; [|discriminate]. injection B0 as <-.
  injection N0 as <-. injection N1 as <-. exists g, rg. split; [exact Hg|]. split; [exact Eg|]. rewrite Es. split; [apply norm2_nonneg|exact C].
Qed.
(** the last strain is among the guesses *)
Lemma stress_guess_last d : dv_strain d <> [] -> In (top (dv_strain d)) (stress_guesses d).
Proof. unfold stress_guesses, top. destruct (dv_strain d) as [|a [|b l]]; [congruence|left; reflexivity|left; reflexivity]. Qed.

(** ** prescribed direction of stress and rate of strain *)
Lemma erate_step_sound M P d sdir erate t1 T1 ge ga d' ei a : t1 <> topr (dv_t d) ->
  erate_step M P d sdir erate t1 T1 ge ga = Ret (d', ei, a) ->
  let dt := t1 - topr (dv_t d) in
  (forall i, top (dv_strain d') i = top (dv_strain d) i + ei i) /\ topr (dv_t d') = t1 /\ topr (dv_T d') = T1 /\
  exists e r0, within P e r0 /\
    norm2 6 (fun i => top (dv_stress d') i - top (dv_stress d) i - a * unitv sdir i) <= e /\
    Rabs (dot 6 (fun i => top (dv_strain d') i - top (dv_strain d) i) (unitv sdir) / dt - erate) <= e.
Proof.
  intros HT H dt. unfold erate_step in H. destruct (solve_try _ _ _ _) as [x|] eqn:E; [|discriminate]. destruct (strain_step _ _ _ _ _ _) as [d1|] eqn:ES; [|discriminate].
  injection H as <- <- <-. destruct (strain_step_sound _ _ _ _ _ _ _ ES) as (S1 & S2 & S3 & r & Er & Es).
  split; [intros i; rewrite S1; reflexivity|]. split; [exact S2|]. split; [exact S3|].
  assert (HN : forall g, no_nan (erate_sys M P d (unitv sdir) erate t1 T1 g)).
  { intros g y b _. cbn [erate_sys sys_norm]. destruct (Req_EM_T _ 0); [lra|]. eexists. reflexivity. }
  destruct (try_result P 7 (erate_sys M P d (unitv sdir) erate t1 T1) HN _ _ E) as (g & b & b0 & Hg & B0 & B & a0 & a1 & N0 & N1 & C).
  cbn [erate_sys sys_RJ sys_init sys_norm] in *. destruct (Req_EM_T _ 0) as [Q|_] in *; [lra|]. injection N0 as <-. injection N1 as <-.
  exists (norm2 7 (fst b)), (norm2 7 (fst b0)). split; [split; [apply norm2_nonneg|exact C]|].
  unfold erate_RJ in B. cbv zeta in B. rewrite Er in B. injection B as <-. cbn [fst]. rewrite Es.
  set (R6 := dot 6 (vtl x) (unitv sdir) / (t1 - topr (dv_t d)) - erate).
  set (Rs := fun i => pr_s r i - (unitv sdir i * x 0%nat + top (dv_stress d) i)).
  assert (SQ : dot 7 (fun i => if (i <? 6)%nat then Rs i else R6) (fun i => if (i <? 6)%nat then Rs i else R6) = dot 6 Rs Rs + R6 * R6).
  { unfold dot. cbn [rsum Nat.ltb Nat.leb]. ring. }
  assert (NR : norm2 7 (fun i => if (i <? 6)%nat then Rs i else R6) = sqrt (dot 6 Rs Rs + R6 * R6)) by (unfold norm2; rewrite SQ; reflexivity).
  assert (P1 : 0 <= dot 6 Rs Rs). { unfold dot. apply rsum_nonneg. intros. apply Rle_0_sqr. }
  assert (P2 : 0 <= R6 * R6) by apply Rle_0_sqr.
  change (fun i => if (i <? 6)%nat then pr_s r i - (unitv sdir i * x 0%nat + top (dv_stress d) i) else R6) with (fun i => if (i <? 6)%nat then Rs i else R6).
  rewrite NR. split.
  - replace (norm2 6 (fun i => pr_s r i - top (dv_stress d) i - x 0%nat * unitv sdir i)) with (sqrt (dot 6 Rs Rs)); [apply sqrt_le_1; lra|].
    unfold norm2. f_equal. unfold dot. apply rsum_ext. intros i Hi. unfold Rs. ring.
  - rewrite S1. replace (dot 6 (fun i => top (dv_strain d) i + vtl x i - top (dv_strain d) i) (unitv sdir)) with (dot 6 (vtl x) (unitv sdir)) by (unfold dot; apply rsum_ext; intros; ring).
    fold dt. change (dot 6 (vtl x) (unitv sdir) / dt - erate) with R6. rewrite <- sqrt_Rsqr_abs. unfold Rsqr. apply sqrt_le_1_alt. lra.
Qed.
(** with no time the guess is taken for the solution *)
Lemma erate_step_no_time M P d sdir erate T1 ge ga : (exists r, erate_RJ M P d (unitv sdir) erate (topr (dv_t d)) T1 (erate_guess (unitv sdir) ge ga) = Some r) ->
  exists d', erate_step M P d sdir erate (topr (dv_t d)) T1 ge ga = Ret (d', vtl (erate_guess (unitv sdir) ge ga), match ga with Some a => a | None => 1 end) /\
    (forall i, top (dv_strain d') i = top (dv_strain d) i + match ge with Some e => e i | None => unitv sdir i / 10000 end).
Proof.
  intros [r Hr]. unfold erate_step.
  assert (N : py_newton (erate_sys M P d (unitv sdir) erate (topr (dv_t d)) T1 (erate_guess (unitv sdir) ge ga)) (vlin 7) (dp_rt P) (dp_at P) (dp_miter P) LNone true
     = Ret (erate_guess (unitv sdir) ge ga, r, 0%Z)).
  { unfold py_newton. apply nan_start; [exact Hr|]. cbn [erate_sys sys_norm]. destruct (Req_EM_T _ 0); [reflexivity|]. exfalso. lra. }
  rewrite (try_first P 7 (erate_sys M P d (unitv sdir) erate (topr (dv_t d)) T1) _ [] _ _ _ N).
  unfold erate_RJ in Hr. cbv zeta in Hr. unfold strain_step. destruct (dupd _ _ _ _ _ _) as [p|]; [|discriminate].
  eexists. split; [reflexivity|]. intros i. reflexivity.
Qed.
Lemma erate_einc_time M P d sdir erate einc T1 ge ga d' ei a : erate_einc_step M P d sdir erate einc T1 ge ga = Ret (d', ei, a) ->
  erate <> 0 /\ topr (dv_t d') = topr (dv_t d) + einc / erate.
Proof.
  unfold erate_einc_step. destruct (Req_EM_T erate 0) as [|N]; [discriminate|]. intros H. split; [exact N|].
  unfold erate_step in H. destruct (solve_try _ _ _ _) as [x|]; [|discriminate]. destruct (strain_step _ _ _ _ _ _) as [d1|] eqn:ES; [|discriminate]. injection H as <- <- <-.
  apply (strain_step_sound _ _ _ _ _ _ _ ES).
Qed.
(** the strain moves by the increment asked for *)
Lemma erate_einc_sound M P d sdir erate einc T1 ge ga d' ei a : einc <> 0 ->
  erate_einc_step M P d sdir erate einc T1 ge ga = Ret (d', ei, a) ->
  exists e r0, within P e r0 /\ norm2 6 (fun i => top (dv_stress d') i - top (dv_stress d) i - a * unitv sdir i) <= e /\
    Rabs (dot 6 (fun i => top (dv_strain d') i - top (dv_strain d) i) (unitv sdir) - einc) <= e * Rabs (einc / erate).
Proof.
  intros HE H. destruct (erate_einc_time _ _ _ _ _ _ _ _ _ _ _ _ H) as [N _]. unfold erate_einc_step in H. destruct (Req_EM_T erate 0); [contradiction|].
  assert (Q : einc / erate <> 0). { unfold Rdiv. apply Rmult_integral_contrapositive_currified; [exact HE|]. apply Rinv_neq_0_compat, N. }
  assert (Q2 : topr (dv_t d) + einc / erate <> topr (dv_t d)) by (intros Z0; apply Q; lra).
  destruct (erate_step_sound _ _ _ _ _ _ _ _ _ _ _ _ Q2 H) as (_ & _ & _ & e & r0 & W & B1 & B2). exists e, r0. split; [exact W|]. split; [exact B1|].
  replace (topr (dv_t d) + einc / erate - topr (dv_t d)) with (einc / erate) in B2 by ring.
  set (X := dot 6 _ _) in *. replace (X - einc) with ((X / (einc / erate) - erate) * (einc / erate)) by (field; split; [exact N|exact HE]).
  rewrite Rabs_mult. apply Rmult_le_compat_r; [apply Rabs_pos|exact B2].
Qed.

(** ** prescribed rate of stress *)
Lemma isclose_0 x : isclose x 0 = true <-> Rabs x <= / 10 ^ 8.
Proof. unfold isclose. rewrite Rabs_R0, Rmult_0_r, Rplus_0_r, Rminus_0_r. destruct (Rle_dec _ _); split; intros; try reflexivity; try assumption; try discriminate; contradiction. Qed.
Lemma srate_target_val d sdir sinc i : allzero sdir = false -> srate_target d sdir sinc i = top (dv_stress d) i + sinc * unitv sdir i.
Proof. intros H. unfold srate_target. rewrite H. unfold unitv, Rdiv. ring. Qed.
(** the time that passes: right for directions of length one *)
Lemma srate_time d sdir srate sinc : allzero sdir = false -> 0 < norm2 6 sdir -> / 10 ^ 8 < Rabs srate ->
  srate_dt d sdir srate sinc = norm2 6 sdir * (Rabs sinc / Rabs srate).
Proof.
  intros HZ HP HS. unfold srate_dt. destruct (isclose srate 0) eqn:E; [apply isclose_0 in E; lra|].
  assert (N : srate <> 0). { intros ->. rewrite Rabs_R0 in HS. assert (0 < / 10 ^ 8) by (apply Rinv_0_lt_compat, pow_lt; lra). lra. }
  replace (dot 6 (fun i => srate_target d sdir sinc i - top (dv_stress d) i) sdir) with (norm2 6 sdir * sinc).
  - unfold Rdiv. rewrite !Rabs_mult, Rabs_inv, (Rabs_pos_eq (norm2 6 sdir)) by lra. ring.
  - transitivity (sinc / norm2 6 sdir * dot 6 sdir sdir).
    + rewrite <- norm2_sqr. field. lra.
    + unfold dot. rewrite <- rsum_scal. apply rsum_ext. intros i Hi. rewrite (srate_target_val d sdir sinc i HZ). unfold unitv. field. lra.
Qed.
Lemma srate_sound M P d sdir srate sinc T1 d' : allzero sdir = false -> srate_sinc_step M P d sdir srate sinc T1 = Ret d' ->
  topr (dv_t d') = topr (dv_t d) + srate_dt d sdir srate sinc /\ exists e r0, within P e r0 /\
  norm2 6 (fun i => top (dv_stress d') i - (top (dv_stress d) i + sinc * unitv sdir i)) <= e.
Proof.
  intros HZ H. unfold srate_sinc_step in H. destruct (stress_step_sound _ _ _ _ _ _ _ H) as (S1 & _ & g & rg & _ & _ & W). split; [exact S1|].
  eexists _, _. split; [exact W|]. apply Req_le. unfold norm2, dot. f_equal. apply rsum_ext. intros i Hi. rewrite (srate_target_val d sdir sinc i HZ). reflexivity.
Qed.
(** a slow rate is taken for no rate: no time passes *)
Lemma srate_slow d sdir srate sinc : Rabs srate <= / 10 ^ 8 -> srate_dt d sdir srate sinc = 0.
Proof. intros H. apply isclose_0 in H. unfold srate_dt. rewrite H. reflexivity. Qed.

(** ** mixed control *)
Lemma oset_lt i k : (i < 6)%nat -> (k < 5)%nat -> (oset i k < 6)%nat /\ oset i k <> i.
Proof. intros Hi Hk. unfold oset. destruct (Nat.ltb_spec k i); lia. Qed.
Lemma oset_all i j : (i < 6)%nat -> (j < 6)%nat -> j <> i -> exists k, (k < 5)%nat /\ oset i k = j.
Proof.
  intros Hi Hj N. unfold oset. destruct (Nat.ltb_spec j i).
  - exists j. split; [lia|]. destruct (Nat.ltb_spec j i); lia.
  - exists (j - 1)%nat. split; [lia|]. destruct (Nat.ltb_spec (j - 1) i); lia.
Qed.
Lemma comp_bound n v i : (i < n)%nat -> Rabs (v i) <= norm2 n v.
Proof.
  intros Hi. rewrite <- sqrt_Rsqr_abs. unfold norm2. apply sqrt_le_1_alt. unfold Rsqr, dot.
  clear -Hi. induction n as [|n IH]; [lia|]. cbn [rsum]. assert (0 <= rsum n (fun j => v j * v j)) by (apply rsum_nonneg; intros; apply Rle_0_sqr).
  assert (0 <= v n * v n) by apply Rle_0_sqr. destruct (Nat.eq_dec i n) as [->|]; [lra|]. specialize (IH ltac:(lia)). lra.
Qed.
Lemma hold_sound M P d i t1 T1 q E d' : (i < 6)%nat -> strain_hold_step M P d i t1 T1 q E = Ret d' ->
  topr (dv_t d') = t1 /\ topr (dv_T d') = T1 /\ exists e r0, within P e r0 /\
  Rabs (top (dv_strain d') i - top (dv_strain d) i + (q - 1) * ((top (dv_stress d') i - top (dv_stress d) i) / E)) <= e /\
  (forall j, (j < 6)%nat -> j <> i -> Rabs (top (dv_stress d') j - top (dv_stress d) j) <= e).
Proof.
  intros Hi H. unfold strain_hold_step in H. destruct (andb _ _); [discriminate|]. destruct (solve_try _ _ _ _) as [x|] eqn:ET; [|discriminate].
  destruct (strain_step_sound _ _ _ _ _ _ _ H) as (S1 & S2 & S3 & r & Er & Es). split; [exact S2|]. split; [exact S3|].
  destruct (try_result P 6 (hold_sys M P d i t1 T1 q E) (fun g => vec_sys_no_nan _ _ _ _) _ _ ET) as (g & b & b0 & Hg & B0 & B & a0 & a1 & N0 & N1 & C).
  cbn [hold_sys vec_sys sys_RJ sys_init sys_norm] in *. injection N0 as <-. injection N1 as <-. exists (norm2 6 (fst b)), (norm2 6 (fst b0)). split; [split; [apply norm2_nonneg|exact C]|].
  unfold hold_RJ in B. rewrite Er in B. injection B as <-. cbn [fst]. rewrite Es, S1. split.
  - eapply Rle_trans; [|apply (comp_bound 6 _ 0%nat); lia]. cbv beta iota. apply Req_le. f_equal. unfold Rdiv. ring.
  - intros j Hj N. destruct (oset_all i j Hi Hj N) as (k & Hk & <-). apply (comp_bound 6 (fun k => match k with O => _ | S k => pr_s r (oset i k) - top (dv_stress d) (oset i k) end) (S k)). lia.
Qed.
