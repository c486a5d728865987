(** Stretches, rotations and concrete runs. *)
From Coq Require Import ZArith List Lra Lia FunctionalExtensionality.
From Verif Require Import Base NemlMathModel DgModel DgSpec DgProofs DgMore.
From Coq Require Import List.
Import ListNotations.
Open Scope R_scope.

(** ** Stretching along the axes *)
Lemma scaled_inc : forall l t0 t1 V, (forall i t, 0 < l i t) -> la_inv (scaled l t1) = Some V -> meq (inc (scaled l t0) (scaled l t1) V) (fun i j => if Nat.eqb i j then 1 - l i t0 / l i t1 else 0).
Proof.
  intros l t0 t1 V P H i j Hi Hj. unfold la_inv in H. destruct (Req_EM_T (det (scaled l t1)) 0) as [|N]; [discriminate|]. injection H as <-.
  pose proof (P 0%nat t1). pose proof (P 1%nat t1). pose proof (P 2%nat t1).
  nine i j Hi Hj; cbv [inc mm rsum scaled det nx Nat.eqb]; field; repeat split; lra.
Qed.
Lemma vlist_nth : forall l k, vlist l k = nth k l 0. Proof. reflexivity. Qed.
Lemma stretch_run : forall M l tmax n T r, (forall i t, 0 < l i t) -> def_grad_driver M (scaled l) tmax n T = Some r -> forall k, (k <= n)%nat ->
  (forall i, (i < 3)%nat -> D_at r k i = rsum k (fun m => 1 - l i (time_at r m) / l i (time_at r (S m)))) /\ (forall i, (3 <= i < 6)%nat -> D_at r k i = 0) /\ (forall i, (i < 3)%nat -> W_at r k i = 0).
Proof.
  intros M l tmax n T r P H. unfold def_grad_driver in H. destruct n as [|n]; [discriminate|]. apply loop_inv in H as (_ & _ & (_ & _ & S3 & S4 & _) & TM & D).
  induction k as [|k IH]; intro K.
  - rewrite S3, S4. repeat split; reflexivity.
  - destruct IH as (A & B & C); [lia|]. destruct (D k) as (_ & V & HV & HD & HW); [lia|]. destruct (TM k) as (T0 & F0); [lia|]. destruct (TM (S k)) as (T1 & F1); [lia|].
    rewrite <- T0 in F0. rewrite <- T1 in F1. rewrite F0, F1 in HD, HW. rewrite F1 in HV. pose proof (scaled_inc l (time_at r k) (time_at r (S k)) V P HV) as E.
    rewrite (py_sym_meq _ _ E) in HD. rewrite (py_skew_meq _ _ E) in HW. rewrite HD, HW. split; [|split].
    + intros i Hi. unfold vadd. rewrite A by exact Hi. cbn [rsum]. destruct i as [|[|[|i]]]; [| | |lia]; cbv [py_sym sy vlist nth Nat.eqb]; lra.
    + intros i Hi. unfold vadd. rewrite B by exact Hi. destruct i as [|[|[|[|[|[|i]]]]]]; try lia; cbv [py_sym sy vlist nth Nat.eqb]; ring.
    + intros i Hi. unfold vadd. rewrite C by exact Hi. destruct i as [|[|[|i]]]; try lia; cbv [py_skew sk vlist nth Nat.eqb]; ring.
Qed.
Lemma exp_second : forall y, exp y - 1 - y <= y * y * exp (Rabs y).
Proof.
  intro y. pose proof (exp_ineq1_le (- y)) as A. pose proof (exp_ineq1_le y) as B. assert (PE : 0 < exp y) by apply exp_pos. assert (M : exp y * exp (- y) = 1) by (rewrite <- exp_plus, Rplus_opp_r; apply exp_0).
  assert (C : exp y - 1 <= y * exp y) by nra. destruct (Rle_dec 0 y) as [Y|Y].
  - rewrite Rabs_pos_eq by exact Y. nra.
  - rewrite Rabs_left by lra. assert (1 <= exp (- y)) by lra. assert (y * (exp y - 1) <= y * y) by nra. assert (0 <= y * y) by nra. nra.
Qed.
Lemma log_step : forall a b d, 0 < a -> 0 < b -> Rabs (ln b - ln a) <= d -> 0 <= (ln b - ln a) - (1 - a / b) <= d * d * exp d.
Proof.
  intros a b d A B H. set (x := ln b - ln a) in *. assert (E : a / b = exp (- x)). { unfold x. rewrite <- (exp_ln a A) at 1. rewrite <- (exp_ln b B) at 1. unfold Rdiv. rewrite <- exp_Ropp, <- exp_plus. f_equal. lra. }
  rewrite E. pose proof (exp_ineq1_le (- x)). pose proof (exp_second (- x)) as S. rewrite Rabs_Ropp in S. split; [lra|]. apply Rle_trans with ((- x) * (- x) * exp (Rabs x)); [lra|].
  assert (0 <= Rabs x) by apply Rabs_pos. assert (Q : (- x) * (- x) = Rabs x * Rabs x) by (rewrite <- Rabs_mult, Rabs_pos_eq; nra). rewrite Q.
  assert (exp (Rabs x) <= exp d) by (destruct H as [H|H]; [left; now apply exp_increasing|rewrite H; apply Rle_refl]). assert (0 < exp (Rabs x)) by apply exp_pos. assert (0 <= d) by lra.
  apply Rmult_le_compat; nra.
Qed.
(** the recorded strain is at most the logarithmic strain, and tends to it *)
Lemma stretch_log : forall M l tmax n T r, (forall i t, 0 < l i t) -> def_grad_driver M (scaled l) tmax n T = Some r -> forall k i, (k <= n)%nat -> (i < 3)%nat ->
  D_at r k i <= ln (l i (time_at r k)) - ln (l i 0) /\
  forall K, 0 <= tmax -> (forall s t, Rabs (ln (l i t) - ln (l i s)) <= K * Rabs (t - s)) -> ln (l i (time_at r k)) - ln (l i 0) - D_at r k i <= (K * tmax) * (K * tmax) / INR n * exp (K * tmax / INR n).
Proof.
  intros M l tmax n T r P H. pose proof (run_spec _ _ _ _ _ _ H) as (_ & TM & _ & _). intros k i K Hi.
  assert (N : (0 < n)%nat) by (destruct n; [discriminate|lia]). assert (NR : 0 < INR n) by now apply lt_0_INR.
  destruct (stretch_run _ _ _ _ _ _ P H k K) as (A & _ & _). rewrite A by exact Hi. clear A.
  assert (T0 : time_at r 0 = 0) by (rewrite (proj1 (TM 0%nat ltac:(lia))); cbn; unfold Rdiv; ring).
  assert (G : forall m d, (m <= n)%nat -> (forall j, (j < m)%nat -> Rabs (ln (l i (time_at r (S j))) - ln (l i (time_at r j))) <= d) ->
    0 <= ln (l i (time_at r m)) - ln (l i 0) - rsum m (fun j => 1 - l i (time_at r j) / l i (time_at r (S j))) <= INR m * (d * d * exp d)).
  { induction m as [|m IH]; intros d L B; [cbn [rsum]; rewrite T0; cbn; lra|]. destruct (IH d) as (IH1 & IH2); [lia|intros; apply B; lia|].
    pose proof (log_step _ _ d (P i (time_at r m)) (P i (time_at r (S m))) (B m (Nat.lt_succ_diag_r m))) as (S1 & S2). cbn [rsum]. rewrite S_INR. lra. }
  assert (G0 : forall m, (m <= n)%nat -> 0 <= ln (l i (time_at r m)) - ln (l i 0) - rsum m (fun j => 1 - l i (time_at r j) / l i (time_at r (S j)))).
  { induction m as [|m IH]; intros L; [cbn [rsum]; rewrite T0; lra|]. specialize (IH ltac:(lia)).
    pose proof (log_step _ _ _ (P i (time_at r m)) (P i (time_at r (S m))) (Rle_refl _)) as (S1 & S2). cbn [rsum]. lra. }
  split; [specialize (G0 k K); lra|]. intros KK TP LIP. destruct (G k (KK * tmax / INR n) K) as (_ & U).
  { intros j Hj. eapply Rle_trans; [apply LIP|]. rewrite (proj1 (TM (S j) ltac:(lia))), (proj1 (TM j ltac:(lia))), S_INR. right.
    replace ((INR j + 1) * tmax / INR n - INR j * tmax / INR n) with (tmax / INR n) by (field; lra). rewrite Rabs_pos_eq; [field; lra|]. apply Rmult_le_pos; [exact TP|left; now apply Rinv_0_lt_compat]. }
  eapply Rle_trans; [exact U|]. assert (KN : INR k <= INR n) by now apply le_INR. set (d := KK * tmax / INR n) in *. assert (0 < exp d) by apply exp_pos.
  replace (KK * tmax * (KK * tmax) / INR n) with (INR n * (d * d)) by (unfold d; field; lra). assert (0 <= d * d) by nra. assert (0 <= d * d * exp d) by nra. nra.
Qed.
(** ** A rotation about z *)
Lemma rotation_inc : forall a d V, la_inv (rotation_z (a + d)) = Some V -> meq (inc (rotation_z a) (rotation_z (a + d)) V) (fun i j => delta i j - rotation_z (- d) i j).
Proof.
  intros a d V H.
  assert (W : meq (fun i j => rotation_z (a + d) j i) V).
  { apply (inverse_unique _ _ _ H). pose proof (sin2_cos2 (a + d)) as SC. unfold Rsqr in SC. intros i j Hi Hj. nine i j Hi Hj; cbv [mm rsum rotation_z delta Nat.eqb]; nra. }
  intros i j Hi Hj. unfold inc. cbv [mm rsum]. rewrite <- !W by lia. pose proof (sin2_cos2 (a + d)) as SC. unfold Rsqr in SC.
  assert (CD : cos (- d) = cos a * cos (a + d) + sin a * sin (a + d)) by (replace (- d) with (a - (a + d)) by ring; apply cos_minus).
  assert (SD : sin (- d) = sin a * cos (a + d) - cos a * sin (a + d)) by (replace (- d) with (a - (a + d)) by ring; apply sin_minus).
  nine i j Hi Hj; cbv [rotation_z delta Nat.eqb]; rewrite ?CD, ?SD; nra.
Qed.
Lemma rotation_run : forall M w tmax n T r, def_grad_driver M (fun t => rotation_z (w * t)) tmax n T = Some r -> forall k, (k <= n)%nat ->
  D_at r k 0%nat = INR k * (1 - cos (w * tmax / INR n)) /\ D_at r k 1%nat = INR k * (1 - cos (w * tmax / INR n)) /\ (forall i, (2 <= i < 6)%nat -> D_at r k i = 0)
  /\ W_at r k 0%nat = 0 /\ W_at r k 1%nat = 0 /\ W_at r k 2%nat = INR k * sin (w * tmax / INR n).
Proof.
  intros M w tmax n T r H. unfold def_grad_driver in H. destruct n as [|n]; [discriminate|]. apply loop_inv in H as (_ & _ & (_ & _ & S3 & S4 & _) & TM & D).
  replace (w * tmax / INR (S n)) with (w * (tmax / INR (S n))) by (unfold Rdiv; ring). set (dt := tmax / INR (S n)) in *. clearbody dt. set (d := w * dt).
  induction k as [|k IH]; intro K.
  - rewrite S3, S4. cbn [INR]. unfold vzero. repeat split; try reflexivity; ring.
  - destruct IH as (A1 & A2 & A3 & A4 & A5 & A6); [lia|]. destruct (D k) as (_ & V & HV & HD & HW); [lia|]. destruct (TM k) as (T0 & F0); [lia|]. destruct (TM (S k)) as (T1 & F1); [lia|].
    cbv beta in F0, F1. replace (w * (INR (S k) * dt)) with (w * (INR k * dt) + d) in F1 by (unfold d; rewrite S_INR; ring). rewrite F0, F1 in HD, HW. rewrite F1 in HV.
    pose proof (rotation_inc _ _ V HV) as E. rewrite (py_sym_meq _ _ E) in HD. rewrite (py_skew_meq _ _ E) in HW. rewrite HD, HW. unfold vadd.
    assert (CN : cos (- d) = cos d) by apply cos_neg. assert (SN : sin (- d) = - sin d) by apply sin_neg.
    rewrite A1, A2, A4, A5, A6, S_INR. split; [|split; [|split; [|split; [|split]]]].
    + cbv [py_sym sy vlist nth delta rotation_z Nat.eqb]. rewrite CN. lra.
    + cbv [py_sym sy vlist nth delta rotation_z Nat.eqb]. rewrite CN. lra.
    + intros i Hi. rewrite A3 by exact Hi. destruct i as [|[|[|[|[|[|i]]]]]]; try lia; cbv [py_sym sy vlist nth delta rotation_z Nat.eqb]; rewrite ?SN; lra.
    + cbv [py_skew sk vlist nth delta rotation_z Nat.eqb]. lra.
    + cbv [py_skew sk vlist nth delta rotation_z Nat.eqb]. lra.
    + cbv [py_skew sk vlist nth delta rotation_z Nat.eqb]. rewrite SN. lra.
Qed.
Lemma sin_abs : forall x, Rabs (sin x) <= Rabs x.
Proof.
  assert (P : forall x, 0 <= x -> Rabs (sin x) <= x).
  { intros x [H|<-]; [|rewrite sin_0, Rabs_R0; lra]. apply Rabs_le. destruct (Rle_dec 1 x) as [L|L]; [pose proof (SIN_bound x); lra|]. split; [|left; now apply sin_lt_x].
    assert (0 < sin x) by (apply sin_gt_0; [exact H|]; pose proof PI2_1; pose proof PI_RGT_0; lra). lra. }
  intro x. destruct (Rle_dec 0 x) as [H|H]; [rewrite (Rabs_pos_eq x H); now apply P|]. rewrite <- (Rabs_Ropp x), (Rabs_pos_eq (- x)) by lra. rewrite <- (Rabs_Ropp (sin x)), <- sin_neg. apply P. lra.
Qed.
Lemma cos_bound2 : forall x, 0 <= 1 - cos x <= x * x / 2.
Proof.
  intro x. replace (cos x) with (cos (2 * (x / 2))) by (f_equal; lra). rewrite cos_2a_sin. pose proof (sin_abs (x / 2)) as S. split; [nra|].
  assert (Q : sin (x / 2) * sin (x / 2) <= x / 2 * (x / 2)). { rewrite <- (Rabs_pos_eq (sin (x / 2) * sin (x / 2))) by nra. rewrite <- (Rabs_pos_eq (x / 2 * (x / 2))) by nra. rewrite !Rabs_mult. pose proof (Rabs_pos (sin (x / 2))). apply Rmult_le_compat; assumption. }
  lra.
Qed.
(** the strain of a body that only turns is not zero, but tends to zero with smaller steps *)
Lemma rotation_strain : forall M w tmax n T r, def_grad_driver M (fun t => rotation_z (w * t)) tmax n T = Some r -> forall k i, (k <= n)%nat -> (i < 6)%nat -> 0 <= D_at r k i <= (w * tmax) * (w * tmax) / (2 * INR n).
Proof.
  intros M w tmax n T r H k i K Hi. destruct (rotation_run _ _ _ _ _ _ H k K) as (A1 & A2 & A3 & _). assert (N : (0 < n)%nat) by (destruct n; [discriminate|lia]). assert (NR : 0 < INR n) by now apply lt_0_INR.
  set (d := w * tmax / INR n) in *. destruct (cos_bound2 d) as (C1 & C2). assert (KN : INR k <= INR n) by now apply le_INR. pose proof (pos_INR k).
  replace (w * tmax * (w * tmax) / (2 * INR n)) with (INR n * (d * d / 2)) by (unfold d; field; lra). assert (0 <= d * d / 2) by nra.
  assert (G : 0 <= INR k * (1 - cos d) <= INR n * (d * d / 2)) by (split; nra).
  destruct i as [|[|i]]; [rewrite A1; exact G|rewrite A2; exact G|]. rewrite A3 by lia. split; [lra|nra].
Qed.
(** an elastic model on the recorded strains *)
Definition dull : ldmodel := {| lm_store := vzero; lm_update := fun d _ w _ _ _ _ _ _ h _ _ => Some (vscal 100 d, h, 0, 0) |}.
Lemma dull_total : forall a b c d e f g h i j k l, lm_update dull a b c d e f g h i j k l <> None. Proof. discriminate. Qed.
Lemma rotation_det : forall a, det (rotation_z a) = 1.
Proof. intro a. pose proof (sin2_cos2 a) as S. unfold Rsqr in S. unfold det. cbv [rotation_z]. nra. Qed.
Lemma rotation_refuted : ~ (forall M w tmax n T r, def_grad_driver M (fun t => rotation_z (w * t)) tmax n T = Some r -> forall k i, (k <= n)%nat -> (i < 6)%nat -> D_at r k i = 0).
Proof.
  intro H. destruct (run_total dull (fun t => rotation_z (PI * t)) 1 2 300) as (r & R); [lia|exact dull_total|intros; rewrite rotation_det; lra|].
  specialize (H dull PI 1 2%nat 300 r R 2%nat 0%nat). destruct (rotation_run _ _ _ _ _ _ R 2%nat ltac:(lia)) as (A & _). rewrite A in H by lia. cbn [INR] in H.
  replace (PI * 1 / (1 + 1)) with (PI / 2) in H by lra. rewrite cos_PI2 in H. specialize (H ltac:(lia) ltac:(lia)). lra.
Qed.
Definition pull : nat -> R -> R := fun i t => if Nat.eqb i 0 then exp t else 1.
Lemma pull_case : (forall i t, 0 < pull i t) /\ (forall i s t, Rabs (ln (pull i t) - ln (pull i s)) <= 1 * Rabs (t - s)) /\ exists r, def_grad_driver dull (scaled pull) 1 10 300 = Some r /\ D_at r 10 0%nat <= 1 /\ 1 - D_at r 10 0%nat <= exp (/ 10) / 10.
Proof.
  assert (P : forall i t, 0 < pull i t) by (intros i t; unfold pull; destruct (Nat.eqb i 0); [apply exp_pos|lra]).
  assert (L : forall i s t, Rabs (ln (pull i t) - ln (pull i s)) <= 1 * Rabs (t - s)).
  { intros i s t. unfold pull. destruct (Nat.eqb i 0); [rewrite !ln_exp; lra|]. replace (ln 1 - ln 1) with 0 by ring. rewrite Rabs_R0. pose proof (Rabs_pos (t - s)). lra. }
  split; [exact P|]. split; [exact L|].
  destruct (run_total dull (scaled pull) 1 10 300) as (r & R); [lia|exact dull_total| |].
  { intros k K. unfold det. cbv [scaled Nat.eqb pull]. pose proof (exp_pos (INR k * (1 / INR 10))). nra. }
  exists r. split; [exact R|]. destruct (stretch_log _ _ _ _ _ _ P R 10%nat 0%nat ltac:(lia) ltac:(lia)) as (A & B). specialize (B 1 ltac:(lra) (L 0%nat)).
  pose proof (run_spec _ _ _ _ _ _ R) as (_ & TM & _). destruct (TM 10%nat ltac:(lia)) as (T1 & _). assert (I10 : INR 10 = 10) by (cbn; lra). rewrite I10 in T1, B. rewrite T1 in A, B.
  unfold pull in A, B. cbn [Nat.eqb] in A, B. rewrite !ln_exp in A, B. replace (1 * 1 / 10) with (/ 10) in B by lra. split; lra.
Qed.
Lemma start_undeformed : forall M F V tmax n T, la_inv (F 0) = Some V ->
  (forall i j, (i < 3)%nat -> (j < 3)%nat -> rsum 3 (fun l => F 0 i l * V l j) = delta i j) /\
  match def_grad_driver M F tmax n T, def_grad_driver M (fun t i j => rsum 3 (fun l => F t i l * V l j)) tmax n T with
  | None, None => True
  | Some x, Some y => dg_t x = dg_t y /\ dg_s x = dg_s y /\ dg_D x = dg_D y /\ dg_W x = dg_W y /\ dg_h x = dg_h y /\ dg_u x = dg_u y /\ dg_p x = dg_p y
  | _, _ => False end.
Proof.
  intros M F V tmax n T H. split; [intros i j Hi Hj; exact (inv_right _ _ H i j Hi Hj)|]. apply run_reference. intro Z.
  pose proof (det_mm (F 0) V) as D. rewrite (det_meq _ _ (inv_r _ _ H)), det_delta, Z in D. lra.
Qed.
Lemma reference_case : exists x y, def_grad_driver dull (scaled pull) 1 10 300 = Some x /\ def_grad_driver dull (fun t i j => rsum 3 (fun l => scaled pull t i l * rotation_z 1 l j)) 1 10 300 = Some y /\ dg_s x = dg_s y /\ dg_D y <> [].
Proof.
  destruct pull_case as (_ & _ & x & HX & _). pose proof (run_reference dull (scaled pull) (rotation_z 1) 1 10 300) as H. rewrite HX in H.
  specialize (H ltac:(rewrite rotation_det; lra)). destruct (def_grad_driver dull (fun t i j => rsum 3 (fun l => scaled pull t i l * rotation_z 1 l j)) 1 10 300) as [y|] eqn:HY; [|destruct H].
  exists x, y. split; [exact HX|]. split; [reflexivity|]. split; [tauto|]. apply run_spec in HY as ((_ & _ & _ & L & _) & _). intro E. rewrite E in L. discriminate.
Qed.
Lemma observer_case : (forall i j, (i < 3)%nat -> (j < 3)%nat -> rsum 3 (fun k => rotation_z 1 i k * rotation_z 1 j k) = delta i j)
  /\ exists r', def_grad_driver dull (fun t i j => rsum 3 (fun l => rotation_z 1 i l * scaled pull t l j)) 1 10 300 = Some r'.
Proof.
  split.
  - pose proof (sin2_cos2 1) as SC. unfold Rsqr in SC. intros i j Hi Hj. nine i j Hi Hj; cbv [rsum rotation_z delta Nat.eqb]; nra.
  - apply run_total; [lia|exact dull_total|]. intros k K. change (det (mm 3 (rotation_z 1) (scaled pull (INR k * (1 / INR 10)))) <> 0). rewrite det_mm, rotation_det.
    unfold det. cbv [scaled Nat.eqb pull]. pose proof (exp_pos (INR k * (1 / INR 10))). nra.
Qed.
