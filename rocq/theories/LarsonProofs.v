From Verif Require Import Base.
From Verif Require Import Diff.
From Verif Require Import NemlMathModel NemlMathSpec NemlMathProofs SolverModel SolverSpec SolverProofs SubstepModel SurfModel SurfSpec SurfProofs HardProofs RiProofs.
From Verif Require Import PlastModel PlastSpec PlastProofs ViscoProofs YaguchiProofs CreepModel CreepSpec CreepProofs J2CreepProofs CreepPlastProofs CreepEx DamageModel DamageSpec DamageProofs PrincipalProofs.

Lemma pow10_log s : 0 < s -> cpow 10 (log10 s) = s.
Proof. intros H. rewrite cpow_pos by lra. unfold Rpower, log10. pose proof ln10_pos. replace (ln s / ln 10 * ln 10) with (ln s) by (field; lra). apply exp_ln, H. Qed.
Lemma log_pow10 y : log10 (cpow 10 y) = y.
Proof. rewrite cpow_pos by lra. unfold Rpower, log10. rewrite ln_exp. pose proof ln10_pos. field. lra. Qed.
Lemma pow10_pos y : 0 < cpow 10 y. Proof. apply cpow_gt0. lra. Qed.
Lemma pow10_plus x y : cpow 10 (x + y) = cpow 10 x * cpow 10 y.
Proof. rewrite !cpow_pos by lra. apply Rpower_plus. Qed.
Lemma pow10_lt x y : x < y -> cpow 10 x < cpow 10 y.
Proof. intros H. rewrite !cpow_pos by lra. apply Rpower_lt; lra. Qed.
Lemma lm_solved lsolve prm f f' s x : (1 <= miter prm)%Z -> lm_solve lsolve prm f f' s = Some x ->
  exists r r0, within_tolerance prm 1 (fun _ => r) r0 /\ log10 s - f x = r.
Proof.
  intros Hm H. unfold lm_solve in H. destruct (newton _ prm) as [[[y [r J]] c]|] eqn:N; [|discriminate]. injection H as <-.
  destruct (newton_sound _ _ _ _ _ _ _ _ _ Hm N) as (E & r0 & J0 & E0 & W). unfold lm_RJ in E. injection E as E _.
  exists (log10 s - f (y 0%nat)), r0. split; [|reflexivity]. rewrite E. exact W.
Qed.
Lemma lm_roundtrip lsolve prm f f' C s T t : (1 <= miter prm)%Z -> 0 < s -> T <> 0 -> lm_tR lsolve prm f f' C s T = Some t ->
  0 < t /\ exists r r0, within_tolerance prm 1 (fun _ => r) r0 /\ lm_sR f C t T = s * cpow 10 (- r).
Proof.
  intros Hm Hs HT H. unfold lm_tR in H. destruct (lm_solve lsolve prm f f' s) as [x|] eqn:E; [|discriminate]. injection H as <-. split; [apply pow10_pos|].
  destruct (lm_solved _ _ _ _ _ _ Hm E) as (r & r0 & W & Er). exists r, r0. split; [exact W|]. unfold lm_sR. rewrite log_pow10.
  replace (T * (C + (x / T - C))) with x by (field; exact HT). replace (f x) with (log10 s + - r) by lra. rewrite pow10_plus, pow10_log by exact Hs. reflexivity.
Qed.
(** the log residual is at most the absolute tolerance, or the relative one times the initial residual *)
Lemma norm1 a : norm2 1 (fun _ => a) = Rabs a.
Proof. unfold norm2, dot. cbn [rsum]. rewrite Rplus_0_l. replace (a * a) with (Rsqr a) by reflexivity. apply sqrt_Rsqr_abs. Qed.
(** exact solutions *)
Lemma lm_exact_inverse f C s T x : 0 < s -> T <> 0 -> f x = log10 s -> lm_sR f C (cpow 10 (x / T - C)) T = s.
Proof. intros Hs HT E. unfold lm_sR. rewrite log_pow10. replace (T * (C + (x / T - C))) with x by (field; exact HT). rewrite E. apply pow10_log, Hs. Qed.
Lemma lm_exact_inverse2 f C t T x : 0 < t -> T <> 0 -> (forall a b, f a = f b -> a = b) -> f x = log10 (lm_sR f C t T) -> cpow 10 (x / T - C) = t.
Proof.
  intros Ht HT Hf E. unfold lm_sR in E. rewrite log_pow10 in E. apply Hf in E. subst x. replace (T * (C + log10 t) / T - C) with (log10 t) by (field; exact HT). apply pow10_log, Ht.
Qed.
Lemma log10_lt a b : 0 < a -> a < b -> log10 a < log10 b.
Proof. intros H L. unfold log10. apply Rmult_lt_compat_r; [apply Rinv_0_lt_compat, ln10_pos|]. apply ln_increasing; assumption. Qed.
Lemma lm_life_decreasing f C s1 s2 T x1 x2 : 0 < s1 -> s1 < s2 -> 0 < T -> (forall a b, a < b -> f b < f a) -> f x1 = log10 s1 -> f x2 = log10 s2 ->
  cpow 10 (x2 / T - C) < cpow 10 (x1 / T - C).
Proof.
  intros H1 H2 HT Hf E1 E2. apply pow10_lt. pose proof (log10_lt _ _ H1 H2) as L.
  assert (x2 < x1). { destruct (Rtotal_order x2 x1) as [G|[G|G]]; [exact G|subst; lra|]. specialize (Hf _ _ G). lra. }
  assert (x2 / T < x1 / T) by (apply Rmult_lt_compat_r; [apply Rinv_0_lt_compat, HT|assumption]). lra.
Qed.
Lemma lm_stress_decreasing f C t1 t2 T : 0 < t1 -> t1 < t2 -> 0 < T -> (forall a b, a < b -> f b < f a) -> lm_sR f C t2 T < lm_sR f C t1 T.
Proof.
  intros H1 H2 HT Hf. unfold lm_sR. apply pow10_lt, Hf. pose proof (log10_lt _ _ H1 H2). apply Rmult_lt_compat_l; lra.
Qed.

(** a continuous branch of solutions of f(x(t)) = g(t) is differentiable where f' <> 0 *)
Lemma branch_derive (f x g : R -> R) (u a b : R) : continuous x u -> is_derive f (x u) a -> a <> 0 -> is_derive g u b ->
  locally u (fun t => f (x t) = g t) -> is_derive x u (b / a).
Proof.
  intros Cx Df Ha Dg L. pose proof (locally_singleton _ _ L) as Lu. cbv beta in Lu.
  assert (Pa : 0 < Rabs a) by (apply Rabs_pos_lt, Ha).
  assert (FB : forall e, 0 < e -> locally (x u) (fun y => Rabs (f y - f (x u) - a * (y - x u)) <= e * Rabs (y - x u))).
  { intros e He. apply is_derive_Reals in Df. destruct (Df e He) as (d & Hd). exists d. intros y Hy.
    unfold ball in Hy; cbn in Hy. unfold AbsRing_ball, abs, minus, plus, opp in Hy; cbn in Hy. change (Rabs (y - x u) < d) in Hy.
    destruct (Req_dec y (x u)) as [->|N]; [replace (f (x u) - f (x u) - a * (x u - x u)) with 0 by ring; rewrite Rminus_eq_0, Rabs_R0; lra|].
    specialize (Hd (y - x u) ltac:(lra) Hy). replace (x u + (y - x u)) with y in Hd by lra.
    replace (f y - f (x u) - a * (y - x u)) with (((f y - f (x u)) / (y - x u) - a) * (y - x u)) by (field; lra). rewrite Rabs_mult. apply Rmult_le_compat_r; [apply Rabs_pos|lra]. }
  assert (GB : forall e, 0 < e -> locally u (fun t => Rabs (g t - g u - b * (t - u)) <= e * Rabs (t - u))).
  { intros e He. apply is_derive_Reals in Dg. destruct (Dg e He) as (d & Hd). exists d. intros y Hy.
    unfold ball in Hy; cbn in Hy. unfold AbsRing_ball, abs, minus, plus, opp in Hy; cbn in Hy. change (Rabs (y - u) < d) in Hy.
    destruct (Req_dec y u) as [->|N]; [replace (g u - g u - b * (u - u)) with 0 by ring; rewrite Rminus_eq_0, Rabs_R0; lra|].
    specialize (Hd (y - u) ltac:(lra) Hy). replace (u + (y - u)) with y in Hd by lra.
    replace (g y - g u - b * (y - u)) with (((g y - g u) / (y - u) - b) * (y - u)) by (field; lra). rewrite Rabs_mult. apply Rmult_le_compat_r; [apply Rabs_pos|lra]. }
  apply is_derive_Reals. intros e He.
  set (Lg := Rabs b + 1). assert (HLg : 0 < Lg) by (unfold Lg; pose proof (Rabs_pos b); lra).
  set (Lx := 2 * Lg / Rabs a). assert (HLx : 0 < Lx) by (unfold Lx; apply Rdiv_lt_0_compat; lra).
  set (e1 := Rmin (Rabs a / 2) (e * Rabs a / (4 * Lx))).
  assert (He1 : 0 < e1). { unfold e1. apply Rmin_pos; [lra|]. apply Rdiv_lt_0_compat; [apply Rmult_lt_0_compat; assumption|lra]. }
  assert (He2 : 0 < e * Rabs a / 4) by (assert (0 < e * Rabs a) by (apply Rmult_lt_0_compat; assumption); lra).
  pose proof (Cx _ (FB e1 He1)) as LF. pose proof (GB _ He2) as LG. pose proof (derive_lip g u b Dg) as LL.
  unfold filtermap in LF. pose proof (filter_and _ _ L (filter_and _ _ LF (filter_and _ _ LG LL))) as LA. destruct LA as (d & HA).
  exists d. intros t Ht Hlt. specialize (HA (u + t)).
  assert (Bt : ball u d (u + t)). { unfold ball; cbn. unfold AbsRing_ball, abs, minus, plus, opp; cbn. replace (u + t + - u) with t by ring. exact Hlt. }
  destruct (HA Bt) as (A1 & A2 & A3 & A4). clear HA. replace (u + t - u) with t in A3, A4 by ring. rewrite A1, Lu in A2.
  set (dx := x (u + t) - x u) in *. set (dg := g (u + t) - g u) in *.
  assert (Pt : 0 < Rabs t) by (apply Rabs_pos_lt, Ht).
  assert (X1 : Rabs dx <= Lx * Rabs t).
  { assert (e1 <= Rabs a / 2) by apply Rmin_l. pose proof (Rabs_pos dx).
    assert (Rabs (a * dx) <= Rabs (dg - a * dx) + Rabs dg). { replace (a * dx) with (- (dg - a * dx) + dg) at 1 by ring. eapply Rle_trans; [apply Rabs_triang|]. rewrite Rabs_Ropp. lra. }
    rewrite Rabs_mult in H1. assert (Rabs a * Rabs dx <= Rabs a / 2 * Rabs dx + Lg * Rabs t) by (unfold Lg in *; nra).
    assert (Rabs a * Rabs dx <= 2 * Lg * Rabs t) by lra. unfold Lx. apply (Rmult_le_reg_l (Rabs a)); [exact Pa|]. replace (Rabs a * (2 * Lg / Rabs a * Rabs t)) with (2 * Lg * Rabs t) by (field; lra). lra. }
  replace (dx / t - b / a) with ((a * dx - b * t) / (a * t)) by (field; split; assumption). unfold Rdiv. rewrite Rabs_mult, Rabs_inv, Rabs_mult.
  apply (Rmult_lt_reg_r (Rabs a * Rabs t)); [apply Rmult_lt_0_compat; assumption|]. rewrite Rmult_assoc, Rinv_l, Rmult_1_r by (apply Rgt_not_eq; apply Rmult_lt_0_compat; assumption).
  apply Rle_lt_trans with (Rabs (dg - a * dx) + Rabs (dg - b * t)).
  - replace (a * dx - b * t) with (- (dg - a * dx) + (dg - b * t)) by ring. eapply Rle_trans; [apply Rabs_triang|]. rewrite Rabs_Ropp. lra.
  - assert (e1 * Rabs dx <= e * Rabs a / 4 * Rabs t).
    { apply Rle_trans with (e * Rabs a / (4 * Lx) * (Lx * Rabs t)); [apply Rmult_le_compat; [lra|apply Rabs_pos|apply Rmin_r|exact X1]|]. right. field. lra. }
    assert (0 < e * (Rabs a * Rabs t)) by (apply Rmult_lt_0_compat; [exact He|apply Rmult_lt_0_compat; assumption]). nra.
Qed.
Lemma lm_rate_exact f f' C T (x : R -> R) s : (forall y, is_derive f y (f' y)) -> 0 < s -> T <> 0 -> f' (x s) <> 0 ->
  continuous x s -> locally s (fun q => f (x q) = log10 q) ->
  is_derive (fun q => cpow 10 (x q / T - C)) s (cpow 10 (x s / T - C) / (T * s * f' (x s))).
Proof.
  intros Hf Hs HT Hf0 Cx L.
  assert (Dg : is_derive log10 s (/ (s * ln 10))).
  { eapply D_eq; [apply (D_log10 (fun q => q)); [apply D_id|exact Hs]|cbv beta]. pose proof ln10_pos. field. split; lra. }
  pose proof (branch_derive f x log10 s (f' (x s)) _ Cx (Hf _) Hf0 Dg L) as Dx. pose proof ln10_pos as P.
  eapply D_eq; [apply D_pow10; apply D_minus; [apply D_div; [exact Dx|apply D_const|exact HT]|apply D_const]|cbv beta]. field. repeat split; lra || assumption.
Qed.
