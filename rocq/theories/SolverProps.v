(** C04, C05, C51: the nonlinear solver. *)
From Verif Require Import Base.
From Verif Require Import Diff SolverModel SolverSpec SolverProofs.

(** C04: with at least one permitted iteration, the solver returns exactly when
    some Newton iterate before the limit has a residual norm that is a number
    below a tolerance; the returned point is that iterate and the returned
    residual and Jacobian are the ones evaluated there. *)
Theorem C04_newton_returns_iff_converged : forall X D V (s : nsys X D V) p x d,
  (1 <= miter p)%Z ->
  ((exists c, newton s p = Ok (x, d, c)) <->
   exists k d0, (Z.of_nat k < miter p)%Z /\ reached s p d0 k x d /\
     converged p (sys_norm s d) (sys_norm s d0)).
Proof. exact @newton_iff. Qed.
Print Assumptions C04_newton_returns_iff_converged.

Theorem C04_returned_residual_is_at_solution : forall X D V (s : nsys X D V) p d0 k x d,
  reached s p d0 k x d -> sys_RJ s x = Some d.
Proof. exact @reached_RJ. Qed.
Print Assumptions C04_returned_residual_is_at_solution.

(** 2x - 6 = 0 from x = 0 *)
Definition lin_sys : nsys R R R :=
  {| sys_init := 0; sys_RJ := fun x => Some (2 * x - 6); sys_norm := fun r => Some (Rabs r);
     sys_solve := fun r => Some (r / 2); sys_move := fun x a v => x - a * v |}.
Definition pars (m : Z) (ls : bool) : sparams :=
  {| rtol := / 1000; atol := / 1000; miter := m; linesearch := ls |}.

Lemma lin_not_conv m ls : ~ converged (pars m ls) (Some 6) (Some 6).
Proof.
  intros (r & E & [H|(r0 & E0 & _ & H)]); injection E as <-.
  - cbn in H. lra.
  - injection E0 as <-. cbn in H. replace (6 / 6) with 1 in H by field. lra.
Qed.

Example C04_example : reached lin_sys (pars 2 true) (-6) 1 3 0 /\
  converged (pars 2 true) (Some 0) (Some 6).
Proof.
  split.
  - apply (reached_S _ _ _ 0 0 (-6)).
    + replace (-6) with (2 * 0 - 6) by ring. exact (reached_0 lin_sys (pars 2 true) (2 * 0 - 6) eq_refl).
    + cbn [sys_norm lin_sys]. rewrite (Rabs_left (-6)) by lra. replace (- -6) with 6 by ring.
      apply lin_not_conv.
    + exists (-6 / 2). split; [reflexivity|]. cbn [linesearch pars]. exists 0%nat.
      split; [lia|]. split; [cbn; field|]. split; [cbn; f_equal; ring|]. split; [intros; lia|].
      left. exists (Rabs 0), (Rabs (-6)). split; [reflexivity|]. split; [reflexivity|].
      rewrite Rabs_R0, Rabs_left; lra.
  - exists 0. split; [reflexivity|]. left. cbn. lra.
Qed.

(** The claim without the restriction on miter is false: with miter = 0 the
    solver takes one step and returns normally although nothing converged. *)
Theorem C04_miter_zero_refuted : exists (s : nsys R R R) p x d c,
  miter p = 0%Z /\ newton s p = Ok (x, d, c) /\
  ~ (exists r, sys_norm s d = Some r /\ r < 1).
Proof.
  exists {| sys_init := 0; sys_RJ := fun _ => Some 5; sys_norm := fun r => Some (Rabs r);
            sys_solve := fun r => Some r; sys_move := fun x a v => x - a * v |}, (pars 0 false), (0 - 1 * 5), 5, 2%nat.
  split; [reflexivity|]. split.
  - unfold newton. cbn. unfold conv_test, flt, fdiv. cbn. rewrite (Rabs_pos_eq 5) by lra.
    destruct (Rlt_dec 5 (/ 1000)); [lra|]. destruct (Req_EM_T 5 0); [lra|].
    destruct (Rlt_dec (5 / 5) (/ 1000)) as [H|]; [|reflexivity].
    replace (5 / 5) with 1 in H by field. lra.
  - intros (r & E & H). cbn in E. injection E as <-. rewrite (Rabs_pos_eq 5) in H; lra.
Qed.
Print Assumptions C04_miter_zero_refuted.

(** And reaching the tolerance on the last permitted iteration is reported as a
    failure: one iteration solves the linear system exactly, yet a solver
    allowed one iteration throws. *)
Theorem C04_last_iteration_refuted : exists (s : nsys R R R) p x d d0,
  miter p = 1%Z /\ reached s p d0 1 x d /\ sys_norm s d = Some 0 /\ 0 < atol p /\
  newton s p = Throw NonlinearSolverError.
Proof.
  exists lin_sys, (pars 1 false), 3, 0, (-6).
  split; [reflexivity|]. split; [|split; [cbn; now rewrite Rabs_R0|split; [cbn; lra|]]].
  - apply (reached_S _ _ _ 0 0 (-6)).
    + replace (-6) with (2 * 0 - 6) by ring. exact (reached_0 lin_sys (pars 1 false) (2 * 0 - 6) eq_refl).
    + cbn [sys_norm lin_sys]. rewrite (Rabs_left (-6)) by lra. replace (- -6) with 6 by ring.
      apply lin_not_conv.
    + exists (-6 / 2). split; [reflexivity|]. cbn. split; [field|f_equal; ring].
  - unfold newton. cbn. replace (Rabs (2 * 0 - 6)) with 6 by (rewrite Rabs_left; lra).
    assert (H := proj2 (conv_false (pars 1 false) _ _) (lin_not_conv 1 false)). rewrite H. reflexivity.
Qed.
Print Assumptions C04_last_iteration_refuted.

(** C05: the solver always stops, and a successful solve costs at most
    1 + (miter-1) residual evaluations (ten times as many with line search). *)
Theorem C05_newton_terminates : forall X D V (s : nsys X D V) p, newton s p <> Throw OutOfFuel.
Proof. exact @newton_total. Qed.
Print Assumptions C05_newton_terminates.

Theorem C05_newton_bounded_work : forall X D V (s : nsys X D V) p x d c, (1 <= miter p)%Z ->
  newton s p = Ok (x, d, c) ->
  (Z.of_nat c <= 1 + (miter p - 1) * if linesearch p then 10 else 1)%Z.
Proof. exact @newton_work. Qed.
Print Assumptions C05_newton_bounded_work.

Example C05_example : newton lin_sys (pars 5 false) = Ok (0 - 1 * ((2 * 0 - 6) / 2),
    2 * (0 - 1 * ((2 * 0 - 6) / 2)) - 6, 2%nat).
Proof.
  unfold newton. cbn. replace (Rabs (2 * 0 - 6)) with 6 by (rewrite Rabs_left; lra).
  assert (H := proj2 (conv_false (pars 5 false) _ _) (lin_not_conv 5 false)). rewrite H. cbn.
  change (Pos.to_nat 5) with 5%nat. cbn.
  replace (Rabs (2 * (0 - 1 * ((2 * 0 - 6) / 2)) - 6)) with 0
    by (replace (2 * (0 - 1 * ((2 * 0 - 6) / 2)) - 6) with 0 by field; now rewrite Rabs_R0).
  unfold conv_test, flt. cbn. destruct (Rlt_dec 0 (/ 1000)); [reflexivity|lra].
Qed.

(** C51: the numerical Jacobian is exact for affine residuals, whatever the
    step, and converges to the Jacobian of every differentiable residual. *)
Theorem C51_diff_jac_affine : forall n (A : mat) (b : vec) eps x i j, 0 < eps -> (i < n)%nat ->
  diff_jac (fun x j => rsum n (fun k => A j k * x k) + b j) eps x j i = A j i.
Proof. exact diff_jac_affine. Qed.
Print Assumptions C51_diff_jac_affine.

Theorem C51_diff_jac_check_affine : forall n (A : mat) (b : vec) eps x, 0 < eps ->
  diff_jac_check n (fun x j => rsum n (fun k => A j k * x k) + b j) eps x A = 0.
Proof. exact diff_jac_check_affine. Qed.
Print Assumptions C51_diff_jac_check_affine.

Theorem C51_diff_jac_limit : forall m n (P : vec -> Prop) F J x i j, is_jac m n P F J -> P x ->
  (j < m)%nat -> (i < n)%nat ->
  forall err, 0 < err -> exists del, 0 < del /\
    forall eps, 0 < eps < del -> Rabs (diff_jac F eps x j i - J x j i) < err.
Proof. exact diff_jac_limit. Qed.
Print Assumptions C51_diff_jac_limit.

Example C51_example : is_jac 1 2 (fun _ => True) (fun x _ => x 0%nat * x 1%nat)
  (fun x _ j => match j with O => x 1%nat | _ => x 0%nat end).
Proof.
  intros c t v Hc _ i Hi. eapply D_eq. apply D_mult; apply Hc; lia. cbn. ring.
Qed.
