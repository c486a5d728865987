(** Properties C21, C22, C23: hardening rules. *)
From Verif Require Import Base.
From Verif Require Import Diff.
From Verif Require Import NemlMathModel NemlMathSpec InterpModel InterpSpec.
From Verif Require Import SurfModel SurfSpec HardModel HardSpec HardProofs.

(** *** C21: associative rules *)
Theorem C21_linear : forall s0 K, hard_exact (fun _ _ => True) (LinearIso s0 K).
Proof. exact linear_exact. Qed.
Print Assumptions C21_linear.

Theorem C21_interpolated : forall flow, hard_exact (fun _ a => smooth flow (a 0%nat)) (InterpolatedIso flow).
Proof. exact interpolated_exact. Qed.
Print Assumptions C21_interpolated.

Theorem C21_voce : forall s0 Rv d, hard_exact (fun _ _ => True) (VoceIso s0 Rv d).
Proof. exact voce_exact. Qed.
Print Assumptions C21_voce.

Theorem C21_power_law : forall s0 A n, hard_exact (fun _ a => 0 < a 0%nat) (PowerLawIso s0 A n).
Proof. exact powerlaw_exact. Qed.
Print Assumptions C21_power_law.

(** At zero plastic strain the power law reports a slope of -1e15 whatever the exponent; with
    exponent 2 the curve is flat there. *)
Theorem C21_power_law_at_zero_refuted :
  ~ hard_exact (fun _ a => 0 <= a 0%nat) (PowerLawIso (fun _ => 0) (fun _ => 1) (fun _ => 2)).
Proof. exact powerlaw_zero_refuted. Qed.
Print Assumptions C21_power_law_at_zero_refuted.

Theorem C21_combined_isotropic : forall rules P,
  List.Forall (fun r => hr_n r = 1%nat /\ hard_exact P r) rules -> hard_exact P (CombinedIso rules).
Proof. exact combined_iso_exact. Qed.
Print Assumptions C21_combined_isotropic.

Theorem C21_linear_kinematic : forall H, hard_exact (fun _ _ => True) (LinearKin H).
Proof. exact linkin_exact. Qed.
Print Assumptions C21_linear_kinematic.

Theorem C21_combined : forall iso kin P Q, hard_exact P iso -> hard_exact Q kin ->
  hard_exact (fun T a => P T a /\ Q T (fun i => a (hr_n iso + i)%nat)) (CombinedHard iso kin).
Proof. exact combined_exact. Qed.
Print Assumptions C21_combined.

(** a Voce + linear isotropic rule combined with linear kinematic hardening *)
Example C21_case : hard_exact (fun _ _ => True /\ True)
  (CombinedHard (CombinedIso [VoceIso (fun _ => 10) (fun _ => 20) (fun _ => 3); LinearIso (fun _ => 1) (fun T => T)]) (LinearKin (fun _ => 5))).
Proof.
  apply (combined_exact _ _ (fun _ _ => True) (fun _ _ => True)).
  - apply combined_iso_exact. constructor; [split; [reflexivity|apply voce_exact]|]. constructor; [split; [reflexivity|apply linear_exact]|constructor].
  - apply linkin_exact.
Qed.

(** *** C22: Chaboche *)
Theorem C22_gamma_models : forall g gs g0 beta, gamma_exact (ConstantGamma g) /\ gamma_exact (SatGamma gs g0 beta).
Proof. intros. split. apply const_gamma_exact. apply sat_gamma_exact. Qed.
Print Assumptions C22_gamma_models.

Theorem C22_chaboche_q : forall iso p P, hr_n iso = 1%nat -> hard_exact P iso -> na_q_exact P (Chaboche iso p).
Proof. exact chaboche_q. Qed.
Print Assumptions C22_chaboche_q.

Theorem C22_chaboche_h : forall iso p, (forall i, gamma_exact (ch_g p i)) -> na_h_exact (ch_domain (ch_nb p)) (Chaboche iso p).
Proof. exact chaboche_h. Qed.
Print Assumptions C22_chaboche_h.

Theorem C22_chaboche_time : forall iso p, na_time_exact (ch_time_domain p) (Chaboche iso p).
Proof. exact chaboche_time. Qed.
Print Assumptions C22_chaboche_time.

Theorem C22_chaboche_temp : forall iso p, na_temp_exact (fun _ _ _ => True) (Chaboche iso p).
Proof. exact chaboche_temp. Qed.
Print Assumptions C22_chaboche_temp.

Theorem C22_recovery_q : forall v p, na_q_exact (fun _ _ => True) (ChabocheVoceRecovery v p).
Proof. exact voce_q. Qed.
Print Assumptions C22_recovery_q.

Theorem C22_recovery_h : forall v p, (forall i, gamma_exact (ch_g p i)) -> (forall T, cv_Rmax v T <> 0) ->
  na_h_exact (ch_domain (ch_nb p)) (ChabocheVoceRecovery v p).
Proof. exact voce_h. Qed.
Print Assumptions C22_recovery_h.

Theorem C22_recovery_temp : forall v p, na_temp_exact (fun _ _ _ => True) (ChabocheVoceRecovery v p).
Proof. exact voce_temp. Qed.
Print Assumptions C22_recovery_temp.

(** The full claim for the recovery rate would be at every strength different from Rmin; it holds above Rmin ... *)
Theorem C22_recovery_time_partial : forall v p, (forall T, 0 <= cv_r1 v T * cv_r2 v T) ->
  na_time_exact (fun T s a => ch_time_domain p T s a /\ cv_Rmin v T < a 0%nat) (ChabocheVoceRecovery v p).
Proof. exact voce_time_above. Qed.
Print Assumptions C22_recovery_time_partial.

(** ... and is false below. *)
Theorem C22_recovery_time_refuted : ~ forall v p, (forall T, 0 <= cv_r1 v T * cv_r2 v T) ->
  na_time_exact (fun T s a => ch_time_domain p T s a /\ cv_Rmin v T <> a 0%nat) (ChabocheVoceRecovery v p).
Proof. exact voce_time_refuted. Qed.
Print Assumptions C22_recovery_time_refuted.

(** two backstresses, one with nonlinear static recovery *)
Example C22_case : 
  let p := {| ch_nb := 2; ch_c := fun i _ => INR i + 1; ch_dc := fun _ _ => 0; ch_g := fun _ => SatGamma (fun _ => 1) (fun _ => 2) (fun _ => 3);
              ch_A := fun i _ => 1; ch_a := fun i _ => match i with O => 1 | _ => 3 end |} in
  let s := fun i => match i with O => 100 | _ => 0 end in
  let a := fun i => match i with 7 => 10 | 8 => -10 | _ => 0 end in
  ch_domain 2 0 s a /\ ch_time_domain p 0 s a.
Proof.
  cbv zeta. pose proof SurfProofs.eps_pos as He. pose proof SurfProofs.eps_lt_1 as H1. split; [split|].
  - cbv. ring.
  - apply SurfProofs.norm_gt; [lra|]. unfold dot, vadd, dev_vec, total_backstress, backstress_i. simpl. nra.
  - intros i Hi. destruct i as [|[|i]]; [left; reflexivity| |simpl in Hi; lia]. right. right.
    apply SurfProofs.norm_gt; [lra|]. unfold dot, backstress_i. simpl. nra.
Qed.

(** *** C23: deviatoric backstresses *)
Theorem C23_chaboche_reachable : forall iso p, ch_nonneg p ->
  forall a, reachable (Chaboche iso p) p a -> deviatoric_state (ch_nb p) a.
Proof. exact chaboche_reachable. Qed.
Print Assumptions C23_chaboche_reachable.

Theorem C23_recovery_reachable : forall v p, ch_nonneg p ->
  forall a, reachable (ChabocheVoceRecovery v p) p a -> deviatoric_state (ch_nb p) a.
Proof. exact voce_reachable. Qed.
Print Assumptions C23_recovery_reachable.

(** so the domain on which C19 and C22 hold is never left, except at vanishing relative stress *)
Theorem C23_surface_domain : forall iso p, ch_nonneg p -> forall a s T, reachable (Chaboche iso p) p a ->
  eps < norm2 6 (vadd (dev_vec s) (total_backstress (ch_nb p) a)) ->
  ch_domain (ch_nb p) T s a /\ kin_domain T s (na_q (Chaboche iso p) a T).
Proof.
  intros iso p Hp a s T Ha Hn. assert (D := deviatoric_total _ _ (chaboche_reachable iso p Hp a Ha)).
  split. split; assumption. unfold kin_domain. rewrite <- (back_total p) in D, Hn. split. exact D. exact Hn.
Qed.
Print Assumptions C23_surface_domain.

(** the rate of a deviatoric state is deviatoric *)
Theorem C23_rate : forall iso p s a T, deviatoric_state (ch_nb p) a -> deviatoric_state (ch_nb p) (na_h (Chaboche iso p) s a T).
Proof. intros iso p s a T. apply rate_deviatoric. Qed.
Print Assumptions C23_rate.

(** a plastic step with one backstress: C = 3, no recall, unit increment in shear *)
Example C23_case :
  let p := {| ch_nb := 1; ch_c := fun _ _ => 3; ch_dc := fun _ _ => 0; ch_g := fun _ => ConstantGamma (fun _ => 0); ch_A := fun _ _ => 0; ch_a := fun _ _ => 1 |} in
  let a := fun i => match i with O => sqrt (2 / 3) | 4 => -2 | _ => 0 end in
  ch_nonneg p /\ reachable (Chaboche (LinearIso (fun _ => 0) (fun _ => 0)) p) p a /\ a 4%nat <> 0.
Proof.
  intros p a. split; [|split].
  - intros i T ep Hi. simpl. lra.
  - apply (reach_step _ _ (fun i => match i with 3 => 100 | _ => 0 end) (fun _ => 0) a 0 1 0 0).
    + apply reach_zero. reflexivity.
    + lra. + lra.
    + intros i Hi Hc. simpl. lra.
    + assert (N : norm2 6 (ch_rel p (fun i => match i with 3 => 100 | _ => 0 end) a) = 98).
      { unfold norm2. replace (dot 6 _ _) with (98 * 98). apply sqrt_square; lra.
        unfold dot, ch_rel, vadd, dev_vec, ch_back, a. simpl. field. }
      assert (B : eps < norm2 6 (ch_rel p (fun i => match i with 3 => 100 | _ => 0 end) a)).
      { rewrite N. pose proof SurfProofs.eps_lt_1. lra. }
      intros k Hk. simpl in Hk. rewrite Rmult_0_r, Rmult_0_r, !Rplus_0_r.
      unfold na_h, Chaboche. 
      destruct k as [|r]; [simpl; ring|].
      unfold ch_h. rewrite SurfProofs.normalize_big by exact B. rewrite N.
      assert (Hr : (r < 6)%nat) by lia. clear Hk.
      do 6 (destruct r as [|r]; [simpl; unfold ch_rel, vadd, dev_vec, ch_back, a; simpl; field|]). lia.
  - unfold a. lra.
Qed.
