(** Driving a model through a history of deformation gradients *)
From Coq Require Import ZArith List Arith Lia Lra.
From Verif Require Import Base NemlMathModel DgModel DgSpec DgProofs DgMore DgEx.
From Coq Require Import List.
Import ListNotations.
Open Scope R_scope.

(** ** C96 *)
(** the returned lists: lengths, equal time steps up to tmax, the gradients at those times, the start, and every step one update of the model from the previous entries *)
Theorem C96_history : forall M F tmax n T r, def_grad_driver M F tmax n T = Some r ->
  (length (dg_t r) = S n /\ length (dg_s r) = S n /\ length (dg_F r) = S n /\ length (dg_D r) = S n /\ length (dg_W r) = S n /\ length (dg_h r) = S n /\ length (dg_u r) = S n /\ length (dg_p r) = S n)
  /\ (forall k, (k <= n)%nat -> time_at r k = INR k * tmax / INR n /\ F_at r k = F (time_at r k))
  /\ (stress_at r 0 = vzero /\ D_at r 0 = vzero /\ W_at r 0 = vzero /\ store_at r 0 = lm_store M /\ energy_at r 0 = 0 /\ dissipation_at r 0 = 0)
  /\ (forall k, (k < n)%nat -> lm_update M (D_at r (S k)) (D_at r k) (W_at r (S k)) (W_at r k) T T (time_at r (S k)) (time_at r k) (stress_at r k) (store_at r k) (energy_at r k) (dissipation_at r k)
       = Some (stress_at r (S k), store_at r (S k), energy_at r (S k), dissipation_at r (S k))).
Proof. exact @run_spec. Qed.
Print Assumptions C96_history.
(** strains and spins, read in the notations of the library, give the gradients back: (1 - dL) F at the end of a step is F at its start *)
Theorem C96_gradients_recovered : forall M F tmax n T r, def_grad_driver M F tmax n T = Some r -> forall k, (k < n)%nat -> forall i j, (i < 3)%nat -> (j < 3)%nat ->
  F_at r (S k) i j - rsum 3 (fun l => dL r k i l * F_at r (S k) l j) = F_at r k i j.
Proof. exact @increments. Qed.
Print Assumptions C96_gradients_recovered.
(** the driver returns if the model does and the gradients are regular *)
Theorem C96_returns : forall M F tmax n T, (0 < n)%nat -> (forall a b c d e f g h i j k l, lm_update M a b c d e f g h i j k l <> None) ->
  (forall k, (0 < k <= n)%nat -> det (F (INR k * (tmax / INR n))) <> 0) -> exists r, def_grad_driver M F tmax n T = Some r.
Proof. exact @run_total. Qed.
Print Assumptions C96_returns.
(** and only if they are *)
Theorem C96_regular : forall M F tmax n T r, def_grad_driver M F tmax n T = Some r -> forall k, (0 < k <= n)%nat -> det (F (INR k * (tmax / INR n))) <> 0.
Proof. exact @run_regular. Qed.
Print Assumptions C96_regular.
(** stretches along the axes: the strain adds relative changes, there is no shear and no spin *)
Theorem C96_stretch : forall M l tmax n T r, (forall i t, 0 < l i t) -> def_grad_driver M (scaled l) tmax n T = Some r -> forall k, (k <= n)%nat ->
  (forall i, (i < 3)%nat -> D_at r k i = rsum k (fun m => 1 - l i (time_at r m) / l i (time_at r (S m)))) /\ (forall i, (3 <= i < 6)%nat -> D_at r k i = 0) /\ (forall i, (i < 3)%nat -> W_at r k i = 0).
Proof. exact @stretch_run. Qed.
Print Assumptions C96_stretch.
(** it is at most the logarithmic strain, and tends to it as the number of steps grows *)
Theorem C96_logarithmic : forall M l tmax n T r, (forall i t, 0 < l i t) -> def_grad_driver M (scaled l) tmax n T = Some r -> forall k i, (k <= n)%nat -> (i < 3)%nat ->
  D_at r k i <= ln (l i (time_at r k)) - ln (l i 0) /\
  forall K, 0 <= tmax -> (forall s t, Rabs (ln (l i t) - ln (l i s)) <= K * Rabs (t - s)) -> ln (l i (time_at r k)) - ln (l i 0) - D_at r k i <= (K * tmax) * (K * tmax) / INR n * exp (K * tmax / INR n).
Proof. exact @stretch_log. Qed.
Print Assumptions C96_logarithmic.
Example C96_logarithmic_case : (forall i t, 0 < pull i t) /\ (forall i s t, Rabs (ln (pull i t) - ln (pull i s)) <= 1 * Rabs (t - s)) /\ exists r, def_grad_driver dull (scaled pull) 1 10 300 = Some r /\ D_at r 10 0%nat <= 1 /\ 1 - D_at r 10 0%nat <= exp (/ 10) / 10.
Proof. exact @pull_case. Qed.
(** another reference configuration does not change the results *)
Theorem C96_reference : forall M F G tmax n T, det G <> 0 ->
  match def_grad_driver M F tmax n T, def_grad_driver M (fun t i j => rsum 3 (fun l => F t i l * G l j)) tmax n T with
  | None, None => True
  | Some x, Some y => dg_t x = dg_t y /\ dg_s x = dg_s y /\ dg_D x = dg_D y /\ dg_W x = dg_W y /\ dg_h x = dg_h y /\ dg_u x = dg_u y /\ dg_p x = dg_p y
  | _, _ => False end.
Proof. exact @run_reference. Qed.
Print Assumptions C96_reference.
Example C96_reference_case : exists x y, def_grad_driver dull (scaled pull) 1 10 300 = Some x /\ def_grad_driver dull (fun t i j => rsum 3 (fun l => scaled pull t i l * rotation_z 1 l j)) 1 10 300 = Some y /\ dg_s x = dg_s y /\ dg_D y <> [].
Proof. exact @reference_case. Qed.
(** so the state at time zero counts as undeformed *)
Theorem C96_start : forall M F V tmax n T, la_inv (F 0) = Some V ->
  (forall i j, (i < 3)%nat -> (j < 3)%nat -> rsum 3 (fun l => F 0 i l * V l j) = delta i j) /\
  match def_grad_driver M F tmax n T, def_grad_driver M (fun t i j => rsum 3 (fun l => F t i l * V l j)) tmax n T with
  | None, None => True
  | Some x, Some y => dg_t x = dg_t y /\ dg_s x = dg_s y /\ dg_D x = dg_D y /\ dg_W x = dg_W y /\ dg_h x = dg_h y /\ dg_u x = dg_u y /\ dg_p x = dg_p y
  | _, _ => False end.
Proof. exact @start_undeformed. Qed.
Print Assumptions C96_start.
(** seen by a turned observer the increments turn *)
Theorem C96_observer : forall M M' F Q tmax n T r r', (forall i j, (i < 3)%nat -> (j < 3)%nat -> rsum 3 (fun k => Q i k * Q j k) = delta i j) ->
  def_grad_driver M F tmax n T = Some r -> def_grad_driver M' (fun t i j => rsum 3 (fun l => Q i l * F t l j)) tmax n T = Some r' ->
  forall k, (k < n)%nat -> forall i j, (i < 3)%nat -> (j < 3)%nat -> dL r' k i j = rsum 3 (fun a => rsum 3 (fun b => Q i a * dL r k a b * Q j b)).
Proof. exact @run_observer. Qed.
Print Assumptions C96_observer.
Example C96_observer_case : (forall i j, (i < 3)%nat -> (j < 3)%nat -> rsum 3 (fun k => rotation_z 1 i k * rotation_z 1 j k) = delta i j)
  /\ exists r', def_grad_driver dull (fun t i j => rsum 3 (fun l => rotation_z 1 i l * scaled pull t l j)) 1 10 300 = Some r'.
Proof. exact @observer_case. Qed.
(** a body that only turns: the recorded strain and spin *)
Theorem C96_rotation : forall M w tmax n T r, def_grad_driver M (fun t => rotation_z (w * t)) tmax n T = Some r -> forall k, (k <= n)%nat ->
  D_at r k 0%nat = INR k * (1 - cos (w * tmax / INR n)) /\ D_at r k 1%nat = INR k * (1 - cos (w * tmax / INR n)) /\ (forall i, (2 <= i < 6)%nat -> D_at r k i = 0)
  /\ W_at r k 0%nat = 0 /\ W_at r k 1%nat = 0 /\ W_at r k 2%nat = INR k * sin (w * tmax / INR n).
Proof. exact @rotation_run. Qed.
Print Assumptions C96_rotation.
(** the strain tends to zero as the number of steps grows *)
Theorem C96_rotation_small : forall M w tmax n T r, def_grad_driver M (fun t => rotation_z (w * t)) tmax n T = Some r -> forall k i, (k <= n)%nat -> (i < 6)%nat -> 0 <= D_at r k i <= (w * tmax) * (w * tmax) / (2 * INR n).
Proof. exact @rotation_strain. Qed.
Print Assumptions C96_rotation_small.
(** but it is not zero *)
Theorem C96_rotation_refuted : ~ (forall M w tmax n T r, def_grad_driver M (fun t => rotation_z (w * t)) tmax n T = Some r -> forall k i, (k <= n)%nat -> (i < 6)%nat -> D_at r k i = 0).
Proof. exact @rotation_refuted. Qed.
Print Assumptions C96_rotation_refuted.
