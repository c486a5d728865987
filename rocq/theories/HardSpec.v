(** What it means for a hardening rule's reported derivatives to be right. *)
From Verif Require Import Base.
From Verif Require Import Diff.
From Verif Require Import NemlMathModel NemlMathSpec InterpModel InterpSpec.
From Verif Require Import SurfModel SurfSpec HardModel.

(** dq_da is the Jacobian of q at every state of P *)
Definition hard_exact (P : R -> vec -> Prop) (H : hardrule) : Prop := forall T,
  is_jac (hr_n H) (hr_n H) (P T) (fun a => hr_q H a T) (fun a => hr_dq H a T).

(** the three rates and the map q of a non associative rule *)
Definition na_q_exact (P : R -> vec -> Prop) (H : nahard) : Prop := forall T,
  is_jac (na_ninter H) (na_n H) (P T) (fun a => na_q H a T) (fun a => na_dq H a T).
Definition na_h_exact (P : R -> vec -> vec -> Prop) (H : nahard) : Prop := forall T,
  is_jac2 (na_n H) 6 (na_n H) (P T) (fun s a => na_h H s a T) (fun s a => na_hs H s a T) (fun s a => na_ha H s a T).
Definition na_time_exact (P : R -> vec -> vec -> Prop) (H : nahard) : Prop := forall T,
  is_jac2 (na_n H) 6 (na_n H) (P T) (fun s a => na_ht H s a T) (fun s a => na_hts H s a T) (fun s a => na_hta H s a T).
Definition na_temp_exact (P : R -> vec -> vec -> Prop) (H : nahard) : Prop := forall T,
  is_jac2 (na_n H) 6 (na_n H) (P T) (fun s a => na_hT H s a T) (fun s a => na_hTs H s a T) (fun s a => na_hTa H s a T).

(** derivative of gamma with respect to the plastic strain *)
Definition gamma_exact (g : gammam) : Prop := forall T ep, is_derive (fun e => gm g e T) ep (gm_d g ep T).

(** history layout: entry 0 is the isotropic variable, entries 1+6i..6+6i are backstress i *)
Definition backstress_i (a : vec) (i : nat) : vec := fun j => a (1 + 6 * i + j)%nat.
Definition total_backstress (n : nat) (a : vec) : vec := fun j => rsum n (fun i => backstress_i a i j).
(** traceless total backstress, relative stress of norm above machine epsilon *)
Definition ch_domain (n : nat) (T : R) (s a : vec) : Prop :=
  tr2 (usym (total_backstress n a)) = 0 /\ eps < norm2 6 (vadd (dev_vec s) (total_backstress n a)).
(** static recovery is differentiable: linear, or switched off, or the backstress is not (nearly) zero *)
Definition ch_time_domain (p : chparams) (T : R) (s a : vec) : Prop := forall i, (i < ch_nb p)%nat ->
  ch_a p i T = 1 \/ (ch_A p i T = 0 /\ 1 <= ch_a p i T) \/ eps < norm2 6 (backstress_i a i).

(** all backstresses are deviatoric *)
Definition deviatoric_state (n : nat) (a : vec) : Prop := forall i, (i < n)%nat -> tr2 (usym (backstress_i a i)) = 0.
(** One step of any integrator that solves the backward Euler equations of the rule: the new
    history is the old one plus the three rates, at the new state, times the increments of
    plastic multiplier, time and temperature. *)
Definition euler_step (H : nahard) (s a_n a : vec) (T dg dt dT : R) : Prop := forall k, (k < na_n H)%nat ->
  a k = a_n k + na_h H s a T k * dg + na_ht H s a T k * dt + na_hT H s a T k * dT.

(** Every history reachable from zero by backward Euler steps with nonnegative multiplier and
    time increments; T is the end of step temperature, and cooling steps must be small enough
    that the thermal term does not overwhelm the backstress (dT = 0 always qualifies). *)
Definition thermal_ok (p : chparams) (T dT : R) : Prop :=
  forall i, (i < ch_nb p)%nat -> ch_c p i T <> 0 -> -1 < sqrt (2 / 3) * (ch_dc p i T / ch_c p i T) * dT.
Inductive reachable (H : nahard) (p : chparams) : vec -> Prop :=
| reach_zero : forall a, (forall k, (k < na_n H)%nat -> a k = 0) -> reachable H p a
| reach_step : forall s a_n a T dg dt dT, reachable H p a_n -> 0 <= dg -> 0 <= dt -> thermal_ok p T dT ->
    euler_step H s a_n a T dg dt dT -> reachable H p a.
(** moduli, recall and recovery coefficients are nonnegative *)
Definition ch_nonneg (p : chparams) : Prop := forall i T ep, (i < ch_nb p)%nat ->
  0 <= ch_c p i T /\ 0 <= gm (ch_g p i) ep T /\ 0 <= ch_A p i T.
