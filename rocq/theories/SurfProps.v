(** Properties C19 and C20: the yield surfaces. *)
From Verif Require Import Base.
From Verif Require Import Diff.
From Verif Require Import NemlMathModel.
From Verif Require Import NemlMathSpec.
From Verif Require Import SurfModel.
From Verif Require Import SurfSpec.
From Verif Require Import SurfProofs.

Theorem C19_isokinj2 : surface_exact kin_domain IsoKinJ2.
Proof. exact j2_exact. Qed.
Print Assumptions C19_isokinj2.

Theorem C19_isoj2 : surface_exact iso_domain IsoJ2.
Proof. exact isoj2_exact. Qed.
Print Assumptions C19_isoj2.

(** h and l are arbitrary functions of temperature with h >= 0 and h l (l-1) >= 0, e.g. l >= 1 *)
Theorem C19_isokinj2i1 : forall h l, (forall T, 0 <= h T) -> (forall T, 0 <= h T * l T * (l T - 1)) ->
  surface_exact (fun T s q => kin_domain T s q /\ tr2 (usym s) <> 0) (IsoKinJ2I1 h l).
Proof. exact i1_exact. Qed.
Print Assumptions C19_isokinj2i1.

Theorem C19_isoj2i1 : forall h l, (forall T, 0 <= h T) -> (forall T, 0 <= h T * l T * (l T - 1)) ->
  surface_exact (fun T s q => iso_domain T s q /\ tr2 (usym s) <> 0) (IsoJ2I1 h l).
Proof. exact isoj2i1_exact. Qed.
Print Assumptions C19_isoj2i1.

(** Without the restriction to deviatoric backstresses the kinematic surface's gradient is wrong. *)
Theorem C19_nondeviatoric_backstress_refuted :
  ~ surface_exact (fun T s q => eps < norm2 6 (relative_stress s q)) IsoKinJ2.
Proof. exact j2_nondev_refuted. Qed.
Print Assumptions C19_nondeviatoric_backstress_refuted.

(** A negative pressure coefficient is accepted, but f then takes its absolute value and df_ds does not. *)
Theorem C19_negative_h_refuted :
  ~ surface_exact (fun T s q => kin_domain T s q /\ tr2 (usym s) <> 0) (IsoKinJ2I1 (fun _ => -1) (fun _ => 1)).
Proof. exact i1_negh_refuted. Qed.
Print Assumptions C19_negative_h_refuted.

(** With an exponent below one the second derivative has the wrong sign. *)
Theorem C19_small_exponent_refuted :
  ~ surface_exact (fun T s q => kin_domain T s q /\ tr2 (usym s) <> 0) (IsoKinJ2I1 (fun _ => 1) (fun _ => 1 / 2)).
Proof. exact i1_smalll_refuted. Qed.
Print Assumptions C19_small_exponent_refuted.

Example C19_case : kin_domain 0 (fun i => match i with O => 1 | _ => 0 end) (fun _ => 0) /\
  tr2 (usym (fun i => match i with O => 1 | _ => 0 end)) <> 0 /\
  iso_domain 0 (fun i => match i with O => 1 | _ => 0 end) (fun _ => 0).
Proof.
  destruct (w_dom (fun _ => 0) (fun _ => 0)) as [[A B] C]. split; [split|split]; try assumption.
  unfold iso_domain. rewrite (norm2_ext _ _ (relative_stress e0 (fun _ => 0))). exact B.
  intros i Hi. unfold relative_stress, backstress. rewrite Rplus_0_r. reflexivity.
Qed.

(** *** C20 *)
Theorem C20_j2_ignores_pressure : forall p s q T,
  ys_f IsoKinJ2 (add_pressure p s) q T = ys_f IsoKinJ2 s q T /\
  ys_f IsoJ2 (add_pressure p s) q T = ys_f IsoJ2 s q T.
Proof. intros p s q T. simpl. unfold j2_f. rewrite !rel_add_pressure. split; reflexivity. Qed.
Print Assumptions C20_j2_ignores_pressure.

(** and the flow direction and its derivatives do not see the pressure either *)
Theorem C20_j2_direction_ignores_pressure : forall p s q T,
  ys_ds IsoKinJ2 (add_pressure p s) q T = ys_ds IsoKinJ2 s q T /\
  ys_dss IsoKinJ2 (add_pressure p s) q T = ys_dss IsoKinJ2 s q T /\
  (eps < norm2 6 (relative_stress s q) -> tr2 (usym (backstress q)) = 0 -> tr2 (usym (ys_ds IsoKinJ2 s q T)) = 0).
Proof.
  intros p s q T. simpl. unfold j2_ds, j2_dss. rewrite !rel_add_pressure. split; [|split]; try reflexivity.
  intros Hn HX. apply (normalize_traceless (rel s q)); [exact Hn|]. apply rel_traceless. exact HX.
Qed.
Print Assumptions C20_j2_direction_ignores_pressure.

Theorem C20_i1_increases_with_pressure : forall h l s q T p, 0 < h T -> 0 < l T -> 0 < p ->
  ys_f (IsoKinJ2I1 h l) s q T < ys_f (IsoKinJ2I1 h l) (add_pressure p s) q T /\
  ys_f (IsoJ2I1 h l) s q T < ys_f (IsoJ2I1 h l) (add_pressure p s) q T.
Proof. intros h l s q T p Hh Hl Hp. split; simpl; apply i1_monotone; assumption. Qed.
Print Assumptions C20_i1_increases_with_pressure.

(** Without pressure the I1 surface is the J2 surface. *)
Theorem C20_i1_deviatoric : forall h l s q T, 0 < l T -> tr2 (usym s) = 0 -> ys_f (IsoKinJ2I1 h l) s q T = ys_f IsoKinJ2 s q T.
Proof.
  intros h l s q T Hl Ht. simpl. unfold i1_f, j2_f. change (s 0%nat + s 1%nat + s 2%nat = 0) in Ht. rewrite Ht.
  unfold copysign, cpow. rewrite Rabs_R0. destruct (Rlt_dec 0 0); [lra|]. destruct (Req_EM_T (l T) 0); [lra|].
  rewrite Rmult_0_r, Rabs_R0. ring.
Qed.
Print Assumptions C20_i1_deviatoric.

(** In uniaxial tension or compression x with strength q0 = -sigma_y, yield is at |x| = sigma_y. *)
Theorem C20_uniaxial : forall x sy T,
  (ys_f IsoJ2 (fun i => match i with O => x | _ => 0 end) (fun _ => - sy) T <= 0 <-> Rabs x <= sy).
Proof.
  intros x sy T. rewrite j2_uniaxial. assert (0 < sqrt (2 / 3)) by (apply sqrt_lt_R0; lra). split; intros; nra.
Qed.
Print Assumptions C20_uniaxial.
