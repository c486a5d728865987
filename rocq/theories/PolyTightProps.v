(** Reference orientations, frozen twin fractions and the elastic deformation for a known reference. *)
From Verif Require Import Base Diff NemlMathModel NemlMathSpec RotModel RotSpec ScModel PolyModel PolySpec PolyTight.
From Coq Require Import List Arith Lia Lra.
Import ListNotations.
Open Scope R_scope.

(** ** C68 *)
(** with rotation matrices R and R0 of the two orientations the deformation gradient is the inverse of (I + e) R R0^T *)
Theorem C68_deformation_given : forall inv9 c T s Q Q0, unitq Q -> unitq Q0 ->
  sc_Fe inv9 c T s Q Q0 = inv9 (mul_2 (usym (fun i => (if Nat.ltb i 3 then 1 else 0) + sc_estrain c T Q s i)) (mul_2 (to_matrix Q) (tr_2 (to_matrix Q0)))).
Proof. exact Fe_given. Qed.
Print Assumptions C68_deformation_given.
Example C68_given_case : unitq (Quat 0 1 0 0) /\ unitq (Quat (3 / 5) 0 0 (4 / 5)) /\ mul_2 (to_matrix (Quat 0 1 0 0)) (tr_2 (to_matrix (Quat (3 / 5) 0 0 (4 / 5)))) 1%nat <> 0 /\
  mul_2 (to_matrix (Quat 0 1 0 0)) (tr_2 (to_matrix (Quat (3 / 5) 0 0 (4 / 5)))) 1%nat <> to_matrix (qmul (oinv (Quat (3 / 5) 0 0 (4 / 5))) (Quat 0 1 0 0)) 1%nat.
Proof.
  unfold unitq, mul_2, tr_2, to_matrix, qmul, oinv, qconj. cbn [q0 q1 q2 q3 Nat.mul Nat.add]. split; [lra|]. split; [lra|]. split; lra.
Qed.

(** ** C69 *)
(** setting orientations sets the reference orientation too *)
Theorem C69_reference : forall nh rp n qs hist hist' i, (rp + 8 <= nh)%nat -> set_passive_batch nh rp n qs hist = Some hist' -> (i < n)%nat ->
  store_quat (rp + 4) (part nh i hist') = store_quat rp (part nh i hist') /\ store_quat (rp + 4) (part nh i hist') = oinv (nth i qs qdefault).
Proof. exact set_batch_reference. Qed.
Print Assumptions C69_reference.
Example C69_reference_case : exists h, set_passive_batch 9 1 2 [Quat 1 0 0 0; Quat 0 1 0 0] (fun _ => 7) = Some h.
Proof. eexists. reflexivity. Qed.

(** ** C70 *)
(** a polycrystal starts with both orientations of each crystal as given *)
Theorem C70_reference : forall nh rp n h0 qs i, (rp + 8 <= nh)%nat -> (i < n)%nat ->
  store_quat (rp + 4) (part nh i (poly_init nh rp n h0 qs)) = nth i qs qdefault /\ store_quat rp (part nh i (poly_init nh rp n h0 qs)) = nth i qs qdefault.
Proof. exact init_reference. Qed.
Print Assumptions C70_reference.

(** ** C71 *)
(** a crystal whose flag is up keeps its fractions, slips and orientation *)
Theorem C71_frozen : forall thr ss st prev, 1 / 2 <= p_twinned prev -> let r := ptr_act thr ss st prev in
  (forall j, twin_at ss j -> p_frac r j = p_frac prev j) /\ (forall j, ~ twin_at ss j -> p_frac r j = p_frac st j) /\
  p_twinned r = p_twinned prev /\ p_rot r = p_rot st /\ p_rot0 r = p_rot0 st /\ p_slip r = p_slip st.
Proof. exact ptr_frozen. Qed.
Print Assumptions C71_frozen.
Example C71_frozen_case : let s := {| p_twin := true; p_shear := 1 / 2; p_turn := Quat 0 1 0 0 |} in
  let st f w := {| p_slip := fun _ => 3; p_frac := fun _ => f; p_twinned := w; p_rot := Quat 1 0 0 0; p_rot0 := Quat 1 0 0 0 |} in
  1 / 2 <= p_twinned (st 2 1) /\ twin_at [s] 0 /\ p_frac (ptr_act 1 [s] (st 5 0) (st 2 1)) 0%nat = 2.
Proof.
  cbv zeta. split; [cbn; lra|]. assert (H : twin_at [{| p_twin := true; p_shear := 1 / 2; p_turn := Quat 0 1 0 0 |}] 0) by (eexists; split; reflexivity). split; [exact H|].
  match goal with |- p_frac (ptr_act 1 ?ss ?a ?b) _ = _ => destruct (C71_frozen 1 ss a b ltac:(cbn; lra)) as (A & _) end. rewrite A by exact H. reflexivity.
Qed.
