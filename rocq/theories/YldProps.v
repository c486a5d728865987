(** Offset yield stresses *)
From Coq Require Import ZArith List Arith Lia Lra.
From Verif Require Import Base YldModel YldSpec YldProofs YldEx.
From Coq Require Import List.
Import ListNotations.
Open Scope R_scope.

(** ** C95 *)
(** a curve that never steepens and whose last permanent strain exceeds the offset: offset_stress returns the stress of the one point whose permanent strain is the offset *)
Theorem C95_offset_stress : forall e1 s1 l eo, rising ((0, 0) :: (e1, s1) :: l) -> concave ((0, 0) :: (e1, s1) :: l) -> 0 < s1 -> 0 < eo ->
  eo < permanent (s1 / e1) (fst (last l (e1, s1))) (snd (last l (e1, s1))) ->
  exists e s, yields_at ((0, 0) :: (e1, s1) :: l) (s1 / e1) eo e s /\ forall r, offset_stress ((0, 0) :: (e1, s1) :: l) eo r <-> r = Some s.
Proof. exact @offset_concave. Qed.
Print Assumptions C95_offset_stress.
Example C95_offset_stress_case : exists s, (forall r, offset_stress steel 2 r <-> r = Some s) /\ (forall r, yield_of steel 2 r <-> r = Some s) /\ exists e, yields_at steel (100 / 1) 2 e s.
Proof. exact @steel_yields. Qed.
(** uniaxial_test reports that same stress *)
Theorem C95_uniaxial_yield : forall e1 s1 l eo, rising ((0, 0) :: (e1, s1) :: l) -> concave ((0, 0) :: (e1, s1) :: l) -> 0 < s1 -> 0 < eo -> (forall p, In p ((e1, s1) :: l) -> 0 <= snd p) ->
  eo < permanent (s1 / e1) (fst (last l (e1, s1))) (snd (last l (e1, s1))) ->
  exists e s, yields_at ((0, 0) :: (e1, s1) :: l) (s1 / e1) eo e s /\ forall r, yield_of ((0, 0) :: (e1, s1) :: l) eo r <-> r = Some s.
Proof. exact @yield_concave. Qed.
Print Assumptions C95_uniaxial_yield.
(** any curve with rising strains: a returned stress lies on the curve where the permanent strain is the offset *)
Theorem C95_offset_sound : forall e0 s0 e1 s1 l eo s, rising ((e0, s0) :: (e1, s1) :: l) -> s1 / e1 <> 0 -> offset_stress ((e0, s0) :: (e1, s1) :: l) eo (Some s) ->
  exists e, on_curve ((e0, s0) :: (e1, s1) :: l) e s /\ permanent (s1 / e1) e s = eo.
Proof. exact @offset_sound. Qed.
Print Assumptions C95_offset_sound.
(** an offset that the test does not reach: no number is returned *)
Theorem C95_not_reached : forall e1 s1 l eo, rising ((0, 0) :: (e1, s1) :: l) -> 0 < s1 -> 0 < eo ->
  permanent (s1 / e1) (fst (last l (e1, s1))) (snd (last l (e1, s1))) < eo -> forall r, offset_stress ((0, 0) :: (e1, s1) :: l) eo r <-> r = None.
Proof. exact @offset_never. Qed.
Print Assumptions C95_not_reached.
Example C95_not_reached_case : forall r, offset_stress steel 9 r <-> r = None.
Proof. exact @steel_not_yet. Qed.
(** and uniaxial_test reports inf *)
Theorem C95_uniaxial_not_reached : forall e1 s1 l eo, rising ((0, 0) :: (e1, s1) :: l) -> 0 < s1 -> 0 < eo -> (forall p, In p ((e1, s1) :: l) -> 0 <= snd p) ->
  permanent (s1 / e1) (fst (last l (e1, s1))) (snd (last l (e1, s1))) < eo -> forall r, yield_of ((0, 0) :: (e1, s1) :: l) eo r <-> r = None.
Proof. exact @yield_never. Qed.
Print Assumptions C95_uniaxial_not_reached.
(** a curve that steepens again can have several points with the offset; which one is returned is up to the root finder *)
Theorem C95_ambiguous_refuted : ~ (forall l eo r r', rising l -> 0 < eo -> offset_stress l eo r -> offset_stress l eo r' -> r = r').
Proof. exact @offset_ambiguous. Qed.
Print Assumptions C95_ambiguous_refuted.
Example C95_ambiguous_case : offset_stress twice 1 (Some 1) /\ offset_stress twice 1 (Some 2).
Proof. exact @twice_two. Qed.
(** a compression test: inf whatever the curve *)
Theorem C95_compression : forall e1 s1 l offset r, e1 < 0 -> s1 <> 0 -> (forall p, In p l -> fst p <= 0) -> 0 < offset -> yield_of ((0, 0) :: (e1, s1) :: l) offset r -> r = None.
Proof. exact @yield_compression. Qed.
Print Assumptions C95_compression.
(** so a test in compression does not give the yield stress of its magnitudes *)
Theorem C95_compression_refuted : ~ (forall l offset s, (forall r, yield_of (abs_curve l) offset r <-> r = Some s) -> forall r, yield_of l offset r -> r = Some s).
Proof. exact @compression_lost. Qed.
Print Assumptions C95_compression_refuted.
Example C95_compression_case : forall r, yield_of pressed 2 r -> r = None.
Proof. exact @pressed_inf. Qed.
