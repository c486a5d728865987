(** Proofs about the projections, the triangle and its colours (neml/cp/polefigures.py). *)
From Coq Require Import String ZArith.
From Verif Require Import Base.
From Verif Require Import Diff.
From Verif Require Import NemlMathSpec RotModel RotSpec RotProofs RotConv.
From Verif Require Import CrystModel.
From Verif Require Import PoleModel PoleSpec.
From Coq Require Import Psatz FunctionalExtensionality.

Lemma ndot3 : forall a b, ndot a b = a 0%nat * b 0%nat + a 1%nat * b 1%nat + a 2%nat * b 2%nat.
Proof. intros. unfold ndot. cbn [rsum]. ring. Qed.
Lemma dot3_ndot : forall a b, dot3 a b = ndot a b.
Proof. intros. rewrite ndot3. reflexivity. Qed.
Lemma veq3 : forall a b, a 0%nat = b 0%nat -> a 1%nat = b 1%nat -> a 2%nat = b 2%nat -> veq 3 a b.
Proof. intros a b H0 H1 H2 [|[|[|i]]] Hi; auto; lia. Qed.
Lemma veq3_sym : forall a b, veq 3 a b -> veq 3 b a.
Proof. intros a b H i Hi. symmetry; auto. Qed.
Lemma veq3_trans : forall a b c, veq 3 a b -> veq 3 b c -> veq 3 a c.
Proof. intros a b c H K i Hi. rewrite H; auto. Qed.

(** ** Projections *)
Lemma stereo_line : forall v, -1 < v 2%nat -> let p := project_stereographic v in
  exists s, fst p = s * v 0%nat /\ snd p = s * v 1%nat /\ 0 = -1 + s * (v 2%nat + 1).
Proof. intros v H p. exists (/ (1 + v 2%nat)). unfold p, project_stereographic; cbn [fst snd]. repeat split; field; lra. Qed.
Lemma stereo_len : forall v, unit_vec v -> -1 < v 2%nat -> len2 (project_stereographic v) = (1 - v 2%nat) / (1 + v 2%nat).
Proof.
  intros v U H. unfold unit_vec in U; rewrite ndot3 in U. unfold len2, project_stereographic; cbn [fst snd].
  replace (1 - v 2%nat) with ((v 0%nat * v 0%nat + v 1%nat * v 1%nat) / (1 + v 2%nat)).
  - field; lra.
  - replace (v 0%nat * v 0%nat + v 1%nat * v 1%nat) with ((1 - v 2%nat) * (1 + v 2%nat)) by (ring_simplify; lra). field; lra.
Qed.
Lemma stereo_disc : forall v, unit_vec v -> -1 < v 2%nat -> (len2 (project_stereographic v) <= limit_stereographic * limit_stereographic <-> 0 <= v 2%nat).
Proof.
  intros v U H. rewrite stereo_len by assumption. unfold limit_stereographic.
  assert (E : (1 - v 2%nat) / (1 + v 2%nat) = 1 - 2 * v 2%nat * / (1 + v 2%nat)) by (field; lra). rewrite E.
  assert (P : 0 < / (1 + v 2%nat)) by (apply Rinv_0_lt_compat; lra). split; intros; nra.
Qed.
Lemma lam_factor : forall z, -1 < z -> sqrt (2 / (1 + z)) * sqrt (2 / (1 + z)) = 2 / (1 + z).
Proof. intros z H. apply sqrt_sqrt. apply Rlt_le, Rdiv_lt_0_compat; lra. Qed.
Lemma lam_pos : forall z, -1 < z -> 0 < sqrt (2 / (1 + z)).
Proof. intros z H. apply sqrt_lt_R0, Rdiv_lt_0_compat; lra. Qed.
Lemma lambert_len : forall v, unit_vec v -> -1 < v 2%nat -> len2 (project_lambert_equal_area v) = 2 * (1 - v 2%nat).
Proof.
  intros v U H. unfold unit_vec in U; rewrite ndot3 in U. unfold len2, project_lambert_equal_area; cbn [fst snd].
  pose proof (lam_factor _ H) as F. set (f := sqrt (2 / (1 + v 2%nat))) in *.
  replace (f * v 0%nat * (f * v 0%nat) + f * v 1%nat * (f * v 1%nat)) with (f * f * (v 0%nat * v 0%nat + v 1%nat * v 1%nat)) by ring.
  rewrite F. replace (v 0%nat * v 0%nat + v 1%nat * v 1%nat) with ((1 - v 2%nat) * (1 + v 2%nat)) by (ring_simplify; lra). field; lra.
Qed.
Lemma lambert_disc : forall v, unit_vec v -> -1 < v 2%nat ->
  (len2 (project_lambert_equal_area v) <= limit_lambert_equal_area * limit_lambert_equal_area <-> 0 <= v 2%nat).
Proof.
  intros v U H. rewrite lambert_len by assumption. unfold limit_lambert_equal_area. rewrite sqrt_sqrt by lra. split; intros; lra.
Qed.
(** both keep the azimuth *)
Lemma azimuth : forall v, -1 < v 2%nat -> exists s r, 0 < s /\ 0 < r /\
  project_stereographic v = (s * v 0%nat, s * v 1%nat) /\ project_lambert_equal_area v = (r * v 0%nat, r * v 1%nat).
Proof.
  intros v H. exists (/ (1 + v 2%nat)), (sqrt (2 / (1 + v 2%nat))). split; [apply Rinv_0_lt_compat; lra|]. split; [apply lam_pos; exact H|].
  unfold project_stereographic, project_lambert_equal_area. split; [|reflexivity]. f_equal; unfold Rdiv; ring.
Qed.
Lemma stereo_conformal : forall u v, unit_vec u -> unit_vec v -> -1 < u 2%nat -> -1 < v 2%nat ->
  dist2 (project_stereographic u) (project_stereographic v) =
  ((u 0%nat - v 0%nat) * (u 0%nat - v 0%nat) + (u 1%nat - v 1%nat) * (u 1%nat - v 1%nat) + (u 2%nat - v 2%nat) * (u 2%nat - v 2%nat))
  / ((1 + u 2%nat) * (1 + v 2%nat)).
Proof.
  intros u v U V Hu Hv. unfold unit_vec in *; rewrite ndot3 in *. unfold dist2, project_stereographic; cbn [fst snd].
  set (a := u 0%nat) in *; set (b := u 1%nat) in *; set (c := u 2%nat) in *; set (x := v 0%nat) in *; set (y := v 1%nat) in *; set (z := v 2%nat) in *.
  clearbody a b c x y z.
  transitivity ((a * a + b * b) / ((1 + c) * (1 + c)) + (x * x + y * y) / ((1 + z) * (1 + z)) - 2 * (a * x + b * y) / ((1 + c) * (1 + z))); [field; lra|].
  replace (a * a + b * b) with ((1 - c) * (1 + c)) by (ring_simplify; lra). replace (x * x + y * y) with ((1 - z) * (1 + z)) by (ring_simplify; lra).
  replace ((a - x) * (a - x) + (b - y) * (b - y) + (c - z) * (c - z)) with (2 - 2 * (a * x + b * y) - 2 * c * z) by (ring_simplify; lra).
  field; lra.
Qed.
(** equal areas: the determinant of the map from height and azimuth to the plot is that of the sphere's area form *)
Lemma lambert_polar : forall z t v, -1 < z < 1 -> on_sphere z t v ->
  project_lambert_equal_area v = (sqrt (2 * (1 - z)) * cos t, sqrt (2 * (1 - z)) * sin t).
Proof.
  intros z t v H (E0 & E1 & E2). unfold project_lambert_equal_area. rewrite E0, E1, E2.
  assert (E : sqrt (2 / (1 + z)) * sqrt (1 - z * z) = sqrt (2 * (1 - z))).
  { rewrite <- sqrt_mult; [f_equal; field; lra| |nra]. apply Rlt_le, Rdiv_lt_0_compat; lra. }
  rewrite <- E. f_equal; ring.
Qed.
Lemma D_sqrt_height : forall z, -1 < z < 1 -> is_derive (fun z => sqrt (2 * (1 - z))) z (- / sqrt (2 * (1 - z))).
Proof.
  intros z H. assert (0 < sqrt (2 * (1 - z))) by (apply sqrt_lt_R0; lra).
  auto_derive; [lra|]. replace (1 + - z) with (1 - z) by ring. field. lra.
Qed.
Lemma lambert_area : forall (w : R -> R -> vec) z t, -1 < z < 1 -> (forall z t, -1 < z < 1 -> on_sphere z t (w z t)) ->
  let X z t := fst (project_lambert_equal_area (w z t)) in let Y z t := snd (project_lambert_equal_area (w z t)) in
  exists Xz Xt Yz Yt, is_derive (fun z => X z t) z Xz /\ is_derive (fun t => X z t) t Xt /\
    is_derive (fun z => Y z t) z Yz /\ is_derive (fun t => Y z t) t Yt /\ Rabs (Xz * Yt - Xt * Yz) = 1.
Proof.
  intros w z t H W X Y. set (r := fun z => sqrt (2 * (1 - z))).
  assert (EX : forall z t, -1 < z < 1 -> X z t = r z * cos t).
  { intros. unfold X. rewrite (lambert_polar _ _ _ H0 (W _ _ H0)). reflexivity. }
  assert (EY : forall z t, -1 < z < 1 -> Y z t = r z * sin t).
  { intros. unfold Y. rewrite (lambert_polar _ _ _ H0 (W _ _ H0)). reflexivity. }
  assert (rp : 0 < r z) by (apply sqrt_lt_R0; lra).
  assert (L : locally z (fun y => -1 < y < 1)).
  { assert (He : 0 < Rmin (z + 1) (1 - z)) by (apply Rmin_glb_lt; lra).
    exists (mkposreal _ He). intros y Hy. change (Rabs (minus y z) < Rmin (z + 1) (1 - z)) in Hy. unfold minus, plus, opp in Hy; cbn in Hy.
    pose proof (Rmin_l (z + 1) (1 - z)). pose proof (Rmin_r (z + 1) (1 - z)). apply Rabs_def2 in Hy. lra. }
  assert (DX : is_derive (fun z => r z * cos t) z (- / r z * cos t)).
  { pose proof (D_sqrt_height z H) as D. fold (r z) in D. apply (is_derive_ext (fun z => cos t * r z)); [intros; apply Rmult_comm|].
    replace (- / r z * cos t) with (cos t * (- / r z)) by ring. apply (is_derive_scal r z (cos t)). exact D. }
  assert (DY : is_derive (fun z => r z * sin t) z (- / r z * sin t)).
  { pose proof (D_sqrt_height z H) as D. fold (r z) in D. apply (is_derive_ext (fun z => sin t * r z)); [intros; apply Rmult_comm|].
    replace (- / r z * sin t) with (sin t * (- / r z)) by ring. apply (is_derive_scal r z (sin t)). exact D. }
  exists (- / r z * cos t), (- (r z * sin t)), (- / r z * sin t), (r z * cos t). split; [|split; [|split; [|split]]].
  - apply (is_derive_ext_loc (fun z => r z * cos t)); [|exact DX]. apply (filter_imp (fun y => -1 < y < 1)); [|exact L]. intros; symmetry; apply EX; auto.
  - apply (is_derive_ext (fun t => r z * cos t)); [intros; symmetry; apply EX; auto|]. auto_derive; [auto|ring].
  - apply (is_derive_ext_loc (fun z => r z * sin t)); [|exact DY]. apply (filter_imp (fun y => -1 < y < 1)); [|exact L]. intros; symmetry; apply EY; auto.
  - apply (is_derive_ext (fun t => r z * sin t)); [intros; symmetry; apply EY; auto|]. auto_derive; [auto|ring].
  - replace (- / r z * cos t * (r z * cos t) - - (r z * sin t) * (- / r z * sin t)) with (- (sin t * sin t + cos t * cos t)) by (field; lra).
    pose proof (sin2_cos2 t) as Q; unfold Rsqr in Q. rewrite Q, Rabs_Ropp, Rabs_R1. reflexivity.
Qed.
(** the inverses *)
Lemma inv_stereo_sphere : forall p, unit_vec (inverse_project_stereographic p).
Proof.
  intros [X Y]. unfold unit_vec; rewrite ndot3. unfold inverse_project_stereographic; cbn [fst snd v3]. field. nra.
Qed.
Lemma inv_lambert_sphere : forall p, len2 p <= 4 -> unit_vec (inverse_project_lambert_equal_area p).
Proof.
  intros [X Y] H. unfold len2 in H; cbn [fst snd] in H. unfold unit_vec; rewrite ndot3. unfold inverse_project_lambert_equal_area; cbn [fst snd v3].
  assert (E : sqrt (1 - (X * X + Y * Y) / 4) * sqrt (1 - (X * X + Y * Y) / 4) = 1 - (X * X + Y * Y) / 4) by (apply sqrt_sqrt; lra).
  set (f := sqrt (1 - (X * X + Y * Y) / 4)) in *.
  replace (f * X * (f * X) + f * Y * (f * Y)) with (f * f * (X * X + Y * Y)) by ring. rewrite E. field.
Qed.
Lemma stereo_mirrored : forall v, unit_vec v -> -1 < v 2%nat -> mirrored v (inverse_project_stereographic (project_stereographic v)).
Proof.
  intros v U H. pose proof (stereo_len v U H) as L. unfold len2 in L. unfold inverse_project_stereographic.
  set (p := project_stereographic v) in *.
  assert (B : 1 + fst p * fst p + snd p * snd p = 2 / (1 + v 2%nat)) by (rewrite Rplus_assoc, L; field; lra).
  unfold mirrored, v3. rewrite B, L. unfold p, project_stereographic; cbn [fst snd]. repeat split; field; lra.
Qed.
Lemma lambert_mirrored : forall v, unit_vec v -> -1 < v 2%nat -> mirrored v (inverse_project_lambert_equal_area (project_lambert_equal_area v)).
Proof.
  intros v U H. pose proof (lambert_len v U H) as L. unfold len2 in L. unfold inverse_project_lambert_equal_area.
  set (p := project_lambert_equal_area v) in *. unfold mirrored; cbn [v3]. rewrite L.
  assert (E : sqrt (1 - 2 * (1 - v 2%nat) / 4) * sqrt (2 / (1 + v 2%nat)) = 1).
  { rewrite <- sqrt_mult; [|lra|apply Rlt_le, Rdiv_lt_0_compat; lra]. replace ((1 - 2 * (1 - v 2%nat) / 4) * (2 / (1 + v 2%nat))) with 1 by (field; lra). apply sqrt_1. }
  unfold p, project_lambert_equal_area; cbn [fst snd]. repeat split; [| |field].
  - rewrite <- Rmult_assoc, E; ring.
  - rewrite <- Rmult_assoc, E; ring.
Qed.
Lemma round_trip_refuted : exists v, unit_vec v /\ 0 < v 2%nat /\
  ~ veq 3 (inverse_project_stereographic (project_stereographic v)) v /\
  ~ veq 3 (inverse_project_lambert_equal_area (project_lambert_equal_area v)) v.
Proof.
  exists (v3 (3 / 5) 0 (4 / 5)). assert (U : unit_vec (v3 (3 / 5) 0 (4 / 5))) by (unfold unit_vec; rewrite ndot3; cbn [v3]; field).
  split; [exact U|]. split; [cbn [v3]; lra|]. destruct (stereo_mirrored _ U) as (_ & _ & S); [cbn [v3]; lra|].
  destruct (lambert_mirrored _ U) as (_ & _ & L); [cbn [v3]; lra|]. split; intros E; specialize (E 2%nat ltac:(lia)).
  - rewrite S in E; cbn [v3] in E; lra.
  - rewrite L in E; cbn [v3] in E; lra.
Qed.
(** back to the plane the point is inverted in the unit circle *)
Lemma stereo_inverted : forall p, len2 p <> 0 ->
  project_stereographic (inverse_project_stereographic p) = (fst p / len2 p, snd p / len2 p).
Proof.
  intros [X Y] H. unfold len2 in *; cbn [fst snd] in *. unfold project_stereographic, inverse_project_stereographic; cbn [fst snd v3].
  assert (1 + X * X + Y * Y <> 0) by nra. assert (E : 1 + (X * X + Y * Y - 1) / (1 + X * X + Y * Y) = 2 * (X * X + Y * Y) / (1 + X * X + Y * Y)) by (field; auto).
  rewrite E. f_equal; field; auto.
Qed.
Lemma chart_inverse : forall v, unit_vec v -> 0 <= v 2%nat -> veq 3 (chart_point (project_stereographic v)) v.
Proof.
  intros v U H. destruct (stereo_mirrored v U ltac:(lra)) as (E0 & E1 & E2). unfold chart_point.
  destruct (Rlt_dec _ 0) as [L|L]; apply veq3; cbn [v3]; auto; rewrite E2 in *; lra.
Qed.
Lemma mirrored_inj : forall u v w w', mirrored u w -> mirrored v w' -> veq 3 w w' -> veq 3 u v.
Proof.
  intros u v w w' (A & B & C) (A' & B' & C') E. pose proof (E 0%nat ltac:(lia)); pose proof (E 1%nat ltac:(lia)); pose proof (E 2%nat ltac:(lia)).
  apply veq3; lra.
Qed.
Lemma projections_injective : forall s pop lim u v, projection s = Some (pop, lim) -> unit_vec u -> unit_vec v -> -1 < u 2%nat -> -1 < v 2%nat ->
  pop u = pop v -> veq 3 u v.
Proof.
  intros s pop lim u v P U V Hu Hv E. unfold projection in P. destruct (String.eqb s "stereographic").
  - injection P as <- _. eapply mirrored_inj; [apply stereo_mirrored; auto|apply stereo_mirrored; auto|]. rewrite E. intros i _; reflexivity.
  - destruct (String.eqb s "lambert"); [|discriminate]. injection P as <- _.
    eapply mirrored_inj; [apply lambert_mirrored; auto|apply lambert_mirrored; auto|]. rewrite E. intros i _; reflexivity.
Qed.
Lemma projection_known : forall s, projection s = None <-> s <> "stereographic"%string /\ s <> "lambert"%string.
Proof.
  intros s. unfold projection. destruct (String.eqb_spec s "stereographic"); [split; [discriminate|tauto]|].
  destruct (String.eqb_spec s "lambert"); split; try discriminate; tauto.
Qed.
Lemma polar_round_trip : forall x, pol2cart (snd (cart2pol x)) (fst (cart2pol x)) = x.
Proof.
  intros [a b]. unfold pol2cart, cart2pol; cbn [fst snd]. destruct (Req_dec (a * a + b * b) 0) as [Z|N].
  - assert (a = 0) by nra. assert (b = 0) by nra. subst. rewrite Z, sqrt_0. f_equal; ring.
  - destruct (atan2_spec b a N) as [-> ->]. assert (0 < sqrt (a * a + b * b)) by (apply sqrt_lt_R0; nra). f_equal; field; lra.
Qed.
Lemma plotted_radius : forall s pop lim v, projection s = Some (pop, lim) -> unit_vec v -> -1 < v 2%nat ->
  (snd (cart2pol (pop v)) <= lim <-> 0 <= v 2%nat).
Proof.
  intros s pop lim v P U H.
  assert (G : forall p l, 0 <= l -> (snd (cart2pol p) <= l <-> len2 p <= l * l)).
  { intros p l L. unfold cart2pol; cbn [snd]. fold (len2 p). assert (0 <= len2 p) by (unfold len2; nra).
    assert (S : sqrt (len2 p) * sqrt (len2 p) = len2 p) by (apply sqrt_sqrt; auto). pose proof (sqrt_pos (len2 p)). split; intros; nra. }
  unfold projection in P. destruct (String.eqb s "stereographic").
  - injection P as <- <-. rewrite G by (unfold limit_stereographic; lra). apply stereo_disc; auto.
  - destruct (String.eqb s "lambert"); [|discriminate]. injection P as <- <-. rewrite G by apply sqrt_pos. apply lambert_disc; auto.
Qed.

(** ** The triangle *)
Lemma norm3_pos : forall v, ndot v v <> 0 -> 0 < norm3 v.
Proof. intros v H. unfold norm3. rewrite dot3_ndot. apply sqrt_lt_R0. rewrite ndot3 in *. nra. Qed.
Lemma norm3_sq : forall v, norm3 v * norm3 v = ndot v v.
Proof. intros v. unfold norm3. rewrite dot3_ndot. apply sqrt_sqrt. rewrite ndot3. nra. Qed.
Lemma normalized_unit : forall v, ndot v v <> 0 -> unit_vec (normalized v).
Proof.
  intros v H. pose proof (norm3_pos v H). pose proof (norm3_sq v) as S. unfold unit_vec, normalized. rewrite ndot3 in *.
  transitivity ((v 0%nat * v 0%nat + v 1%nat * v 1%nat + v 2%nat * v 2%nat) / (norm3 v * norm3 v)); [field; lra|]. rewrite S. field. lra.
Qed.
Lemma norm3_unit : forall v, unit_vec v -> norm3 v = 1.
Proof. intros v H. unfold norm3. rewrite dot3_ndot, H. apply sqrt_1. Qed.
Lemma normalized_again : forall v, ndot v v <> 0 -> normalized (normalized v) = normalized v.
Proof.
  intros v H. apply functional_extensionality; intros k. unfold normalized at 1. rewrite (norm3_unit _ (normalized_unit v H)). unfold Rdiv. rewrite Rinv_1. ring.
Qed.
Lemma nonneg_iff : forall x, nonneg x = true <-> 0 <= x.
Proof. intros x. unfold nonneg. destruct (Rle_dec 0 x); split; auto; try discriminate; tauto. Qed.
Lemma in_triangle_iff : forall a b c p, in_triangle a b c p = true <-> 0 <= dot3 p (cross3 a b) /\ 0 <= dot3 p (cross3 b c) /\ 0 <= dot3 p (cross3 c a).
Proof. intros. unfold in_triangle. rewrite !Bool.andb_true_iff, !nonneg_iff. tauto. Qed.
Lemma triple_expand : forall a b c p k, (k < 3)%nat ->
  triple a b c * p k = dot3 p (cross3 b c) * a k + dot3 p (cross3 c a) * b k + dot3 p (cross3 a b) * c k.
Proof.
  intros a b c p k Hk. unfold triple. rewrite ndot3. unfold dot3, cross3, ncross. destruct k as [|[|[|k]]]; try lia; ring.
Qed.
Lemma dots_combo : forall a b c p x y z, (forall k, (k < 3)%nat -> p k = x * a k + y * b k + z * c k) ->
  dot3 p (cross3 b c) = x * triple a b c /\ dot3 p (cross3 c a) = y * triple a b c /\ dot3 p (cross3 a b) = z * triple a b c.
Proof.
  intros a b c p x y z H. unfold triple. rewrite ndot3. unfold dot3. rewrite (H 0%nat), (H 1%nat), (H 2%nat) by lia. unfold cross3, ncross. repeat split; ring.
Qed.
Lemma triangle_cone : forall a b c p, 0 < triple a b c -> (in_triangle a b c p = true <-> in_cone a b c p).
Proof.
  intros a b c p T. rewrite in_triangle_iff. split.
  - intros (A & B & C). exists (dot3 p (cross3 b c) / triple a b c), (dot3 p (cross3 c a) / triple a b c), (dot3 p (cross3 a b) / triple a b c).
    assert (I : 0 < / triple a b c) by (apply Rinv_0_lt_compat; auto).
    repeat split; try (apply Rmult_le_pos; lra).
    intros k Hk. apply (Rmult_eq_reg_l (triple a b c)); [|lra]. rewrite (triple_expand a b c p k Hk). field. lra.
  - intros (x & y & z & X & Y & Z & E). destruct (dots_combo a b c p x y z E) as (A & B & C). rewrite A, B, C. repeat split; apply Rmult_le_pos; lra.
Qed.
Lemma triple_normalized : forall a b c, ndot a a <> 0 -> ndot b b <> 0 -> ndot c c <> 0 ->
  triple (normalized a) (normalized b) (normalized c) = triple a b c / (norm3 a * norm3 b * norm3 c).
Proof.
  intros a b c A B C. apply norm3_pos in A, B, C. unfold triple. rewrite !ndot3. unfold normalized, ncross. field. lra.
Qed.
Lemma cone_normalized : forall a b c p, ndot a a <> 0 -> ndot b b <> 0 -> ndot c c <> 0 ->
  (in_cone (normalized a) (normalized b) (normalized c) p <-> in_cone a b c p).
Proof.
  intros a b c p A B C. apply norm3_pos in A, B, C.
  assert (IA : 0 < / norm3 a) by (apply Rinv_0_lt_compat; auto). assert (IB : 0 < / norm3 b) by (apply Rinv_0_lt_compat; auto). assert (IC : 0 < / norm3 c) by (apply Rinv_0_lt_compat; auto).
  split; intros (x & y & z & X & Y & Z & E).
  - exists (x / norm3 a), (y / norm3 b), (z / norm3 c). repeat split; try (apply Rmult_le_pos; lra).
    intros k Hk. rewrite (E k Hk). unfold normalized. field. lra.
  - exists (x * norm3 a), (y * norm3 b), (z * norm3 c). repeat split; try (apply Rmult_le_pos; lra).
    intros k Hk. rewrite (E k Hk). unfold normalized. field. lra.
Qed.
Lemma triple_nonzero : forall a b c, triple a b c <> 0 -> ndot a a <> 0 /\ ndot b b <> 0 /\ ndot c c <> 0.
Proof.
  intros a b c T. unfold triple in T. rewrite !ndot3 in *. unfold ncross in T.
  repeat split; intros E; apply T.
  - assert (a 0%nat = 0) by nra. assert (a 1%nat = 0) by nra. assert (a 2%nat = 0) by nra. rewrite H, H0, H1. ring.
  - assert (b 0%nat = 0) by nra. assert (b 1%nat = 0) by nra. assert (b 2%nat = 0) by nra. rewrite H, H0, H1. ring.
  - assert (c 0%nat = 0) by nra. assert (c 1%nat = 0) by nra. assert (c 2%nat = 0) by nra. rewrite H, H0, H1. ring.
Qed.
Lemma reduce_ok : forall pts a b c p, 0 < triple a b c ->
  (In p (fst (reduce_points_triangle pts (a, b, c))) <-> In p pts /\ in_cone a b c p).
Proof.
  intros pts a b c p T. unfold reduce_points_triangle, tri_norm. cbn [fst]. rewrite filter_In.
  destruct (triple_nonzero a b c ltac:(lra)) as (A & B & C).
  rewrite triangle_cone; [rewrite cone_normalized by auto; tauto|]. rewrite triple_normalized by auto.
  apply Rdiv_lt_0_compat; [auto|]. apply Rmult_lt_0_compat; [apply Rmult_lt_0_compat|]; apply norm3_pos; auto.
Qed.
(** corners given the other way round *)
Lemma reduce_reversed : forall pts a b c p, 0 < triple a b c -> in_open_cone a b c p ->
  ~ In p (fst (reduce_points_triangle pts (b, a, c))).
Proof.
  intros pts a b c p T (x & y & z & X & Y & Z & E). unfold reduce_points_triangle, tri_norm. cbn [fst]. rewrite filter_In. intros [_ I].
  destruct (triple_nonzero a b c ltac:(lra)) as (A & B & C). apply norm3_pos in A, B, C.
  apply in_triangle_iff in I as (I & _ & _). unfold dot3, cross3, normalized in I. rewrite (E 0%nat), (E 1%nat), (E 2%nat) in I by lia.
  set (na := norm3 a) in *; set (nb := norm3 b) in *. set (S := _ + _ + _) in I.
  assert (Q : S * (na * nb) = - z * triple a b c). { unfold S, triple. rewrite ndot3. unfold ncross. field. lra. }
  assert (0 < na * nb) by (apply Rmult_lt_0_compat; auto). assert (0 <= S * (na * nb)) by (apply Rmult_le_pos; lra).
  assert (0 < z * triple a b c) by (apply Rmult_lt_0_compat; auto). lra.
Qed.
(** the arrays are normalised in place: later calls give the same *)
Lemma tri_norm_again : forall a b c, triple a b c <> 0 -> tri_norm (tri_norm (a, b, c)) = tri_norm (a, b, c).
Proof. intros a b c T. destruct (triple_nonzero a b c T) as (A & B & C). unfold tri_norm. rewrite !normalized_again by auto. reflexivity. Qed.
Lemma tstep_tri : forall t c, snd (tstep t c) = tri_norm t.
Proof.
  intros [[a b] c0] [pts|pts]; unfold tstep, reduce_points_triangle, ipf_color, tri_norm; reflexivity.
Qed.
Lemma tstep_norm : forall a b c k, triple a b c <> 0 -> fst (tstep (tri_norm (a, b, c)) k) = fst (tstep (a, b, c) k).
Proof.
  intros a b c k T. pose proof (tri_norm_again a b c T) as N.
  destruct k; unfold tstep, reduce_points_triangle, ipf_color; rewrite N; destruct (tri_norm (a, b, c)) as [[u v] w]; reflexivity.
Qed.
Lemma tcalls_independent : forall cs a b c, triple a b c <> 0 -> tcalls (a, b, c) cs = map (fun k => fst (tstep (a, b, c) k)) cs.
Proof.
  intros cs a b c T.
  assert (G : forall cs, tcalls (tri_norm (a, b, c)) cs = map (fun k => fst (tstep (a, b, c) k)) cs).
  { clear cs. induction cs as [|k cs IH]; [reflexivity|]. cbn [tcalls map]. rewrite <- tstep_norm by auto.
    pose proof (tstep_tri (tri_norm (a, b, c)) k) as E. rewrite tri_norm_again in E by auto.
    destruct (tstep (tri_norm (a, b, c)) k) as [r t']. cbn [fst snd] in *. subst t'. rewrite IH. reflexivity. }
  destruct cs as [|k cs]; [reflexivity|]. cbn [tcalls map]. pose proof (tstep_tri (a, b, c) k) as E. destruct (tstep (a, b, c) k) as [r t'].
  cbn [fst snd] in *. subst t'. rewrite G. reflexivity.
Qed.
(** points of the boundary *)
Lemma edge_in_cone : forall a b c f, 0 <= f <= 1 -> ndot (fun k => f * a k + (1 - f) * b k) (fun k => f * a k + (1 - f) * b k) <> 0 ->
  in_cone a b c (edge_point a b f) /\ unit_vec (edge_point a b f) /\ ndot (edge_point a b f) (ncross a b) = 0.
Proof.
  intros a b c f F N. split; [|split].
  - pose proof (norm3_pos _ N) as P. assert (I := Rinv_0_lt_compat _ P). set (n := norm3 _) in *.
    exists (f / n), ((1 - f) / n), 0. repeat split; try lra; try (apply Rmult_le_pos; lra).
    intros k Hk. unfold edge_point, normalized. fold n. field. lra.
  - apply normalized_unit; exact N.
  - rewrite ndot3. unfold edge_point, normalized, ncross. set (n := norm3 _). unfold Rdiv. ring.
Qed.
(** and every point of the side is reached *)
Lemma edge_reached : forall a b p x y, unit_vec p -> 0 <= x -> 0 <= y -> (forall k, (k < 3)%nat -> p k = x * a k + y * b k) ->
  exists f, 0 <= f <= 1 /\ veq 3 (edge_point a b f) p.
Proof.
  intros a b p x y U X Y E. unfold unit_vec in U. rewrite ndot3 in U.
  assert (S : 0 < x + y).
  { destruct (Req_dec x 0) as [A|A]; [|lra]. destruct (Req_dec y 0) as [B|B]; [|lra]. exfalso. rewrite (E 0%nat), (E 1%nat), (E 2%nat), A, B in U by lia. lra. }
  exists (x / (x + y)). split.
  { split; [apply Rmult_le_pos; [lra|apply Rlt_le, Rinv_0_lt_compat; lra]|]. apply (Rmult_le_reg_r (x + y)); [lra|]. replace (x / (x + y) * (x + y)) with x by (field; lra). lra. }
  assert (N : norm3 (fun k => x / (x + y) * a k + (1 - x / (x + y)) * b k) = / (x + y)).
  { unfold norm3, dot3.
    assert (F : forall k, (k < 3)%nat -> x / (x + y) * a k + (1 - x / (x + y)) * b k = p k * / (x + y)) by (intros k Hk; rewrite (E k Hk); field; lra).
    rewrite !F by lia. replace (p 0%nat * / (x + y) * (p 0%nat * / (x + y)) + p 1%nat * / (x + y) * (p 1%nat * / (x + y)) + p 2%nat * / (x + y) * (p 2%nat * / (x + y)))
      with ((p 0%nat * p 0%nat + p 1%nat * p 1%nat + p 2%nat * p 2%nat) * (/ (x + y) * / (x + y))) by ring.
    rewrite U, Rmult_1_l. apply sqrt_square. apply Rlt_le, Rinv_0_lt_compat; lra. }
  intros k Hk. unfold edge_point, normalized. rewrite N, (E k Hk). field. lra.
Qed.

(** ** Colours *)
Lemma least_ok : forall v a b c, let m := least v (a, b, c) in
  m <= 1 /\ m <= ndot v a /\ m <= ndot v b /\ m <= ndot v c /\ (m = 1 \/ m = ndot v a \/ m = ndot v b \/ m = ndot v c).
Proof.
  intros v a b c. unfold least. cbn [fold_left]. rewrite !dot3_ndot. cbv zeta.
  generalize (ndot v a) (ndot v b) (ndot v c); intros x y z.
  destruct (Rlt_dec x 1); [destruct (Rlt_dec y x); [destruct (Rlt_dec z y)|destruct (Rlt_dec z x)]|destruct (Rlt_dec y 1); [destruct (Rlt_dec z y)|destruct (Rlt_dec z 1)]];
    (repeat split; try lra; first [left; lra|right; left; lra|right; right; left; lra|right; right; right; lra]).
Qed.
Lemma cauchy3 : forall a b, unit_vec a -> unit_vec b -> ndot a b <= 1.
Proof.
  intros a b A B. unfold unit_vec in *. rewrite !ndot3 in *.
  pose proof (Rle_0_sqr (a 0%nat - b 0%nat)); pose proof (Rle_0_sqr (a 1%nat - b 1%nat)); pose proof (Rle_0_sqr (a 2%nat - b 2%nat)). unfold Rsqr in *. lra.
Qed.
Lemma cone_weights : forall a b c p x y z, unit_vec a -> unit_vec b -> unit_vec c -> unit_vec p -> 0 <= x -> 0 <= y -> 0 <= z ->
  (forall k, (k < 3)%nat -> p k = x * a k + y * b k + z * c k) -> 1 <= x + y + z.
Proof.
  intros a b c p x y z A B C P X Y Z E.
  assert (Q : ndot p p = x * ndot p a + y * ndot p b + z * ndot p c).
  { rewrite !ndot3. rewrite (E 0%nat) at 2 by lia. rewrite (E 1%nat) at 2 by lia. rewrite (E 2%nat) at 2 by lia. ring. }
  rewrite P in Q. pose proof (cauchy3 p a P A). pose proof (cauchy3 p b P B). pose proof (cauchy3 p c P C). nra.
Qed.
Lemma channel_range : forall v a b c p, unit_vec a -> unit_vec b -> unit_vec c -> unit_vec p -> unit_vec v -> In v [a; b; c] ->
  0 <= ndot a b -> 0 <= ndot b c -> 0 <= ndot c a -> least v (a, b, c) < 1 -> in_cone a b c p ->
  0 <= channel v (a, b, c) p <= 1.
Proof.
  intros v a b c p A B C P V I AB BC CA L (x & y & z & X & Y & Z & E).
  pose proof (cone_weights a b c p x y z A B C P X Y Z E) as W.
  pose proof (least_ok v a b c) as M. cbn zeta in M. destruct M as (M1 & Ma & Mb & Mc & D). set (m := least v (a, b, c)) in *.
  assert (M0 : 0 <= m).
  { assert (S : forall u w, ndot u w = ndot w u) by (intros; rewrite !ndot3; ring). rewrite (S c a) in CA.
    unfold unit_vec in *. cbn [In] in I. destruct I as [<-|[<-|[<-|[]]]]; rewrite ?(S b a), ?(S c b), ?(S c a) in D; lra. }
  unfold channel. fold m. rewrite dot3_ndot.
  assert (Q : ndot v p = x * ndot v a + y * ndot v b + z * ndot v c).
  { rewrite !ndot3. rewrite (E 0%nat), (E 1%nat), (E 2%nat) by lia. ring. }
  assert (U := cauchy3 v p V P). assert (m <= ndot v p) by (rewrite Q; nra).
  assert (J : 0 < / (1 - m)) by (apply Rinv_0_lt_compat; lra). split.
  - apply Rmult_le_pos; lra.
  - apply (Rmult_le_reg_r (1 - m)); [lra|]. replace ((ndot v p - m) / (1 - m) * (1 - m)) with (ndot v p - m) by (field; lra). lra.
Qed.
Lemma ipf_color_nth : forall pts t i, nth_error (fst (ipf_color pts t)) i =
  option_map (fun p => let '(a, b, c) := tri_norm t in (channel a (tri_norm t) p, channel b (tri_norm t) p, channel c (tri_norm t) p)) (nth_error pts i).
Proof.
  intros pts t i. unfold ipf_color. destruct (tri_norm t) as [[a b] c]. cbn [fst]. apply nth_error_map.
Qed.
Lemma ndot_normalized : forall a b, ndot a a <> 0 -> ndot b b <> 0 -> ndot (normalized a) (normalized b) = ndot a b / (norm3 a * norm3 b).
Proof. intros a b A B. apply norm3_pos in A, B. rewrite !ndot3. unfold normalized. field. lra. Qed.
(** two independent unit vectors have a product below one *)
Lemma independent_below : forall a b c, unit_vec a -> unit_vec b -> triple a b c <> 0 -> ndot a b < 1.
Proof.
  intros a b c A B T. destruct (cauchy3 a b A B) as [H|H]; [exact H|exfalso]. apply T.
  unfold unit_vec in *. rewrite !ndot3 in *.
  assert (D : (a 0%nat - b 0%nat) * (a 0%nat - b 0%nat) + (a 1%nat - b 1%nat) * (a 1%nat - b 1%nat) + (a 2%nat - b 2%nat) * (a 2%nat - b 2%nat) = 0) by lra.
  assert (Q : forall x y z : R, x * x + y * y + z * z = 0 -> x = 0 /\ y = 0 /\ z = 0) by (intros x y z E; assert (x * x = 0) by nra; assert (y * y = 0) by nra; assert (z * z = 0) by nra; repeat split; nra).
  apply Q in D as (D0 & D1 & D2). assert (H0 : a 0%nat = b 0%nat) by lra. assert (H1 : a 1%nat = b 1%nat) by lra. assert (H2 : a 2%nat = b 2%nat) by lra.
  unfold triple. rewrite ndot3. unfold ncross. rewrite H0, H1, H2. ring.
Qed.
Lemma triple_cycle : forall a b c, triple b c a = triple a b c.
Proof. intros. unfold triple. rewrite !ndot3. unfold ncross. ring. Qed.
Lemma color_range : forall pts a b c i p col, 0 < triple a b c -> 0 <= ndot a b -> 0 <= ndot b c -> 0 <= ndot c a ->
  nth_error pts i = Some p -> unit_vec p -> in_cone a b c p -> nth_error (fst (ipf_color pts (a, b, c))) i = Some col ->
  0 <= fst (fst col) <= 1 /\ 0 <= snd (fst col) <= 1 /\ 0 <= snd col <= 1.
Proof.
  intros pts a b c i p col T AB BC CA N P K E. rewrite ipf_color_nth, N in E. cbn [option_map tri_norm] in E. injection E as <-. cbn [fst snd].
  destruct (triple_nonzero a b c ltac:(lra)) as (A & B & C).
  pose proof (normalized_unit a A) as UA. pose proof (normalized_unit b B) as UB. pose proof (normalized_unit c C) as UC.
  assert (T' : triple (normalized a) (normalized b) (normalized c) <> 0).
  { rewrite triple_normalized by auto. pose proof (norm3_pos a A). pose proof (norm3_pos b B). pose proof (norm3_pos c C).
    apply Rgt_not_eq, Rdiv_lt_0_compat; [auto|]. repeat apply Rmult_lt_0_compat; auto. }
  apply (cone_normalized a b c p A B C) in K.
  assert (G : forall u w, ndot u u <> 0 -> ndot w w <> 0 -> 0 <= ndot u w -> 0 <= ndot (normalized u) (normalized w)).
  { intros u w U W H. rewrite ndot_normalized by auto. apply Rmult_le_pos; [auto|]. apply Rlt_le, Rinv_0_lt_compat, Rmult_lt_0_compat; apply norm3_pos; auto. }
  pose proof (G a b A B AB) as AB'. pose proof (G b c B C BC) as BC'. pose proof (G c a C A CA) as CA'.
  set (a' := normalized a) in *; set (b' := normalized b) in *; set (c' := normalized c) in *. clearbody a' b' c'.
  assert (La : ndot a' b' < 1) by (apply (independent_below a' b' c'); auto).
  assert (Lb : ndot b' c' < 1) by (apply (independent_below b' c' a'); [auto|auto|rewrite triple_cycle; auto]).
  assert (Lc : ndot c' a' < 1) by (apply (independent_below c' a' b'); [auto|auto|do 2 rewrite triple_cycle; auto]).
  repeat split; (apply channel_range; [assumption..|cbn [In]; tauto|assumption|assumption|assumption| |assumption]).
  all: match goal with |- least ?v _ < 1 => pose proof (least_ok v a' b' c') as M; cbn zeta in M; lra end.
Qed.
Lemma color_corner : forall pts a b c i p col, 0 < triple a b c -> nth_error pts i = Some p ->
  nth_error (fst (ipf_color pts (a, b, c))) i = Some col ->
  (veq 3 p (normalized a) -> fst (fst col) = 1) /\ (veq 3 p (normalized b) -> snd (fst col) = 1) /\ (veq 3 p (normalized c) -> snd col = 1).
Proof.
  intros pts a b c i p col T N E. rewrite ipf_color_nth, N in E. cbn [option_map tri_norm] in E. injection E as <-. cbn [fst snd].
  destruct (triple_nonzero a b c ltac:(lra)) as (A & B & C).
  pose proof (normalized_unit a A) as UA. pose proof (normalized_unit b B) as UB. pose proof (normalized_unit c C) as UC.
  assert (T' : triple (normalized a) (normalized b) (normalized c) <> 0).
  { rewrite triple_normalized by auto. pose proof (norm3_pos a A). pose proof (norm3_pos b B). pose proof (norm3_pos c C).
    apply Rgt_not_eq, Rdiv_lt_0_compat; [auto|]. repeat apply Rmult_lt_0_compat; auto. }
  set (a' := normalized a) in *; set (b' := normalized b) in *; set (c' := normalized c) in *. clearbody a' b' c'.
  assert (La : ndot a' b' < 1) by (apply (independent_below a' b' c'); auto).
  assert (Lb : ndot b' c' < 1) by (apply (independent_below b' c' a'); [auto|auto|rewrite triple_cycle; auto]).
  assert (Lc : ndot c' a' < 1) by (apply (independent_below c' a' b'); [auto|auto|do 2 rewrite triple_cycle; auto]).
  assert (G : forall v, veq 3 p v -> unit_vec v -> least v (a', b', c') < 1 -> channel v (a', b', c') p = 1).
  { intros v V U L. unfold channel. rewrite dot3_ndot. replace (ndot v p) with 1; [field; lra|].
    rewrite <- U, !ndot3. rewrite (V 0%nat), (V 1%nat), (V 2%nat) by lia. reflexivity. }
  repeat split; intros V; apply G; try assumption.
  all: match goal with |- least ?v _ < 1 => pose proof (least_ok v a' b' c') as M; cbn zeta in M; lra end.
Qed.
(** with an obtuse side a channel leaves the range *)
Lemma color_range_refuted : exists a b c p col, unit_vec a /\ unit_vec b /\ unit_vec c /\ unit_vec p /\ 0 < triple a b c /\ in_cone a b c p /\
  fst (ipf_color [p] (a, b, c)) = [col] /\ fst (fst col) < 0.
Proof.
  set (a := v3 1 0 0). set (b := v3 (- 3 / 5) (4 / 5) 0). set (c := v3 (- 3 / 5) 0 (4 / 5)). set (p := v3 (- 2 / 3) (1 / 3) (2 / 3)).
  assert (UA : unit_vec a) by (unfold unit_vec; rewrite ndot3; cbn; lra).
  assert (UB : unit_vec b) by (unfold unit_vec; rewrite ndot3; cbn; lra).
  assert (UC : unit_vec c) by (unfold unit_vec; rewrite ndot3; cbn; lra).
  set (T := (normalized a, normalized b, normalized c)).
  exists a, b, c, p, (channel (normalized a) T p, channel (normalized b) T p, channel (normalized c) T p). repeat split; try assumption.
  - unfold unit_vec; rewrite ndot3; cbn; lra.
  - unfold triple; rewrite ndot3; cbn; lra.
  - exists (1 / 12), (5 / 12), (5 / 6). repeat split; try lra. intros [|[|[|k]]] Hk; try lia; cbn; lra.
  - cbn [fst]. assert (N : forall v, unit_vec v -> normalized v = v).
    { intros v V. apply functional_extensionality; intros k. unfold normalized. rewrite norm3_unit by auto. field. }
    unfold T. rewrite (N a UA), (N b UB), (N c UC). unfold channel. rewrite dot3_ndot.
    pose proof (least_ok a a b c) as M. cbv zeta in M. generalize dependent (least a (a, b, c)); intros m M. rewrite !ndot3 in M. cbn in M. rewrite ndot3. cbn.
    assert (m = - 3 / 5) by lra. rewrite H. lra.
Qed.
(** the chart shows at each point the colour of the direction drawn there *)
Lemma channel_ext : forall v t p p', veq 3 p p' -> channel v t p = channel v t p'.
Proof. intros v t p p' H. unfold channel, dot3. rewrite (H 0%nat), (H 1%nat), (H 2%nat) by lia. reflexivity. Qed.
Lemma chart_color_ok : forall t v, unit_vec v -> 0 <= v 2%nat -> fst (chart_color t (project_stereographic v)) = fst (ipf_color [v] t).
Proof.
  intros t v U H. unfold chart_color, ipf_color. destruct (tri_norm t) as [[a b] c]. cbn [fst map].
  pose proof (chart_inverse v U H) as E. rewrite !(channel_ext _ _ _ _ E). reflexivity.
Qed.
