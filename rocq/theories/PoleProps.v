(** Pole figures and inverse pole figures *)
From Coq Require Import String ZArith.
From Verif Require Import Base.
From Verif Require Import Diff.
From Verif Require Import NemlMathModel NemlMathSpec RotModel RotSpec RotProofs.
From Verif Require Import CrystModel CrystSpec CrystProofs CrystLattice.
From Verif Require Import PoleModel PoleSpec PoleProofs PoleFig PoleIpf PoleEx.
From Coq Require Import Lia Lra List.
Import ListNotations.
Open Scope R_scope.

(** ** C90 *)
(** the stereographic projection: where the line from the south pole meets the plane of the plot *)
Theorem C90_stereographic : forall v, -1 < v 2%nat -> let p := project_stereographic v in
  exists s, fst p = s * v 0%nat /\ snd p = s * v 1%nat /\ 0 = -1 + s * (v 2%nat + 1).
Proof. exact @stereo_line. Qed.
Print Assumptions C90_stereographic.
(** it scales all small distances about a point alike *)
Theorem C90_stereographic_conformal : forall u v, unit_vec u -> unit_vec v -> -1 < u 2%nat -> -1 < v 2%nat ->
  dist2 (project_stereographic u) (project_stereographic v) =
  ((u 0%nat - v 0%nat) * (u 0%nat - v 0%nat) + (u 1%nat - v 1%nat) * (u 1%nat - v 1%nat) + (u 2%nat - v 2%nat) * (u 2%nat - v 2%nat))
  / ((1 + u 2%nat) * (1 + v 2%nat)).
Proof. exact @stereo_conformal. Qed.
Print Assumptions C90_stereographic_conformal.
(** the Lambert projection keeps areas: the determinant in terms of height and azimuth *)
Theorem C90_lambert_area : forall (w : R -> R -> vec) z t, -1 < z < 1 -> (forall z t, -1 < z < 1 -> on_sphere z t (w z t)) ->
  let X z t := fst (project_lambert_equal_area (w z t)) in let Y z t := snd (project_lambert_equal_area (w z t)) in
  exists Xz Xt Yz Yt, is_derive (fun z => X z t) z Xz /\ is_derive (fun t => X z t) t Xt /\
    is_derive (fun z => Y z t) z Yz /\ is_derive (fun t => Y z t) t Yt /\ Rabs (Xz * Yt - Xt * Yz) = 1.
Proof. exact @lambert_area. Qed.
Print Assumptions C90_lambert_area.
(** the squared radius is the squared distance to the north pole *)
Theorem C90_lambert_radius : forall v, unit_vec v -> -1 < v 2%nat -> len2 (project_lambert_equal_area v) = 2 * (1 - v 2%nat).
Proof. exact @lambert_len. Qed.
Print Assumptions C90_lambert_radius.
(** both keep the azimuth *)
Theorem C90_azimuth : forall v, -1 < v 2%nat -> exists s r, 0 < s /\ 0 < r /\
  project_stereographic v = (s * v 0%nat, s * v 1%nat) /\ project_lambert_equal_area v = (r * v 0%nat, r * v 1%nat).
Proof. exact @azimuth. Qed.
Print Assumptions C90_azimuth.
(** the upper half sphere, and nothing else, falls within the limit of the plot *)
Theorem C90_limits : forall s pop lim v, projection s = Some (pop, lim) -> unit_vec v -> -1 < v 2%nat ->
  (snd (cart2pol (pop v)) <= lim <-> 0 <= v 2%nat).
Proof. exact @plotted_radius. Qed.
Print Assumptions C90_limits.
(** different directions are drawn at different points *)
Theorem C90_injective : forall s pop lim u v, projection s = Some (pop, lim) -> unit_vec u -> unit_vec v -> -1 < u 2%nat -> -1 < v 2%nat ->
  pop u = pop v -> veq 3 u v.
Proof. exact @projections_injective. Qed.
Print Assumptions C90_injective.
(** any other name is refused *)
Theorem C90_projection_names : forall s, projection s = None <-> s <> "stereographic"%string /\ s <> "lambert"%string.
Proof. exact @projection_known. Qed.
Print Assumptions C90_projection_names.
(** polar coordinates and back *)
Theorem C90_polar : forall x, pol2cart (snd (cart2pol x)) (fst (cart2pol x)) = x.
Proof. exact @polar_round_trip. Qed.
Print Assumptions C90_polar.
(** the inverse projections give unit vectors *)
Theorem C90_inverse_sphere : forall p, unit_vec (inverse_project_stereographic p).
Proof. exact @inv_stereo_sphere. Qed.
Print Assumptions C90_inverse_sphere.
Theorem C90_inverse_lambert_sphere : forall p, len2 p <= 4 -> unit_vec (inverse_project_lambert_equal_area p).
Proof. exact @inv_lambert_sphere. Qed.
Print Assumptions C90_inverse_lambert_sphere.
(** but the inverse of the projection of a vector is its mirror image *)
Theorem C90_inverse_mirrored_partial : forall v, unit_vec v -> -1 < v 2%nat -> mirrored v (inverse_project_stereographic (project_stereographic v)).
Proof. exact @stereo_mirrored. Qed.
Print Assumptions C90_inverse_mirrored_partial.
Theorem C90_inverse_lambert_mirrored_partial : forall v, unit_vec v -> -1 < v 2%nat -> mirrored v (inverse_project_lambert_equal_area (project_lambert_equal_area v)).
Proof. exact @lambert_mirrored. Qed.
Print Assumptions C90_inverse_lambert_mirrored_partial.
(** so neither inverse gives back a direction of the upper half sphere *)
Theorem C90_inverse_refuted : exists v, unit_vec v /\ 0 < v 2%nat /\
  ~ veq 3 (inverse_project_stereographic (project_stereographic v)) v /\
  ~ veq 3 (inverse_project_lambert_equal_area (project_lambert_equal_area v)) v.
Proof. exact @round_trip_refuted. Qed.
Print Assumptions C90_inverse_refuted.
(** nor the projection of the inverse a point of the plot *)
Theorem C90_inverse_circle_refuted : forall p, len2 p <> 0 ->
  project_stereographic (inverse_project_stereographic p) = (fst p / len2 p, snd p / len2 p).
Proof. exact @stereo_inverted. Qed.
Print Assumptions C90_inverse_circle_refuted.
(** the colour chart, which undoes the reflection, shows at every point the colour of the direction drawn there *)
Theorem C90_chart : forall t v, unit_vec v -> 0 <= v 2%nat -> fst (chart_color t (project_stereographic v)) = fst (ipf_color [v] t).
Proof. exact @chart_color_ok. Qed.
Print Assumptions C90_chart.
(** the points of a pole figure: each crystal direction of the family, turned into the frame of the sample *)
Theorem C90_poles : forall os srot ops ssym p w, (forall R, In R ops -> unitq R) -> ndot p p <> 0 -> images_apart ops p ->
  (listed w (pole_points os srot ops ssym p) <->
   exists R S o, In R ops /\ In S ssym /\ In o os /\ veq 3 w (apply_v srot (apply_v (oinv o) (apply_v S (apply_v R (normalized p)))))).
Proof. exact @pole_points_listed. Qed.
Print Assumptions C90_poles.
Theorem C90_poles_unit : forall os srot ops ssym p w, unitq srot -> (forall R, In R ops -> unitq R) -> (forall S, In S ssym -> unitq S) -> (forall o, In o os -> unitq o) ->
  ndot p p <> 0 -> In w (pole_points os srot ops ssym p) -> unit_vec w.
Proof. exact @pole_unit. Qed.
Print Assumptions C90_poles_unit.
(** the plot shows exactly the points of the upper half sphere, within its limit *)
Theorem C90_pole_figure : forall m2d ops os pole proj ssym x y pts lim, unit_vec x -> unit_vec y -> ndot x y = 0 ->
  (forall R, In R ops -> unitq R) -> (forall S, In S ssym -> unitq S) -> (forall o, In o os -> unitq o) ->
  pole_figure_discrete m2d ops os pole proj ssym x y = Some (pts, lim) ->
  exists srot p pop, setVectors x y = Some srot /\ m2d pole = Some p /\ projection proj = Some (pop, lim) /\
    (ndot p p <> 0 -> forall a, In a pts -> 0 <= snd a <= lim) /\
    (forall a, In a pts -> exists w, In w (pole_points os srot ops ssym p) /\ 0 <= w 2%nat /\ pol2cart (snd a) (fst a) = pop w) /\
    (forall w, In w (pole_points os srot ops ssym p) -> 0 <= w 2%nat -> exists a, In a pts /\ pol2cart (snd a) (fst a) = pop w).
Proof. exact @pole_figure_ok. Qed.
Print Assumptions C90_pole_figure.
(** a figure without points is not an empty plot, it raises *)
Theorem C90_pole_figure_empty_refuted : forall m2d ops os pole proj ssym x y srot p, setVectors x y = Some srot -> m2d pole = Some p ->
  (pole_figure_discrete m2d ops os pole proj ssym x y = None <->
   projection proj = None \/ forall w, In w (pole_points os srot ops ssym p) -> w 2%nat < 0).
Proof. exact @pole_figure_empty. Qed.
Print Assumptions C90_pole_figure_empty_refuted.
(** the sample vector is turned into the frame of x and y *)
Theorem C90_pole_axes : forall x y v, unit_vec x -> unit_vec y -> ndot x y = 0 -> exists srot, setVectors x y = Some srot /\ unitq srot /\
  forall k, (k < 3)%nat -> apply_v srot v k = v 0%nat * x k + v 1%nat * y k + v 2%nat * ncross x y k.
Proof. exact @axes_apply. Qed.
Print Assumptions C90_pole_axes.
(** so that the direction given as the x axis of the plot need not be drawn on that axis *)
Theorem C90_pole_axes_refuted : exists x y srot, unit_vec x /\ unit_vec y /\ ndot x y = 0 /\ setVectors x y = Some srot /\
  apply_v srot x 0%nat = 0 /\ apply_v srot x 2%nat = 1.
Proof. exact @axes_refuted. Qed.
Print Assumptions C90_pole_axes_refuted.
(** equivalent orientations give the same figure, if the sample operators are among the crystal operators *)
Theorem C90_pole_crystal_symmetry_partial : forall os srot ops ssym p R, rot_group ops -> rot_group ssym -> contained ssym ops -> ndot p p <> 0 -> images_apart ops p ->
  In R ops -> same_points (pole_points (map (qmul R) os) srot ops ssym p) (pole_points os srot ops ssym p).
Proof. exact @pole_crystal. Qed.
Print Assumptions C90_pole_crystal_symmetry_partial.
(** the sample symmetry is not a symmetry of the figure: the defaults, a cubic crystal *)
Theorem C90_pole_sample_symmetry_refuted : exists srot S w, setVectors (v3 1 0 0) (v3 0 1 0) = Some srot /\ In S (slice 0 4 tetragonal) /\
  listed w (pole_points [q34] srot cubic (slice 0 4 tetragonal) (v3 1 0 0)) /\ 0 <= w 2%nat /\ 0 <= apply_v S w 2%nat /\
  ~ listed (apply_v S w) (pole_points [q34] srot cubic (slice 0 4 tetragonal) (v3 1 0 0)).
Proof. exact @sample_symmetry_refuted. Qed.
Print Assumptions C90_pole_sample_symmetry_refuted.
(** with a cubic crystal the sample symmetry changes nothing *)
Theorem C90_pole_sample_symmetry_idle_refuted : forall os srot ops ssym p, rot_group ops -> rot_group ssym -> contained ssym ops -> ndot p p <> 0 -> images_apart ops p ->
  same_points (pole_points os srot ops ssym p) (pole_points os srot ops [qone] p).
Proof. exact @pole_idle. Qed.
Print Assumptions C90_pole_sample_symmetry_idle_refuted.
(** the points of an inverse pole figure: the components along the chosen lattice directions *)
Theorem C90_inverse_points : forall m2d ops q d ssym x y x' y', m2d x = Some x' -> m2d y = Some y' -> ndot x' x' <> 0 -> ndot y' y' <> 0 -> ndot x' y' = 0 ->
  exists pts, project_ipf m2d ops q d ssym x y = Some pts /\ forall w, listed w pts <->
    0 < w 2%nat /\ exists S R, In S ssym /\ In R ops /\ let c := apply_v R (apply_v q (apply_v S (normalized d))) in
      w 0%nat = ndot (normalized x') c /\ w 1%nat = ndot (normalized y') c /\ w 2%nat = ndot (ncross (normalized x') (normalized y')) c.
Proof. exact @project_ipf_listed. Qed.
Print Assumptions C90_inverse_points.
Theorem C90_inverse_points_unit : forall m2d ops q d ssym x y x' y' pts w, m2d x = Some x' -> m2d y = Some y' -> ndot x' x' <> 0 -> ndot y' y' <> 0 -> ndot x' y' = 0 ->
  (forall R, In R ops -> unitq R) -> (forall S, In S ssym -> unitq S) -> unitq q -> ndot d d <> 0 ->
  project_ipf m2d ops q d ssym x y = Some pts -> In w pts -> unit_vec w /\ 0 < w 2%nat.
Proof. exact @project_ipf_unit. Qed.
Print Assumptions C90_inverse_points_unit.
(** lattice directions that are not orthogonal are refused *)
Theorem C90_inverse_axes_refused : forall m2d ops q d ssym x y x' y', m2d x = Some x' -> m2d y = Some y' -> ndot x' x' <> 0 -> ndot y' y' <> 0 ->
  (project_ipf m2d ops q d ssym x y = None <-> 1e-8 * (norm3 x' * norm3 y') < Rabs (ndot x' y')).
Proof. exact @project_ipf_rejects. Qed.
Print Assumptions C90_inverse_axes_refused.
(** orientations equivalent by crystal or sample symmetry give the same points *)
Theorem C90_inverse_symmetry : forall m2d ops q d ssym x y R S, rot_group ops -> rot_group ssym -> unitq q -> In R ops -> In S ssym ->
  match project_ipf m2d ops (qmul R (qmul q S)) d ssym x y, project_ipf m2d ops q d ssym x y with
  | Some a, Some b => same_points a b
  | None, None => True
  | _, _ => False
  end.
Proof. exact @project_ipf_symmetry. Qed.
Print Assumptions C90_inverse_symmetry.
(** without sample symmetry: the crystal direction is drawn at the sample direction in the pole figure exactly if the converse holds in the inverse one *)
Theorem C90_duality : forall o ops p d, rot_group ops -> unitq o -> ndot p p <> 0 -> ndot d d <> 0 -> images_apart ops p ->
  (listed (normalized d) (pole_points [o] qone ops [qone] p) <-> listed (normalized p) (ipf_sphere qone o ops [qone] d)).
Proof. exact @duality. Qed.
Print Assumptions C90_duality.
(** a direction in the plane of the plot is not shown *)
Theorem C90_inverse_equator_refuted : forall a l, 0 < a -> symmetry_rotations "1" = Some l ->
  project_ipf (miller2cart_direction (cubic_cell a)) l qone (v3 1 0 0) l [1; 0; 0]%Z [0; 1; 0]%Z = Some [].
Proof. exact @equator_lost. Qed.
Print Assumptions C90_inverse_equator_refuted.
(** the reduction keeps the points inside the triangle of three right handed corners *)
Theorem C90_triangle : forall pts a b c p, 0 < triple a b c ->
  (In p (fst (reduce_points_triangle pts (a, b, c))) <-> In p pts /\ in_cone a b c p).
Proof. exact @reduce_ok. Qed.
Print Assumptions C90_triangle.
(** and none of them for left handed corners *)
Theorem C90_triangle_reversed_refuted : forall pts a b c p, 0 < triple a b c -> in_open_cone a b c p ->
  ~ In p (fst (reduce_points_triangle pts (b, a, c))).
Proof. exact @reduce_reversed. Qed.
Print Assumptions C90_triangle_reversed_refuted.
(** the corners are normalised in place, yet no call depends on the earlier ones *)
Theorem C90_triangle_calls : forall cs a b c, triple a b c <> 0 -> tcalls (a, b, c) cs = map (fun k => fst (tstep (a, b, c) k)) cs.
Proof. exact @tcalls_independent. Qed.
Print Assumptions C90_triangle_calls.
(** the drawn boundary lies in the triangle, on the great circles of its corners *)
Theorem C90_edges : forall a b c f, 0 <= f <= 1 -> ndot (fun k => f * a k + (1 - f) * b k) (fun k => f * a k + (1 - f) * b k) <> 0 ->
  in_cone a b c (edge_point a b f) /\ unit_vec (edge_point a b f) /\ ndot (edge_point a b f) (ncross a b) = 0.
Proof. exact @edge_in_cone. Qed.
Print Assumptions C90_edges.
(** and every direction of a side is on it *)
Theorem C90_edges_complete : forall a b p x y, unit_vec p -> 0 <= x -> 0 <= y -> (forall k, (k < 3)%nat -> p k = x * a k + y * b k) ->
  exists f, 0 <= f <= 1 /\ veq 3 (edge_point a b f) p.
Proof. exact @edge_reached. Qed.
Print Assumptions C90_edges_complete.
(** colours lie between zero and one if no side exceeds a right angle *)
Theorem C90_colour_range : forall pts a b c i p col, 0 < triple a b c -> 0 <= ndot a b -> 0 <= ndot b c -> 0 <= ndot c a ->
  nth_error pts i = Some p -> unit_vec p -> in_cone a b c p -> nth_error (fst (ipf_color pts (a, b, c))) i = Some col ->
  0 <= fst (fst col) <= 1 /\ 0 <= snd (fst col) <= 1 /\ 0 <= snd col <= 1.
Proof. exact @color_range. Qed.
Print Assumptions C90_colour_range.
(** otherwise they need not *)
Theorem C90_colour_range_refuted : exists a b c p col, unit_vec a /\ unit_vec b /\ unit_vec c /\ unit_vec p /\ 0 < triple a b c /\ in_cone a b c p /\
  fst (ipf_color [p] (a, b, c)) = [col] /\ fst (fst col) < 0.
Proof. exact @color_range_refuted. Qed.
Print Assumptions C90_colour_range_refuted.
(** each corner has its own colour fully *)
Theorem C90_colour_corners : forall pts a b c i p col, 0 < triple a b c -> nth_error pts i = Some p ->
  nth_error (fst (ipf_color pts (a, b, c))) i = Some col ->
  (veq 3 p (normalized a) -> fst (fst col) = 1) /\ (veq 3 p (normalized b) -> snd (fst col) = 1) /\ (veq 3 p (normalized c) -> snd col = 1).
Proof. exact @color_corner. Qed.
Print Assumptions C90_colour_corners.
(** reduction by cubic symmetry: every orientation is shown if the sample symmetry reverses the direction *)
Theorem C90_cubic_reached : forall a q d ssym S S', 0 < a -> unitq q -> ndot d d <> 0 -> (forall S, In S ssym -> unitq S) -> In S ssym -> In S' ssym ->
  veq 3 (apply_v S' d) (vneg (apply_v S d)) ->
  exists pts p, project_ipf (miller2cart_direction (cubic_cell a)) cubic q d ssym [1; 0; 0]%Z [0; 1; 0]%Z = Some pts /\
    In p (fst (reduce_points_triangle pts cubic_triangle)).
Proof. exact @cubic_representative. Qed.
Print Assumptions C90_cubic_reached.
(** at most one equivalent direction lies inside the triangle *)
Theorem C90_cubic_unique : forall v R, In R cubic -> open_wedge (comps v) -> open_wedge (comps (apply_v R v)) -> veq 3 (apply_v R v) v.
Proof. exact @cubic_unique. Qed.
Print Assumptions C90_cubic_unique.
Example C90_cubic_unique_case : open_wedge (comps (v3 2 1 3)).
Proof. cbn. lra. Qed.
(** and otherwise some orientation is not shown: with the default arguments the reduced figure raises, though the full figure has points *)
Theorem C90_cubic_missing_refuted : exists d, ndot d d <> 0 /\ forall a color, 0 < a ->
  inverse_pole_figure_discrete (miller2cart_direction (cubic_cell a)) cubic [qone] d RCubic color (slice 0 4 tetragonal) [1; 0; 0]%Z [0; 1; 0]%Z = None /\
  exists pts, inverse_pole_figure_discrete (miller2cart_direction (cubic_cell a)) cubic [qone] d RFalse color (slice 0 4 tetragonal) [1; 0; 0]%Z [0; 1; 0]%Z = Some pts.
Proof. exact @cubic_missing. Qed.
Print Assumptions C90_cubic_missing_refuted.
(** the hypotheses are met *)
Example C90_sphere_case : exists w : R -> R -> vec, (forall z t, -1 < z < 1 -> on_sphere z t (w z t)) /\ -1 < 1 / 2 < 1.
Proof. exists (fun z t => v3 (sqrt (1 - z * z) * cos t) (sqrt (1 - z * z) * sin t) z). split; [intros z t _; repeat split|lra]. Qed.
Example C90_poles_case : rot_group cubic /\ rot_group (slice 0 4 tetragonal) /\ contained (slice 0 4 tetragonal) cubic /\ images_apart cubic (v3 1 0 0) /\ ndot (v3 1 0 0) (v3 1 0 0) <> 0.
Proof.
  split; [exact (symmetry_group _ _ cubic_class)|]. split; [exact (symmetry_group _ _ ortho_class)|]. split; [exact ortho_contained|]. split; [exact e1_apart|]. rewrite ndot3; cbn; lra.
Qed.
Example C90_triangle_case : 0 < triple (v3 0 0 1) (v3 1 0 1) (v3 1 1 1) /\ in_open_cone (v3 0 0 1) (v3 1 0 1) (v3 1 1 1) (v3 2 1 3) /\
  0 <= ndot (v3 0 0 1) (v3 1 0 1) /\ 0 <= ndot (v3 1 0 1) (v3 1 1 1) /\ 0 <= ndot (v3 1 1 1) (v3 0 0 1).
Proof.
  rewrite cubic_triple, !ndot3. split; [lra|]. split; [|cbn; lra]. exists 1, 1, 1. repeat split; try lra. intros [|[|[|k]]] Hk; try lia; cbn; ring.
Qed.
Example C90_cubic_case : exists S S', In S (slice 0 4 tetragonal) /\ In S' (slice 0 4 tetragonal) /\ veq 3 (apply_v S' (v3 0 0 1)) (vneg (apply_v S (v3 0 0 1))).
Proof.
  pose proof (ortho_images (v3 0 0 1)) as M. cbn [v3] in M.
  assert (A : In (0, 0, 1) (orthoT 0 0 1)) by (left; reflexivity). assert (B : In (- 0, 0, - 1) (orthoT 0 0 1)) by (right; left; reflexivity).
  rewrite <- M in A, B. apply in_map_iff in A as (S & EA & HA). apply in_map_iff in B as (S' & EB & HB). apply comps3 in EA as (A0 & A1 & A2). apply comps3 in EB as (B0 & B1 & B2).
  exists S, S'. split; [exact HA|]. split; [exact HB|]. apply veq3; unfold vneg; rewrite ?A0, ?A1, ?A2, ?B0, ?B1, ?B2; ring.
Qed.
