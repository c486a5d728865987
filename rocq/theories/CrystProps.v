(** Crystallography: symmetry classes, misorientation, Miller indices, slip and twin systems *)
From Coq Require Import String ZArith Lra Lia Psatz Bool.
From Verif Require Import Base Diff NemlMathModel NemlMathSpec NemlMathProofs RotModel RotSpec RotProofs RotConv RotTensor TensorModel TensorSpec TensorProofs.
From Verif Require Import CrystModel CrystSpec CrystProofs CrystMis CrystMiller CrystLattice CrystSystems CrystTwin.

(** ** C59 *)
(** each point group the library knows is a group of rotations, each listed once *)
Theorem C59_group : forall s l, symmetry_rotations s = Some l -> rot_group l.
Proof. exact symmetry_group. Qed.
Print Assumptions C59_group.
Theorem C59_order : forall s l, symmetry_rotations s = Some l -> length l =
  (if String.eqb s "432" then 24 else if String.eqb s "23" then 12 else if String.eqb s "622" then 12
   else if String.eqb s "32" then 6 else if String.eqb s "6" then 6 else if String.eqb s "3" then 3
   else if String.eqb s "42" then 8 else if String.eqb s "4" then 4 else if String.eqb s "222" then 4
   else if String.eqb s "2" then 2 else 1)%nat.
Proof. exact symmetry_order. Qed.
Print Assumptions C59_order.
Theorem C59_unknown : forall s, symmetry_rotations s = None <-> ~ In s ["432"; "23"; "622"; "32"; "6"; "3"; "42"; "4"; "222"; "2"; "1"]%string.
Proof. exact symmetry_unknown. Qed.
Print Assumptions C59_unknown.
Example C59_case : exists l, symmetry_rotations "432" = Some l /\ length l = 24%nat /\ rot_group l.
Proof.
  eexists. split; [reflexivity|]. split; [reflexivity|]. apply (symmetry_group "432"). reflexivity.
Qed.

(** ** C60 *)
(** for the classes whose products give every operator with both signs *)
Theorem C60_minimal : forall s l a b, symmetry_rotations s = Some l -> In s ["432"; "23"; "622"; "32"; "42"; "222"]%string -> unitq a -> unitq b ->
  let r := misorientation l a b in
  unitq r /\ (exists S, In S l /\ same_turn r (qmul S (odiv a b))) /\ raw_angle r = turn_angle r /\
  forall S T, In S l -> In T l -> turn_angle r <= turn_angle (odiv (qmul S a) (qmul T b)).
Proof. exact misorientation_class. Qed.
Print Assumptions C60_minimal.
(** for the other classes two symmetry-equivalent orientations can get a positive misorientation *)
Theorem C60_minimal_refuted : forall s l, symmetry_rotations s = Some l -> In s ["6"; "3"; "4"; "2"; "1"]%string ->
  exists a b S T, unitq a /\ unitq b /\ In S l /\ In T l /\
    turn_angle (odiv (qmul S a) (qmul T b)) = 0 /\ 0 < turn_angle (misorientation l a b).
Proof. exact misorientation_unsigned. Qed.
Print Assumptions C60_minimal_refuted.
Theorem C60_block : forall s l A B, symmetry_rotations s = Some l -> In s ["432"; "23"; "622"; "32"; "42"; "222"]%string ->
  length A = length B -> (forall q, In q A -> unitq q) -> (forall q, In q B -> unitq q) ->
  misorientation_block l A B = Some (map (fun ab => misorientation l (fst ab) (snd ab)) (combine A B)).
Proof. exact block_class. Qed.
Print Assumptions C60_block.
Theorem C60_block_size : forall l A B, length A <> length B -> misorientation_block l A B = None.
Proof. exact block_size. Qed.
Print Assumptions C60_block_size.
Example C60_case : exists l, symmetry_rotations "222" = Some l /\ unitq qone /\ unitq (Quat 0.6 0.8 0 0) /\
  turn_angle (misorientation l qone (Quat 0.6 0.8 0 0)) <= turn_angle (Quat 0.8 0.6 0 0).
Proof.
  eexists. split; [reflexivity|]. assert (U : unitq (Quat 0.6 0.8 0 0)) by (unfold unitq; cbn; lra). assert (U1 : unitq qone) by (unfold unitq; cbn; lra).
  split; [exact U1|]. split; [exact U|].
  destruct (misorientation_class "222" _ qone (Quat 0.6 0.8 0 0) eq_refl) as (_ & _ & _ & H); [cbn; tauto|exact U1|exact U|].
  eapply Rle_trans; [apply (H (O4 0 1 0 0) (O4 1 0 0 0)); cbn; auto|].
  assert (E1 : O4 0 1 0 0 = Quat 0 1 0 0).
  { transitivity (normalize_ (qsmul 1 (Quat 0 1 0 0))); [unfold O4, mk_orientation; f_equal; unfold qsmul; cbn; f_equal; ring|]. apply normalize_scaled; [unfold unitq; cbn; lra|lra]. }
  assert (E2 : O4 1 0 0 0 = Quat 1 0 0 0).
  { transitivity (normalize_ (qsmul 1 (Quat 1 0 0 0))); [unfold O4, mk_orientation; f_equal; unfold qsmul; cbn; f_equal; ring|]. apply normalize_scaled; [unfold unitq; cbn; lra|lra]. }
  rewrite E1, E2. right. unfold turn_angle. do 2 f_equal.
  match goal with |- Rabs ?x = Rabs ?y => assert (X : x = 0.8) by (unfold odiv, oinv, qmul, qconj, qone; cbn; lra); rewrite X; reflexivity end.
Qed.

(** ** C61 *)
(** the reciprocal vectors are dual to the lattice vectors *)
Theorem C61_reciprocal : forall L, cell_volume (c1 L) (c2 L) (c3 L) <> 0 ->
  (ndot (cb1 L) (c1 L) = 1 /\ ndot (cb1 L) (c2 L) = 0 /\ ndot (cb1 L) (c3 L) = 0) /\
  (ndot (cb2 L) (c1 L) = 0 /\ ndot (cb2 L) (c2 L) = 1 /\ ndot (cb2 L) (c3 L) = 0) /\
  (ndot (cb3 L) (c1 L) = 0 /\ ndot (cb3 L) (c2 L) = 0 /\ ndot (cb3 L) (c3 L) = 1).
Proof. exact reciprocal_lattice. Qed.
Print Assumptions C61_reciprocal.
(** a direction is the primitive lattice vector along the indices *)
Theorem C61_direction : forall L u v w, ~ (u = 0 /\ v = 0 /\ w = 0)%Z ->
  exists s u' v' w' x, (0 < s /\ u = s * u' /\ v = s * v' /\ w = s * w')%Z /\ no_common_factor u' v' w' /\
  miller2cart_direction L [u; v; w] = Some x /\ forall i, x i = IZR u' * c1 L i + IZR v' * c2 L i + IZR w' * c3 L i.
Proof. exact miller_direction. Qed.
Print Assumptions C61_direction.
(** a plane normal meets the cell edges in the reduced indices *)
Theorem C61_plane : forall L h k l, cell_volume (c1 L) (c2 L) (c3 L) <> 0 -> ~ (h = 0 /\ k = 0 /\ l = 0)%Z ->
  exists s h' k' l' n, (0 < s /\ h = s * h' /\ k = s * k' /\ l = s * l')%Z /\ no_common_factor h' k' l' /\
  miller2cart_plane L [h; k; l] = Some n /\ ndot n (c1 L) = IZR h' /\ ndot n (c2 L) = IZR k' /\ ndot n (c3 L) = IZR l'.
Proof. exact miller_plane. Qed.
Print Assumptions C61_plane.
(** a direction lies in a plane exactly when its Miller product with it vanishes *)
Theorem C61_inner : forall L u v w h k l x n, cell_volume (c1 L) (c2 L) (c3 L) <> 0 ->
  miller2cart_direction L [u; v; w] = Some x -> miller2cart_plane L [h; k; l] = Some n ->
  exists s, (0 < s)%Z /\ IZR s * ndot x n = IZR (h * u + k * v + l * w).
Proof. exact miller_inner. Qed.
Print Assumptions C61_inner.
Theorem C61_rejected : forall L m, length m <> 3%nat \/ List.Forall (fun n => n = 0%Z) m ->
  miller2cart_direction L m = None /\ miller2cart_plane L m = None.
Proof. exact miller_wrong. Qed.
Print Assumptions C61_rejected.
(** u a1 + v a2 + t a3 + w c with a3 = - a1 - a2 *)
Theorem C61_four_index_direction : forall L u v t w, (u + v + t = 0)%Z -> ~ (u = 0 /\ v = 0 /\ w = 0)%Z ->
  exists s x, (0 < s)%Z /\ hcp_direction L [u; v; t; w] = Some x /\ lattice_vec (c1 L) (c2 L) (c3 L) x /\
  forall i, IZR s * x i = IZR u * c1 L i + IZR v * c2 L i + IZR t * (- c1 L i - c2 L i) + IZR w * c3 L i.
Proof. exact hcp_direction_ok. Qed.
Print Assumptions C61_four_index_direction.
Theorem C61_four_index_inner : forall L u v t w h k i l x n, cell_volume (c1 L) (c2 L) (c3 L) <> 0 ->
  hcp_direction L [u; v; t; w] = Some x -> hcp_plane L [h; k; i; l] = Some n ->
  exists s, (0 < s)%Z /\ IZR s * ndot x n = IZR (h * u + k * v + i * t + l * w).
Proof. exact hcp_inner. Qed.
Print Assumptions C61_four_index_inner.
Theorem C61_four_index_rejected : forall L u v t w, (u + v + t <> 0)%Z -> hcp_direction L [u; v; t; w] = None /\ hcp_plane L [u; v; t; w] = None.
Proof. exact hcp_wrong. Qed.
Print Assumptions C61_four_index_rejected.
Theorem C61_four_index_length : forall L m, length m <> 4%nat -> hcp_direction L m = None /\ hcp_plane L m = None.
Proof. exact hcp_wrong_length. Qed.
Print Assumptions C61_four_index_length.
(** in a cubic lattice the direction and the plane with the same indices are parallel *)
Theorem C61_cubic : forall a, 0 < a ->
  cell_volume (c1 (cubic_cell a)) (c2 (cubic_cell a)) (c3 (cubic_cell a)) = a * a * a /\
  forall m x, miller2cart_direction (cubic_cell a) m = Some x ->
    exists n, miller2cart_plane (cubic_cell a) m = Some n /\ forall i, (i < 3)%nat -> x i = a * a * n i.
Proof. exact cubic_cell_ok. Qed.
Print Assumptions C61_cubic.
Theorem C61_hexagonal : forall a c, 0 < a -> 0 < c -> let L := hcp_cell a c in
  ndot (c1 L) (c1 L) = a * a /\ ndot (c2 L) (c2 L) = a * a /\ ndot (c3 L) (c3 L) = c * c /\
  ndot (c1 L) (c2 L) = a * a * cos (2 * PI / 3) /\ ndot (c1 L) (c3 L) = 0 /\ ndot (c2 L) (c3 L) = 0 /\
  0 < cell_volume (c1 L) (c2 L) (c3 L).
Proof. exact hcp_cell_ok. Qed.
Print Assumptions C61_hexagonal.
Example C61_case : let L := hcp_cell 3 5 in cell_volume (c1 L) (c2 L) (c3 L) <> 0 /\
  exists x n, hcp_direction L [2; -1; -1; 0]%Z = Some x /\ hcp_plane L [0; 0; 0; 1]%Z = Some n /\ ndot x n = 0.
Proof.
  intros L. assert (V : cell_volume (c1 L) (c2 L) (c3 L) <> 0) by (destruct (hcp_cell_ok 3 5 ltac:(lra) ltac:(lra)) as (_ & _ & _ & _ & _ & _ & V); unfold L; lra).
  split; [exact V|].
  destruct (hcp_direction_ok L 2 (-1) (-1) 0 eq_refl ltac:(lia)) as (s & x & _ & Ex & _).
  destruct (miller_plane L 0 0 1 V ltac:(lia)) as (t & h & k & l & n & _ & _ & En & _).
  exists x, n. split; [exact Ex|]. split; [exact En|].
  destruct (hcp_inner L 2 (-1) (-1) 0 0 0 0 1 x n V Ex En) as (q & Q & E). apply (Rmult_eq_reg_l (IZR q)); [rewrite E, Rmult_0_r; reflexivity|]. apply IZR_lt in Q; lra.
Qed.

(** ** C62 *)
(** the listed vectors are images of the given one, every image is within tolerance of a listed one, no two agree to tolerance *)
Theorem C62_equivalent : forall ops v, let us := equivalent_vectors ops v in
  (forall u, In u us -> exists R, In R ops /\ u = apply_v R v) /\
  (forall R, In R ops -> exists u, In u us /\ near u (apply_v R v)) /\
  (forall i j a b, (i < j)%nat -> nth_error us i = Some a -> nth_error us j = Some b -> ~ near a b).
Proof. exact equivalent_ok. Qed.
Print Assumptions C62_equivalent.
(** images that are equal or further apart than the tolerance: each listed exactly once *)
Theorem C62_equivalent_exact : forall ops v, (forall R S, In R ops -> In S ops -> near (apply_v R v) (apply_v S v) -> veq 3 (apply_v R v) (apply_v S v)) ->
  let us := equivalent_vectors ops v in
  (forall R, In R ops -> exists u, In u us /\ veq 3 u (apply_v R v)) /\
  (forall i j a b, nth_error us i = Some a -> nth_error us j = Some b -> veq 3 a b -> i = j).
Proof. exact equivalent_exact. Qed.
Print Assumptions C62_equivalent_exact.
Theorem C62_equivalent_length : forall ops v u, (forall R, In R ops -> unitq R) -> In u (equivalent_vectors ops v) -> ndot u u = ndot v v.
Proof. exact equivalent_length. Qed.
Print Assumptions C62_equivalent_length.
Theorem C62_bidirectional : forall ops v, let ss := equivalent_vectors_bidirectional ops v in
  (forall u, In u ss -> exists R, In R ops /\ u = apply_v R v) /\
  (forall R, In R ops -> exists u s, In s ss /\ near u (apply_v R v) /\ (u = s \/ near u (vneg s))) /\
  (forall i j a b, (i < j)%nat -> nth_error ss i = Some a -> nth_error ss j = Some b -> ~ near b (vneg a)).
Proof. exact bidirectional_ok. Qed.
Print Assumptions C62_bidirectional.
Theorem C62_slip_systems : forall ops d p s, In s (slip_systems ops d p) <->
  exists b n, In b (equivalent_vectors_bidirectional ops d) /\ In n (equivalent_vectors_bidirectional ops p) /\
  s_burgers s = b /\ normalize3 b = Some (s_dir s) /\ normalize3 n = Some (s_plane s) /\ Rabs (ndot (s_dir s) (s_plane s)) <= 1e-8 /\ s_reor s = O4 1 0 0 0.
Proof. exact slip_systems_iff. Qed.
Print Assumptions C62_slip_systems.
Theorem C62_slip_systems_sound : forall ops d p s, In s (slip_systems ops d p) ->
  (exists R, In R ops /\ s_burgers s = apply_v R d) /\
  unit_vec (s_dir s) /\ unit_vec (s_plane s) /\ Rabs (ndot (s_dir s) (s_plane s)) <= 1e-8 /\
  (exists c, 0 < c /\ forall i, s_burgers s i = c * s_dir s i) /\
  (exists R c, In R ops /\ 0 < c /\ forall i, apply_v R p i = c * s_plane s i).
Proof. exact slip_systems_sound. Qed.
Print Assumptions C62_slip_systems_sound.
Theorem C62_slip_added : forall m2d m2p ops L d p d' p' L', m2d d = Some d' -> m2p p = Some p' -> add_slip_system m2d m2p ops L d p = Some L' -> slip_systems ops d' p' <> [] ->
  ngroup L' = S (ngroup L) /\ nslip L' (ngroup L) = Some (length (slip_systems ops d' p')) /\
  (forall i, get_sys L' (ngroup L) i = nth_error (slip_systems ops d' p') i) /\ (forall g i, (g < ngroup L)%nat -> get_sys L' g i = get_sys L g i).
Proof. exact add_slip_adds. Qed.
Print Assumptions C62_slip_added.
(** a direction and a plane that never are perpendicular give no error and no systems *)
Theorem C62_slip_empty_refuted : forall m2d m2p ops L d p d' p', m2d d = Some d' -> m2p p = Some p' -> slip_systems ops d' p' = [] -> add_slip_system m2d m2p ops L d p = Some L.
Proof. exact empty_dropped. Qed.
Print Assumptions C62_slip_empty_refuted.
(** flat indices number the systems 0..ntotal-1 one to one *)
Theorem C62_numbering : forall hash m2d m2p ops L, built hash m2d m2p ops L ->
  (forall g i n, nslip L g = Some n -> (i < n)%nat -> exists f, lflat L g i = Some f /\ (f < ntotal L)%nat) /\
  (forall g i n h j m f, nslip L g = Some n -> (i < n)%nat -> nslip L h = Some m -> (j < m)%nat -> lflat L g i = Some f -> lflat L h j = Some f -> g = h /\ i = j) /\
  (forall f, (f < ntotal L)%nat -> exists g n i, nslip L g = Some n /\ (i < n)%nat /\ lflat L g i = Some f).
Proof. exact built_flat. Qed.
Print Assumptions C62_numbering.
Theorem C62_no_empty_group : forall hash m2d m2p ops L g n, built hash m2d m2p ops L -> nslip L g = Some n -> (0 < n)%nat.
Proof. exact built_groups. Qed.
Print Assumptions C62_no_empty_group.
(** unique slip planes: every system has one, no two coincide, plane_systems inverts plane_index *)
Theorem C62_planes : forall hash m2d m2p ops L, built hash m2d m2p ops L ->
  (forall g i s, get_sys L g i = Some s -> exists k n, plane_index L g i = Some k /\ (k < nplanes L)%nat /\ nth_error (la_normals L) k = Some n /\
     (n = s_plane s \/ Rabs (Rabs (ndot n (s_plane s)) - 1) <= 1e-8 + 1e-5)) /\
  (forall i j a b, (i < j)%nat -> nth_error (la_normals L) i = Some a -> nth_error (la_normals L) j = Some b -> 1e-8 + 1e-5 < Rabs (Rabs (ndot a b) - 1)) /\
  (forall k g i, In (g, i) (plane_systems L k) <-> plane_index L g i = Some k).
Proof. exact built_planes. Qed.
Print Assumptions C62_planes.
(** every sequence of queries of an unchanged lattice gets the rotated systems, if the hash is injective *)
Theorem C62_queries : forall hash xs L, (forall a b, hash a = hash b -> a = b) -> la_cache L = None ->
  queries hash L xs = map (fun x => let '(m, g, i, Q) := x in option_map (if m : bool then rotM Q else rotN Q) (get_sys L g i)) xs.
Proof. exact fresh_queries. Qed.
Print Assumptions C62_queries.
Theorem C62_symmetric_part : forall Q s, unitq Q ->
  meq3 (t2 (usym (rotM Q s))) (symm2 (fun i j => apply_v Q (s_dir s) i * apply_v Q (s_plane s) j)).
Proof. exact rotM_meaning. Qed.
Print Assumptions C62_symmetric_part.
Theorem C62_skew_part : forall Q s, unitq Q ->
  meq3 (t2 (uskew (rotN Q s))) (skewp2 (fun i j => apply_v Q (s_dir s) i * apply_v Q (s_plane s) j)).
Proof. exact rotN_meaning. Qed.
Print Assumptions C62_skew_part.
(** the resolved shear stress is (Q d) . stress . (Q n) *)
Theorem C62_shear : forall Q s stress, unitq Q ->
  sym_contract (rotM Q s) stress = rsum 3 (fun i => rsum 3 (fun j => apply_v Q (s_dir s) i * t2 (usym stress) i j * apply_v Q (s_plane s) j)).
Proof. exact shear_meaning. Qed.
Print Assumptions C62_shear.
Theorem C62_shear_objective : forall Q s stress, unitq Q -> sym_contract (rotM Q s) (apply_sym Q stress) = sym_contract (rotM qone s) stress.
Proof. exact shear_objective. Qed.
Print Assumptions C62_shear_objective.
(** after adding a group, the orientation last asked for has no entry for it: an access out of bounds *)
Theorem C62_stale_cache_refuted : forall hash L Q G, cache_current hash L -> g_sys G <> [] ->
  snd (query_M hash (add_group (cache_rot hash L Q) G) (ngroup L) 0 Q) = None /\
  exists s, get_sys (add_group (cache_rot hash L Q) G) (ngroup L) 0 = Some s.
Proof. exact stale_cache. Qed.
Print Assumptions C62_stale_cache_refuted.
(** two orientations with one hash get the same answer *)
Theorem C62_collision_refuted : forall hash L Q Q' g i, la_cache L = None -> hash Q = hash Q' ->
  snd (query_M hash (fst (query_M hash L g i Q)) g i Q') = option_map (rotM Q) (get_sys L g i).
Proof. exact collision. Qed.
Print Assumptions C62_collision_refuted.
Theorem C62_half_turn : forall m q v i, unit_vec m -> setAxisAngle m 180 "degrees" = Some q -> (i < 3)%nat ->
  apply_v q v i = 2 * ndot m v * m i - v i.
Proof. exact half_turn. Qed.
Print Assumptions C62_half_turn.
Theorem C62_twin_candidate : forall K1 e1 K2 e2 s sh, twin_candidate K1 e1 K2 e2 = Some (s, sh) ->
  s_burgers s = e1 /\ normalize3 e1 = Some (s_dir s) /\ normalize3 K1 = Some (s_plane s) /\
  unit_vec (s_dir s) /\ unit_vec (s_plane s) /\ Rabs (ndot (s_dir s) (s_plane s)) <= 0.0046 /\
  (forall v i, (i < 3)%nat -> apply_v (s_reor s) v i = 2 * ndot (s_plane s) v * s_plane s i - v i) /\
  exists g, normalize3 e2 = Some g /\ 1 / 2 < ndot g (s_plane s) /\ sh = sqrt (4 * (1 / (ndot g (s_plane s) * ndot g (s_plane s)) - 1)).
Proof. exact twin_candidate_sound. Qed.
Print Assumptions C62_twin_candidate.
Theorem C62_twin_systems : forall ops e1 K1 e2 K2, let r := twin_systems ops e1 K1 e2 K2 in
  (forall s, In s (fst r) -> exists k1 x1 k2 x2 sh, twin_sources ops e1 K1 e2 K2 (k1, x1, k2, x2) /\ twin_candidate k1 x1 k2 x2 = Some (s, sh)) /\
  (forall k1 x1 k2 x2 s sh, twin_sources ops e1 K1 e2 K2 (k1, x1, k2, x2) -> twin_candidate k1 x1 k2 x2 = Some (s, sh) ->
     exists t, In t (fst r) /\ (t = s \/ twin_same t s = true)) /\
  (forall i j a b, (i < j)%nat -> nth_error (fst r) i = Some a -> nth_error (fst r) j = Some b -> twin_same a b = false).
Proof. exact twin_systems_ok. Qed.
Print Assumptions C62_twin_systems.
(** unit vectors, direction in the plane to tolerance, reorientation by the half turn about the plane normal *)
Theorem C62_twin_sound : forall ops e1 K1 e2 K2 s, In s (fst (twin_systems ops e1 K1 e2 K2)) ->
  unit_vec (s_dir s) /\ unit_vec (s_plane s) /\ Rabs (ndot (s_dir s) (s_plane s)) <= 0.0046 /\
  (exists R c, In R ops /\ 0 < c /\ s_burgers s = apply_v R e1 /\ forall i, s_burgers s i = c * s_dir s i) /\
  (exists R c, In R ops /\ 0 < c /\ forall i, apply_v R K1 i = c * s_plane s i) /\
  (forall v i, (i < 3)%nat -> apply_v (s_reor s) v i = 2 * ndot (s_plane s) v * s_plane s i - v i).
Proof. exact twin_systems_sound. Qed.
Print Assumptions C62_twin_sound.
(** the shear of the pair (m, g) is a simple shear that leaves the conjugate direction undistorted *)
Theorem C62_characteristic_shear : forall m g l, unit_vec m -> unit_vec g -> 0 < ndot g m -> ndot g m < 1 ->
  normalize3 (fun k => 2 * (m k - g k / ndot g m)) = Some l ->
  let sh := sqrt (4 * (1 / (ndot g m * ndot g m) - 1)) in
  ndot l m = 0 /\ 0 < sh /\ let h := fun k => g k + sh * ndot m g * l k in unit_vec h /\ exists k, (k < 3)%nat /\ h k <> g k.
Proof. exact characteristic_shear. Qed.
Print Assumptions C62_characteristic_shear.
(** one slip system in a triclinic ("1") crystal with a cubic cell; it meets the hypotheses above *)
Example C62_case : exists ops L, symmetry_rotations "1" = Some ops /\
  add_slip_system (miller2cart_direction (cubic_cell 1)) (miller2cart_plane (cubic_cell 1)) ops lattice0 [1; 0; 0]%Z [0; 1; 0]%Z = Some L /\
  built (fun _ => 0%Z) (miller2cart_direction (cubic_cell 1)) (miller2cart_plane (cubic_cell 1)) ops L /\ nslip L 0 = Some 1%nat /\ lflat L 0 0 = Some 0%nat /\ ntotal L = 1%nat.
Proof.
  exists [O4 1 0 0 0].
  assert (Q : O4 1 0 0 0 = Quat 1 0 0 0).
  { transitivity (normalize_ (qsmul 1 (Quat 1 0 0 0))); [unfold O4, mk_orientation; f_equal; unfold qsmul; cbn; f_equal; ring|]. apply normalize_scaled; [unfold unitq; cbn; lra|lra]. }
  set (d := vsum3 (vs 1 (v3 1 0 0)) (vs 0 (v3 0 1 0)) (vs 0 (v3 0 0 1))).
  destruct (cubic_cell_ok 1 ltac:(lra)) as (_ & PL). destruct (PL [0; 1; 0]%Z (vsum3 (vs 0 (v3 1 0 0)) (vs 1 (v3 0 1 0)) (vs 0 (v3 0 0 1))) eq_refl) as (p & Ep & Hp).
  assert (Ed : miller2cart_direction (cubic_cell 1) [1; 0; 0]%Z = Some d) by reflexivity.
  assert (ID : forall v i, (i < 3)%nat -> apply_v (O4 1 0 0 0) v i = v i).
  { intros v i Hi. rewrite Q. rewrite apply_v_matrix by (auto; unfold unitq; cbn; lra). unfold mv3. cases3 i Hi; cbn; ring. }
  assert (NV : forall v : vec, norm3 v = 1 -> normalize3 v = Some (fun i => v i / norm3 v)) by (intros v N; unfold normalize3; destruct (Req_EM_T (norm3 v) 0); [lra|reflexivity]).
  assert (Nd : norm3 (apply_v (O4 1 0 0 0) d) = 1).
  { unfold norm3, dot3. rewrite !ID by lia. rewrite <- sqrt_1. f_equal. unfold d, vsum3, vs; cbn. ring. }
  assert (Np : norm3 (apply_v (O4 1 0 0 0) p) = 1).
  { unfold norm3, dot3. rewrite !ID by lia. rewrite <- sqrt_1. f_equal. pose proof (Hp 0%nat ltac:(lia)) as P0. pose proof (Hp 1%nat ltac:(lia)) as P1. pose proof (Hp 2%nat ltac:(lia)) as P2.
    unfold vsum3, vs in P0, P1, P2; cbn in P0, P1, P2. replace (p 0%nat) with 0 by lra. replace (p 1%nat) with 1 by lra. replace (p 2%nat) with 0 by lra. ring. }
  assert (S : exists s, slip_systems [O4 1 0 0 0] d p = [s]).
  { unfold slip_systems, equivalent_vectors_bidirectional, equivalent_vectors, one_direction. cbn [fold_left existsb app flat_map].
    unfold slip_pair. rewrite (NV _ Nd), (NV _ Np).
    assert (C : close (dot3 (fun i => apply_v (O4 1 0 0 0) d i / norm3 (apply_v (O4 1 0 0 0) d)) (fun i => apply_v (O4 1 0 0 0) p i / norm3 (apply_v (O4 1 0 0 0) p))) 0 = true).
    { replace (dot3 _ _) with 0; [apply close_refl|]. rewrite Nd, Np. unfold dot3. rewrite !ID by lia.
      pose proof (Hp 0%nat ltac:(lia)) as P0. unfold vsum3, vs in P0; cbn in P0. replace (p 0%nat) with 0 by lra. unfold d, vsum3, vs; cbn. field. }
    rewrite C. eexists; reflexivity. }
  destruct S as (s & S).
  exists (add_group lattice0 {| g_sys := [s]; g_twin := false; g_shear := 0 |}).
  assert (A : add_slip_system (miller2cart_direction (cubic_cell 1)) (miller2cart_plane (cubic_cell 1)) [O4 1 0 0 0] lattice0 [1; 0; 0]%Z [0; 1; 0]%Z = Some (add_group lattice0 {| g_sys := [s]; g_twin := false; g_shear := 0 |})).
  { unfold add_slip_system. rewrite Ed, Ep, S. reflexivity. }
  split; [reflexivity|]. split; [exact A|]. split; [eapply built_slip; [apply built_new|exact A]|]. repeat split.
Qed.
(** plane normal and conjugate direction meeting the hypotheses of [C62_characteristic_shear] *)
Example C62_shear_case : let m := v3 1 0 0 in let g := v3 0.6 0.8 0 in unit_vec m /\ unit_vec g /\ 0 < ndot g m /\ ndot g m < 1 /\
  exists l, normalize3 (fun k => 2 * (m k - g k / ndot g m)) = Some l.
Proof.
  intros m g. unfold unit_vec, ndot, m, g; cbn. repeat split; try lra.
  unfold normalize3. destruct (Req_EM_T _ 0) as [E|]; [|eexists; reflexivity]. exfalso.
  unfold norm3 in E. apply sqrt_eq_0 in E; unfold dot3 in *; cbn in *; [|lra].
  replace (0 + 0.6 * 1 + 0.8 * 0 + 0 * 0) with 0.6 in E by lra. lra.
Qed.
