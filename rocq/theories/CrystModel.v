(** Model of src/cp/crystallography.cxx: symmetry groups, misorientations, Miller indices, slip
    and twin systems, their numbering, the unique slip planes and the cache of rotated systems.
    A Vector is three reals, an Orientation its quaternion.  Parameter sets,
    saving and loading of the systems are in [LatModel]. *)
From Coq Require Import String ZArith.
From Verif Require Import Base.
From Verif Require Import NemlMathModel.
From Verif Require Import RotModel TensorModel.

(** ** Symmetry operators: src/cp/crystallography.cxx:13-132.  Every entry goes through the
    Orientation(vector) constructor, which normalises. *)
Definition O4 (w x y z : R) : quat := mk_orientation (Quat w x y z).
Definition cs_a : R := sqrt 2 / 2.                                                (* 15 *)
Definition cs_b : R := sqrt 3 / 2.                                                (* 16 *)
Definition cs_h : R := / 2.                                                       (* 17 *)
(** 18-27 *)
Definition tetragonal : list quat := let a := cs_a in
  [O4 1 0 0 0; O4 0 0 1 0; O4 0 1 0 0; O4 0 0 0 1; O4 a 0 0 (- a); O4 a 0 0 a; O4 0 a a 0; O4 0 (- a) a 0].
(** 28-41 *)
Definition hexagonal : list quat := let h := cs_h in let b := cs_b in
  [O4 1 0 0 0; O4 (- h) 0 0 b; O4 h 0 0 b; O4 b 0 0 (- h); O4 0 0 0 1; O4 b 0 0 h;
   O4 0 (- h) b 0; O4 0 1 0 0; O4 0 h b 0; O4 0 b h 0; O4 0 0 1 0; O4 0 b (- h) 0].
(** 42-67 *)
Definition cubic : list quat := let h := cs_h in
  [O4 1 0 0 0; O4 h h h h; O4 (- h) h h h; O4 h (- h) h h; O4 h h (- h) h; O4 (- h) (- h) (- h) h;
   O4 h (- h) (- h) h; O4 (- h) (- h) h h; O4 (- h) h (- h) h; O4 0 0 1 0; O4 0 0 0 1; O4 0 1 0 0;
   O4 0 (- h) 0 h; O4 0 h 0 h; O4 h 0 h 0; O4 h 0 (- h) 0; O4 0 0 (- h) h; O4 h h 0 0;
   O4 h (- h) 0 0; O4 0 0 h h; O4 0 (- h) h 0; O4 h 0 0 (- h); O4 0 h h 0; O4 h 0 0 h].
(** the entries lo..hi-1, as pushed by the loops *)
(** the loops over indices in src/cp/crystallography.cxx:69-132 *)
Definition slice {A} (lo hi : nat) (l : list A) : list A := firstn (hi - lo) (skipn lo l).
(** 69-132; None: std::invalid_argument *)
Definition symmetry_rotations (s : string) : option (list quat) :=
  if String.eqb s "432" then Some (slice 0 24 cubic)
  else if String.eqb s "23" then Some (slice 0 12 cubic)
  else if String.eqb s "622" then Some (slice 0 12 hexagonal)
  else if String.eqb s "32" then Some (slice 0 3 hexagonal ++ slice 9 12 hexagonal)
  else if String.eqb s "6" then Some (slice 0 6 hexagonal)
  else if String.eqb s "3" then Some (slice 0 3 hexagonal)
  else if String.eqb s "42" then Some (slice 0 8 tetragonal)
  else if String.eqb s "4" then Some (slice 0 1 tetragonal ++ slice 3 6 tetragonal)
  else if String.eqb s "222" then Some (slice 0 4 tetragonal)
  else if String.eqb s "2" then Some (slice 0 2 tetragonal)
  else if String.eqb s "1" then Some (slice 0 1 tetragonal)
  else None.

(** ** SymmetryGroup *)
(** 138-143 *)
Definition misops (ops : list quat) : list quat := flat_map (fun a => map (fun b => qmul a b) ops) ops.
(** the angle ca that to_axis_angle reports in radians, src/math/rotations.cxx:620-627 *)
Definition raw_angle (q : quat) : R := 2 * acos (Rmax (-1) (Rmin (q0 q) 1)).
(** the loop 183-190 *)
Fixpoint mis_loop (ms : list quat) (ab best : quat) (abest : R) : quat :=
  match ms with
  | [] => best
  | m :: r =>
    let trial := qmul m ab in
    if Rlt_dec (raw_angle trial) abest then mis_loop r ab trial (raw_angle trial) else mis_loop r ab best abest
  end.
(** 175-193; [Orientation best] is the default orientation *)
Definition misorientation (ops : list quat) (a b : quat) : quat :=
  mis_loop (misops ops) (odiv a b) qdefault (2 * PI).
(** 195-241.  Row 4j+c, column i of the product M V^T is component c of misop j applied, as a
    matrix, to A_i B_i^-1.  None: the sizes differ (runtime_error), or no operator was selected so
    that bi = (size_t) -1 indexes out of bounds.  The matrix product is exact. *)
Definition prod_row (m v : quat) (c : nat) : R :=
  to_product_matrix m (4 * c)%nat * q0 v + to_product_matrix m (4 * c + 1)%nat * q1 v
  + to_product_matrix m (4 * c + 2)%nat * q2 v + to_product_matrix m (4 * c + 3)%nat * q3 v.
(** src/cp/crystallography.cxx:195-241 (misorientation_block): the search for the smallest angle *)
Fixpoint block_loop (ms : list quat) (v : quat) (best : option quat) (abest : R) : option quat :=
  match ms with
  | [] => best
  | m :: r =>
    let ang := 2 * acos (Rmax (-1) (Rmin 1 (prod_row m v 0))) in
    if Rlt_dec ang abest
    then block_loop r v (Some (O4 (prod_row m v 0) (prod_row m v 1) (prod_row m v 2) (prod_row m v 3))) ang
    else block_loop r v best abest
  end.
(** collects the results; no code of its own, used for src/cp/crystallography.cxx:195-241 *)
Fixpoint opt_list {A} (l : list (option A)) : option (list A) :=
  match l with
  | [] => Some []
  | x :: r => match x, opt_list r with Some x, Some r => Some (x :: r) | _, _ => None end
  end.
(** src/cp/crystallography.cxx:195-241 (misorientation_block) *)
Definition misorientation_block (ops : list quat) (A B : list quat) : option (list quat) :=
  if Nat.eqb (length A) (length B) then
    opt_list (map (fun ab => block_loop (misops ops) (odiv (fst ab) (snd ab)) None (3 * PI)) (combine A B))
  else None.

(** ** Miller indices *)
(** src/math/tensors.cxx:146-157: a Vector from three numbers *)
Definition v3 (x y z : R) : vec := fun k => match k with 0%nat => x | 1%nat => y | _ => z end.
(** src/math/tensors.cxx:265-270: operator+ *)
Definition vsum3 (a b c : vec) : vec := fun k => a k + b k + c k.
(** src/math/tensors.cxx:246-256: operator* with a number *)
Definition vs (s : R) (a : vec) : vec := fun k => s * a k.
(** 557-562 make_reciprocal_lattice_; the division by a zero volume is not modelled *)
Definition recip (a b c : vec) : vec := fun k => cross3 b c k / dot3 a (cross3 b c).
(** src/cp/crystallography.cxx:251-267 (Lattice): the members a1_, a2_, a3_ *)
Record cell := { c1 : vec; c2 : vec; c3 : vec }.
(** src/cp/crystallography.cxx:251-267 (Lattice), 557-562 (make_reciprocal_lattice_): the members b1_, b2_, b3_ *)
Definition cb1 (L : cell) : vec := recip (c1 L) (c2 L) (c3 L).
(** src/cp/crystallography.cxx:251-267 (Lattice), 557-562 (make_reciprocal_lattice_): the members b1_, b2_, b3_ *)
Definition cb2 (L : cell) : vec := recip (c2 L) (c3 L) (c1 L).
(** src/cp/crystallography.cxx:251-267 (Lattice), 557-562 (make_reciprocal_lattice_): the members b1_, b2_, b3_ *)
Definition cb3 (L : cell) : vec := recip (c3 L) (c1 L) (c2 L).
(** 269-275, 277-283 with assert_miller_ 564-569; None: std::invalid_argument, or the division by
    zero of reduce_gcd *)
Definition miller_comb (x y z : vec) (m : list Z) : option vec :=
  if Nat.eqb (length m) 3 then
    match reduce_gcd m with
    | Some [h; k; l] => Some (vsum3 (vs (IZR h) x) (vs (IZR k) y) (vs (IZR l) z))
    | _ => None
    end
  else None.
(** src/cp/crystallography.cxx:269-275 (miller2cart_direction) *)
Definition miller2cart_direction (L : cell) (m : list Z) : option vec := miller_comb (c1 L) (c2 L) (c3 L) m.
(** src/cp/crystallography.cxx:277-283 (miller2cart_plane) *)
Definition miller2cart_plane (L : cell) (m : list Z) : option vec := miller_comb (cb1 L) (cb2 L) (cb3 L) m.
(** HCPLattice 746-757, 766-775 *)
Definition hcp_direction (L : cell) (m : list Z) : option vec :=
  match m with
  | [u; v; t; w] => if Z.eqb (u + v + t) 0 then miller2cart_direction L [2 * u + v; 2 * v + u; w]%Z else None
  | _ => None
  end.
(** src/cp/crystallography.cxx:753-757 (miller2cart_plane) *)
Definition hcp_plane (L : cell) (m : list Z) : option vec :=
  match m with
  | [h; k; i; l] => if Z.eqb (h + k + i) 0 then miller2cart_plane L [h; k; l] else None
  | _ => None
  end.
(** CubicLattice 658-669, HCPLattice 701-709 *)
Definition cubic_cell (a : R) : cell := {| c1 := v3 a 0 0; c2 := v3 0 a 0; c3 := v3 0 0 a |}.
(** src/cp/crystallography.cxx:701-720 (HCPLattice) *)
Definition hcp_cell (a c : R) : cell :=
  {| c1 := v3 (a / 2) (- sqrt 3 * a / 2) 0; c2 := v3 (a / 2) (sqrt 3 * a / 2) 0; c3 := v3 0 0 c |}.

(** ** Equivalent vectors *)
(** include/math/nemlmath.h ATOL, RTOL; src/math/tensors.cxx:126-133 operator== *)
Definition atol : R := 1e-8.
(** include/math/nemlmath.h:175-176 *)
Definition rtol : R := 1e-5.
(** src/math/tensors.cxx:126-133: through isclose of src/math/nemlmath.cxx *)
Definition close (a b : R) : bool := isclose atol rtol a b.
(** src/math/tensors.cxx:126-133: through isclose of src/math/nemlmath.cxx *)
Definition vclose (a b : vec) : bool := andb (close (a 0%nat) (b 0%nat)) (andb (close (a 1%nat) (b 1%nat)) (close (a 2%nat) (b 2%nat))).
(** 285-303 *)
Definition equivalent_vectors (ops : list quat) (v : vec) : list vec :=
  fold_left (fun us R => let c := apply_v R v in if existsb (fun u => vclose u c) us then us else us ++ [c]) ops [].
(** 305-325 *)
Definition vneg (a : vec) : vec := fun k => - a k.
(** src/cp/crystallography.cxx:305-325 (equivalent_vectors_bidirectional): the loop *)
Definition one_direction (both : list vec) : list vec :=
  fold_left (fun ss a => if existsb (fun b => vclose a (vneg b)) ss then ss else ss ++ [a]) both [].
(** src/cp/crystallography.cxx:305-325 (equivalent_vectors_bidirectional) *)
Definition equivalent_vectors_bidirectional (ops : list quat) (v : vec) : list vec :=
  one_direction (equivalent_vectors ops v).

(** ** Slip and twin systems *)
(** src/cp/crystallography.cxx:327-363 (add_slip_system): what is stored for one system *)
Record sys := { s_burgers : vec; s_dir : vec; s_plane : vec; s_reor : quat }.
(** src/cp/crystallography.cxx:327-363 (add_slip_system), 365-454 (add_twin_system): what is stored for one group *)
Record group := { g_sys : list sys; g_twin : bool; g_shear : R }.
(** src/cp/crystallography.cxx:571-590 (cache_rot_): the cache members *)
Record cached := { k_hash : Z; k_M : list (list vec); k_N : list (list vec) }.
(** the data members of Lattice that change; the four parallel vectors burgers_vectors_,
    slip_directions_, slip_planes_, reorientations_ are one list of records *)
(** src/cp/crystallography.cxx:251-267 (Lattice): the members that change *)
Record lattice := { la_groups : list group; la_offsets : list nat; la_normals : list vec;
                    la_nmap : list (list nat); la_cache : option cached }.
(** 251-257 *)
Definition lattice0 : lattice := {| la_groups := []; la_offsets := [O]; la_normals := []; la_nmap := []; la_cache := None |}.

(** 592-610 update_normals_: the index given to one plane, with the list of planes so far *)
Fixpoint find_plane (ns : list vec) (p : vec) (j : nat) : option nat :=
  match ns with
  | [] => None
  | n :: r => if close (Rabs (dot3 n p)) 1 then Some j else find_plane r p (S j)
  end.
(** src/cp/crystallography.cxx:592-610 (update_normals_) *)
Fixpoint update_normals (ns : list vec) (ps : list vec) (acc : list nat) : list vec * list nat :=
  match ps with
  | [] => (ns, acc)
  | p :: r =>
    match find_plane ns p 0 with
    | Some j => update_normals ns r (acc ++ [j])
    | None => update_normals (ns ++ [p]) r (acc ++ [length ns])
    end
  end.
(** 353-362, 444-453: appending a group; nothing happens when it is empty *)
Definition add_group (L : lattice) (G : group) : lattice :=
  match g_sys G with
  | [] => L
  | _ =>
    let un := update_normals (la_normals L) (map s_plane (g_sys G)) [] in
    {| la_groups := la_groups L ++ [G]; la_offsets := la_offsets L ++ [(last (la_offsets L) 0 + length (g_sys G))%nat];
       la_normals := fst un; la_nmap := la_nmap L ++ [snd un]; la_cache := la_cache L |}
  end.
(** 331-351: the systems found for a direction family and a plane family; a vector of zero norm
    gives NaN, for which isclose is false *)
Definition slip_pair (b n : vec) : list sys :=
  match normalize3 b, normalize3 n with
  | Some nd, Some nn => if close (dot3 nd nn) 0
      then [{| s_burgers := b; s_dir := nd; s_plane := nn; s_reor := O4 1 0 0 0 |}] else []
  | _, _ => []
  end.
(** src/cp/crystallography.cxx:327-363 (add_slip_system): the two loops *)
Definition slip_systems (ops : list quat) (d p : vec) : list sys :=
  flat_map (fun b => flat_map (fun n => slip_pair b n) (equivalent_vectors_bidirectional ops p))
           (equivalent_vectors_bidirectional ops d).
(** 327-363; m2d, m2p: the virtual miller2cart_direction and miller2cart_plane *)
Definition add_slip_system (m2d m2p : list Z -> option vec) (ops : list quat) (L : lattice) (d p : list Z) : option lattice :=
  match m2d d, m2p p with
  | Some d, Some p => Some (add_group L {| g_sys := slip_systems ops d p; g_twin := false; g_shear := 0 |})
  | _, _ => None
  end.
(** one candidate of the fourfold loop 384-441: None means continue; a zero norm in any
    normalisation gives NaN, for which the tests fail *)
Definition twin_candidate (K1 e1 K2 e2 : vec) : option (sys * R) :=
  match normalize3 e1, normalize3 K1, normalize3 K2, normalize3 e2 with
  | Some l, Some m, Some n, Some g =>
    let val := dot3 g m in
    if close val 0 then None else
    match normalize3 (fun k => 2 * (m k - g k / val)) with
    | None => None
    | Some ltr =>
      if negb (close (Rabs (dot3 ltr l)) 1) then None else
      match normalize3 (cross3 l m) with
      | None => None
      | Some P =>
        match normalize3 (cross3 g P) with
        | None => None
        | Some ntr =>
          if negb (close (Rabs (dot3 ntr n)) 1) then None else
          if Rlt_dec (dot3 l g) 0 then if Rlt_dec 0.5 (dot3 l n) then if Rlt_dec 0.5 (dot3 g m) then
            match setAxisAngle m 180 "degrees" with
            | Some q => Some ({| s_burgers := e1; s_dir := l; s_plane := m; s_reor := q |},
                              sqrt (4 * (1 / (dot3 g m * dot3 g m) - 1)))
            | None => None
            end
          else None else None else None
        end
      end
    end
  | _, _, _, _ => None
  end.
(** 417-427: the degenerate case *)
Definition twin_same (s t : sys) : bool :=
  orb (andb (close (dot3 (s_dir s) (s_dir t)) (-1)) (close (dot3 (s_plane s) (s_plane t)) (-1)))
      (andb (close (dot3 (s_dir s) (s_dir t)) 1) (close (dot3 (s_plane s) (s_plane t)) 1)).
(** src/cp/crystallography.cxx:365-454 (add_twin_system): the test for a repeated system *)
Definition twin_step (acc : list sys * R) (c : vec * vec * vec * vec) : list sys * R :=
  let '(K1, e1, K2, e2) := c in
  match twin_candidate K1 e1 K2 e2 with
  | None => acc
  | Some (s, shear) => if existsb (fun t => twin_same t s) (fst acc) then acc else (fst acc ++ [s], shear)
  end.
(** 365-454; the shear of the last system found is the shear of the group *)
Definition twin_systems (ops : list quat) (e1 K1 e2 K2 : vec) : list sys * R :=
  fold_left twin_step
    (flat_map (fun k1 => flat_map (fun x1 => flat_map (fun k2 => map (fun x2 => (k1, x1, k2, x2))
       (equivalent_vectors ops e2)) (equivalent_vectors ops K2)) (equivalent_vectors ops e1)) (equivalent_vectors ops K1))
    ([], 0).
(** src/cp/crystallography.cxx:365-454 (add_twin_system) *)
Definition add_twin_system (m2d m2p : list Z -> option vec) (ops : list quat) (L : lattice) (e1 K1 e2 K2 : list Z) : option lattice :=
  match m2p K1, m2d e2, m2d e1, m2p K2 with
  | Some K1, Some e2, Some e1, Some K2 =>
      let t := twin_systems ops e1 K1 e2 K2 in
      Some (add_group L {| g_sys := fst t; g_twin := true; g_shear := snd t |})
  | _, _, _, _ => None
  end.

(** ** Numbering: 456-500, 536-555.  None: an access out of bounds *)
Definition ngroup (L : lattice) : nat := length (la_groups L).
(** src/cp/crystallography.cxx:472-475 (nslip) *)
Definition nslip (L : lattice) (g : nat) : option nat := option_map (fun G => length (g_sys G)) (nth_error (la_groups L) g).
(** src/cp/crystallography.cxx:456-465 (ntotal) *)
Definition ntotal (L : lattice) : nat := fold_left (fun t G => (t + length (g_sys G))%nat) (la_groups L) O.
(** src/cp/crystallography.cxx:477-480 (flat) *)
Definition lflat (L : lattice) (g i : nat) : option nat := option_map (fun o => (o + i)%nat) (nth_error (la_offsets L) g).
(** src/cp/crystallography.cxx:497-500 (burgers): the two indexings *)
Definition get_sys (L : lattice) (g i : nat) : option sys :=
  match nth_error (la_groups L) g with Some G => nth_error (g_sys G) i | None => None end.
(** src/cp/crystallography.cxx:497-500 (burgers) *)
Definition lburgers (L : lattice) (g i : nat) : option R := option_map (fun s => norm3 (s_burgers s)) (get_sys L g i).
(** src/cp/crystallography.cxx:536-539 (nplanes) *)
Definition nplanes (L : lattice) : nat := length (la_normals L).
(** src/cp/crystallography.cxx:541-544 (plane_index) *)
Definition plane_index (L : lattice) (g i : nat) : option nat :=
  match nth_error (la_nmap L) g with Some l => nth_error l i | None => None end.
(** src/cp/crystallography.cxx:546-555 (plane_systems) *)
Definition plane_systems (L : lattice) (k : nat) : list (nat * nat) :=
  flat_map (fun g => flat_map (fun i => match plane_index L g i with Some j => if Nat.eqb j k then [(g, i)] else [] | None => [] end)
                              (seq 0 (match nslip L g with Some n => n | None => O end)))
           (seq 0 (ngroup L)).

(** ** The cache of rotated systems: 571-590 and 502-512 *)
Definition rotM (Q : quat) (s : sys) : vec := apply_sym Q (mk_symmetric (outer3 (s_dir s) (s_plane s))).
(** src/cp/crystallography.cxx:571-590 (cache_rot_) *)
Definition rotN (Q : quat) (s : sys) : vec := apply_skew Q (mk_skew (outer3 (s_dir s) (s_plane s))).
(** src/cp/crystallography.cxx:571-590 (cache_rot_) *)
Definition cache_rot (hash : quat -> Z) (L : lattice) (Q : quat) : lattice :=
  match la_cache L with
  | Some k => if Z.eqb (k_hash k) (hash Q) then L else
    {| la_groups := la_groups L; la_offsets := la_offsets L; la_normals := la_normals L; la_nmap := la_nmap L;
       la_cache := Some {| k_hash := hash Q; k_M := map (fun G => map (rotM Q) (g_sys G)) (la_groups L);
                           k_N := map (fun G => map (rotN Q) (g_sys G)) (la_groups L) |} |}
  | None =>
    {| la_groups := la_groups L; la_offsets := la_offsets L; la_normals := la_normals L; la_nmap := la_nmap L;
       la_cache := Some {| k_hash := hash Q; k_M := map (fun G => map (rotM Q) (g_sys G)) (la_groups L);
                           k_N := map (fun G => map (rotN Q) (g_sys G)) (la_groups L) |} |}
  end.
(** src/cp/crystallography.cxx:502-506 (M): the two indexings *)
Definition get2 {A} (l : list (list A)) (g i : nat) : option A :=
  match nth_error l g with Some r => nth_error r i | None => None end.
(** M(g,i,Q), N(g,i,Q): the new state of the object and the result *)
(** src/cp/crystallography.cxx:502-506 (M) *)
Definition query_M (hash : quat -> Z) (L : lattice) (g i : nat) (Q : quat) : lattice * option vec :=
  let L' := cache_rot hash L Q in
  (L', match la_cache L' with Some k => get2 (k_M k) g i | None => None end).
(** src/cp/crystallography.cxx:508-512 (N) *)
Definition query_N (hash : quat -> Z) (L : lattice) (g i : nat) (Q : quat) : lattice * option vec :=
  let L' := cache_rot hash L Q in
  (L', match la_cache L' with Some k => get2 (k_N k) g i | None => None end).
(** 514-518 *)
Definition query_shear (hash : quat -> Z) (L : lattice) (g i : nat) (Q : quat) (stress : vec) : lattice * option R :=
  let r := query_M hash L g i Q in (fst r, option_map (fun M => sym_contract M stress) (snd r)).

(** ** Histories of a lattice object, by the calls a user can make: 251-257, 327-454, 502-512 *)
Inductive built (hash : quat -> Z) (m2d m2p : list Z -> option vec) (ops : list quat) : lattice -> Prop :=
| built_new : built hash m2d m2p ops lattice0
| built_slip : forall L d p L', built hash m2d m2p ops L -> add_slip_system m2d m2p ops L d p = Some L' -> built hash m2d m2p ops L'
| built_twin : forall L e1 K1 e2 K2 L', built hash m2d m2p ops L -> add_twin_system m2d m2p ops L e1 K1 e2 K2 = Some L' -> built hash m2d m2p ops L'
| built_query : forall L Q, built hash m2d m2p ops L -> built hash m2d m2p ops (cache_rot hash L Q).
(** every sequence of queries: (which, group, system, orientation) *)
(** one call of M or N, src/cp/crystallography.cxx:502-512 *)
Definition query (hash : quat -> Z) (L : lattice) (x : bool * nat * nat * quat) : lattice * option vec :=
  let '(m, g, i, Q) := x in if m then query_M hash L g i Q else query_N hash L g i Q.
(** a sequence of such calls; no code of its own *)
Fixpoint queries (hash : quat -> Z) (L : lattice) (xs : list (bool * nat * nat * quat)) : list (option vec) :=
  match xs with [] => [] | x :: r => let y := query hash L x in snd y :: queries hash (fst y) r end.
