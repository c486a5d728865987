(** Model of neml/cp/polefigures.py: projections of the sphere, pole figures, inverse pole figures,
    the reduction to a stereographic triangle and its colours.  A plot is the list of points handed
    to the plotting library.  Not modelled: matplotlib, labels, line styles. *)
From Coq Require Import String ZArith.
From Verif Require Import Base.
From Verif Require Import RotModel CrystModel.

(** ** Projections *)
(** a point of a pole figure, neml/cp/polefigures.py:15-33 *)
Definition pt2 := (R * R)%type.
(** 10-11 *)
Definition limit_lambert_equal_area : R := sqrt 2.
(** neml/cp/polefigures.py:11 *)
Definition limit_stereographic : R := 1.
(** 15-22; at v[2] = -1 numpy gives inf or nan, here the real quotient by zero *)
Definition project_stereographic (v : vec) : pt2 := (v 0%nat / (1 + v 2%nat), v 1%nat / (1 + v 2%nat)).
(** 24-33 *)
Definition project_lambert_equal_area (v : vec) : pt2 :=
  (sqrt (2 / (1 + v 2%nat)) * v 0%nat, sqrt (2 / (1 + v 2%nat)) * v 1%nat).
(** 35-45 *)
Definition inverse_project_stereographic (p : pt2) : vec :=
  let X := fst p in let Y := snd p in let bot := 1 + X * X + Y * Y in
  v3 (2 * X / bot) (2 * Y / bot) ((X * X + Y * Y - 1) / bot).
(** 47-57 *)
Definition inverse_project_lambert_equal_area (p : pt2) : vec :=
  let X := fst p in let Y := snd p in let f := sqrt (1 - (X * X + Y * Y) / 4) in
  v3 (f * X) (f * Y) (- 1 + (X * X + Y * Y) / 2).
(** 59-66: angle first, then radius *)
Definition cart2pol (x : pt2) : pt2 := (atan2 (snd x) (fst x), sqrt (fst x * fst x + snd x * snd x)).
(** 135-146: radius first, then angle *)
Definition pol2cart (r t : R) : pt2 := (r * cos t, r * sin t).

(** src/math/tensors.cxx:237-244, and v / la.norm(v) *)
Definition normalized (v : vec) : vec := fun k => v k / norm3 v.

(** ** Pole figures: 68-133 *)
(** 93-101: rotated, symmetrised poles on the sphere *)
Definition pole_points (orientations : list quat) (srot : quat) (ops ssym : list quat) (p : vec) : list vec :=
  let eq_poles := map normalized (equivalent_vectors ops p) in
  let eq_poles := flat_map (fun p => map (fun op => apply_v op p) ssym) eq_poles in
  flat_map (fun pp => map (fun o => apply_v srot (apply_v (oinv o) pp)) orientations) eq_poles.
(** 104 *)
Definition upper (l : list vec) : list vec := filter (fun p => if Rle_dec 0 (p 2%nat) then true else false) l.
(** 107-114; None: ValueError *)
Definition projection (s : string) : option ((vec -> pt2) * R) :=
  if String.eqb s "stereographic" then Some (project_stereographic, limit_stereographic)
  else if String.eqb s "lambert" then Some (project_lambert_equal_area, limit_lambert_equal_area)
  else None.
(** 68-133; the polar points scattered and the radius of the plot; None: an exception, from the
    axes, the Miller indices, the projection, or IndexError at polar[:,0] when no point is left *)
Definition pole_figure_discrete (m2d : list Z -> option vec) (ops : list quat) (orientations : list quat) (pole : list Z)
    (proj : string) (ssym : list quat) (x y : vec) : option (list pt2 * R) :=
  match setVectors x y with
  | None => None
  | Some srot =>
    match m2d pole with
    | None => None
    | Some p =>
      match projection proj with
      | None => None
      | Some (pop, lim) =>
        match upper (pole_points orientations srot ops ssym p) with
        | [] => None
        | pts => Some (map cart2pol (map pop pts), lim)
        end
      end
    end
  end.

(** ** Inverse pole figures *)
(** 305-313; numpy's isclose to zero *)
Definition ipf_axes (m2d : list Z -> option vec) (x y : list Z) : option quat :=
  match m2d x, m2d y with
  | Some x', Some y' =>
    let xv := normalized x' in let yv := normalized y' in
    if Rle_dec (Rabs (dot3 xv yv)) 1e-8 then
      let zv := cross3 xv yv in
      Some (setMatrix (fun k => match k with
        | 0%nat => xv 0%nat | 1%nat => xv 1%nat | 2%nat => xv 2%nat
        | 3%nat => yv 0%nat | 4%nat => yv 1%nat | 5%nat => yv 2%nat
        | 6%nat => zv 0%nat | 7%nat => zv 1%nat | _ => zv 2%nat end))
    else None
  | _, _ => None
  end.
(** 315-332 *)
Definition ipf_sphere (trans q : quat) (ops ssym : list quat) (direction : vec) : list vec :=
  let d := normalized direction in
  flat_map (fun srot => let cpt := apply_v q (apply_v srot d) in map (fun op => apply_v trans (apply_v op cpt)) ops) ssym.
(** 334-336 *)
Definition above (l : list vec) : list vec := filter (fun p => if Rlt_dec 0 (p 2%nat) then true else false) l.
(** 289-338; None: ValueError, or an exception of the Miller indices *)
Definition project_ipf (m2d : list Z -> option vec) (ops : list quat) (q : quat) (direction : vec) (ssym : list quat)
    (x y : list Z) : option (list vec) :=
  match ipf_axes m2d x y with
  | None => None
  | Some trans => Some (above (ipf_sphere trans q ops ssym direction))
  end.

(** 340-368.  The three arrays are normalised in place: they are returned with the points. *)
Definition tri := (vec * vec * vec)%type.
(** neml/cp/polefigures.py:340-368 (reduce_points_triangle) *)
Definition nonneg (x : R) : bool := if Rle_dec 0 x then true else false.
(** neml/cp/polefigures.py:340-368 (reduce_points_triangle): the test for one point *)
Definition in_triangle (v0 v1 v2 pt : vec) : bool :=
  andb (nonneg (dot3 pt (cross3 v0 v1))) (andb (nonneg (dot3 pt (cross3 v1 v2))) (nonneg (dot3 pt (cross3 v2 v0)))).
(** neml/cp/polefigures.py:340-368 (reduce_points_triangle): the normalisation of the corners, in place *)
Definition tri_norm (t : tri) : tri := let '(v0, v1, v2) := t in (normalized v0, normalized v1, normalized v2).
(** neml/cp/polefigures.py:340-368 (reduce_points_triangle) *)
Definition reduce_points_triangle (pts : list vec) (t : tri) : list vec * tri :=
  let t' := tri_norm t in let '(v0, v1, v2) := t' in
  (filter (in_triangle v0 v1 v2) pts, t').
(** 340-341: the default arguments *)
Definition cubic_triangle : tri := (v3 0 0 1, v3 1 0 1, v3 1 1 1).

(** 397-402: the least of 1 and the three products *)
Definition least (v : vec) (t : tri) : R :=
  let '(v0, v1, v2) := t in
  fold_left (fun mf w => if Rlt_dec (dot3 v w) mf then dot3 v w else mf) [v0; v1; v2] 1.
(** neml/cp/polefigures.py:370-407 (ipf_color): one colour *)
Definition channel (v : vec) (t : tri) (pt : vec) : R := (dot3 v pt - least v t) / (1 - least v t).
(** 370-407, the arrays again normalised in place *)
Definition ipf_color (pts : list vec) (t : tri) : list (R * R * R) * tri :=
  let t' := tri_norm t in let '(v0, v1, v2) := t' in
  (map (fun pt => (channel v0 t' pt, channel v1 t' pt, channel v2 t' pt)) pts, t').

(** the [reduce_figure] argument: 177-183 (a list of another length raises ValueError, not modelled) *)
Inductive reduction := RFalse | RCubic | RTri (t : tri).
(** 174-175: np.vstack over the orientations *)
Definition ipf_all (m2d : list Z -> option vec) (ops : list quat) (orientations : list quat) (direction : vec) (ssym : list quat)
    (x y : list Z) : option (list vec) :=
  option_map (@concat vec) (opt_list (map (fun q => project_ipf m2d ops q direction ssym x y) orientations)).
(** 148-220: the projected points scattered, their colours if asked for.  None: an exception, also
    vstack of no orientation and IndexError at cpoints[:,0] when no point is left *)
Definition inverse_pole_figure_discrete (m2d : list Z -> option vec) (ops : list quat) (orientations : list quat) (direction : vec)
    (red : reduction) (color : bool) (ssym : list quat) (x y : list Z) : option (list pt2 * option (list (R * R * R))) :=
  match orientations with
  | [] => None
  | _ =>
    match ipf_all m2d ops orientations direction ssym x y with
    | None => None
    | Some pts =>
      match red with
      | RFalse => match pts with [] => None | _ => Some (map cart2pol (map project_stereographic pts), None) end
      | _ =>
        let t := match red with RTri t => t | _ => cubic_triangle end in
        let '(pts', t1) := reduce_points_triangle pts t in
        match pts' with
        | [] => None
        | _ => Some (map project_stereographic pts', if color then Some (fst (ipf_color pts' t1)) else None)
        end
      end
    end
  end.
(** 206-211: a point of the drawn boundary *)
Definition edge_point (v1 v2 : vec) (f : R) : vec := normalized (fun k => f * v1 k + (1 - f) * v2 k).
(** 427-431: the local function of [ipf_color_chart] *)
Definition chart_point (p : pt2) : vec :=
  let x1 := inverse_project_stereographic p in
  if Rlt_dec (x1 2%nat) 0 then v3 (x1 0%nat) (x1 1%nat) (x1 2%nat * -1) else x1.
(** 446-447 *)
Definition chart_color (t : tri) (p : pt2) : list (R * R * R) * tri := ipf_color [chart_point p] t.
(** any sequence of calls on the same arrays *)
(** calls by a user of neml/cp/polefigures.py:340-407; no code of its own *)
Inductive tcall := TReduce (pts : list vec) | TColor (pts : list vec).
(** calls by a user of neml/cp/polefigures.py:340-407; no code of its own *)
Definition tstep (t : tri) (c : tcall) : (list vec * list (R * R * R)) * tri :=
  match c with
  | TReduce pts => let '(r, t') := reduce_points_triangle pts t in ((r, []), t')
  | TColor pts => let '(r, t') := ipf_color pts t in (([], r), t')
  end.
(** calls by a user of neml/cp/polefigures.py:340-407; no code of its own *)
Fixpoint tcalls (t : tri) (cs : list tcall) : list (list vec * list (R * R * R)) :=
  match cs with [] => [] | c :: cs => let '(r, t') := tstep t c in r :: tcalls t' cs end.
