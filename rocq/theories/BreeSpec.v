(** What the Bree problem asks of a wall. *)
From Verif Require Import Base Diff.
From Verif Require Import SolverModel NlModel UniModel BarModel BarSpec BreeModel.
From Coq Require Import ZArith List Arith.
Import ListNotations.

(** the force that stresses s carry through the wall, w_i being the share of point i *)
Definition wall_force (ps : list (R * R * bmat)) (qs : list bst) : R := sum_over (combine ps qs) (fun x => snd (fst (fst x)) * bs_stress (snd x)).
Definition wall_thickness (ps : list (R * R * bmat)) : R := sum_over ps (fun a => snd (fst a)).
(** the energies of the points, weighted by their shares *)
Definition wall_energy (v : bst -> R) (ps : list (R * R * bmat)) (qs : list bst) : R := sum_over (combine ps qs) (fun x => snd (fst (fst x)) * v (snd x)).

(** the wall carries the hoop stress: the force through it is the hoop stress times the thickness, all
    points have the same strain, each has the temperature of its place, and what is left after the
    thermal strain is mechanical *)
Definition wall_ok (b : bree) (t strain : R) (qs : list bst) : Prop :=
  length qs = length (be_pts b) /\
  forall k x w m, nth_error (be_pts b) k = Some (x, w, m) -> exists q, nth_error qs k = Some q /\
    bs_strain q = strain /\ bs_temp q = be_T b x t /\ bs_mstrain q = strain - bs_tstrain q.
Definition wall_gap (b : bree) (t : R) (qs : list bst) : R := Rabs (wall_force (be_pts b) qs - be_P b t * wall_thickness (be_pts b)).
(** the clock of the bars agrees with the last entry of the problem, and there is a bar per point *)
Definition in_sync (b : bree) (q : nhist * list brow) : Prop :=
  length (ns_bars (fst (fst q))) = length (be_pts b) /\ exists r rows, snd q = r :: rows /\ bw_time r = ns_time (fst (fst q)).
(** a quadrature rule with weights that add up to 2, as on [-1,1] *)
Definition weights_2 (rule : nat -> list (R * R)) (n : nat) : Prop := sum_over (rule n) snd = 2.
(** radii, numbers of points and materials belong together *)
Definition fits (rs : list R) (ns : list nat) (mats : list bmat) : Prop := length rs = S (length ns) /\ length mats = length ns.
