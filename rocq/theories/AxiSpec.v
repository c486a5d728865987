(** What a solution for the wall of a vessel is. *)
From Verif Require Import Base Diff.
From Verif Require Import SolverModel SubstepModel CreepModel NlModel UniModel UniSpec BarSpec AxiModel.
From Coq Require Import ZArith List Arith.
Import ListNotations.

(** linear interpolation of nodal values in element e, at -1 <= xi <= 1 *)
Definition lerp (xi : R) (v : vec) (e : nat) : R := v e + (1 + xi) / 2 * (v (S e) - v e).
(** the object describes a wall: positive increasing radii, weights of an integration rule on [-1,1] *)
Definition wall (a : axi) : Prop :=
  (1 <= ax_ne a)%nat /\ 0 < ax_mesh a 0%nat /\ (forall e, (e < ax_ne a)%nat -> ax_mesh a e < ax_mesh a (S e)) /\
  ax_ri a = ax_mesh a 0%nat /\ ax_ro a = ax_mesh a (ax_ne a) /\ ax_t a = ax_ro a - ax_ri a /\
  Forall (fun g => -1 <= fst g <= 1) (ax_gp a) /\ sum_over (ax_gp a) snd = 2.

(** Gauss point k of element e *)
Definition point (s : axs) (e k : nat) : option gp := match nth_error (as_pts s) e with Some qs => nth_error qs k | None => None end.
(** the point went from q (in the entry old) to q' (in the entry s) under the loads of time t: radial
    strain, hoop strain and axial strain are those of the displacements, the thermal strain grew by
    the new coefficient times the change of temperature, and the rest went to the material *)
Definition point_moved (a : axi) (t : R) (old s : axs) (e : nat) (xi : R) (q q' : gp) : Prop :=
  let M := ax_mat a e in let T1 := lerp xi (as_temp s) e in let T0 := lerp xi (as_temp old) e in
  gp_strain q' 0%nat * (ax_mesh a (S e) - ax_mesh a e) = as_disp s (S e) - as_disp s e /\
  gp_strain q' 1%nat * lerp xi (ax_mesh a) e = lerp xi (as_disp s) e /\
  gp_strain q' 2%nat = as_ez s /\ (forall k, (3 <= k)%nat -> gp_strain q' k = 0) /\
  (forall k, gp_tstrain q' k - gp_tstrain q k = if Nat.ltb k 3 then pm_alpha M T1 * (T1 - T0) else 0) /\
  (forall k, gp_strain q' k = gp_mstrain q' k + gp_tstrain q' k) /\
  (exists r, upd M (gp_mstrain q') (gp_mstrain q) T1 T0 t (as_time old) (gp_stress q) (gp_hist q) 0 0 = Some r /\ pr_s r = gp_stress q' /\ pr_h r = gp_hist q') /\
  gp_estrain q' = pm_estrain M (gp_stress q') T1 (gp_hist q').
Definition wall_moved (a : axi) (t : R) (old s : axs) : Prop :=
  as_press s = ax_p a t /\ as_ext s = ax_pext a t /\ (forall k, as_temp s k = ax_T a (ax_mesh a k) t) /\ (ax_con a = true -> as_ez s = 0) /\
  forall e k xi w, (e < ax_ne a)%nat -> nth_error (ax_gp a) k = Some (xi, w) -> exists q q', point old e k = Some q /\ point s e k = Some q' /\ point_moved a t old s e xi q q'.

(** all points of elements e, e+1, ... with element, coordinate and weight *)
Fixpoint points_from (a : axi) (e : nat) (ll : list (list gp)) : list (nat * R * R * gp) :=
  match ll with [] => [] | qs :: ll' => map (fun x => (e, fst (fst x), snd (fst x), snd x)) (combine (ax_gp a) qs) ++ points_from a (S e) ll' end.
(** integral over the wall thickness of a field *)
Definition through_wall (a : axi) (s : axs) (f : nat -> R -> gp -> R) : R :=
  sum_over (points_from a 0 (as_pts s)) (fun x => let '(e, xi, w, q) := x in w * ((ax_mesh a (S e) - ax_mesh a e) / 2) * f e xi q).
(** virtual work of the stresses for the virtual radial displacement v: sr v' + (st - sr) v / r *)
Definition virtual_work (a : axi) (s : axs) (v : vec) : R := through_wall a s (fun e xi q =>
  gp_stress q 0%nat * ((v (S e) - v e) / (ax_mesh a (S e) - ax_mesh a e)) + (gp_stress q 1%nat - gp_stress q 0%nat) * (lerp xi v e / lerp xi (ax_mesh a) e)).
(** the virtual displacement of one node *)
Definition hat (k : nat) : vec := fun i => if Nat.eqb i k then 1 else 0.
(** what is out of balance: at the nodes, and axially *)
Definition unbalanced (a : axi) (s : axs) (k : nat) : R :=
  if Nat.eqb k (S (ax_ne a)) then through_wall a s (fun _ _ q => gp_stress q 2%nat) / (ax_ro a - ax_ri a) - (as_press s * ax_ri a ^ 2 - as_ext s * ax_ro a ^ 2) / (ax_ro a ^ 2 - ax_ri a ^ 2)
  else virtual_work a s (hat k) - (as_press s * hat k 0%nat - as_ext s * hat k (ax_ne a)).
Definition out_of_balance (a : axi) (s : axs) : R := norm2 (if ax_con a then S (ax_ne a) else S (S (ax_ne a))) (unbalanced a s).
(** the entry s followed the entry old, under the loads of time t, within the tolerances *)
Definition wall_follows (a : axi) (rtol atol t : R) (old s : axs) : Prop :=
  wall_moved a t old s /\ exists s0, wall_moved a t old s0 /\ (out_of_balance a s <= atol \/ out_of_balance a s <= rtol * out_of_balance a s0).

(** the same in several steps, each under the loads of some time *)
Inductive wall_path (a : axi) (rtol atol : R) (old : axs) : axs -> Prop :=
| wp_none : wall_path a rtol atol old old
| wp_step : forall p s t, wall_path a rtol atol old p -> wall_follows a rtol atol t p s -> wall_path a rtol atol old s.
(** all entries, newest first, follow from the one before, down to the first one *)
Fixpoint wall_history (a : axi) (rtol atol : R) (rows : list axs) : Prop :=
  match rows with
  | [] => False
  | s :: rows' => match rows' with [] => s = axi_init a | p :: _ => wall_path a rtol atol p s /\ wall_history a rtol atol rows' end
  end.
(** there is a record for every Gauss point *)
Definition shaped (a : axi) (ll : list (list gp)) : Prop := Forall (fun qs => length qs = length (ax_gp a)) ll.
Definition shape (a : axi) (s : axs) : Prop := length (as_pts s) = ax_ne a /\ shaped a (as_pts s).

(** dgttrf and dgttrs solve the tridiagonal system *)
Definition tri_mv (n : nat) (DU D DL x : vec) : vec := fun k =>
  (match k with O => 0 | S j => DL j * x j end) + D k * x k + (if Nat.ltb (S k) n then DU k * x (S k) else 0).
Definition tri_ok (tri : nat -> vec -> vec -> vec -> vec -> option vec) : Prop := forall n DU D DL c x, tri n DU D DL c = Some x -> veq n (tri_mv n DU D DL x) c.
(** and every regular one *)
Definition tri_total (tri : nat -> vec -> vec -> vec -> vec -> option vec) : Prop := forall n DU D DL c,
  (forall w, veq n (tri_mv n DU D DL w) (fun _ => 0) -> veq n w (fun _ => 0)) -> exists x, tri n DU D DL c = Some x.
(** the assembled matrix times a change of displacements and axial strain *)
Definition axi_mv (a : axi) (J : asm) (v : vec) : vec := fun k =>
  if Nat.eqb k (S (ax_ne a)) then dot (S (ax_ne a)) (a_21 J) v + a_22 J * v (S (ax_ne a))
  else tri_mv (S (ax_ne a)) (a_du J) (a_d J) (a_dl J) v k + a_12 J k * v (S (ax_ne a)).
(** the material of the point has the slope it reports, at the strain the point has *)
Definition pt_slope (a : axi) (old : axs) (T x : vec) (t : R) (e : nat) (xi : R) (q : gp) : Prop := forall q' A, axi_pt a old T x (x (S (ax_ne a))) t e xi q = Some (q', A) ->
  exact_at (fun E => upd (ax_mat a e) E (gp_mstrain q) (Nl xi T e) (Nl xi (as_temp old) e) t (as_time old) (gp_stress q) (gp_hist q) 0 0) (gp_mstrain q').
(** the whole matrix: what it maps to zero is zero *)
Definition axi_regular (a : axi) (J : asm) : Prop := forall v, veq (S (S (ax_ne a))) (axi_mv a J v) (fun _ => 0) -> veq (S (S (ax_ne a))) v (fun _ => 0).
(** the matrix can be solved with: its tridiagonal part is regular and, unless the axial strain is
    held, so is all of it and its last entry is not zero *)
Definition axi_solvable (a : axi) (J : asm) : Prop :=
  (forall w, veq (S (ax_ne a)) (tri_mv (S (ax_ne a)) (a_du J) (a_d J) (a_dl J) w) (fun _ => 0) -> veq (S (ax_ne a)) w (fun _ => 0)) /\
  (ax_con a = false -> a_22 J <> 0 /\ axi_regular a J).
