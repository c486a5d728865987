(** Model of the temperature histories, time steps and meshes of neml/axisym.py. *)
From Verif Require Import Base.
From Verif Require Import SolverModel SubstepModel CreepModel NlModel UniModel BarModel AxiModel.
From Coq Require Import ZArith List Arith.
Import ListNotations.

(** Python's % for a positive divisor *)
(** Python's % and np.sign, used in neml/axisym.py:13-56; no NEML code *)
Definition pmod (x p : R) : R := x - p * IZR (Int_part (x / p)).
(** np.sign *)
(** Python's % and np.sign, used in neml/axisym.py:13-56; no NEML code *)
Definition sgn3 (x : R) : R := if Rlt_dec 0 x then 1 else if Rlt_dec x 0 then -1 else 0.
(** the arguments shared by the functions; Tdot_cold is Tdot_hot if not given *)
(** neml/axisym.py:13-56 (generate_thickness_gradient): its arguments *)
Record hist := { hi_T1 : R; hi_T2 : R; hi_hot : R; hi_hold : R; hi_cold : R; hi_together : R; hi_delay : R }.
(** neml/axisym.py:33-36, 137-140 *)
Definition thot (h : hist) : R := Rabs ((hi_T2 h - hi_T1 h) / hi_hot h).
(** neml/axisym.py:13-56 (generate_thickness_gradient) *)
Definition tcold (h : hist) : R := Rabs ((hi_T2 h - hi_T1 h) / hi_cold h).
(** neml/axisym.py:13-56 (generate_thickness_gradient) *)
Definition period (h : hist) : R := thot h + hi_hold h + tcold h + hi_together h.
(** 41-50, 145-154 Tright for a time within the period *)
Definition t_right (h : hist) (t : R) : R :=
  if Rlt_dec t (thot h) then hi_T1 h + t * hi_hot h * sgn3 (hi_T2 h - hi_T1 h)
  else if Rlt_dec t (thot h + hi_hold h) then hi_T2 h
  else if Rlt_dec t (thot h + hi_hold h + tcold h) then hi_T2 h - (t - thot h - hi_hold h) * hi_cold h * sgn3 (hi_T2 h - hi_T1 h)
  else hi_T1 h.
(** with a period of 0 the remainder is not a number, every comparison fails and Tright is T1 *)
(** neml/axisym.py:38-54 *)
Definition right_at (h : hist) (t : R) : R := if Req_EM_T (period h) 0 then hi_T1 h else t_right h (pmod (t - hi_delay h) (period h)).
(** 38-56 gradient(r, t) *)
Definition gradient (ri ro : R) (h : hist) (r t : R) : R :=
  if Rlt_dec t (hi_delay h) then hi_T1 h
  else let xi := (r - ri) / (ro - ri) in (1 - xi) * hi_T1 h + xi * right_at h t.

(** np.diff(rs) / ks; np.cumsum(np.insert(Rs, 0, 0.0)) starting from c *)
(** neml/axisym.py:110-166 (generate_multimaterial_thickness_gradient) *)
Fixpoint resist (rs ks : list R) : list R := match rs, ks with r :: ((r' :: _) as rs'), k :: ks' => (r' - r) / k :: resist rs' ks' | _, _ => [] end.
(** neml/axisym.py:110-166 (generate_multimaterial_thickness_gradient) *)
Fixpoint cums (c : R) (l : list R) : list R := c :: match l with [] => [] | x :: l' => cums (c + x) l' end.
(** neml/axisym.py:110-166 (generate_multimaterial_thickness_gradient) *)
Definition total (l : list R) : R := fold_right Rplus 0 l.
(** np.interp for increasing xp: constant outside *)
(** np.interp, called in neml/axisym.py:142-164; no NEML code *)
Fixpoint interp (xp fp : list R) (x : R) : R :=
  match xp, fp with
  | a :: ((b :: _) as xp'), f :: ((g :: _) as fp') => if Rlt_dec x a then f else if Rlt_dec x b then f + (x - a) * (g - f) / (b - a) else interp xp' fp' x
  | _ :: _, f :: _ => f
  | _, _ => 0
  end.
(** 142-164 gradient(r, t) of generate_multimaterial_thickness_gradient; None: the lengths do not fit,
    131-132 *)
Definition multi (rs ks : list R) (h : hist) (flip : bool) (r t : R) : option R :=
  if Nat.eqb (length rs) (length ks + 1) then
    if Rlt_dec t (hi_delay h) then Some (hi_T1 h)
    else
      let Rs := resist rs ks in let Rt := total Rs in
      let Ti := map (fun c => hi_T1 h + (if flip then 1 - c / Rt else c / Rt) * (right_at h t - hi_T1 h)) (cums 0 Rs) in
      Some (interp rs Ti r)
  else None.

(** times[-1] + np.linspace(0, d, n+1)[1:] *)
(** neml/axisym.py:58-108 (generate_standard_timesteps) *)
Definition lin_from (t0 d : R) (n : nat) : list R := map (fun k => t0 + INR k * d / INR n) (seq 1 n).
(** times.extend(list(times[-1] + np.linspace(0, d, n+1)[1:])) *)
(** neml/axisym.py:58-108 (generate_standard_timesteps) *)
Definition extend (times : list R) (d : R) (n : nat) : list R := times ++ lin_from (last times 0) d n.
(** neml/axisym.py:58-108 (generate_standard_timesteps) *)
Record tsteps := { st_nheat : nat; st_nhold : nat; st_ncool : nat; st_together : nat; st_ndelay : nat }.
(** 94-104 one cycle *)
Definition one_cycle (h : hist) (s : tsteps) (times : list R) : list R :=
  let dT := Rabs (hi_T2 h - hi_T1 h) in
  let t1 := extend times (dT / hi_hot h) (st_nheat s) in
  let t2 := if Rlt_dec 0 (hi_hold h) then extend t1 (hi_hold h) (st_nhold s) else t1 in
  let t3 := extend t2 (dT / hi_cold h) (st_ncool s) in
  if Rlt_dec 0 (hi_together h) then extend t3 (hi_together h) (st_together s) else t3.
(** neml/axisym.py:58-108 (generate_standard_timesteps): the loop over cycles *)
Fixpoint cycles (n : nat) (h : hist) (s : tsteps) (times : list R) : list R := match n with O => times | S n' => cycles n' h s (one_cycle h s times) end.
(** 58-106 generate_standard_timesteps, called with all numbers of steps it needs *)
Definition timesteps (h : hist) (s : tsteps) (ncycles : nat) : list R :=
  cycles ncycles h s (if Rlt_dec 0 (hi_delay h) then extend [0] (hi_delay h) (st_ndelay s) else [0]).

(** 180-184, 188-207: the nodes of a segment after its first one, as fractions of its length *)
Definition even_part (n : nat) : list R := map (fun k => INR k / INR n) (seq 1 n).
(** x ** b for 0 <= x and 0 < b *)
(** Python's power, used in neml/axisym.py:168-213; no NEML code *)
Definition pw (x b : R) : R := if Req_EM_T x 0 then 0 else Rpower x b.
(** neml/axisym.py:168-213 *)
Definition bias_part (b : R) (n : nat) : list R :=
  let m := if Nat.even n then (n / 2)%nat else ((n + 1) / 2)%nat in
  let x1 := map (fun k => pw (INR k / INR m) b / 2) (seq 1 (if Nat.even n then m else m - 1)) in
  let x2 := map (fun k => (1 - pw (INR (m - k) / INR m) b + 1) / 2) (seq 1 m) in
  x1 ++ x2.
(** neml/axisym.py:168-213 *)
Fixpoint mesh_from (part : nat -> list R) (rs : list R) (ns : list nat) : list R :=
  match rs, ns with
  | a :: ((b :: _) as rs'), n :: ns' => map (fun x => x * (b - a) + a) (part n) ++ mesh_from part rs' ns'
  | _, _ => []
  end.
(** neml/axisym.py:168-213 *)
Definition mesh (part : nat -> list R) (rs : list R) (ns : list nat) : list R := match rs with a :: _ => a :: mesh_from part rs ns | [] => [] end.
(** the constructor, 431-494 with 215-259: [rule] is numpy's leggauss(ngpts), [part] chooses bias *)
Definition axi_make (part : nat -> list R) (rule : list (R * R)) (rs : list R) (mats : list pymodel) (ns : list nat) (dflt : pymodel) (T : R -> R -> R) (p pext : R -> R) (con : bool) : axi :=
  {| ax_ne := length (mesh part rs ns) - 1; ax_mesh := fun k => nth k (mesh part rs ns) 0; ax_mat := fun e => nth e (concat (map (fun x => repeat (fst x) (snd x)) (combine mats ns))) dflt; ax_gp := rule; ax_T := T; ax_p := p; ax_pext := pext;
     ax_con := con; ax_ri := hd 0 rs; ax_ro := last rs 0; ax_t := last rs 0 - hd 0 rs |}.
