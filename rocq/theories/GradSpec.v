(** What temperature histories, time steps and meshes are for. *)
From Verif Require Import Base.
From Verif Require Import AxiModel GradModel.
From Coq Require Import ZArith List Arith.
Import ListNotations.

(** positive rates, no negative holds *)
Definition hist_ok (h : hist) : Prop := 0 < hi_hot h /\ 0 < hi_cold h /\ 0 <= hi_hold h /\ 0 <= hi_together h.
(** time to heat up and to cool down *)
Definition heat_time (h : hist) : R := Rabs (hi_T2 h - hi_T1 h) / hi_hot h.
Definition cool_time (h : hist) : R := Rabs (hi_T2 h - hi_T1 h) / hi_cold h.
Definition cycle_time (h : hist) : R := heat_time h + hi_hold h + cool_time h + hi_together h.
(** the instants at which the outer temperature changes its rate, within cycle i *)
Definition corners (h : hist) (i : nat) : list R :=
  let t := hi_delay h + INR i * cycle_time h in [t; t + heat_time h; t + heat_time h + hi_hold h; t + heat_time h + hi_hold h + cool_time h; t + cycle_time h].
(** every entry is greater than the one before, the first greater than a *)
Fixpoint increasing_from (a : R) (l : list R) : Prop := match l with [] => True | x :: l' => a < x /\ increasing_from x l' end.
Definition increasing (l : list R) : Prop := match l with [] => True | a :: l' => increasing_from a l' end.
(** x lies between a and b *)
Definition within (a b x : R) : Prop := Rmin a b <= x <= Rmax a b.
(** at least one step in every part of the cycle *)
Definition steps_ok (s : tsteps) : Prop := (1 <= st_nheat s)%nat /\ (1 <= st_nhold s)%nat /\ (1 <= st_ncool s)%nat /\ (1 <= st_together s)%nat /\ (1 <= st_ndelay s)%nat.
(** layer boundaries in increasing order, one conductivity per layer, all positive *)
Definition knots (rs ks : list R) : Prop := length rs = S (length ks) /\ increasing rs /\ Forall (fun k => 0 < k) ks /\ (1 <= length ks)%nat.
(** division of the unit segment into n elements *)
Definition part_ok (l : list R) (n : nat) : Prop := increasing_from 0 l /\ last l 0 = 1 /\ length l = n.
(** segment ends in increasing order, at least one element in each *)
Definition segments (rs : list R) (ns : list nat) : Prop := length rs = S (length ns) /\ increasing rs /\ Forall (fun n => (1 <= n)%nat) ns.
