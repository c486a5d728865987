(** What a user expects of the Hu-Cocks precipitation and hardening models. *)
From Verif Require Import Base Diff.
From Verif Require Import HcModel.

(** A physical precipitation model: the solid solution starts above equilibrium, the precipitate holds
    more of each species than the solution, and the constants are positive. *)
Record hc_phys (p : hcp) : Prop := {
  hy_n : (hp_rate p < hp_n p)%nat;
  hy_c : forall i, (i < hp_n p)%nat -> 0 < hp_ceq p i < hp_c0 p i /\ hp_c0 p i < hp_cp p i;
  hy_pos : 0 < hp_am p /\ 0 < hp_N0 p /\ 0 < hp_Vm p /\ 0 < hp_chi p /\ 0 < hp_D0 p /\ 0 < hp_Cf p /\ 0 < hp_kb p /\ 0 < hp_R p /\ 0 < hp_Na p /\ 0 < hp_T p;
  hy_scale : hp_fs p <> 0 /\ hp_rs p <> 0 /\ hp_Ns p <> 0 }.

(** The volume fraction at which species i reaches equilibrium, from the mass balance
    f cp + (1 - f) ceq = c0. *)
Definition hc_feq (p : hcp) (i : nat) : R := (hp_c0 p i - hp_ceq p i) / (hp_cp p i - hp_ceq p i).

(** A history of the model: the rates are the ones the model reports.  The volume fraction stays a
    fraction and the precipitates have a size. *)
Definition hc_history (p : hcp) (h : R -> vec) (a b : R) : Prop :=
  forall t, a <= t <= b -> path 3 h t (hp_rates p (h t)) /\ 0 < hp_f p (h t) < 1 /\ 0 < hp_r p (h t).

(** Points at which the rates can be differentiated: the volume fraction is in (0,1), none of the
    species is exactly at equilibrium, all concentrations are positive, the driving force is not zero and
    there are precipitates. *)
Definition hc_reg (p : hcp) (h : vec) : Prop :=
  0 < hp_f p h < 1 /\ hp_r p h <> 0 /\ hp_N p h <> 0 /\ hp_Gv p (hp_f p h) <> 0 /\
  forall i, (i < hp_n p)%nat -> 0 < hp_c p (hp_f p h) i /\ hp_c p (hp_f p h) i <> hp_ceq p i.

(** Two models that differ in the scaling of the stored variables only, and two histories that store the
    same physical values. *)
Definition hc_rescale (p : hcp) (fs rs Ns : R) : hcp :=
  {| hp_n := hp_n p; hp_c0 := hp_c0 p; hp_cp := hp_cp p; hp_ceq := hp_ceq p; hp_am := hp_am p; hp_N0 := hp_N0 p; hp_Vm := hp_Vm p; hp_chi := hp_chi p;
     hp_D0 := hp_D0 p; hp_Q0 := hp_Q0 p; hp_Cf := hp_Cf p; hp_kb := hp_kb p; hp_R := hp_R p; hp_Na := hp_Na p; hp_rate := hp_rate p;
     hp_fi := hp_fi p; hp_ri := hp_ri p; hp_Ni := hp_Ni p; hp_fs := fs; hp_rs := rs; hp_Ns := Ns; hp_w := hp_w p; hp_T := hp_T p |}.
Definition hc_values (p : hcp) (h : vec) : R * R * R := (hp_f p h, hp_r p h, hp_N p h).

(** The parts of the interface the property names. *)
Definition hc_switch (p : hcp) (f : R) : R := fst (hp_switch p 0 f).
