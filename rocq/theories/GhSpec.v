(** What a user expects of the precipitation model with several precipitates. *)
From Verif Require Import Base Diff.
From Verif Require Import GhModel HcModel HcSpec.
From Coq Require Import List.

(** A physical model: every precipitate lists its species once and the rate limiting one among them, the
    solution starts above equilibrium, precipitates are richer than the solution, constants are positive. *)
Record g_phys (m : gmod) : Prop := {
  gy_sp : forall i, (i < g_np m)%nat -> NoDup (gp_sp (g_p m i)) /\ In (gp_rate (g_p m i)) (gp_sp (g_p m i)) /\ forall s, In s (gp_sp (g_p m i)) -> (s < g_ns m)%nat;
  gy_s : forall s, (s < g_ns m)%nat -> geps < g_ceq m s < g_c0 m s;
  gy_cp : forall i s, (i < g_np m)%nat -> In s (gp_sp (g_p m i)) -> g_c0 m s < gp_cp (g_p m i) s;
  gy_p : forall i, (i < g_np m)%nat -> let p := g_p m i in 0 < gp_am p /\ 0 < gp_Vm p /\ 0 < gp_D0 p /\ 0 < gp_N0 p /\ 0 < gp_chi p /\ 0 < gp_Cf p /\ gp_rs p <> 0 /\ gp_Ns p <> 0;
  gy_k : 0 < g_kb m /\ 0 < g_Na m /\ 0 < g_R m /\ 0 < g_T m }.

(** The volume taken by the precipitates that contain species s, and what they hold of it. *)
Definition taken (m : gmod) (F : vec) (s : nat) : R := rsum (g_np m) (fun i => if in_sp (g_p m i) s then F i else 0).
Definition held (m : gmod) (F : vec) (s : nat) : R := rsum (g_np m) (fun i => if in_sp (g_p m i) s then F i * gp_cp (g_p m i) s else 0).
(** What is left in solution if the other precipitates took no room. *)
Definition left_over (m : gmod) (F : vec) (s : nat) : R := (g_c0 m s - held m F s) / (1 - taken m F s).

(** States in which the rates can be differentiated. *)
Definition g_switch_reg (m : gmod) (F : vec) (i : nat) : Prop :=
  (exists s, In s (gp_sp (g_p m i)) /\ 1 < g_x m F s) \/
  (exists s, In s (gp_sp (g_p m i)) /\ 0 < g_x m F s < 1 /\ forall s', In s' (gp_sp (g_p m i)) -> s' <> s -> g_x m F s' < g_x m F s) \/
  (forall s, In s (gp_sp (g_p m i)) -> g_x m F s < 0).
Definition g_reg (m : gmod) (h : vec) : Prop :=
  (forall s, (s < g_ns m)%nat -> taken m (g_f m h) s <> 1 /\ left_over m (g_f m h) s <> geps) /\
  forall i, (i < g_np m)%nat -> g_r m h i <> 0 /\ g_N m h i <> 0 /\ g_G m (g_f m h) i <> 0 /\ g_switch_reg m (g_f m h) i.

(** The error of the reported derivative: in the rows of the number densities and the columns of the radii
    the effect of the volume fraction on ripening is counted twice. *)
Definition g_twice (m : gmod) (h : vec) : mat := fun x y =>
  let i := Nat.div x 2 in let j := Nat.div y 2 in
  if Nat.eqb (Nat.modulo x 2) 0 then 0 else if Nat.eqb (Nat.modulo y 2) 0 then
    fst (g_switch m (g_f m h) i i) * (-3 * g_N m h i / g_r m h i * g_rr_f m (g_f m h) i j (g_r m h i)) * g_f_r m h j / gp_Ns (g_p m i) * gp_rs (g_p m j)
  else 0.

(** A history of the model. *)
Definition g_history (m : gmod) (h : R -> vec) (a b : R) : Prop :=
  forall t, a <= t <= b -> path (2 * g_np m) h t (g_rate m (h t)) /\
    (forall i, (i < g_np m)%nat -> g_r m (h t) i <> 0) /\ (forall s, (s < g_ns m)%nat -> taken m (g_f m (h t)) s < 1).

(** A model with one precipitate of all species and the basic model with the same constants. *)
Definition g_basic (m : gmod) (fs w : R) : hcp :=
  let p := g_p m 0%nat in
  {| hp_n := g_ns m; hp_c0 := g_c0 m; hp_cp := gp_cp p; hp_ceq := g_ceq m; hp_am := gp_am p; hp_N0 := gp_N0 p; hp_Vm := gp_Vm p; hp_chi := gp_chi p;
     hp_D0 := gp_D0 p; hp_Q0 := gp_Q0 p; hp_Cf := gp_Cf p; hp_kb := g_kb m; hp_R := g_R m; hp_Na := g_Na m; hp_rate := gp_rate p; hp_fi := 0; hp_ri := gp_ri p; hp_Ni := gp_Ni p;
     hp_fs := fs; hp_rs := gp_rs p; hp_Ns := gp_Ns p; hp_w := w; hp_T := g_T m |}.
(** The basic model's state with the same radius and number and the volume fraction they make. *)
Definition g_state (m : gmod) (fs : R) (h : vec) : vec := fun i => match i with 0%nat => g_f m h 0 / fs | 1%nat => h 0%nat | _ => h 1%nat end.
