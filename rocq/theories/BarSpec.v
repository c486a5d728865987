(** What the solution of a network of bars is. *)
From Verif Require Import Base Diff.
From Verif Require Import SolverModel NlModel UniModel BarModel.
From Coq Require Import ZArith List Arith.
Import ListNotations.

(** the sum of f over a list *)
Definition sum_over {A} (l : list A) (f : A -> R) : R := fold_right (fun x a => f x + a) 0 l.

(** the bars of the network join nodes of the network and have a length *)
Definition net_wf (g : net) : Prop := forall i j b, In (i, j, b) (g_edges g) -> (i < g_n g)%nat /\ (j < g_n g)%nat /\ b_l b <> 0.

(** bar b, between nodes i and j, went from state q at t0 to state q' at t1: its strain is the
    relative displacement of its ends per length, the thermal strain grew by the trapezoid rule,
    what remains is mechanical and gave the stress, the history and the energies *)
Definition bar_moved (b : bar) (i j : nat) (disp : nat -> R) (t1 t0 : R) (q q' : bst) : Prop :=
  bs_temp q' = b_T b t1 /\
  bs_strain q' * b_l b = disp j - disp i /\
  bs_tstrain q' - bs_tstrain q = (b_T b t1 - bs_temp q) * ((bm_alpha (b_mat b) (b_T b t1) + bm_alpha (b_mat b) (bs_temp q)) / 2) /\
  bs_strain q' = bs_mstrain q' + bs_tstrain q' /\
  exists A, bm_update (b_mat b) (bs_mstrain q') (bs_mstrain q) (bs_temp q') (bs_temp q) t1 t0 (bs_stress q) (bs_hist q) (bs_energy q) (bs_diss q)
    = Ret {| ur_s := bs_stress q'; ur_h := bs_hist q'; ur_A := A; ur_u := bs_energy q'; ur_p := bs_diss q' |} /\
  bs_estrain q' = bm_estrain (b_mat b) (bs_stress q') (bs_temp q') (bs_hist q').

(** the force with which the bars pull node n: each bar pulls its second node with its force and its
    first one with the opposite force *)
Definition bar_pull (g : net) (s : nst) (n : nat) : R :=
  sum_over (combine (g_edges g) (ns_bars s)) (fun x => let '((i, j, b), q) := x in
    (if Nat.eqb n j then bs_stress q * b_A b else 0) - (if Nat.eqb n i then bs_stress q * b_A b else 0)).

(** state s may follow state p: the supports are where they are prescribed to be, the bars moved with
    the nodes and the recorded forces and energy are those of the bars *)
Definition moved (g : net) (p s : nst) : Prop :=
  (forall n f, n_fix (g_node g n) = Some f -> ns_disp s n = f (ns_time s)) /\
  length (ns_bars s) = length (g_edges g) /\
  (forall k i j b, nth_error (g_edges g) k = Some (i, j, b) -> exists q q', nth_error (ns_bars p) k = Some q /\ nth_error (ns_bars s) k = Some q' /\
    bar_moved b i j (ns_disp s) (ns_time s) (ns_time p) q q') /\
  (forall n, ns_force s n = bar_pull g s n) /\
  ns_energy s = sum_over (combine (g_edges g) (ns_bars s)) (fun x => let '((i, j, b), q) := x in bs_energy q * (b_A b * b_l b)).

(** the nodes without a displacement condition, and the force applied to a node *)
Definition free_nodes (g : net) : list nat := filter (fun n => match n_fix (g_node g n) with None => true | Some _ => false end) (seq 0 (g_n g)).
Definition applied (g : net) (n : nat) (t : R) : R := match n_force (g_node g n) with Some f => f t | None => 0 end.
(** how far the free nodes are from equilibrium *)
Definition unbalance (g : net) (s : nst) : R :=
  sqrt (sum_over (free_nodes g) (fun n => (ns_force s n - applied g n (ns_time s)) * (ns_force s n - applied g n (ns_time s)))).

(** state s followed state p and is in equilibrium within the tolerances; the relative one is
    measured from a state s0 in which, without extrapolation, the free nodes have not moved *)
Definition in_equilibrium (g : net) (o : nopt) (p s : nst) : Prop :=
  moved g p s /\
  exists s0, moved g p s0 /\ ns_time s0 = ns_time s /\
    (o_extra o = false -> forall n, In n (free_nodes g) -> ns_disp s0 n = ns_disp p n) /\
    (unbalance g s <= o_rtol o * unbalance g s0 \/ unbalance g s <= o_atol o).
(** P holds of all consecutive entries of a history; the oldest entry is the start *)
Fixpoint chain (P : nst -> nst -> Prop) (start s : nst) (old : list nst) : Prop :=
  match old with [] => s = start | p :: old' => P p s /\ chain P start p old' end.

(** the histories H' go on from H with the entries new, newest first *)
Definition whole (H : nhist) : list nst := fst H :: snd H.
Definition goes_on_from (H : nhist) (new : list nst) (H' : nhist) : Prop := whole H' = new ++ whole H.

(** the tangent of a bar is the slope of its stress *)
Definition bar_slope (b : bar) (q : bst) (t1 t0 : R) : Prop := forall (x : R -> R) (r : R -> ures) w v, is_derive x w v ->
  locally w (fun z => bm_update (b_mat b) (x z) (bs_mstrain q) (b_T b t1) (bs_temp q) t1 t0 (bs_stress q) (bs_hist q) (bs_energy q) (bs_diss q) = Ret (r z)) ->
  is_derive (fun z => ur_s (r z)) w (ur_A (r w) * v).
(** node n hangs on a support through the bars *)
Inductive supported (g : net) : nat -> Prop :=
| sup_fixed : forall n f, n_fix (g_node g n) = Some f -> supported g n
| sup_bar1 : forall i j b, In (i, j, b) (g_edges g) -> supported g i -> supported g j
| sup_bar2 : forall i j b, In (i, j, b) (g_edges g) -> supported g j -> supported g i.
(** an elastic bar: stress E times mechanical strain, whatever came before *)
Definition elastic_bar (b : bar) (E : R) : Prop := forall e e0 T T0 t t0 s h u p, exists r,
  bm_update (b_mat b) e e0 T T0 t t0 s h u p = Ret r /\ ur_s r = E * e /\ ur_A r = E.
(** the materials of the bars return or raise, they do not loop *)
Definition quiet (g : net) : Prop := forall i j b, In (i, j, b) (g_edges g) -> forall e e0 T T0 t t0 s h u p, bm_update (b_mat b) e e0 T T0 t t0 s h u p <> Raise Spins.
