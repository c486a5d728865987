(** Batches, polycrystals and twin reorientation: what they promise. *)
From Verif Require Import Base.
From Verif Require Import NemlMathModel.
From Verif Require Import NemlMathSpec.
From Verif Require Import RotModel.
From Verif Require Import PolyModel.
From Coq Require Import List Arith.
Import ListNotations.

(** The first len entries of an array. *)
Definition cut (len : nat) (v : vec) : vec := fun j => if Nat.ltb j len then v j else 0.

(** A crystal on its own: what it remembers between calls and what it is given. *)
Record solo := { x_d : vec; x_w : vec; x_s : vec; x_h : vec }.
Record load := { g_d : vec; g_w : vec; g_T1 : R; g_T0 : R; g_t1 : R; g_t0 : R }.
Definition solo_step (m : cmodel) (g : load) (x : solo) : option cout :=
  m {| c_d1 := cut 6 (g_d g); c_d0 := x_d x; c_w1 := cut 3 (g_w g); c_w0 := x_w x; c_T1 := g_T1 g; c_T0 := g_T0 g; c_t1 := g_t1 g; c_t0 := g_t0 g;
       c_s0 := x_s x; c_h0 := x_h x; c_u0 := 0; c_p0 := 0 |}.
Definition solo_next (nh : nat) (g : load) (r : cout) : solo :=
  {| x_d := cut 6 (g_d g); x_w := cut 3 (g_w g); x_s := cut 6 (c_s r); x_h := cut nh (c_h r) |}.
Fixpoint solo_run (m : cmodel) (nh : nat) (gs : list load) (x : solo) : option (list cout) :=
  match gs with
  | [] => Some []
  | g :: gs => match solo_step m g x with
    | None => None
    | Some r => match solo_run m nh gs (solo_next nh g r) with None => None | Some rs => Some (r :: rs) end
    end
  end.
(** The polycrystal over the same loads; each step comes with the order in which the crystals are run. *)
Fixpoint taylor_run (m : cmodel) (nh n : nat) (w : list R) (gs : list (load * list nat)) (h : vec) (u p : R) : option (list tout) :=
  match gs with
  | [] => Some []
  | (g, order) :: gs => match taylor m nh n w order (g_d g) (g_w g) (g_T1 g) (g_T0 g) (g_t1 g) (g_t0 g) h u p with
    | None => None
    | Some t => match taylor_run m nh n w gs (t_h t) (t_u t) (t_p t) with None => None | Some ts => Some (t :: ts) end
    end
  end.
(** Every answer of the polycrystal is the weighted mean of the answers of the crystals. *)
Definition mean (n : nat) (w : list R) (f : nat -> R) : R := rsum n (fun i => nth i w 0 * f i).
Fixpoint averages (n : nat) (w : list R) (rs : nat -> list cout) (u p : R) (ts : list tout) : Prop :=
  match ts with
  | [] => forall i, (i < n)%nat -> rs i = []
  | t :: ts => exists r rs', (forall i, (i < n)%nat -> rs i = r i :: rs' i) /\
    (forall j, (j < 6)%nat -> t_s t j = mean n w (fun i => c_s (r i) j)) /\
    (forall j, (j < 36)%nat -> t_A t j = mean n w (fun i => c_A (r i) j)) /\
    (forall j, (j < 18)%nat -> t_B t j = mean n w (fun i => c_B (r i) j)) /\
    t_u t = u + mean n w (fun i => c_u (r i)) /\ t_p t = p + mean n w (fun i => c_p (r i)) /\
    averages n w rs' (t_u t) (t_p t) ts
  end.
(** The store h of a polycrystal holds the crystals X 0, ..., X (n-1). *)
Definition holds (nh n : nat) (h : vec) (X : nat -> solo) : Prop := forall i, (i < n)%nat ->
  part 6 i (at_ (pl_d nh n 0) h) = x_d (X i) /\ part 3 i (at_ (pl_w nh n 0) h) = x_w (X i) /\
  part 6 i (at_ (pl_s nh n 0) h) = x_s (X i) /\ part nh i h = x_h (X i).

(** Start and length of block b in a layout. *)
Fixpoint block_start (l : list nat) (b : nat) : nat :=
  match b, l with O, _ => O | S b, x :: l => (x + block_start l b)%nat | S _, [] => O end.

(** The first twin system, in the numbering from j, whose twin fraction is above the threshold. *)
Definition frac (ss : list psys) (sl : vec) (j : nat) : R := match nth_error ss j with Some s => sl j / p_shear s | None => 0 end.
Definition twin_at (ss : list psys) (j : nat) : Prop := exists s, nth_error ss j = Some s /\ p_twin s = true.
Definition over (thr : R) (ss : list psys) (sl : vec) (j : nat) : Prop := twin_at ss j /\ thr < frac ss sl j.
Definition first_over (thr : R) (ss : list psys) (sl : vec) (j : nat) : Prop :=
  over thr ss sl j /\ forall i, (i < j)%nat -> ~ over thr ss sl i.
(** The reorientation of system j. *)
Definition turn_of (ss : list psys) (j : nat) : quat := match nth_error ss j with Some s => p_turn s | None => Quat 1 0 0 0 end.
(** A run of reorientation steps: each call gets the state the update of the crystal left, with its own slips and orientation, and the state the previous call left. *)
Fixpoint ptr_run (ss : list psys) (prev : pstate) (calls : list (R * pstate)) : pstate :=
  match calls with [] => prev | (thr, st) :: calls => ptr_run ss (ptr_act thr ss st prev) calls end.

(** The answer r of crystal i is in its slices of the arrays. *)
Definition slice_is (nh : nat) (i : nat) (r : cout) (o : bout) : Prop :=
  (forall j, (j < 6)%nat -> o_s o (i * 6 + j)%nat = c_s r j) /\ (forall j, (j < nh)%nat -> o_h o (i * nh + j)%nat = c_h r j) /\
  (forall j, (j < 36)%nat -> o_A o (i * 36 + j)%nat = c_A r j) /\ (forall j, (j < 18)%nat -> o_B o (i * 18 + j)%nat = c_B r j) /\
  o_u o i = c_u r /\ o_p o i = c_p r.
(** Nothing beyond the slices of the n crystals differs. *)
Definition beyond_same (nh n : nat) (o o' : bout) : Prop := forall p,
  ((n * 6 <= p)%nat -> o_s o p = o_s o' p) /\ ((n * nh <= p)%nat -> o_h o p = o_h o' p) /\ ((n * 36 <= p)%nat -> o_A o p = o_A o' p) /\
  ((n * 18 <= p)%nat -> o_B o p = o_B o' p) /\ ((n <= p)%nat -> o_u o p = o_u o' p /\ o_p o p = o_p o' p).
(** A load with other strain and vorticity. *)
Definition with_dv (g : load) (d v : vec) : load := {| g_d := d; g_w := v; g_T1 := g_T1 g; g_T0 := g_T0 g; g_t1 := g_t1 g; g_t0 := g_t0 g |}.
