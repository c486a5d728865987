(** What the Walker models promise. *)
From Verif Require Import Base.
From Verif Require Import Diff.
From Verif Require Import NemlMathModel NemlMathSpec SurfModel HardModel PlastModel PlastSpec ViscoModel ViscoSpec TensorModel WalkerModel.

(** a curve of variable states at constant temperature with velocity v *)
Definition spath (c : R -> vstate R) (t : R) (v : vstate R) : Prop :=
  is_derive (fun u => st_h (c u)) t (st_h v) /\ is_derive (fun u => st_a (c u)) t (st_a v) /\
  is_derive (fun u => st_ad (c u)) t (st_ad v) /\ is_derive (fun u => st_D (c u)) t (st_D v) /\
  path 6 (fun u => st_s (c u)) t (st_s v) /\ path 6 (fun u => st_g (c u)) t (st_g v) /\ (forall u, st_T (c u) = st_T (c t)).
Definition kpath (c : R -> vstate vec) (t : R) (v : vstate vec) : Prop :=
  path 6 (fun u => st_h (c u)) t (st_h v) /\ is_derive (fun u => st_a (c u)) t (st_a v) /\
  is_derive (fun u => st_ad (c u)) t (st_ad v) /\ is_derive (fun u => st_D (c u)) t (st_D v) /\
  path 6 (fun u => st_s (c u)) t (st_s v) /\ path 6 (fun u => st_g (c u)) t (st_g v) /\ (forall u, st_T (c u) = st_T (c t)).
(** along the curve the plastic strain rate is positive, or there is no plastic flow near t *)
Definition settled {V} (c : R -> vstate V) (t : R) : Prop :=
  0 < st_ad (c t) \/ locally t (fun u => st_ad (c u) <= 0).

(** the reported derivatives of an internal variable's rate are its derivatives with respect to the
    variable, the plastic strain and its rate, the drag stress, the stress and the flow direction,
    jointly, at every state of P *)
Definition srate_exact (P : vstate R -> Prop) (r : srate) : Prop := forall c t v, spath c t v -> settled c t -> P (c t) ->
  is_derive (fun u => sr r (c u)) t
    (sr_h r (c t) * st_h v + sr_a r (c t) * st_a v + sr_ad r (c t) * st_ad v + sr_D r (c t) * st_D v
     + dot 6 (sr_s r (c t)) (st_s v) + dot 6 (sr_g r (c t)) (st_g v)).
Definition krate_exact (P : vstate vec -> Prop) (r : krate) : Prop := forall c t v, kpath c t v -> settled c t -> P (c t) ->
  path 6 (fun u => kr r (c u)) t (fun i =>
    mv 6 (kr_h r (c t)) (st_h v) i + kr_a r (c t) i * st_a v + kr_ad r (c t) i * st_ad v + kr_D r (c t) i * st_D v
    + mv 6 (kr_s r (c t)) (st_s v) i + mv 6 (kr_g r (c t)) (st_g v) i).
(** derivative of a softening function *)
Definition soft_exact (P : R -> R -> Prop) (S : soft) : Prop :=
  forall a T, P a T -> is_derive (fun x => so_phi S x T) a (so_dphi S a T).

(** trace of a symmetric tensor in Mandel form is that of its matrix *)
Definition traceless (d : vec) : Prop := tr2 (usym d) = 0.

(** the states at which the Walker flow rule is differentiable: the relative stress does not vanish,
    the drag stress and the overstress are not zero, every backstress is deviatoric, and there is
    flow with the drag stress above its initial value, or no flow with the drag stress off its
    initial value *)
Definition w_domain (w : walker) (Pa : R -> R -> Prop) (T : R) (s a : vec) : Prop :=
  sym_norm (w_d w s a) <> 0 /\ a 2%nat <> 0 /\ 0 < dv_xi (w_D w) T /\ Pa (a 0%nat) T /\
  (forall i, (i < w_nX w)%nat -> traceless (wX a i)) /\
  ((0 < w_over w s a T /\ dv_0 (w_D w) T < a 2%nat /\ 0 < w_pre w a T) \/
   (w_over w s a T < 0 /\ a 2%nat <> dv_0 (w_D w) T)).
(** the states of the internal variables that go with a state of the flow rule *)
Definition w_var_domain (w : walker) (PR PD : vstate R -> Prop) (PX : nat -> vstate vec -> Prop) (T : R) (s a : vec) : Prop :=
  PR (w_state w s a T (a 1%nat)) /\ PD (w_state w s a T (a 2%nat)) /\
  (forall i, (i < w_nX w)%nat -> PX i (w_state w s a T (wX a i))).

(** one backward Euler step of the history of a Walker flow rule to the stress s' and history a' at
    temperature T: p is the increment of plastic strain, q the increment of (scaled) time, r what
    the solver leaves as residual *)
Definition walker_step (w : walker) (T : R) (s' a a' : vec) (p q : R) (r : vec) : Prop :=
  0 <= p /\ 0 <= q /\
  forall j, (j < vf_n (WalkerFlow w))%nat ->
    a' j = a j + p * pv (vf_h (WalkerFlow w)) s' a' T j + q * pv (vf_ht (WalkerFlow w)) s' a' T j + r j.
(** N steps in a row, each with a residual of norm at most tol, at temperatures of the set Ts *)
Inductive walker_run (w : walker) (Ts : R -> Prop) (tol : R) : nat -> vec -> vec -> Prop :=
| wr_start : forall a, walker_run w Ts tol 0 a a
| wr_step : forall N a a1 a2 T s p q r, walker_run w Ts tol N a a1 -> Ts T -> walker_step w T s a1 a2 p q r ->
    norm2 (vf_n (WalkerFlow w)) r <= tol -> walker_run w Ts tol (S N) a a2.
(** the rate of a backstress pushes it back beyond the size M, for every flow direction of the right
    length, and static recovery never increases it *)
Definition kin_bounded (Ts : R -> Prop) (M : R) (K : kvar) : Prop := forall x, Ts (st_T x) -> dot 6 (st_g x) (st_g x) <= 3 / 2 ->
  (exists k, 0 <= k /\ dot 6 (kr (kv_p K) x) (st_h x) <= k * (M - norm2 6 (st_h x)) * norm2 6 (st_h x)) /\
  dot 6 (kr (kv_t K) x) (st_h x) <= 0.

(** states at which the rate of a Walker backstress is differentiable *)
Definition wkin_dom (p : wkin) (Pa : R -> R -> Prop) (x : vstate vec) : Prop :=
  traceless (st_h x) /\ sym_norm (k_d x) <> 0 /\ 0 < st_a x /\ 0 < k_L p x /\ sym_norm (st_h x) <> 0 /\ 0 < st_D x /\ Pa (st_a x) (st_T x).
(** those of the test flow rule *)
Definition tf_domain (D : R) (T : R) (s a : vec) : Prop := D <> 0 /\ sym_norm (sym_dev s) <> 0 /\ tf_over D s a <> 0.
(** the Walker model made of the shipped softening, isotropic, drag and kinematic variables *)
Definition full_walker eps0 phi0 phi1 scaling n k m r0 Rinf R0 r1 r2 d0 d1 d2 Dxi D0 nX (ks : nat -> wkin) : walker :=
  walker_of eps0 (WalkerSoftening phi0 phi1) scaling n k m (WalkerIso r0 Rinf R0 r1 r2)
    (fun sc => WalkerDrag d0 d1 d2 Dxi D0 (WalkerSoftening phi0 phi1) sc) nX (fun i sc => WalkerKin (set_scale (ks i) sc)).
