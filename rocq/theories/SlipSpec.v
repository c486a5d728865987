(** What the interface of a slip-hardening model and of a slip rule promises. *)
From Verif Require Import Base.
From Verif Require Import Diff.
From Verif Require Import SlipModel.
From Verif Require Import Blocks.

(** The strength of a system and its reported gradient. *)
Definition strength_exact (L : slat) (m : hlaw) (P : vec -> Prop) : Prop :=
  forall p, (p < l_n L)%nat -> is_grad (h_n m) P (h_tau m L p) (h_dtau m L p).

(** The reported derivatives of the rates of a hardening model.  The slip rates
    move along a curve; their velocity is made of a stress part (velocity vs,
    slip derivatives ds), a part through the model's own variables (vh, dh) and
    parts through ne other blocks of variables (ve j, de j).  Each rate then has
    the velocity that the three reported matrices give.  The absolute value of a
    slip rate has to be differentiable: the rate is not zero, or its velocity
    is. *)
Definition rates_exact (L : slat) (m : hlaw) (ne : nat) (P : rates -> vec -> Prop) : Prop :=
  forall (sl : R -> rates) (h : R -> vec) (t : R) (vs vh : vec) (ds dh : drates)
         (ns : nat -> nat) (de : nat -> drates) (ve : nat -> vec),
  let v := fun p => dot 6 (ds p) vs + dot (h_n m) (dh p) vh + rsum ne (fun j => dot (ns j) (de j p) (ve j)) in
  (forall p, (p < l_n L)%nat -> is_derive (fun u => sl u p) t (v p)) ->
  path (h_n m) h t vh ->
  (forall p, (p < l_n L)%nat -> sl t p <> 0 \/ v p = 0) ->
  P (sl t) (h t) ->
  forall x, (x < h_n m)%nat ->
  is_derive (fun u => h_rate m L (sl u) (h u) x) t
    (dot 6 (h_rate_s m L (sl t) ds (h t) x) vs
     + dot (h_n m) (h_rate_h m L (sl t) dh (h t) x) vh
     + rsum ne (fun j => dot (ns j) (h_rate_e m L (sl t) (de j) (h t) x) (ve j))).

(** The scalar slip law of a rule and its reported derivatives. *)
Definition scalar_exact (r : rule) (P : R -> vec -> Prop) : Prop :=
  forall (tau : R -> R) (st : R -> vec) (t vt : R) (vst : vec),
  is_derive tau t vt -> path (r_n r) st t vst -> P (tau t) (st t) ->
  is_derive (fun u => r_slip r (tau u) (st u)) t
    (r_dtau r (tau t) (st t) * vt + dot (r_n r) (r_dstr r (tau t) (st t)) vst).

(** Voce per system: inside the range of the power law, and with no other
    history blocks. *)
Definition voce_in (v : voceps) (sl : rates) (h : vec) : Prop :=
  forall k, (k < vp_n v)%nat -> vp_sat v k <> vp_init v k /\ 0 < vp_base v h k.

Definition fa_in (v : fash) (sl : rates) (h : vec) : Prop := forall k, (k < fa_n v)%nat -> fa_sat v k <> 0.

(** Plastic-slip laws: exact whenever the factor's derivative is. *)
Definition factor_exact (m : pslip) : Prop := forall s, is_derive (ps_f m) s (ps_df m s).

(** PowerLawSlipRule: positive strength; at zero resolved shear the exponent
    has to exceed one. *)
Definition pl_in (n tau : R) (st : vec) : Prop := 0 < st 0%nat /\ (tau <> 0 \/ 1 < n).

(** KinematicPowerLawSlipRule: positive flow resistance and non-negative
    isotropic strength; on the threshold the exponent has to exceed one and the
    isotropic strength has to be positive. *)
Definition kin_in (n tau : R) (st : vec) : Prop :=
  0 < st 2%nat /\ 0 <= st 1%nat /\ (kin_over tau st <> 0 \/ (0 < st 1%nat /\ 1 < n)).

(** Where the rule can be differentiated: the scalar law can be at every
    system, the strengths are asked of systems that exist, and a twin system is
    off its gate or does not react there. *)
Definition slip_in (L : slat) (r : rule) (Ps : R -> vec -> Prop) (Ph : nat -> vec -> Prop) (s h : vec) : Prop :=
  (forall k, (k < r_n r)%nat -> Ph k (bsub (r_sizes r) h k)) /\
  forall p, (p < l_n L)%nat ->
    Ps (rs_tau L s p) (rs_str L r h p) /\
    (forall k, (k < r_n r)%nat -> (l_off L p + k < l_n L)%nat) /\
    (l_twin L p = true -> rs_tau L s p <> 0 \/
       (r_slip r (rs_tau L s p) (rs_str L r h p) = 0 /\ r_dtau r (rs_tau L s p) (rs_str L r h p) = 0 /\
        forall k, (k < r_n r)%nat -> r_dstr r (rs_tau L s p) (rs_str L r h p) k = 0)).

(** A slip rate that is zero has zero derivatives (so |slip| is differentiable). *)
Definition abs_safe (L : slat) (r : rule) (s h : vec) : Prop :=
  forall p, (p < l_n L)%nat -> rs_slip L r s h p <> 0 \/
    ((forall c, (c < 6)%nat -> rs_dslip_s L r s h p c = 0) /\ forall x, (x < r_nh r)%nat -> rs_dslip_h L r s h p x = 0).
