(** What the users of crystal damage rely on. *)
From Verif Require Import Base.
From Verif Require Import Diff.
From Verif Require Import NemlMathModel.
From Verif Require Import NemlMathSpec.
From Verif Require Import RotModel.
From Verif Require Import TensorModel.
From Verif Require Import CpModel.
From Verif Require Import CdModel.
From Verif Require Import MatInv.
From Coq Require Import List.

Definition unit3 (n : vec) : Prop := rsum 3 (fun i => n i * n i) = 1.
(** The traction of a (Mandel) stress on the plane with normal n, its normal component and its shear part. *)
Definition traction (s n : vec) : vec := fun i => rsum 3 (fun j => usym s (3 * i + j)%nat * n j).
Definition tnormal (s n : vec) : R := rsum 3 (fun i => traction s n i * n i).
Definition tshear (s n : vec) : vec := fun i => traction s n i - tnormal s n * n i.

(** The action of a fourth order tensor on a stress, as a full tensor. *)
Definition act4 (A : nat -> nat -> nat -> nat -> R) (s : vec) : mat := fun i j =>
  rsum 3 (fun k => rsum 3 (fun l => A i j k l * usym s (3 * k + l)%nat)).
(** A Mandel matrix represents a fourth order tensor: same result on every stress. *)
Definition represents (M : mat) (A : nat -> nat -> nat -> nat -> R) : Prop :=
  forall s i j, (i < 3)%nat -> (j < 3)%nat -> usym (mv 6 M s) (3 * i + j)%nat = act4 A s i j.

(** The derivatives of a transformation function are the derivatives, on P. *)
Definition trans_exact (m : trans) (P : R -> R -> Prop) : Prop :=
  forall (d ns : R -> R) t d' n', is_derive d t d' -> is_derive ns t n' -> P (d t) (ns t) ->
    is_derive (fun u => t_map m (d u) (ns u)) t (t_dd m (d t) (ns t) * d' + t_dn m (d t) (ns t) * n').
(** The reported dependence on the normal stress is zero. *)
Definition normal_free (m : trans) : Prop := forall d ns, t_dn m d ns = 0.

(** The derivatives of a slip plane damage law are the derivatives. *)
Definition pdamage_exact (q : pdamage) : Prop :=
  forall m (tau g : R -> vec) (ns d : R -> R) t tau' g' n' d', path m tau t tau' -> path m g t g' -> is_derive ns t n' -> is_derive d t d' ->
    is_derive (fun u => q_rate q m (tau u) (g u) (ns u) (d u)) t
      (rsum m (fun k => q_dshear q m (tau t) (g t) (ns t) (d t) k * tau' k) + rsum m (fun k => q_dslip q m (tau t) (g t) (ns t) (d t) k * g' k)
       + q_dnormal q m (tau t) (g t) (ns t) (d t) * n' + q_ddamage q m (tau t) (g t) (ns t) (d t) * d').

(** The projection's derivatives, on Q (stress, damage). *)
Definition projection_exact (dm : cdamage) (Q : vec -> vec -> Prop) : Prop :=
  forall (s d : R -> vec) t s' d', path 6 s t s' -> path (cd_n dm) d t d' -> Q (s t) (d t) ->
    forall i j, (i < 6)%nat -> (j < 6)%nat ->
    is_derive (fun u => cd_P dm (s u) (d u) i j) t
      (rsum 6 (fun k => cd_P_s dm (s t) (d t) i j k * s' k) + rsum (cd_n dm) (fun x => cd_P_h dm (s t) (d t) x i j * d' x)).
(** The damage rates' derivatives, with ni inelastic variables, on Q (stress, inelastic variables, damage). *)
Definition damage_rate_exact (ni : nat) (dm : cdamage) (Q : vec -> vec -> vec -> Prop) : Prop :=
  forall (s h d : R -> vec) t s' h' d', path 6 s t s' -> path ni h t h' -> path (cd_n dm) d t d' -> Q (s t) (h t) (d t) ->
    path (cd_n dm) (fun u => cd_rate dm (s u) (h u) (d u)) t
      (fun i => mv 6 (cd_rate_s dm (s t) (h t) (d t)) s' i + mv ni (cd_rate_i dm (s t) (h t) (d t)) h' i + mv (cd_n dm) (cd_rate_d dm (s t) (h t) (d t)) d' i).

(** The LAPACK inverse: an invertible matrix is inverted. *)
Definition inverts (inv : mat -> mat) : Prop := forall A, (exists B, inverse_of 6 B A) -> inverse_of 6 (inv A) A.
(** The projection stays invertible along every path through Q. *)
Definition stays_invertible (dm : cdamage) (Q : vec -> vec -> Prop) : Prop :=
  forall (s d : R -> vec) t s' d', path 6 s t s' -> path (cd_n dm) d t d' -> Q (s t) (d t) ->
    locally t (fun u => exists B, inverse_of 6 B (cd_P dm (s u) (d u))).

(** The states in which the damaged kinematic model is differentiable: the inelastic model at the stress on the
    undamaged material, the projection at the stress, both with their own conditions; the projection does not
    follow the stress. *)
Definition dk_in (inv : mat -> mat) (m : imodel) (dm : cdamage) (Pm Q : vec -> vec -> Prop) (s h : vec) : Prop :=
  Pm (dk_sp inv m dm s h) (dk_i m h) /\ Q s (dk_d m h) /\
  forall i j k, (i < 6)%nat -> (j < 6)%nat -> (k < 6)%nat -> cd_P_s dm s (dk_d m h) i j k = 0.
