(** What the damage laws, the effective stresses and the damaged model promise. *)
From Verif Require Import Base.
From Verif Require Import Diff.
From Verif Require Import NemlMathModel NemlMathSpec SolverModel SubstepModel PlastModel PlastSpec CreepModel CreepSpec DamageModel.

(** the same call with another new damage, strain and stress *)
Definition moved (a : dargs) (d : R) (e s : vec) : dargs :=
  {| ad := d; adn := adn a; ae := e; aen := aen a; as_ := s; asn := asn a; aT := aT a; aTn := aTn a; at_ := at_ a; atn := atn a |}.
(** ddamage_dd, ddamage_de, ddamage_ds are the partial derivatives of damage, jointly along any
    differentiable curve of damage, strain and stress through a point of P *)
Definition damage_exact (P : dargs -> Prop) (D : damage) : Prop :=
  forall a (d : R -> R) (e s : R -> vec) u vd ve vs,
    is_derive d u vd -> path 6 e u ve -> path 6 s u vs ->
    let b := moved a (d u) (e u) (s u) in P b ->
    is_derive (fun x => dm D (moved a (d x) (e x) (s x))) u (dm_d D b * vd + dot 6 (dm_e D b) ve + dot 6 (dm_s D b) vs).
(** the same for a damage rate *)
Definition rate_exact (P : R -> vec -> vec -> R -> R -> Prop) (r : drate) : Prop :=
  forall T t (d : R -> R) (e s : R -> vec) u vd ve vs,
    is_derive d u vd -> path 6 e u ve -> path 6 s u vs -> P (d u) (e u) (s u) T t ->
    is_derive (fun x => dr r (d x) (e x) (s x) T t) u
      (dr_d r (d u) (e u) (s u) T t * vd + dot 6 (dr_e r (d u) (e u) (s u) T t) ve + dot 6 (dr_s r (d u) (e u) (s u) T t) vs).
(** df_ds, df_dd are the partial derivatives of f *)
Definition sdfun_exact (P : vec -> R -> R -> Prop) (q : sdfun) : Prop :=
  forall T (d : R -> R) (s : R -> vec) u vd vs, is_derive d u vd -> path 6 s u vs -> P (s u) (d u) T ->
    is_derive (fun x => sf_f q (s x) (d x) T) u (sf_d q (s u) (d u) T * vd + dot 6 (sf_s q (s u) (d u) T) vs).
(** an effective stress: near any point of P the value exists along every differentiable curve,
    and the reported gradient is its derivative *)
Definition es_exact (P : vec -> Prop) (E : estress) : Prop :=
  forall (s : R -> vec) u vs, path 6 s u vs -> P (s u) ->
    exists (f : R -> R) (g : vec), locally u (fun x => es_v E (s x) = Some (f x)) /\ es_d E (s u) = Some g /\ is_derive f u (dot 6 g vs).
(** positive homogeneity of degree one *)
Definition es_homogeneous (E : estress) : Prop :=
  forall s k, 0 < k -> es_v E (fun i => k * s i) = match es_v E s with Some v => Some (k * v) | None => None end.

(** the symmetric eigenvalue routines: [eigv] returns numbers v0 <= v1 <= v2 and [eigw] an
    orthogonal matrix whose row k is an eigenvector of the stress tensor for v_k *)
Definition eig_ok (eigv eigw : vec -> option vec) : Prop := forall s, exists v w,
  eigv s = Some v /\ eigw s = Some w /\ v 0%nat <= v 1%nat <= v 2%nat /\
  (forall k l, (k < 3)%nat -> (l < 3)%nat -> rsum 3 (fun i => w (3 * k + i)%nat * w (3 * l + i)%nat) = delta k l) /\
  (forall i j, (i < 3)%nat -> (j < 3)%nat -> rsum 3 (fun k => w (3 * k + i)%nat * w (3 * k + j)%nat) = delta i j) /\
  (forall k i, (k < 3)%nat -> (i < 3)%nat -> rsum 3 (fun j => t2 (usym s) i j * w (3 * k + j)%nat) = v k * w (3 * k + i)%nat).
(** the normal stress n . sigma n on the plane with normal n *)
Definition normal_stress (s n : vec) : R := rsum 3 (fun i => rsum 3 (fun j => n i * t2 (usym s) i j * n j)).
Definition unit3 (n : vec) : Prop := rsum 3 (fun i => n i * n i) = 1.

(** the compliance is symmetric *)
Definition sym6 (S : mat) : Prop := forall i j, (i < 6)%nat -> (j < 6)%nat -> S i j = S j i.
(** equivalent plastic strain increment: strain increment minus elastic strain increment *)
Definition plastic_increment (S : R -> mat) (a : dargs) : vec :=
  fun i => (ae a i - aen a i) - mv 6 (S (aT a)) (fun k => as_ a k - asn a k) i.
(** plastic work done over the step by the effective stress, the elastic strain being computed
    from the damaged stresses *)
Definition plastic_work (S : R -> mat) (a : dargs) : R :=
  dot 6 (as_ a) (fun i => (ae a i - aen a i) - mv 6 (S (aT a)) (fun k => as_ a k * (1 - ad a) - asn a k * (1 - adn a)) i).
(** a critical work table: value with its derivative, positive *)
Definition crit_exact (W W' : R -> R) : Prop := forall x, is_derive W x (W' x).

(** *** the damaged model *)
(** a sequence of updates, each starting from the previous result *)
Fixpoint drun (upd : load -> load -> vec -> vec -> R -> R -> option pres) (past : load) (sn hn : vec) (un pn : R) (l : list load) : option (list pres) :=
  match l with
  | [] => Some []
  | n :: r => match upd n past sn hn un pn with
              | None => None
              | Some x => match drun upd n (pr_s x) (pr_h x) (pr_u x) (pr_p x) r with Some xs => Some (x :: xs) | None => None end
              end
  end.
(** what a removed material point does at load [next]: unit damage, elastic response reduced by
    sfact, all other history kept *)
Definition dead (C : R -> mat) (sfact : R) (hn : vec) (next : load) (r : pres) : Prop :=
  pr_h r 0%nat = 1 /\ (forall i, pr_h r (S i) = hn (S i)) /\
  (forall i j, pr_A r i j = C (ld_T next) i j / sfact) /\
  (forall i, (i < 6)%nat -> pr_s r i = mv 6 (C (ld_T next)) (ld_e next) i / sfact).
(** is the point removed at damage w? *)
Definition removed (k : dsettings) (w : R) : Prop := kd_ekill k = true /\ kd_dkill k <= w.
