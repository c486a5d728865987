(** What the viscoplastic flow rules promise. *)
From Verif Require Import Base.
From Verif Require Import Diff.
From Verif Require Import NemlMathModel NemlMathSpec SurfModel HardModel PlastModel ViscoModel.

(** the value's reported derivatives are its joint Jacobians at every state of P *)
Definition part_exact (k n : nat) (P : R -> vec -> vec -> Prop) (p : part) : Prop := forall T,
  is_jac2 k 6 n (P T) (fun s a => pv p s a T) (fun s a => pds p s a T) (fun s a => pda p s a T).
(** all the derivatives a viscoplastic flow rule reports are right at every state of P *)
Definition vflow_exact (P : R -> vec -> vec -> Prop) (V : vflow) : Prop :=
  (forall T, is_grad2 6 (vf_n V) (P T) (fun s a => vf_y V s a T) (fun s a => vf_ys V s a T) (fun s a => vf_ya V s a T)) /\
  part_exact 6 (vf_n V) P (vf_g V) /\ part_exact 6 (vf_n V) P (vf_gt V) /\ part_exact 6 (vf_n V) P (vf_gT V) /\
  part_exact (vf_n V) (vf_n V) P (vf_h V) /\ part_exact (vf_n V) (vf_n V) P (vf_ht V) /\ part_exact (vf_n V) (vf_n V) P (vf_hT V).

(** derivative of a scalar flow function for positive arguments, and of a fluidity everywhere *)
Definition gfun_exact (G : gfun) (T : R) : Prop := forall f, 0 < f -> is_derive (fun x => gf_g G x T) f (gf_dg G f T).
Definition fluid_exact (F : fluid) : Prop := forall T a, is_derive (fun x => fl_eta F x T) a (fl_deta F a T).

(** the states of a superposition at which every component is in its own domain; component
    histories follow one another *)
Fixpoint all_dom (rs : list (vflow * (R -> vec -> vec -> Prop))) (T : R) (s a : vec) : Prop :=
  match rs with [] => True | (r, P) :: l => P T s a /\ all_dom l T s (drop (vf_n r) a) end.
(** sum of a sequence of sizes *)
Fixpoint rsumn (n : nat) (f : nat -> nat) : nat := match n with O => O | S k => (rsumn k f + f k)%nat end.
(** start of the history of component k *)
Definition offset (rs : list vflow) (k : nat) : nat := sp_n (firstn k rs).
Definition comp (rs : list vflow) (k : nat) : vflow := nth k rs (Superimposed []).
Definition comp_hist (rs : list vflow) (k : nat) (a : vec) : vec := fun i => a (offset rs k + i)%nat.

(** the deviatoric relative stress of the Yaguchi model has a nonzero equivalent stress, the over
    stress is not exactly zero, and the rate dependent threshold stays off its switching points *)
Definition y_domain (p : yparams) (T : R) (s a : vec) : Prop :=
  yD p T <> 0 /\ 0 < yJ2 (y_dS s a) /\ y_over p s a T <> 0 /\ 0 < a 13%nat /\
  y_y p s a T <> log_tol /\ y_sas p s a T <> 0 /\ y_sas p s a T <> a 13%nat /\
  0 < yJ2 (yX1 a) /\ 0 < yJ2 (yX2 a) /\ tr2 (usym (yX1 a)) = 0 /\ tr2 (usym (yX2 a)) = 0.
