(** Model of src/ri_flow.cxx: rate independent flow rules. *)
From Verif Require Import Base.
From Verif Require Import SurfModel HardModel.

(** RateIndependentFlowRule, include/ri_flow.h *)
(** src/ri_flow.cxx:7-11 (RateIndependentFlowRule): the virtual functions *)
Record riflow := {
  rf_n : nat;
  rf_f : vec -> vec -> R -> R; rf_fs : vec -> vec -> R -> vec; rf_fa : vec -> vec -> R -> vec;
  rf_g : vec -> vec -> R -> vec; rf_gs : vec -> vec -> R -> mat; rf_ga : vec -> vec -> R -> mat;
  rf_h : vec -> vec -> R -> vec; rf_hs : vec -> vec -> R -> mat; rf_ha : vec -> vec -> R -> mat
}.

(** src/ri_flow.cxx:42-179.  mat_vec_trans is mtv, mat_mat is mm. *)
Definition RIAssociative (Y : surface) (H : hardrule) : riflow :=
  {| rf_n := hr_n H;
     rf_f := fun s a T => ys_f Y s (hr_q H a T) T;                                         (* 56-66 *)
     rf_fs := fun s a T => ys_ds Y s (hr_q H a T) T;                                       (* 68-78 *)
     rf_fa := fun s a T => mtv (hr_n H) (hr_dq H a T) (ys_dq Y s (hr_q H a T) T);          (* 80-97 *)
     rf_g := fun s a T => ys_ds Y s (hr_q H a T) T;                                        (* 99-108 *)
     rf_gs := fun s a T => ys_dss Y s (hr_q H a T) T;                                      (* 110-119 *)
     rf_ga := fun s a T => mm (hr_n H) (ys_dsq Y s (hr_q H a T) T) (hr_dq H a T);          (* 121-138 *)
     rf_h := fun s a T => ys_dq Y s (hr_q H a T) T;                                        (* 140-149 *)
     rf_hs := fun s a T => ys_dqs Y s (hr_q H a T) T;                                      (* 151-160 *)
     rf_ha := fun s a T => mm (hr_n H) (ys_dqq Y s (hr_q H a T) T) (hr_dq H a T) |}.       (* 162-178 *)
(** populate_hist throws when the sizes disagree: src/ri_flow.cxx:42-49 *)
Definition make_associative (Y : surface) (H : hardrule) : option riflow :=
  if Nat.eqb (hr_n H) (ys_n Y) then Some (RIAssociative Y H) else None.

(** src/ri_flow.cxx:212-327 *)
Definition RINonAssociative (Y : surface) (H : nahard) : riflow :=
  {| rf_n := na_n H;
     rf_f := fun s a T => ys_f Y s (na_q H a T) T;
     rf_fs := fun s a T => ys_ds Y s (na_q H a T) T;
     rf_fa := fun s a T => mtv (na_ninter H) (na_dq H a T) (ys_dq Y s (na_q H a T) T);
     rf_g := fun s a T => ys_ds Y s (na_q H a T) T;
     rf_gs := fun s a T => ys_dss Y s (na_q H a T) T;
     rf_ga := fun s a T => mm (na_ninter H) (ys_dsq Y s (na_q H a T) T) (na_dq H a T);
     rf_h := na_h H;
     rf_hs := na_hs H;
     rf_ha := na_ha H |}.
(** src/ri_flow.cxx:183-190 (RateIndependentNonAssociativeHardening) *)
Definition make_nonassociative (Y : surface) (H : nahard) : option riflow :=
  if Nat.eqb (na_ninter H) (ys_n Y) then Some (RINonAssociative Y H) else None.
