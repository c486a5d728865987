(** The contract between a rate independent flow rule and the models that integrate it. *)
From Verif Require Import Base.
From Verif Require Import Diff.
From Verif Require Import RiModel.

(** f has gradient (df_ds, df_da), g has Jacobian (dg_ds, dg_da), h has Jacobian (dh_ds, dh_da),
    jointly in stress and history, at every state of P. *)
Definition flow_exact (P : R -> vec -> vec -> Prop) (F : riflow) : Prop := forall T,
  is_grad2 6 (rf_n F) (P T) (fun s a => rf_f F s a T) (fun s a => rf_fs F s a T) (fun s a => rf_fa F s a T) /\
  is_jac2 6 6 (rf_n F) (P T) (fun s a => rf_g F s a T) (fun s a => rf_gs F s a T) (fun s a => rf_ga F s a T) /\
  is_jac2 (rf_n F) 6 (rf_n F) (P T) (fun s a => rf_h F s a T) (fun s a => rf_hs F s a T) (fun s a => rf_ha F s a T).
