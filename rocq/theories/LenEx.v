(** Concrete lists that fit, and lists that are accepted and then read past their end *)
From Verif Require Import Base HardModel LenModel LenSpec LenProofs.
From Coq Require Import List Arith Lia Lra.
Import ListNotations.
Open Scope R_scope.
Open Scope list_scope.

Definition cst (x : R) : R -> R := fun _ => x.
Definition two_back : chlists := {| cl_C := [cst 100; cst 10]; cl_g := [ConstantGamma (cst 5); ConstantGamma (cst 6)]; cl_A := [cst 0; cst 0]; cl_a := [cst 1; cst 1] |}.
Definition one_gamma : chlists := {| cl_C := [cst 100; cst 10]; cl_g := [ConstantGamma (cst 5)]; cl_A := [cst 0; cst 0]; cl_a := [cst 1] |}.
Lemma two_back_fits : (length (cl_C two_back) <= length (cl_g two_back) /\ length (cl_C two_back) <= length (cl_A two_back) /\ length (cl_C two_back) <= length (cl_a two_back))%nat.
Proof. cbn. lia. Qed.
Lemma cuts_case : cuts_start [1; 2] /\ rising [1; 2].
Proof. cbn. repeat (split || constructor); lra. Qed.
Definition ti : lalists := {| ll_tau0 := [10; 11; 12; 13]; ll_m := 2; ll_C := fun _ => 1; ll_mu := [1; 1; 1; 1]; ll_k1 := [1; 1]; ll_k2 := [1; 1]; ll_X := 1 |}.
Lemma ti_case : ll_ok ti = true /\ 4%nat = length (ll_tau0 ti) /\ slips_first (length (ll_k1 ti)) (Nat.leb 2).
Proof. repeat split. Qed.

Lemma accepted_lists :
  (forall s al T, cl_h one_gamma s al T = Outside)
  /\ (forall al T, cl_h_time one_gamma al T = Outside)
  /\ (forall T, rk_select [1; 2] [cst 1; cst 2] [cst 1; cst 2] 1 T = Outside)
  /\ (forall T, rk_select [] [cst 1; cst 2] [cst 1; cst 2] 1 T = Outside)
  /\ (exists g, kr_update [1; 2] [tt] g = Outside)
  /\ ms_pick [] = Outside
  /\ fs_tau [10] 1 = Outside
  /\ (forall h sl, vp_row [10; 10] [1] [20; 20] [1; 1] 2 h sl 1 = Outside)
  /\ (forall h d, vp_row_s [10] [1] [20] [1] 2 h d 1 = Outside)
  /\ (forall h sl, fa_row [1; 1] [20] 2 h sl 1 = Outside)
  /\ ll_ok ti = true /\ (forall b, ll_tau ti 4 (fun k => Nat.ltb k 2) b (fun _ => 1) 0 = Outside)
  /\ (forall ceq kT f, hp_Gv [1; 1] [1] ceq kT f = Outside).
Proof.
  split. { intros. destruct (cl_h one_gamma s al T) eqn:E; [|unfold cl_h in E; apply each_ref in E; [destruct E|]|reflexivity].
    - exfalso. assert (S : safe (cl_h one_gamma s al T)) by (rewrite E; discriminate). apply chaboche_lists in S. cbn in S. lia.
    - intros i. apply each_ref. intros j. apply bnd_ref; [apply rd_ref|]. intros ci. apply bnd_ref; [apply rd_ref|]. discriminate. }
  split. { intros. destruct (cl_h_time one_gamma al T) eqn:E; [|unfold cl_h_time in E; apply each_ref in E; [destruct E|]|reflexivity].
    - exfalso. assert (S : safe (cl_h_time one_gamma al T)) by (rewrite E; discriminate). apply chaboche_time_lists in S. cbn in S. lia.
    - intros i. apply each_ref. intros j. apply bnd_ref; [apply rd_ref|]. intros ci. apply bnd_ref; [apply rd_ref|]. discriminate. }
  split. { intros T. unfold rk_select, rd; cbn [length Nat.eqb nth_error obnd]. destruct (Rlt_dec 1 1); [lra|].
    cbn [rk_loop]. destruct (Rlt_dec 1 1); [lra|]. destruct (Rlt_dec 2 1); [lra|]. reflexivity. }
  split. { reflexivity. }
  split. { exists 1. unfold kr_update, kr_make, rd; cbn [nth_error obnd kr_loop]. destruct (Rlt_dec 1 1); [lra|]. destruct (Rlt_dec 1 2); [reflexivity | lra]. }
  split. { reflexivity. }
  split. { reflexivity. }
  split. { reflexivity. }
  split. { reflexivity. }
  split. { reflexivity. }
  split. { reflexivity. }
  split. { intros b. apply (lanl_twin_first ti 4 _ b _ 0 2); cbn; try reflexivity; try lia; lra. }
  reflexivity.
Qed.
