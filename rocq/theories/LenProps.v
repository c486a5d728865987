(** Objects built from several lists *)
From Verif Require Import Base HardModel CreepModel DamageModel LenModel LenSpec LenProofs LenEx.
From Coq Require Import List Arith Lia.
Import ListNotations.
Open Scope R_scope.
Open Scope list_scope.

(** ** C99 *)
(** a weighted sum of effective stresses refuses lists of different lengths and otherwise uses every pair *)
Theorem C99_sum : forall ms ws,
  (length ms <> length ws -> ss_effective ms ws = Refused)
  /\ (length ms = length ws -> ss_effective ms ws = Done (rsum (length ms) (fun i => nth i ws 0 * nth i ms 0))).
Proof. exact @sum_lists. Qed.
Print Assumptions C99_sum.
(** the matrix hardening laws refuse a matrix or a lattice of another size and otherwise use their own row *)
Theorem C99_linear : forall m M tau0 n h sl i k, (i <= k)%nat -> (k < n)%nat ->
  (~ (m = length tau0 /\ n = length tau0) ->
     gl_row m M tau0 n sl k = Refused /\ gl_tau_l m tau0 n h k = Refused /\ sl_tau_l m M tau0 n h i k = Refused)
  /\ (m = length tau0 /\ n = length tau0 ->
     gl_row m M tau0 n sl k = Done (rsum n (fun j => M (j + k * n)%nat * sl j))
     /\ gl_tau_l m tau0 n h k = Done (h k + nth k tau0 0)
     /\ sl_tau_l m M tau0 n h i k = Done (rsum n (fun j => M (j + i * n)%nat * h j) + nth k tau0 0)).
Proof. exact @linear_lists. Qed.
Print Assumptions C99_linear.
(** LANLTiModel is accepted only with as many twins as slip systems *)
Theorem C99_lanl_sizes : forall p, ll_ok p = true <-> (ll_m p = length (ll_k1 p) /\ length (ll_tau0 p) = length (ll_k1 p) + length (ll_k1 p))%nat.
Proof. exact @lanl_equal. Qed.
Print Assumptions C99_lanl_sizes.
(** Chaboche, exactly: at least as many gamma models as moduli *)
Theorem C99_chaboche : forall p s al T, safe (cl_h p s al T) <-> (length (cl_C p) <= length (cl_g p))%nat.
Proof. exact @chaboche_lists. Qed.
Print Assumptions C99_chaboche.
(** and, for static recovery, as many A and a *)
Theorem C99_chaboche_time : forall p al T,
  safe (cl_h_time p al T) <-> (length (cl_C p) <= length (cl_A p))%nat /\ (length (cl_C p) <= length (cl_a p))%nat.
Proof. exact @chaboche_time_lists. Qed.
Print Assumptions C99_chaboche_time.
(** the further entries are ignored *)
Theorem C99_chaboche_value : forall p h0 s al T, (length (cl_C p) <= length (cl_g p))%nat ->
  exists rows, cl_h p s al T = Done rows /\ length rows = length (cl_C p)
    /\ forall i j, (i < length (cl_C p))%nat -> (j < 6)%nat ->
         nth j (nth i rows []) 0 = ch_h (first_entries p) h0 s al T (S (i * 6 + j)).
Proof. exact @chaboche_value. Qed.
Print Assumptions C99_chaboche_value.
Theorem C99_chaboche_time_value : forall p al T, (length (cl_C p) <= length (cl_A p))%nat -> (length (cl_C p) <= length (cl_a p))%nat ->
  exists rows, cl_h_time p al T = Done rows /\ length rows = length (cl_C p)
    /\ forall i j, (i < length (cl_C p))%nat -> (j < 6)%nat ->
         nth j (nth i rows []) 0 = ch_ht (first_entries p) al T (S (i * 6 + j)).
Proof. exact @chaboche_time_value. Qed.
Print Assumptions C99_chaboche_time_value.
Example C99_chaboche_case : (length (cl_C two_back) <= length (cl_g two_back) /\ length (cl_C two_back) <= length (cl_A two_back) /\ length (cl_C two_back) <= length (cl_a two_back))%nat.
Proof. exact @two_back_fits. Qed.
(** RegionKMCreep, exactly *)
Theorem C99_region : forall cuts A B, cuts_start cuts ->
  ((forall neq T, 0 <= neq -> safe (rk_select cuts A B neq T))
   <-> (length A = 1 /\ 1 <= length B)%nat \/ (cuts <> [] /\ length cuts < length A /\ length cuts < length B)%nat).
Proof. exact @region_lists. Qed.
Print Assumptions C99_region.
Theorem C99_region_value : forall cuts A B neq T k, km_region (length A) cuts neq = Some k -> (k < length A)%nat -> (k < length B)%nat ->
  rk_select cuts A B neq T = Done (nth k A (fun _ => 0) T, nth k B (fun _ => 0) T).
Proof. exact @region_value. Qed.
Print Assumptions C99_region_value.
(** KMRegimeModel, exactly *)
Theorem C99_regimes : forall M (models : list M) gs, rising gs ->
  ((forall g, safe (kr_update gs models g)) <-> (1 <= length models /\ length gs <= length models)%nat).
Proof. exact @regimes_lists. Qed.
Print Assumptions C99_regimes.
Example C99_region_case : cuts_start [1; 2] /\ rising [1; 2].
Proof. exact @cuts_case. Qed.
(** which models are ever used *)
Theorem C99_regimes_used : forall M (models : list M) gs g k, kr_update gs models g = Done k ->
  ((k < length gs)%nat /\ g < nth k gs 0 /\ (forall j, (j < k)%nat -> nth j gs 0 <= g))
  \/ (k = (length models - 1)%nat /\ forall x, In x gs -> x <= g).
Proof. exact @regimes_used. Qed.
Print Assumptions C99_regimes_used.
(** the largest of several effective stresses *)
Theorem C99_max : forall ms,
  (ms = [] -> ms_pick ms = Outside)
  /\ (ms <> [] -> exists k, ms_pick ms = Done k /\ (k < length ms)%nat /\ forall j, (j < length ms)%nat -> nth j ms 0 <= nth k ms 0).
Proof. exact @max_lists. Qed.
Print Assumptions C99_max.
(** slip hardening laws, exactly *)
Theorem C99_fixed : forall st n, (forall k, (k < n)%nat -> safe (fs_tau st k)) <-> (n <= length st)%nat.
Proof. exact @fixed_lists. Qed.
Print Assumptions C99_fixed.
Theorem C99_voce : forall init ks sat m n h sl,
  (forall k, (k < n)%nat -> safe (vp_row init ks sat m n h sl k))
  <-> (n <> length init \/ (n <= length ks /\ n <= length sat /\ n <= length m))%nat.
Proof. exact @voce_lists. Qed.
Print Assumptions C99_voce.
Theorem C99_voce_derivative : forall init ks sat m n h d,
  (forall k, (k < n)%nat -> safe (vp_row_s init ks sat m n h d k))
  <-> (n <= length init /\ n <= length ks /\ n <= length sat /\ n <= length m)%nat.
Proof. exact @voce_d_lists. Qed.
Print Assumptions C99_voce_derivative.
Theorem C99_fa : forall ks sat n h sl,
  (forall k, (k < n)%nat -> safe (fa_row ks sat n h sl k)) <-> (n <> length ks \/ n <= length sat)%nat.
Proof. exact @fa_lists. Qed.
Print Assumptions C99_fa.
Theorem C99_lanl_strength : forall p n twin, ll_ok p = true -> n = length (ll_tau0 p) -> slips_first (length (ll_k1 p)) twin ->
  ((forall b h k, (k < n)%nat -> safe (ll_tau p n twin b h k)) <-> (length (ll_tau0 p) <= length (ll_mu p))%nat).
Proof. exact @lanl_tau_lists. Qed.
Print Assumptions C99_lanl_strength.
Theorem C99_lanl_rate : forall p n twin, ll_ok p = true -> n = length (ll_tau0 p) -> slips_first (length (ll_k1 p)) twin ->
  ((forall h sl k, (k < n)%nat -> safe (ll_row p n twin h sl k)) <-> (length (ll_k1 p) <= length (ll_k2 p))%nat).
Proof. exact @lanl_row_lists. Qed.
Print Assumptions C99_lanl_rate.
Example C99_lanl_case : ll_ok ti = true /\ 4%nat = length (ll_tau0 ti) /\ slips_first (length (ll_k1 ti)) (Nat.leb 2).
Proof. exact @ti_case. Qed.
(** a twin listed before a slip system *)
Theorem C99_twin_first_refuted : forall p n twin b h k k2, ll_ok p = true -> n = length (ll_tau0 p) ->
  twin k = true -> (k < length (ll_k1 p))%nat -> twin k2 = false -> (k2 < n)%nat -> 0 < h k2 ->
  ll_tau p n twin b h k = Outside.
Proof. exact @lanl_twin_first. Qed.
Print Assumptions C99_twin_first_refuted.
Theorem C99_hucocks : forall c0 cp ceq kT f, safe (hp_Gv c0 cp ceq kT f) <-> (length c0 <= length cp)%nat.
Proof. exact @hucocks_lists. Qed.
Print Assumptions C99_hucocks.
(** a missing equilibrium concentration counts as 1 *)
Theorem C99_hucocks_short : forall c0 cp ceq kT f k, hp_Gv c0 cp ceq kT f = hp_Gv c0 cp (ceq ++ repeat 1 k) kT f.
Proof. exact @hucocks_short. Qed.
Print Assumptions C99_hucocks_short.
(** lists that are accepted, then read past their end *)
Theorem C99_lists_refuted : (forall s al T, cl_h one_gamma s al T = Outside)
  /\ (forall al T, cl_h_time one_gamma al T = Outside)
  /\ (forall T, rk_select [1; 2] [cst 1; cst 2] [cst 1; cst 2] 1 T = Outside)
  /\ (forall T, rk_select [] [cst 1; cst 2] [cst 1; cst 2] 1 T = Outside)
  /\ (exists g, kr_update [1; 2] [tt] g = Outside)
  /\ ms_pick [] = Outside
  /\ fs_tau [10] 1 = Outside
  /\ (forall h sl, vp_row [10; 10] [1] [20; 20] [1; 1] 2 h sl 1 = Outside)
  /\ (forall h d, vp_row_s [10] [1] [20] [1] 2 h d 1 = Outside)
  /\ (forall h sl, fa_row [1; 1] [20] 2 h sl 1 = Outside)
  /\ ll_ok ti = true /\ (forall b, ll_tau ti 4 (fun k => Nat.ltb k 2) b (fun _ => 1) 0 = Outside)
  /\ (forall ceq kT f, hp_Gv [1; 1] [1] ceq kT f = Outside).
Proof. exact @accepted_lists. Qed.
Print Assumptions C99_lists_refuted.
