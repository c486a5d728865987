(** Model of src/cp/hucocks.cxx: precipitation, dislocation spacing, Hu-Cocks hardening and the
    Arrhenius slip rule.

    The temperature does not change during a call, so an interpolate's value(T) is a number.  The
    history of a precipitation model is its three variables; names are as in SlipModel.v. *)
From Verif Require Import Base.
From Verif Require Import Blocks SlipModel.
From Coq Require Import List.

(** product of numbers, as accumulated in src/cp/hucocks.cxx:443-491 *)
Fixpoint rprod (n : nat) (f : nat -> R) : R := match n with O => 1 | S k => rprod k f * f k end.

(** *** HuCocksPrecipitationModel (6-32): hp_n species; the constants of a species are vectors *)
Record hcp := { hp_n : nat; hp_c0 : vec; hp_cp : vec; hp_ceq : vec; hp_am : R; hp_N0 : R; hp_Vm : R; hp_chi : R; hp_D0 : R; hp_Q0 : R; hp_Cf : R;
  hp_kb : R; hp_R : R; hp_Na : R; hp_rate : nat; hp_fi : R; hp_ri : R; hp_Ni : R; hp_fs : R; hp_rs : R; hp_Ns : R; hp_w : R; hp_T : R }.
Definition hp_vm (p : hcp) : R := hp_Vm p / hp_Na p.                                                          (* 29 *)
(** c, dc_df (418-434), D_ (436-440) *)
Definition hp_c (p : hcp) (f : R) : vec := fun i => (hp_c0 p i - f * hp_cp p i) / (1 - f).
(** src/cp/hucocks.cxx:428-434 (dc_df) *)
Definition hp_dc (p : hcp) (f : R) : vec := fun i => (hp_c0 p i - hp_cp p i) / (1 - f) ^ 2.
(** src/cp/hucocks.cxx:437-440 (D_) *)
Definition hp_D (p : hcp) : R := hp_D0 p * exp (- hp_Q0 p / (hp_R p * hp_T p)).
(** Gv (442-459), dG_df (461-491) *)
Definition hp_Gv (p : hcp) (f : R) : R := - hp_kb p * hp_T p / hp_vm p * ln (rprod (hp_n p) (hp_c p f) / rprod (hp_n p) (hp_ceq p)).
(** src/cp/hucocks.cxx:462-491 (dG_df) *)
Definition hp_dG (p : hcp) (f : R) : R := - hp_kb p * hp_T p / hp_vm p *
  rsum (hp_n p) (fun i => rprod (hp_n p) (fun j => if Nat.eqb i j then hp_dc p f j else hp_c p f j)) / rprod (hp_n p) (hp_c p f).
(** sfn_ (499-526): value and derivative of the switch.  [junk] is what dval holds before the call; the
    callers do not set it. *)
Definition hp_x (p : hcp) (f : R) (i : nat) : R := (hp_c p f i - hp_c0 p i) / (hp_ceq p i - hp_c0 p i).
(** src/cp/hucocks.cxx:500-526 (sfn_): the loop over species *)
Fixpoint hp_scan (p : hcp) (junk f : R) (n : nat) : R * R :=
  match n with
  | O => (0, junk)
  | S i => let v := hp_scan p junk f i in
    if Rlt_dec (fst v) (hp_x p f i) then (hp_x p f i, hp_dc p f i / (hp_ceq p i - hp_c0 p i)) else v
  end.
(** src/cp/hucocks.cxx:500-526 (sfn_): the loop and the two clamps *)
Definition hp_switch (p : hcp) (junk f : R) : R * R :=
  let v := hp_scan p junk f (hp_n p) in
  let v := if Rlt_dec (fst v) 0 then (0, 0) else v in
  if Rlt_dec 1 (fst v) then (1, 0) else v.
(** nucleation: N_rate_nucleation_, dN_df_nucleation_ (344-373); the other derivatives are zero (375-385) *)
Definition hp_ZB (p : hcp) (c : R) : R := 2 * hp_vm p * hp_D p * c / hp_am p ^ 4 * sqrt (hp_chi p / (hp_kb p * hp_T p)).
(** src/cp/hucocks.cxx:345-354: barrier in N_rate_nucleation_ *)
Definition hp_Gs (p : hcp) (G : R) : R := 16 * PI * hp_chi p ^ 3 / (3 * G ^ 2) * hp_w p.
(** src/cp/hucocks.cxx:357-373: its derivative, in dN_df_nucleation_ *)
Definition hp_dGs (p : hcp) (G dG : R) : R := -32 * PI * hp_chi p ^ 3 / (3 * G ^ 3) * dG * hp_w p.
(** src/cp/hucocks.cxx:345-354 (N_rate_nucleation_) *)
Definition hp_Nn (p : hcp) (f : R) : R := hp_N0 p * hp_ZB p (hp_c p f (hp_rate p)) * exp (- hp_Gs p (hp_Gv p f) / (hp_kb p * hp_T p)).
(** src/cp/hucocks.cxx:357-373 (dN_df_nucleation_) *)
Definition hp_Nn_f (p : hcp) (f : R) : R :=
  hp_N0 p * hp_ZB p (hp_dc p f (hp_rate p)) * exp (- hp_Gs p (hp_Gv p f) / (hp_kb p * hp_T p)) -
  hp_N0 p * hp_ZB p (hp_c p f (hp_rate p)) * exp (- hp_Gs p (hp_Gv p f) / (hp_kb p * hp_T p)) * hp_dGs p (hp_Gv p f) (hp_dG p f) / (hp_kb p * hp_T p).
(** r_rate_nucleation_ and its derivatives (219-269) *)
Definition hp_rc (p : hcp) (f : R) : R := -2 * hp_chi p / hp_Gv p f.
(** src/cp/hucocks.cxx:220-230 (r_rate_nucleation_): the denominator *)
Definition hp_over (p : hcp) : R := hp_cp p (hp_rate p) - hp_ceq p (hp_rate p).
(** src/cp/hucocks.cxx:220-230 (r_rate_nucleation_) *)
Definition hp_rn (p : hcp) (f r N : R) : R := hp_D p / r * (hp_c p f (hp_rate p) - hp_ceq p (hp_rate p)) / hp_over p + hp_Nn p f / N * (hp_rc p f - r).
(** src/cp/hucocks.cxx:233-245 (dr_df_nucleation_) *)
Definition hp_rn_f (p : hcp) (f r N : R) : R :=
  let drc := 2 * hp_chi p / (hp_Gv p f * hp_Gv p f) * hp_dG p f in
  hp_D p / r * hp_dc p f (hp_rate p) / hp_over p + hp_Nn_f p f / N * (hp_rc p f - r) + hp_Nn p f / N * drc.
(** src/cp/hucocks.cxx:248-258 (dr_dr_nucleation_) *)
Definition hp_rn_r (p : hcp) (f r N : R) : R :=
  - hp_D p / (r * r) * (hp_c p f (hp_rate p) - hp_ceq p (hp_rate p)) / hp_over p + 0 / N * (hp_rc p f - r) - hp_Nn p f / N.
(** src/cp/hucocks.cxx:261-269 (dr_dN_nucleation_) *)
Definition hp_rn_N (p : hcp) (f r N : R) : R := 0 / N * (hp_rc p f - r) - hp_Nn p f / (N * N) * (hp_rc p f - r).
(** ripening: r_rate_ripening_ (271-305), N_rate_ripening_ (387-410) and derivatives *)
Definition hp_K (p : hcp) (c : R) : R := hp_Cf p * 8 * hp_chi p * hp_Vm p * hp_D p * c / (9 * hp_R p * hp_T p).
(** src/cp/hucocks.cxx:272-279 (r_rate_ripening_) *)
Definition hp_rr (p : hcp) (f r : R) : R := hp_K p (hp_c p f (hp_rate p)) / (3 * r ^ 2).
(** src/cp/hucocks.cxx:282-289 (dr_df_ripening_) *)
Definition hp_rr_f (p : hcp) (f r : R) : R := hp_K p (hp_dc p f (hp_rate p)) / (3 * r ^ 2).
(** src/cp/hucocks.cxx:292-299 (dr_dr_ripening_) *)
Definition hp_rr_r (p : hcp) (f r : R) : R := -2 * hp_K p (hp_c p f (hp_rate p)) / (3 * r ^ 3).
(** src/cp/hucocks.cxx:388-391 (N_rate_ripening_) *)
Definition hp_Nr (p : hcp) (f r N : R) : R := -3 * N / r * hp_rr p f r.
(** src/cp/hucocks.cxx:394-397 (dN_df_ripening_) *)
Definition hp_Nr_f (p : hcp) (f r N : R) : R := -3 * N / r * hp_rr_f p f r.
(** src/cp/hucocks.cxx:400-404 (dN_dr_ripening_) *)
Definition hp_Nr_r (p : hcp) (f r N : R) : R := -3 * N / r * hp_rr_r p f r + 3 * N / (r * r) * hp_rr p f r.
(** src/cp/hucocks.cxx:407-410 (dN_dN_ripening_) *)
Definition hp_Nr_N (p : hcp) (f r N : R) : R := -3 * N / r * 0 - 3 / r * hp_rr p f r.
(** r_rate (182-217), N_rate (307-342), f_rate (152-180), each with its derivatives *)
Definition hp_rrate (p : hcp) (f r N : R) : R := let s := fst (hp_switch p 0 f) in (1 - s) * hp_rn p f r N + s * hp_rr p f r.
(** src/cp/hucocks.cxx:192-199 (dr_df) *)
Definition hp_r_f (p : hcp) (junk f r N : R) : R := let (s, ds) := hp_switch p junk f in
  (1 - s) * hp_rn_f p f r N + s * hp_rr_f p f r - ds * hp_rn p f r N + ds * hp_rr p f r.
(** src/cp/hucocks.cxx:202-208 (dr_dr) *)
Definition hp_r_r (p : hcp) (f r N : R) : R := let s := fst (hp_switch p 0 f) in (1 - s) * hp_rn_r p f r N + s * hp_rr_r p f r.
(** src/cp/hucocks.cxx:211-217 (dr_dN) *)
Definition hp_r_N (p : hcp) (f r N : R) : R := let s := fst (hp_switch p 0 f) in (1 - s) * hp_rn_N p f r N + s * 0.
(** src/cp/hucocks.cxx:308-314 (N_rate) *)
Definition hp_Nrate (p : hcp) (f r N : R) : R := let s := fst (hp_switch p 0 f) in (1 - s) * hp_Nn p f + s * hp_Nr p f r N.
(** src/cp/hucocks.cxx:317-324 (dN_df) *)
Definition hp_N_f (p : hcp) (junk f r N : R) : R := let (s, ds) := hp_switch p junk f in
  (1 - s) * hp_Nn_f p f + s * hp_Nr_f p f r N - ds * hp_Nn p f + ds * hp_Nr p f r N.
(** src/cp/hucocks.cxx:327-333 (dN_dr) *)
Definition hp_N_r (p : hcp) (f r N : R) : R := let s := fst (hp_switch p 0 f) in (1 - s) * 0 + s * hp_Nr_r p f r N.
(** src/cp/hucocks.cxx:336-342 (dN_dN) *)
Definition hp_N_N (p : hcp) (f r N : R) : R := let s := fst (hp_switch p 0 f) in (1 - s) * 0 + s * hp_Nr_N p f r N.
(** src/cp/hucocks.cxx:153-157 (f_rate) *)
Definition hp_frate (p : hcp) (f r N : R) : R := 4 * PI / 3 * (hp_Nrate p f r N * r ^ 3 + N * 3 * r ^ 2 * hp_rrate p f r N).
(** src/cp/hucocks.cxx:160-164 (df_df) *)
Definition hp_f_f (p : hcp) (junk f r N : R) : R := 4 * PI / 3 * (hp_N_f p junk f r N * r ^ 3 + N * 3 * r ^ 2 * hp_r_f p junk f r N).
(** src/cp/hucocks.cxx:167-172 (df_dr) *)
Definition hp_f_r (p : hcp) (f r N : R) : R := 4 * PI / 3 *
  (hp_N_r p f r N * r ^ 3 + 3 * hp_Nrate p f r N * r ^ 2 + 6 * N * r * hp_rrate p f r N + N * 3 * r ^ 2 * hp_r_r p f r N).
(** src/cp/hucocks.cxx:175-180 (df_dN) *)
Definition hp_f_N (p : hcp) (f r N : R) : R := 4 * PI / 3 * (hp_N_N p f r N * r ^ 3 + 3 * r ^ 2 * hp_rrate p f r N + N * 3 * r ^ 2 * hp_r_N p f r N).
(** f, r, N (134-150), init_hist (98-104), rate (106-114), jac (116-132) *)
Definition hp_f (p : hcp) (h : vec) : R := h 0%nat * hp_fs p.
(** src/cp/hucocks.cxx:141-144 (r) *)
Definition hp_r (p : hcp) (h : vec) : R := h 1%nat * hp_rs p.
(** src/cp/hucocks.cxx:147-150 (N) *)
Definition hp_N (p : hcp) (h : vec) : R := h 2%nat * hp_Ns p.
(** src/cp/hucocks.cxx:99-104 (init_hist) *)
Definition hp_init (p : hcp) : vec := fun i => match i with 0%nat => hp_fi p / hp_fs p | 1%nat => hp_ri p / hp_rs p | _ => hp_Ni p / hp_Ns p end.
(** src/cp/hucocks.cxx:107-114 (rate) *)
Definition hp_rates (p : hcp) (h : vec) : vec := let f := hp_f p h in let r := hp_r p h in let N := hp_N p h in
  fun i => match i with 0%nat => hp_frate p f r N / hp_fs p | 1%nat => hp_rrate p f r N / hp_rs p | _ => hp_Nrate p f r N / hp_Ns p end.
(** src/cp/hucocks.cxx:117-132 (jac) *)
Definition hp_jac (p : hcp) (junk : R) (h : vec) : mat := let f := hp_f p h in let r := hp_r p h in let N := hp_N p h in
  fun i j => match i, j with
  | 0%nat, 0%nat => hp_f_f p junk f r N / hp_fs p * hp_fs p | 0%nat, 1%nat => hp_f_r p f r N / hp_fs p * hp_rs p | 0%nat, _ => hp_f_N p f r N / hp_fs p * hp_Ns p
  | 1%nat, 0%nat => hp_r_f p junk f r N / hp_rs p * hp_fs p | 1%nat, 1%nat => hp_r_r p f r N / hp_rs p * hp_rs p | 1%nat, _ => hp_r_N p f r N / hp_rs p * hp_Ns p
  | _, 0%nat => hp_N_f p junk f r N / hp_Ns p * hp_fs p | _, 1%nat => hp_N_r p f r N / hp_Ns p * hp_rs p | _, _ => hp_N_N p f r N / hp_Ns p * hp_Ns p
  end.

(** *** DislocationSpacingHardening (539-805): one spacing per system *)
Record dspac := { ds_n : nat; ds_J1 : R; ds_J2 : R; ds_K : R; ds_L0 : R; ds_a : R; ds_b : R; ds_G : R }.
(** src/cp/hucocks.cxx:639-673 (hist): J1 on the diagonal, J2 off it *)
Definition ds_J (v : dspac) (i j : nat) : R := if Nat.eqb i j then ds_J1 v else ds_J2 v.
Definition spacing (v : dspac) : hlaw :=
  {| h_n := ds_n v; h_init := fun _ => ds_L0 v;                                                               (* 611-618 *)
     h_tau := fun _ p h => ds_a v * ds_G v * ds_b v / h p;                                                    (* 620-625 *)
     h_dtau := fun _ p h q => if Nat.eqb q p then - ds_a v * ds_G v * ds_b v / h p ^ 2 else 0;                (* 627-636 *)
     h_rate := fun L sl h i => rsum (l_n L) (fun j => - (h i ^ 3 * ds_J v i j * Rabs (sl j))) + ds_K v / h i ^ 3;   (* 638-673 *)
     h_rate_s := fun L sl ds h i c => rsum (l_n L) (fun j => - (h i ^ 3 * ds_J v i j * copysign 1 (sl j) * ds j c));   (* 675-711 *)
     h_rate_h := fun L sl dh h i c =>                                                                         (* 713-756 *)
       rsum (l_n L) (fun j => (if Nat.eqb c i then - (3 * h i ^ 2 * ds_J v i j * Rabs (sl j)) else 0) - h i ^ 3 * ds_J v i j * copysign 1 (sl j) * dh j c)
       + (if Nat.eqb c i then - (3 * ds_K v / h i ^ 4) else 0);
     h_rate_e := fun L sl de h i c => rsum (l_n L) (fun j => - (h i ^ 3 * ds_J v i j * copysign 1 (sl j) * de j c)) |}.   (* 758-799 *)

(** *** HuCocksHardening (807-1103): the variables of the dislocation model d, then three per
    precipitation model.  d's d_hist_d_h is asked with the whole history, so that its columns for the
    precipitates are those of d_hist_d_h_ext (as in DislocationSpacingHardening). *)
Record hcock := { hk_d : hlaw; hk_m : nat; hk_p : nat -> hcp; hk_ap : R; hk_ac : R; hk_b : R; hk_G : R; hk_junk : R }.
(** src/cp/hucocks.cxx:879-884 (populate_hist): sizes of the blocks of variables *)
Definition hk_sizes (k : hcock) : nat -> nat := fun i => match i with O => h_n (hk_d k) | S _ => 3%nat end.
(** src/cp/hucocks.cxx:879-884 (populate_hist): the variables of block i *)
Definition hk_sub (k : hcock) (h : vec) (i : nat) : vec := bsub (hk_sizes k) h i.
(** c_eff_, NA_eff_ (1081-1103) *)
Definition hk_c (k : hcock) (h : vec) : R := rsum (hk_m k) (fun i => rsum (hp_n (hk_p k i)) (fun s => hp_c (hk_p k i) (hp_f (hk_p k i) (hk_sub k h (S i))) s / hp_vm (hk_p k i))).
(** src/cp/hucocks.cxx:1095-1103 (NA_eff_) *)
Definition hk_NA (k : hcock) (h : vec) : R := rsum (hk_m k) (fun i => 2 * hp_r (hk_p k i) (hk_sub k h (S i)) * hp_N (hk_p k i) (hk_sub k h (S i))).
(** src/cp/hucocks.cxx:896-907 (hist_to_tau): the precipitate term *)
Definition hk_taup (k : hcock) (h : vec) : R := hk_ap k * hk_G k * hk_b k * sqrt (hk_NA k h).
(** hist_to_tau (895-907), d_hist_to_tau (909-949) *)
Definition hk_tau (k : hcock) (L : slat) (p : nat) (h : vec) : R :=
  let td := h_tau (hk_d k) L p (hk_sub k h 0) in
  sqrt (td * td + hk_taup k h * hk_taup k h) + hk_ac k * hk_G k * hk_b k * sqrt (hk_c k h * hk_b k).
(** src/cp/hucocks.cxx:910-949 (d_hist_to_tau) *)
Definition hk_dtau (k : hcock) (L : slat) (p : nat) (h : vec) : vec := fun x =>
  let td := h_tau (hk_d k) L p (hk_sub k h 0) in let tp := hk_taup k h in
  let i := bblk (hk_sizes k) (S (hk_m k)) x in let q := bpos (hk_sizes k) (S (hk_m k)) x in
  match i with
  | O => h_dtau (hk_d k) L p (hk_sub k h 0) q * (td / sqrt (tp * tp + td * td))
  | S i => let m := hk_p k i in let hi := hk_sub k h (S i) in
    match q with
    | 0%nat => rsum (hp_n m) (fun s => hk_ac k * hk_G k * hk_b k * hk_b k / (2 * sqrt (hk_c k h * hk_b k)) * hp_dc m (hp_f m hi) s / hp_vm m * hp_fs m)
    | 1%nat => tp / sqrt (tp * tp + td * td) * hk_ap k * hk_G k * hk_b k * hp_N m hi / sqrt (hk_NA k h) * hp_rs m
    | _ => tp / sqrt (tp * tp + td * td) * hk_ap k * hk_G k * hk_b k * hp_r m hi / sqrt (hk_NA k h) * hp_Ns m
    end
  end.
Definition hucocks (k : hcock) : hlaw :=
  {| h_n := boff (hk_sizes k) (S (hk_m k));
     h_init := fun x => match bblk (hk_sizes k) (S (hk_m k)) x with                                             (* 886-893 *)
       | O => h_init (hk_d k) (bpos (hk_sizes k) (S (hk_m k)) x) | S i => hp_init (hk_p k i) (bpos (hk_sizes k) (S (hk_m k)) x) end;
     h_tau := hk_tau k; h_dtau := hk_dtau k;
     h_rate := fun L sl h x => let q := bpos (hk_sizes k) (S (hk_m k)) x in match bblk (hk_sizes k) (S (hk_m k)) x with        (* 951-976 *)
       | O => h_rate (hk_d k) L sl (hk_sub k h 0) q | S i => hp_rates (hk_p k i) (hk_sub k h (S i)) q end;
     h_rate_s := fun L sl ds h x c => let q := bpos (hk_sizes k) (S (hk_m k)) x in match bblk (hk_sizes k) (S (hk_m k)) x with (* 978-1000 *)
       | O => h_rate_s (hk_d k) L sl ds (hk_sub k h 0) q c | S _ => 0 end;
     h_rate_h := fun L sl dh h x c =>                                                                            (* 1002-1060 *)
       let q := bpos (hk_sizes k) (S (hk_m k)) x in let j := bblk (hk_sizes k) (S (hk_m k)) c in let qc := bpos (hk_sizes k) (S (hk_m k)) c in
       match bblk (hk_sizes k) (S (hk_m k)) x with
       | O => match j with
         | O => h_rate_h (hk_d k) L sl dh (hk_sub k h 0) q qc
         | S i => h_rate_e (hk_d k) L sl (fun p y => dh p (boff (hk_sizes k) (S i) + y)%nat) (hk_sub k h 0) q qc end
       | S i => if Nat.eqb j (S i) then hp_jac (hk_p k i) (hk_junk k) (hk_sub k h (S i)) q qc else 0 end;
     h_rate_e := fun L sl de h x c => let q := bpos (hk_sizes k) (S (hk_m k)) x in match bblk (hk_sizes k) (S (hk_m k)) x with (* 1062-1079 *)
       | O => h_rate_e (hk_d k) L sl de (hk_sub k h 0) q c | S _ => 0 end |}.

(** *** ArrheniusSlipRule (1105-1187) through SlipStrengthSlipRule *)
Record arrh := { ar_g0 : R; ar_A : R; ar_B : R; ar_b : R; ar_a0 : R; ar_G0 : R; ar_k : R; ar_T : R }.
(** src/cp/hucocks.cxx:1105-1187: shorthand in ArrheniusSlipRule *)
Definition ar_F (v : arrh) : R := ar_a0 v * ar_G0 v * ar_b v ^ 3 / (ar_k v * ar_T v).
(** src/cp/hucocks.cxx:1105-1187: shorthand in ArrheniusSlipRule *)
Definition ar_u (v : arrh) (tau s : R) : R := 1 - cpow (Rabs (tau / s)) (ar_A v).
Definition ar_slip (v : arrh) (tau : R) (st : vec) : R :=                                                      (* 1146-1156 *)
  if Req_EM_T tau 0 then 0 else ar_g0 v * exp (- ar_F v * cpow (ar_u v tau (st 0%nat)) (ar_B v)) * copysign 1 tau.
Definition ar_dtau (v : arrh) (tau : R) (st : vec) : R := let s := st 0%nat in                                 (* 1158-1171 *)
  if Req_EM_T tau 0 then 0 else Rabs (- ar_g0 v * ar_A v * ar_B v * ar_F v * tau * cpow (Rabs (tau / s)) (ar_A v - 2) * cpow (ar_u v tau s) (ar_B v - 1) *
    exp (- ar_F v * cpow (ar_u v tau s) (ar_B v)) / s ^ 2).
Definition ar_dstr (v : arrh) (tau : R) (st : vec) : vec := fun _ => let s := st 0%nat in                      (* 1173-1187 *)
  if Req_EM_T tau 0 then 0 else - ar_g0 v * ar_A v * ar_B v * ar_F v * tau ^ 2 * cpow (Rabs (tau / s)) (ar_A v - 2) * cpow (ar_u v tau s) (ar_B v - 1) *
    exp (- ar_F v * cpow (ar_u v tau s) (ar_B v)) / s ^ 3 * copysign 1 tau.
(** src/cp/hucocks.cxx:1105-1187: ArrheniusSlipRule as a slip rule with one strength *)
Definition ar_rule (v : arrh) (res : hlaw) : rule :=
  {| r_n := 1; r_str := fun _ => res; r_slip := ar_slip v; r_dtau := ar_dtau v; r_dstr := ar_dstr v |}.
