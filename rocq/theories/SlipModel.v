(** Model of src/cp/sliprules.cxx and src/cp/slipharden.cxx.

    Conventions.
    - The temperature T, the orientation Q and the "fixed" history do not change
      during a call, so an interpolate's value(T) is a number here and the
      lattice is seen through [slat]: the systems at that orientation.
    - Slip systems are numbered by L.flat(g,i), i.e. in the order of the double
      loop "for g, for i" (C62 proves that flat is that numbering).  A loop over
      all (g,i) is a loop over the flat numbers.  The code sometimes calls with
      the number i inside the group; [l_loc] is that number and [l_off] is
      flat(g,0) of the group.
    - History variables: each hardening model owns a block of named variables;
      the model works on its own block, and the rule concatenates the blocks in
      the order of its strengths.  Names are assumed distinct between the
      blocks of one rule (History::add_union does not check it).
    - Hardening models read the slip rates through the rule object passed to
      them; the model passes the rates and their derivatives. *)
From Verif Require Import Base.
From Verif Require Import NemlMathModel.
From Verif Require Import TensorModel.
From Verif Require Import RotModel.
From Verif Require Import CrystModel.
From Verif Require Import Blocks.
From Coq Require Import List.

(** The lattice at one orientation: crystallography.cxx, functions flat,
    slip_type, M, N, burgers. *)
(** src/cp/crystallography.cxx:456-524: what the rules ask of a lattice *)
Record slat := { l_n : nat; l_off : nat -> nat; l_loc : nat -> nat; l_twin : nat -> bool;
  l_M : nat -> vec; l_N : nat -> vec; l_b : nat -> R }.

(** The view of a lattice of CrystModel at orientation Q (systems found by
    group and place). *)
(** src/cp/crystallography.cxx:472-475 *)
Definition grp_size (L : lattice) (g : nat) : nat := match nslip L g with Some n => n | None => O end.
(** a filler for indices out of bounds; no code of its own *)
Definition sys0 : sys := {| s_burgers := vzero; s_dir := vzero; s_plane := vzero; s_reor := Quat 1 0 0 0 |}.
(** src/cp/crystallography.cxx:477-480: the system with a flat number *)
Definition sys_at (L : lattice) (p : nat) : sys :=
  match get_sys L (bblk (grp_size L) (ngroup L) p) (bpos (grp_size L) (ngroup L) p) with Some s => s | None => sys0 end.
(** src/cp/crystallography.cxx:482-485: slip_type *)
Definition grp_twin (L : lattice) (g : nat) : bool := match nth_error (la_groups L) g with Some G => g_twin G | None => false end.
(** src/cp/crystallography.cxx:456-524 *)
Definition view (L : lattice) (Q : quat) : slat :=
  {| l_n := boff (grp_size L) (ngroup L);
     l_off := fun p => boff (grp_size L) (bblk (grp_size L) (ngroup L) p);
     l_loc := fun p => bpos (grp_size L) (ngroup L) p;
     l_twin := fun p => grp_twin L (bblk (grp_size L) (ngroup L) p);
     l_M := fun p => rotM Q (sys_at L p);
     l_N := fun p => rotN Q (sys_at L p);
     l_b := fun p => norm3 (s_burgers (sys_at L p)) |}.

(** *** Slip hardening (SlipHardening interface, slipharden.h 20-130) *)

(** Rates of all systems, and their derivatives with respect to some block. *)
Definition rates := nat -> R.
(** derivatives of the rates of all systems, as in src/cp/sliprules.cxx:139-182 *)
Definition drates := nat -> vec.

(** the virtual functions of include/cp/slipharden.h:26-94 *)
Record hlaw := {
  h_n : nat;                                       (* number of variables *)
  h_init : vec;                                    (* init_hist *)
  h_tau : slat -> nat -> vec -> R;                 (* hist_to_tau *)
  h_dtau : slat -> nat -> vec -> vec;              (* d_hist_to_tau *)
  h_rate : slat -> rates -> vec -> vec;            (* hist *)
  h_rate_s : slat -> rates -> drates -> vec -> mat;(* d_hist_d_s: variable, stress component *)
  h_rate_h : slat -> rates -> drates -> vec -> mat;(* d_hist_d_h *)
  h_rate_e : slat -> rates -> drates -> vec -> mat (* d_hist_d_h_ext *)
}.

(** The base class's d_hist_d_h_ext (43-51): zero. *)
Definition ext_zero (L : slat) (sl : rates) (de : drates) (h : vec) : mat := fun _ _ => 0.

(** FixedStrengthHardening (58-146): no variables. *)
Definition fixed_strength (s : nat -> R) : hlaw :=
  {| h_n := 0; h_init := vzero; h_tau := fun _ p _ => s p; h_dtau := fun _ _ _ _ => 0;
     h_rate := fun _ _ _ _ => 0; h_rate_s := fun _ _ _ _ _ _ => 0; h_rate_h := fun _ _ _ _ _ _ => 0;
     h_rate_e := ext_zero |}.

(** VocePerSystemHardening (148-334).  One variable per system; the rate is
    driven by the signed slip rate (239-263). *)
Record voceps := { vp_n : nat; vp_init : vec; vp_k : vec; vp_sat : vec; vp_m : vec }.
(** src/cp/slipharden.cxx:239-263 (hist): the base of the power *)
Definition vp_base (v : voceps) (h : vec) (k : nat) : R := 1 - (h k - vp_init v k) / (vp_sat v k - vp_init v k).
Definition voce_per_system (v : voceps) : hlaw :=
  {| h_n := vp_n v; h_init := vp_init v;
     h_tau := fun _ p h => h p;                                                     (* 218-225 *)
     h_dtau := fun _ p _ q => if Nat.eqb q p then 1 else 0;                         (* 227-237 *)
     h_rate := fun _ sl h k => vp_k v k * cpow (vp_base v h k) (vp_m v k) * sl k;   (* 239-263 *)
     h_rate_s := fun _ _ ds h k j => vp_k v k * cpow (vp_base v h k) (vp_m v k) * ds k j; (* 265-288 *)
     h_rate_h := fun _ sl dh h k j =>                                               (* 290-328 *)
       (if Nat.eqb j k then - vp_k v k * vp_m v k / (vp_sat v k - vp_init v k) * cpow (vp_base v h k) (vp_m v k - 1) * sl k else 0)
       + vp_k v k * cpow (vp_base v h k) (vp_m v k) * dh k j;
     h_rate_e := ext_zero |}.

(** FASlipHardening (336-509). *)
Record fash := { fa_n : nat; fa_k : vec; fa_sat : vec }.
Definition fa_slip (v : fash) : hlaw :=
  {| h_n := fa_n v; h_init := vzero;                                                (* 393-398 *)
     h_tau := fun _ p h => h p; h_dtau := fun _ p _ q => if Nat.eqb q p then 1 else 0;  (* 400-419 *)
     h_rate := fun _ sl h k => fa_k v k * (sl k - h k / fa_sat v k * Rabs (sl k));  (* 421-444 *)
     h_rate_s := fun _ sl ds h k j => fa_k v k * (1 - h k / fa_sat v k * copysign 1 (sl k)) * ds k j; (* 446-469 *)
     h_rate_h := fun _ sl dh h k j =>                                               (* 471-503 *)
       (if Nat.eqb j k then - fa_k v k / fa_sat v k * Rabs (sl k) else 0)
       + fa_k v k * (1 - h k / fa_sat v k * copysign 1 (sl k)) * dh k j;
     h_rate_e := ext_zero |}.

(** GeneralLinearHardening (511-738). *)
Record genlin := { gl_n : nat; gl_M : mat; gl_tau0 : vec; gl_abs : bool }.
(** src/cp/slipharden.cxx:602-631 (hist): the factor absval_ selects *)
Definition gl_sign (v : genlin) (x : R) : R := if gl_abs v then copysign 1 x else 1.
Definition general_linear (v : genlin) : hlaw :=
  {| h_n := gl_n v; h_init := gl_tau0 v;                                            (* 571-578 *)
     h_tau := fun _ p h => h p + gl_tau0 v p;                                       (* 580-587 *)
     h_dtau := fun _ p _ q => if Nat.eqb q p then 1 else 0;                         (* 589-600 *)
     h_rate := fun L sl h i => rsum (l_n L) (fun j => gl_M v i j * (if gl_abs v then Rabs (sl j) else sl j)); (* 602-631 *)
     h_rate_s := fun L sl ds h i c => rsum (l_n L) (fun j => gl_M v i j * (gl_sign v (sl j) * ds j c));       (* 633-667 *)
     h_rate_h := fun L sl dh h i c => rsum (l_n L) (fun j => gl_M v i j * gl_sign v (sl j) * dh j c);         (* 669-698 *)
     h_rate_e := fun L sl de h i c => rsum (l_n L) (fun j => gl_M v i j * gl_sign v (sl j) * de j c) |}.      (* 700-731 *)

(** SimpleLinearHardening (740-934).  The strength row is taken with the number
    i inside the group (805-817), the initial strength with the flat number. *)
Record simlin := { sm_n : nat; sm_G : mat; sm_tau0 : vec }.
Definition simple_linear (v : simlin) : hlaw :=
  {| h_n := sm_n v; h_init := vzero;                                                (* 798-803 *)
     h_tau := fun L p h => rsum (sm_n v) (fun j => sm_G v (l_loc L p) j * h j) + sm_tau0 v p;  (* 805-817 *)
     h_dtau := fun L p _ j => sm_G v (l_loc L p) j;                                 (* 819-832 *)
     h_rate := fun _ sl _ k => Rabs (sl k);                                         (* 834-853 *)
     h_rate_s := fun _ sl ds _ k c => copysign 1 (sl k) * ds k c;                   (* 855-877 *)
     h_rate_h := fun _ sl dh _ k c => dh k c * copysign 1 (sl k);                   (* 879-901 *)
     h_rate_e := fun _ sl de _ k c => copysign 1 (sl k) * de k c |}.                (* 903-927 *)

(** LANLTiModel (936-1229). *)
Record lanl := { la_n : nat; la_ns : nat; la_tau0 : vec; la_C : mat; la_mu : vec; la_k1 : vec; la_k2 : vec; la_X : R; la_ini : R }.
Definition lanl_ti (v : lanl) : hlaw :=
  {| h_n := la_n v; h_init := fun i => if Nat.ltb i (la_ns v) then la_ini v else 0; (* 1012-1022 *)
     h_tau := fun L p h =>                                                          (* 1024-1054 *)
       if l_twin L p then
         rsum (l_n L) (fun k => if l_twin L k then 0 else
           if Rlt_dec 0 (h k) then la_C v (p - la_ns v)%nat k * l_b L k * h k * h k else 0)
         * l_b L p * la_mu v p + la_tau0 v p
       else la_X v * l_b L p * la_mu v p * h p + la_tau0 v p;
     h_dtau := fun L p h q =>                                                       (* 1057-1086 *)
       if l_twin L p then
         if l_twin L q then 0 else
           if Rlt_dec 0 (h q) then 2 * la_C v (p - la_ns v)%nat q * l_b L q * la_mu v p * l_b L p * h q else 0
       else if Nat.eqb q p then la_X v * l_b L p * la_mu v p else 0;
     h_rate := fun L sl h k =>                                                      (* 1088-1114 *)
       if l_twin L k then Rabs (sl k) else / 2 * (la_k1 v k - la_k2 v k * h k) * Rabs (sl k);
     h_rate_s := fun L sl ds h k c =>                                               (* 1116-1144 *)
       if l_twin L k then copysign 1 (sl k) * ds k c
       else / 2 * (la_k1 v k - la_k2 v k * h k) * ds k c * copysign 1 (sl k);
     h_rate_h := fun L sl dh h k c =>                                               (* 1146-1184 *)
       if l_twin L k then dh k c * copysign 1 (sl k)
       else (if Nat.eqb c k then - (/ 2) * la_k2 v k * Rabs (sl k) else 0)
            + / 2 * (la_k1 v k - la_k2 v k * h k) * dh k c * copysign 1 (sl k);
     h_rate_e := fun L sl de h k c =>                                               (* 1186-1222 *)
       if l_twin L k then de k c * copysign 1 (sl k)
       else / 2 * (la_k1 v k - la_k2 v k * h k) * de k c |}.

(** *** Slip rules: the shared part (sliprules.cxx 11-60) *)

Definition sum_slip (L : slat) (sl : rates) : R := rsum (l_n L) (fun p => Rabs (sl p)).          (* 11-23 *)
Definition d_sum_slip (L : slat) (sl : rates) (d : drates) : vec :=                                (* 25-60 *)
  fun c => rsum (l_n L) (fun p => copysign 1 (sl p) * d p c).

(** PlasticSlipHardening (1551-1621): one variable; hist_factor is the law.
    SlipSingleStrengthHardening (1251-1376): strength = variable + static + Nye part. *)
Record pslip := { ps_f : R -> R; ps_df : R -> R; ps_static : R; ps_nye : R; ps_init : R }.
(** VoceSlipHardening (1623-1704), LinearSlipHardening (1706-1769).  The Nye
    part is evaluated from the fixed history, hence a number. *)
Definition voce_slip (tau_sat b tau0 nye : R) : pslip :=
  {| ps_f := fun s => b * (tau_sat - s); ps_df := fun _ => - b; ps_static := tau0; ps_nye := nye; ps_init := 0 |}.
(** src/cp/slipharden.cxx:1706-1769 *)
Definition linear_slip (tau0 k1 nye : R) : pslip :=
  {| ps_f := fun _ => k1; ps_df := fun _ => 0; ps_static := tau0; ps_nye := nye; ps_init := 0 |}.
(** nye_part: k sqrt |alpha| (1701-1704) and k2 |alpha| (1766-1769); use_nye of
    the Voce law (1685-1699): the cast never throws, so only k(0) matters. *)
Definition voce_use_nye (k : R -> R) : bool := if Req_EM_T (k 0) 0 then false else true.
Definition voce_nye (k : R -> R) (T : R) (nye : option vec) : R :=                  (* 1360-1371, 1701-1704 *)
  if voce_use_nye k then match nye with Some a => k T * sqrt (norm9 a) | None => 0 end else 0.
(** src/cp/slipharden.cxx:1766-1769 (nye_part), 1761-1764 (use_nye) *)
Definition linear_nye (k2 : R -> R) (T : R) (nye : option vec) : R :=
  match nye with Some a => k2 T * norm9 a | None => 0 end.

Definition plastic_slip (m : pslip) : hlaw :=
  {| h_n := 1; h_init := fun _ => ps_init m;
     h_tau := fun _ _ h => h 0%nat + ps_static m + ps_nye m;                        (* 1337-1344 *)
     h_dtau := fun _ _ _ _ => 1;                                                    (* 1346-1353 *)
     h_rate := fun L sl h _ => ps_f m (h 0%nat) * sum_slip L sl;                    (* 1557-1566 *)
     h_rate_s := fun L sl ds h _ => fun c => ps_f m (h 0%nat) * d_sum_slip L sl ds c;   (* 1568-1577 *)
     h_rate_h := fun L sl dh h _ => fun c =>                                        (* 1579-1594 *)
       ps_f m (h 0%nat) * d_sum_slip L sl dh c + ps_df m (h 0%nat) * sum_slip L sl;
     h_rate_e := fun L sl de h _ => fun c => ps_f m (h 0%nat) * d_sum_slip L sl de c |}.  (* 1597-1621 *)

(** SumSlipSingleStrengthHardening (1378-1549) over plastic-slip models. *)
Definition sum_plastic (n : nat) (m : nat -> pslip) : hlaw :=
  {| h_n := n; h_init := fun i => ps_init (m i);
     h_tau := fun _ _ h => rsum n (fun i => h i + ps_static (m i) + ps_nye (m i));  (* 1514-1525 *)
     h_dtau := fun _ _ _ _ => 1;                                                    (* 1527-1536 *)
     h_rate := fun L sl h i => ps_f (m i) (h i) * sum_slip L sl;                    (* 1442-1456 *)
     h_rate_s := fun L sl ds h i c => ps_f (m i) (h i) * d_sum_slip L sl ds c;      (* 1458-1472 *)
     h_rate_h := fun L sl dh h i c =>                                               (* 1474-1492 *)
       ps_f (m i) (h i) * d_sum_slip L sl dh c + (if Nat.eqb c i then ps_df (m i) (h i) * sum_slip L sl else 0);
     h_rate_e := fun L sl de h i c => ps_f (m i) (h i) * d_sum_slip L sl de c |}.   (* 1494-1512 *)

(** *** SlipMultiStrengthSlipRule (sliprules.cxx 67-253) *)

Record rule := { r_n : nat; r_str : nat -> hlaw;
  r_slip : R -> vec -> R;            (* sslip(tau, strengths) *)
  r_dtau : R -> vec -> R;            (* d_sslip_dtau *)
  r_dstr : R -> vec -> vec           (* d_sslip_dstrength *) }.

(** src/cp/sliprules.cxx:90-95 (populate_hist): sizes of the blocks of variables *)
Definition r_sizes (r : rule) : nat -> nat := fun k => h_n (r_str r k).
(** src/cp/sliprules.cxx:90-95 (populate_hist): sizes of the blocks of variables *)
Definition r_nh (r : rule) : nat := boff (r_sizes r) (r_n r).
(** src/cp/crystallography.cxx:514-518 (shear) *)
Definition rs_tau (L : slat) (s : vec) (p : nat) : R := sym_contract (l_M L p) s.   (* Lattice::shear *)
(** The strengths of system p (129-131, 147-149, 164-166).  The loop variable is
    called i and hides the system's i, so strength k is asked for system k of the
    group. *)
Definition rs_str (L : slat) (r : rule) (h : vec) (p : nat) : vec :=
  fun k => h_tau (r_str r k) L (l_off L p + k)%nat (bsub (r_sizes r) h k).
(** src/cp/sliprules.cxx:122-137 (slip): the comparison of the shear with zero for twins *)
Definition rs_gate (L : slat) (s : vec) (p : nat) : bool :=
  andb (l_twin L p) (if Rlt_dec (rs_tau L s p) 0 then true else false).
Definition rs_slip (L : slat) (r : rule) (s h : vec) : rates := fun p =>            (* 122-137 *)
  if rs_gate L s p then 0 else r_slip r (rs_tau L s p) (rs_str L r h p).
Definition rs_dslip_s (L : slat) (r : rule) (s h : vec) : drates := fun p c =>      (* 139-155 *)
  if rs_gate L s p then 0 else r_dtau r (rs_tau L s p) (rs_str L r h p) * l_M L p c.
Definition rs_dslip_hb (L : slat) (r : rule) (s h : vec) (k : nat) : drates := fun p q =>  (* 157-182, variable q of strength k *)
  if rs_gate L s p then 0 else
    r_dstr r (rs_tau L s p) (rs_str L r h p) k * h_dtau (r_str r k) L (l_off L p + k)%nat (bsub (r_sizes r) h k) q.
(** src/cp/sliprules.cxx:157-182 (d_slip_d_h) *)
Definition rs_dslip_h (L : slat) (r : rule) (s h : vec) : drates := fun p x =>
  rs_dslip_hb L r s h (bblk (r_sizes r) (r_n r) x) p (bpos (r_sizes r) (r_n r) x).

(** strength (104-119): the average over strengths and systems. *)
Definition rs_strength (L : slat) (r : rule) (h : vec) : R :=
  rsum (r_n r) (fun k => rsum (l_n L) (fun p => h_tau (r_str r k) L p (bsub (r_sizes r) h k))) / (INR (r_n r) * INR (l_n L)).

(** hist_rate (184-193), d_hist_rate_d_stress (195-204), d_hist_rate_d_hist (206-245). *)
Definition rs_init (r : rule) : vec := fun x => h_init (r_str r (bblk (r_sizes r) (r_n r) x)) (bpos (r_sizes r) (r_n r) x).
(** src/cp/sliprules.cxx:184-193 (hist_rate) *)
Definition rs_rate (L : slat) (r : rule) (s h : vec) : vec := fun x =>
  let k := bblk (r_sizes r) (r_n r) x in
  h_rate (r_str r k) L (rs_slip L r s h) (bsub (r_sizes r) h k) (bpos (r_sizes r) (r_n r) x).
(** src/cp/sliprules.cxx:195-204 (d_hist_rate_d_stress) *)
Definition rs_rate_s (L : slat) (r : rule) (s h : vec) : mat := fun x c =>
  let k := bblk (r_sizes r) (r_n r) x in
  h_rate_s (r_str r k) L (rs_slip L r s h) (rs_dslip_s L r s h) (bsub (r_sizes r) h k) (bpos (r_sizes r) (r_n r) x) c.
(** src/cp/sliprules.cxx:206-245 (d_hist_rate_d_hist) *)
Definition rs_rate_h (L : slat) (r : rule) (s h : vec) : mat := fun x y =>
  let k := bblk (r_sizes r) (r_n r) x in
  let l := bblk (r_sizes r) (r_n r) y in
  if Nat.eqb l k then
    h_rate_h (r_str r k) L (rs_slip L r s h) (rs_dslip_hb L r s h k) (bsub (r_sizes r) h k) (bpos (r_sizes r) (r_n r) x) (bpos (r_sizes r) (r_n r) y)
  else
    h_rate_e (r_str r k) L (rs_slip L r s h) (rs_dslip_hb L r s h l) (bsub (r_sizes r) h k) (bpos (r_sizes r) (r_n r) x) (bpos (r_sizes r) (r_n r) y).

(** KinematicPowerLawSlipRule (255-348): strengths 0,1,2 are the back strength,
    the isotropic strength and the flow resistance. *)
Definition kin_over (tau : R) (st : vec) : R := Rabs (tau - st 0%nat) - st 1%nat.
Definition kin_slip (g0 n tau : R) (st : vec) : R :=                                (* 290-307 *)
  if Rle_dec (kin_over tau st) 0 then 0
  else copysign (g0 * cpow (kin_over tau st / st 2%nat) n) (tau - st 0%nat).
Definition kin_dtau (g0 n tau : R) (st : vec) : R :=                                (* 309-326 *)
  if Rle_dec (kin_over tau st) 0 then 0
  else g0 * n * cpow (kin_over tau st / st 2%nat) (n - 1) / st 2%nat.
Definition kin_dstr (g0 n tau : R) (st : vec) : vec := fun k =>                     (* 328-348 *)
  if Rle_dec (kin_over tau st) 0 then 0
  else match k with
  | 0%nat => g0 * n * cpow (kin_over tau st / st 2%nat) n / (st 1%nat - Rabs (tau - st 0%nat))
  | 1%nat => - copysign (g0 * n * cpow (kin_over tau st / st 2%nat) (n - 1) / st 2%nat) (tau - st 0%nat)
  | _ => - copysign (g0 * n * cpow (kin_over tau st / st 2%nat) n / st 2%nat) (tau - st 0%nat)
  end.
(** src/cp/sliprules.cxx:255-348 *)
Definition kin_rule (g0 n : R) (back iso flow : hlaw) : rule :=
  {| r_n := 3; r_str := fun k => match k with 0%nat => back | 1%nat => iso | _ => flow end;
     r_slip := kin_slip g0 n; r_dtau := kin_dtau g0 n; r_dstr := kin_dstr g0 n |}.

(** PowerLawSlipRule (379-436) through SlipStrengthSlipRule (350-377). *)
Definition pl_slip (g0 n tau : R) (st : vec) : R := g0 * tau / st 0%nat * cpow (Rabs (tau / st 0%nat)) (n - 1).  (* 409-416 *)
Definition pl_dtau (g0 n tau : R) (st : vec) : R := g0 * n * cpow (Rabs (tau / st 0%nat)) (n - 1) / st 0%nat.   (* 418-425 *)
Definition pl_dstr (g0 n tau : R) (st : vec) : vec := fun _ =>                      (* 427-436 *)
  - n * g0 * tau * cpow (Rabs tau) (n - 1) / cpow (st 0%nat) (n + 1).
(** src/cp/sliprules.cxx:379-436 *)
Definition pl_rule (g0 n : R) (res : hlaw) : rule :=
  {| r_n := 1; r_str := fun _ => res; r_slip := pl_slip g0 n; r_dtau := pl_dtau g0 n; r_dstr := pl_dstr g0 n |}.
