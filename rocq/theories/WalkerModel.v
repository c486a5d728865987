(** Model of src/walker.cxx: the Walker-Krempl rate switch, the softening, thermal scaling,
    isotropic, drag and kinematic internal variable models, the history wrapper, TestFlowRule and
    WalkerFlowRule.  Symmetric tensors are their six Mandel entries, SymSymR4 objects 6x6 matrices
    (SymSymR4::dot is the matrix product, tensors.cxx:1367-1374, 1396-1403; douter is [outer],
    1476-1486; Symmetric() and Symmetric::zero() are both zero, 11-16).  Interpolates are functions
    of T.  Not modelled: parameter sets, rateT and its derivatives (never evaluated: h_temp of the
    wrapper is zero, walker.cxx:1638-1665). *)
From Coq Require Import String.
From Verif Require Import Base.
From Verif Require Import NemlMathModel SurfModel HardModel PlastModel ViscoModel TensorModel HistModel.

(** ** WalkerKremplSwitchRule, walker.cxx:5-366 *)
(** kappa, 333-344 *)
Definition wk_kappa (lam : R -> R) (eps0 : R) (e : vec) (T : R) : R :=
  1 - lam T + lam T * (sqrt (2 / 3) * norm2 6 (dev_vec e)) / eps0.
(** dkappa, 346-361 *)
Definition wk_dkappa (lam : R -> R) (eps0 : R) (e : vec) (T : R) : vec := fun i =>
  if Req_EM_T (norm2 6 (dev_vec e)) 0 then 0
  else dev_vec e i * (lam T / eps0 * sqrt (2 / 3) / norm2 6 (dev_vec e)).
Definition WKSwitch (C : R -> mat) (V : vflow) (lam : R -> R) (eps0 : R) : gflow :=
  let kap := wk_kappa lam eps0 in
  let dkap := wk_dkappa lam eps0 in
  {| gf_n := vf_n V;
     gf_throws := fun s a T => false;
     (* s, 50-73 *)
     gf_s := fun s a e T Td => mv 6 (C T) (fun i => e i - vf_y V s a T * kap e T * pv (vf_g V) s a T i);
     (* ds_ds, 75-104 *)
     gf_ss := fun s a e T Td => mm 6 (C T) (fun i j => pds (vf_g V) s a T i j * (- vf_y V s a T * kap e T)
        - pv (vf_g V) s a T i * (vf_ys V s a T j * kap e T));
     (* ds_da, 106-139 *)
     gf_sa := fun s a e T Td => mm 6 (C T) (fun i j => pda (vf_g V) s a T i j * (- vf_y V s a T * kap e T)
        - pv (vf_g V) s a T i * (vf_ya V s a T j * kap e T));
     (* ds_de, 141-167 *)
     gf_se := fun s a e T Td => mm 6 (C T) (fun i j => delta i j - pv (vf_g V) s a T i * vf_y V s a T * dkap e T j);
     (* a, 169-190 *)
     gf_a := fun s a e T Td i => pv (vf_h V) s a T i * (vf_y V s a T * kap e T) + pv (vf_hT V) s a T i * Td
        + pv (vf_ht V) s a T i * kap e T;
     (* da_ds, 192-226 *)
     gf_as := fun s a e T Td i j => pds (vf_h V) s a T i j * (vf_y V s a T * kap e T)
        + pv (vf_h V) s a T i * (vf_ys V s a T j * kap e T) + pds (vf_hT V) s a T i j * Td
        + pds (vf_ht V) s a T i j * kap e T;
     (* da_da, 228-265 *)
     gf_aa := fun s a e T Td i j => pda (vf_h V) s a T i j * (vf_y V s a T * kap e T)
        + pv (vf_h V) s a T i * (vf_ya V s a T j * kap e T) + pda (vf_hT V) s a T i j * Td
        + pda (vf_ht V) s a T i j * kap e T;
     (* da_de, 267-290 *)
     gf_ae := fun s a e T Td i j => pv (vf_h V) s a T i * vf_y V s a T * dkap e T j
        + pv (vf_ht V) s a T i * dkap e T j;
     (* work_rate, 292-322 *)
     gf_work := fun s a e T Td => dot 6 s (fun i => vf_y V s a T * kap e T * pv (vf_g V) s a T i
        + Td * pv (vf_gT V) s a T i + pv (vf_gt V) s a T i);
     (* override_guess, 363-366 *)
     gf_guess := vf_guess V |}.

(** ** Softening functions *)
Record soft := { so_phi : R -> R -> R; so_dphi : R -> R -> R }.
(** SofteningModel, 391-399 *)
Definition NoSoftening : soft := {| so_phi := fun a T => 1; so_dphi := fun a T => 0 |}.
(** include/walker.h: ainc_ = 1.0e-3 *)
(** include/walker.h:150: the constant ainc_ *)
Definition ainc : R := / 1000.
(** WalkerSofteningModel::phi, 429-439, dphi 441-449 *)
Definition ws_phi (phi0 phi1 : R -> R) (a T : R) : R :=
  if Rle_dec a 0 then 1
  else if Rlt_dec a ainc then phi0 T * cpow ainc (phi1 T) / ainc * a + 1
  else 1 + phi0 T * cpow a (phi1 T).
(** src/walker.cxx:441-449 (dphi) *)
Definition ws_dphi (phi0 phi1 : R -> R) (a T : R) : R :=
  if Rle_dec a 0 then phi0 T * cpow ainc (phi1 T) / ainc
  else if Rlt_dec a ainc then phi0 T * cpow ainc (phi1 T) / ainc
  else phi1 T * phi0 T * cpow a (phi1 T - 1).
(** src/walker.cxx:401-449 *)
Definition WalkerSoftening (phi0 phi1 : R -> R) : soft := {| so_phi := ws_phi phi0 phi1; so_dphi := ws_dphi phi0 phi1 |}.

(** ** Thermal scaling: ThermalScaling::value 474-477, ArrheniusThermalScaling 510-518 *)
Definition no_scaling (T : R) : R := 1.
(** src/walker.cxx:515-518 (arr_) *)
Definition arr (Q : R -> R) (Rgas T : R) : R := exp (- Q T / (Rgas * T)).
(** src/walker.cxx:510-513 (value) *)
Definition arrhenius (Q : R -> R) (Rgas Tref T : R) : R := arr Q Rgas T / arr Q Rgas Tref.

(** ** Internal variables: include/internalvariable.h *)
(** VariableState, 41-51 *)
Record vstate (V : Type) := mkSt { st_h : V; st_a : R; st_ad : R; st_D : R; st_s : vec; st_g : vec; st_T : R }.
Arguments mkSt {V}. Arguments st_h {V}. Arguments st_a {V}. Arguments st_ad {V}. Arguments st_D {V}.
Arguments st_s {V}. Arguments st_g {V}. Arguments st_T {V}.
(** a rate with the derivatives the interface asks for, 62-76 *)
Record srate := { sr : vstate R -> R; sr_h : vstate R -> R; sr_a : vstate R -> R; sr_ad : vstate R -> R;
                  sr_D : vstate R -> R; sr_s : vstate R -> vec; sr_g : vstate R -> vec }.
(** include/internalvariable.h:62-76 *)
Record krate := { kr : vstate vec -> vec; kr_h : vstate vec -> mat; kr_a : vstate vec -> vec; kr_ad : vstate vec -> vec;
                  kr_D : vstate vec -> vec; kr_s : vstate vec -> mat; kr_g : vstate vec -> mat }.
(** initial_value, ratep (per unit plastic strain), ratet (per unit time) *)
(** include/internalvariable.h:36-76 *)
Record svar := { sv_init : R; sv_p : srate; sv_t : srate }.
(** include/internalvariable.h:36-76 *)
Record kvar := { kv_init : vec; kv_p : krate; kv_t : krate }.
(** src/walker.cxx:528-567 *)
Definition zero_srate : srate := {| sr := fun _ => 0; sr_h := fun _ => 0; sr_a := fun _ => 0; sr_ad := fun _ => 0;
  sr_D := fun _ => 0; sr_s := fun _ _ => 0; sr_g := fun _ _ => 0 |}.
(** src/walker.cxx:1102-1141 *)
Definition zero_krate : krate := {| kr := fun _ _ => 0; kr_h := fun _ _ _ => 0; kr_a := fun _ _ => 0; kr_ad := fun _ _ => 0;
  kr_D := fun _ _ => 0; kr_s := fun _ _ _ => 0; kr_g := fun _ _ _ => 0 |}.

(** ConstantIsotropicHardening, 640-678, with ratet from IsotropicHardening, 528-567 *)
Definition ConstantIso : svar := {| sv_init := 0; sv_p := zero_srate; sv_t := zero_srate |}.
(** WalkerIsotropicHardening, 718-793 *)
Definition WalkerIso (r0 Rinf R0 r1 r2 : R -> R) : svar :=
  {| sv_init := 0;
     sv_p := {| sr := fun x => r0 (st_T x) * (Rinf (st_T x) - st_h x);
                sr_h := fun x => - r0 (st_T x);
                sr_a := fun _ => 0; sr_ad := fun _ => 0; sr_D := fun _ => 0; sr_s := fun _ _ => 0; sr_g := fun _ _ => 0 |};
     sv_t := {| sr := fun x => let d := R0 (st_T x) - st_h x in r1 (st_T x) * d * cpow (Rabs d) (r2 (st_T x) - 1);
                sr_h := fun x => - r1 (st_T x) * r2 (st_T x) * cpow (Rabs (R0 (st_T x) - st_h x)) (r2 (st_T x) - 1);
                sr_a := fun _ => 0; sr_ad := fun _ => 0; sr_D := fun _ => 0; sr_s := fun _ _ => 0; sr_g := fun _ _ => 0 |} |}.

(** Drag stress models also report D_xi and D_0 *)
(** src/walker.cxx:927-935: with the variable itself *)
Record dvar := { dv_var : svar; dv_xi : R -> R; dv_0 : R -> R }.
(** ConstantDragStress, 922-965, with the defaults of DragStress, 803-848 *)
Definition ConstantDrag (value : R) : dvar :=
  {| dv_var := {| sv_init := value; sv_p := zero_srate; sv_t := zero_srate |}; dv_xi := fun _ => 1; dv_0 := fun _ => value |}.
(** WalkerDragStress, 1007-1092 *)
Definition WalkerDrag (d0 d1 d2 Dxi : R -> R) (D0 : R) (S : soft) (scale : R -> R) : dvar :=
  {| dv_var := {| sv_init := D0;
       sv_p := {| sr := fun x => d0 (st_T x) * (1 - (st_h x - D0) / Dxi (st_T x));
                  sr_h := fun x => - d0 (st_T x) / Dxi (st_T x);
                  sr_a := fun _ => 0; sr_ad := fun _ => 0; sr_D := fun _ => 0; sr_s := fun _ _ => 0; sr_g := fun _ _ => 0 |};
       sv_t := {| sr := fun x => if Rle_dec (st_h x - D0) 0 then 0
                    else - scale (st_T x) * so_phi S (st_a x) (st_T x) * d1 (st_T x) * cpow (st_h x - D0) (d2 (st_T x));
                  sr_h := fun x => if Rle_dec (st_h x - D0) 0 then 1
                    else - d2 (st_T x) * scale (st_T x) * so_phi S (st_a x) (st_T x) * d1 (st_T x) * cpow (st_h x - D0) (d2 (st_T x) - 1);
                  sr_a := fun x => if Rle_dec (st_h x - D0) 0 then 1
                    else - scale (st_T x) * so_dphi S (st_a x) (st_T x) * d1 (st_T x) * cpow (st_h x - D0) (d2 (st_T x));
                  sr_ad := fun _ => 0; sr_D := fun _ => 0; sr_s := fun _ _ => 0; sr_g := fun _ _ => 0 |} |};
     dv_xi := Dxi; dv_0 := fun _ => D0 |}.

(** SymSymR4::id_dev, include/math/tensors.h:386-395 *)
Definition id_dev : mat := fun i j => delta i j - (if (Nat.ltb i 3 && Nat.ltb j 3)%bool then / 3 else 0).

(** FAKinematicHardening, 1217-1255, with the defaults of KinematicHardening, 1102-1141 *)
Definition FAKin (c g : R -> R) : kvar :=
  {| kv_init := fun _ => 0;
     kv_p := {| kr := fun x i => 2 / 3 * c (st_T x) * st_g x i - g (st_T x) * st_h x i;
                kr_h := fun x i j => - g (st_T x) * delta i j;
                kr_a := fun _ _ => 0; kr_ad := fun _ _ => 0; kr_D := fun _ _ => 0; kr_s := fun _ _ _ => 0;
                kr_g := fun x i j => 2 / 3 * c (st_T x) * delta i j |};
     kv_t := zero_krate |}.

(** WalkerKinematicHardening: parameters *)
(** src/walker.cxx:1258-1272 (WalkerKinematicHardening) *)
Record wkin := { k_c0 : R -> R; k_c1 : R -> R; k_c2 : R -> R; k_l0 : R -> R; k_l1 : R -> R; k_l : R -> R; k_b0 : R -> R;
                 k_x0 : R -> R; k_x1 : R -> R; k_soft : soft; k_scale : R -> R }.
(** c_ 1415-1422, dc_ 1424-1431 *)
Definition k_c (p : wkin) (x : vstate vec) : R := let T := st_T x in
  if Rle_dec (st_ad x) 0 then k_c0 p T else k_c0 p T + k_c1 p T * cpow (st_ad x) (1 / k_c2 p T).
(** src/walker.cxx:1424-1431 (dc_) *)
Definition k_dc (p : wkin) (x : vstate vec) : R := let T := st_T x in
  if Rle_dec (st_ad x) 0 then 0 else k_c1 p T / k_c2 p T * cpow (st_ad x) (1 / k_c2 p T - 1).
(** L_ 1433-1438, dL_ 1440-1445 *)
Definition k_L (p : wkin) (x : vstate vec) : R := let T := st_T x in
  if Rle_dec (st_a x) 0 then k_l1 p T + 1 else k_l p T * (k_l1 p T + (1 - k_l1 p T) * exp (- k_l0 p T * st_a x)).
(** src/walker.cxx:1440-1445 (dL_) *)
Definition k_dL (p : wkin) (x : vstate vec) : R := let T := st_T x in
  if Rle_dec (st_a x) 0 then - k_l0 p T * k_l p T else - k_l0 p T * k_l p T * (1 - k_l1 p T) * exp (- k_l0 p T * st_a x).
(** the relative stress dev(s) - h *)
(** src/walker.cxx:1447-1454 (n_): its argument *)
Definition k_d (x : vstate vec) : vec := fun i => sym_dev (st_s x) i - st_h x i.
(** n_ 1447-1454 *)
Definition k_n (x : vstate vec) : vec := fun i =>
  if Req_EM_T (sym_norm (k_d x)) 0 then 0 else 3 / 2 * k_d x i / (sqrt (3 / 2) * sym_norm (k_d x)).
(** b_ 1456-1461 *)
Definition k_b (p : wkin) (x : vstate vec) : vec := fun i =>
  (1 - k_b0 p (st_T x)) * st_h x i + 2 / 3 * k_b0 p (st_T x) * mv 6 (outer (k_n x) (k_n x)) (st_h x) i.
(** dN_ 1484-1492 *)
Definition k_dN (x : vstate vec) : mat := fun i j =>
  if Req_EM_T (sym_norm (k_d x)) 0 then delta i j
  else sqrt (3 / 2) / sym_norm (k_d x) * (delta i j - k_d x i / sym_norm (k_d x) * (k_d x j / sym_norm (k_d x))).
(** db_ds_ 1463-1471, db_dx_ 1473-1482 *)
Definition k_dbs (p : wkin) (x : vstate vec) : mat := fun i j =>
  let Nb := mm 6 (k_dN x) id_dev in
  2 / 3 * k_b0 p (st_T x) * (Nb i j * sym_contract (k_n x) (st_h x) + k_n x i * mv 6 Nb (st_h x) j).
(** src/walker.cxx:1473-1482 (db_dx_) *)
Definition k_dbx (p : wkin) (x : vstate vec) : mat := fun i j =>
  (1 - k_b0 p (st_T x)) * delta i j + 2 / 3 * k_b0 p (st_T x) * (k_n x i * k_n x j)
  - 2 / 3 * k_b0 p (st_T x) * (k_dN x i j * sym_contract (k_n x) (st_h x) + k_n x i * mv 6 (k_dN x) (st_h x) j).
(** the guard of ratet and its derivatives: 1349, 1360, 1378, 1394 *)
Definition k_off (x : vstate vec) : bool :=
  if Req_EM_T (sym_norm (st_h x)) 0 then true else if Rle_dec (st_D x) 0 then true else false.
(** src/walker.cxx:1347-1356 (ratet): the base of the power *)
Definition k_arg (x : vstate vec) : R := sqrt (3 / 2) * sym_norm (st_h x) / st_D x.
(** WalkerKinematicHardening, 1307-1413 *)
Definition WalkerKin (p : wkin) : kvar :=
  {| kv_init := fun _ => 0;
     kv_p := {| kr := fun x i => k_c p x * (2 / 3 * st_g x i - k_b p x i / k_L p x);
                kr_h := fun x i j => - k_c p x * k_dbx p x i j / k_L p x;
                kr_a := fun x i => k_c p x * k_b p x i / cpow (k_L p x) 2 * k_dL p x;
                kr_ad := fun x i => k_dc p x * (2 / 3 * st_g x i - k_b p x i / k_L p x);
                kr_D := fun _ _ => 0;
                kr_s := fun x i j => - k_c p x * k_dbs p x i j / k_L p x;
                kr_g := fun x i j => k_c p x * 2 / 3 * delta i j |};
     kv_t := {| kr := fun x i => let T := st_T x in if k_off x then 0
                  else - k_scale p T * k_x0 p T * so_phi (k_soft p) (st_a x) T * cpow (k_arg x) (k_x1 p T)
                       * st_h x i / (sym_norm (st_h x) * sqrt (3 / 2));
                kr_h := fun x i j => let T := st_T x in if k_off x then 0
                  else let d k := st_h x k / sym_norm (st_h x) in
                       - k_scale p T * k_x0 p T * so_phi (k_soft p) (st_a x) T
                       * (k_x1 p T / st_D x * cpow (k_arg x) (k_x1 p T - 1) * (d i * d j)
                          + cpow (k_arg x) (k_x1 p T) * (1 / (sqrt (3 / 2) * sym_norm (st_h x)) * (delta i j - d i * d j)));
                kr_a := fun x i => let T := st_T x in if k_off x then 0
                  else - k_scale p T * k_x0 p T * so_dphi (k_soft p) (st_a x) T * cpow (k_arg x) (k_x1 p T)
                       * st_h x i / (sym_norm (st_h x) * sqrt (3 / 2));
                kr_ad := fun _ _ => 0;
                kr_D := fun x i => let T := st_T x in if k_off x then 0
                  else k_scale p T * k_x0 p T * so_phi (k_soft p) (st_a x) T * k_x1 p T * cpow (k_arg x) (k_x1 p T - 1)
                       * st_h x i / (sym_norm (st_h x) * sqrt (3 / 2)) * sqrt (3 / 2) * sym_norm (st_h x) / (st_D x * st_D x);
                kr_s := fun _ _ _ => 0; kr_g := fun _ _ _ => 0 |} |}.

(** ** TestFlowRule, 1701-1789, through the wrapper; history alpha, iso (initially 0, s0) *)
Definition tf_over (D : R) (s a : vec) : R := (sqrt (3 / 2) * sym_norm (sym_dev s) - a 1%nat) / D.
(** src/walker.cxx:1713-1789 *)
Definition TestFlow (eps0 D n K : R) : vflow :=
  {| vf_n := 2;
     vf_y := fun s a T => if Rlt_dec 0 (tf_over D s a) then eps0 * cpow (tf_over D s a) n else 0;
     vf_ys := fun s a T i => if Rlt_dec 0 (tf_over D s a)
        then eps0 * n * cpow (tf_over D s a) (n - 1) * sqrt (3 / 2) * sym_dev s i / sym_norm (sym_dev s) / D else 0;
     vf_ya := fun s a T j => if Rlt_dec 0 (tf_over D s a)
        then match j with 1%nat => - eps0 * n * cpow (tf_over D s a) (n - 1) / D | _ => 0 end else 0;
     vf_g := {| pv := fun s a T i => if Rlt_dec 0 (sym_norm (sym_dev s)) then sqrt (3 / 2) * sym_dev s i / sym_norm (sym_dev s) else 0;
                pds := fun s a T i j => let ns := sym_norm (sym_dev s) in if Rlt_dec 0 ns
                  then sqrt (3 / 2) / ns * (id_dev i j - sym_dev s i / ns * (sym_dev s j / ns)) else 0;
                pda := fun _ _ _ _ _ => 0 |};
     vf_gt := zero_part; vf_gT := zero_part;
     vf_h := {| pv := fun s a T i => match i with 0%nat => 1 | 1%nat => K | _ => 0 end;
                pds := fun _ _ _ _ _ => 0; pda := fun _ _ _ _ _ => 0 |};
     vf_ht := zero_part; vf_hT := zero_part;
     vf_guess := fun x => x |}.
(** src/walker.cxx:1707-1711 (init_hist) *)
Definition test_flow_init (s0 : R) : vec := fun i => match i with 1%nat => s0 | _ => 0 end.

(** ** WalkerFlowRule, 1791-2362 *)
Record walker := {
  w_eps0 : R -> R; w_soft : soft; w_scale : R -> R; w_n : R -> R; w_k : R -> R; w_m : R -> R;
  w_R : svar; w_D : dvar; w_nX : nat; w_X : nat -> kvar }.
(** The constructor, 1791-1820, hands its own thermal scaling to every internal variable
    (set_scaling, 1815-1819), whatever scaling these were built with. *)
Definition walker_of (eps0 : R -> R) (S : soft) (scaling n k m : R -> R) (Rv : svar) (Dv : (R -> R) -> dvar)
    (nX : nat) (Xv : nat -> (R -> R) -> kvar) : walker :=
  {| w_eps0 := eps0; w_soft := S; w_scale := scaling; w_n := n; w_k := k; w_m := m;
     w_R := Rv; w_D := Dv scaling; w_nX := nX; w_X := fun i => Xv i scaling |}.
(** src/walker.cxx:1791-1820 (WalkerFlowRule): set_scaling on the kinematic models *)
Definition set_scale (p : wkin) (sc : R -> R) : wkin :=
  {| k_c0 := k_c0 p; k_c1 := k_c1 p; k_c2 := k_c2 p; k_l0 := k_l0 p; k_l1 := k_l1 p; k_l := k_l p; k_b0 := k_b0 p;
     k_x0 := k_x0 p; k_x1 := k_x1 p; k_soft := k_soft p; k_scale := sc |}.
(** The history in the order of populate_hist (1849-1857): alpha, R, D, X0, X1, ... .  A history
    object or one line of a derivative history as a flat vector (the wrapper, 1500-1665). *)
Definition whist (xa xR xD : R) (X : nat -> vec) : vec := fun j =>
  match j with 0%nat => xa | 1%nat => xR | 2%nat => xD | _ => X ((j - 3) / 6)%nat ((j - 3) mod 6)%nat end.
(** backstress i in the flat history *)
(** src/walker.cxx:1849-1857 (populate_hist): where a backstress is stored *)
Definition wX (a : vec) (i : nat) : vec := fun k => a (3 + 6 * i + k)%nat.
(** init_hist, 1859-1867 *)
Definition w_init (w : walker) : vec :=
  whist 0 (sv_init (w_R w)) (sv_init (dv_var (w_D w))) (fun i => kv_init (w_X w i)).
(** TX_, 2267-2273 *)
Definition w_TX (w : walker) (a : vec) : vec := fun k => rsum (w_nX w) (fun i => wX a i k).
(** src/walker.cxx:1927-1934 (g): the relative stress *)
Definition w_d (w : walker) (s a : vec) : vec := fun k => sym_dev s k - w_TX w a k.
(** prefactor_, 2305-2310 *)
Definition w_pre (w : walker) (a : vec) (T : R) : R := w_eps0 w T * so_phi (w_soft w) (a 0%nat) T * w_scale w T.
(** Y_, 2334-2340 *)
Definition w_Y (w : walker) (a : vec) (T : R) : R :=
  let xi := (a 2%nat - dv_0 (w_D w) T) / dv_xi (w_D w) T in
  (w_k w T + a 1%nat) * cpow (if Rlt_dec xi 0 then 0 else xi) (w_m w T).
(** the argument of flow_ and dflow_, 2312-2332 *)
Definition w_over (w : walker) (s a : vec) (T : R) : R :=
  (sqrt (3 / 2) * sym_norm (w_d w s a) - w_Y w a T) / a 2%nat.
(** src/walker.cxx:2312-2321 (flow_) *)
Definition w_flow (w : walker) (s a : vec) (T : R) : R :=
  if Rle_dec (w_over w s a T) 0 then 0 else cpow (Rabs (w_over w s a T)) (w_n w T).
(** src/walker.cxx:2323-2332 (dflow_) *)
Definition w_dflow (w : walker) (s a : vec) (T : R) : R :=
  if Rle_dec (w_over w s a T) 0 then 0 else w_n w T * cpow (Rabs (w_over w s a T)) (w_n w T - 1).
(** y, 1869-1872; dy_ds, 1874-1883 *)
Definition w_y (w : walker) (s a : vec) (T : R) : R := w_pre w a T * w_flow w s a T.
(** src/walker.cxx:1874-1883 (dy_ds) *)
Definition w_ys (w : walker) (s a : vec) (T : R) : vec := fun i =>
  if Req_EM_T (sym_norm (w_d w s a)) 0 then 0
  else w_pre w a T * w_dflow w s a T * sqrt (3 / 2) / (a 2%nat * sym_norm (w_d w s a)) * mv 6 id_dev (w_d w s a) i.
(** dy_da, 1885-1925 *)
Definition w_Dr (w : walker) (a : vec) (T : R) : R :=
  let D := a 2%nat in let D0 := dv_0 (w_D w) T in
  if Rlt_dec 0 (D - D0) then (D - D0) / dv_xi (w_D w) T else / 100000000.
(** src/walker.cxx:1885-1925 (dy_da) *)
Definition w_ya (w : walker) (s a : vec) (T : R) : vec :=
  let D := a 2%nat in let m := w_m w T in let Dr := w_Dr w a T in let kR := w_k w T + a 1%nat in
  let nd := sym_norm (w_d w s a) in
  let p1 := - kR * m * cpow Dr (m - 1) / (dv_xi (w_D w) T * D) in
  let p2 := - (sqrt (3 / 2) * nd - kR * cpow Dr m) / (D * D) in
  whist (w_eps0 w T * so_dphi (w_soft w) (a 0%nat) T * w_scale w T * w_flow w s a T)
        (- w_pre w a T * w_dflow w s a T * cpow Dr m / D)
        (w_pre w a T * w_dflow w s a T * (p1 + p2))
        (fun _ k => if Req_EM_T nd 0 then 0
                    else - w_pre w a T * w_dflow w s a T * sqrt (3 / 2) / (D * nd) * w_d w s a k).
(** G_, 2342-2350 *)
Definition w_G (w : walker) (s a : vec) : mat := fun i j =>
  let nd := sym_norm (w_d w s a) in
  if Req_EM_T nd 0 then delta i j
  else sqrt (3 / 2) / nd * (delta i j - w_d w s a i / nd * (w_d w s a j / nd)).
(** g, 1927-1934; dg_ds, 1936-1940; dg_da, 1942-1951 transposed by the wrapper, 1543-1555 *)
Definition w_g (w : walker) (s a : vec) : vec := fun i =>
  if Req_EM_T (sym_norm (w_d w s a)) 0 then 0
  else 3 / 2 * w_d w s a i / (sqrt (3 / 2) * sym_norm (w_d w s a)).
(** src/walker.cxx:1936-1940 (dg_ds) *)
Definition w_gs (w : walker) (s a : vec) : mat := mm 6 (w_G w s a) id_dev.
(** src/walker.cxx:1942-1951 (dg_da), 1543-1555 (dg_da) *)
Definition w_ga (w : walker) (s a : vec) : mat := fun j i => whist 0 0 0 (fun _ k => - w_G w s a k j) i.
(** scalar_state_ 2275-2288 and symmetric_state_ 2290-2303, with h set by the callers *)
Definition w_state {V} (w : walker) (s a : vec) (T : R) (h : V) : vstate V :=
  mkSt h (a 0%nat) (w_y w s a T) (a 2%nat) s (w_g w s a) T.
(** h (1953-1969) and h_time (2110-2126), dh_ds (1971-2008) and dh_ds_time (2128-2165), dh_da
    (2010-2108) and dh_da_time (2167-2265) have the same text, with ratep and ratet and 1 or 0 as
    the rate of alpha: [ps], [pk] select the rate.  dh_da and dh_da_time pass through unravel_hh
    (1572-1584, 1611-1623), which puts block (x, y) at rows x and columns y (HistProps, C63). *)
Definition w_rates (w : walker) (alpha_rate : R) (ps : svar -> srate) (pk : kvar -> krate) : part :=
  {| pv := fun s a T =>
       whist alpha_rate (sr (ps (w_R w)) (w_state w s a T (a 1%nat))) (sr (ps (dv_var (w_D w))) (w_state w s a T (a 2%nat)))
             (fun i => kr (pk (w_X w i)) (w_state w s a T (wX a i)));
     pds := fun s a T r j =>
       let dy := w_ys w s a T in let dg := w_gs w s a in
       let scal (V : svar) h := let x := w_state w s a T h in
         sr_s (ps V) x j + sr_ad (ps V) x * dy j + mv 6 dg (sr_g (ps V) x) j in
       whist 0 (scal (w_R w) (a 1%nat)) (scal (dv_var (w_D w)) (a 2%nat))
             (fun i k => let x := w_state w s a T (wX a i) in let K := pk (w_X w i) in
                kr_s K x k j + kr_ad K x k * dy j + mm 6 (kr_g K x) dg k j) r;
     pda := fun s a T r c =>
       let dy := w_ya w s a T in let G := w_G w s a in
       let x1 := w_state w s a T (a 1%nat) in let x2 := w_state w s a T (a 2%nat) in
       let rR := ps (w_R w) in let rD := ps (dv_var (w_D w)) in
       whist 0
         (whist (sr_a rR x1 + sr_ad rR x1 * dy 0%nat + sym_contract (sr_g rR x1) (fun _ => 0))
                (sr_h rR x1 + sr_ad rR x1 * dy 1%nat + sym_contract (sr_g rR x1) (fun _ => 0))
                (sr_D rR x1 + sr_ad rR x1 * dy 2%nat + sym_contract (sr_g rR x1) (fun _ => 0))
                (fun y l => sr_ad rR x1 * wX dy y l + mv 6 (fun p q => - G p q) (sr_g rR x1) l) c)
         (whist (sr_a rD x2 + sr_ad rD x2 * dy 0%nat + sym_contract (sr_g rD x2) (fun _ => 0))
                (sr_ad rD x2 * dy 1%nat + sym_contract (sr_g rD x2) (fun _ => 0))
                (sr_h rD x2 + sr_ad rD x2 * dy 2%nat + sym_contract (sr_g rD x2) (fun _ => 0))
                (fun y l => sr_ad rD x2 * wX dy y l + mv 6 (fun p q => - G p q) (sr_g rD x2) l) c)
         (fun i k => let x := w_state w s a T (wX a i) in let K := pk (w_X w i) in
            whist (kr_a K x k + kr_ad K x k * dy 0%nat + mv 6 (kr_g K x) (fun _ => 0) k)
                  (kr_ad K x k * dy 1%nat + mv 6 (kr_g K x) (fun _ => 0) k)
                  (kr_D K x k + kr_ad K x k * dy 2%nat + mv 6 (kr_g K x) (fun _ => 0) k)
                  (fun y l => (if Nat.eqb y i then kr_h K x k l else 0)
                              + (kr_ad K x k * wX dy y l + mm 6 (kr_g K x) (fun p q => - G p q) k l)) c) r |}.
(** override_guess, 2352-2362, on the stress followed by the history *)
Definition w_guess (x : vec) : vec :=
  let x1 : vec := if Req_EM_T (norm2 6 x) 0 then (fun i => if Nat.eqb i 0 then x i + / 1000 else x i) else x in
  if Rlt_dec (x1 6%nat) (/ 100) then fun i => if Nat.eqb i 6 then x1 i + / 1000 else x1 i else x1.
(** src/walker.cxx:1849-2362 *)
Definition WalkerFlow (w : walker) : vflow :=
  {| vf_n := 3 + 6 * w_nX w;
     vf_y := w_y w; vf_ys := w_ys w; vf_ya := w_ya w;
     vf_g := {| pv := fun s a T => w_g w s a; pds := fun s a T => w_gs w s a; pda := fun s a T => w_ga w s a |};
     vf_gt := zero_part; vf_gT := zero_part;
     vf_h := w_rates w 1 sv_p kv_p; vf_ht := w_rates w 0 sv_t kv_t; vf_hT := zero_part;
     vf_guess := w_guess |}.

(** ** Names.  The constructor caches the history under the prefix "" (1819, history.cxx:490-495,
    438-441); SuperimposedViscoPlasticFlowRule then sets the prefix "model<i>_" (visco_flow.cxx:120),
    and every evaluation looks its variables up in the cached history under the prefixed names
    (make_state_ 1500-1505, history.cxx:497-514).  [ts] is std::to_string. *)
Fixpoint add_all (vs : list (string * stype)) (h : hist) : hres hist :=
  match vs with [] => HOk h | (n, t) :: r => hbind (hadd n t h) (add_all r) end.
(** populate_hist, 1849-1857 *)
Definition w_vars (ts : nat -> string) (p : string) (nX : nat) : list (string * stype) :=
  ((p ++ "alpha")%string, TScalar) :: ((p ++ "R")%string, TScalar) :: ((p ++ "D")%string, TScalar)
  :: map (fun i => ((p ++ "X" ++ ts i)%string, TSymmetric)) (seq 0 nX).
(** src/walker.cxx:1791-1820 (WalkerFlowRule): cache_history_() *)
Definition w_cached (ts : nat -> string) (nX : nat) : hres hist := add_all (w_vars ts "" nX) hempty.
(** TestFlowRule::populate_hist, 1701-1705 *)
Definition tf_cached : hres hist := add_all [("alpha"%string, TScalar); ("iso"%string, TScalar)] hempty.
(** a history object around the caller's array: gather_history_ *)
(** src/walker.cxx:1500-1504 (make_state_): gather_history_ *)
Definition gather (h : hist) (data : list cell) : hist := mkHist (horder h) (hloc h) (htype h) data.
(** the prefix of component i of a superposition *)
(** src/visco_flow.cxx:120: the prefix given to a component *)
Definition sup_prefix (ts : nat -> string) (i : nat) : string := ("model" ++ ts i ++ "_")%string.
