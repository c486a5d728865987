(** Model of src/visco_flow.cxx (viscoplastic flow rules) and of TVPFlowRule in
    src/general_flow.cxx.  Temperature dependent parameters are functions of T;
    CINDEX(i,j,n) positions are pairs (i,j). *)
From Verif Require Import Base.
From Verif Require Import NemlMathModel SurfModel HardModel PlastModel.

(** a value with its derivatives with respect to stress and history *)
(** a value with two derivatives, as in include/visco_flow.h (g, dg_ds, dg_da and h, dh_ds, dh_da); src/visco_flow.cxx:17-102 *)
Record part := { pv : vec -> vec -> R -> vec; pds : vec -> vec -> R -> mat; pda : vec -> vec -> R -> mat }.
(** the defaults of ViscoPlasticFlowRule: src/visco_flow.cxx:17-102 *)
Definition zero_part : part := {| pv := fun _ _ _ _ => 0; pds := fun _ _ _ _ _ => 0; pda := fun _ _ _ _ _ => 0 |}.

(** ViscoPlasticFlowRule, include/visco_flow.h: y with dy_ds, dy_da; g, g_time, g_temp, h,
    h_time, h_temp with their derivatives; override_guess (104-107 by default) *)
Record vflow := {
  vf_n : nat;
  vf_y : vec -> vec -> R -> R; vf_ys : vec -> vec -> R -> vec; vf_ya : vec -> vec -> R -> vec;
  vf_g : part; vf_gt : part; vf_gT : part;
  vf_h : part; vf_ht : part; vf_hT : part;
  vf_guess : vec -> vec
}.

(** ** SuperimposedViscoPlasticFlowRule: src/visco_flow.cxx:109-620.  The history of rule i
    starts at offsets_[i], the sum of the sizes of the rules before it: each recursion below
    moves the start of the history past the rule it has dealt with. *)
Fixpoint sp_n (rs : list vflow) : nat := match rs with [] => O | r :: l => (vf_n r + sp_n l)%nat end.
(** 162-172 *)
Fixpoint sp_y (rs : list vflow) (s a : vec) (T : R) : R :=
  match rs with [] => 0 | r :: l => vf_y r s a T + sp_y l s (drop (vf_n r) a) T end.
(** 174-184 *)
Fixpoint sp_ys (rs : list vflow) (s a : vec) (T : R) : vec := fun i =>
  match rs with [] => 0 | r :: l => vf_ys r s a T i + sp_ys l s (drop (vf_n r) a) T i end.
(** 186-192 *)
Fixpoint sp_ya (rs : list vflow) (s a : vec) (T : R) : vec := fun j =>
  match rs with
  | [] => 0
  | r :: l => if Nat.ltb j (vf_n r) then vf_ya r s a T j else sp_ya l s (drop (vf_n r) a) T (j - vf_n r)%nat
  end.
(** the loops over the rules in g, g_time, g_temp: sum of y_i g_i *)
(** src/visco_flow.cxx:194-211 (g) *)
Fixpoint sp_num (sel : vflow -> part) (rs : list vflow) (s a : vec) (T : R) : vec := fun i =>
  match rs with [] => 0 | r :: l => vf_y r s a T * pv (sel r) s a T i + sp_num sel l s (drop (vf_n r) a) T i end.
(** src/visco_flow.cxx:213-247 (dg_ds) *)
Fixpoint sp_nums (sel : vflow -> part) (rs : list vflow) (s a : vec) (T : R) : mat := fun i j =>
  match rs with
  | [] => 0
  | r :: l => vf_y r s a T * pds (sel r) s a T i j + pv (sel r) s a T i * vf_ys r s a T j
              + sp_nums sel l s (drop (vf_n r) a) T i j
  end.
(** src/visco_flow.cxx:249-296 (dg_da) *)
Fixpoint sp_numa (sel : vflow -> part) (rs : list vflow) (s a : vec) (T : R) : mat := fun i j =>
  match rs with
  | [] => 0
  | r :: l => if Nat.ltb j (vf_n r) then vf_y r s a T * pda (sel r) s a T i j + pv (sel r) s a T i * vf_ya r s a T j
              else sp_numa sel l s (drop (vf_n r) a) T i (j - vf_n r)%nat
  end.
(** src/visco_flow.cxx:194-211 (g): the division guarded by y > 0 *)
Definition div_pos (y x : R) : R := if Rlt_dec 0 y then x / y else x.
(** g 194-211, dg_ds 213-247, dg_da 249-296; with the same text g_time 298-315, dg_ds_time 317-352,
    dg_da_time 354-401 and g_temp 403-420, dg_ds_temp 422-456, dg_da_temp 458-505 *)
Definition sp_avg (sel : vflow -> part) (rs : list vflow) : part :=
  {| pv := fun s a T i => div_pos (sp_y rs s a T) (sp_num sel rs s a T i);
     pds := fun s a T i j => let y := sp_y rs s a T in
       div_pos y (sp_nums sel rs s a T i j) - div_pos y (div_pos y (sp_num sel rs s a T i)) * sp_ys rs s a T j;
     pda := fun s a T i j => let y := sp_y rs s a T in
       div_pos y (sp_numa sel rs s a T i j) - div_pos y (div_pos y (sp_num sel rs s a T i)) * sp_ya rs s a T j |}.
(** h 507-513, dh_ds 515-522, dh_da 524-539 and the same for _time 541-574, _temp 576-609.  dh_da writes
    only the diagonal blocks: the others keep what the caller's array held, which is zero in
    TVPFlowRule (t3v) and GeneralIntegrator::RJ (J22v), the callers in this code base. *)
Fixpoint sp_cat (sel : vflow -> part) (rs : list vflow) (s a : vec) (T : R) : vec := fun i =>
  match rs with
  | [] => 0
  | r :: l => if Nat.ltb i (vf_n r) then pv (sel r) s a T i else sp_cat sel l s (drop (vf_n r) a) T (i - vf_n r)%nat
  end.
(** src/visco_flow.cxx:515-522 (dh_ds) *)
Fixpoint sp_cats (sel : vflow -> part) (rs : list vflow) (s a : vec) (T : R) : mat := fun i j =>
  match rs with
  | [] => 0
  | r :: l => if Nat.ltb i (vf_n r) then pds (sel r) s a T i j else sp_cats sel l s (drop (vf_n r) a) T (i - vf_n r)%nat j
  end.
(** src/visco_flow.cxx:524-539 (dh_da) *)
Fixpoint sp_cata (sel : vflow -> part) (rs : list vflow) (s a : vec) (T : R) : mat := fun i j =>
  match rs with
  | [] => 0
  | r :: l =>
    if Nat.ltb i (vf_n r) then if Nat.ltb j (vf_n r) then pda (sel r) s a T i j else 0
    else if Nat.ltb j (vf_n r) then 0
    else sp_cata sel l s (drop (vf_n r) a) T (i - vf_n r)%nat (j - vf_n r)%nat
  end.
(** src/visco_flow.cxx:507-608 *)
Definition sp_blocks (sel : vflow -> part) (rs : list vflow) : part :=
  {| pv := sp_cat sel rs; pds := sp_cats sel rs; pda := sp_cata sel rs |}.
(** src/visco_flow.cxx:109-620 *)
Definition Superimposed (rs : list vflow) : vflow :=
  {| vf_n := sp_n rs; vf_y := sp_y rs; vf_ys := sp_ys rs; vf_ya := sp_ya rs;
     vf_g := sp_avg vf_g rs; vf_gt := sp_avg vf_gt rs; vf_gT := sp_avg vf_gT rs;
     vf_h := sp_blocks vf_h rs; vf_ht := sp_blocks vf_ht rs; vf_hT := sp_blocks vf_hT rs;
     vf_guess := fun x => x |}.

(** ** GFlow / GPowerLaw: src/visco_flow.cxx:657-666 *)
Record gfun := { gf_g : R -> R -> R; gf_dg : R -> R -> R }.
(** src/visco_flow.cxx:657-676 *)
Definition GPowerLaw (n eta : R -> R) : gfun :=
  {| gf_g := fun f T => cpow (f / eta T) (n T);
     gf_dg := fun f T => n T * cpow (f / eta T) (n T - 1) / eta T |}.

(** ** PerzynaFlowRule: src/visco_flow.cxx:708-876 *)
Definition Perzyna (Y : surface) (H : hardrule) (G : gfun) : vflow :=
  let fv s a T := ys_f Y s (hr_q H a T) T in
  {| vf_n := hr_n H;
     vf_y := fun s a T => if Rlt_dec 0 (fv s a T) then gf_g G (Rabs (fv s a T)) T else 0;                    (* 726-743 *)
     vf_ys := fun s a T i => if Rlt_dec 0 (fv s a T) then ys_ds Y s (hr_q H a T) T i * gf_dg G (Rabs (fv s a T)) T else 0; (* 745-765 *)
     vf_ya := fun s a T i => if Rlt_dec 0 (fv s a T)
                then mtv (hr_n H) (hr_dq H a T) (ys_dq Y s (hr_q H a T) T) i * gf_dg G (Rabs (fv s a T)) T else 0; (* 767-798 *)
     vf_g := {| pv := fun s a T => ys_ds Y s (hr_q H a T) T;                                                 (* 801-809 *)
                pds := fun s a T => ys_dss Y s (hr_q H a T) T;                                               (* 811-819 *)
                pda := fun s a T => mm (hr_n H) (ys_dsq Y s (hr_q H a T) T) (hr_dq H a T) |};                (* 821-837 *)
     vf_gt := zero_part; vf_gT := zero_part;
     vf_h := {| pv := fun s a T => ys_dq Y s (hr_q H a T) T;                                                 (* 840-848 *)
                pds := fun s a T => ys_dqs Y s (hr_q H a T) T;                                               (* 850-858 *)
                pda := fun s a T => mm (hr_n H) (ys_dqq Y s (hr_q H a T) T) (hr_dq H a T) |};                (* 860-876 *)
     vf_ht := zero_part; vf_hT := zero_part;
     vf_guess := fun x => x |}.
(** populate_hist, 706-719 *)
Definition make_perzyna (Y : surface) (H : hardrule) (G : gfun) : option vflow :=
  if Nat.eqb (ys_n Y) (hr_n H) then Some (Perzyna Y H G) else None.

(** ** LinearViscousFlow: src/visco_flow.cxx:925-990; no history, the surface is given a zero q *)
Definition LinearViscous (Y : surface) (eta : R -> R) : vflow :=
  {| vf_n := 0;
     vf_y := fun s a T => 3 / 2 * ys_f Y s vzero T / eta T;
     vf_ys := fun s a T i => 3 / 2 * ys_ds Y s vzero T i / eta T;
     vf_ya := fun s a T _ => 0;
     vf_g := {| pv := fun s a T => ys_ds Y s vzero T; pds := fun s a T => ys_dss Y s vzero T; pda := fun _ _ _ _ _ => 0 |};
     vf_gt := zero_part; vf_gT := zero_part;
     vf_h := zero_part; vf_ht := zero_part; vf_hT := zero_part;
     vf_guess := fun x => x |}.

(** ** Fluidity models: src/visco_flow.cxx:1026-1034, 1067-1082 *)
Record fluid := { fl_eta : R -> R -> R; fl_deta : R -> R -> R }.
(** src/visco_flow.cxx:1026-1034 *)
Definition ConstantFluidity (eta : R -> R) : fluid := {| fl_eta := fun a T => eta T; fl_deta := fun a T => 0 |}.
(** src/visco_flow.cxx:1067-1082 *)
Definition SaturatingFluidity (K0 A b : R -> R) : fluid :=
  {| fl_eta := fun a T => K0 T + A T * (1 - exp (- b T * a)); fl_deta := fun a T => A T * b T * exp (- b T * a) |}.

(** ** ChabocheFlowRule: src/visco_flow.cxx:1118-1311 *)
Definition ChabocheFlow (Y : surface) (H : nahard) (F : fluid) (n pre : R -> R) : vflow :=
  let fv s a T := ys_f Y s (na_q H a T) T in
  let eta (a : vec) T := sqrt (2 / 3) * fl_eta F (a 0%nat) T in
  let deta (a : vec) T := sqrt (2 / 3) * fl_deta F (a 0%nat) T in
  let m s a T := sqrt (3 / 2) * cpow (fv s a T / eta a T) (n T - 1) * n T / eta a T * pre T in
  let m2 s a T := - sqrt (3 / 2) * fv s a T * cpow (fv s a T / eta a T) (n T - 1) * n T / (eta a T * eta a T) * pre T in
  {| vf_n := na_n H;
     vf_y := fun s a T => if Rlt_dec 0 (fv s a T) then sqrt (3 / 2) * cpow (fv s a T / eta a T) (n T) * pre T else 0;  (* 1136-1153 *)
     vf_ys := fun s a T i => if Rlt_dec 0 (fv s a T) then ys_ds Y s (na_q H a T) T i * m s a T else 0;            (* 1155-1176 *)
     vf_ya := fun s a T i => if Rlt_dec 0 (fv s a T)
                then mtv (na_ninter H) (na_dq H a T) (ys_dq Y s (na_q H a T) T) i * m s a T
                     + (if Nat.eqb i 0 then deta a T * m2 s a T else 0) else 0;                                   (* 1178-1215 *)
     vf_g := {| pv := fun s a T => ys_ds Y s (na_q H a T) T;                                                      (* 1218-1226 *)
                pds := fun s a T => ys_dss Y s (na_q H a T) T;                                                    (* 1228-1236 *)
                pda := fun s a T => mm (na_ninter H) (ys_dsq Y s (na_q H a T) T) (na_dq H a T) |};                (* 1238-1255 *)
     vf_gt := zero_part; vf_gT := zero_part;
     vf_h := {| pv := na_h H; pds := na_hs H; pda := na_ha H |};                                                  (* 1257-1273 *)
     vf_ht := {| pv := na_ht H; pds := na_hts H; pda := na_hta H |};                                              (* 1276-1292 *)
     vf_hT := {| pv := na_hT H; pds := na_hTs H; pda := na_hTa H |};                                              (* 1295-1311 *)
     vf_guess := fun x => x |}.
(** populate_hist, 1118-1128 *)
Definition make_chaboche (Y : surface) (H : nahard) (F : fluid) (n pre : R -> R) : option vflow :=
  if Nat.eqb (ys_n Y) (na_ninter H) then Some (ChabocheFlow Y H F n pre) else None.

(** ** YaguchiGr91FlowRule: src/visco_flow.cxx:1313-2009.  History: X1 in 0..5, X2 in 6..11,
    Q in 12, sa in 13. *)
Record yparams := { yD : R -> R; yn : R -> R; ya10 : R -> R; yC2 : R -> R; ya2 : R -> R; yg1 : R -> R; yg2 : R -> R; ym : R -> R;
                    ybr : R -> R; ybh : R -> R; yA : R -> R; yB : R -> R; yd : R -> R; yq : R -> R; yC1 : R -> R }.
(** 1986-1993 *)
Definition yJ2 (v : vec) : R := sqrt (3 / 2 * dot 6 (dev_vec v) (dev_vec v)).
(** 1995-2008 *)
Definition dev_vec_deriv (a : vec) : vec := fun i =>
  if Nat.ltb i 3 then 2 / 3 * a i - rsum 3 (fun j => if Nat.eqb i j then 0 else a j / 3) else a i.
(** src/visco_flow.cxx:1359-1379 (y): the pointers to the two backstresses *)
Definition yX1 (a : vec) : vec := fun i => a i.
(** src/visco_flow.cxx:1359-1379 (y): the pointers to the two backstresses *)
Definition yX2 (a : vec) : vec := fun i => a (6 + i)%nat.
(** add_vec then sub_vec at the start of every routine *)
(** src/visco_flow.cxx:1359-1379 (y) *)
Definition y_dS (s a : vec) : vec := fun i => s i - (yX1 a i + yX2 a i).
(** src/visco_flow.cxx:1359-1379 (y): the base of the power *)
Definition y_over (p : yparams) (s a : vec) (T : R) : R := (yJ2 (y_dS s a) - a 13%nat) / yD p T.
(** 1359-1379 *)
Definition y_y (p : yparams) (s a : vec) (T : R) : R :=
  if Rlt_dec 0 (y_over p s a T) then cpow (Rabs (y_over p s a T)) (yn p T) else 0.
(** src/visco_flow.cxx:1381-1411 (dy_ds): the scalar factor *)
Definition y_sp (p : yparams) (s a : vec) (T : R) : R :=
  cpow (Rabs (y_over p s a T)) (yn p T - 1) * yn p T * copysign 1 (y_over p s a T) / yD p T.
(** 1381-1411 *)
Definition y_ys (p : yparams) (s a : vec) (T : R) : vec := fun i =>
  if Rlt_dec 0 (y_y p s a T) then dev_vec_deriv (y_dS s a) i * (3 / 2 / yJ2 (y_dS s a) * y_sp p s a T) else 0.
(** 1413-1463 *)
Definition y_ya (p : yparams) (s a : vec) (T : R) : vec := fun i =>
  if Rlt_dec 0 (y_y p s a T) then
    if Nat.ltb i 6 then dev_vec_deriv (y_dS s a) i * (- 3 / 2 / yJ2 (y_dS s a) * y_sp p s a T)
    else if Nat.ltb i 12 then dev_vec_deriv (y_dS s a) (i - 6)%nat * (- 3 / 2 / yJ2 (y_dS s a) * y_sp p s a T)
    else if Nat.eqb i 13 then - yn p T * cpow (Rabs (y_over p s a T)) (yn p T - 1) * copysign 1 (y_over p s a T) / yD p T
    else 0
  else 0.
(** 1466-1487 *)
Definition y_g (s a : vec) : vec := fun i =>
  if Rlt_dec 0 (yJ2 (y_dS s a)) then 3 / 2 * dev_vec (y_dS s a) i / yJ2 (y_dS s a) else 0.
(** 1489-1528 *)
Definition dev_mat : mat := fun i j =>
  if Nat.ltb i 3 then if Nat.ltb j 3 then (if Nat.eqb i j then 2 / 3 else - 1 / 3) else 0 else delta i j.
(** src/visco_flow.cxx:1489-1528 (dg_ds) *)
Definition y_gs (s a : vec) : mat := fun i j =>
  let d := y_dS s a in
  (dev_mat i j - dev_vec d i * (3 / (2 * (yJ2 d * yJ2 d))) * dev_vec_deriv d j) * (3 / (2 * yJ2 d)).
(** 1530-1549 *)
Definition y_ga (s a : vec) : mat := fun i j =>
  if Nat.ltb j 6 then - y_gs s a i j else if Nat.ltb j 12 then - y_gs s a i (j - 6)%nat else 0.
(** the direction n used by h and dh_da, without the guard of g: 1566-1571, 1711-1716 *)
Definition y_dir (s a : vec) : vec := fun i => 3 / 2 * dev_vec (y_dS s a) i / yJ2 (y_dS s a).
Definition log_tol : R := 1e-15.                                            (* include/visco_flow.h:606 *)
(** src/visco_flow.cxx:1552-1619 (h): the target of the isotropic variable *)
Definition y_sas (p : yparams) (s a : vec) (T : R) : R := yA p T + yB p T * log10 (y_y p s a T).
(** 1552-1619 *)
Definition y_h (p : yparams) (s a : vec) (T : R) : vec := fun i =>
  if Nat.ltb i 6 then yC1 p T * (2 / 3 * (ya10 p T - a 12%nat) * y_dir s a i - a i)
  else if Nat.ltb i 12 then yC2 p T * (2 / 3 * ya2 p T * y_dir s a (i - 6)%nat - a i)
  else if Nat.eqb i 12 then yd p T * (yq p T - a 12%nat)
  else if Rlt_dec log_tol (Rabs (y_y p s a T)) then
    let sas := if Rlt_dec (y_sas p s a T) 0 then 0 else y_sas p s a T in
    let b := if Rle_dec 0 (sas - a 13%nat) then ybh p T else ybr p T in
    b * (sas - a 13%nat)
  else 0.
(** 1621-1668 *)
Definition y_hs (p : yparams) (s a : vec) (T : R) : mat := fun i j =>
  if Nat.ltb i 6 then y_gs s a i j * 2 / 3 * yC1 p T * (ya10 p T - a 12%nat)
  else if Nat.ltb i 12 then y_gs s a (i - 6)%nat j * 2 / 3 * yC2 p T * ya2 p T
  else if Nat.eqb i 12 then 0
  else if Rlt_dec log_tol (Rabs (y_y p s a T)) then
    if Rlt_dec 0 (y_sas p s a T) then
      let b := if Rle_dec 0 (y_sas p s a T - a 13%nat) then ybh p T else ybr p T in
      b * yB p T / (y_y p s a T * ln 10) * y_ys p s a T j
    else 0
  else 0.
(** 1670-1757 *)
Definition y_ha (p : yparams) (s a : vec) (T : R) : mat := fun i j =>
  if Nat.ltb i 6 then (2 / 3 * (ya10 p T - a 12%nat) * y_ga s a i j - delta i j) * yC1 p T
                      - (if Nat.eqb j 12 then yC1 p T * 2 / 3 * y_dir s a i else 0)
  else if Nat.ltb i 12 then (2 / 3 * ya2 p T * y_ga s a (i - 6)%nat j - delta i j) * yC2 p T
  else if Nat.eqb i 12 then (if Nat.eqb j 12 then - yd p T else 0)
  else if Rlt_dec log_tol (Rabs (y_y p s a T)) then
    let b := if Rle_dec 0 (y_sas p s a T - a 13%nat) then ybh p T else ybr p T in
    (if Rlt_dec 0 (y_sas p s a T) then b * yB p T / (y_y p s a T * ln 10) * y_ya p s a T j else 0)
    + (if Nat.eqb j 13 then - b else 0)
  else 0.
(** 1760-1782 *)
Definition y_ht (p : yparams) (s a : vec) (T : R) : vec := fun i =>
  if Nat.ltb i 6 then - yg1 p T * cpow (yJ2 (yX1 a)) (ym p T - 1) * a i
  else if Nat.ltb i 12 then - yg2 p T * cpow (yJ2 (yX2 a)) (ym p T - 1) * a i
  else 0.
(** one 6x6 block of 1792-1848 *)
Definition y_rec (g m : R) (X : vec) : mat := fun i j =>
  - g * ((if Nat.eqb i j then cpow (yJ2 X) (m - 1) else 0)
         + dev_vec X i * ((m - 1) * cpow (yJ2 X) (m - 3) * 3 / 2) * dev_vec_deriv X j).
(** src/visco_flow.cxx:1792-1849 (dh_da_time) *)
Definition y_hta (p : yparams) (s a : vec) (T : R) : mat := fun i j =>
  if Nat.ltb i 6 then if Nat.ltb j 6 then y_rec (yg1 p T) (ym p T) (yX1 a) i j else 0
  else if Nat.ltb i 12 then
    if Nat.ltb j 6 then 0 else if Nat.ltb j 12 then y_rec (yg2 p T) (ym p T) (yX2 a) (i - 6)%nat (j - 6)%nat else 0
  else 0.
(** src/visco_flow.cxx:1337-1849 *)
Definition Yaguchi (p : yparams) : vflow :=
  {| vf_n := 14;
     vf_y := y_y p; vf_ys := y_ys p; vf_ya := y_ya p;
     vf_g := {| pv := fun s a T => y_g s a; pds := fun s a T => y_gs s a; pda := fun s a T => y_ga s a |};
     vf_gt := zero_part; vf_gT := zero_part;
     vf_h := {| pv := y_h p; pds := y_hs p; pda := y_ha p |};
     vf_ht := {| pv := y_ht p; pds := fun _ _ _ _ _ => 0; pda := y_hta p |};
     vf_hT := zero_part;
     vf_guess := fun x => x |}.
(** the properties of Grade 91: 1853-1983 *)
Definition three (T c1 c2 a b c : R) : R := if Rlt_dec T c1 then a else if Rlt_dec T c2 then b else c.
(** src/visco_flow.cxx:1869-1907: a choice by temperature *)
Definition two (T c a b : R) : R := if Rlt_dec T c then a else b.
(** src/visco_flow.cxx:1854-1984 *)
Definition gr91 : yparams :=
  {| yD := fun T => cpow (-1.119e-9 + 5.145e-11 * T - 5.450e-14 * T * T) (- 1 / 2.85);
     yn := fun T => 2.85;
     ya10 := fun T => 2.082e3 - 8.110 * T + 1.321e-2 * T * T - 7.278e-6 * T * T * T;
     yC2 := fun T => two T 798 200 (-2.992e3 + 4 * T);
     ya2 := fun T => two T 773 110 (3.373e3 - 7.622 * T + 4.400e-3 * T * T);
     yg1 := fun T => two T 773 (5.064e-137 * exp (3.545e-1 * T)) (5.336e-33 * exp (4.470e-2 * T));
     yg2 := fun T => two T 773 (8.572e-108 * exp (2.771e-1 * T)) (2.817e-11 - 7.538e-14 * T + 5.039e-17 * T * T);
     ym := fun T => three T 673 773 12 (5.766e2 * exp (-5.754e-3 * T)) 6.75;
     ybr := fun T => 1000;
     ybh := fun T => 1.065e3 - 1.404 * T + 4.417e-4 * T * T;
     yA := fun T => three T 673 823 (-1.841e2 + 2.075e-1 * T) (-4.799e2 + 1.262 * T - 9.133e-4 * T * T) (-60);
     yB := fun T => two T 773 (-6.340e1 + 6.850e-2 * T) (-1.730e1);
     yd := fun T => 3.208 - 1.010e-2 * T + 1.012e-5 * T * T;
     yq := fun T => three T 673 823 95 (-2.467e2 + 7.320e-1 * T - 3.333e-4 * T * T) 130;
     yC1 := fun T => three T 673 773 1500 (-2.879e4 + 45 * T) 6000 |}.

(** ** TVPFlowRule: src/general_flow.cxx:76-346.  C is elastic_->C; limit is
    NEML_STRAIN_RATE_LIMIT. *)
Definition TVP (C : R -> mat) (V : vflow) (limit : R) : gflow :=
  let inel s a T Td : vec := fun i => vf_y V s a T * pv (vf_g V) s a T i + Td * pv (vf_gT V) s a T i + pv (vf_gt V) s a T i in
  {| gf_n := vf_n V;
     gf_throws := fun s a T => if Rlt_dec limit (vf_y V s a T) then true else false;                          (* 88-89 *)
     gf_s := fun s a e T Td => mv 6 (C T)
        (fun i => e i - vf_y V s a T * pv (vf_g V) s a T i - Td * pv (vf_gT V) s a T i - pv (vf_gt V) s a T i); (* 76-111 *)
     gf_ss := fun s a e T Td => mm 6 (C T) (fun i j => pds (vf_g V) s a T i j * - vf_y V s a T
        - pv (vf_g V) s a T i * vf_ys V s a T j - pds (vf_gT V) s a T i j * Td - pds (vf_gt V) s a T i j);      (* 113-149 *)
     gf_sa := fun s a e T Td => mm 6 (C T) (fun i j => pda (vf_g V) s a T i j * - vf_y V s a T
        - pv (vf_g V) s a T i * vf_ya V s a T j - pda (vf_gT V) s a T i j * Td - pda (vf_gt V) s a T i j);      (* 151-191 *)
     gf_se := fun s a e T Td => C T;                                                                          (* 193-199 *)
     gf_a := fun s a e T Td i => pv (vf_h V) s a T i * vf_y V s a T + pv (vf_hT V) s a T i * Td + pv (vf_ht V) s a T i; (* 201-221 *)
     gf_as := fun s a e T Td i j => pds (vf_h V) s a T i j * vf_y V s a T + pv (vf_h V) s a T i * vf_ys V s a T j
        + pds (vf_hT V) s a T i j * Td + pds (vf_ht V) s a T i j;                                             (* 223-254 *)
     gf_aa := fun s a e T Td i j => pda (vf_h V) s a T i j * vf_y V s a T + pv (vf_h V) s a T i * vf_ya V s a T j
        + pda (vf_hT V) s a T i j * Td + pda (vf_ht V) s a T i j;                                             (* 256-288 *)
     gf_ae := fun s a e T Td i j => 0;                                                                        (* 290-297 *)
     gf_work := fun s a e T Td => dot 6 s (inel s a T Td);                                                    (* 299-327 *)
     gf_guess := vf_guess V |}.                                                                               (* 343-346 *)
(** elastic_strains, 329-336 *)
Definition tvp_elastic_strains (S : R -> mat) (s : vec) (T : R) : vec := mv 6 (S T) s.
