(** Model of src/math/projections.cxx, src/cp/crystaldamage.cxx and the
    DamagedStandardKinematicModel of src/cp/kinematics.cxx.

    Conventions: those of CpModel.  A damage model is taken at one temperature and one
    orientation and with one slip rule.  The history of the damaged kinematic model is
    the inelastic variables followed by the damage variables (populate_hist, 314-318).
    SymSymR4::inverse is an oracle [inv] for a successful LAPACK inversion; a LAPACK
    error is an exception and leaves every function below. *)
From Verif Require Import Base.
From Verif Require Import NemlMathModel.
From Verif Require Import NemlMathSpec.
From Verif Require Import RotModel.
From Verif Require Import TensorModel.
From Verif Require Import Blocks.
From Verif Require Import CrystModel.
From Verif Require Import SlipModel.
From Verif Require Import CpModel.
From Coq Require Import List.

(** *** src/math/projections.cxx *)
(** 5-20 *)
Definition normal_projection (n : vec) : nat -> nat -> nat -> nat -> R := fun i j k l => n k * n l * n i * n j.
(** 68-84 *)
Definition shear_projection (n : vec) : nat -> nat -> nat -> nat -> R := fun i j k l => (delta i k - n i * n k) * n j * n l.
(** 22-66 *)
Definition normal_projection_ss (n : vec) : vec := fun k =>
  match k with
  | 0 => n 0%nat * n 0%nat * n 0%nat * n 0%nat
  | 1 => n 0%nat * n 0%nat * n 1%nat * n 1%nat
  | 2 => n 0%nat * n 0%nat * n 2%nat * n 2%nat
  | 3 => r2 * n 0%nat * n 0%nat * n 1%nat * n 2%nat
  | 4 => r2 * n 0%nat * n 0%nat * n 0%nat * n 2%nat
  | 5 => r2 * n 0%nat * n 0%nat * n 0%nat * n 1%nat
  | 6 => n 0%nat * n 0%nat * n 1%nat * n 1%nat
  | 7 => n 1%nat * n 1%nat * n 1%nat * n 1%nat
  | 8 => n 1%nat * n 1%nat * n 2%nat * n 2%nat
  | 9 => r2 * n 1%nat * n 1%nat * n 1%nat * n 2%nat
  | 10 => r2 * n 0%nat * n 1%nat * n 1%nat * n 2%nat
  | 11 => r2 * n 0%nat * n 1%nat * n 1%nat * n 1%nat
  | 12 => n 0%nat * n 0%nat * n 2%nat * n 2%nat
  | 13 => n 1%nat * n 1%nat * n 2%nat * n 2%nat
  | 14 => n 2%nat * n 2%nat * n 2%nat * n 2%nat
  | 15 => r2 * n 1%nat * n 2%nat * n 2%nat * n 2%nat
  | 16 => r2 * n 0%nat * n 2%nat * n 2%nat * n 2%nat
  | 17 => r2 * n 0%nat * n 1%nat * n 2%nat * n 2%nat
  | 18 => r2 * n 0%nat * n 0%nat * n 1%nat * n 2%nat
  | 19 => r2 * n 1%nat * n 1%nat * n 1%nat * n 2%nat
  | 20 => r2 * n 1%nat * n 2%nat * n 2%nat * n 2%nat
  | 21 => 2 * n 1%nat * n 1%nat * n 2%nat * n 2%nat
  | 22 => 2 * n 0%nat * n 1%nat * n 2%nat * n 2%nat
  | 23 => 2 * n 0%nat * n 1%nat * n 1%nat * n 2%nat
  | 24 => r2 * n 0%nat * n 0%nat * n 0%nat * n 2%nat
  | 25 => r2 * n 0%nat * n 1%nat * n 1%nat * n 2%nat
  | 26 => r2 * n 0%nat * n 2%nat * n 2%nat * n 2%nat
  | 27 => 2 * n 0%nat * n 1%nat * n 2%nat * n 2%nat
  | 28 => 2 * n 0%nat * n 0%nat * n 2%nat * n 2%nat
  | 29 => 2 * n 0%nat * n 0%nat * n 1%nat * n 2%nat
  | 30 => r2 * n 0%nat * n 0%nat * n 0%nat * n 1%nat
  | 31 => r2 * n 0%nat * n 1%nat * n 1%nat * n 1%nat
  | 32 => r2 * n 0%nat * n 1%nat * n 2%nat * n 2%nat
  | 33 => 2 * n 0%nat * n 1%nat * n 1%nat * n 2%nat
  | 34 => 2 * n 0%nat * n 0%nat * n 1%nat * n 2%nat
  | 35 => 2 * n 0%nat * n 0%nat * n 1%nat * n 1%nat
  | _ => 0
  end.
(** 86-130 *)
Definition shear_projection_ss (n : vec) : vec := fun k =>
  match k with
  | 0 => 2 * n 0%nat * n 0%nat * (1 - n 0%nat * n 0%nat)
  | 1 => -2 * n 0%nat * n 0%nat * n 1%nat * n 1%nat
  | 2 => -2 * n 0%nat * n 0%nat * n 2%nat * n 2%nat
  | 3 => -2 * r2 * n 0%nat * n 0%nat * n 1%nat * n 2%nat
  | 4 => r2 * n 0%nat * n 2%nat * (1 - 2 * n 0%nat * n 0%nat)
  | 5 => r2 * n 0%nat * n 1%nat * (1 - 2 * n 0%nat * n 0%nat)
  | 6 => -2 * n 0%nat * n 0%nat * n 1%nat * n 1%nat
  | 7 => 2 * n 1%nat * n 1%nat * (1 - n 1%nat * n 1%nat)
  | 8 => -2 * n 1%nat * n 1%nat * n 2%nat * n 2%nat
  | 9 => r2 * n 1%nat * n 2%nat * (1 - 2 * n 1%nat * n 1%nat)
  | 10 => -2 * r2 * n 0%nat * n 1%nat * n 1%nat * n 2%nat
  | 11 => r2 * n 0%nat * n 1%nat * (1 - 2 * n 1%nat * n 1%nat)
  | 12 => -2 * n 0%nat * n 0%nat * n 2%nat * n 2%nat
  | 13 => -2 * n 1%nat * n 1%nat * n 2%nat * n 2%nat
  | 14 => 2 * n 2%nat * n 2%nat * (1 - n 2%nat * n 2%nat)
  | 15 => r2 * n 1%nat * n 2%nat * (1 - 2 * n 2%nat * n 2%nat)
  | 16 => r2 * n 0%nat * n 2%nat * (1 - 2 * n 2%nat * n 2%nat)
  | 17 => -2 * r2 * n 0%nat * n 1%nat * n 2%nat * n 2%nat
  | 18 => -2 * r2 * n 0%nat * n 0%nat * n 1%nat * n 2%nat
  | 19 => r2 * n 1%nat * n 2%nat * (1 - 2 * n 1%nat * n 1%nat)
  | 20 => r2 * n 1%nat * n 2%nat * (1 - 2 * n 2%nat * n 2%nat)
  | 21 => -4 * n 1%nat * n 1%nat * n 2%nat * n 2%nat + n 1%nat * n 1%nat + n 2%nat * n 2%nat
  | 22 => n 0%nat * n 1%nat * (1 - 4 * n 2%nat * n 2%nat)
  | 23 => n 0%nat * n 2%nat * (1 - 4 * n 1%nat * n 1%nat)
  | 24 => r2 * n 0%nat * n 2%nat * (1 - 2 * n 0%nat * n 0%nat)
  | 25 => -2 * r2 * n 0%nat * n 1%nat * n 1%nat * n 2%nat
  | 26 => r2 * n 0%nat * n 2%nat * (1 - 2 * n 2%nat * n 2%nat)
  | 27 => n 0%nat * n 1%nat * (1 - 4 * n 2%nat * n 2%nat)
  | 28 => -4 * n 0%nat * n 0%nat * n 2%nat * n 2%nat + n 0%nat * n 0%nat + n 2%nat * n 2%nat
  | 29 => n 1%nat * n 2%nat * (1 - 4 * n 0%nat * n 0%nat)
  | 30 => r2 * n 0%nat * n 1%nat * (1 - 2 * n 0%nat * n 0%nat)
  | 31 => r2 * n 0%nat * n 1%nat * (1 - 2 * n 1%nat * n 1%nat)
  | 32 => -2 * r2 * n 0%nat * n 1%nat * n 2%nat * n 2%nat
  | 33 => n 0%nat * n 2%nat * (1 - 4 * n 1%nat * n 1%nat)
  | 34 => n 1%nat * n 2%nat * (1 - 4 * n 0%nat * n 0%nat)
  | 35 => -4 * n 0%nat * n 0%nat * n 1%nat * n 1%nat + n 0%nat * n 0%nat + n 1%nat * n 1%nat
  | _ => 0
  end.

(** *** TransformationFunction (include/cp/crystaldamage.h) *)
(** src/cp/crystaldamage.cxx:519-523 (TransformationFunction): the virtual functions *)
Record trans := { t_map : R -> R -> R; t_dd : R -> R -> R; t_dn : R -> R -> R }.
(** dtrial of SigmoidTransformation (562, 576).  At damage 0 the ratio c/0 is infinite, and
    pow(inf, beta) is inf, 1 or 0. *)
Definition sig_trial (c b d : R) : R :=
  if Req_EM_T d 0 then (if Rlt_dec 0 b then 0 else if Req_EM_T b 0 then / 2 else 1)
  else 1 / (1 + cpow (c / d - 1) b).
(** SigmoidTransformation (556-589).  At damage 0 and beta < 1 the code's derivative is infinite; here
    it is a number. *)
Definition sigmoid (c b cut : R) : trans :=
  {| t_map := fun d _ => if Rlt_dec d 0 then 0 else if Rlt_dec d c then
       (if Rlt_dec cut (sig_trial c b d) then cut else sig_trial c b d) else cut;
     t_dd := fun d _ => if Rlt_dec d 0 then 0 else if Rlt_dec d c then
       (if Rlt_dec cut (sig_trial c b d) then 0 else
        b * c * cpow d (b - 1) * cpow (1 / (c - d)) (b + 1) / cpow (cpow (d / (c - d)) b + 1) 2) else 0;
     t_dn := fun _ _ => 0 |}.
(** SwitchTransformation (618-635) *)
Definition switch (m : trans) : trans :=
  {| t_map := fun d ns => if Rlt_dec ns 0 then 0 else t_map m d ns;
     t_dd := fun d ns => if Rlt_dec ns 0 then 0 else t_dd m d ns;
     t_dn := fun _ _ => 0 |}.

(** *** SlipPlaneDamage: number of systems, shears, slip rates, normal stress, damage *)
(** src/cp/crystaldamage.cxx:438-442 (SlipPlaneDamage): the virtual functions *)
Record pdamage := { q_setup : R;
  q_rate : nat -> vec -> vec -> R -> R -> R;
  q_dshear : nat -> vec -> vec -> R -> R -> vec; q_dslip : nat -> vec -> vec -> R -> R -> vec;
  q_dnormal : nat -> vec -> vec -> R -> R -> R; q_ddamage : nat -> vec -> vec -> R -> R -> R }.
(** WorkPlaneDamage (467-517) *)
Definition work_damage : pdamage :=
  {| q_setup := 0; q_rate := fun m tau g _ _ => rsum m (fun k => tau k * g k);
     q_dshear := fun m tau g _ _ => g; q_dslip := fun m tau g _ _ => tau;
     q_dnormal := fun _ _ _ _ _ => 0; q_ddamage := fun _ _ _ _ _ => 0 |}.

(** *** CrystalDamageModel.  damage_rate and its derivatives take the stress, the inelastic
    variables and the damage variables. *)
(** src/cp/crystaldamage.cxx:7-13 (CrystalDamageModel): the virtual functions *)
Record cdamage := { cd_n : nat; cd_init : vec;
  cd_P : vec -> vec -> mat; cd_P_s : vec -> vec -> r6; cd_P_h : vec -> vec -> nat -> mat;
  cd_rate : vec -> vec -> vec -> vec; cd_rate_s : vec -> vec -> vec -> mat;
  cd_rate_i : vec -> vec -> vec -> mat; cd_rate_d : vec -> vec -> vec -> mat }.
(** NilDamageModel (36-136): one variable *)
Definition nil_damage : cdamage :=
  {| cd_n := 1; cd_init := vzero; cd_P := fun _ _ => delta; cd_P_s := fun _ _ _ _ _ => 0; cd_P_h := fun _ _ _ _ _ => 0;
     cd_rate := fun _ _ _ _ => 0; cd_rate_s := fun _ _ _ _ _ => 0; cd_rate_i := fun _ _ _ _ _ => 0; cd_rate_d := fun _ _ _ _ _ => 0 |}.

(** The planes of the lattice at an orientation: rotated normals, and the flat numbers of the
    systems on each plane. *)
(** src/cp/crystallography.cxx:531-555; src/cp/crystaldamage.cxx:179-200: the planes rotated by Q *)
Record planes := { p_n : nat; p_normal : nat -> vec; p_sys : nat -> list nat }.
(** src/cp/crystallography.cxx:531-555; src/cp/crystaldamage.cxx:179-200: the planes rotated by Q *)
Definition planes_of (L : lattice) (Q : quat) : planes :=
  {| p_n := nplanes L; p_normal := fun i => apply_v Q (nth i (la_normals L) vzero);
     p_sys := fun i => map (fun x => (boff (grp_size L) (fst x) + snd x)%nat) (plane_systems L i) |}.

(** stress.dot(n).dot(n) *)
(** src/cp/crystaldamage.cxx:179-200 (projection) *)
Definition normal_stress (s n : vec) : R := rsum 3 (fun i => r2_vec (usym s) n i * n i).
(** SymSymR4::id() - ds * P_s - dn * P_n *)
(** src/cp/crystaldamage.cxx:179-200 (projection) *)
Definition pd_factor (ds dn : R) (n : vec) : mat := fun i j =>
  delta i j - ds * flat 6 (shear_projection_ss n) i j - dn * flat 6 (normal_projection_ss n) i j.
(** starting from the identity, P = P.dot(F i) for i = 0, ..., m-1 *)
(** src/cp/crystaldamage.cxx:179-200 (projection) *)
Fixpoint prod6 (m : nat) (F : nat -> mat) : mat :=
  match m with O => delta | S m => mm 6 (prod6 m F) (F m) end.
(** src/cp/crystaldamage.cxx:179-200 (projection) *)
Definition pd_F (sh no : trans) (pl : planes) (s d : vec) (j : nat) : mat :=
  let n := p_normal pl j in let ns := normal_stress s n in
  pd_factor (t_map sh (d j) ns) (t_map no (d j) ns) n.
(** src/cp/crystaldamage.cxx:247-283 (d_projection_d_history) *)
Definition pd_dF (sh no : trans) (pl : planes) (s d : vec) (j : nat) : mat :=
  let n := p_normal pl j in let ns := normal_stress s n in
  fun a b => - flat 6 (shear_projection_ss n) a b * t_dd sh (d j) ns - flat 6 (normal_projection_ss n) a b * t_dd no (d j) ns.
(** middle of d_projection_d_stress (229-236) *)
Definition pd_mid (sh no : trans) (pl : planes) (s d : vec) (i : nat) : r6 :=
  let n := p_normal pl i in let ns := normal_stress s n in
  fun a b c => - outer_product_k (flat 6 (shear_projection_ss n)) (fun k => t_dn sh (d i) ns * mk_symmetric (outer3 n n) k) a b c
               - outer_product_k (flat 6 (normal_projection_ss n)) (fun k => t_dn no (d i) ns * mk_symmetric (outer3 n n) k) a b c.
(** the resolved shears and slip rates of the systems of plane i *)
(** src/cp/crystaldamage.cxx:285-316 (damage_rate) *)
Definition pd_tau (L : slat) (pl : planes) (s : vec) (i : nat) : vec := fun k => rs_tau L s (nth k (p_sys pl i) 0%nat).
(** src/cp/crystaldamage.cxx:285-316 (damage_rate) *)
Definition pd_gam (L : slat) (r : rule) (pl : planes) (s h : vec) (i : nat) : vec := fun k => rs_slip L r s h (nth k (p_sys pl i) 0%nat).
(** PlanarDamageModel (138-436) *)
Definition planar (L : slat) (r : rule) (pl : planes) (dm : pdamage) (sh no : trans) : cdamage :=
  {| cd_n := p_n pl; cd_init := fun _ => q_setup dm;                                                        (* 173-177 *)
     cd_P := fun s d => prod6 (p_n pl) (pd_F sh no pl s d);                                                 (* 179-200 *)
     cd_P_s := fun s d a b c => rsum (p_n pl) (fun i =>                                                     (* 202-245 *)
       let before := prod6 (p_n pl) (fun j => if Nat.ltb i j then pd_F sh no pl s d j else delta) in
       let after := prod6 (p_n pl) (fun j => if Nat.ltb j i then pd_F sh no pl s d j else delta) in
       middle_dot_before (middle_dot_after (pd_mid sh no pl s d i) after) before a b c);
     cd_P_h := fun s d i => prod6 (p_n pl) (fun j => if Nat.eqb i j then pd_dF sh no pl s d j else pd_F sh no pl s d j);  (* 247-283 *)
     cd_rate := fun s h d i => q_rate dm (length (p_sys pl i)) (pd_tau L pl s i) (pd_gam L r pl s h i) (normal_stress s (p_normal pl i)) (d i);  (* 285-316 *)
     cd_rate_s := fun s h d i c =>                                                                          (* 319-366 *)
       let m := length (p_sys pl i) in let tau := pd_tau L pl s i in let g := pd_gam L r pl s h i in
       let n := p_normal pl i in let ns := normal_stress s n in
       q_dnormal dm m tau g ns (d i) * mk_symmetric (outer3 n n) c
       + rsum m (fun k => let p := nth k (p_sys pl i) 0%nat in
           q_dshear dm m tau g ns (d i) k * l_M L p c + q_dslip dm m tau g ns (d i) k * rs_dslip_s L r s h p c);
     cd_rate_i := fun s h d i x =>                                                                          (* 405-417 *)
       let m := length (p_sys pl i) in let tau := pd_tau L pl s i in let g := pd_gam L r pl s h i in
       let ns := normal_stress s (p_normal pl i) in
       rsum m (fun k => q_dslip dm m tau g ns (d i) k * rs_dslip_h L r s h (nth k (p_sys pl i) 0%nat) x);
     cd_rate_d := fun s h d i j =>                                                                          (* 401-403 *)
       let m := length (p_sys pl i) in let tau := pd_tau L pl s i in let g := pd_gam L r pl s h i in
       if Nat.eqb i j then q_ddamage dm m tau g (normal_stress s (p_normal pl i)) (d i) else 0 |}.

(** *** DamagedStandardKinematicModel (src/cp/kinematics.cxx 285-655) *)
(** ihist_ and dhist_ (614-622) *)
Definition dk_i (m : imodel) (h : vec) : vec := fun k => if Nat.ltb k (i_n m) then h k else 0.
(** src/cp/kinematics.cxx:619-622 (dhist_) *)
Definition dk_d (m : imodel) (h : vec) : vec := fun k => h (i_n m + k)%nat.
(** src/cp/kinematics.cxx:326-346 (stress_rate) *)
Definition dk_P (m : imodel) (dm : cdamage) (s h : vec) : mat := cd_P dm s (dk_d m h).
(** src/cp/kinematics.cxx:326-346 (stress_rate) *)
Definition dk_Pi (inv : mat -> mat) (m : imodel) (dm : cdamage) (s h : vec) : mat := inv (dk_P m dm s h).
(** stress_p *)
(** src/cp/kinematics.cxx:326-346 (stress_rate) *)
Definition dk_sp (inv : mat -> mat) (m : imodel) (dm : cdamage) (s h : vec) : vec := mv 6 (dk_Pi inv m dm s h) s.
(** src/cp/kinematics.cxx:326-346 (stress_rate): the spin O_s *)
Definition dk_O (inv : mat -> mat) (f : cfix) (m : imodel) (dm : cdamage) (s h : vec) : vec :=
  vadd (f_spin f) (i_wp m (dk_sp inv m dm s h) (dk_i m h)).
Definition dk_rate (inv : mat -> mat) (f : cfix) (m : imodel) (dm : cdamage) (s d h : vec) : vec :=         (* 326-346 *)
  let sp := dk_sp inv m dm s h in
  vsub (mv 6 (dk_P m dm s h) (mv 6 (flat 6 (f_C f)) (vsub d (i_dp m sp (dk_i m h))))) (net sp (dk_O inv f m dm s h)).
(** d_stress_partial (624-655) *)
Definition dk_partial (inv : mat -> mat) (f : cfix) (m : imodel) (dm : cdamage) (s h : vec) : mat :=
  let sp := dk_sp inv m dm s h in
  let D1 := i_dp_s m sp (dk_i m h) in
  let D2 := flat 6 (SymSymR4SkewmSkewSymR4SymR4 (rowmajor 6 delta) (dk_O inv f m dm s h)) in
  let D3 := flat 6 (SymSkewR4SymmSkewSymR4SymR4 sp (rowmajor 6 (i_wp_s m sp (dk_i m h)))) in
  fun i j => - (mm 6 (mm 6 (dk_P m dm s h) (flat 6 (f_C f))) D1 i j + D2 i j + D3 i j).
Definition dk_ds (inv : mat -> mat) (f : cfix) (m : imodel) (dm : cdamage) (s d h : vec) : mat :=           (* 348-380 *)
  let sp := dk_sp inv m dm s h in
  let Pp := cd_P_s dm s (dk_d m h) in
  let D1 := i_dp_s m sp (dk_i m h) in
  let D2 := flat 6 (SymSymR4SkewmSkewSymR4SymR4 (rowmajor 6 delta) (dk_O inv f m dm s h)) in
  let D3 := flat 6 (SymSkewR4SymmSkewSymR4SymR4 sp (rowmajor 6 (i_wp_s m sp (dk_i m h)))) in
  mm 6 (fun i j => dot_k Pp (vsub d (i_dp m sp (dk_i m h))) i j - (mm 6 (mm 6 (dk_P m dm s h) (flat 6 (f_C f))) D1 i j + D2 i j + D3 i j))
       (dk_Pi inv m dm s h).
Definition dk_dd (f : cfix) (m : imodel) (dm : cdamage) (s h : vec) : mat := mm 6 (dk_P m dm s h) (flat 6 (f_C f)).  (* 382-393 *)
(** the effect of damage variable x on stress_p, up to sign: Pi.dot(pdhist.dot(stress_p)) *)
(** src/cp/kinematics.cxx:485-541 (d_history_rate_d_history) *)
Definition dk_push (inv : mat -> mat) (m : imodel) (dm : cdamage) (s h : vec) (x : nat) : vec :=
  mv 6 (dk_Pi inv m dm s h) (mv 6 (cd_P_h dm s (dk_d m h) x) (dk_sp inv m dm s h)).
Definition dk_dh (inv : mat -> mat) (f : cfix) (m : imodel) (dm : cdamage) (s d h : vec) : mat := fun i x =>  (* 395-442 *)
  let sp := dk_sp inv m dm s h in
  if Nat.ltb x (i_n m) then
    mv 6 (fun a b => - mm 6 (dk_P m dm s h) (flat 6 (f_C f)) a b) (fun k => i_dp_h m sp (dk_i m h) k x) i
    - net sp (fun l => i_wp_h m sp (dk_i m h) l x) i
  else
    mv 6 (cd_P_h dm s (dk_d m h) (x - i_n m)%nat) (mv 6 (flat 6 (f_C f)) (vsub d (i_dp m sp (dk_i m h)))) i
    - mv 6 (dk_partial inv f m dm s h) (dk_push inv m dm s h (x - i_n m)%nat) i.
Definition dk_hrate (inv : mat -> mat) (m : imodel) (dm : cdamage) (s h : vec) : vec := fun i =>            (* 444-462 *)
  let sp := dk_sp inv m dm s h in
  if Nat.ltb i (i_n m) then i_rate m sp (dk_i m h) i else cd_rate dm sp (dk_i m h) (dk_d m h) (i - i_n m)%nat.
(** base of d_history_rate_d_stress (478-480), also partial of d_history_rate_d_history (518-520) *)
Definition dk_hpart (inv : mat -> mat) (m : imodel) (dm : cdamage) (s h : vec) : mat := fun i j =>
  let sp := dk_sp inv m dm s h in
  if Nat.ltb i (i_n m) then i_rate_s m sp (dk_i m h) i j else cd_rate_s dm sp (dk_i m h) (dk_d m h) (i - i_n m)%nat j.
Definition dk_hrate_s (inv : mat -> mat) (m : imodel) (dm : cdamage) (s h : vec) : mat :=                   (* 464-483, postmultiply *)
  mm 6 (dk_hpart inv m dm s h) (dk_Pi inv m dm s h).
Definition dk_hrate_h (inv : mat -> mat) (m : imodel) (dm : cdamage) (s h : vec) : mat := fun i x =>        (* 485-541 *)
  let sp := dk_sp inv m dm s h in
  (if Nat.ltb i (i_n m)
   then if Nat.ltb x (i_n m) then i_rate_h m sp (dk_i m h) i x else 0
   else if Nat.ltb x (i_n m) then cd_rate_i dm sp (dk_i m h) (dk_d m h) (i - i_n m)%nat x
        else cd_rate_d dm sp (dk_i m h) (dk_d m h) (i - i_n m)%nat (x - i_n m)%nat)
  - (if Nat.ltb x (i_n m) then 0 else sym_contract (dk_hpart inv m dm s h i) (dk_push inv m dm s h (x - i_n m)%nat)).
Definition dk_dw_decouple (inv : mat -> mat) (m : imodel) (dm : cdamage) (s h : vec) : mat := fun i j =>    (* 543-556 *)
  -2 * flat 3 (SpecialSymSymR4Sym (dk_sp inv m dm s h) (rowmajor 6 delta)) i j.
Definition dk_spin (inv : mat -> mat) (S : vec) (m : imodel) (dm : cdamage) (s w h : vec) : vec :=          (* 559-579 *)
  let e := mv 6 (mm 6 (flat 6 S) (dk_Pi inv m dm s h)) s in
  vsub (vsub w (i_wp m s (dk_i m h))) (sk_comm e (i_dp m s (dk_i m h))).
Definition dk_decouple (inv : mat -> mat) (C S : vec) (m : imodel) (dm : cdamage) (s w h : vec) : cfix :=   (* StandardKinematicModel::decouple 98-118 *)
  {| f_spin := dk_spin inv S m dm s w h; f_C := C; f_S := S |}.
Definition dk_estrain (inv : mat -> mat) (S : vec) (m : imodel) (dm : cdamage) (s h : vec) : vec :=         (* 581-589 *)
  mv 6 (flat 6 S) (mv 6 (dk_Pi inv m dm s h) s).
Definition dk_increment (C : vec) (m : imodel) (dm : cdamage) (s d h : vec) (dt : R) : vec :=               (* 591-600 *)
  mv 6 (dk_P m dm s h) (mv 6 (flat 6 C) (fun i => d i * dt)).
