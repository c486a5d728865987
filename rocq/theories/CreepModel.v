(** Model of src/creep.cxx and of SmallStrainCreepPlasticity in src/models.cxx.  Temperature
    dependent parameters (Interpolate objects, the shear modulus of the elastic model) are
    functions of T. *)
From Verif Require Import Base.
From Verif Require Import NemlMathModel InterpModel SolverModel SubstepModel SurfModel PlastModel.

(** ** ScalarCreepRule, include/creep.h: rate g(seq, eeq, t, T) and its reported derivatives;
    dg_dt and dg_dT are zero unless overridden (src/creep.cxx:19-31) *)
Record srule := { sc_g : R -> R -> R -> R -> R; sc_gs : R -> R -> R -> R -> R; sc_ge : R -> R -> R -> R -> R;
                  sc_gt : R -> R -> R -> R -> R; sc_gT : R -> R -> R -> R -> R }.
(** src/creep.cxx:19-31 *)
Definition zero4 (_ _ _ _ : R) : R := 0.

(** src/creep.cxx:63-78 *)
Definition PowerLawCreep (A n : R -> R) : srule :=
  {| sc_g := fun se ee t T => A T * cpow se (n T);
     sc_gs := fun se ee t T => A T * n T * cpow se (n T - 1);
     sc_ge := zero4; sc_gt := zero4; sc_gT := zero4 |}.
(** src/creep.cxx:120-136 *)
Definition NormalizedPowerLawCreep (s0 n : R -> R) : srule :=
  {| sc_g := fun se ee t T => cpow (se / s0 T) (n T);
     sc_gs := fun se ee t T => n T / s0 T * cpow (se / s0 T) (n T - 1);
     sc_ge := zero4; sc_gt := zero4; sc_gT := zero4 |}.
(** src/creep.cxx:174-207 *)
Definition BlackburnCreep (A n beta : R -> R) (Rg Q : R) : srule :=
  {| sc_g := fun se ee t T => A T * cpow (sinh (beta T * se / n T)) (n T) * exp (- Q / (Rg * T));
     sc_gs := fun se ee t T => A T * beta T * exp (- Q / (Rg * T)) * cosh (beta T * se / n T)
                               * cpow (sinh (beta T * se / n T)) (n T - 1);
     sc_ge := zero4; sc_gt := zero4;
     sc_gT := fun se ee t T => A T * cpow (sinh (beta T * se / n T)) (n T) * exp (- Q / (Rg * T)) * Q / (Rg * T * T) |}.
(** src/creep.cxx:210-219 (shift), 246-268 *)
Definition SwindemanCreep (C n V Q : R) (celsius : bool) : srule :=
  let shift := if celsius then 273.15 else 0 in
  {| sc_g := fun se ee t T => C * cpow se n * exp (V * se) * exp (- Q / (T + shift));
     sc_gs := fun se ee t T => C * exp (- Q / (T + shift)) * (n + se * V) * exp (se * V) * cpow se (n - 1);
     sc_ge := zero4; sc_gt := zero4;
     sc_gT := fun se ee t T => C * cpow se n * exp (V * se) * exp (- Q / (T + shift)) * Q / ((T + shift) * (T + shift)) |}.

(** select_region_, src/creep.cxx:340-368: the index i of A_[i], B_[i]; None is the unchecked
    access cuts_[0] of an empty vector *)
Fixpoint km_scan (cuts : list R) (i : nat) (neq : R) : nat :=   (* the loop 357-363, falling through to 364-367 *)
  match cuts with
  | [] => i
  | c :: l => if Rlt_dec c neq then S i else km_scan l (S i) neq
  end.
(** src/creep.cxx:340-368 (select_region_) *)
Definition km_region (nregion : nat) (cuts : list R) (neq : R) : option nat :=
  if Nat.eqb nregion 1 then Some O
  else match cuts with
       | [] => None
       | c0 :: _ => if Rlt_dec neq c0 then Some O else Some (km_scan cuts 0 neq)
       end.
(** src/creep.cxx:313-338; an access outside A_ or B_ (undefined behaviour) gives 0 *)
Definition RegionKMCreep (cuts : list R) (A B : list (R -> R)) (kboltz b eps0 : R) (G : R -> R) (celsius : bool) : srule :=
  let shift := if celsius then 273.15 else 0 in
  let sel se T := match km_region (length A) cuts (se / G T) with Some i => i | None => length A end in
  let Ai se T := nth (sel se T) A (fun _ => 0) T in
  let Bi se T := nth (sel se T) B (fun _ => 0) T in
  let C1 T := - G T * (b * b * b) / (kboltz * (T + shift)) in
  {| sc_g := fun se ee t T => eps0 * exp (C1 T * Bi se T) * cpow (se / G T) (C1 T * Ai se T);
     sc_gs := fun se ee t T => eps0 * exp (C1 T * Bi se T) * C1 T * Ai se T / G T * cpow (se / G T) (C1 T * Ai se T - 1);
     sc_ge := zero4; sc_gt := zero4; sc_gT := zero4 |}.

(** src/creep.cxx:401-453; the two identical clamps of each routine *)
Definition clamp_eps (x : R) : R := if Rlt_dec x eps then eps else x.
(** src/creep.cxx:371-468 *)
Definition NortonBaileyCreep (A m n : R -> R) : srule :=
  {| sc_g := fun se ee t T => m T * cpow (A T) (1 / m T) * cpow (clamp_eps se) (n T / m T) * cpow (clamp_eps ee) ((m T - 1) / m T);
     sc_gs := fun se ee t T => n T * cpow (A T) (1 / m T) * cpow (clamp_eps se) (n T / m T - 1) * cpow (clamp_eps ee) ((m T - 1) / m T);
     sc_ge := fun se ee t T => (m T - 1) * cpow (A T) (1 / m T) * cpow (clamp_eps se) (n T / m T) * cpow (clamp_eps ee) (-1 / m T);
     sc_gt := zero4; sc_gT := zero4 |}.
(** src/creep.cxx:511-531 *)
Definition MukherjeeCreep (G : R -> R) (A n D0 Q b k Rg : R) : srule :=
  let Dv T := D0 * exp (- Q / (Rg * T)) in
  {| sc_g := fun se ee t T => A * Dv T * G T * b / (k * T) * cpow (se / G T) n;
     sc_gs := fun se ee t T => n * A * Dv T * G T * b / (k * T) * cpow (se / G T) (n - 1) / G T;
     sc_ge := zero4; sc_gt := zero4; sc_gT := zero4 |}.
(** src/creep.cxx:594-615; f, df: value and derivative of the Interpolate *)
Definition GenericCreep (f df : R -> R) : srule :=
  {| sc_g := fun se ee t T => exp (f (ln se));
     sc_gs := fun se ee t T => if Rlt_dec 0 se then f (ln se) * exp (f (ln se)) * df (ln se) / se else 0;
     sc_ge := zero4; sc_gt := zero4; sc_gT := zero4 |}.
(** src/creep.cxx:752-815, 817 (the table U) *)
(** src/creep.cxx:789-794 (e1_) *)
Definition m225_e1 (U : R -> R) (se T : R) : R := cpow 10 (6.7475 + 0.011426 * se + 987.72 / U T * log10 se - 13494 / T) / 100.
(** src/creep.cxx:796-801 (e2_) *)
Definition m225_e2 (U : R -> R) (se T : R) : R := cpow 10 (11.498 - 8.2226 * U T / T - 20448 / T + 5862.4 / T * log10 se) / 100.
(** src/creep.cxx:803-808 (de1_) *)
Definition m225_de1 (U : R -> R) (se T : R) : R :=
  cpow 10 (4.7475 + 0.011426 * se + 428.961 / U T * ln se - 13494 / T) * (0.011426 + 428.961 / (se * U T)) * ln 10.
(** src/creep.cxx:810-815 (de2_) *)
Definition m225_de2 (U : R -> R) (se T : R) : R :=
  2546.01 * cpow 10 (9.498 - 8.2226 * U T / T - 20448 / T + 2546.01 / T * ln se) * ln 10 / (se * T).
(** src/creep.cxx:752-766 (g) *)
Definition m225_switch (se : R) : R := 13.571 * cpow se 0.68127 - 1.8 * se + 710.78.
(** src/creep.cxx:752-766 (g) *)
Definition m225 (x1 x2 : R -> R -> R) (se T : R) : R :=
  if Rlt_dec se 60 then x1 se T else if Rle_dec T (m225_switch se) then x1 se T else x2 se T.
(** src/creep.cxx:728-815 *)
Definition MinCreep225 (U : R -> R) : srule :=
  {| sc_g := fun se ee t T => m225 (m225_e1 U) (m225_e2 U) se T;
     sc_gs := fun se ee t T => m225 (m225_de1 U) (m225_de2 U) se T;
     sc_ge := zero4; sc_gt := zero4; sc_gT := zero4 |}.
(** src/creep.cxx:817: the table U *)
Definition m225_U : interp := IPLin [644.15; 673.15; 723.15; 773.15; 823.15; 873.15; 894.15; 922.15] [471; 468; 452; 418; 634; 284; 300; 270].

(** ** CreepModel, include/creep.h: creep strain rate f(s, e, t, T) *)
(** src/creep.cxx:618-642: the virtual functions of CreepModel *)
Record crmodel := { cr_f : vec -> vec -> R -> R -> vec; cr_fs : vec -> vec -> R -> R -> mat; cr_fe : vec -> vec -> R -> R -> mat;
                    cr_ft : vec -> vec -> R -> R -> vec; cr_fT : vec -> vec -> R -> R -> vec }.
(** src/creep.cxx:991-998, 1000-1003 *)
Definition seq (s : vec) : R := sqrt (3 / 2) * norm2 6 (dev_vec s).
(** src/creep.cxx:1000-1003 (eeq) *)
Definition eeq (e : vec) : R := sqrt (2 / 3) * norm2 6 e.
(** src/creep.cxx:1005-1015, 1017-1026 *)
Definition sdir (s : vec) : vec := fun i => if Rlt_dec (seq s) eps then 0 else dev_vec s i / seq s.
(** src/creep.cxx:1017-1026 (edir) *)
Definition edir (e : vec) : vec := fun i => if Rlt_dec (eeq e) eps then 0 else e i / eeq e.
(** the matrix ID of df_ds, src/creep.cxx:892-905 *)
Definition cr_ID : mat := fun i j => (delta i j - (if andb (Nat.ltb i 3) (Nat.ltb j 3) then 1 / 3 else 0)) * (3 / 2).
(** J2CreepModel: f 851-869, df_ds 871-919, df_de 921-948, df_dt 950-968, df_dT 970-988 *)
Definition J2Creep (r : srule) : crmodel :=
  {| cr_f := fun s e t T i => sdir s i * (3 / 2 * sc_g r (seq s) (eeq e) t T);
     cr_fs := fun s e t T =>
       let rate := sc_g r (seq s) (eeq e) t T in let drate := sc_gs r (seq s) (eeq e) t T in
       let se := clamp_eps (seq s) in
       mm 6 (fun i j => sdir s i * sdir s j * (3 / 2 * (drate - rate / se)) + delta i j * (rate / se)) cr_ID;
     cr_fe := fun s e t T i j => sdir s i * (edir e j * sc_ge r (seq s) (eeq e) t T);
     cr_ft := fun s e t T i => sdir s i * (3 / 2 * sc_gt r (seq s) (eeq e) t T);
     cr_fT := fun s e t T i => sdir s i * (3 / 2 * sc_gT r (seq s) (eeq e) t T) |}.

(** *** CreepModel::update, src/creep.cxx:645-725.  RJ 694-708 *)
Definition cr_R (M : crmodel) (s en : vec) (T t dt : R) (x : vec) : vec := fun i => x i - en i - cr_f M s x t T i * dt.
(** src/creep.cxx:694-707 (RJ) *)
Definition cr_J (M : crmodel) (s : vec) (T t dt : R) (x : vec) : mat := fun i j => - cr_fe M s x t T i j * dt + delta i j.
(** src/creep.cxx:645-665 (update): the solve *)
Definition cr_solve (lsolve : mat -> vec -> option vec) (prm : sparams) (M : crmodel) (s en : vec) (T t dt : R) :=
  newton (vec_sys 6 en (fun x => Some (cr_R M s en T t dt x, cr_J M s T t dt x)) lsolve) prm.
(** calc_tangent_, 710-726; [inv] is invert_mat *)
Definition cr_tangent (inv : nat -> mat -> option mat) (M : crmodel) (s : vec) (T t dt : R) (x : vec) : option mat :=
  match inv 6%nat (cr_J M s T t dt x) with
  | Some K => Some (mm 6 (fun i j => K i j * dt) (cr_fs M s x t T))
  | None => None
  end.
(** the new creep strain and the tangent; None is a NEMLError *)
(** src/creep.cxx:645-665 (update), 710-725 (calc_tangent_) *)
Definition cr_update (lsolve : mat -> vec -> option vec) (inv : nat -> mat -> option mat) (prm : sparams) (M : crmodel)
    (s en : vec) (T1 T0 t1 t0 : R) : option (vec * mat) :=
  match cr_solve lsolve prm M s en T1 t1 (t1 - t0) with
  | Ok (x, _, _) => match cr_tangent inv M s T1 t1 (t1 - t0) x with Some A => Some (x, A) | None => None end
  | Throw _ => None
  end.

(** ** SmallStrainCreepPlasticity, src/models.cxx:1120-1302.  The base model's update_sd_actual is
    a function of (ep_{n+1}, ep_n as loads, s_n, h_n, u_n, p_n); its History has nh = nstate()
    entries. *)
Record pres := { pr_s : vec; pr_h : vec; pr_A : mat; pr_u : R; pr_p : R }.
(** src/models.cxx:141-154: what update_sd of a plastic model takes and gives *)
Record base := { ba_nh : nat; ba_update : load -> load -> vec -> vec -> R -> R -> option pres; ba_init : vec }.
(** src/models.cxx:1203-1245 (RJ): the call of the plastic model at another strain *)
Definition with_e (e : vec) (l : load) : load := {| ld_e := e; ld_T := ld_T l; ld_t := ld_t l |}.
(** make_trial_state 1247-1267: what the update reads from h_n *)
Definition sscp_ep (h : vec) : vec := h.                       (* h_n[0..5] *)
(** src/models.cxx:1203-1245 (RJ): h_n + 6 *)
Definition sscp_h (h : vec) : vec := fun i => h (6 + i)%nat.   (* h_n[6..] *)
(** RJ, 1203-1245; sf is sf_ *)
Definition sscp_RJ (cr : vec -> vec -> R -> R -> R -> R -> option (vec * mat)) (B : base) (sf : R)
    (next past : load) (sn hn x : vec) : option (vec * mat) :=
  match ba_update B (with_e x next) (with_e (sscp_ep hn) past) sn (sscp_h hn) 0 0 with
  | None => None
  | Some r =>
    match cr (pr_s r) (fun i => ld_e past i - sscp_ep hn i) (ld_T next) (ld_T past) (ld_t next) (ld_t past) with
    | None => None
    | Some (ec, Bm) =>
      Some (fun i => (x i + ec i - ld_e next i) * sf,
            fun i j => (mm 6 Bm (pr_A r) i j + delta i j) * sf)
    end
  end.
(** form_tangent_, 1269-1303 *)
Definition form_tangent (inv : nat -> mat -> option mat) (A B : mat) : option mat :=
  match inv 6%nat (fun i j => mm 6 A B i j + delta i j) with
  | Some C => Some (fun i j => A i j - mm 6 A (mm 6 B (mm 6 C A)) i j)
  | None => None
  end.
(** update_sd_actual, 1133-1187: stress, history, tangent, u, p *)
Definition sscp_update (lsolve : mat -> vec -> option vec) (inv : nat -> mat -> option mat) (prm : sparams)
    (cr : vec -> vec -> R -> R -> R -> R -> option (vec * mat)) (B : base) (sf : R)
    (next past : load) (sn hn : vec) (un pn : R) : option pres :=
  match newton (vec_sys 6 (sscp_ep hn) (sscp_RJ cr B sf next past sn hn) lsolve) prm with
  | Throw _ => None
  | Ok (x, _, _) =>
    match ba_update B (with_e x next) (with_e (sscp_ep hn) past) sn (sscp_h hn) un pn with
    | None => None
    | Some r =>
      let ec0 i := ld_e past i - sscp_ep hn i in
      match cr (pr_s r) ec0 (ld_T next) (ld_T past) (ld_t next) (ld_t past) with
      | None => None
      | Some (ec, Bm) =>
        match form_tangent inv (pr_A r) Bm with
        | None => None
        | Some A =>
          let ds := vadd (pr_s r) sn in
          Some {| pr_s := pr_s r;
                  pr_h := fun i => if Nat.ltb i 6 then x i else pr_h r (i - 6)%nat;
                  pr_A := A;
                  pr_u := un + dot 6 ds (vsub (ld_e next) (ld_e past)) / 2;
                  pr_p := pr_p r + dot 6 ds (vsub ec ec0) / 2 |}
        end
      end
    end
  end.
(** populate_state 1120-1125, init_state 1127-1131: the base model's variables come first, then
    plastic_strain, initially zero *)
Definition sscp_init (B : base) : vec := fun i => if Nat.ltb i (ba_nh B) then ba_init B i else 0.
(** src/models.cxx:1120-1125 (populate_state): where the plastic strain lies by name *)
Definition sscp_plastic_strain (B : base) (h : vec) : vec := fun i => h (ba_nh B + i)%nat.
