(** Model of the small strain models of src/models.cxx: SubstepModel_sd::update_step and the
    classes built on it (perfect plasticity, rate independent plasticity, general integrator),
    SmallStrainElasticity and KMRegimeModel.

    A TrialState is a function of the arguments of [setup], so the fields of the trial states
    appear here as functions of (next load, last load, last state).  LinearElasticModel is the
    pair of functions C(T), S(T).  The Newton solve is the model of src/solvers.cxx
    ([SolverModel.newton]); LAPACK's linear solve and inverse are oracles [lsolve], [inv] which
    return None when LAPACK reports an error. *)
From Verif Require Import Base.
From Verif Require Import NemlMathModel SolverModel SubstepModel SurfModel RiModel.

(** stress, internal variables, strain energy and dissipated work at one end of a step *)
(** the values at one end of a step, src/models.cxx:269-379 *)
Record pst := { ps_s : vec; ps_h : vec; ps_u : R; ps_p : R }.

(** The virtual functions of SubstepModel_sd (include/models.h).  [sb_RJ] returns None when
    evaluating the residual throws a NEMLError. *)
(** the virtual functions used in src/models.cxx:269-454 *)
Record submodel := {
  sb_np : nat;                                        (* nparams *)
  sb_C : R -> mat;                                    (* elastic_->C *)
  sb_elastic : load -> load -> pst -> bool;           (* elastic_step of the trial state *)
  sb_init : load -> load -> pst -> vec;               (* init_x *)
  sb_RJ : load -> load -> pst -> vec -> option (vec * mat);
  sb_h : vec -> pst -> vec;                           (* update_internal: the new history *)
  sb_E : load -> load -> pst -> vec -> mat;           (* strain_partial *)
  sb_work : load -> load -> pst -> vec -> vec -> R * R (* work_and_energy: u_np1, p_np1 *)
}.

(** the strain increment, src/models.cxx:494-516 and 729-752 *)
Definition de (next past : load) : vec := vsub (ld_e next) (ld_e past).

(** src/models.cxx:381-461 *)
Definition update_step (lsolve : mat -> vec -> option vec) (inv : nat -> mat -> option mat) (prm : sparams)
    (M : submodel) (next past : load) (st : pst) : option (pst * mat * mat) :=
  if sb_elastic M next past st then                                                     (* 394-423 *)
    let C := sb_C M (ld_T next) in
    let s1 := vadd (mv 6 C (de next past)) (ps_s st) in
    let w := sb_work M next past st s1 (ps_h st) in
    Some ({| ps_s := s1; ps_h := ps_h st; ps_u := fst w; ps_p := snd w |},
          (fun i j => if andb (Nat.ltb i 6) (Nat.eqb i j) then 1 else 0),
          (fun i j => if Nat.ltb i 6 then C i j else 0))
  else                                                                                  (* 425-460 *)
    match newton (vec_sys (sb_np M) (sb_init M next past st) (sb_RJ M next past st) lsolve) prm with
    | Ok (x, (_, J), _) =>
      match inv (sb_np M) J with
      | Some A =>
        let h1 := sb_h M x st in
        let w := sb_work M next past st x h1 in
        Some ({| ps_s := x; ps_h := h1; ps_u := fst w; ps_p := snd w |}, A, sb_E M next past st x)
      | None => None
      end
    | Throw _ => None
    end.

(** the trapezoidal products shared by the work_and_energy functions *)
Definition trap (s1 s0 d : vec) : R := dot 6 (vadd s1 s0) d / 2.

(** e - S s, the inelastic strain implied by a total strain and a stress *)
(** src/models.cxx:628-659: in work_and_energy *)
Definition inel (Se : R -> mat) (l : load) (s : vec) : vec := vsub (ld_e l) (mv 6 (Se (ld_T l)) s).

(** src/models.cxx:628-659 and 867-898: the work of the two rate independent models *)
Definition ri_work (Se : R -> mat) (next past : load) (st : pst) (s1 h1 : vec) : R * R :=
  (ps_u st + trap s1 (ps_s st) (de next past),
   ps_p st + trap s1 (ps_s st) (vsub (inel Se next s1) (inel Se past (ps_s st)))).

(** SmallStrainPerfectPlasticity.  Trial state: src/models.cxx:723-752. *)
Definition pp_ys (ys : R -> R) (next : load) : vec := fun _ => - ys (ld_T next).
(** src/models.cxx:729-752 (make_trial_state) *)
Definition pp_trial (Ce : R -> mat) (next past : load) (st : pst) : vec :=
  vadd (ps_s st) (mv 6 (Ce (ld_T next)) (de next past)).
(** RJ: src/models.cxx:673-720 *)
Definition pp_R (Ce Se : R -> mat) (Y : surface) (ys : R -> R) (next past : load) (st : pst) (x : vec) : vec :=
  let df := ys_ds Y x (pp_ys ys next) (ld_T next) in
  fun i => if Nat.ltb i 6 then
      x i - mv 6 (Ce (ld_T next)) (fun k => ld_e next k - inel Se past (ps_s st) k - df k * x 6%nat) i
    else ys_f Y x (pp_ys ys next) (ld_T next).
(** src/models.cxx:673-720 (RJ) *)
Definition pp_J (Ce : R -> mat) (Y : surface) (ys : R -> R) (next : load) (x : vec) : mat :=
  let df := ys_ds Y x (pp_ys ys next) (ld_T next) in
  let ddf := ys_dss Y x (pp_ys ys next) (ld_T next) in
  fun i j =>
    if Nat.ltb i 6 then
      if Nat.ltb j 6 then mm 6 (Ce (ld_T next)) ddf i j * x 6%nat + delta i j
      else mv 6 (Ce (ld_T next)) df i
    else if Nat.ltb j 6 then df j else 0.
Definition PerfectPlasticity (Ce Se : R -> mat) (Y : surface) (ys : R -> R) : submodel :=
  {| sb_np := 7;                                                                        (* 661-664 *)
     sb_C := Ce;
     sb_elastic := fun next past st =>                                                  (* 583-595 *)
       if Rle_dec (ys_f Y (pp_trial Ce next past st) (pp_ys ys next) (ld_T next)) 0 then true else false;
     sb_init := fun next past st i => if Nat.ltb i 6 then pp_trial Ce next past st i else 0;  (* 666-671 *)
     sb_RJ := fun next past st x => Some (pp_R Ce Se Y ys next past st x, pp_J Ce Y ys next x);
     sb_h := fun x st => ps_h st;                                                       (* 597-606; nstate() = 0 *)
     sb_E := fun next past st x i j => if Nat.ltb i 6 then Ce (ld_T next) i j else 0;   (* 608-626 *)
     sb_work := ri_work Se |}.                                                          (* 628-659 *)

(** SmallStrainRateIndependentPlasticity.  Trial state: src/models.cxx:1042-1068.  The trial
    stress is computed from the elastic strain, not incrementally. *)
Definition rip_trial (Ce Se : R -> mat) (next past : load) (st : pst) : vec :=
  mv 6 (Ce (ld_T next)) (vsub (ld_e next) (inel Se past (ps_s st))).
(** RJ: src/models.cxx:914-1040; nh = nstate(), n = nparams() = 6+nh+1 *)
Definition hist_of (x : vec) : vec := fun i => x (6 + i)%nat.
(** src/models.cxx:914-1035 (RJ) *)
Definition rip_R (Ce Se : R -> mat) (F : riflow) (next past : load) (st : pst) (x : vec) : vec :=
  let nh := rf_n F in let T := ld_T next in
  let a := hist_of x in let dg := x (6 + nh)%nat in
  fun i =>
    if Nat.ltb i 6 then
      x i - mv 6 (Ce T) (fun k => ld_e next k - inel Se past (ps_s st) k - rf_g F x a T k * dg) i
    else if Nat.ltb i (6 + nh) then
      x i - ps_h st (i - 6)%nat - rf_h F x a T (i - 6)%nat * dg
    else rf_f F x a T.
Definition rip_J (Ce : R -> mat) (F : riflow) (next : load) (x : vec) : mat :=
  let nh := rf_n F in let T := ld_T next in
  let a := hist_of x in let dg := x (6 + nh)%nat in
  fun i j =>
    if Nat.ltb i 6 then
      if Nat.ltb j 6 then mm 6 (Ce T) (rf_gs F x a T) i j * dg + delta i j              (* J11 *)
      else if Nat.ltb j (6 + nh) then mm 6 (Ce T) (rf_ga F x a T) i (j - 6)%nat * dg     (* J12 *)
      else mv 6 (Ce T) (rf_g F x a T) i                                                 (* J13 *)
    else if Nat.ltb i (6 + nh) then
      if Nat.ltb j 6 then - (rf_hs F x a T (i - 6)%nat j * dg)                          (* J21 *)
      else if Nat.ltb j (6 + nh) then - (rf_ha F x a T (i - 6)%nat (j - 6)%nat * dg - delta i j)  (* J22 *)
      else - rf_h F x a T (i - 6)%nat                                                   (* J23 *)
    else
      if Nat.ltb j 6 then rf_fs F x a T j                                               (* J31 *)
      else if Nat.ltb j (6 + nh) then rf_fa F x a T (j - 6)%nat                         (* J32 *)
      else 0.                                                                           (* J33 *)
Definition RateIndependent (Ce Se : R -> mat) (F : riflow) : submodel :=
  {| sb_np := 6 + rf_n F + 1;                                                           (* 900-904 *)
     sb_C := Ce;
     sb_elastic := fun next past st =>                                                  (* 821-834 *)
       if Rle_dec (rf_f F (rip_trial Ce Se next past st) (ps_h st) (ld_T next)) 0 then true else false;
     sb_init := fun next past st i =>                                                   (* 906-912 *)
       if Nat.ltb i 6 then rip_trial Ce Se next past st i
       else if Nat.ltb i (6 + rf_n F) then ps_h st (i - 6)%nat else 0;
     sb_RJ := fun next past st x => Some (rip_R Ce Se F next past st x, rip_J Ce F next x);
     sb_h := fun x st => hist_of x;                                                     (* 836-846 *)
     sb_E := fun next past st x i j => if Nat.ltb i 6 then Ce (ld_T next) i j else 0;   (* 848-865 *)
     sb_work := ri_work Se |}.                                                          (* 867-898 *)

(** GeneralFlowRule, include/general_flow.h: arguments stress, history, strain rate,
    temperature, temperature rate.  [gf_throws]: evaluating s raises a NEMLError. *)
Record gflow := {
  gf_n : nat;
  gf_throws : vec -> vec -> R -> bool;
  gf_s : vec -> vec -> vec -> R -> R -> vec;
  gf_ss : vec -> vec -> vec -> R -> R -> mat; gf_sa : vec -> vec -> vec -> R -> R -> mat; gf_se : vec -> vec -> vec -> R -> R -> mat;
  gf_a : vec -> vec -> vec -> R -> R -> vec;
  gf_as : vec -> vec -> vec -> R -> R -> mat; gf_aa : vec -> vec -> vec -> R -> R -> mat; gf_ae : vec -> vec -> vec -> R -> R -> mat;
  gf_work : vec -> vec -> vec -> R -> R -> R;
  gf_guess : vec -> vec                                (* override_guess *)
}.
(** GeneralIntegrator trial state: src/models.cxx:1559-1600 *)
Definition gi_dt (next past : load) : R := ld_t next - ld_t past.
(** src/models.cxx:1559-1600 (make_trial_state) *)
Definition gi_Tdot (next past : load) : R :=
  if Rlt_dec 0 (gi_dt next past) then (ld_T next - ld_T past) / gi_dt next past else 0.
(** src/models.cxx:1559-1600 (make_trial_state) *)
Definition gi_edot (next past : load) : vec :=
  if Rlt_dec 0 (gi_dt next past) then fun i => (ld_e next i - ld_e past i) / gi_dt next past else vzero.
(** src/models.cxx:1559-1600 (make_trial_state) *)
Definition gi_s_guess (Ce : R -> mat) (skip_first : bool) (next past : load) (st : pst) : vec :=
  if andb (if Req_EM_T (ld_t past) 0 then true else false) skip_first then ps_s st
  else vadd (mv 6 (Ce (ld_T next)) (de next past)) (ps_s st).
(** RJ: src/models.cxx:1488-1556 *)
Definition gi_R (G : gflow) (next past : load) (st : pst) (x : vec) : vec :=
  let a := hist_of x in let T := ld_T next in let ed := gi_edot next past in
  let Td := gi_Tdot next past in let dt := gi_dt next past in
  fun i => if Nat.ltb i 6 then x i - ps_s st i - gf_s G x a ed T Td i * dt
           else x i - ps_h st (i - 6)%nat - gf_a G x a ed T Td (i - 6)%nat * dt.
(** src/models.cxx:1488-1556 (RJ) *)
Definition gi_J (G : gflow) (next past : load) (x : vec) : mat :=
  let a := hist_of x in let T := ld_T next in let ed := gi_edot next past in
  let Td := gi_Tdot next past in let dt := gi_dt next past in
  fun i j =>
    if Nat.ltb i 6 then
      if Nat.ltb j 6 then - (gf_ss G x a ed T Td i j * dt - delta i j)
      else - gf_sa G x a ed T Td i (j - 6)%nat * dt
    else
      if Nat.ltb j 6 then - gf_as G x a ed T Td (i - 6)%nat j * dt
      else - (gf_aa G x a ed T Td (i - 6)%nat (j - 6)%nat * dt - delta i j).
Definition GenIntegrator (Ce : R -> mat) (G : gflow) (skip_first : bool) : submodel :=
  {| sb_np := 6 + gf_n G;                                                               (* 1474-1477 *)
     sb_C := Ce;
     sb_elastic := fun next past st => if Rlt_dec (gi_dt next past) eps then true else false;  (* 1365-1383 *)
     sb_init := fun next past st =>                                                     (* 1479-1486 *)
       gf_guess G (fun i => if Nat.ltb i 6 then gi_s_guess Ce skip_first next past st i else ps_h st (i - 6)%nat);
     sb_RJ := fun next past st x =>
       if gf_throws G x (hist_of x) (ld_T next) then None
       else Some (gi_R G next past st x, gi_J G next past x);
     sb_h := fun x st => hist_of x;                                                     (* 1385-1396 *)
     sb_E := fun next past st x i j =>                                                  (* 1398-1432 *)
       if Nat.ltb i 6 then gf_se G x (hist_of x) (gi_edot next past) (ld_T next) (gi_Tdot next past) i j
       else gf_ae G x (hist_of x) (gi_edot next past) (ld_T next) (gi_Tdot next past) (i - 6)%nat j;
     sb_work := fun next past st s1 h1 =>                                               (* 1434-1461 *)
       (ps_u st + dot 6 (fun i => (s1 i + ps_s st i) / 2) (de next past),
        ps_p st + (gf_work G s1 h1 (gi_edot next past) (ld_T next) (gi_Tdot next past) +
                   gf_work G (ps_s st) (ps_h st) (gi_edot next past) (ld_T past) (gi_Tdot next past)) / 2
                  * gi_dt next past) |}.

(** SmallStrainElasticity::update_sd_actual, src/models.cxx:494-516: new stress, tangent, u, p *)
Definition sse_update (Ce : R -> mat) (next past : load) (st : pst) : pst * mat :=
  let A := Ce (ld_T next) in
  let s1 := mv 6 A (ld_e next) in
  ({| ps_s := s1; ps_h := ps_h st; ps_u := ps_u st + trap s1 (ps_s st) (de next past); ps_p := ps_p st |}, A).

(** KMRegimeModel::activation_energy_, src/models.cxx:1690-1704; [mu] is elastic_->G(T) *)
Definition km_energy (kboltz b eps0 : R) (mu : R -> R) (next past : load) : R :=
  let rate := sqrt (2 / 3) * norm2 6 (fun i => de next past i / (ld_t next - ld_t past)) in
  kboltz * ld_T next / (mu (ld_T next) * (b * b * b)) * ln (eps0 / rate).
(** src/models.cxx:1661-1674: the loop over gs_; [i] is the loop index, None an access past the
    end of models_ *)
Fixpoint km_select {M} (g : R) (gs : list R) (models : list M) (i : nat) : option M :=
  match gs with
  | [] => match models with [] => None | m :: _ => nth_error models (length models - 1) end  (* models_.back() *)
  | gi :: rest => if Rlt_dec g gi then nth_error models i else km_select g rest models (S i)
  end.
(** KMRegimeModel::update_sd_actual, src/models.cxx:1650-1675 *)
Definition km_update {Res} (kboltz b eps0 : R) (mu : R -> R) (gs : list R)
    (models : list (load -> load -> pst -> option Res)) (next past : load) (st : pst) : option Res :=
  match km_select (km_energy kboltz b eps0 mu next past) gs models 0 with
  | Some m => m next past st
  | None => None
  end.
