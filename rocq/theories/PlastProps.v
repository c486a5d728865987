(** Properties C25, C26, C27, C42, C47: the small strain plasticity models. *)
From Verif Require Import Base.
From Verif Require Import Diff.
From Verif Require Import NemlMathModel NemlMathSpec SolverModel SubstepModel SubstepSpec SubstepProofs.
From Verif Require Import SurfModel SurfSpec SurfProofs HardModel RiModel RiSpec PlastModel PlastSpec PlastProofs PlastEx.

(** * C25: the Newton Jacobians are the derivatives of the residuals, at every iterate where the
    ingredients have derivatives *)
Theorem C25_perfect_plasticity : forall Ce Se Y ys P next past st, surface_exact P Y ->
  is_jac 7 7 (fun x => P (ld_T next) x (fun _ => - ys (ld_T next))) (pp_R Ce Se Y ys next past st) (pp_J Ce Y ys next).
Proof. exact pp_jac. Qed.
Print Assumptions C25_perfect_plasticity.
Theorem C25_rate_independent : forall Ce Se F P next past st, flow_exact P F ->
  is_jac (6 + rf_n F + 1) (6 + rf_n F + 1) (fun x => P (ld_T next) x (hist_of x)) (rip_R Ce Se F next past st) (rip_J Ce F next).
Proof. exact rip_jac. Qed.
Print Assumptions C25_rate_independent.
Theorem C25_general_integrator : forall G P next past st, gflow_exact P G -> 0 < gi_dt next past ->
  is_jac (6 + gf_n G) (6 + gf_n G) (fun x => P (ld_T next) x (hist_of x) (gi_edot next past)) (gi_R G next past st) (gi_J G next past).
Proof. exact gi_jac. Qed.
Print Assumptions C25_general_integrator.
(** the solver is handed exactly these residuals and Jacobians *)
Theorem C25_used_by_solver : forall Ce Se Y ys F G skip next past st x,
  sb_RJ (PerfectPlasticity Ce Se Y ys) next past st x = Some (pp_R Ce Se Y ys next past st x, pp_J Ce Y ys next x) /\
  sb_RJ (RateIndependent Ce Se F) next past st x = Some (rip_R Ce Se F next past st x, rip_J Ce F next x) /\
  (gf_throws G x (hist_of x) (ld_T next) = false ->
   sb_RJ (GenIntegrator Ce G skip) next past st x = Some (gi_R G next past st x, gi_J G next past x)).
Proof. intros. split; [reflexivity|]. split; [reflexivity|]. cbn [sb_RJ GenIntegrator]. intros ->. reflexivity. Qed.
Print Assumptions C25_used_by_solver.
(** an instance: J2 perfect plasticity, for any elastic constants, at a state of unit shear *)
Example C25_case : forall Ce Se ys next past st,
  is_jac 7 7 (fun x => iso_domain (ld_T next) x (fun _ => - ys (ld_T next))) (pp_R Ce Se IsoJ2 ys next past st) (pp_J Ce IsoJ2 ys next) /\
  iso_domain 0 (sh 1 0) vzero.
Proof.
  intros. split; [apply pp_jac, isoj2_exact|]. unfold iso_domain.
  pose proof (norm_sh 1 0 vzero) as N. rewrite Rabs_pos_eq in N by lra.
  replace (norm2 6 (dev_vec (sh 1 0))) with 1; [pose proof eps_lt_1; lra|]. symmetry. rewrite <- N at 2. unfold norm2. f_equal.
  apply dot_ext; intros i Hi; unfold rel, vadd, tail1, expand_hist; do 6 (destruct i as [|i]; [cbn; ring|]); lia.
Qed.

(** * C26: what a completed step satisfies; r is the residual the Newton solver left, below one of
    its two tolerances *)
Theorem C26_plastic_step : forall lsolve inv prm Ce Se F next past st st' A E, (1 <= miter prm)%Z ->
  update_step lsolve inv prm (RateIndependent Ce Se F) next past st = Some (st', A, E) ->
  sb_elastic (RateIndependent Ce Se F) next past st = false ->
  let M := RateIndependent Ce Se F in let T := ld_T next in
  exists dg r, within_tolerance prm (sb_np M) r (rip_R Ce Se F next past st (sb_init M next past st)) /\
    (forall i, (i < 6)%nat -> ps_s st' i =
       mv 6 (Ce T) (fun k => ld_e next k - plastic_strain Se past (ps_s st) k - dg * rf_g F (ps_s st') (ps_h st') T k) i + r i) /\
    (forall i, (i < rf_n F)%nat -> ps_h st' i = ps_h st i + dg * rf_h F (ps_s st') (ps_h st') T i + r (6 + i)%nat) /\
    rf_f F (ps_s st') (ps_h st') T = r (6 + rf_n F)%nat.
Proof. exact rip_step_eqs. Qed.
Print Assumptions C26_plastic_step.

(** so the plastic strain carried by the state grows along the flow direction, up to the residual *)
Theorem C26_plastic_strain : forall lsolve inv prm Ce Se F next past st st' A E, (1 <= miter prm)%Z ->
  update_step lsolve inv prm (RateIndependent Ce Se F) next past st = Some (st', A, E) ->
  sb_elastic (RateIndependent Ce Se F) next past st = false -> left_inverse 6 (Se (ld_T next)) (Ce (ld_T next)) ->
  let M := RateIndependent Ce Se F in let T := ld_T next in
  exists dg r, within_tolerance prm (sb_np M) r (rip_R Ce Se F next past st (sb_init M next past st)) /\
    (forall i, (i < 6)%nat -> plastic_strain Se next (ps_s st') i =
       plastic_strain Se past (ps_s st) i + dg * rf_g F (ps_s st') (ps_h st') T i - mv 6 (Se T) r i).
Proof.
  intros lsolve inv prm Ce Se F next past st st' A E Hm HS NE HL M T.
  destruct (rip_step_eqs lsolve inv prm Ce Se F next past st st' A E Hm HS NE) as (dg & r & H1 & H2 & _).
  exists dg, r. split; [exact H1|]. exact (plastic_strain_step Ce Se next past _ _ dg _ r HL H2).
Qed.
Print Assumptions C26_plastic_strain.

Theorem C26_perfect_plasticity : forall lsolve inv prm Ce Se Y ys next past st st' A E, (1 <= miter prm)%Z ->
  update_step lsolve inv prm (PerfectPlasticity Ce Se Y ys) next past st = Some (st', A, E) ->
  sb_elastic (PerfectPlasticity Ce Se Y ys) next past st = false -> left_inverse 6 (Se (ld_T next)) (Ce (ld_T next)) ->
  let M := PerfectPlasticity Ce Se Y ys in let T := ld_T next in
  exists dg r, within_tolerance prm 7 r (pp_R Ce Se Y ys next past st (sb_init M next past st)) /\
    (forall i, (i < 6)%nat -> ps_s st' i =
       mv 6 (Ce T) (fun k => ld_e next k - plastic_strain Se past (ps_s st) k - dg * ys_ds Y (ps_s st') (fun _ => - ys T) T k) i + r i) /\
    (forall i, (i < 6)%nat -> plastic_strain Se next (ps_s st') i =
       plastic_strain Se past (ps_s st) i + dg * ys_ds Y (ps_s st') (fun _ => - ys T) T i - mv 6 (Se T) r i) /\
    ys_f Y (ps_s st') (fun _ => - ys T) T = r 6%nat /\ ps_h st' = ps_h st.
Proof.
  intros lsolve inv prm Ce Se Y ys next past st st' A E Hm HS NE HL M T.
  destruct (pp_step_eqs lsolve inv prm Ce Se Y ys next past st st' A E Hm HS NE) as (dg & r & H1 & H2 & H3 & H4).
  exists dg, r. split; [exact H1|]. split; [exact H2|]. split; [|split; assumption].
  exact (plastic_strain_step Ce Se next past _ _ dg _ r HL H2).
Qed.
Print Assumptions C26_perfect_plasticity.

(** the general integrator is backward Euler in stress and history *)
Theorem C26_general_integrator : forall lsolve inv prm Ce G skip next past st st' A E, (1 <= miter prm)%Z ->
  update_step lsolve inv prm (GenIntegrator Ce G skip) next past st = Some (st', A, E) ->
  eps <= ld_t next - ld_t past ->
  let M := GenIntegrator Ce G skip in let T := ld_T next in
  let dt := ld_t next - ld_t past in
  let edot := fun i => (ld_e next i - ld_e past i) / dt in let Tdot := (ld_T next - ld_T past) / dt in
  gf_throws G (ps_s st') (ps_h st') T = false /\
  exists r, within_tolerance prm (sb_np M) r (gi_R G next past st (sb_init M next past st)) /\
    (forall i, (i < 6)%nat -> ps_s st' i = ps_s st i + dt * gf_s G (ps_s st') (ps_h st') edot T Tdot i + r i) /\
    (forall i, (i < gf_n G)%nat -> ps_h st' i = ps_h st i + dt * gf_a G (ps_s st') (ps_h st') edot T Tdot i + r (6 + i)%nat).
Proof. exact gi_step_eqs. Qed.
Print Assumptions C26_general_integrator.

(** elastic steps: the stress moves by C:de, nothing else changes *)
Theorem C26_elastic_step : forall lsolve inv prm M next past st st' A E,
  update_step lsolve inv prm M next past st = Some (st', A, E) -> sb_elastic M next past st = true ->
  ps_h st' = ps_h st /\ forall i, (i < 6)%nat -> ps_s st' i = ps_s st i + mv 6 (sb_C M (ld_T next)) (fun k => ld_e next k - ld_e past k) i.
Proof.
  intros lsolve inv prm M next past st st' A E HS HE. destruct (step_elastic _ _ _ _ _ _ _ _ _ _ HS HE) as (-> & _). cbn [ps_h ps_s].
  split; [reflexivity|]. intros i Hi. unfold vadd, de, vsub. ring.
Qed.
Print Assumptions C26_elastic_step.
Theorem C26_elastic_admissible_perfect : forall lsolve inv prm Ce Se Y ys next past st st' A E,
  update_step lsolve inv prm (PerfectPlasticity Ce Se Y ys) next past st = Some (st', A, E) ->
  sb_elastic (PerfectPlasticity Ce Se Y ys) next past st = true ->
  ys_f Y (ps_s st') (fun _ => - ys (ld_T next)) (ld_T next) <= 0.
Proof.
  intros lsolve inv prm Ce Se Y ys next past st st' A E HS HE. destruct (step_elastic _ _ _ _ _ _ _ _ _ _ HS HE) as (-> & _). cbn [ps_s].
  cbn [sb_elastic PerfectPlasticity] in HE. destruct (Rle_dec _ 0) as [L|]; [|discriminate HE]. unfold pp_ys in L.
  replace (vadd (mv 6 (sb_C (PerfectPlasticity Ce Se Y ys) (ld_T next)) (de next past)) (ps_s st)) with (pp_trial Ce next past st); [exact L|].
  apply FunctionalExtensionality.functional_extensionality. intros i. unfold pp_trial, vadd. cbn [sb_C PerfectPlasticity]. ring.
Qed.
Print Assumptions C26_elastic_admissible_perfect.
(** for the hardening model this needs a constant temperature over the step; f may only look at the
    six stress components *)
Theorem C26_elastic_admissible : forall lsolve inv prm Ce Se F next past st st' A E,
  update_step lsolve inv prm (RateIndependent Ce Se F) next past st = Some (st', A, E) ->
  sb_elastic (RateIndependent Ce Se F) next past st = true ->
  (forall s s' a T, veq 6 s s' -> rf_f F s a T = rf_f F s' a T) ->
  ld_T next = ld_T past -> left_inverse 6 (Ce (ld_T next)) (Se (ld_T next)) ->
  rf_f F (ps_s st') (ps_h st') (ld_T next) <= 0.
Proof.
  intros lsolve inv prm Ce Se F next past st st' A E HS HE Hext HT HL. destruct (step_elastic _ _ _ _ _ _ _ _ _ _ HS HE) as (-> & _). cbn [ps_s ps_h].
  cbn [sb_elastic RateIndependent] in HE. destruct (Rle_dec _ 0) as [L|]; [|discriminate HE].
  rewrite (Hext _ (rip_trial Ce Se next past st)); [exact L|]. intros i Hi. cbn [sb_C RateIndependent]. symmetry. apply rip_trial_isothermal; assumption.
Qed.
Print Assumptions C26_elastic_admissible.

(** Refuted in general: with temperature dependent elasticity an elastic step can end outside the
    yield surface and change the plastic strain of a virgin state. *)
Theorem C26_elastic_thermal_refuted : forall lsolve inv prm,
  let past := ldT 1 0 0 in let next := ldT (3 / 2) 1 1 in
  rf_f Fth (ps_s (stt 1 0)) vzero 0 = 0 /\ (forall i, (i < 6)%nat -> plastic_strain Sth past (ps_s (stt 1 0)) i = 0) /\
  sb_elastic MT next past (stt 1 0) = true /\
  exists st' A E, update_step lsolve inv prm MT next past (stt 1 0) = Some (st', A, E) /\
    rf_f Fth (ps_s st') (ps_h st') 1 = 1 / 4 /\ plastic_strain Sth next (ps_s st') 3%nat = -1 /\ ps_p st' = - (9 / 8).
Proof. exact thermal_elastic. Qed.
Print Assumptions C26_elastic_thermal_refuted.
(** The equations solved do not force loading: they have a second root on the far side of the yield
    surface with a negative plastic multiplier. *)
Theorem C26_multiplier_sign_refuted :
  sb_elastic MP (ld 4 1) (ld 0 0) (stt 0 0) = false /\
  (exists J, sb_RJ MP (ld 4 1) (ld 0 0) (stt 0 0) (sh (-1) (-5)) = Some J /\ veq 7 (fst J) vzero) /\
  (exists J, sb_RJ MP (ld 4 1) (ld 0 0) (stt 0 0) (sh 1 3) = Some J /\ veq 7 (fst J) vzero).
Proof. exact negative_multiplier. Qed.
Print Assumptions C26_multiplier_sign_refuted.
(** the hypotheses of the plastic step theorems hold for a concrete update *)
Example C26_case : (forall n J K, invx n J = Some K -> left_inverse n K J) /\ left_inverse 6 (Cid 0) (Cid 0) /\
  exists st' E, update_step lsx invx prmx MP (ld 4 1) (ld 0 0) (stt 0 0) = Some (st', Kx 3, E) /\ ps_s st' = sh 1 3 /\
    sb_elastic MP (ld 4 1) (ld 0 0) (stt 0 0) = false.
Proof. split; [exact invx_ok|]. split; [intros i j Hi Hj; exact (mv_Cid 0 (fun k => delta k j) i Hi)|]. exact plastic_step. Qed.

(** * C27: the tangent *)
(** One full step of rate independent plasticity, taken without substepping: if the solution of the
    update equations moves differentiably with the strain, its stress rate is the reported tangent
    times the strain rate. *)
Theorem C27_rate_independent_one_step : forall P Ce Se F lsolve inv prm md past next st st' A E (e : R -> vec) e' t X V,
  flow_exact P F -> (1 <= miter prm)%Z -> (forall n J K, inv n J = Some K -> left_inverse n K J) ->
  let M := RateIndependent Ce Se F in
  update_step lsolve inv prm M (load_at past next 1) past st = Some (st', A, E) ->
  sb_elastic M (load_at past next 1) past st = false ->
  ld_e next = e t -> path 6 e t e' -> path (sb_np M) X t V -> X t = ps_s st' ->
  P (ld_T next) (X t) (hist_of (X t)) ->
  locally t (fun u => veq (sb_np M) (rip_R Ce Se F (set_e next (e u)) past st (X u)) vzero) ->
  exists AN, substep_update (sb_np M) (update_step lsolve inv prm M) md false past next st = Ok (st', AN, 1%nat) /\
    path 6 X t (mv 6 AN e').
Proof.
  intros P Ce Se F lsolve inv prm md past next st st' A E e e' t X V HF Hm Hinv M HS NE He1 He HX Hxt HP Hres.
  destruct (substep_single (sb_np M) (update_step lsolve inv prm M) md past next st st' A E HS) as (AN & HA & HAN).
  exists AN. split; [exact HA|].
  assert (EL : load_at past next 1 = next).
  { destruct next as [en Tn tn], past as [ep Tp tp]. unfold load_at. cbn [ld_e ld_T ld_t]. f_equal; [apply FunctionalExtensionality.functional_extensionality; intros i|..]; ring. }
  rewrite EL in HS, NE.
  eapply path_ext; [exact (rip_one_step P Ce Se F lsolve inv prm next past st st' A E e e' t X V HF Hm Hinv HS NE He1 He HX Hxt HP Hres)|].
  intros i Hi. apply mv_ext. intros j Hj. symmetry. apply HAN.
Qed.
Print Assumptions C27_rate_independent_one_step.
Theorem C27_perfect_plasticity_one_step : forall P Ce Se Y ys lsolve inv prm md past next st st' A E (e : R -> vec) e' t X V,
  surface_exact P Y -> (1 <= miter prm)%Z -> (forall n J K, inv n J = Some K -> left_inverse n K J) ->
  let M := PerfectPlasticity Ce Se Y ys in
  update_step lsolve inv prm M (load_at past next 1) past st = Some (st', A, E) ->
  sb_elastic M (load_at past next 1) past st = false ->
  ld_e next = e t -> path 6 e t e' -> path 7 X t V -> X t = ps_s st' ->
  P (ld_T next) (X t) (fun _ => - ys (ld_T next)) ->
  locally t (fun u => veq 7 (pp_R Ce Se Y ys (set_e next (e u)) past st (X u)) vzero) ->
  exists AN, substep_update 7 (update_step lsolve inv prm M) md false past next st = Ok (st', AN, 1%nat) /\
    path 6 X t (mv 6 AN e').
Proof.
  intros P Ce Se Y ys lsolve inv prm md past next st st' A E e e' t X V HF Hm Hinv M HS NE He1 He HX Hxt HP Hres.
  destruct (substep_single 7 (update_step lsolve inv prm M) md past next st st' A E HS) as (AN & HA & HAN).
  exists AN. split; [exact HA|].
  assert (EL : load_at past next 1 = next).
  { destruct next as [en Tn tn], past as [ep Tp tp]. unfold load_at. cbn [ld_e ld_T ld_t]. f_equal; [apply FunctionalExtensionality.functional_extensionality; intros i|..]; ring. }
  rewrite EL in HS, NE.
  eapply path_ext; [exact (pp_one_step P Ce Se Y ys lsolve inv prm next past st st' A E e e' t X V HF Hm Hinv HS NE He1 He HX Hxt HP Hres)|].
  intros i Hi. apply mv_ext. intros j Hj. symmetry. apply HAN.
Qed.
Print Assumptions C27_perfect_plasticity_one_step.
(** Full elastic steps of any of the models. *)
Theorem C27_elastic_step : forall lsolve inv prm M next past st st' A E (e : R -> vec) e' t, (6 <= sb_np M)%nat ->
  update_step lsolve inv prm M next past st = Some (st', A, E) -> sb_elastic M next past st = true ->
  ld_e next = e t -> path 6 e t e' ->
  forall (s : R -> vec), locally t (fun u => exists st1 A1 E1, update_step lsolve inv prm M (set_e next (e u)) past st = Some (st1, A1, E1) /\
      sb_elastic M (set_e next (e u)) past st = true /\ s u = ps_s st1) ->
  path 6 s t (mv 6 (mm (sb_np M) A E) e').
Proof. exact elastic_tangent. Qed.
Print Assumptions C27_elastic_step.
(** The general integrator, however many substeps the update took (the stress moves with X_N, the
    last curve of [gi_branch]). *)
Theorem C27_general_integrator : forall P Ce G skip lsolve inv prm md force l0 l1 st stN AN c (e : R -> vec) e' t,
  gflow_exact P G -> (1 <= miter prm)%Z -> (forall n J K, inv n J = Some K -> left_inverse n K J) ->
  eps <= (/ 2) ^ md * (ld_t l1 - ld_t l0) -> ld_e l1 = e t -> path 6 e t e' ->
  let step := update_step lsolve inv prm (GenIntegrator Ce G skip) in
  substep_update (6 + gf_n G) step md force l0 l1 st = Ok (stN, AN, c) ->
  exists fs, chain (6 + gf_n G) step md l0 l1 0 l0 st (fun _ _ => 0) fs stN AN /\
    forall x0 XN, gi_branch P G step l0 l1 e t 0 st (fun _ => x0) fs XN -> path 6 XN t (mv 6 AN e').
Proof.
  intros P Ce G skip lsolve inv prm md force l0 l1 st stN AN c e e' t HG Hm Hinv Hdt He1 He step HU.
  destruct (substep_covers _ _ _ _ _ _ _ _ _ _ HU) as (fs & HC). exists fs. split; [exact HC|].
  intros x0 XN HB. refine (gi_chain_tangent P Ce G skip lsolve inv prm md l0 l1 e e' t HG Hm Hinv Hdt He1 He _ _ _ _ _ _ _ HC _ _ HB _).
  eapply path_ext; [apply path_const|]. intros i Hi. unfold mv, vzero. rewrite (rsum_ext 6 _ (fun _ => 0)) by (intros; ring). symmetry. apply rsum_0.
Qed.
Print Assumptions C27_general_integrator.
(** linear elasticity *)
Theorem C27_elasticity : forall Ce next past st e e' t, path 6 e t e' ->
  path 6 (fun u => ps_s (fst (sse_update Ce (set_e next (e u)) past st))) t (mv 6 (snd (sse_update Ce (set_e next (e t)) past st)) e').
Proof. intros Ce next past st e e' t He. unfold sse_update. cbn [fst snd ps_s set_e ld_T ld_e]. apply path_mv6, He. Qed.
Print Assumptions C27_elasticity.
(** Refuted for rate independent models that substep: in the shear example split in two plastic
    halves the solution has stress rate zero (perfect plasticity), the tangent reports 1/2. *)
Theorem C27_two_plastic_substeps_refuted :
  let l0 := ld 0 0 in let l1 := ld 4 1 in
  let e := fun u => sh (4 + u) 0 in
  let X1 := fun u => sh 1 (1 + u / 2) in let X2 := fun u => sh 1 (2 + u / 2) in
  let E := sb_E MP l1 l0 (stt 0 0) (X1 0) in
  let A := tangent_update 7 (Kx 2) E (tangent_update 7 (Kx 1) E (fun _ _ => 0) (1 / 2)) (1 / 2) in
  path 6 e 0 (sh 1 0) /\
  sb_elastic MP (load_at l0 l1 (1 / 2)) l0 (stt 0 0) = false /\
  sb_elastic MP (load_at l0 l1 1) (load_at l0 l1 (1 / 2)) {| ps_s := X1 0; ps_h := vzero; ps_u := 0; ps_p := 0 |} = false /\
  (forall u, exists J, sb_RJ MP (load_at l0 (set_e l1 (e u)) (1 / 2)) l0 (stt 0 0) (X1 u) = Some J /\ veq 7 (fst J) vzero /\ (u = 0 -> left_inverse 7 (Kx 1) (snd J))) /\
  (forall u, exists J, sb_RJ MP (load_at l0 (set_e l1 (e u)) 1) (load_at l0 (set_e l1 (e u)) (1 / 2)) {| ps_s := X1 u; ps_h := vzero; ps_u := 0; ps_p := 0 |} (X2 u) = Some J /\
      veq 7 (fst J) vzero /\ (u = 0 -> left_inverse 7 (Kx 2) (snd J))) /\
  path 6 X2 0 vzero /\
  mv 6 A (sh 1 0) 3%nat = 1 / 2.
Proof. exact two_substeps. Qed.
Print Assumptions C27_two_plastic_substeps_refuted.
(** the one step theorem applies to the concrete update of C26_case: solution curve sh 1 (3+u) *)
Example C27_case : let e := fun u => sh (4 + u) 0 in let X := fun u => sh 1 (3 + u) in
  ld_e (ld 4 1) = e 0 /\ path 6 e 0 (sh 1 0) /\ path 7 X 0 (sh 0 1) /\
  (forall u, veq 7 (pp_R Cid Cid IsoJ2 y0 (set_e (ld 4 1) (e u)) (ld 0 0) (stt 0 0) (X u)) vzero).
Proof.
  assert (A1 : Rabs 1 = 1) by (apply Rabs_pos_eq; lra).
  intros e X. split; [|split; [|split]].
  - unfold e. cbn [ld_e ld]. f_equal. ring.
  - intros i Hi. unfold e. do 6 (destruct i as [|i]; [cbn; first [apply D_const | eapply D_eq; [apply D_plus; [apply D_const | apply D_id]|]; ring]|]). lia.
  - intros i Hi. unfold X. do 7 (destruct i as [|i]; [cbn; first [apply D_const | eapply D_eq; [apply D_plus; [apply D_const | apply D_id]|]; ring]|]). lia.
  - intros u i Hi. change (set_e (ld 4 1) (e u)) with (ld (4 + u) 1). unfold X. rewrite R_sh by (rewrite ?A1; lra || assumption). rewrite A1.
    do 7 (destruct i as [|i]; [cbn; unfold vzero; lra|]). lia.
Qed.

(** * C42: work and energy *)
(** every completed step adds the trapezoidal stress power to the strain energy *)
Theorem C42_strain_energy : forall lsolve inv prm M next past st st' A E Ce Se Y ys F G skip,
  M = PerfectPlasticity Ce Se Y ys \/ M = RateIndependent Ce Se F \/ M = GenIntegrator Ce G skip ->
  update_step lsolve inv prm M next past st = Some (st', A, E) ->
  ps_u st' = ps_u st + rsum 6 (fun i => (ps_s st' i + ps_s st i) / 2 * (ld_e next i - ld_e past i)).
Proof.
  intros lsolve inv prm M next past st st' A E Ce Se Y ys F G skip HM HS. pose proof (step_work _ _ _ _ _ _ _ _ _ _ HS) as W.
  assert (X : forall a b, dot 6 (vadd a b) (de next past) / 2 = rsum 6 (fun i => (a i + b i) / 2 * (ld_e next i - ld_e past i))).
  { intros a b. unfold dot, Rdiv. rewrite Rmult_comm, <- rsum_scal. apply rsum_ext. intros. unfold vadd, de, vsub. field. }
  destruct HM as [->|[->| ->]]; cbn [sb_work PerfectPlasticity RateIndependent GenIntegrator] in W; unfold ri_work, trap in W; injection W as W _; rewrite W.
  - rewrite X. reflexivity.
  - rewrite X. reflexivity.
  - f_equal.
Qed.
Print Assumptions C42_strain_energy.
(** the rate independent models dissipate the trapezoidal power of the plastic strain *)
Theorem C42_dissipation : forall lsolve inv prm M next past st st' A E Ce Se Y ys F,
  M = PerfectPlasticity Ce Se Y ys \/ M = RateIndependent Ce Se F ->
  update_step lsolve inv prm M next past st = Some (st', A, E) ->
  ps_p st' = ps_p st + rsum 6 (fun i => (ps_s st' i + ps_s st i) / 2 * (plastic_strain Se next (ps_s st') i - plastic_strain Se past (ps_s st) i)).
Proof.
  intros lsolve inv prm M next past st st' A E Ce Se Y ys F HM HS. pose proof (step_work _ _ _ _ _ _ _ _ _ _ HS) as W.
  destruct HM as [->| ->]; cbn [sb_work PerfectPlasticity RateIndependent] in W; unfold ri_work, trap in W; injection W as _ W; rewrite W; f_equal;
    unfold dot, Rdiv; rewrite Rmult_comm, <- rsum_scal; apply rsum_ext; intros; unfold vadd, inel, plastic_strain, vsub; field.
Qed.
Print Assumptions C42_dissipation.
(** the general integrator dissipates the mean of the work rates of its two ends times the step *)
Theorem C42_dissipation_integrator : forall lsolve inv prm next past st st' A E Ce G skip,
  update_step lsolve inv prm (GenIntegrator Ce G skip) next past st = Some (st', A, E) -> 0 < ld_t next - ld_t past ->
  let dt := ld_t next - ld_t past in
  let edot := fun i => (ld_e next i - ld_e past i) / dt in let Tdot := (ld_T next - ld_T past) / dt in
  ps_p st' = ps_p st + dt * (gf_work G (ps_s st') (ps_h st') edot (ld_T next) Tdot + gf_work G (ps_s st) (ps_h st) edot (ld_T past) Tdot) / 2.
Proof.
  intros lsolve inv prm next past st st' A E Ce G skip HS Hdt dt edot Tdot. pose proof (step_work _ _ _ _ _ _ _ _ _ _ HS) as W.
  cbn [sb_work GenIntegrator] in W. injection W as _ W. rewrite W. unfold gi_edot, gi_Tdot, gi_dt. destruct (Rlt_dec 0 (ld_t next - ld_t past)); [|lra].
  unfold edot, Tdot, dt. field.
Qed.
Print Assumptions C42_dissipation_integrator.
(** Energy balance over a whole update, any number of substeps, elastic or plastic, of the rate
    independent models at constant temperature: what was put in is either dissipated or stored as
    elastic energy s:S:s/2. *)
Theorem C42_energy_balance : forall lsolve inv prm M md force l0 l1 st stN AN c Ce Se Y ys F,
  M = PerfectPlasticity Ce Se Y ys \/ M = RateIndependent Ce Se F ->
  ld_T l1 = ld_T l0 -> (forall i j, (i < 6)%nat -> (j < 6)%nat -> Se (ld_T l0) i j = Se (ld_T l0) j i) ->
  substep_update (sb_np M) (update_step lsolve inv prm M) md force l0 l1 st = Ok (stN, AN, c) ->
  (ps_u stN - ps_u st) - (ps_p stN - ps_p st) = psi (Se (ld_T l0)) (ps_s stN) - psi (Se (ld_T l0)) (ps_s st).
Proof.
  intros lsolve inv prm M md force l0 l1 st stN AN c Ce Se Y ys F HM HT HS HU.
  destruct (substep_covers _ _ _ _ _ _ _ _ _ _ HU) as (fs & HC).
  refine (chain_balance Se lsolve inv prm M _ md l0 l1 _ HT HS _ _ _ _ _ _ _ HC). destruct HM as [->| ->]; reflexivity.
Qed.
Print Assumptions C42_energy_balance.
(** the strain energy does not change over an update without strain increment *)
Theorem C42_no_strain_no_work : forall lsolve inv prm M md force l0 l1 st stN AN c Ce Se Y ys F G skip,
  M = PerfectPlasticity Ce Se Y ys \/ M = RateIndependent Ce Se F \/ M = GenIntegrator Ce G skip ->
  (forall i, ld_e l1 i = ld_e l0 i) ->
  substep_update (sb_np M) (update_step lsolve inv prm M) md force l0 l1 st = Ok (stN, AN, c) -> ps_u stN = ps_u st.
Proof.
  intros lsolve inv prm M md force l0 l1 st stN AN c Ce Se Y ys F G skip HM He HU.
  destruct (substep_covers _ _ _ _ _ _ _ _ _ _ HU) as (fs & HC). clear HU.
  induction HC as [past st A Hp | f f' past next st st' A A_inc E_inc fs stN AN k Hp Hn Hf Hk Hle Hstep HC IH]; [reflexivity|].
  rewrite IH. rewrite (C42_strain_energy _ _ _ _ _ _ _ _ _ _ _ _ _ _ _ _ _ HM Hstep).
  rewrite (rsum_ext 6 _ (fun _ => 0)). { rewrite rsum_0. ring. }
  intros i Hi. destruct Hp as (Hp & _). destruct Hn as (Hn & _). rewrite Hp, Hn, He. ring.
Qed.
Print Assumptions C42_no_strain_no_work.
(** linear elasticity: s = C e, no dissipation, and the strain energy follows psi *)
Theorem C42_elasticity : forall Ce next past st, ps_s st = mv 6 (Ce (ld_T past)) (ld_e past) -> ld_T next = ld_T past ->
  (forall i j, (i < 6)%nat -> (j < 6)%nat -> Ce (ld_T next) i j = Ce (ld_T next) j i) ->
  let st' := fst (sse_update Ce next past st) in
  ps_p st' = ps_p st /\ ps_u st' - ps_u st = dot 6 (ld_e next) (ps_s st') / 2 - dot 6 (ld_e past) (ps_s st) / 2.
Proof.
  intros Ce next past st Hs HT HS st'. split; [reflexivity|]. unfold st', sse_update. cbn [fst ps_u ps_s]. rewrite Hs, <- HT.
  pose proof (trap_psi (Ce (ld_T next)) (ld_e past) (ld_e next) HS) as B. unfold psi in B. rewrite <- B. unfold trap.
  assert (E : dot 6 (vadd (mv 6 (Ce (ld_T next)) (ld_e next)) (mv 6 (Ce (ld_T next)) (ld_e past))) (de next past) =
          dot 6 (vadd (ld_e next) (ld_e past)) (mv 6 (Ce (ld_T next)) (vsub (ld_e next) (ld_e past)))).
  { rewrite (dot_symm (Ce (ld_T next)) _ (vsub (ld_e next) (ld_e past)) HS). unfold de, dot. apply rsum_ext. intros i Hi. unfold vadd at 1.
    change (mv 6 (Ce (ld_T next)) (vadd (ld_e next) (ld_e past)) i) with (mv 6 (Ce (ld_T next)) (vadd (ld_e next) (ld_e past)) i). rewrite mv_vadd. unfold vadd. ring. }
  rewrite E. lra.
Qed.
Print Assumptions C42_elasticity.
(** any history of loads through the elastic model: past load and state after each update *)
Definition elastic_run (Ce : R -> mat) (l0 : load) (st : pst) (ls : list load) : load * pst :=
  fold_left (fun x l => (l, fst (sse_update Ce l (fst x) (snd x)))) ls (l0, st).
(** the stress and tangent depend on the last strain and temperature only, not on the way there *)
Theorem C42_elastic_path_independent : forall Ce l0 st ls l,
  let st' := snd (elastic_run Ce l0 st (ls ++ [l])) in
  (forall i, ps_s st' i = mv 6 (Ce (ld_T l)) (ld_e l) i) /\ ps_h st' = ps_h st /\ ps_p st' = ps_p st /\
  forall past s0, snd (sse_update Ce l past s0) = Ce (ld_T l).
Proof.
  intros Ce l0 st ls l st'. unfold st', elastic_run. rewrite fold_left_app. cbn [fold_left snd fst].
  assert (G : forall ls x, ps_h (snd (fold_left (fun x l => (l, fst (sse_update Ce l (fst x) (snd x)))) ls x)) = ps_h (snd x) /\
    ps_p (snd (fold_left (fun x l => (l, fst (sse_update Ce l (fst x) (snd x)))) ls x)) = ps_p (snd x)).
  { clear. induction ls as [|l ls IH]; intros x; [split; reflexivity|]. cbn [fold_left]. destruct (IH (l, fst (sse_update Ce l (fst x) (snd x)))) as [A B]. rewrite A, B. split; reflexivity. }
  destruct (G ls (l0, st)) as [A B]. split; [intros; reflexivity|]. split; [exact A|]. split; [exact B|]. intros. reflexivity.
Qed.
Print Assumptions C42_elastic_path_independent.
(** at one temperature the energy supplied over any history is the change of the stored elastic energy *)
Theorem C42_elastic_history : forall Ce ls l0 st, ps_s st = mv 6 (Ce (ld_T l0)) (ld_e l0) ->
  (forall l, In l ls -> ld_T l = ld_T l0) -> (forall i j, (i < 6)%nat -> (j < 6)%nat -> Ce (ld_T l0) i j = Ce (ld_T l0) j i) ->
  let r := elastic_run Ce l0 st ls in
  ps_u (snd r) - ps_u st = dot 6 (ld_e (fst r)) (ps_s (snd r)) / 2 - dot 6 (ld_e l0) (ps_s st) / 2.
Proof.
  intros Ce ls. unfold elastic_run. induction ls as [|l ls IH]; intros l0 st Hs HT HS; cbn [fold_left fst snd]; [ring|].
  pose proof (HT l (or_introl eq_refl)) as E.
  specialize (IH l (fst (sse_update Ce l l0 st))). cbv zeta in IH.
  assert (IH' := IH ltac:(reflexivity) ltac:(intros l' H; rewrite E; apply HT; right; exact H) ltac:(rewrite E; exact HS)). clear IH.
  destruct (C42_elasticity Ce l l0 st Hs E ltac:(rewrite E; exact HS)) as [_ U]. lra.
Qed.
Print Assumptions C42_elastic_history.
(** Refuted when the temperature changes: an elastic step reports (negative) dissipation, see
    C26_elastic_thermal_refuted. *)
Theorem C42_thermal_dissipation_refuted : forall lsolve inv prm,
  sb_elastic MT (ldT (3 / 2) 1 1) (ldT 1 0 0) (stt 1 0) = true /\
  exists st' A E, update_step lsolve inv prm MT (ldT (3 / 2) 1 1) (ldT 1 0 0) (stt 1 0) = Some (st', A, E) /\ ps_p (stt 1 0) = 0 /\ ps_p st' < 0.
Proof.
  intros. destruct (thermal_elastic lsolve inv prm) as (_ & _ & H & st' & A & E & HS & _ & _ & Hp). split; [exact H|].
  exists st', A, E. split; [exact HS|]. split; [reflexivity|]. rewrite Hp. lra.
Qed.
Print Assumptions C42_thermal_dissipation_refuted.
(** the energy balance is not vacuous: the plastic step of C26_case, taken by the substepping driver *)
Example C42_case : exists stN AN c, substep_update (sb_np MP) (update_step lsx invx prmx MP) 4 false (ld 0 0) (ld 4 1) (stt 0 0) = Ok (stN, AN, c) /\ ps_u stN = 2.
Proof.
  destruct plastic_step as (st' & E & HS & Hs & NE).
  assert (EL : load_at (ld 0 0) (ld 4 1) 1 = ld 4 1).
  { unfold load_at, ld. cbn [ld_e ld_T ld_t]. f_equal; [apply FunctionalExtensionality.functional_extensionality; intros i; do 7 (destruct i as [|i]; [cbn; ring|]); cbn; ring|..]; ring. }
  destruct (substep_single (sb_np MP) (update_step lsx invx prmx MP) 4 (ld 0 0) (ld 4 1) (stt 0 0) st' (Kx 3) E) as (AN & HA & _). { rewrite EL. exact HS. }
  exists st', AN, 1%nat. split; [exact HA|].
  rewrite (C42_strain_energy _ _ _ MP _ _ _ _ _ _ Cid Cid IsoJ2 y0 Fth {| gf_n := 0; gf_throws := fun _ _ _ => false; gf_s := fun _ _ _ _ _ => vzero; gf_ss := fun _ _ _ _ _ => fun _ _ => 0; gf_sa := fun _ _ _ _ _ => fun _ _ => 0; gf_se := fun _ _ _ _ _ => fun _ _ => 0; gf_a := fun _ _ _ _ _ => vzero; gf_as := fun _ _ _ _ _ => fun _ _ => 0; gf_aa := fun _ _ _ _ _ => fun _ _ => 0; gf_ae := fun _ _ _ _ _ => fun _ _ => 0; gf_work := fun _ _ _ _ _ => 0; gf_guess := fun x => x |} false (or_introl eq_refl) HS).
  rewrite Hs. cbn [rsum ld ld_e stt ps_s ps_u sh]. lra.
Qed.

(** * C47: Kocks-Mecking regimes *)
Theorem C47_regime_selected : forall Res kboltz b eps0 mu gs (models : list (load -> load -> pst -> option Res)) next past st,
  (length gs < length models)%nat ->
  let g := km_energy kboltz b eps0 mu next past in
  exists i m, nth_error models i = Some m /\ km_update kboltz b eps0 mu gs models next past st = m next past st /\
    (((i < length gs)%nat /\ g < nth i gs 0 /\ (forall j, (j < i)%nat -> nth j gs 0 <= g)) \/
     (i = (length models - 1)%nat /\ forall j, (j < length gs)%nat -> nth j gs 0 <= g)).
Proof.
  intros Res kboltz b eps0 mu gs models next past st Hl g.
  destruct (km_select_from g gs models 0 ltac:(lia)) as (i & m & E & Es & H).
  exists i, m. split; [exact E|]. split. { unfold km_update. fold g. rewrite Es. reflexivity. }
  rewrite Nat.sub_0_r in H. destruct H as [(_ & H)|H]; [left|right]; exact H.
Qed.
Print Assumptions C47_regime_selected.
(** the activation energy: kT/(mu b^3) log(eps0/rate), rate the equivalent strain rate of the step *)
Theorem C47_activation_energy : forall kboltz b eps0 mu next past, ld_t past < ld_t next ->
  let rate := sqrt (2 / 3 * dot 6 (de next past) (de next past)) / (ld_t next - ld_t past) in
  km_energy kboltz b eps0 mu next past = kboltz * ld_T next / (mu (ld_T next) * b ^ 3) * ln (eps0 / rate).
Proof.
  intros kboltz b eps0 mu next past Ht rate. unfold km_energy. set (dt := ld_t next - ld_t past) in *.
  assert (Hdt : 0 < dt) by (unfold dt; lra).
  assert (E : sqrt (2 / 3) * norm2 6 (fun i => de next past i / dt) = rate).
  { unfold rate, norm2.
    replace (dot 6 (fun i => de next past i / dt) (fun i => de next past i / dt)) with (dot 6 (de next past) (de next past) * Rsqr (/ dt)).
    - assert (D0 : 0 <= dot 6 (de next past) (de next past)). { apply rsum_nonneg. intros; apply Rle_0_sqr. }
      rewrite (sqrt_mult (dot 6 (de next past) (de next past))), sqrt_mult by (try apply Rle_0_sqr; lra || assumption).
      rewrite sqrt_Rsqr by (left; apply Rinv_0_lt_compat, Hdt). unfold Rdiv. ring.
    - unfold dot. rewrite Rmult_comm, <- rsum_scal. apply rsum_ext. intros. unfold Rsqr. field. lra. }
  rewrite E. replace (b ^ 3) with (b * b * b) by ring. reflexivity.
Qed.
Print Assumptions C47_activation_energy.
(** faster straining lowers the activation energy *)
Theorem C47_faster_is_lower : forall kboltz b eps0 mu n1 p1 n2 p2, ld_T n1 = ld_T n2 ->
  0 < kboltz -> 0 < b -> 0 < eps0 -> 0 < ld_T n1 -> 0 < mu (ld_T n1) ->
  let rate n p := norm2 6 (fun i => de n p i / (ld_t n - ld_t p)) in
  0 < rate n1 p1 < rate n2 p2 -> km_energy kboltz b eps0 mu n2 p2 < km_energy kboltz b eps0 mu n1 p1.
Proof.
  intros kboltz b eps0 mu n1 p1 n2 p2 HT Hk Hb He HTp Hmu rate [H1 H2]. unfold km_energy. fold (rate n1 p1). fold (rate n2 p2). rewrite <- HT. pose proof s23 as Hs.
  apply Rmult_lt_compat_l.
  - apply Rdiv_lt_0_compat; [nra|]. assert (0 < b * b) by nra. assert (0 < b * b * b) by nra. nra.
  - assert (Q1 : 0 < sqrt (2 / 3) * rate n1 p1) by nra. assert (Q2 : sqrt (2 / 3) * rate n1 p1 < sqrt (2 / 3) * rate n2 p2) by nra.
    apply ln_increasing; [apply Rdiv_lt_0_compat; lra|]. apply Rmult_lt_compat_l; [exact He|]. apply Rinv_lt_contravar; nra.
Qed.
Print Assumptions C47_faster_is_lower.
(** Refuted without enough models: nothing checks that there are more models than boundaries, and
    then the selection reads past the end of the list. *)
Theorem C47_missing_model_refuted : forall Res (m : load -> load -> pst -> option Res) g, 1 <= g < 2 -> km_select g [1; 2] [m] 0 = None.
Proof.
  intros Res m g Hg. cbn [km_select]. destruct (Rlt_dec g 1); [lra|]. destruct (Rlt_dec g 2); [reflexivity|lra].
Qed.
Print Assumptions C47_missing_model_refuted.
Example C47_case : km_select (3 / 2) [1; 2] [10; 20; 30]%nat 0 = Some 20%nat /\ km_select 5 [1; 2] [10; 20; 30]%nat 0 = Some 30%nat.
Proof. cbn [km_select]. destruct (Rlt_dec (3 / 2) 1); [lra|]. destruct (Rlt_dec (3 / 2) 2); [|lra]. destruct (Rlt_dec 5 1); [lra|]. destruct (Rlt_dec 5 2); [lra|]. split; reflexivity. Qed.
