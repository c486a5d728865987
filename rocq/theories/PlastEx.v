(** A concrete material used to exhibit behaviours: C = S = identity (shear modulus 1/2, bulk
    modulus 1/3), J2 yield surface of radius 1, loaded in one shear component. *)
From Verif Require Import Base.
From Verif Require Import Diff.
From Verif Require Import NemlMathModel NemlMathSpec SolverModel SolverSpec SolverProofs SubstepModel SubstepSpec SurfModel SurfSpec SurfProofs RiModel RiSpec PlastModel PlastSpec PlastProofs.

(** stress/strain a in component 3, and d in position 6 of the unknown vector *)
Definition sh (a d : R) : vec := fun i => match i with 3%nat => a | 6%nat => d | _ => 0 end.
Definition y0 (_ : R) : R := / sqrt (2 / 3).
Definition Cid (_ : R) : mat := delta.
Definition ld (e t : R) : load := {| ld_e := sh e 0; ld_T := 0; ld_t := t |}.
Definition stt (a p : R) : pst := {| ps_s := sh a p; ps_h := vzero; ps_u := 0; ps_p := 0 |}.
Definition MP := PerfectPlasticity Cid Cid IsoJ2 y0.

Lemma s23 : 0 < sqrt (2 / 3).
Proof. apply sqrt_lt_R0. lra. Qed.
Lemma rel_sh a d q : veq 6 (rel (sh a d) (expand_hist q)) (sh a 0).
Proof.
  intros i Hi. unfold rel, vadd, dev_vec, tail1, expand_hist. do 6 (destruct i as [|i]; [cbn; lra|]). lia.
Qed.
Lemma norm_sh a d q : norm2 6 (rel (sh a d) (expand_hist q)) = Rabs a.
Proof.
  unfold norm2. rewrite (dot_ext 6 _ (sh a 0) _ (sh a 0)) by apply rel_sh. unfold dot, sh. cbn [rsum].
  match goal with |- sqrt ?x = _ => replace x with (Rsqr a) by (unfold Rsqr; ring) end. apply sqrt_Rsqr_abs.
Qed.
Lemma f_sh a d T : ys_f IsoJ2 (sh a d) (fun _ => - y0 T) T = Rabs a - 1.
Proof.
  cbn [ys_f IsoJ2 IsoFunction IsoKinJ2]. unfold j2_f. rewrite norm_sh. unfold expand_hist, y0. pose proof s23. field. lra.
Qed.
Lemma df_sh a d q T i : 1 <= Rabs a -> (i < 6)%nat -> ys_ds IsoJ2 (sh a d) q T i = sh (a / Rabs a) 0 i.
Proof.
  intros Ha Hi. cbn [ys_ds IsoJ2 IsoFunction IsoKinJ2]. unfold j2_ds, normalize_vec. rewrite norm_sh.
  pose proof eps_lt_1. destruct (Rlt_dec (Rabs (Rabs a)) eps) as [L|_]; [rewrite Rabs_Rabsolu in L; lra|].
  rewrite rel_sh by exact Hi. do 6 (destruct i as [|i]; [cbn; unfold Rdiv; ring|]). lia.
Qed.
Lemma mv_Cid T v i : (i < 6)%nat -> mv 6 (Cid T) v i = v i.
Proof. intros Hi. unfold mv, Cid. apply rsum_delta, Hi. Qed.

(** the residual on shear states *)
Lemma R_sh e1 t1 e0 t0 a0 d0 a d i : 1 <= Rabs a -> (i < 7)%nat ->
  pp_R Cid Cid IsoJ2 y0 (ld e1 t1) (ld e0 t0) (stt a0 d0) (sh a d) i = sh (a - (e1 - (e0 - a0) - a / Rabs a * d)) (Rabs a - 1) i.
Proof.
  intros Ha Hi. unfold pp_R. destruct (Nat.lt_ge_cases i 6) as [L|G].
  - rewrite (ltb_t i 6 L), mv_Cid by exact L. unfold pp_ys. rewrite df_sh by assumption. unfold inel, vsub. cbn [ld_e ld_T ld_t ld stt ps_s].
    rewrite mv_Cid by exact L. cbn [sh]. do 6 (destruct i as [|i]; [cbn; ring|]). lia.
  - rewrite (ltb_f i 6 G). unfold pp_ys. rewrite f_sh. replace i with 6%nat by lia. reflexivity.
Qed.

(** the Jacobian at a plastic state with unit stress and its inverse *)
Definition p3 (i j : nat) : R := sh 1 0 i * sh 1 0 j.
Definition Jx (d : R) : mat := fun i j =>
  if Nat.ltb i 6 then if Nat.ltb j 6 then (delta i j - iv i * jv j - p3 i j) * d + delta i j else sh 1 0 i
  else if Nat.ltb j 6 then sh 1 0 j else 0.
Definition Kx (d : R) : mat := fun i j =>
  if Nat.ltb i 6 then if Nat.ltb j 6 then (delta i j - iv i * jv j - p3 i j) / (1 + d) + iv i * jv j else sh 1 0 i
  else if Nat.ltb j 6 then sh 1 0 j else -1.
Lemma J_sh next d i j : (i < 7)%nat -> (j < 7)%nat -> pp_J Cid IsoJ2 y0 next (sh 1 d) i j = Jx d i j.
Proof.
  intros Hi Hj. assert (A1 : Rabs 1 = 1) by (apply Rabs_pos_eq; lra).
  assert (DF : forall q T k, (k < 6)%nat -> ys_ds IsoJ2 (sh 1 d) q T k = sh 1 0 k).
  { intros q T k Hk. rewrite df_sh by (rewrite ?A1; lra || assumption). rewrite A1. replace (1 / 1) with 1 by field. reflexivity. }
  unfold pp_J, Jx. destruct (Nat.lt_ge_cases i 6) as [L|G]; [rewrite (ltb_t i 6 L) | rewrite (ltb_f i 6 G)];
    (destruct (Nat.lt_ge_cases j 6) as [L'|G']; [rewrite (ltb_t j 6 L') | rewrite (ltb_f j 6 G')]).
  - change (sh 1 d 6%nat) with d. f_equal. f_equal.
    transitivity (ys_dss IsoJ2 (sh 1 d) (pp_ys y0 next) (ld_T next) i j).
    { unfold mm, Cid. apply (rsum_delta 6 i (fun k => ys_dss IsoJ2 (sh 1 d) (pp_ys y0 next) (ld_T next) k j)), L. }
    cbn [ys_dss IsoJ2 IsoFunction IsoKinJ2]. unfold j2_dss. rewrite norm_sh, A1. destruct (Rlt_dec 0 1); [|lra].
    pose proof (DF (pp_ys y0 next) (ld_T next) i L) as E1. pose proof (DF (pp_ys y0 next) (ld_T next) j L') as E2.
    cbn [ys_ds IsoJ2 IsoFunction IsoKinJ2] in E1, E2. unfold j2_ds in E1, E2. rewrite E1, E2. unfold p3. field.
  - rewrite mv_Cid by exact L. apply DF, L.
  - apply DF, L'.
  - reflexivity.
Qed.
Lemma KJ d : 0 <= d -> left_inverse 7 (Kx d) (Jx d).
Proof.
  intros Hd i j Hi Hj. unfold mm.
  do 7 (destruct i as [|i]; [do 7 (destruct j as [|j]; [cbv -[Rplus Rmult Ropp Rdiv Rminus Rinv IZR]; first [lra | field; lra]|]); lia|]). lia.
Qed.
Lemma left_inverse_ext n K J J' : (forall i j, (i < n)%nat -> (j < n)%nat -> J i j = J' i j) -> left_inverse n K J -> left_inverse n K J'.
Proof. intros H HK i j Hi Hj. rewrite <- (HK i j Hi Hj). unfold mm. apply rsum_ext. intros k Hk. rewrite H by assumption. reflexivity. Qed.

(** Two plastic substeps: the increment 0 -> 4 in two halves. *)
Lemma two_substeps :
  let l0 := ld 0 0 in let l1 := ld 4 1 in
  let e := fun u => sh (4 + u) 0 in
  let X1 := fun u => sh 1 (1 + u / 2) in let X2 := fun u => sh 1 (2 + u / 2) in
  let E := sb_E MP l1 l0 (stt 0 0) (X1 0) in
  let A := tangent_update 7 (Kx 2) E (tangent_update 7 (Kx 1) E (fun _ _ => 0) (1 / 2)) (1 / 2) in
  path 6 e 0 (sh 1 0) /\
  sb_elastic MP (load_at l0 l1 (1 / 2)) l0 (stt 0 0) = false /\
  sb_elastic MP (load_at l0 l1 1) (load_at l0 l1 (1 / 2)) {| ps_s := X1 0; ps_h := vzero; ps_u := 0; ps_p := 0 |} = false /\
  (forall u, exists J, sb_RJ MP (load_at l0 (set_e l1 (e u)) (1 / 2)) l0 (stt 0 0) (X1 u) = Some J /\ veq 7 (fst J) vzero /\ (u = 0 -> left_inverse 7 (Kx 1) (snd J))) /\
  (forall u, exists J, sb_RJ MP (load_at l0 (set_e l1 (e u)) 1) (load_at l0 (set_e l1 (e u)) (1 / 2)) {| ps_s := X1 u; ps_h := vzero; ps_u := 0; ps_p := 0 |} (X2 u) = Some J /\
      veq 7 (fst J) vzero /\ (u = 0 -> left_inverse 7 (Kx 2) (snd J))) /\
  path 6 X2 0 vzero /\
  mv 6 A (sh 1 0) 3%nat = 1 / 2.
Proof.
  intros l0 l1 e X1 X2 E A.
  assert (A1 : Rabs 1 = 1) by (apply Rabs_pos_eq; lra).
  assert (LA : forall f u, set_e (load_at l0 (set_e l1 (e u)) f) (sh (f * (4 + u)) 0) = ld (f * (4 + u)) (load_at l0 (set_e l1 (e u)) f).(ld_t)).
  { intros. unfold set_e, load_at, ld. simpl. f_equal. ring. }
  assert (Lx : forall f u i, ld_e (load_at l0 (set_e l1 (e u)) f) i = sh (f * (4 + u)) 0 i).
  { intros f u i. unfold load_at, set_e, e, l0, l1, ld. cbn [ld_e]. do 7 (destruct i as [|i]; [cbn; ring|]). cbn. ring. }
  assert (Rext : forall n1 n2 p1 p2 st x, (forall i, ld_e n1 i = ld_e n2 i) -> (forall i, ld_e p1 i = ld_e p2 i) -> ld_T n1 = ld_T n2 -> ld_T p1 = ld_T p2 ->
     forall i, pp_R Cid Cid IsoJ2 y0 n1 p1 st x i = pp_R Cid Cid IsoJ2 y0 n2 p2 st x i).
  { intros n1 n2 p1 p2 st x H1 H2 H3 H4 i. unfold pp_R, inel, vsub, pp_ys. rewrite H3, H4. destruct (Nat.ltb i 6); [|reflexivity]. f_equal.
    apply mv_vec_ext. intros k Hk. rewrite H1, H2. reflexivity. }
  assert (EL : forall f, ld_T (load_at l0 l1 f) = 0) by (intros; unfold load_at, l0, l1, ld; simpl; ring).
  assert (EL' : forall f u, ld_T (load_at l0 (set_e l1 (e u)) f) = 0) by (intros; unfold load_at, l0, l1, ld; simpl; ring).
  assert (TR : forall n p a d b r, (forall i, ld_e n i = sh (b + r) 0 i) -> (forall i, ld_e p i = sh b 0 i) -> 1 < Rabs (a + r) ->
     sb_elastic MP n p {| ps_s := sh a d; ps_h := vzero; ps_u := 0; ps_p := 0 |} = false).
  { intros n p a d b r Hn Hp Hr. cbn [sb_elastic MP PerfectPlasticity]. destruct (Rle_dec _ 0) as [L|]; [exfalso|reflexivity].
    assert (Q : ys_f IsoJ2 (pp_trial Cid n p {| ps_s := sh a d; ps_h := vzero; ps_u := 0; ps_p := 0 |}) (pp_ys y0 n) (ld_T n) = ys_f IsoJ2 (sh (a + r) 0) (fun _ => - y0 (ld_T n)) (ld_T n)).
    { cbn [ys_f IsoJ2 IsoFunction IsoKinJ2]. unfold j2_f. f_equal. unfold norm2. f_equal. apply dot_ext; intros i Hi; unfold rel, vadd; f_equal;
        unfold dev_vec, pp_trial, vadd; rewrite !mv_Cid by lia; unfold de, vsub; rewrite !Hn, !Hp;
        (do 6 (destruct i as [|i]; [cbn; field|]); lia). }
    rewrite Q, f_sh in L. lra. }
  split; [|split; [|split; [|split; [|split; [|split]]]]].
  - intros i Hi. unfold e. do 6 (destruct i as [|i]; [cbn; first [apply D_const | eapply D_eq; [apply D_plus; [apply D_const | apply D_id]|]; ring]|]). lia.
  - apply (TR _ _ 0 0 0 2).
    + intros i. change (load_at l0 l1 (1/2)) with (load_at l0 (set_e l1 (ld_e l1)) (1/2)). replace (ld_e l1) with (sh 4 0) by reflexivity.
      unfold load_at, set_e, l0, ld. cbn [ld_e]. do 7 (destruct i as [|i]; [cbn; lra|]). cbn; lra.
    + intros i. unfold l0, ld. cbn [ld_e]. do 7 (destruct i as [|i]; [reflexivity|]). reflexivity.
    + rewrite Rabs_pos_eq; lra.
  - unfold X1. apply (TR _ _ 1 (1 + 0 / 2) 2 2).
    + intros i. unfold load_at, l0, l1, ld. cbn [ld_e]. do 7 (destruct i as [|i]; [cbn; lra|]). cbn; lra.
    + intros i. unfold load_at, l0, l1, ld. cbn [ld_e]. do 7 (destruct i as [|i]; [cbn; lra|]). cbn; lra.
    + rewrite Rabs_pos_eq; lra.
  - intros u. eexists. split; [reflexivity|]. cbn [fst snd]. split.
    + intros i Hi. rewrite (Rext _ (ld (1 / 2 * (4 + u)) 0) _ l0) by (try (intros; apply Lx); try reflexivity; apply EL').
      unfold X1, l0. rewrite (R_sh (1/2 * (4 + u)) 0 0 0 0 0 1 (1 + u / 2)) by (rewrite ?A1; lra || assumption). rewrite A1.
      do 7 (destruct i as [|i]; [cbn; unfold vzero; lra|]). lia.
    + intros ->. eapply left_inverse_ext; [|apply (KJ 1); lra]. intros i j Hi Hj. symmetry. unfold X1. replace (1 + 0 / 2) with 1 by lra. apply J_sh; assumption.
  - intros u. eexists. split; [reflexivity|]. cbn [fst snd]. split.
    + intros i Hi. rewrite (Rext _ (ld (1 * (4 + u)) 0) _ (ld (1 / 2 * (4 + u)) 0)) by (try (intros; apply Lx); try reflexivity; apply EL').
      change {| ps_s := X1 u; ps_h := vzero; ps_u := 0; ps_p := 0 |} with (stt 1 (1 + u / 2)). unfold X2.
      rewrite (R_sh (1 * (4 + u)) 0 (1/2 * (4 + u)) 0 1 (1 + u / 2) 1 (2 + u / 2)) by (rewrite ?A1; lra || assumption). rewrite A1.
      do 7 (destruct i as [|i]; [cbn; unfold vzero; lra|]). lia.
    + intros ->. eapply left_inverse_ext; [|apply (KJ 2); lra]. intros i j Hi Hj. symmetry. unfold X2. replace (2 + 0 / 2) with 2 by lra. apply J_sh; assumption.
  - intros i Hi. unfold X2. do 6 (destruct i as [|i]; [cbn; apply D_const|]). lia.
  - unfold A, E, MP, PerfectPlasticity, tangent_update, mv, mm, Kx, Cid, p3, sh, delta, iv, jv. cbn [sb_E rsum Nat.ltb Nat.leb Nat.eqb]. cbn [ld_T]. lra.
Qed.

(** a zero of the residual with a negative plastic multiplier: shear strain 4 applied to the
    virgin material, trial stress +4, "solution" stress -1 *)
Lemma negative_multiplier :
  sb_elastic MP (ld 4 1) (ld 0 0) (stt 0 0) = false /\
  (exists J, sb_RJ MP (ld 4 1) (ld 0 0) (stt 0 0) (sh (-1) (-5)) = Some J /\ veq 7 (fst J) vzero) /\
  (exists J, sb_RJ MP (ld 4 1) (ld 0 0) (stt 0 0) (sh 1 3) = Some J /\ veq 7 (fst J) vzero).
Proof.
  assert (A1 : Rabs 1 = 1) by (apply Rabs_pos_eq; lra). assert (A2 : Rabs (-1) = 1) by (rewrite Rabs_left; lra).
  split; [|split].
  - cbn [sb_elastic MP PerfectPlasticity]. destruct (Rle_dec _ 0) as [L|]; [exfalso|reflexivity].
    assert (Q : ys_f IsoJ2 (pp_trial Cid (ld 4 1) (ld 0 0) (stt 0 0)) (pp_ys y0 (ld 4 1)) 0 = ys_f IsoJ2 (sh 4 0) (fun _ => - y0 0) 0).
    { cbn [ys_f IsoJ2 IsoFunction IsoKinJ2]. unfold j2_f. f_equal. unfold norm2. f_equal. apply dot_ext; intros i Hi; unfold rel, vadd; f_equal;
        unfold dev_vec, pp_trial, vadd; rewrite !mv_Cid by lia; unfold de, vsub;
        (do 6 (destruct i as [|i]; [cbn; field|]); lia). }
    change (ld_T (ld 4 1)) with 0 in L. rewrite Q, f_sh in L. rewrite (Rabs_pos_eq 4) in L by lra. lra.
  - eexists. split; [reflexivity|]. intros i Hi. cbn [fst]. rewrite R_sh by (rewrite ?A2; lra || assumption). rewrite A2. do 7 (destruct i as [|i]; [cbn; unfold vzero; lra|]). lia.
  - eexists. split; [reflexivity|]. intros i Hi. cbn [fst]. rewrite R_sh by (rewrite ?A1; lra || assumption). rewrite A1. do 7 (destruct i as [|i]; [cbn; unfold vzero; lra|]). lia.
Qed.

(** An elastic step with a temperature change: C(T) = 1/(1+T) identity, J2 with linear isotropic
    hardening.  From strain 1, stress 1 (on the yield surface, no plastic strain) at T = 0 to
    strain 3/2 at T = 1. *)
Definition Cth (T : R) : mat := fun i j => / (1 + T) * delta i j.
Definition Sth (T : R) : mat := fun i j => (1 + T) * delta i j.
Definition ldT (e T t : R) : load := {| ld_e := sh e 0; ld_T := T; ld_t := t |}.
Definition Fth := RIAssociative IsoJ2 (HardModel.LinearIso y0 (fun _ => 1)).
Definition MT := RateIndependent Cth Sth Fth.
Lemma mv_dk k v i : (i < 6)%nat -> mv 6 (fun a b => k * delta a b) v i = k * v i.
Proof.
  intros Hi. unfold mv. rewrite (rsum_ext 6 _ (fun j => delta i j * (k * v j))) by (intros; ring). apply (rsum_delta 6 i (fun j => k * v j)), Hi.
Qed.
Lemma Fth_f s a T b : veq 6 s (sh b 0) -> rf_f Fth s a T = Rabs b - 1 - sqrt (2 / 3) * a 0%nat.
Proof.
  intros H. unfold Fth. cbn [rf_f RIAssociative HardModel.LinearIso HardModel.scalar_rule HardModel.hr_q ys_f IsoJ2 IsoFunction IsoKinJ2].
  unfold j2_f.
  replace (norm2 6 (rel s _)) with (Rabs b).
  - unfold expand_hist, y0. pose proof s23. field. lra.
  - rewrite <- (norm_sh b 0 (fun _ => - y0 T - 1 * a 0%nat)). unfold norm2. f_equal.
    apply dot_ext; intros i Hi; unfold rel, vadd; f_equal; unfold dev_vec; rewrite !H by lia; reflexivity.
Qed.
Lemma thermal_elastic lsolve inv prm :
  let past := ldT 1 0 0 in let next := ldT (3 / 2) 1 1 in
  rf_f Fth (ps_s (stt 1 0)) vzero 0 = 0 /\ (forall i, (i < 6)%nat -> plastic_strain Sth past (ps_s (stt 1 0)) i = 0) /\
  sb_elastic MT next past (stt 1 0) = true /\
  exists st' A E, update_step lsolve inv prm MT next past (stt 1 0) = Some (st', A, E) /\
    rf_f Fth (ps_s st') (ps_h st') 1 = 1 / 4 /\ plastic_strain Sth next (ps_s st') 3%nat = -1 /\ ps_p st' = - (9 / 8).
Proof.
  intros past next.
  assert (TR : veq 6 (rip_trial Cth Sth next past (stt 1 0)) (sh (3 / 4) 0)).
  { intros i Hi. unfold rip_trial, Cth. rewrite mv_dk by exact Hi. unfold vsub, inel, vsub, Sth. rewrite mv_dk by exact Hi.
    unfold next, past, ldT. cbn [ld_e ld_T stt ps_s]. do 6 (destruct i as [|i]; [cbn; lra|]). lia. }
  assert (EL : sb_elastic MT next past (stt 1 0) = true).
  { cbn [sb_elastic MT RateIndependent]. rewrite (Fth_f _ _ _ _ TR). destruct (Rle_dec _ 0) as [|N]; [reflexivity|].
    exfalso. apply N. rewrite Rabs_pos_eq by lra. cbn [stt ps_h]. unfold vzero. lra. }
  split; [|split; [|split; [exact EL|]]].
  - rewrite (Fth_f _ _ _ 1). { rewrite Rabs_pos_eq by lra. unfold vzero. ring. } intros i Hi. cbn [stt ps_s]. reflexivity.
  - intros i Hi. unfold plastic_strain, Sth. rewrite mv_dk by exact Hi. unfold past, ldT. cbn [ld_e ld_T stt ps_s]. ring.
  - unfold update_step. rewrite EL. eexists _, _, _. split; [reflexivity|]. cbn [ps_s ps_h ps_p].
    assert (S1 : veq 6 (vadd (mv 6 (sb_C MT (ld_T next)) (de next past)) (ps_s (stt 1 0))) (sh (5 / 4) 0)).
    { intros i Hi. unfold vadd. cbn [sb_C MT RateIndependent]. unfold Cth. rewrite mv_dk by exact Hi. unfold de, vsub, next, past, ldT. cbn [ld_e ld_T stt ps_s].
      do 6 (destruct i as [|i]; [cbn; lra|]). lia. }
    split; [|split].
    + rewrite (Fth_f _ _ _ _ S1). rewrite Rabs_pos_eq by lra. cbn [stt ps_h]. unfold vzero. lra.
    + unfold plastic_strain, Sth. rewrite mv_dk by lia. rewrite S1 by lia. unfold next, ldT. cbn. lra.
    + cbn [sb_work MT RateIndependent]. unfold ri_work, trap. cbn [snd stt ps_p].
      rewrite (dot_ext 6 _ (sh (9 / 4) 0) _ (sh (-1) 0)).
      * unfold dot, sh. cbn [rsum]. lra.
      * intros i Hi. unfold vadd at 1. rewrite S1 by exact Hi. cbn [ps_s]. do 6 (destruct i as [|i]; [cbn; lra|]). lia.
      * intros i Hi. unfold vsub, inel, vsub, Sth. rewrite !mv_dk by exact Hi. rewrite S1 by exact Hi. unfold next, past, ldT. cbn [ld_e ld_T ps_s]. do 6 (destruct i as [|i]; [cbn; lra|]). lia.
Qed.

(** A plastic step the code completes: shear strain 4 applied to the virgin material, one Newton
    iteration, with linear algebra that returns the exact answer where it returns one. *)
From Coq Require Import ClassicalDescription.
Definition dirx : vec := sh 3 (-3).
Definition lsx (J : mat) (b : vec) : option vec :=
  if excluded_middle_informative (forall i, (i < 7)%nat -> mv 7 J dirx i = b i) then Some dirx else None.
Definition invx (n : nat) (J : mat) : option mat :=
  if excluded_middle_informative (left_inverse n (Kx 3) J) then Some (Kx 3) else None.
Definition prmx : sparams := {| rtol := 0; atol := / 10; miter := 10; linesearch := false |}.
Lemma invx_ok n J K : invx n J = Some K -> left_inverse n K J.
Proof. unfold invx. destruct (excluded_middle_informative _) as [H|]; [|discriminate]. intros E. injection E as <-. exact H. Qed.
Lemma plastic_step : exists st' E, update_step lsx invx prmx MP (ld 4 1) (ld 0 0) (stt 0 0) = Some (st', Kx 3, E) /\ ps_s st' = sh 1 3 /\
  sb_elastic MP (ld 4 1) (ld 0 0) (stt 0 0) = false.
Proof.
  assert (A1 : Rabs 1 = 1) by (apply Rabs_pos_eq; lra). assert (A4 : Rabs 4 = 4) by (apply Rabs_pos_eq; lra).
  destruct negative_multiplier as (NE & _).
  set (s := vec_sys (sb_np MP) (sb_init MP (ld 4 1) (ld 0 0) (stt 0 0)) (sb_RJ MP (ld 4 1) (ld 0 0) (stt 0 0)) lsx).
  assert (I0 : sb_init MP (ld 4 1) (ld 0 0) (stt 0 0) = sh 4 0).
  { apply FunctionalExtensionality.functional_extensionality. intros i. cbn [sb_init MP PerfectPlasticity].
    destruct (Nat.lt_ge_cases i 6) as [L|G]; [rewrite (ltb_t i 6 L) | rewrite (ltb_f i 6 G)].
    - unfold pp_trial, vadd. rewrite mv_Cid by exact L. unfold de, vsub. cbn [ld ld_e stt ps_s]. do 6 (destruct i as [|i]; [cbn; ring|]). lia.
    - do 6 (destruct i as [|i]; [lia|]). destruct i; reflexivity. }
  set (RR := pp_R Cid Cid IsoJ2 y0 (ld 4 1) (ld 0 0) (stt 0 0)). set (JJ := pp_J Cid IsoJ2 y0 (ld 4 1)).
  assert (R4 : forall i, (i < 7)%nat -> RR (sh 4 0) i = sh 0 3 i).
  { intros i Hi. unfold RR. rewrite R_sh by (rewrite ?A4; lra || assumption). rewrite A4. do 7 (destruct i as [|i]; [cbn; lra|]). lia. }
  assert (R1 : forall i, (i < 7)%nat -> RR (sh 1 3) i = sh 0 0 i).
  { intros i Hi. unfold RR. rewrite R_sh by (rewrite ?A1; lra || assumption). rewrite A1. do 7 (destruct i as [|i]; [cbn; lra|]). lia. }
  assert (SL : lsx (JJ (sh 4 0)) (RR (sh 4 0)) = Some dirx).
  { unfold lsx. destruct (excluded_middle_informative _) as [|N]; [reflexivity|]. exfalso. apply N. intros i Hi. rewrite R4 by exact Hi.
    assert (DF : forall q T k, (k < 6)%nat -> ys_ds IsoJ2 (sh 4 0) q T k = sh 1 0 k).
    { intros q T k Hk. rewrite df_sh by (rewrite ?A4; lra || assumption). rewrite A4. replace (4 / 4) with 1 by field. reflexivity. }
    assert (EJ : forall j, (j < 7)%nat -> JJ (sh 4 0) i j = (if Nat.ltb i 6 then if Nat.ltb j 6 then delta i j else sh 1 0 i else if Nat.ltb j 6 then sh 1 0 j else 0)).
    { intros j Hj. unfold JJ, pp_J. destruct (Nat.lt_ge_cases i 6) as [L|G]; [rewrite (ltb_t i 6 L) | rewrite (ltb_f i 6 G)];
        (destruct (Nat.lt_ge_cases j 6) as [L'|G']; [rewrite (ltb_t j 6 L') | rewrite (ltb_f j 6 G')]).
      - change (sh 4 0 6%nat) with 0. ring.
      - rewrite mv_Cid by exact L. apply DF, L.
      - apply DF, L'.
      - reflexivity. }
    unfold mv. rewrite (rsum_ext 7 _ (fun j => (if Nat.ltb i 6 then if Nat.ltb j 6 then delta i j else sh 1 0 i else if Nat.ltb j 6 then sh 1 0 j else 0) * dirx j)) by (intros; rewrite EJ by assumption; reflexivity).
    do 7 (destruct i as [|i]; [cbv -[Rplus Rmult Ropp Rdiv Rminus Rinv IZR]; lra|]). lia. }
  assert (N4 : norm2 7 (RR (sh 4 0)) = 3).
  { unfold norm2. rewrite (dot_ext 7 _ (sh 0 3) _ (sh 0 3)) by exact R4. replace (dot 7 (sh 0 3) (sh 0 3)) with (Rsqr 3) by (cbv -[Rplus Rmult IZR]; lra). apply sqrt_Rsqr. lra. }
  assert (N1 : norm2 7 (RR (sh 1 3)) = 0).
  { unfold norm2. rewrite (dot_ext 7 _ (sh 0 0) _ (sh 0 0)) by exact R1. replace (dot 7 (sh 0 0) (sh 0 0)) with 0 by (cbv -[Rplus Rmult IZR]; lra). apply sqrt_0. }
  assert (MV : sys_move s (sys_init s) 1 dirx = sh 1 3).
  { apply FunctionalExtensionality.functional_extensionality. intros i. unfold s. cbn [sys_move sys_init vec_sys]. rewrite I0.
    do 7 (destruct i as [|i]; [cbn; lra|]). cbn. lra. }
  assert (NW : exists c, newton s prmx = Ok (sh 1 3, (RR (sh 1 3), JJ (sh 1 3)), c)).
  { apply newton_iff; [cbn; lia|]. exists 1%nat, (RR (sh 4 0), JJ (sh 4 0)). split; [cbn; lia|]. split.
    - eapply reached_S.
      + apply reached_0. unfold s. cbn [sys_RJ sys_init vec_sys]. rewrite I0. reflexivity.
      + intros (r & E & H). unfold s in E, H. cbn [sys_norm vec_sys fst] in E, H. change (sb_np MP) with 7%nat in E, H. rewrite N4 in E, H. injection E as <-.
        cbn [atol rtol prmx] in H. destruct H as [H|(r0 & E0 & _ & H)]; [lra|]. injection E0 as <-. lra.
      + exists dirx. split; [exact SL|]. cbn [linesearch prmx]. rewrite MV. split; [reflexivity|]. reflexivity.
    - exists 0. split; [unfold s; cbn [sys_norm vec_sys fst]; change (sb_np MP) with 7%nat; rewrite N1; reflexivity|]. left. cbn. lra. }
  destruct NW as (c & NW). unfold update_step. rewrite NE. fold s. rewrite NW.
  assert (IV : invx (sb_np MP) (JJ (sh 1 3)) = Some (Kx 3)).
  { unfold invx. destruct (excluded_middle_informative _) as [|N]; [reflexivity|]. exfalso. apply N. eapply left_inverse_ext; [|apply (KJ 3); lra].
    intros i j Hi Hj. symmetry. apply J_sh; assumption. }
  rewrite IV. eexists _, _. split; [reflexivity|]. split; reflexivity.
Qed.
