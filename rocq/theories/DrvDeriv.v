From Verif Require Import Base Diff.
From Verif Require Import SolverModel SubstepModel CreepModel NlModel NlSpec NlProofs UniModel UniSpec UniProofs DrvModel DrvSpec DrvProofs.
From Verif Require Import RiProofs WalkerProofs.
From Coq Require Import ZArith List FunctionalExtensionality.
Import ListNotations.

(** ** the matrices handed to the solver are the derivatives of the residuals *)
Definition some_pres : pres := {| pr_s := v0; pr_h := v0; pr_A := fun _ _ => 0; pr_u := 0; pr_p := 0 |}.
Definition get_pres (o : option pres) : pres := match o with Some p => p | None => some_pres end.
Lemma exact_RJ_of (n : nat) (RJ : vec -> option (vec * mat)) (f : vec -> option pres) (F : vec -> pres -> vec * mat) (L : vec -> vec) x :
  (forall y, RJ y = match f (L y) with None => None | Some p => Some (F y p) end) -> exact_at f (L x) ->
  (forall (y : R -> vec) w v, path n y w v -> path 6 (fun z => L (y z)) w (vtl v) \/ path 6 (fun z => L (y z)) w v) ->
  (forall (y : R -> vec) (p : R -> pres) w v, path n y w v -> (path 6 (fun z => L (y z)) w (vtl v) -> path 6 (fun z => pr_s (p z)) w (mv 6 (pr_A (p w)) (vtl v))) ->
     (path 6 (fun z => L (y z)) w v -> path 6 (fun z => pr_s (p z)) w (mv 6 (pr_A (p w)) v)) ->
     path n (fun z => fst (F (y z) (p z))) w (mv n (snd (F (y w) (p w))) v)) ->
  exact_RJ n RJ x.
Proof.
  intros HR HX HL HF y r w v Ey Py HW. set (p := fun z => get_pres (f (L (y z)))).
  assert (Lp : locally w (fun z => f (L (y z)) = Some (p z) /\ r z = F (y z) (p z))).
  { apply (filter_imp (fun z => RJ (y z) = Some (r z))); [|exact HW]. intros z E. rewrite HR in E. unfold p. destruct (f (L (y z))) as [q|]; [|discriminate]. injection E as <-. split; reflexivity. }
  assert (L1 : locally w (fun z => f (L (y z)) = Some (p z))) by (apply (filter_imp _ _ (fun z H => proj1 H) Lp)).
  assert (XX : forall u, path 6 (fun z => L (y z)) w u -> path 6 (fun z => pr_s (p z)) w (mv 6 (pr_A (p w)) u)).
  { intros u Pu. apply (HX (fun z => L (y z)) p w u); [rewrite Ey; reflexivity|exact Pu|exact L1]. }
  assert (Q := HF y p w v Py (XX (vtl v)) (XX v)). destruct (locally_singleton _ _ Lp) as [_ E0].
  intros i Hi. rewrite E0. apply (D_loc (fun z => fst (F (y z) (p z)) i)); [|exact (Q i Hi)].
  apply (filter_imp _ _ (fun z H => eq_sym (f_equal (fun b => fst b i) (proj2 H))) Lp).
Qed.
Lemma stress_exact M P d s1 t1 T1 g e : exact_call M P d t1 T1 e -> exact_RJ 6 (sys_RJ (stress_sys M P d s1 t1 T1 g)) e.
Proof.
  intros HX. apply (exact_RJ_of 6 _ (fun y => dupd M P d y t1 T1) (fun _ p => (fun i => pr_s p i - s1 i, pr_A p)) (fun y => y)); [reflexivity|exact HX| |].
  - intros y w v Py. right. exact Py.
  - intros y p w v Py _ H2 i Hi. cbn [fst snd]. eapply D_eq; [apply D_minus; [exact (H2 Py i Hi)|apply D_const]|]. ring.
Qed.
Lemma erate_exact M P d sd erate t1 T1 g x : exact_call M P d t1 T1 (fun i => top (dv_strain d) i + vtl x i) -> exact_RJ 7 (sys_RJ (erate_sys M P d sd erate t1 T1 g)) x.
Proof.
  intros HX. set (dt := t1 - topr (dv_t d)).
  apply (exact_RJ_of 7 _ (fun y => dupd M P d y t1 T1) (fun x p => (fun i => if Nat.ltb i 6 then pr_s p i - (sd i * x 0%nat + top (dv_stress d) i) else dot 6 (vtl x) sd / dt - erate,
      fun i j => if Nat.ltb i 6 then (if Nat.eqb j 0 then - sd i else pr_A p i (j - 1)%nat) else (if Nat.eqb j 0 then 0 else sd (j - 1)%nat / dt)))
    (fun y i => top (dv_strain d) i + vtl y i)); [reflexivity|exact HX| |].
  - intros y w v Py. left. intros i Hi. unfold vtl. eapply D_eq; [apply D_plus; [apply D_const|apply (Py (S i)); lia]|]. ring.
  - intros y p w v Py H1 _ i Hi. cbn [fst snd].
    assert (PL : path 6 (fun z i => top (dv_strain d) i + vtl (y z) i) w (vtl v)).
    { intros k Hk. unfold vtl. eapply D_eq; [apply D_plus; [apply D_const|apply (Py (S k)); lia]|]. ring. }
    assert (Q := H1 PL). destruct (Nat.ltb_spec i 6) as [L|L].
    + eapply D_eq.
      * apply D_minus; [exact (Q i L)|]. apply D_plus; [apply D_mult; [apply D_const|apply (Py 0%nat); lia]|apply D_const].
      * unfold mv, vtl. cbn [rsum Nat.eqb Nat.sub]. destruct (Nat.ltb_spec i 6); [|lia]. ring.
    + eapply D_eq.
      * apply D_minus; [|apply D_const]. apply (D_ext (fun z => / dt * dot 6 (vtl (y z)) sd)); [intros; unfold Rdiv; ring|].
        apply D_mult; [apply D_const|]. apply (D_dot 6 (fun z => vtl (y z)) (fun _ => sd) w (vtl v) (fun _ => 0)); [intros k Hk; unfold vtl; apply (Py (S k)); lia|intros k Hk; apply D_const].
      * unfold mv, dot, vtl. cbn [rsum Nat.eqb Nat.sub]. destruct (Nat.ltb_spec i 6); [lia|]. unfold Rdiv. ring.
Qed.
Lemma hold_exact0 M P d t1 T1 q E g e : exact_call M P d t1 T1 e -> exact_RJ 6 (sys_RJ (hold_sys M P d 0 t1 T1 q E g)) e.
Proof.
  intros HX. apply (exact_RJ_of 6 _ (fun y => dupd M P d y t1 T1) (fun e p =>
      (fun k => match k with
         | O => (e 0%nat - top (dv_strain d) 0%nat) + (pr_s p 0%nat - top (dv_stress d) 0%nat) / E * (q - 1)
         | S k => pr_s p (oset 0 k) - top (dv_stress d) (oset 0 k) end,
       fun k j => match k with
         | O => (if Nat.eqb j 0 then 1 else 0) + pr_A p 0%nat j / E * (q - 1)
         | S k => pr_A p (oset 0 k) j end)) (fun y => y)); [reflexivity|exact HX| |].
  - intros y w v Py. right. exact Py.
  - intros y p w v Py _ H2 i Hi. cbn [fst snd]. specialize (H2 Py). destruct i as [|i].
    + eapply D_eq.
      * apply D_plus; [apply D_minus; [apply (Py 0%nat); lia|apply D_const]|]. apply (D_ext (fun z => (q - 1) / E * (pr_s (p z) 0%nat - top (dv_stress d) 0%nat))); [intros; unfold Rdiv; ring|].
        apply D_mult; [apply D_const|]. apply D_minus; [apply (H2 0%nat); lia|apply D_const].
      * unfold mv. cbn [rsum Nat.eqb]. unfold Rdiv. ring.
    + assert (O : (oset 0 i < 6)%nat) by (apply oset_lt; lia). eapply D_eq; [apply D_minus; [exact (H2 _ O)|apply D_const]|]. unfold mv. ring.
Qed.

(** ** linear elastic materials *)
Lemma mvd v i : (i < 6)%nat -> mv 6 delta v i = v i.
Proof. exact (mv_delta 6 v i). Qed.
(** the material with stress e, and thermal expansion one *)
Definition unit_model : pymodel := {| pm_base := {| ba_nh := 0; ba_update := fun l1 _ _ _ _ _ => Some {| pr_s := ld_e l1; pr_h := v0; pr_A := delta; pr_u := 0; pr_p := 0 |}; ba_init := v0 |};
  pm_alpha := fun _ => 1; pm_estrain := fun s _ _ => s; pm_damage := fun _ => 0 |}.
Lemma unit_elastic : elastic_base delta (pm_base unit_model).
Proof. intros l1 l0 s h u p. eexists. split; [reflexivity|]. split; [|reflexivity]. intros i Hi. cbn [pr_s]. symmetry. apply mvd, Hi. Qed.
Lemma unit_exact P d t1 T1 e : exact_call unit_model P d t1 T1 e.
Proof.
  intros y r w v Ey Py HL. unfold dupd, upd in HL. cbn [unit_model pm_base ba_update ld_e] in HL.
  assert (E0 := locally_singleton _ _ HL). cbv beta in E0. injection E0 as E0. rewrite <- E0. cbn [pr_A]. intros i Hi. rewrite (mvd v i Hi).
  apply (D_loc (fun z => y z i - thermal unit_model P d T1 i)).
  - apply (filter_imp (fun z => Some {| pr_s := fun i0 => y z i0 - thermal unit_model P d T1 i0; pr_h := v0; pr_A := delta; pr_u := 0; pr_p := 0 |} = Some (r z))); [|exact HL].
    intros z E. injection E as <-. reflexivity.
  - eapply D_eq; [apply D_minus; [apply Py, Hi|apply D_const]|]. ring.
Qed.
Lemma stress_elastic_works M P d s1 t1 T1 C S : solve_ok (dp_solve P) -> solve_total (dp_solve P) -> elastic_base C (pm_base M) ->
  (forall i j, (i < 6)%nat -> (j < 6)%nat -> mm 6 S C i j = delta i j) -> 0 <= dp_rt P -> 0 <= dp_at P -> (1 <= dp_miter P)%Z ->
  exists d', stress_step M P d s1 t1 T1 = Ret d'.
Proof.
  intros HS HT HB HI Hr Ha Hm. set (f := fun e => dupd M P d e t1 T1). set (en := thermal M P d T1).
  assert (HF : forall e, exists r, f e = Some r /\ veq 6 (pr_s r) (mv 6 C (fun i => e i - en i)) /\ forall i j, (i < 6)%nat -> (j < 6)%nat -> pr_A r i j = C i j) by (intros e; apply HB).
  assert (NS : forall A w, (forall i j, (i < 6)%nat -> (j < 6)%nat -> A i j = C i j) -> veq 6 (mv 6 A w) (fun _ => 0) -> veq 6 w (fun _ => 0)).
  { intros A w HA K i Hi. rewrite <- (first_of_inverse S C w HI i Hi). rewrite (mv_veq 6 S _ (fun _ => 0)).
    - unfold mv. rewrite (rsum_ext 6 _ (fun _ => 0)) by (intros; ring). apply rsum_0.
    - intros j Hj. rewrite <- (mv_meq 6 A C w j Hj HA). apply K, Hj. }
  assert (HG : exists g gs, stress_guesses d = g :: gs) by (unfold stress_guesses; destruct (dv_strain d) as [|a [|b l]]; eauto). destruct HG as (g & gs & EG).
  destruct (linear_once 6 C (fun i => mv 6 C en i + s1 i) g (sys_RJ (stress_sys M P d s1 t1 T1 g)) (dp_solve P 6%nat) (dp_rt P) (dp_at P) (dp_miter P) (vlin 6)) as (x & b & i & EN & _); try assumption.
  - intros J r v E. apply (HS 6%nat _ _ _ E).
  - intros e. destruct (HF e) as (r & E & Hs & HA). cbn [stress_sys vec_sys sys_RJ]. unfold f in E. rewrite E. eexists. split; [reflexivity|]. cbn [fst snd]. split; [|exact HA].
    intros i Hi. rewrite (Hs i Hi). unfold mv. rewrite (rsum_ext 6 (fun j => C i j * (e j - en j)) (fun j => C i j * e j - C i j * en j)) by (intros; ring). rewrite rsum_minus. ring.
  - intros b E. destruct (HF g) as (r & Er & _ & HA). cbn [stress_sys vec_sys sys_RJ] in E. unfold f in Er. rewrite Er in E. injection E as <-. cbn [fst snd]. apply HT. intros w. apply NS, HA.
  - unfold stress_step. rewrite EG. change (vec_sys 6 g (sys_RJ (stress_sys M P d s1 t1 T1 g)) (dp_solve P 6%nat)) with (stress_sys M P d s1 t1 T1 g) in EN.
    rewrite (try_first _ _ _ _ _ _ _ _ EN). unfold strain_step. destruct (HF x) as (r & E & _). unfold f in E. rewrite E. eauto.
Qed.

(** ** holding another component than the first: a solution exists and the step fails *)
Lemma hold_fails P : solve_ok (dp_solve P) -> dp_nts P = false -> 0 <= dp_rt P < 1 -> dp_at P < 1 ->
  let d := drv_init unit_model 0 in
  strain_hold_step unit_model P d 1 1 1 1 (-1) = Raise MaximumIterations /\
  exists e r, dupd unit_model P d e 1 1 = Some r /\ e 1%nat = top (dv_strain d) 1%nat /\ forall j, (j < 6)%nat -> j <> 1%nat -> pr_s r j = top (dv_stress d) j.
Proof.
  intros HS HN HR HA d. split.
  - assert (N : forall l, py_newton (hold_sys unit_model P d 1 1 1 1 (-1) v0) (vlin 6) (dp_rt P) (dp_at P) (dp_miter P) l true = Raise LinAlgError).
    { intros l. unfold py_newton, py_run. cbn [hold_sys vec_sys sys_RJ sys_init].
      destruct (hold_RJ unit_model P d 1 1 1 1 (-1) v0) as [b|] eqn:E; [|discriminate E]. unfold hold_RJ, dupd, upd in E. cbv zeta in E. cbn [unit_model pm_base ba_update ld_e] in E. rewrite loop_S. cbn [sys_norm hold_sys vec_sys].
      assert (B1 : fst b 1%nat = -1). { injection E as <-. cbn. unfold thermal. rewrite HN. unfold d. cbn. unfold v0. field. }
      assert (NB : 1 <= norm2 6 (fst b)). { eapply Rle_trans; [|apply (comp_bound 6 (fst b) 1%nat); lia]. rewrite B1, Rabs_left; lra. }
      assert (G : py_goes_on (dp_rt P) (dp_at P) (Some (norm2 6 (fst b))) (Some (norm2 6 (fst b))) = true).
      { unfold py_goes_on, fgt, fmul, flt. destruct (Rlt_dec _ _) as [|N]; [|exfalso; apply N; rewrite <- (Rmult_1_l (norm2 6 (fst b))) at 2; apply Rmult_lt_compat_r; lra].
        destruct (Rlt_dec _ _) as [|N]; [reflexivity|lra]. }
      rewrite G. cbn [sys_solve hold_sys vec_sys]. destruct (dp_solve P 6%nat (snd b) (fst b)) as [v|] eqn:EV; [|reflexivity]. exfalso.
      destruct (HS _ _ _ _ EV) as [HV _]. assert (V0 := HV 0%nat ltac:(lia)). assert (V1 := HV 1%nat ltac:(lia)). rewrite B1 in V1.
      assert (B0 : fst b 0%nat = 0). { injection E as <-. cbn. unfold v0. field. }
      rewrite B0 in V0. assert (X : mv 6 (snd b) v 0%nat = mv 6 (snd b) v 1%nat).
      { injection E as <-. unfold mv. cbn [rsum]. unfold snd, oset, delta. cbn. field. }
      lra. }
    unfold strain_hold_step. assert (Q : isclose 1 1 = true).
    { unfold isclose. destruct (Rle_dec _ _) as [|N0]; [reflexivity|]. exfalso. apply N0. replace (1 - 1) with 0 by ring. rewrite !Rabs_R0, Rabs_R1.
      assert (0 < / 10 ^ 8) by (apply Rinv_0_lt_compat, pow_lt; lra). assert (0 < / 10 ^ 5) by (apply Rinv_0_lt_compat, pow_lt; lra). lra. }
    rewrite Q. cbn [negb andb]. change (top (dv_strain d)) with v0. cbn [solve_try]. rewrite !N. reflexivity.
  - exists (fun i => if Nat.eqb i 0 then 1 else if Nat.eqb i 2 then 1 else 0). eexists. split; [reflexivity|]. split; [reflexivity|].
    intros j Hj Nj. cbn [pr_s ld_e]. unfold thermal. rewrite HN. unfold d. cbn [drv_init dv_therm dv_T dv_stress top topr hd unit_model pm_alpha]. unfold v0.
    do 6 (destruct j as [|j]; [try lia; cbn; try field; lra|]). lia.
Qed.
(** ** a direction of length two makes the stress ramp take twice the time *)
Lemma srate_length : exists sdir d, forall srate sinc, / 10 ^ 8 < Rabs srate -> srate_dt d sdir srate sinc = 2 * (Rabs sinc / Rabs srate).
Proof.
  exists (fun i => if Nat.eqb i 0 then 2 else 0), (drv_init unit_model 0). intros srate sinc H.
  assert (N : norm2 6 (fun i => if Nat.eqb i 0 then 2 else 0) = 2). { unfold norm2, dot. cbn [rsum Nat.eqb]. match goal with |- sqrt ?x = 2 => replace x with (2 * 2) by ring end. apply sqrt_square. lra. }
  rewrite srate_time; [rewrite N; reflexivity| |rewrite N; lra|exact H]. unfold allzero. destruct (isclose _ 0) eqn:E; [|reflexivity]. cbn [Nat.eqb] in E. apply isclose_0 in E.
  rewrite Rabs_pos_eq in E by lra. exfalso. assert (/ 10 ^ 8 < 1); [|lra]. rewrite <- Rinv_1. apply Rinv_lt_contravar; lra.
Qed.
(** ** a step with no time: any rate is "met", the strain moves by the guess *)
Lemma no_time_case P erate : exists sdir d', norm2 6 sdir = 1 /\
  erate_step unit_model P (drv_init unit_model 0) sdir erate 0 0 None None = Ret (d', fun i => unitv sdir i / 10000, 1) /\
  dot 6 (top (dv_strain d')) (unitv sdir) = 1 / 10000.
Proof.
  set (sdir := fun i : nat => if Nat.eqb i 0 then 1 else 0).
  assert (N : norm2 6 sdir = 1). { unfold norm2, dot, sdir. cbn [rsum Nat.eqb]. match goal with |- sqrt ?x = 1 => replace x with 1 by ring end. apply sqrt_1. }
  destruct (erate_step_no_time unit_model P (drv_init unit_model 0) sdir erate 0 None None) as (d' & E & ES); [eexists; reflexivity|].
  exists sdir, d'. split; [exact N|]. split; [exact E|]. unfold dot. rewrite (rsum_ext 6 _ (fun i => (0 + unitv sdir i / 10000) * unitv sdir i)) by (intros i Hi; rewrite ES; reflexivity).
  unfold unitv. rewrite N. unfold sdir. cbn [rsum Nat.eqb]. field.
Qed.
