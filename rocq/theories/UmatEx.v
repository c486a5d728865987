(** Witnesses and refutations for the Abaqus user material, and the example programs. *)
From Verif Require Import Base Diff.
From Verif Require Import SubstepModel CreepModel BlockModel SlipFacts UmatModel UmatSpec UmatProofs.
From Coq Require Import ZArith List Arith Lia Lra FunctionalExtensionality.
Import ListNotations.
Open Scope R_scope.

(** the elastic solid with shear modulus g, no lateral contraction, that refuses first strains above
    the limit; its store counts the calls *)
Definition solid (g lim : R) : base :=
  {| ba_nh := 1;
     ba_update := fun next past s h u p =>
       if Rlt_dec lim (ld_e next 0%nat) then None
       else Some {| pr_s := fun i => 2 * g * ld_e next i; pr_h := fun i => h i + 1; pr_A := fun i j => if Nat.eqb i j then 2 * g else 0;
                    pr_u := u + rsum 6 (fun i => (2 * g * ld_e next i + s i) / 2 * (ld_e next i - ld_e past i)); pr_p := p |};
     ba_init := fun _ => 0 |}.
(** without a limit *)
Definition free_solid (g : R) : base :=
  {| ba_nh := 1;
     ba_update := fun next past s h u p =>
       Some {| pr_s := fun i => 2 * g * ld_e next i; pr_h := fun i => h i + 1; pr_A := fun i j => if Nat.eqb i j then 2 * g else 0;
                    pr_u := u + rsum 6 (fun i => (2 * g * ld_e next i + s i) / 2 * (ld_e next i - ld_e past i)); pr_p := p |};
     ba_init := fun _ => 0 |}.
Definition still : ainc := {| ai_stran := fun _ => 0; ai_dstran := fun _ => 0; ai_time := 0; ai_dtime := 1; ai_temp := 0; ai_dtemp := 0 |}.
Definition point0 : apoint := {| ap_stress := fun _ => 0; ap_statev := fun _ => 0; ap_ddsdde := fun _ _ => 0; ap_sse := 0; ap_spd := 0; ap_scd := 0; ap_pnewdt := 1 |}.
Definition solid_res (g : R) (a : ainc) (p : apoint) (e : vec) : pres :=
  {| pr_s := fun i => 2 * g * e i; pr_h := fun i => ap_statev p i + 1; pr_A := fun i j => if Nat.eqb i j then 2 * g else 0;
     pr_u := ap_sse p + ap_spd p + rsum 6 (fun i => (2 * g * e i + convertv (ap_stress p) imap smult i) / 2 * (e i - convertv (ai_stran a) imap emult i)); pr_p := ap_spd p |}.
Lemma mv_diag g (v : vec) i : (i < 6)%nat -> mv 6 (fun i j => if Nat.eqb i j then g else 0) v i = g * v i.
Proof. intros H. unfold mv. cbn [rsum]. six i H; cbn [Nat.eqb]; ring. Qed.
Lemma solid_exact g a p : exact_tangent (free_solid g) a p (solid_res g a p).
Proof.
  split; [intros e; reflexivity |]. intros c t v Hc _ i Hi. cbn [solid_res pr_s pr_A].
  rewrite mv_diag by exact Hi. eapply D_eq; [apply D_mult; [apply D_const | exact (Hc i Hi)] | cbv beta; ring].
Qed.
(** what the user of Abaqus relies on: DDSDDE is the derivative of STRESS by DSTRAN *)
Definition tangent_right (B : base) (nstatv : nat) (a : ainc) (p : apoint) : Prop :=
  is_jac 6 6 (fun _ => True) (new_stress B nstatv a p) (new_ddsdde B nstatv a p).
Lemma line_path (x v : vec) : path 6 (fun u i => x i + u * v i) 0 v.
Proof. intros i Hi. eapply D_eq; [apply D_plus; [apply D_const | apply D_mult; [apply D_id | apply D_const]] | cbv beta; ring]. Qed.
Lemma tangent_right_only B nstatv a p f : (ba_nh B <= nstatv)%nat -> exact_tangent B a p f ->
  (tangent_right B nstatv a p <-> forall d k l, (k < 6)%nat -> (3 <= l < 6)%nat -> new_ddsdde B nstatv a p d k l = 0).
Proof.
  intros Hn Hf. pose proof (tangent_halved B nstatv a p f Hn Hf) as Hh. split.
  - intros Hr d k l Hk Hl. set (v := fun i : nat => if Nat.eqb i l then 1 else 0).
    assert (E0 : (fun i => d i + 0 * v i) = d) by (apply functional_extensionality; intros i; ring).
    pose proof (Hr _ 0 v (line_path d v) I k Hk) as D1. pose proof (Hh _ 0 v (line_path d v) I k Hk) as D2. cbv beta in D1, D2.
    rewrite E0 in D1, D2. pose proof (D_unique _ _ _ _ D1 D2) as E. unfold mv, half_shear in E. cbn [rsum Nat.ltb Nat.leb] in E. unfold v in E.
    destruct l as [|[|[|[|[|[|l]]]]]]; try lia; cbn [Nat.eqb] in E; clear -E; lra.
  - intros Hz c t v Hc _ k Hk. eapply D_eq; [exact (Hh c t v Hc I k Hk) |].
    unfold mv, half_shear. cbn [rsum Nat.ltb Nat.leb]. rewrite (Hz (c t) k 3%nat Hk), (Hz (c t) k 4%nat Hk), (Hz (c t) k 5%nat Hk) by lia. ring.
Qed.
Lemma tangent_wrong g a p : g <> 0 -> ~ tangent_right (free_solid g) 1 a p.
Proof.
  intros Hg H. rewrite (tangent_right_only (free_solid g) 1 a p _ (le_n 1) (solid_exact g a p)) in H.
  specialize (H (fun _ => 0) 3%nat 3%nat ltac:(lia) ltac:(lia)).
  rewrite (new_ddsdde_at (free_solid g) 1 a p _ _ 3 3 (le_n 1) (solid_exact g a p)) in H by lia.
  cbn in H. pose proof sqrt2_nz. assert (E : 2 * g / (sqrt 2 * (sqrt 2 / 2)) = 2 * g).
  { replace (sqrt 2 * (sqrt 2 / 2)) with (sqrt 2 * sqrt 2 / 2) by field. rewrite sqrt22. field. }
  unfold smult, emult in H. cbn [Nat.ltb Nat.leb] in H. rewrite E in H. lra.
Qed.
Lemma shear_twice g a p d : new_ddsdde (free_solid g) 1 a p d 3%nat 3%nat = 2 * g /\ new_ddsdde (free_solid g) 1 a p d 0%nat 0%nat = 2 * g /\
  (forall x, new_stress (free_solid g) 1 a p (fun i => if Nat.eqb i 3 then x else 0) 3%nat = g * (ai_stran a 3%nat + x)).
Proof.
  pose proof sqrt2_nz. split; [| split].
  - rewrite (new_ddsdde_at (free_solid g) 1 a p _ _ 3 3 (le_n 1) (solid_exact g a p)) by lia. cbn. unfold smult, emult. cbn [Nat.ltb Nat.leb].
    replace (sqrt 2 * (sqrt 2 / 2)) with (sqrt 2 * sqrt 2 / 2) by field. rewrite sqrt22. field.
  - rewrite (new_ddsdde_at (free_solid g) 1 a p _ _ 0 0 (le_n 1) (solid_exact g a p)) by lia. cbn. unfold smult, emult. cbn [Nat.ltb Nat.leb]. field.
  - intros x. rewrite (new_stress_at (free_solid g) 1 a p _ _ 3 (le_n 1) (solid_exact g a p)) by lia. cbn [solid_res pr_s imap].
    unfold strain_at, convertv, smult, emult. cbn [Nat.ltb Nat.leb imap Nat.eqb]. field. assumption.
Qed.

(** a refused step leaves a model behind *)
Lemma solid_refuses g lim a p : lim < ai_stran a 0%nat + ai_dstran a 0%nat -> asked (solid g lim) a p = None.
Proof.
  intros H. unfold asked. cbn [solid ba_update ld_e]. unfold convertv, emult. cbn [Nat.ltb Nat.leb imap].
  destruct (Rlt_dec lim ((ai_stran a 0%nat + ai_dstran a 0%nat) * 1)) as [_|C]; [reflexivity | exfalso; apply C; lra].
Qed.
Lemma leak_unbounded : forall n, exists B calls, length calls = n /\ (ba_nh B <= 1)%nat /\ umat_models B 1 calls 0 = n.
Proof.
  intros n. exists (solid 1 (-1)), (repeat (still, point0) n). split; [apply repeat_length |]. split; [reflexivity |].
  rewrite leak by (cbn; lia). induction n as [|n IH]; [reflexivity |]. cbn [repeat filter fst snd].
  rewrite (solid_refuses 1 (-1) still point0) by (cbn; lra). cbn [length]. lia.
Qed.

(** *** The example programs *)
Lemma c_x_loop B el e t T n : (forall r, el r = true) -> forall k i q, c_loop B el e t T n k i 0 q = x_loop B el e t T n k i q.
Proof.
  intros He. induction k as [|k IH]; intros i q; [reflexivity |]. cbn [c_loop x_loop]. cbv zeta.
  destruct (sim_call B T _ _ q) as [r|]; [| reflexivity]. cbn [c_update_sd Z.eqb negb]. rewrite He. cbn [c_elastic_strains]. apply IH.
Qed.
Lemma f_c_loop B el e t T n : forall k i z q, f_loop B el e t T n k i z q = c_loop B el e t T n k i z q.
Proof.
  induction k as [|k IH]; intros i z q; [reflexivity |]. cbn [c_loop f_loop]. cbv zeta.
  replace (INR (S i) / INR n * t) with (INR (S i) * t / INR n) by (unfold Rdiv; ring).
  replace (INR (S i) / INR n * e) with (INR (S i) * e / INR n) by (unfold Rdiv; ring).
  destruct (sim_call B T _ _ q) as [r|]; [| reflexivity]. destruct (negb _); [reflexivity | apply IH].
Qed.
Lemma programs_agree B el e t T n : (forall r, el r = true) -> csimple B el e t T n = cxxsimple B el e t T n /\ fsimple B el e t T n = cxxsimple B el e t T n.
Proof.
  intros He. unfold csimple, fsimple, cxxsimple. rewrite f_c_loop, (c_x_loop B el e t T n He). auto.
Qed.
(** update_sd driven directly along a straight line of the first strain *)
Inductive pull_run (B : base) (T e t : R) : nat -> sst -> sst -> Prop :=
| pull_0 : forall q, pull_run B T e t 0 q q
| pull_S : forall k q q1 q2 r,
    ba_update B {| ld_e := first (ss_e q 0%nat + e); ld_T := T; ld_t := ss_t q + t |} {| ld_e := ss_e q; ld_T := T; ld_t := ss_t q |} (ss_s q) (ss_h q) (ss_u q) (ss_p q) = Some r ->
    ss_e q1 = first (ss_e q 0%nat + e) -> ss_t q1 = ss_t q + t -> ss_s q1 = six (pr_s r) -> ss_h q1 = pr_h r -> ss_u q1 = pr_u r -> ss_p q1 = pr_p r ->
    pull_run B T e t k q1 q2 -> pull_run B T e t (S k) q q2.
Lemma x_loop_pull B el e t T n : (0 < n)%nat -> (forall r, el r = true) -> forall k i q q',
  ss_e q = first (INR i * e / INR n) -> ss_t q = INR i * t / INR n -> x_loop B el e t T n k i q = Some q' ->
  pull_run B T (e / INR n) (t / INR n) k q q' /\ ss_e q' = first (INR (i + k) * e / INR n) /\ ss_t q' = INR (i + k) * t / INR n.
Proof.
  intros Hn He. assert (N : INR n <> 0) by (apply not_0_INR; lia).
  induction k as [|k IH]; intros i q q' Hq Ht H; cbn [x_loop] in H; cbv zeta in H.
  - assert (q' = q) as -> by congruence. rewrite Nat.add_0_r. split; [constructor | auto].
  - destruct (sim_call B T _ _ q) as [r|] eqn:E; [| discriminate]. rewrite He in H.
    destruct (IH (S i) (sim_next (first (INR (S i) * e / INR n)) (INR (S i) * t / INR n) r) q' eq_refl eq_refl H) as (P & P1 & P2). replace (i + S k)%nat with (S i + k)%nat by lia. split; [| auto].
    assert (E1 : ss_e q 0%nat + e / INR n = INR (S i) * e / INR n) by (rewrite Hq, S_INR; unfold first; cbn [Nat.eqb]; field; exact N).
    assert (E2 : ss_t q + t / INR n = INR (S i) * t / INR n) by (rewrite Ht, S_INR; field; exact N).
    eapply pull_S; [| | | | | | | exact P]; cbn [sim_next ss_e ss_t ss_s ss_h ss_u ss_p]; try reflexivity; rewrite ?E1, ?E2; try reflexivity.
    exact E.
Qed.
Lemma first_0 : (fun _ : nat => 0) = first 0.
Proof. apply functional_extensionality; intros i. unfold first. destruct (Nat.eqb i 0); reflexivity. Qed.
Lemma program_pulls B el e t T n q : (0 < n)%nat -> (forall r, el r = true) -> csimple B el e t T n = Some q ->
  pull_run B T (e / INR n) (t / INR n) n (sst0 B) q /\ ss_e q = first e /\ ss_t q = t.
Proof.
  intros Hn He H. rewrite (proj1 (programs_agree B el e t T n He)) in H. assert (N : INR n <> 0) by (apply not_0_INR; lia).
  destruct (x_loop_pull B el e t T n Hn He n 0 (sst0 B) q) as (P & P1 & P2).
  - cbn. rewrite first_0. f_equal. field; exact N.
  - cbn. field; exact N.
  - exact H.
  - split; [exact P |]. cbn [Nat.add] in P1, P2. split; [rewrite P1; f_equal; field; exact N | rewrite P2; field; exact N].
Qed.
(** the error of the elastic strains of one step is reported as a failed update of the next *)
Lemma stale_error : exists B el e t T, (forall next past s h u p, exists r, ba_update B next past s h u p = Some r) /\
  (exists q, csimple B el e t T 1 = Some q) /\ csimple B el e t T 2 = None.
Proof.
  exists (free_solid 1), (fun _ => false), 1, 1, 0. split; [intros; eexists; reflexivity |]. split; [eexists; reflexivity | reflexivity].
Qed.

(** *** A history of two steps, and one refused *)
Definition shear_inc (x : R) : tinc := {| tn_e := fun i j => match i, j with 0%nat, 1%nat | 1%nat, 0%nat => x | 0%nat, 0%nat => x | _, _ => 0 end; tn_t := 1; tn_T := 0 |}.
Lemma shear_inc_sym x : symmetric (tn_e (shear_inc x)).
Proof. intros i j Hi Hj. destruct i as [|[|[|i]]]; try lia; destruct j as [|[|[|j]]]; try lia; reflexivity. Qed.
Lemma solid_run g : exists q, aba_run (free_solid g) 6 1 (map abq_inc [shear_inc 1; shear_inc 2]) (aba_start (free_solid g) 0 0) = Some q /\
  ap_stress (at_p q) 3%nat = 2 * g * 3 /\ ap_stress (at_p q) 0%nat = 2 * g * 3 /\ ap_statev (at_p q) 0%nat = 2.
Proof.
  pose proof (history (free_solid g) 0 0 1 [shear_inc 1; shear_inc 2] (le_n 1)) as H.
  assert (Hs : forall d, In d [shear_inc 1; shear_inc 2] -> symmetric (tn_e d)) by (intros d [<-|[<-|[]]]; apply shear_inc_sym).
  specialize (H Hs). destruct (aba_run _ _ _ _ _) as [q|].
  - destruct H as (n & R1 & M). exists q. split; [reflexivity |].
    destruct M as (_ & _ & _ & _ & Hst & Hh & _). rewrite (Hst 3%nat), (Hst 0%nat), Hh by lia.
    inversion R1 as [|d1 ds1 qa qb qc A1 D1 R2]; subst. inversion R2 as [|d2 ds2 qa' qb' qc' A2 D2 R3]; subst. inversion R3; subst.
    destruct D1 as (r1 & U1 & E1 & _ & _ & _ & _ & H1 & _). destruct D2 as (r2 & U2 & E2 & _ & _ & _ & V2 & H2 & _).
    cbn [free_solid ba_update] in U1, U2. rewrite H2. 
    assert (r1s : pr_h r1 0%nat = 1) by (assert (X : forall y, Some y = Some r1 -> pr_h y 0%nat = pr_h r1 0%nat) by congruence; rewrite <- (X _ U1); cbn; ring).
    assert (r2h : pr_h r2 0%nat = nn_h qb 0%nat + 1) by (assert (X : forall y, Some y = Some r2 -> pr_h y 0%nat = pr_h r2 0%nat) by congruence; rewrite <- (X _ U2); reflexivity).
    assert (r2s : forall k, pr_s r2 k = 2 * g * mandel (tplus (nn_e qb) (tn_e (shear_inc 2))) k) by (intros k; assert (X : forall y, Some y = Some r2 -> pr_s y k = pr_s r2 k) by congruence; rewrite <- (X _ U2); reflexivity).
    pose proof (V2 0%nat ltac:(lia)) as S0. pose proof (V2 5%nat ltac:(lia)) as S5. rewrite r2s in S0, S5. rewrite E1 in S0, S5. cbn in S0, S5. cbn [abq_stress].
    pose proof sqrt2_nz. split; [| split].
    + apply Rmult_eq_reg_l with (sqrt 2); [| assumption]. rewrite S5. unfold tplus. cbn [shear_inc tn_e]. ring.
    + rewrite S0. unfold tplus. cbn [shear_inc tn_e]. ring.
    + rewrite r2h, H1, r1s. ring.
  - exfalso. destruct H as (pre & d & post & n & _ & _ & F). discriminate F.
Qed.
Lemma solid_cut : exists p m, aba_call (solid 1 1) 6 1 (abq_inc (shear_inc 2)) (aba_start (solid 1 1) 0 0) = Back p m /\ ap_pnewdt p = 1 / 2 /\ m = 1%nat.
Proof.
  unfold aba_call. rewrite umat_eq by (cbn; lia). rewrite solid_refuses by (cbn; lra). eexists _, _. split; [reflexivity |]. split; reflexivity.
Qed.
