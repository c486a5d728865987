(** Cases that meet every hypothesis of the consistent tangents of a creep + plasticity step and
    of a damaged step, with the derivative of the stress they give. *)
From Coq Require Import List Lia Lra.
From Verif Require Import Base.
From Verif Require Import Diff.
From Coq Require Import ClassicalDescription FunctionalExtensionality.
From Verif Require Import NemlMathModel NemlMathSpec NemlMathProofs SolverModel SolverSpec SolverProofs SubstepModel SurfModel SurfSpec SurfProofs HardProofs RiProofs.
From Verif Require Import PlastModel PlastSpec PlastProofs ViscoProofs YaguchiProofs CreepModel CreepSpec CreepProofs J2CreepProofs CreepPlastProofs CreepEx.
From Verif Require Import DamageModel DamageSpec DamageProofs WorkDamageProofs EffStressProofs PrincipalProofs DamagedProofs LarsonProofs DamageEx CreepProps DamageProps.
Open Scope R_scope.

(** the elastic bar: its tangent is the derivative of its stress *)
Lemma bar_tangent next past sn hn x : base_tangent_at bar next past sn hn x.
Proof.
  intros y r u vy Hu Hy HL i Hi. cbn [ba_update bar with_e ld_e] in HL.
  assert (E : mv 6 (pr_A (r u)) vy i = vy i).
  { pose proof (locally_singleton _ _ HL) as E. cbv beta in E. injection E as E. rewrite <- E. cbn [pr_A]. apply mv_delta, Hi. }
  rewrite E. apply (is_derive_ext_loc (fun w => y w i)); [|apply Hy, Hi].
  apply (filter_imp _ _ (fun w H => f_equal (fun o => match o with Some q => pr_s q i | None => 0 end) H) HL).
Qed.
(** one unit of time of creep from zero strain, under any stress that is neither tiny nor creeping less than the tolerance *)
Lemma creep_step_any s en : veq 6 en vzero -> eps <= seq s -> 1 / 2 < dev_vec s 0%nat -> exists x A, cr_update lsd invd prmd lin_M s en 0 0 1 0 = Some (x, A) /\
  veq 6 x (dev_vec s).
Proof.
  intros He Hs H2.
  assert (RR : forall x i, (i < 6)%nat -> cr_R lin_M s en 0 1 (1 - 0) x i = x i - dev_vec s i).
  { intros x0 i Hi. unfold cr_R. rewrite lin_f by exact Hs. rewrite (He i Hi). unfold vzero. ring. }
  assert (JJ : forall x i j, cr_J lin_M s 0 1 (1 - 0) x i j = delta i j).
  { intros x0 i j. unfold cr_J, lin_M, lin_r. cbn [cr_fe J2Creep sc_ge PowerLawCreep]. unfold zero4. ring. }
  pose (d := cr_R lin_M s en 0 1 (1 - 0) en). pose (x1 := (fun j => en j - 1 * d j) : vec).
  destruct (newton_one 6 en (fun x : vec => Some (cr_R lin_M s en 0 1 (1 - 0) x, cr_J lin_M s 0 1 (1 - 0) x)) lsd prmd
     d (cr_J lin_M s 0 1 (1 - 0) en) d (cr_R lin_M s en 0 1 (1 - 0) x1) (cr_J lin_M s 0 1 (1 - 0) x1)) as (c & HN); try reflexivity.
  - unfold prmd, miter. lia.
  - apply Rle_trans with (Rabs (d 0%nat)); [|apply norm_comp; lia]. unfold d. rewrite RR by lia. rewrite (He 0%nat) by lia. unfold vzero, prmd, atol.
    rewrite Rabs_left; lra.
  - unfold lsd. destruct (excluded_middle_informative _) as [|N]; [reflexivity|]. exfalso. apply N. intros i Hi.
    transitivity (mv 6 delta d i); [|apply mv_delta, Hi]. unfold mv. apply rsum_ext. intros j Hj. rewrite JJ. reflexivity.
  - rewrite norm_small; [unfold prmd, atol; lra|]. intros i Hi. rewrite RR by exact Hi. unfold x1, d. rewrite RR by exact Hi. rewrite (He i Hi). unfold vzero. ring.
  - unfold cr_update, cr_solve. rewrite HN. unfold cr_tangent. rewrite (invd_delta _ (JJ _)). eexists _, _. split; [reflexivity|].
    intros i Hi. unfold x1, d. rewrite RR by exact Hi. rewrite (He i Hi). unfold vzero. ring.
Qed.
Lemma dev0_seq s : 1 / 2 < dev_vec s 0%nat -> eps <= seq s.
Proof.
  intros H. pose proof eps_lt_1 as E. assert (E2 : eps <= 1 / 2) by (unfold eps; lra).
  unfold seq. pose proof (norm_comp 6 (dev_vec s) 0 ltac:(lia)) as N. rewrite Rabs_pos_eq in N by lra.
  assert (Q : 1 <= sqrt (3 / 2)) by (rewrite <- sqrt_1; apply sqrt_le_1_alt; lra). nra.
Qed.
Lemma dev_path (y : R -> vec) u vy : path 6 y u vy -> path 6 (fun w => dev_vec (y w)) u (mv 6 devm vy).
Proof.
  intros Hy i Hi. assert (E : mv 6 devm vy i = dev_vec vy i).
  { unfold mv, devm, delta, dev_vec. do 6 (destruct i as [|i]; [cbn; field|]). lia. }
  rewrite E. pose proof (Hy 0%nat ltac:(lia)) as H0. pose proof (Hy 1%nat ltac:(lia)) as H1. pose proof (Hy 2%nat ltac:(lia)) as H2. pose proof (Hy i Hi) as HI.
  unfold dev_vec. destruct (Nat.ltb i 3).
  - apply (is_derive_minus (fun w => y w i) (fun w => (y w 0%nat + y w 1%nat + y w 2%nat) / 3)); [exact HI|].
    apply (is_derive_ext (fun w => / 3 * (y w 0%nat + y w 1%nat + y w 2%nat))); [intros t; unfold Rdiv; apply Rmult_comm|].
    replace ((vy 0%nat + vy 1%nat + vy 2%nat) / 3) with (/ 3 * (vy 0%nat + vy 1%nat + vy 2%nat)) by (unfold Rdiv; apply Rmult_comm).
    apply (is_derive_scal (fun w => y w 0%nat + y w 1%nat + y w 2%nat)).
    apply (is_derive_plus (fun w => y w 0%nat + y w 1%nat)); [apply (is_derive_plus (fun w => y w 0%nat)); assumption|exact H2].
  - exact HI.
Qed.
Lemma lin_tangent en s : veq 6 en vzero -> veq 6 s (uni 1) -> creep_tangent_at (cr_update lsd invd prmd lin_M) en 0 0 1 0 s.
Proof.
  intros He Hs y r u vy Hu Hy HL.
  destruct (creep_step s en Hs He) as (x0 & A0 & H0 & _ & HA).
  pose proof (locally_singleton _ _ HL) as E. cbv beta in E. rewrite Hu, H0 in E. injection E as E.
  assert (HD : locally u (fun w => 1 / 2 < dev_vec (y w) 0%nat)).
  { pose proof (ex_derive_continuous _ _ (ex_intro _ _ (dev_path y u vy Hy 0%nat ltac:(lia)))) as C.
    apply (C (fun z => 1 / 2 < z)). apply (open_gt (1 / 2)). rewrite Hu, (dev_ext6 _ _ Hs 0%nat) by lia. unfold dev_vec, uni. cbn. lra. }
  intros i Hi. replace (mv 6 (snd (r u)) vy i) with (mv 6 devm vy i).
  - apply (is_derive_ext_loc (fun w => dev_vec (y w) i)); [|apply dev_path; assumption].
    generalize (filter_and _ _ HL HD). apply filter_imp. intros w (E1 & E2). destruct (r w) as [x A] eqn:Er. cbn [fst].
    destruct (creep_step_any (y w) en He (dev0_seq _ E2) E2) as (x' & A' & E3 & E4). rewrite E1 in E3. injection E3 as -> _. symmetry. apply E4, Hi.
  - rewrite <- E. cbn [snd]. unfold mv. apply rsum_ext. intros j Hj. rewrite HA by assumption. reflexivity.
Qed.

(** the bar of C38_case pulled further: along plastic strain uni 1 + w uni 1 and the matching total strain, the stress has the derivative the returned tangent says *)
Example C38_tangent_case : exists res x, sscp_update lsd invd prmd (cr_update lsd invd prmd lin_M) bar 1
    (hold (vadd (uni 1) (dev_vec (uni 1))) 1) (hold (uni 1) 0) (uni 1) bar_h 0 0 = Some res /\ veq 6 (pr_h res) x /\ veq 6 x (uni 1) /\
  base_tangent_at bar (hold (vadd (uni 1) (dev_vec (uni 1))) 1) (with_e bar_h (hold (uni 1) 0)) (uni 1) (fun i => bar_h (6 + i)%nat) x /\
  creep_tangent_at (cr_update lsd invd prmd lin_M) (fun i => uni 1 i - bar_h i) 0 0 1 0 (pr_s res) /\
  (forall i, (i < 6)%nat -> is_derive (fun w => x i + w * uni 1 i) 0 (mv 6 (pr_A res) (vadd (uni 1) (dev_vec (uni 1))) i)).
Proof.
  destruct hold_step as (res & H & Hs & Hh & _ & _ & HA).
  destruct (C38_consistent_tangent _ _ _ _ _ _ _ _ _ _ _ _ _ bar_free invd_ok H) as (x & Hx & K).
  assert (Hb : veq 6 (fun i => uni 1 i - bar_h i) vzero).
  { intros i Hi. unfold bar_h. apply Nat.ltb_lt in Hi. rewrite Hi. unfold vzero. ring. }
  assert (HX : veq 6 x (uni 1)) by (intros i Hi; rewrite <- (Hx i Hi); apply Hh, Hi).
  pose proof (lin_tangent (fun i => uni 1 i - bar_h i) (pr_s res) Hb Hs) as HC.
  exists res, x. split; [exact H|]. split; [exact Hx|]. split; [exact HX|]. split; [apply bar_tangent|]. split; [exact HC|].
  pose (ep := fun w : R => (fun i => x i + w * uni 1 i) : vec).
  pose (rb := fun w : R => {| pr_s := ep w; pr_h := (fun i => bar_h (6 + i)%nat) : vec; pr_A := delta; pr_u := 0; pr_p := 0 |}).
  assert (Pep : path 6 ep 0 (uni 1)).
  { intros i Hi. unfold ep. auto_derive; [exact I|ring]. }
  assert (PD : path 6 (fun w => dev_vec (ep w)) 0 (dev_vec (uni 1))).
  { intros i Hi. pose proof (dev_path ep 0 (uni 1) Pep i Hi) as Q. replace (dev_vec (uni 1) i) with (mv 6 devm (uni 1) i); [exact Q|].
    unfold mv, devm, delta, dev_vec, uni. do 6 (destruct i as [|i]; [cbn; field|]). lia. }
  assert (Hl : forall w i, (i < 6)%nat -> ep w i = (1 + w) * uni 1 i) by (intros w i Hi; unfold ep; rewrite HX by exact Hi; ring).
  pose (ex := fun w : R => (fun i => ep w i + dev_vec (ep w) i) : vec).
  assert (Pe : path 6 ex 0 (vadd (uni 1) (dev_vec (uni 1)))).
  { intros i Hi. unfold ex, vadd. apply (is_derive_plus (fun w => ep w i) (fun w => dev_vec (ep w) i)); [apply Pep, Hi|apply PD, Hi]. }
  assert (C : forall w, -1 / 8 < w -> exists x A, cr_update lsd invd prmd lin_M (ep w) (fun i => uni 1 i - bar_h i) 0 0 1 0 = Some (x, A) /\ veq 6 x (dev_vec (ep w))).
  { intros w Hw. assert (D : 1 / 2 < dev_vec (ep w) 0%nat).
    { unfold dev_vec. cbn [Nat.ltb Nat.leb]. rewrite !Hl by lia. unfold uni. cbn. lra. }
    apply (creep_step_any (ep w) _ Hb (dev0_seq _ D) D). }
  assert (L : locally 0 (fun w : R => -1 / 8 < w)) by (apply (open_gt (-1 / 8)); lra).
  pose (ec := fun w => match cr_update lsd invd prmd lin_M (ep w) (fun i => uni 1 i - bar_h i) 0 0 1 0 with Some r => r | None => (vzero, delta) end).
  assert (H0 : ep 0 = x).
  { unfold ep. apply functional_extensionality. intros i. ring. }
  destruct (K ex ep rb ec vzero 0 (vadd (uni 1) (dev_vec (uni 1))) (uni 1) Pe Pep H0) as (_ & KK).
  - apply bar_tangent.
  - exact HC.
  - apply filter_forall. intros w. reflexivity.
  - generalize L. apply filter_imp. intros w Hw. destruct (C w Hw) as (x' & A' & E & _). cbn [pr_s rb]. unfold ec. cbn [hold ld_T ld_t ld_e]. rewrite E. reflexivity.
  - generalize L. apply filter_imp. intros w Hw i Hi. destruct (C w Hw) as (x' & A' & E & E2). unfold ec. rewrite E. cbn [fst]. unfold ex. rewrite (E2 i Hi). unfold vzero. ring.
  - exact KK.
Qed.

(** the damaged bar of C36_case pulled further: axial strain y(x), damage 1/4 + x *)
Definition bw (x : R) : R := 1 / 4 + x.
Definition by_ (x : R) : R := (- (1 - bw x) / 12 + sqrt ((1 - bw x) ^ 2 / 144 + 4 * bw x ^ 2 * (1 - bw x))) / (2 * bw x * (1 - bw x)).
Definition brb (x : R) : pres := {| pr_s := uni (by_ x); pr_h := fun i => bhn (S i); pr_A := delta; pr_u := 0; pr_p := 0 |}.
Lemma by_root x : -1 / 8 < x < 1 / 8 -> by_ x * (1 - bw x) * (1 / 12 + by_ x * bw x) = bw x.
Proof.
  intros H. unfold by_. set (w := bw x). assert (Hw : 1 / 8 < w < 3 / 8) by (unfold w, bw; lra).
  set (q := sqrt _). assert (Q : q * q = (1 - w) ^ 2 / 144 + 4 * w ^ 2 * (1 - w)) by (apply sqrt_sqrt; nra).
  apply (Rmult_eq_reg_r (4 * w * (1 - w))); [|nra].
  transitivity ((q * q - (1 - w) ^ 2 / 144)); [field; lra|]. rewrite Q. field.
Qed.
Lemma by_0 : by_ 0 = 1.
Proof.
  unfold by_, bw. replace ((1 - (1 / 4 + 0)) ^ 2 / 144 + 4 * (1 / 4 + 0) ^ 2 * (1 - (1 / 4 + 0))) with ((7 / 16) * (7 / 16)) by field.
  rewrite sqrt_square by lra. field.
Qed.
Lemma by_pos x : -1 / 8 < x < 1 / 8 -> 0 < by_ x.
Proof.
  intros H. unfold by_. set (w := bw x). assert (Hw : 1 / 8 < w < 3 / 8) by (unfold w, bw; lra).
  apply Rdiv_lt_0_compat; [|nra]. assert ((1 - w) / 12 < sqrt ((1 - w) ^ 2 / 144 + 4 * w ^ 2 * (1 - w))); [|lra].
  rewrite <- (sqrt_square ((1 - w) / 12)) at 1 by lra. apply sqrt_lt_1_alt. split; [nra|]. assert (0 < w ^ 2 * (1 - w)) by (apply Rmult_lt_0_compat; nra). nra.
Qed.
Lemma by_deriv : is_derive by_ 0 (4 / 3).
Proof.
  unfold by_, bw. auto_derive.
  - split; [nra|]. split; [lra|exact I].
  - match goal with |- context [sqrt ?e] => replace e with ((7 / 16) * (7 / 16)) by field end.
    rewrite sqrt_square by lra. field.
Qed.
Definition bax (x : R) : dargs := dargs_of (with_e (uni (by_ x)) bnext) bpast (bw x) (bhn 0%nat) (fun i => (1 - bw x) * pr_s (brb x) i / (1 - bw x)) (fun i => bsn i / (1 - bhn 0%nat)).
Lemma bax_work x : -1 / 8 < x < 1 / 8 -> plastic_work S1 (bax x) = by_ x * (1 / 12 + by_ x * bw x).
Proof.
  intros H. assert (Hw : 1 / 8 < bw x < 3 / 8) by (unfold bw; lra). unfold plastic_work. rewrite (dot_uni (by_ x) (1 / 12 + by_ x * bw x)); [reflexivity| |].
  - intros i Hi. unfold bax, brb. cbn [as_ dargs_of pr_s]. field. lra.
  - intros i Hi. unfold S1. rewrite mv_delta by exact Hi. unfold bax, brb. cbn [as_ asn ad adn ae aen dargs_of pr_s with_e ld_e bpast hold].
    unfold bsn, bhn, uni. do 6 (destruct i as [|i]; [cbn; field; lra|]). lia.
Qed.
Lemma bax_pos x : -1 / 8 < x < 1 / 8 -> 0 < plastic_work S1 (bax x).
Proof. intros H. rewrite bax_work by exact H. pose proof (by_pos x H). assert (0 < bw x) by (unfold bw; lra). nra. Qed.
Lemma bax_dm x : -1 / 8 < x < 1 / 8 -> dm W4 (bax x) = bw x.
Proof.
  intros H. assert (Hw : 1 / 8 < bw x < 3 / 8) by (unfold bw; lra). pose proof (bax_pos x H) as Hp.
  assert (E : workrate S1 1 (bax x) (Rabs (ad (bax x))) = bw x).
  { rewrite workrate_pos; [|change (ad (bax x)) with (bw x); lra|change (ad (bax x)) with (bw x); lra|exact Hp|unfold bax, dargs_of, with_e, bnext, bpast, hold; cbn [at_ atn ld_t]; lra].
    rewrite bax_work by exact H. change (ad (bax x)) with (bw x). change (at_ (bax x)) with 1. change (atn (bax x)) with 0. rewrite <- (by_root x H) at 3. field. }
  unfold W4, WorkDamage. cbv zeta beta. cbn [dm]. rewrite E. change (ad (bax x)) with (bw x). change (at_ (bax x)) with 1. change (atn (bax x)) with 0. change (adn (bax x)) with 0.
  destruct (Req_EM_T (bw x) 0); [lra|]. unfold wcrit. rewrite (Rabs_pos_eq (bw x)) by lra. replace ((1 - 1) / 1) with 0 by field. rewrite cpow_0 by lra. field.
Qed.
Lemma bax_0 : bax 0 = ba (fun i => (1 - 1 / 4) * uni 1 i / (1 - 1 / 4)).
Proof. unfold bax, brb, ba, eff_s. rewrite by_0. unfold bw. replace (1 / 4 + 0) with (1 / 4) by ring. reflexivity. Qed.
Definition work_domain (a : dargs) : Prop := 0 < ad a < 1 /\ atn a < at_ a /\ 0 < plastic_work S1 a /\ wcrit false (fun _ => 1) (plastic_work S1 a * (1 - ad a) / (at_ a - atn a)) <> 0.
Example C36_tangent_case : exists res, dmg_update nols invb prmd keep S1 bar W4 bnext bpast bsn bhn 0 0 = Some res /\ pr_h res 0%nat <> 1 /\
  damage_exact work_domain W4 /\ inv_ok invb /\ energy_free bar /\ ~ removed keep (bhn 0%nat) /\ work_domain (bax 0) /\
  base_tangent_at bar bnext bpast (fun i => bsn i / (1 - bhn 0%nat)) (fun i => bhn (S i)) (uni (by_ 0)) /\
  locally 0 (fun x => bw x - dm W4 (bax x) = 0) /\
  (forall i, (1 - bw 0) * uni (by_ 0) i = pr_s res i) /\
  path 6 (fun x i => (1 - bw x) * uni (by_ x) i) 0 (mv 6 (pr_A res) (uni (4 / 3))).
Proof.
  destruct b_step as (res & H & H0 & _). exists res.
  assert (HD : damage_exact work_domain W4).
  { apply C34_work_partial; [exact S1_sym| |lra|lra]. intros x. apply (is_derive_const (1 : R) x). }
  assert (HR : ~ removed keep (bhn 0%nat)) by (unfold removed, keep, bhn; cbn; lra).
  assert (HP : work_domain (bax 0)).
  { split; [change (ad (bax 0)) with (bw 0); unfold bw; lra|]. split; [change (at_ (bax 0)) with 1; change (atn (bax 0)) with 0; lra|].
    split; [apply bax_pos; lra|]. unfold wcrit. lra. }
  assert (L : locally 0 (fun x : R => -1 / 8 < x < 1 / 8)).
  { apply (filter_and (F := locally 0)); [apply (open_gt (-1 / 8)); lra|apply (open_lt (1 / 8)); lra]. }
  assert (LW : locally 0 (fun x => bw x - dm W4 (bax x) = 0)) by (generalize L; apply filter_imp; intros x Hx; rewrite bax_dm by exact Hx; ring).
  split; [exact H|]. split; [rewrite H0; lra|]. split; [exact HD|]. split; [exact invb_ok|]. split; [exact bar_free|]. split; [exact HR|].
  split; [exact HP|]. split; [apply bar_tangent|]. split; [exact LW|].
  apply (C36_consistent_tangent work_domain nols invb prmd keep S1 bar W4 bnext bpast bsn bhn 0 0 res ltac:(unfold prmd, miter; lia) HD invb_ok bar_free HR H ltac:(rewrite H0; lra)
    (fun x => uni (by_ x)) bw brb 0 0 (uni (4 / 3)) 1).
  - intros i Hi. destruct i as [|i].
    + exact by_deriv.
    + apply (is_derive_ext (fun _ => 0)); [intros t; unfold uni; reflexivity|]. unfold uni. cbn. apply (is_derive_const (0 : R)).
  - rewrite by_0. reflexivity.
  - unfold bw. auto_derive; [exact I|ring].
  - rewrite H0. unfold bw. ring.
  - exact HP.
  - change (1 - 1 / (1 - ad (bax 0)) * dot 6 (dm_s W4 (bax 0)) (as_ (bax 0)) - dm_d W4 (bax 0) <> 0). rewrite bax_0, ba_k1; [lra|]. intros i Hi. field.
  - apply bar_tangent.
  - apply filter_forall. intros x. reflexivity.
  - exact LW.
Qed.
