(** Whole calls of the single crystal: equations, rotation, energy, elastic crystals, no time. *)
From Verif Require Import Base.
From Verif Require Import Diff.
From Verif Require Import NemlMathModel.
From Verif Require Import NemlMathSpec.
From Verif Require Import NemlMathProofs.
From Verif Require Import SolverModel.
From Verif Require Import PlastSpec.
From Verif Require Import PlastProofs.
From Verif Require Import SurfProofs.
From Verif Require Import J2CreepProofs.
From Verif Require Import RotModel.
From Verif Require Import RotSpec.
From Verif Require Import RotProofs.
From Verif Require Import RotMore.
From Verif Require Import TensorModel.
From Verif Require Import CpModel.
From Verif Require Import CpSpec.
From Verif Require Import CpProofs.
From Verif Require Import CpFacts.
From Verif Require Import CpTurn.
From Verif Require Import ScModel.
From Verif Require Import ScSpec.
From Verif Require Import ScProofs.
From Verif Require Import ScMore.
From Coq Require Import List ZArith Lia Lra.

(** *** The dispatch *)
Lemma update_attempt fuel lsolve inv c o k r : sc_update fuel lsolve inv c o k = Some (Some r) ->
  exists pred, attempt fuel lsolve inv c o k pred = Some (Some r).
Proof.
  intros H. unfold sc_update in H. destruct (andb _ _); [exists true; exact H|]. destruct (so_pred o); [exists true; exact H|].
  destruct (attempt fuel lsolve inv c o k false) as [[r'|]|] eqn:E; [exists false; rewrite E; exact H| |discriminate].
  destruct (so_fallback o); [exists true; exact H|discriminate].
Qed.
Lemma dispatch fuel lsolve inv c o k :
  (so_pred o = true \/ (k_t0 k = 0 /\ so_first o = true) -> sc_update fuel lsolve inv c o k = attempt fuel lsolve inv c o k true) /\
  (so_pred o = false -> so_first o = false \/ k_t0 k <> 0 -> forall r, attempt fuel lsolve inv c o k false = Some (Some r) -> sc_update fuel lsolve inv c o k = Some (Some r)) /\
  (so_pred o = false -> so_first o = false \/ k_t0 k <> 0 -> attempt fuel lsolve inv c o k false = Some None ->
     sc_update fuel lsolve inv c o k = if so_fallback o then attempt fuel lsolve inv c o k true else Some None).
Proof.
  unfold sc_update. split; [|split].
  - intros [E|[E1 E2]]; [rewrite E; destruct (andb _ _); reflexivity|]. rewrite E2. destruct (Req_EM_T (k_t0 k) 0) as [_|N]; [reflexivity|contradiction].
  - intros E1 E2 r H. rewrite E1, H. destruct E2 as [E2|E2]; [rewrite E2, Bool.andb_false_r; reflexivity|]. destruct (Req_EM_T (k_t0 k) 0); [contradiction|reflexivity].
  - intros E1 E2 H. rewrite E1, H. destruct E2 as [E2|E2]; [rewrite E2, Bool.andb_false_r; reflexivity|]. destruct (Req_EM_T (k_t0 k) 0); [contradiction|reflexivity].
Qed.

(** *** The equations *)
Lemma gap_whole c k x : forall i, euler_gap c k (/ 2 ^ 0) (k_T0 k + (k_T1 k - k_T0 k) * / 2 ^ 0) (k_s k) (k_h k) x i = whole_gap c k x i.
Proof. intros i. rewrite T_whole. cbn [pow]. rewrite Rinv_1. reflexivity. Qed.
Lemma update_solves fuel lsolve inv c o k r : so_force o = 0%nat -> so_max o = 0%nat -> (1 <= miter (so_prm o))%Z -> k_t1 k <> k_t0 k ->
  sc_update fuel lsolve inv c o k = Some (Some r) ->
  (forall q, r_h r q = r_s r (6 + q)%nat) /\
  exists s, (s = k_s k \/ forall i, (i < 6)%nat -> s i = k_s k i + mv 6 (flat 6 (c_C c (k_T1 k) (k_q k))) (inc_d k) i) /\
    within_tolerance (so_prm o) (6 + c_n c) (whole_gap c k (r_s r)) (whole_gap c k (state_vec s (k_h k))).
Proof.
  intros Hf Hm Hi Hd H. destruct (update_attempt _ _ _ _ _ _ _ H) as (pred & HA).
  destruct (attempt_ended fuel lsolve inv c o k pred r ltac:(lia) HA) as (out & (sd & s0 & h0 & A & B & Hsd & _ & H0 & HS & Hh & _) & _).
  assert (E : sd = 0%nat) by lia. subst sd. rewrite Hf in H0. destruct (H0 eq_refl eq_refl) as [-> ->].
  split; [intros q; rewrite Hh; reflexivity|].
  pose proof (solve_tol lsolve c o k pred 0 (k_s k) (k_h k) (r_s r) Hi Hd HS) as W. unfold tol_step in W. cbv zeta in W.
  exists (t_S (sub_trial c k pred 0 (k_s k) (k_h k))). split.
  - destruct pred; [right|left; reflexivity]. intros i Hl. unfold sub_trial. cbn [t_S]. unfold vadd, sk_increment. rewrite T_whole. f_equal.
    rewrite Rmult_comm, <- mv_scal. apply mv_vec_ext. intros j Hj. pose proof (dt_D k j) as E. destruct (Req_EM_T (k_dt k) 0) as [Z|_]; [unfold k_dt in Z; lra|].
    cbn [pow]. rewrite Rinv_1, Rmult_1_r. exact E.
  - unfold within_tolerance in *. rewrite (norm2_ext _ (whole_gap c k (r_s r)) (euler_gap c k (/ 2 ^ 0) (k_T0 k + (k_T1 k - k_T0 k) * / 2 ^ 0) (k_s k) (k_h k) (r_s r))) by (intros i Hi'; symmetry; apply gap_whole).
    rewrite (norm2_ext _ (whole_gap c k (state_vec (t_S (sub_trial c k pred 0 (k_s k) (k_h k))) (k_h k))) (euler_gap c k (/ 2 ^ 0) (k_T0 k + (k_T1 k - k_T0 k) * / 2 ^ 0) (k_s k) (k_h k) (sc_init (sub_trial c k pred 0 (k_s k) (k_h k))))) by (intros i Hi'; symmetry; apply gap_whole).
    exact W.
Qed.
(** With subdivision only the last substep is known to be solved, and its stress starts from
    the stress at the start of the whole call. *)
Lemma update_last fuel lsolve inv c o k r : (so_force o <= so_max o)%nat -> (1 <= miter (so_prm o))%Z -> k_t1 k <> k_t0 k ->
  sc_update fuel lsolve inv c o k = Some (Some r) ->
  (forall q, r_h r q = r_s r (6 + q)%nat) /\
  exists sd s0 h0 start, (so_force o <= sd <= so_max o)%nat /\
    let f := / 2 ^ sd in let T := k_T0 k + (k_T1 k - k_T0 k) * f in
    within_tolerance (so_prm o) (6 + c_n c) (euler_gap c k f T s0 h0 (r_s r)) (euler_gap c k f T s0 h0 start).
Proof.
  intros Hf Hi Hd H. destruct (update_attempt _ _ _ _ _ _ _ H) as (pred & HA).
  destruct (attempt_ended fuel lsolve inv c o k pred r Hf HA) as (out & (sd & s0 & h0 & A & B & Hsd & _ & _ & HS & Hh & _) & _).
  split; [intros q; rewrite Hh; reflexivity|]. exists sd, s0, h0, (sc_init (sub_trial c k pred sd s0 h0)). split; [exact Hsd|].
  exact (solve_tol lsolve c o k pred sd s0 h0 (r_s r) Hi Hd HS).
Qed.
Lemma update_complete fuel lsolve inv c o k r : (so_force o <= so_max o)%nat -> sc_update fuel lsolve inv c o k = Some (Some r) -> r_AB r <> None.
Proof.
  intros Hf H. destruct (update_attempt _ _ _ _ _ _ _ H) as (pred & HA).
  destruct (attempt_ended fuel lsolve inv c o k pred r Hf HA) as (out & (sd & s0 & h0 & A & B & _ & _ & _ & _ & _ & _ & Ho) & HO & _).
  destruct (HO _ _ _ Ho) as [-> _]. discriminate.
Qed.

(** *** The rotation *)
Lemma rotation_ended fuel lsolve inv c o k r : (so_force o <= so_max o)%nat -> sc_update fuel lsolve inv c o k = Some (Some r) ->
  exists sd pred s0 h0, (so_force o <= sd <= so_max o)%nat /\ r_q r = if so_rot o then sc_rot c (sub_trial c k pred sd s0 h0) (r_s r) (r_h r) else k_q k.
Proof.
  intros Hf H. destruct (update_attempt _ _ _ _ _ _ _ H) as (pred & HA).
  destruct (attempt_ended fuel lsolve inv c o k pred r Hf HA) as (out & (sd & s0 & h0 & A & B & Hsd & _ & _ & _ & _ & _ & Ho) & HO & _).
  exists sd, pred, s0, h0. split; [exact Hsd|]. apply (HO _ _ _ Ho).
Qed.
Lemma rotation_unit fuel lsolve inv c o k r : (so_force o <= so_max o)%nat -> unitq (k_q k) -> sc_update fuel lsolve inv c o k = Some (Some r) -> unitq (r_q r).
Proof.
  intros Hf U H. destruct (rotation_ended _ _ _ _ _ _ _ Hf H) as (sd & pred & s0 & h0 & _ & ->).
  destruct (so_rot o); [|exact U]. unfold sc_rot. apply unitq_mul; [apply wexp_unit|exact U].
Qed.
Lemma rotation_kept fuel lsolve inv c o k r : (so_force o <= so_max o)%nat -> so_rot o = false -> sc_update fuel lsolve inv c o k = Some (Some r) -> r_q r = k_q k.
Proof. intros Hf E H. destruct (rotation_ended _ _ _ _ _ _ _ Hf H) as (sd & pred & s0 & h0 & _ & ->). rewrite E. reflexivity. Qed.
(** The angle: vorticity less the plastic spin, over the step. *)
Definition lattice_turn (c : crystal) (k : call) (r : scout) : vec := fun l =>
  inc_w k l - (k_t1 k - k_t0 k) * i_wp (c_im c (k_T1 k) (k_q k)) (r_s r) (r_h r) l.
Lemma wexp_ext a b : veq 3 a b -> wexp a = wexp b.
Proof. intros H. unfold wexp, norm3, dot3. rewrite !H by lia. reflexivity. Qed.
Lemma rotation_value fuel lsolve inv c o k r : so_force o = 0%nat -> so_max o = 0%nat -> so_rot o = true -> k_t1 k <> k_t0 k ->
  sc_update fuel lsolve inv c o k = Some (Some r) -> r_q r = qmul (wexp (lattice_turn c k r)) (k_q k).
Proof.
  intros Hf Hm Hr Hd H. assert (HL : (so_force o <= so_max o)%nat) by lia. destruct (rotation_ended _ _ _ _ _ _ _ HL H) as (sd & pred & s0 & h0 & Hsd & ->). rewrite Hr.
  assert (E : sd = 0%nat) by lia. subst sd. unfold sc_rot. change (t_Q (sub_trial c k pred 0 s0 h0)) with (k_q k). f_equal. apply wexp_ext.
  intros l Hl. unfold sc_spin. rewrite spin_value by exact Hl. unfold t_im, sub_trial, lattice_turn. cbn [t_w t_dt t_T t_Q]. rewrite T_whole.
  pose proof (dt_W k l) as E. destruct (Req_EM_T (k_dt k) 0) as [Z|_]; [unfold k_dt in Z; lra|]. rewrite <- E. cbn [pow]. unfold k_dt. rewrite Rinv_1. ring.
Qed.
Lemma rotation_turns fuel lsolve inv c o k r v i : so_force o = 0%nat -> so_max o = 0%nat -> so_rot o = true -> k_t1 k <> k_t0 k ->
  sc_update fuel lsolve inv c o k = Some (Some r) -> (i < 3)%nat -> let om := lattice_turn c k r in norm3 om <> 0 ->
  apply_v (r_q r) v i = turned (fun l => om l / norm3 om) (norm3 om) (apply_v (k_q k) v) i.
Proof.
  intros Hf Hm Hr Hd H Hi om N. rewrite (rotation_value _ _ _ _ _ _ _ Hf Hm Hr Hd H). rewrite apply_v_mul by exact Hi. apply wexp_turns; assumption.
Qed.
Lemma rotation_none fuel lsolve inv c o k r v i : so_force o = 0%nat -> so_max o = 0%nat -> so_rot o = true -> k_t1 k <> k_t0 k ->
  sc_update fuel lsolve inv c o k = Some (Some r) -> (i < 3)%nat -> veq 3 (lattice_turn c k r) vzero ->
  apply_v (r_q r) v i = (if Nat.eqb i 2 then 1 else -1) * apply_v (k_q k) v i.
Proof.
  intros Hf Hm Hr Hd H Hi Z. rewrite (rotation_value _ _ _ _ _ _ _ Hf Hm Hr Hd H). rewrite apply_v_mul by exact Hi. rewrite (wexp_ext _ _ Z).
  unfold wexp. cbv zeta. destruct (Req_EM_T (norm3 vzero) 0) as [_|N].
  - set (w := apply_v (k_q k) v). unfold qdefault. cases3 i Hi; unfold apply_v, to_matrix; cbn; ring.
  - exfalso. apply N. unfold norm3, dot3, vzero. transitivity (sqrt 0); [f_equal; ring|apply sqrt_0].
Qed.

(** *** Energy *)
Lemma energy_value fuel lsolve inv c o k r : (so_force o <= so_max o)%nat -> sc_update fuel lsolve inv c o k = Some (Some r) ->
  r_u r = k_u k + trapezoid (r_s r) (k_s k) (k_d1 k) (k_d0 k) - rsum 6 (fun i => k_s k i * (k_d1 k i - k_d0 k i)).
Proof.
  intros Hf H. destruct (update_attempt _ _ _ _ _ _ _ H) as (pred & HA).
  destruct (attempt_ended fuel lsolve inv c o k pred r Hf HA) as (out & _ & _ & _ & -> & _).
  unfold sc_energy, sym_contract, trapezoid, vsub. cbn [rsum]. field.
Qed.
Lemma work_value fuel lsolve inv c o k r : (so_force o <= so_max o)%nat -> sc_update fuel lsolve inv c o k = Some (Some r) ->
  r_p r - k_p k = r_u r - k_u k - rsum 6 (fun i => (r_s r i - k_s k i) * (mv 6 (flat 6 (c_S c (k_T1 k) (r_q r))) (r_s r) i - mv 6 (flat 6 (c_S c (k_T0 k) (k_q k))) (k_s k) i)) / 2.
Proof.
  intros Hf H. destruct (update_attempt _ _ _ _ _ _ _ H) as (pred & HA).
  destruct (attempt_ended fuel lsolve inv c o k pred r Hf HA) as (out & _ & _ & _ & -> & ->).
  unfold sc_work, sc_estrain, sk_estrain, sym_contract, vsub. ring.
Qed.

(** *** Elastic crystals *)
Lemma newton_at_once n init RJ lsolve prm r0 J0 : (1 <= miter prm)%Z -> RJ init = Some (r0, J0) -> norm2 n r0 < atol prm ->
  newton (vec_sys n init RJ lsolve) prm = Ok (init, (r0, J0), 1%nat).
Proof.
  intros Hm E Hn. unfold newton. cbn [vec_sys sys_RJ sys_init]. rewrite E. cbn [newton_loop vec_sys sys_norm fst]. unfold conv_test, flt at 1.
  destruct (Rlt_dec (norm2 n r0) (atol prm)) as [_|Nn]; [|contradiction]. cbn [orb].
  destruct (Z.eqb_spec 0 (miter prm)) as [Z|_]; [lia|]. reflexivity.
Qed.
Lemma norm2_zero n r : veq n r vzero -> norm2 n r = 0.
Proof. intros H. rewrite (norm2_ext n r vzero H). unfold norm2, dot. rewrite (rsum_ext n _ (fun _ => 0)) by (intros; unfold vzero; ring). rewrite rsum_0. apply sqrt_0. Qed.
Lemma solve_at_once lsolve c o k pred sd s h : (1 <= miter (so_prm o))%Z -> 0 < atol (so_prm o) ->
  veq (6 + c_n c) (sc_R c (sub_trial c k pred sd s h) (sc_init (sub_trial c k pred sd s h))) vzero ->
  sub_solve lsolve c o (sub_trial c k pred sd s h) = Some (sc_init (sub_trial c k pred sd s h)).
Proof.
  intros Hm Ha HR. unfold sub_solve. erewrite newton_at_once; [reflexivity|exact Hm|reflexivity|]. rewrite norm2_zero by exact HR. exact Ha.
Qed.
Lemma elastic_residual C S k sd s h : veq 3 (k_W k) vzero ->
  veq 6 (sc_R (elastic_crystal C S) (sub_trial (elastic_crystal C S) k true sd s h) (sc_init (sub_trial (elastic_crystal C S) k true sd s h))) vzero.
Proof.
  intros HW i Hi. unfold sc_R. rewrite (ltb6_t i Hi). unfold sc_init at 1. rewrite (ltb6_t i Hi). unfold sub_trial. cbn [t_S t_Sn t_f t_d t_dt t_im t_T t_Q].
  set (x := sc_init _). unfold vadd, sk_increment. unfold t_im. cbn [t_T t_Q c_im elastic_crystal c_C c_S]. set (T := k_T0 k + (k_T1 k - k_T0 k) * / 2 ^ sd).
  unfold sk_rate, sk_e, sk_O, sk_decouple. cbn [f_C f_S f_spin].
  match goal with |- context [mv 6 ?A (vsub ?a ?b) i] => rewrite (mv_vec_ext 6 A (vsub a b) (k_D k)) end; [unfold vzero; ring|].
  intros j Hj. unfold vsub. rewrite (net_ext _ (mv 6 (flat 6 (S T (k_q k))) x) _ (fun _ => 0) j); [rewrite net_0_r by exact Hj; cbn [i_dp no_inelasticity]; unfold vzero2; ring|reflexivity| |exact Hj].
  intros l Hl. unfold vadd. rewrite spin_value by exact Hl. rewrite HW by exact Hl. cbn [i_wp no_inelasticity]. unfold vzero2, vzero. ring.
Qed.
Lemma no_W k : veq 3 (k_w1 k) (k_w0 k) -> veq 3 (k_W k) vzero.
Proof. intros H l Hl. unfold k_W. destruct (Req_EM_T (k_dt k) 0); [reflexivity|]. rewrite H by exact Hl. unfold vzero. field. assumption. Qed.
(** Elastic response from the elastic predictor: the strain increment over 2^force. *)
Lemma elastic_stress fuel lsolve inv C S o k r : (so_force o <= so_max o)%nat -> (1 <= miter (so_prm o))%Z -> 0 < atol (so_prm o) -> so_pred o = true ->
  k_t1 k <> k_t0 k -> veq 3 (k_w1 k) (k_w0 k) -> sc_update fuel lsolve inv (elastic_crystal C S) o k = Some (Some r) ->
  forall i, (i < 6)%nat -> r_s r i = k_s k i + mv 6 (flat 6 (C (k_T0 k + (k_T1 k - k_T0 k) / 2 ^ so_force o) (k_q k))) (inc_d k) i / 2 ^ so_force o.
Proof.
  intros Hf Hm Ha Hp Hd HW H i Hi. rewrite (proj1 (dispatch fuel lsolve inv (elastic_crystal C S) o k) (or_introl Hp)) in H.
  destruct (attempt_ended fuel lsolve inv _ o k true r Hf H) as (out & (sd & s0 & h0 & A & B & Hsd & Hal & _ & HS & _) & _).
  assert (All : forall s h, sub_solve lsolve (elastic_crystal C S) o (sub_trial (elastic_crystal C S) k true (so_force o) s h) = Some (sc_init (sub_trial (elastic_crystal C S) k true (so_force o) s h))).
  { intros s h. apply solve_at_once; [exact Hm|exact Ha|]. apply elastic_residual. apply no_W. exact HW. }
  rewrite Hal in HS by (intros; rewrite All; discriminate). rewrite All in HS. injection HS as E. rewrite <- E. unfold sc_init. rewrite (ltb6_t i Hi).
  unfold sub_trial. cbn [t_S]. unfold vadd, sk_increment. cbn [elastic_crystal c_C]. f_equal.
  replace (k_T0 k + (k_T1 k - k_T0 k) * / 2 ^ so_force o) with (k_T0 k + (k_T1 k - k_T0 k) / 2 ^ so_force o) by reflexivity.
  unfold Rdiv at 2. rewrite <- Rmult_assoc. f_equal. rewrite Rmult_comm, <- mv_scal. apply mv_vec_ext. intros j Hj.
  pose proof (dt_D k j) as ED. destruct (Req_EM_T (k_dt k) 0) as [Z|_]; [unfold k_dt in Z; lra|]. exact ED.
Qed.

(** *** No time *)
Lemma zero_time_stress fuel lsolve inv c o k r : (so_force o <= so_max o)%nat -> (1 <= miter (so_prm o))%Z -> 0 < atol (so_prm o) ->
  k_t1 k = k_t0 k -> sc_update fuel lsolve inv c o k = Some (Some r) ->
  (forall i, (i < 6)%nat -> r_s r i = k_s k i) /\ (so_force o = 0%nat -> forall q, r_h r q = k_h k q) /\
  (so_rot o = true -> forall v i, (i < 3)%nat -> apply_v (r_q r) v i = (if Nat.eqb i 2 then 1 else -1) * apply_v (k_q k) v i).
Proof.
  intros Hf Hm Ha Ht H. destruct (update_attempt _ _ _ _ _ _ _ H) as (pred & HA).
  assert (E0 : k_dt k = 0) by (unfold k_dt; lra).
  assert (ED : forall i, k_D k i = 0) by (intros i; unfold k_D; destruct (Req_EM_T (k_dt k) 0); [reflexivity|contradiction]).
  destruct (attempt_ended fuel lsolve inv _ o k pred r Hf HA) as (out & (sd & s0 & h0 & A & B & Hsd & Hal & H0 & HS & Hh & _ & Ho) & HO & _).
  assert (ES : forall sd s h i, t_S (sub_trial c k pred sd s h) i = k_s k i).
  { intros sd' s h i. unfold sub_trial. cbn [t_S]. destruct pred; [|reflexivity]. unfold vadd, sk_increment. rewrite E0. ring. }
  assert (All : forall sd s h, sub_solve lsolve c o (sub_trial c k pred sd s h) = Some (sc_init (sub_trial c k pred sd s h))).
  { intros sd' s h. apply solve_at_once; [exact Hm|exact Ha|]. intros i Hi.
    assert (EI : sc_init (sub_trial c k pred sd' s h) i = if Nat.ltb i 6 then k_s k i else h (i - 6)%nat) by (unfold sc_init; rewrite ES; reflexivity).
    unfold sc_R. rewrite EI. change (t_dt (sub_trial c k pred sd' s h)) with (k_dt k * / 2 ^ sd'). rewrite E0.
    change (t_Sn (sub_trial c k pred sd' s h)) with (k_s k). change (t_h (sub_trial c k pred sd' s h)) with h. unfold vzero. destruct (Nat.ltb i 6); ring. }
  rewrite All in HS. injection HS as E. split; [|split].
  - intros i Hi. rewrite <- E. unfold sc_init. rewrite (ltb6_t i Hi). apply ES.
  - intros F q. assert (sd = so_force o) by (apply Hal; intros; rewrite All; discriminate). destruct (H0 H1 F) as [_ Eh].
    rewrite Hh, <- E. unfold tail6, sc_init. rewrite (ltb6_f (6 + q) ltac:(lia)). replace (6 + q - 6)%nat with q by lia. unfold sub_trial. cbn [t_h]. rewrite Eh. reflexivity.
  - intros Hr v i Hi. destruct (HO _ _ _ Ho) as [_ ->]. rewrite Hr. unfold sc_rot. rewrite apply_v_mul by exact Hi.
    change (t_dt (sub_trial c k pred sd s0 h0)) with (k_dt k * / 2 ^ sd). rewrite (wexp_ext _ vzero) by (intros l Hl; rewrite E0; unfold vzero; ring).
    change (t_Q (sub_trial c k pred sd s0 h0)) with (k_q k).
    unfold wexp. cbv zeta. destruct (Req_EM_T (norm3 vzero) 0) as [_|N].
    + set (w := apply_v (k_q k) v). unfold qdefault. cases3 i Hi; unfold apply_v, to_matrix; cbn; ring.
    + exfalso. apply N. unfold norm3, dot3, vzero. transitivity (sqrt 0); [f_equal; ring|apply sqrt_0].
Qed.

(** *** Orientations and Fe *)
Lemma orientation_round r q : get_active (set_active r q) = q /\ get_passive (set_passive r q) = q /\ get_active (set_passive r q) = oinv q /\ get_passive (set_active r q) = oinv q.
Proof. destruct q as [a b c d]. unfold get_passive, set_passive, get_active, set_active, oinv, qconj; cbn [fst]. split; [reflexivity|]. split; [cbn [q0 q1 q2 q3]; f_equal; ring|]. split; reflexivity. Qed.
Lemma Fe_blind inv9 fuel lsolve inv c o k r T : (so_force o <= so_max o)%nat -> sc_update fuel lsolve inv c o k = Some (Some r) ->
  sc_Fe inv9 c T (r_s r) (r_q r) (r_q0 r) = inv9 (mul_2 (usym (fun i => (if Nat.ltb i 3 then 1 else 0) + sc_estrain c T (r_q r) (r_s r) i)) (to_matrix (Quat 1 0 0 0))).
Proof.
  intros Hf H. destruct (update_attempt _ _ _ _ _ _ _ H) as (pred & HA).
  destruct (attempt_ended fuel lsolve inv _ o k pred r Hf HA) as (out & _ & _ & -> & _).
  unfold sc_Fe. do 2 f_equal. destruct (r_q r) as [a b e d]. unfold qzero, oinv, qconj, qmul. cbn [q0 q1 q2 q3].
  apply FunctionalExtensionality.functional_extensionality. intros i. unfold to_matrix. cbn [q0 q1 q2 q3].
  do 9 (destruct i as [|i]; [ring|]). ring.
Qed.
