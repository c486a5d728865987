(** Histories of the wall of a vessel. *)
From Verif Require Import Base Diff.
From Verif Require Import SolverModel SubstepModel CreepModel NlModel NlSpec UniModel UniSpec HardProofs ElasticProofs WalkerInv BarModel BarSpec AxiModel AxiSpec AxiProofs.
From Coq Require Import ZArith List Arith Lia.
Import ListNotations.

Lemma init_shape a : shape a (axi_init a).
Proof.
  unfold shape, shaped. cbn [as_pts axi_init]. rewrite map_length, seq_length. split; [reflexivity|]. apply Forall_forall. intros qs Hin. apply in_map_iff in Hin.
  destruct Hin as (e & <- & _). apply map_length.
Qed.
Lemma path_trans a rtol atol x y : wall_path a rtol atol x y -> forall z, wall_path a rtol atol y z -> wall_path a rtol atol x z.
Proof. intros H z Q. induction Q as [|p s t Q IH F]; [exact H|]. apply (wp_step a rtol atol x p s t IH F). Qed.
Lemma steps_result a tri o t dt istep old rest : wall a -> 0 <= ao_atol o -> forall fuel sstep cstep cdiv rows rows' r s,
  hd_error rows = Some s -> shape a s -> wall_path a (ao_rtol o) (ao_atol o) old s -> (cstep = istep -> as_time s = t) ->
  axi_steps fuel a tri o t dt istep sstep cstep cdiv (old :: rest) rows = (rows', r) ->
  (exists e, r = Raise e /\ (e = Spins \/ rows' = old :: rest)) \/
  (r = Ret tt /\ exists s', rows' = s' :: old :: rest /\ as_time s' = t /\ shape a s' /\ wall_path a (ao_rtol o) (ao_atol o) old s').
Proof.
  intros Ha Hat fuel. induction fuel as [|fuel IH]; intros sstep cstep cdiv rows rows' r s Hh Hs Hp Ht; cbn [axi_steps].
  - injection 1 as <- <-. left. exists Spins. split; [reflexivity|left; reflexivity].
  - destruct (Req_EM_T cstep istep) as [Q|Q].
    + injection 1 as <- <-. right. split; [reflexivity|]. destruct rows as [|s1 rows]; [discriminate|]. cbn in Hh. injection Hh as ->. exists s. repeat split; try assumption; [apply Ht, Q|apply Hs|apply Hs].
    + destruct (take_step _ _ _ _ _ _ _ _ _) as [s1|] eqn:E.
      * apply (IH _ _ _ _ _ _ s1); [reflexivity| | |]; destruct (take_step_ok a tri rows s _ t _ _ _ _ s1 Ha Hs Hat Hh E) as (F & T1 & S1); [exact S1| |intros _; exact T1].
        apply (wp_step a _ _ old s s1 _ Hp F).
      * destruct (Nat.ltb (ao_maxdiv o) (S cdiv)).
        -- injection 1 as <- <-. left. exists ModelError. split; [reflexivity|right; reflexivity].
        -- apply (IH _ _ _ _ _ _ s); assumption.
Qed.
(** what a call does *)
Lemma step_result a tri o fuel old rest t rows' r : wall a -> 0 <= ao_atol o -> 0 < ao_div o -> shape a old -> axi_step fuel a tri o (old :: rest) t = (rows', r) ->
  (exists e, r = Raise e /\ (e = Spins \/ rows' = old :: rest)) \/
  (r = Ret tt /\ exists s, rows' = s :: old :: rest /\ as_time s = t /\ shape a s /\ wall_path a (ao_rtol o) (ao_atol o) old s).
Proof.
  intros Ha Hat Hd Hs E. unfold axi_step in E. cbv zeta in E. apply (steps_result a tri o t _ _ old rest Ha Hat fuel _ _ _ (old :: rest) rows' r old eq_refl Hs (wp_none a _ _ old)) in E; [exact E|].
  intros Z. exfalso. assert (P := pow_lt _ (ao_maxdiv o) Hd). lra.
Qed.
Lemma div_self x y z : z <> 0 -> x + y * (0 + z) / z = x + y. Proof. intros H. field. exact H. Qed.
(** without division the loads are those of the time asked for *)
Lemma step_direct a tri o fuel old rest t s : wall a -> 0 <= ao_atol o -> 0 < ao_div o -> shape a old ->
  take_step a tri (old :: rest) t t (ao_rtol o) (ao_atol o) (ao_ilimit o) (ao_predict o) = Some s ->
  axi_step (S (S fuel)) a tri o (old :: rest) t = (s :: old :: rest, Ret tt) /\ wall_follows a (ao_rtol o) (ao_atol o) t old s.
Proof.
  intros Ha Hat Hd Hs E. assert (P := pow_lt _ (ao_maxdiv o) Hd). split; [|apply (take_step_ok a tri (old :: rest) old t t _ _ _ _ s Ha Hs Hat eq_refl E)].
  unfold axi_step. cbv zeta. cbn [axi_steps]. destruct (Req_EM_T 0 (ao_div o ^ ao_maxdiv o)) as [Z|Z]; [lra|]. rewrite div_self by lra.
  replace (as_time old + (t - as_time old)) with t by ring. rewrite E. cbn [axi_steps]. destruct (Req_EM_T (0 + ao_div o ^ ao_maxdiv o) (ao_div o ^ ao_maxdiv o)) as [Z1|Z1]; [reflexivity|lra].
Qed.
(** a call that raises leaves everything as it was *)
Lemma step_atomic a tri o fuel rows t rows' e : wall a -> axi_step fuel a tri o rows t = (rows', Raise e) -> e <> Spins -> rows' = rows.
Proof.
  intros Ha E He. unfold axi_step in E. cbv zeta in E. revert E. generalize (t - (match rows with s :: _ => as_time s | [] => 0 end)), (ao_div o ^ ao_maxdiv o) at 1. intros dt istep.
  generalize (ao_div o ^ ao_maxdiv o), 0, 0%nat, rows at 2. induction fuel as [|fuel IH]; intros sstep cstep cdiv rs; cbn [axi_steps].
  - intros Q. injection Q as _ <-. contradiction.
  - destruct (Req_EM_T cstep istep); [discriminate|]. destruct (take_step _ _ _ _ _ _ _ _ _); [apply IH|]. destruct (Nat.ltb _ _); [intros Q; injection Q as <- _; reflexivity|apply IH].
Qed.
(** ** histories *)
Lemma reach_shape a tri o rows : wall a -> 0 <= ao_atol o -> 0 < ao_div o -> axi_reach a tri o rows -> Forall (shape a) rows /\ wall_history a (ao_rtol o) (ao_atol o) rows.
Proof.
  intros Ha Hat Hd H. induction H as [|fuel rows t rows' r H [IHs IHh] E Hr].
  - split; [constructor; [apply init_shape|constructor]|reflexivity].
  - destruct rows as [|old rest]; [destruct IHh|]. inversion IHs as [|? ? S1 S2]; subst.
    destruct (step_result a tri o fuel old rest t rows' r Ha Hat Hd S1 E) as [(e & -> & [-> | ->])|(-> & s & -> & Ts & Ss & Ps)]; [contradiction| |].
    + split; [exact IHs|exact IHh].
    + split; [constructor; assumption|]. split; [exact Ps|exact IHh].
Qed.
Lemma reach_history a tri o rows : wall a -> 0 <= ao_atol o -> 0 < ao_div o -> axi_reach a tri o rows -> wall_history a (ao_rtol o) (ao_atol o) rows.
Proof. intros. apply (reach_shape a tri o rows); assumption. Qed.
(** ** termination *)
Lemma steps_end a tri o t dt old k : (1 <= k)%nat -> ao_div o = INR k -> forall fuel u cdiv rows, (cdiv <= ao_maxdiv o)%nat -> (exists j, u = (j * k ^ (ao_maxdiv o - cdiv))%nat) -> (u <= k ^ ao_maxdiv o)%nat ->
  (u + (ao_maxdiv o - cdiv) < fuel)%nat ->
  snd (axi_steps fuel a tri o t dt (INR (k ^ ao_maxdiv o)) (INR (k ^ (ao_maxdiv o - cdiv))) (INR (k ^ ao_maxdiv o - u)) cdiv old rows) <> Raise Spins.
Proof.
  intros Hk Hd fuel. induction fuel as [|fuel IH]; intros u cdiv rows Hc [j Ej] Hu Hf; [lia|]. cbn [axi_steps].
  assert (Kp : forall n, (1 <= k ^ n)%nat) by (intros n; assert (k ^ n <> 0)%nat by (apply Nat.pow_nonzero; lia); lia).
  destruct (Req_EM_T _ _) as [Q|Q]; [discriminate|]. destruct (take_step _ _ _ _ _ _ _ _ _) as [s|] eqn:Et.
  - destruct j as [|j]; [exfalso; apply Q; subst u; rewrite Nat.mul_0_l, Nat.sub_0_r; reflexivity|].
    assert (Kc := Kp (ao_maxdiv o - cdiv)%nat). set (K := (k ^ (ao_maxdiv o - cdiv))%nat) in *. set (N := (k ^ ao_maxdiv o)%nat) in *.
    assert (Eu : (u = K + j * K)%nat) by (rewrite Ej; reflexivity).
    rewrite <- plus_INR. replace (N - u + K)%nat with (N - j * K)%nat by lia. apply IH; [exact Hc|exists j; reflexivity|lia|lia].
  - destruct (Nat.ltb (ao_maxdiv o) (S cdiv)) eqn:El; [discriminate|]. apply Nat.ltb_ge in El.
    replace (INR (k ^ (ao_maxdiv o - cdiv)) / ao_div o) with (INR (k ^ (ao_maxdiv o - S cdiv))).
    2:{ rewrite Hd. replace (ao_maxdiv o - cdiv)%nat with (S (ao_maxdiv o - S cdiv)) by lia. cbn [Nat.pow]. rewrite mult_INR. field. apply not_0_INR. lia. }
    apply IH; [lia| |exact Hu|lia]. exists (j * k)%nat. rewrite Ej. replace (ao_maxdiv o - cdiv)%nat with (S (ao_maxdiv o - S cdiv)) by lia. cbn [Nat.pow]. lia.
Qed.
Lemma step_ends a tri o k fuel rows t : (1 <= k)%nat -> ao_div o = INR k -> (k ^ ao_maxdiv o + ao_maxdiv o < fuel)%nat -> snd (axi_step fuel a tri o rows t) <> Raise Spins.
Proof.
  intros Hk Hd Hf. unfold axi_step. cbv zeta.
  assert (H := steps_end a tri o t (t - match rows with s :: _ => as_time s | [] => 0 end) rows k Hk Hd fuel (k ^ ao_maxdiv o)%nat 0%nat rows ltac:(lia) ltac:(exists 1%nat; rewrite Nat.sub_0_r; lia) ltac:(lia) ltac:(lia)).
  rewrite Nat.sub_0_r, Nat.sub_diag in H. cbn [INR] in H. rewrite Hd, <- pow_INR. exact H.
Qed.
(** ** thermal strain with a constant coefficient *)
Definition thermal_ok (a : axi) (al : R) (s : axs) : Prop := forall e k xi w, (e < ax_ne a)%nat -> nth_error (ax_gp a) k = Some (xi, w) -> exists q, point s e k = Some q /\
  forall i, gp_tstrain q i = if Nat.ltb i 3 then al * (lerp xi (as_temp s) e - lerp xi (fun n => ax_T a (ax_mesh a n) 0) e) else 0.
Lemma follows_thermal a al rtol atol t p s : (forall e T, pm_alpha (ax_mat a e) T = al) -> thermal_ok a al p -> wall_follows a rtol atol t p s -> thermal_ok a al s.
Proof.
  intros Hal Hp [(_ & _ & _ & _ & M) _] e k xi w He Hk. destruct (M e k xi w He Hk) as (q & q' & Q & Q' & PM). destruct (Hp e k xi w He Hk) as (q1 & Q1 & T1). rewrite Q in Q1. injection Q1 as <-.
  exists q'. split; [exact Q'|]. intros i. destruct PM as (_ & _ & _ & _ & PM & _). specialize (PM i). specialize (T1 i). rewrite Hal in PM. destruct (Nat.ltb i 3); rewrite T1 in PM; lra.
Qed.
Lemma path_thermal a al rtol atol p s : (forall e T, pm_alpha (ax_mat a e) T = al) -> thermal_ok a al p -> wall_path a rtol atol p s -> thermal_ok a al s.
Proof. intros Hal Hp H. induction H as [|q s t H IH F]; [exact Hp|]. apply (follows_thermal a al rtol atol t q s Hal IH F). Qed.
Lemma init_point a e k g : (e < ax_ne a)%nat -> nth_error (ax_gp a) k = Some g -> point (axi_init a) e k = Some (gp_init (ax_mat a e)).
Proof.
  intros He Hk. unfold point. cbn [as_pts axi_init]. rewrite (map_nth_error (fun e0 => map (fun _ => gp_init (ax_mat a e0)) (ax_gp a)) e (seq 0 (ax_ne a)) (d := e)).
  - apply (map_nth_error (fun _ => gp_init (ax_mat a e)) k (ax_gp a) Hk).
  - rewrite (nth_error_nth' _ 0%nat) by (rewrite seq_length; lia). rewrite seq_nth by lia. reflexivity.
Qed.
Lemma init_thermal a al : thermal_ok a al (axi_init a).
Proof. intros e k xi w He Hk. exists (gp_init (ax_mat a e)). split; [apply (init_point a e k (xi, w) He Hk)|]. intros i. cbn [as_temp axi_init gp_init gp_tstrain]. destruct (Nat.ltb i 3); ring. Qed.
Lemma history_thermal a al rtol atol : (forall e T, pm_alpha (ax_mat a e) T = al) -> forall rows, wall_history a rtol atol rows -> Forall (thermal_ok a al) rows.
Proof.
  intros Hal rows. induction rows as [|s rows IH]; [intros []|]. destruct rows as [|p rows]; cbn [wall_history].
  - intros ->. constructor; [apply init_thermal|constructor].
  - intros [Q H]. specialize (IH H). constructor; [|exact IH]. inversion IH; subst. apply (path_thermal a al rtol atol p s); assumption.
Qed.
Lemma reach_thermal a tri o rows al : wall a -> 0 <= ao_atol o -> 0 < ao_div o -> (forall e T, pm_alpha (ax_mat a e) T = al) -> axi_reach a tri o rows ->
  forall s, In s rows -> forall e k xi w, (e < ax_ne a)%nat -> nth_error (ax_gp a) k = Some (xi, w) -> exists q, point s e k = Some q /\
  forall i, gp_tstrain q i = if Nat.ltb i 3 then al * (lerp xi (as_temp s) e - lerp xi (fun n => ax_T a (ax_mesh a n) 0) e) else 0.
Proof.
  intros Ha Hat Hd Hal H s Hin. assert (F := history_thermal a al _ _ Hal rows (reach_history a tri o rows Ha Hat Hd H)). rewrite Forall_forall in F. exact (F s Hin).
Qed.
(** ** balance of the whole wall *)
Lemma points_in a ll : forall e0 x, In x (points_from a e0 ll) -> (fst (fst (fst x)) < e0 + length ll)%nat /\ In (snd (fst (fst x)), snd (fst x)) (ax_gp a).
Proof.
  induction ll as [|qs ll IH]; intros e0 x; cbn [points_from]; [intros []|]. intros Hin. apply in_app_or in Hin. cbn [length]. destruct Hin as [Hin|Hin].
  - apply in_map_iff in Hin. destruct Hin as ([[xi w] q] & <- & Hq). cbn. apply in_combine_l in Hq. split; [lia|exact Hq].
  - destruct (IH (S e0) x Hin) as [L G]. split; [lia|exact G].
Qed.
Lemma sum_over_rsum {A} n (l : list A) (f : nat -> A -> R) (v : vec) : rsum n (fun k => v k * sum_over l (f k)) = sum_over l (fun x => rsum n (fun k => v k * f k x)).
Proof.
  unfold sum_over. induction l as [|x l IH]; cbn [fold_right].
  - rewrite (rsum_ext n _ (fun _ => 0)) by (intros k _; ring). apply rsum_0.
  - rewrite <- IH. rewrite <- rsum_plus. apply rsum_ext. intros k _. ring.
Qed.
Lemma hat_sum n v e : (e < n)%nat -> rsum n (fun k => v k * hat k e) = v e.
Proof. intros He. rewrite (rsum_ext n _ (fun k => v k * hat e k)) by (intros k _; unfold hat; rewrite Nat.eqb_sym; reflexivity). apply (dot_hat n v e He). Qed.
Lemma work_linear a s v : shape a s -> virtual_work a s v = rsum (S (ax_ne a)) (fun k => v k * virtual_work a s (hat k)).
Proof.
  intros [HL _]. unfold virtual_work, through_wall. rewrite sum_over_rsum. apply sum_over_ext. intros x Hin. destruct (points_in a _ _ _ Hin) as [He _]. destruct x as [[[e xi] w] q]. cbn in He.
  set (l := ax_mesh a (S e) - ax_mesh a e). set (r := lerp xi (ax_mesh a) e).
  rewrite (rsum_ext (S (ax_ne a)) _ (fun k => (w * (l / 2) * (gp_stress q 0%nat / l + (gp_stress q 1%nat - gp_stress q 0%nat) * ((1 + xi) / 2) / r)) * (v k * hat k (S e))
    + (w * (l / 2) * (- gp_stress q 0%nat / l + (gp_stress q 1%nat - gp_stress q 0%nat) * (1 - (1 + xi) / 2) / r)) * (v k * hat k e))).
  2:{ intros k _. unfold lerp, Rdiv. ring. }
  rewrite rsum_plus, !rsum_scal, !hat_sum by lia. unfold lerp, Rdiv. ring.
Qed.
(** the hoop force through the wall is that of the pressures *)
Lemma work_hoop a s : wall a -> shape a s -> virtual_work a s (ax_mesh a) = through_wall a s (fun _ _ q => gp_stress q 1%nat).
Proof.
  intros Ha [HL _]. unfold virtual_work, through_wall. apply sum_over_ext. intros x Hin. destruct (points_in a _ _ _ Hin) as [He Hg]. destruct x as [[[e xi] w] q]. cbn in He, Hg.
  assert (Hx : -1 <= xi <= 1) by (destruct Ha as (_ & _ & _ & _ & _ & _ & HF & _); rewrite Forall_forall in HF; exact (HF _ Hg)).
  assert (Pr := lerp_pos a e xi Ha ltac:(lia) Hx). assert (Pl : ax_mesh a e < ax_mesh a (S e)) by (apply Ha; lia). field. split; lra.
Qed.
Lemma hoop_balance a s : wall a -> shape a s ->
  Rabs (through_wall a s (fun _ _ q => gp_stress q 1%nat) - (as_press s * ax_ri a - as_ext s * ax_ro a)) <= norm2 (S (ax_ne a)) (ax_mesh a) * out_of_balance a s.
Proof.
  intros Ha Hs. assert (Hw := Ha). destruct Hw as (Hn & _ & _ & Eri & Ero & _).
  assert (E : through_wall a s (fun _ _ q => gp_stress q 1%nat) - (as_press s * ax_ri a - as_ext s * ax_ro a) = dot (S (ax_ne a)) (ax_mesh a) (unbalanced a s)).
  { rewrite <- (work_hoop a s Ha Hs), (work_linear a s _ Hs). unfold dot.
    rewrite (rsum_ext (S (ax_ne a)) (fun i => ax_mesh a i * unbalanced a s i) (fun k => ax_mesh a k * virtual_work a s (hat k) - (as_press s * (ax_mesh a k * hat k 0%nat) - as_ext s * (ax_mesh a k * hat k (ax_ne a))))).
    2:{ intros k Hk. unfold unbalanced. replace (Nat.eqb k (S (ax_ne a))) with false by (symmetry; apply Nat.eqb_neq; lia). ring. }
    rewrite rsum_minus, rsum_minus, !rsum_scal, !hat_sum by lia. rewrite Eri, Ero. reflexivity. }
  assert (N : norm2 (S (ax_ne a)) (unbalanced a s) <= out_of_balance a s).
  { unfold out_of_balance. destruct (ax_con a); [lra|]. unfold norm2. apply sqrt_le_1_alt. unfold dot. cbn [rsum]. assert (0 <= unbalanced a s (S (ax_ne a)) * unbalanced a s (S (ax_ne a))) by apply Rle_0_sqr. lra. }
  assert (P := norm2_nonneg (S (ax_ne a)) (ax_mesh a)). apply Rle_trans with (norm2 (S (ax_ne a)) (ax_mesh a) * norm2 (S (ax_ne a)) (unbalanced a s)); [|apply Rmult_le_compat_l; assumption].
  rewrite E. unfold Rabs. destruct (Rcase_abs _); [|apply cauchy]. rewrite <- Ropp_mult_distr_l_reverse || idtac.
  replace (- dot (S (ax_ne a)) (ax_mesh a) (unbalanced a s)) with (dot (S (ax_ne a)) (fun k => - ax_mesh a k) (unbalanced a s)) by (unfold dot; rewrite <- rsum_opp; apply rsum_ext; intros; ring).
  replace (norm2 (S (ax_ne a)) (ax_mesh a)) with (norm2 (S (ax_ne a)) (fun k => - ax_mesh a k)) by (unfold norm2; f_equal; unfold dot; apply rsum_ext; intros; ring). apply cauchy.
Qed.
(** the mean axial stress, not weighted by the radius *)
Lemma axial_balance a s : ax_con a = false ->
  Rabs (through_wall a s (fun _ _ q => gp_stress q 2%nat) / (ax_ro a - ax_ri a) - (as_press s * ax_ri a ^ 2 - as_ext s * ax_ro a ^ 2) / (ax_ro a ^ 2 - ax_ri a ^ 2)) <= out_of_balance a s.
Proof.
  intros Hc. unfold out_of_balance. rewrite Hc. assert (E : unbalanced a s (S (ax_ne a)) = through_wall a s (fun _ _ q => gp_stress q 2%nat) / (ax_ro a - ax_ri a) - (as_press s * ax_ri a ^ 2 - as_ext s * ax_ro a ^ 2) / (ax_ro a ^ 2 - ax_ri a ^ 2)) by (unfold unbalanced; rewrite Nat.eqb_refl; reflexivity).
  rewrite <- E. rewrite <- sqrt_Rsqr_abs. unfold norm2. apply sqrt_le_1_alt. unfold Rsqr, dot. cbn [rsum]. assert (0 <= rsum (ax_ne a) (fun i => unbalanced a s i * unbalanced a s i)) by (apply rsum_nonneg; intros; apply Rle_0_sqr).
  assert (0 <= unbalanced a s (ax_ne a) * unbalanced a s (ax_ne a)) by apply Rle_0_sqr. lra.
Qed.
