(** Proofs about the transformation functions. *)
From Verif Require Import Base.
From Verif Require Import Diff.
From Verif Require Import CdModel.
From Verif Require Import CdSpec.

(** where the derivative of the sigmoid is the derivative: not at the kinks *)
Definition sig_in (c b cut d : R) : Prop :=
  d < 0 \/ (0 < d < c /\ sig_trial c b d <> cut) \/ (d = 0 /\ 0 < c /\ 1 < b /\ 0 < cut) \/ (c < d /\ 0 < d).

Lemma trial_value c b d : 0 < d < c -> sig_trial c b d = 1 / (1 + Rpower (c / d - 1) b).
Proof.
  intros H. unfold sig_trial. destruct (Req_EM_T d 0) as [E|_]; [lra|]. rewrite cpow_pos; [reflexivity|].
  assert (1 < c / d) by (apply Rmult_lt_reg_r with d; [lra|]; unfold Rdiv; rewrite Rmult_assoc, Rinv_l by lra; lra). lra.
Qed.
Lemma ratio_pos c d : 0 < d < c -> 0 < c / d - 1.
Proof. intros H. assert (1 < c / d) by (apply Rmult_lt_reg_r with d; [lra|]; unfold Rdiv; rewrite Rmult_assoc, Rinv_l by lra; lra). lra. Qed.
Lemma trial_range c b d : 0 < d < c -> 0 < sig_trial c b d < 1.
Proof.
  intros H. rewrite trial_value by exact H. pose proof (exp_pos (b * ln (c / d - 1))) as P. unfold Rpower in *.
  set (X := exp (b * ln (c / d - 1))) in *. split; [apply Rdiv_lt_0_compat; lra|]. apply Rmult_lt_reg_r with (1 + X); [lra|]. unfold Rdiv. rewrite Rmult_assoc, Rinv_l by lra. lra.
Qed.
Lemma trial_zero c b : 0 < b -> sig_trial c b 0 = 0.
Proof. intros H. unfold sig_trial. destruct (Req_EM_T 0 0) as [_|]; [|lra]. destruct (Rlt_dec 0 b); lra. Qed.
Lemma trial_range0 c b d : 0 < b -> 0 <= d < c -> 0 <= sig_trial c b d < 1.
Proof. intros Hb [[H| <-] Hc]; [pose proof (trial_range c b d (conj H Hc)); lra|rewrite trial_zero by exact Hb; lra]. Qed.
Lemma trial_mono c b d d' : 0 < b -> 0 <= d <= d' -> d' < c -> sig_trial c b d <= sig_trial c b d'.
Proof.
  intros Hb [H0 H1] Hc. destruct H0 as [H0| <-].
  - rewrite !trial_value by lra. assert (Q : Rpower (c / d' - 1) b <= Rpower (c / d - 1) b).
    { destruct H1 as [H1| <-]; [|lra]. apply Rle_Rpower_l; [lra|]. split; [apply ratio_pos; lra|]. assert (c / d' <= c / d) by (apply Rmult_le_compat_l; [lra|apply Rinv_le_contravar; lra]). lra. }
    pose proof (exp_pos (b * ln (c / d' - 1))) as P. fold (Rpower (c / d' - 1) b) in P. unfold Rdiv. rewrite !Rmult_1_l. apply Rinv_le_contravar; lra.
  - rewrite trial_zero by exact Hb. apply trial_range0; [exact Hb|lra].
Qed.
(** between 0 and the cut *)
Lemma sigmoid_range c b cut d ns : 0 <= cut -> 0 < b -> 0 <= t_map (sigmoid c b cut) d ns <= cut.
Proof.
  intros Hk Hb. cbn. destruct (Rlt_dec d 0) as [|N]; [lra|]. destruct (Rlt_dec d c) as [H|]; [|lra].
  destruct (Rlt_dec cut (sig_trial c b d)) as [|Q]; [lra|]. pose proof (trial_range0 c b d Hb ltac:(lra)). lra.
Qed.
Lemma sigmoid_mono c b cut d d' ns ns' : 0 <= cut -> 0 < b -> d <= d' -> t_map (sigmoid c b cut) d ns <= t_map (sigmoid c b cut) d' ns'.
Proof.
  intros Hk Hb Hd. pose proof (sigmoid_range c b cut d' ns' Hk Hb) as [L' U']. pose proof (sigmoid_range c b cut d ns Hk Hb) as [L U]. cbn in *.
  destruct (Rlt_dec d 0) as [|N]; [lra|]. destruct (Rlt_dec d' 0) as [|N']; [lra|].
  destruct (Rlt_dec d' c) as [H'|]; [|exact U]. destruct (Rlt_dec d c) as [H|]; [|lra].
  pose proof (trial_mono c b d d' Hb ltac:(lra) H') as T. destruct (Rlt_dec cut (sig_trial c b d)) as [Q|Q]; destruct (Rlt_dec cut (sig_trial c b d')) as [Q'|Q']; lra.
Qed.
(** no damage at 0, full damage exactly from c on *)
Lemma sigmoid_ends c b d ns : 0 < b -> 0 < c ->
  (t_map (sigmoid c b 1) d ns = 0 <-> d <= 0) /\ (t_map (sigmoid c b 1) d ns = 1 <-> c <= d).
Proof.
  intros Hb Hc. cbn. destruct (Rlt_dec d 0) as [N|N]; [split; split; intros; lra|]. destruct (Rlt_dec d c) as [H|H]; [|split; split; intros; lra].
  pose proof (trial_range0 c b d Hb ltac:(lra)) as R0. destruct (Rlt_dec 1 (sig_trial c b d)) as [Q|Q]; [lra|]. split; split; intros E; try lra.
  - destruct (Req_dec d 0) as [|Nz]; [lra|]. pose proof (trial_range c b d ltac:(lra)). lra.
  - assert (d = 0) by lra. subst d. apply trial_zero. exact Hb.
Qed.

(** *** Derivatives *)
Lemma trial_derivative c b d : 0 < d < c ->
  is_derive (sig_trial c b) d (b * c * cpow d (b - 1) * cpow (1 / (c - d)) (b + 1) / cpow (cpow (d / (c - d)) b + 1) 2).
Proof.
  intros H. pose proof (ratio_pos c d H) as Rp.
  apply (D_loc (fun u => / (1 + cpow (c * / u - 1) b))).
  { assert (P : 0 < Rmin d (c - d)) by (apply Rmin_pos; lra). exists (mkposreal _ P). intros y Hy. unfold ball in Hy; cbn in Hy. unfold AbsRing_ball, abs, minus, plus, opp in Hy; cbn in Hy.
    pose proof (Rmin_l d (c - d)). pose proof (Rmin_r d (c - d)). assert (0 < y < c) by (unfold Rabs in Hy; destruct (Rcase_abs (y + - d)); lra).
    rewrite trial_value by assumption. rewrite cpow_pos by (apply ratio_pos; assumption). unfold Rdiv. ring. }
  assert (Rp' : 0 < c * / d - 1) by exact Rp.
  assert (PX : 0 < cpow (c * / d - 1) b) by (rewrite cpow_pos by exact Rp'; apply exp_pos).
  assert (D1 : is_derive (fun u => c * / u - 1) d (- c / (d * d))).
  { eapply D_eq; [apply D_minus; [apply D_mult; [apply D_const|apply (D_inv (fun u => u)); [apply D_id|lra]]|apply D_const]|cbv beta; field; lra]. }
  assert (D2 : is_derive (fun u => 1 + cpow (c * / u - 1) b) d (b * cpow (c * / d - 1) (b - 1) * (- c / (d * d)))).
  { eapply D_eq; [apply D_plus; [apply D_const|apply (D_cpow (fun u => c * / u - 1) b d _ D1 Rp')]|cbv beta; ring]. }
  assert (N2 : 1 + cpow (c * / d - 1) b <> 0) by lra.
  eapply D_eq; [apply (D_inv (fun u => 1 + cpow (c * / u - 1) b) d _ D2 N2)|].
  cbv beta.
  assert (Y : 0 < d / (c - d)) by (apply Rdiv_lt_0_compat; lra). assert (W : 0 < 1 / (c - d)) by (apply Rdiv_lt_0_compat; lra).
  rewrite !(cpow_pos (c * / d - 1)) by exact Rp'. rewrite (cpow_pos d) by lra. rewrite (cpow_pos (1 / (c - d))) by exact W. rewrite (cpow_pos (d / (c - d))) by exact Y.
  assert (Z : 0 < Rpower (d / (c - d)) b + 1) by (pose proof (exp_pos (b * ln (d / (c - d)))); unfold Rpower; lra).
  rewrite (cpow_pos _ 2) by exact Z. replace 2 with (INR 2) by (cbn; ring). rewrite Rpower_pow by exact Z.
  set (D := Rpower d b). set (E := Rpower (c - d) b).
  assert (PD : 0 < D) by apply exp_pos. assert (PE : 0 < E) by apply exp_pos.
  assert (Lx : ln (c * / d - 1) = ln (c - d) - ln d).
  { replace (c * / d - 1) with ((c - d) * / d) by (field; lra). rewrite ln_mult, ln_Rinv; [ring|lra|lra|apply Rinv_0_lt_compat; lra]. }
  assert (X1 : Rpower (c * / d - 1) b = E / D).
  { unfold Rpower, E, D, Rpower. rewrite Lx. replace (b * (ln (c - d) - ln d)) with (b * ln (c - d) + - (b * ln d)) by ring. rewrite exp_plus, exp_Ropp. reflexivity. }
  assert (X2 : Rpower (c * / d - 1) (b - 1) = E / D * (d / (c - d))).
  { rewrite <- X1. replace (b - 1) with (b + - (1)) by ring. rewrite Rpower_plus, Rpower_Ropp, Rpower_1 by exact Rp'. f_equal. field. split; lra. }
  assert (X3 : Rpower d (b - 1) = D / d).
  { unfold D. replace (b - 1) with (b + - (1)) by ring. rewrite Rpower_plus, Rpower_Ropp, Rpower_1 by lra. reflexivity. }
  assert (X4 : Rpower (1 / (c - d)) (b + 1) = / (E * (c - d))).
  { rewrite Rpower_plus, Rpower_1 by exact W. unfold E. replace (1 / (c - d)) with (/ (c - d)) by (field; lra). unfold Rpower. rewrite ln_Rinv by lra. replace (b * - ln (c - d)) with (- (b * ln (c - d))) by ring. rewrite exp_Ropp. field. split; [lra|apply Rgt_not_eq, exp_pos]. }
  assert (X5 : Rpower (d / (c - d)) b = D / E).
  { unfold Rpower, D, E, Rpower, Rdiv. rewrite ln_mult, ln_Rinv; [|lra|lra|apply Rinv_0_lt_compat; lra]. replace (b * (ln d + - ln (c - d))) with (b * ln d + - (b * ln (c - d))) by ring. rewrite exp_plus, exp_Ropp. reflexivity. }
  rewrite X1, X2, X3, X4, X5. field. repeat split; try lra; apply Rgt_not_eq; pose proof (Rmult_lt_0_compat _ _ PD PE); nra.
Qed.
Lemma trial_bound c b h : 1 < b -> 0 < h -> h <= c / 2 -> sig_trial c b h <= Rpower (2 / c * h) b.
Proof.
  intros Hb Hh Hc. rewrite trial_value by lra.
  assert (P : 0 < 2 / c * h) by (apply Rmult_lt_0_compat; [apply Rdiv_lt_0_compat; lra|exact Hh]).
  assert (Q : / Rpower (2 / c * h) b <= Rpower (c / h - 1) b).
  { rewrite <- Rpower_Ropp. replace (Rpower (2 / c * h) (- b)) with (Rpower (c / (2 * h)) b).
    - apply Rle_Rpower_l; [lra|]. split; [apply Rdiv_lt_0_compat; lra|]. assert (2 <= c / h) by (apply Rmult_le_reg_r with h; [exact Hh|]; unfold Rdiv; rewrite Rmult_assoc, Rinv_l by lra; lra). replace (c / (2 * h)) with (c / h / 2) by (field; lra). lra.
    - unfold Rpower. f_equal. replace (c / (2 * h)) with (/ (2 / c * h)) by (field; lra). rewrite ln_Rinv by exact P. ring. }
  assert (PP : 0 < Rpower (2 / c * h) b) by apply exp_pos.
  assert (PI : 0 < / Rpower (2 / c * h) b) by (apply Rinv_0_lt_compat; exact PP).
  unfold Rdiv at 1. rewrite Rmult_1_l. rewrite <- (Rinv_inv (Rpower (2 / c * h) b)) by (apply Rgt_not_eq; exact PP). apply Rinv_le_contravar; lra.
Qed.
Lemma sigmoid_zero_derivative c b cut ns : 0 < c -> 1 < b -> 0 < cut -> is_derive (fun d => t_map (sigmoid c b cut) d ns) 0 0.
Proof.
  intros Hc Hb Hk. apply is_derive_Reals. intros e He.
  set (w := Rpower (e * c / 2) (/ (b - 1))).
  assert (Pw : 0 < w) by apply exp_pos.
  assert (P : 0 < Rmin (c / 2) (c / 2 * w)) by (apply Rmin_pos; [lra|apply Rmult_lt_0_compat; lra]).
  exists (mkposreal _ P). intros h Nh Hh. cbn [pos] in Hh. pose proof (Rmin_l (c / 2) (c / 2 * w)). pose proof (Rmin_r (c / 2) (c / 2 * w)).
  rewrite Rplus_0_l, Rminus_0_r.
  assert (F0 : t_map (sigmoid c b cut) 0 ns = 0). { cbn. destruct (Rlt_dec 0 0); [lra|]. destruct (Rlt_dec 0 c); [|lra]. rewrite trial_zero by lra. destruct (Rlt_dec cut 0); lra. }
  rewrite F0, Rminus_0_r. destruct (Rlt_dec h 0) as [Ng|Ps].
  - replace (t_map (sigmoid c b cut) h ns) with 0 by (cbn; destruct (Rlt_dec h 0); [reflexivity|lra]). unfold Rdiv. rewrite Rmult_0_l, Rabs_R0. exact He.
  - assert (Hp : 0 < h) by lra. rewrite Rabs_pos_eq in Hh by lra.
    assert (B : 0 <= t_map (sigmoid c b cut) h ns <= Rpower (2 / c * h) b).
    { pose proof (trial_bound c b h Hb Hp ltac:(lra)). pose proof (trial_range c b h ltac:(lra)). cbn. destruct (Rlt_dec h 0); [lra|]. destruct (Rlt_dec h c); [|lra]. destruct (Rlt_dec cut (sig_trial c b h)); lra. }
    rewrite Rabs_pos_eq by (apply Rmult_le_pos; [lra|apply Rlt_le, Rinv_0_lt_compat; exact Hp]).
    assert (Q0 : 0 < 2 / c * h) by (apply Rmult_lt_0_compat; [apply Rdiv_lt_0_compat; lra|exact Hp]).
    assert (Q1 : 2 / c * h < w). { apply Rmult_lt_reg_l with (c / 2); [lra|]. replace (c / 2 * (2 / c * h)) with h by (field; lra). lra. }
    apply Rle_lt_trans with (Rpower (2 / c * h) b / h); [apply Rmult_le_compat_r; [apply Rlt_le, Rinv_0_lt_compat; exact Hp|lra]|].
    replace (Rpower (2 / c * h) b) with (Rpower (2 / c * h) (b - 1) * (2 / c * h)). 2:{ rewrite <- (Rpower_1 (2 / c * h)) at 2 by exact Q0. rewrite <- Rpower_plus. f_equal. ring. }
    replace (Rpower (2 / c * h) (b - 1) * (2 / c * h) / h) with (Rpower (2 / c * h) (b - 1) * (2 / c)) by (field; lra).
    assert (Q2 : Rpower (2 / c * h) (b - 1) < e * c / 2).
    { replace (e * c / 2) with (Rpower w (b - 1)). 2:{ unfold w. rewrite Rpower_mult. replace (/ (b - 1) * (b - 1)) with 1 by (field; lra). apply Rpower_1. assert (0 < e * c) by (apply Rmult_lt_0_compat; assumption). lra. }
      unfold Rpower. apply exp_increasing. apply Rmult_lt_compat_l; [lra|]. apply ln_increasing; assumption. }
    apply Rlt_le_trans with (e * c / 2 * (2 / c)); [apply Rmult_lt_compat_r; [apply Rdiv_lt_0_compat; lra|exact Q2]|]. right. field. lra.
Qed.
Lemma near (x y : R) (e : R) (P : R -> Prop) : 0 < e -> (forall z, Rabs (z - x) < e -> P z) -> locally x P.
Proof. intros He H. exists (mkposreal e He). intros z Hz. apply H. exact Hz. Qed.
Lemma sigmoid_deriv c b cut ns d : sig_in c b cut d -> is_derive (fun x => t_map (sigmoid c b cut) x ns) d (t_dd (sigmoid c b cut) d ns).
Proof.
  intros [H|[[H N]|[(-> & Hc & Hb & Hk)|[H H0]]]].
  - replace (t_dd (sigmoid c b cut) d ns) with 0 by (cbn; destruct (Rlt_dec d 0); [reflexivity|lra]).
    apply (D_loc (fun _ => 0)); [|apply D_const]. apply (near d d (- d)); [lra|]. intros z Hz. cbn. destruct (Rlt_dec z 0) as [|Q]; [reflexivity|]. exfalso. unfold Rabs in Hz. destruct (Rcase_abs (z - d)); lra.
  - pose proof (trial_derivative c b d H) as D.
    assert (C : continuous (sig_trial c b) d) by (apply (ex_derive_continuous (K := R_AbsRing) (V := R_NormedModule)); eexists; exact D).
    assert (L1 : locally d (fun z => 0 < z < c)).
    { apply (near d d (Rmin d (c - d))); [apply Rmin_pos; lra|]. intros z Hz. pose proof (Rmin_l d (c - d)). pose proof (Rmin_r d (c - d)). unfold Rabs in Hz; destruct (Rcase_abs (z - d)); lra. }
    destruct (Rlt_dec cut (sig_trial c b d)) as [Q|Q].
    + replace (t_dd (sigmoid c b cut) d ns) with 0 by (cbn; destruct (Rlt_dec d 0); [reflexivity|]; destruct (Rlt_dec d c); [|reflexivity]; destruct (Rlt_dec cut (sig_trial c b d)); [reflexivity|contradiction]).
      apply (D_loc (fun _ => cut)); [|apply D_const].
      assert (L2 : locally d (fun z => cut < sig_trial c b z)) by (apply (C (fun y => cut < y)); apply (near _ d (sig_trial c b d - cut)); [lra|]; intros z Hz; unfold Rabs in Hz; destruct (Rcase_abs (z - sig_trial c b d)); lra).
      generalize (filter_and _ _ L1 L2). apply filter_imp. intros z [Hz1 Hz2]. cbn. destruct (Rlt_dec z 0); [lra|]. destruct (Rlt_dec z c); [|lra]. destruct (Rlt_dec cut (sig_trial c b z)); [reflexivity|contradiction].
    + assert (Q' : sig_trial c b d < cut) by lra.
      replace (t_dd (sigmoid c b cut) d ns) with (b * c * cpow d (b - 1) * cpow (1 / (c - d)) (b + 1) / cpow (cpow (d / (c - d)) b + 1) 2) by (cbn; destruct (Rlt_dec d 0); [lra|]; destruct (Rlt_dec d c); [|lra]; destruct (Rlt_dec cut (sig_trial c b d)); [contradiction|reflexivity]).
      apply (D_loc (sig_trial c b)); [|exact D].
      assert (L2 : locally d (fun z => sig_trial c b z < cut)) by (apply (C (fun y => y < cut)); apply (near _ d (cut - sig_trial c b d)); [lra|]; intros z Hz; unfold Rabs in Hz; destruct (Rcase_abs (z - sig_trial c b d)); lra).
      generalize (filter_and _ _ L1 L2). apply filter_imp. intros z [Hz1 Hz2]. cbn. destruct (Rlt_dec z 0); [lra|]. destruct (Rlt_dec z c); [|lra]. destruct (Rlt_dec cut (sig_trial c b z)); [lra|reflexivity].
  - eapply D_eq; [apply sigmoid_zero_derivative; assumption|]. cbn. destruct (Rlt_dec 0 0); [lra|]. destruct (Rlt_dec 0 c); [|lra]. rewrite trial_zero by lra. destruct (Rlt_dec cut 0); [lra|].
    replace (cpow 0 (b - 1)) with 0; [unfold Rdiv; ring|]. unfold cpow. destruct (Rlt_dec 0 0); [lra|]. destruct (Req_EM_T (b - 1) 0); [lra|reflexivity].
  - replace (t_dd (sigmoid c b cut) d ns) with 0 by (cbn; destruct (Rlt_dec d 0); [reflexivity|]; destruct (Rlt_dec d c); [lra|reflexivity]).
    apply (D_loc (fun _ => cut)); [|apply D_const]. apply (near d d (Rmin d (d - c))); [apply Rmin_pos; lra|]. intros z Hz. pose proof (Rmin_l d (d - c)). pose proof (Rmin_r d (d - c)).
    assert (0 < z /\ c < z) as [Z1 Z2] by (unfold Rabs in Hz; destruct (Rcase_abs (z - d)); lra). cbn. destruct (Rlt_dec z 0); [lra|]. destruct (Rlt_dec z c); [lra|reflexivity].
Qed.
Lemma sigmoid_exact c b cut : trans_exact (sigmoid c b cut) (fun d _ => sig_in c b cut d).
Proof.
  intros d ns t d' n' Hd Hn Hin. pose proof (D_comp (fun x => t_map (sigmoid c b cut) x 0) d t _ _ Hd (sigmoid_deriv c b cut 0 (d t) Hin)) as D.
  eapply D_eq; [exact D|]. cbn. ring.
Qed.
Lemma squeeze (f g : R -> R) t : is_derive f t 0 -> f t = 0 -> (forall u, g u = 0 \/ g u = f u) -> is_derive g t 0.
Proof.
  intros D F G. apply is_derive_Reals. apply is_derive_Reals in D. intros e He. destruct (D e He) as [dl HD]. exists dl. intros h Nh Hh. specialize (HD h Nh Hh).
  assert (Gt : g t = 0) by (destruct (G t); congruence). rewrite Gt. rewrite F in HD. destruct (G (t + h)) as [-> | ->]; [|exact HD]. replace ((0 - 0) / h - 0) with 0 by (field; exact Nh). rewrite Rabs_R0. exact He.
Qed.
Lemma switch_exact m P : trans_exact m P -> normal_free m ->
  trans_exact (switch m) (fun d ns => ns < 0 \/ (0 < ns /\ P d ns) \/ (P d ns /\ t_map m d ns = 0 /\ t_dd m d ns = 0)).
Proof.
  intros E F d ns t d' n' Hd Hn. cbn beta. intros [N|[[Ps HP]|(HP & M0 & D0)]].
  - apply (D_loc (fun _ => 0)).
    + assert (C : continuous ns t) by (apply (ex_derive_continuous (K := R_AbsRing) (V := R_NormedModule)); eexists; exact Hn).
      assert (L : locally t (fun u => ns u < 0)) by (apply (C (fun y => y < 0)); apply (near _ (ns t) (- ns t)); [lra|]; intros z Hz; unfold Rabs in Hz; destruct (Rcase_abs (z - ns t)); lra).
      revert L. apply filter_imp. intros u Hu. cbn. destruct (Rlt_dec (ns u) 0); [reflexivity|lra].
    + eapply D_eq; [apply D_const|]. cbn. destruct (Rlt_dec (ns t) 0); [ring|lra].
  - apply (D_loc (fun u => t_map m (d u) (ns u))).
    + assert (C : continuous ns t) by (apply (ex_derive_continuous (K := R_AbsRing) (V := R_NormedModule)); eexists; exact Hn).
      assert (L : locally t (fun u => 0 < ns u)) by (apply (C (fun y => 0 < y)); apply (near _ (ns t) (ns t)); [lra|]; intros z Hz; unfold Rabs in Hz; destruct (Rcase_abs (z - ns t)); lra).
      revert L. apply filter_imp. intros u Hu. cbn. destruct (Rlt_dec (ns u) 0); [lra|reflexivity].
    + eapply D_eq; [apply (E d ns t d' n' Hd Hn HP)|]. rewrite F. cbn. destruct (Rlt_dec (ns t) 0); [lra|ring].
  - assert (Z : t_dd (switch m) (d t) (ns t) * d' + t_dn (switch m) (d t) (ns t) * n' = 0) by (cbn; destruct (Rlt_dec (ns t) 0); [ring|rewrite D0; ring]).
    rewrite Z. apply (squeeze (fun u => t_map m (d u) (ns u))); [|exact M0|].
    + eapply D_eq; [apply (E d ns t d' n' Hd Hn HP)|]. rewrite D0, F. ring.
    + intros u. cbn. destruct (Rlt_dec (ns u) 0); [left; reflexivity|right; reflexivity].
Qed.
