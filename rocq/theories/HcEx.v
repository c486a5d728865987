(** The whole rule, and concrete cases. *)
From Verif Require Import Base Diff Blocks.
From Verif Require Import SlipModel SlipSpec SlipProofs SlipWhole HcModel HcSpec HcProofs HcMain HcHardSpec HcHard HcWhole.
From Coq Require Import Lia Lra List.

(** The Arrhenius rule with Hu-Cocks hardening over dislocation spacings: slip rates and history rates. *)
Lemma hk_rule L v k d : 0 < ar_A v -> 0 <= ar_g0 v * ar_B v * ar_F v -> hk_d k = spacing d -> ds_n d = l_n L -> (forall i, (i < hk_m k)%nat -> hc_phys (hk_p k i)) ->
  is_jac2 (l_n L) 6 (r_nh (ar_rule v (hucocks k))) (slip_in L (ar_rule v (hucocks k)) ar_in (fun _ => hk_in L k (spacing_in d)))
    (rs_slip L (ar_rule v (hucocks k))) (rs_dslip_s L (ar_rule v (hucocks k))) (rs_dslip_h L (ar_rule v (hucocks k))) /\
  is_jac2 (r_nh (ar_rule v (hucocks k))) 6 (r_nh (ar_rule v (hucocks k)))
    (fun s h => slip_in L (ar_rule v (hucocks k)) ar_in (fun _ => hk_in L k (spacing_in d)) s h /\ abs_safe L (ar_rule v (hucocks k)) s h /\
       forall j, (j < 1)%nat -> hk_rate_in k (fun _ => spacing_in d) (rs_slip L (ar_rule v (hucocks k)) s h) (bsub (r_sizes (ar_rule v (hucocks k))) h j))
    (rs_rate L (ar_rule v (hucocks k))) (rs_rate_s L (ar_rule v (hucocks k))) (rs_rate_h L (ar_rule v (hucocks k))).
Proof.
  intros HA HF Hd Hn Hp. destruct (spacing_exact L d (hk_m k + 0) Hn) as [S1 S2]. rewrite <- Hd in S1, S2.
  pose proof (ar_exact v (hucocks k) HA HF) as E. split.
  - apply slip_whole; [exact E|]. intros j Hj. apply hk_strength_exact. exact S1.
  - apply (rate_whole L (ar_rule v (hucocks k)) ar_in (fun _ => hk_in L k (spacing_in d)) (fun _ => hk_rate_in k (fun _ => spacing_in d))); [exact E| |].
    + intros j Hj. apply hk_strength_exact. exact S1.
    + intros j Hj. apply hk_rates_exact; [exact Hp|exact S2].
Qed.

(** Two species, equilibrium 1/4 and 1/8; all other constants one. *)
Definition pcx (n : nat) (Cf : R) : hcp :=
  {| hp_n := n; hp_c0 := fun _ => / 2; hp_cp := fun _ => 3 / 4; hp_ceq := fun i => match i with O => / 4 | _ => / 8 end; hp_am := 1; hp_N0 := 1; hp_Vm := 1; hp_chi := 1;
     hp_D0 := 1; hp_Q0 := 1; hp_Cf := Cf; hp_kb := 1; hp_R := 1; hp_Na := 1; hp_rate := 0; hp_fi := / 4; hp_ri := 1; hp_Ni := 1; hp_fs := 1; hp_rs := 1; hp_Ns := 1; hp_w := 1; hp_T := 1 |}.
Lemma pcx_phys n Cf : (0 < n)%nat -> 0 < Cf -> hc_phys (pcx n Cf).
Proof.
  intros Hn HC. split; cbn.
  - exact Hn.
  - intros i Hi. destruct i as [|i]; lra.
  - repeat split; lra.
  - repeat split; lra.
Qed.
Definition h3 (a b c : R) : vec := fun i => match i with 0%nat => a | 1%nat => b | _ => c end.
Lemma pcx_c n Cf f i : hp_c (pcx n Cf) f i = (/ 2 - f * (3 / 4)) / (1 - f).
Proof. reflexivity. Qed.
Lemma pcx_reg : hc_reg (pcx 2 1) (h3 (/ 4) 1 1).
Proof.
  assert (F : hp_f (pcx 2 1) (h3 (/ 4) 1 1) = / 4) by (unfold hp_f; cbn; lra).
  assert (C : forall i, hp_c (pcx 2 1) (/ 4) i = 5 / 12) by (intros i; rewrite pcx_c; field).
  assert (Q : forall i, hp_ceq (pcx 2 1) i <= / 4) by (intros [|i]; cbn; lra).
  unfold hc_reg. rewrite F. split; [lra|]. split; [unfold hp_r; cbn; lra|]. split; [unfold hp_N; cbn; lra|]. split.
  - destruct (hc_supersaturated (pcx 2 1) (/ 4)) as [G _]; [apply pcx_phys; [lia|lra]| |lra].
    intros i _. rewrite C. pose proof (Q i). lra.
  - intros i _. rewrite C. pose proof (Q i). lra.
Qed.
(** A history: the first species is at equilibrium, so that the precipitates coarsen by the t^(1/3) law. *)
Definition pcK : R := hp_K (pcx 2 1) (hp_c (pcx 2 1) (/ 2) 0%nat).
Definition pch (t : R) : vec := h3 (/ 2) (Rpower (1 + pcK * t) (/ 3)) (/ (1 + pcK * t)).
Lemma pcK_pos : 0 < pcK.
Proof.
  unfold pcK, hp_K. rewrite pcx_c. pose proof (hc_D_pos (pcx 2 1) (pcx_phys 2 1 ltac:(lia) ltac:(lra))) as D. cbn [hp_Cf hp_chi hp_Vm hp_R hp_T pcx].
  set (d := hp_D (pcx 2 1)) in *. clearbody d. lra.
Qed.
Lemma pcx_above : forall j, hp_ceq (pcx 2 1) j <= hp_c (pcx 2 1) (/ 2) j.
Proof. intros j. rewrite pcx_c. destruct j as [|j]; cbn; lra. Qed.
Lemma pch_switch : hc_switch (pcx 2 1) (/ 2) = 1.
Proof.
  apply hc_switch_one; [apply pcx_phys; [lia|lra]|lra|]. exists 0%nat. split; [cbn; lia|]. rewrite pcx_c. cbn. lra.
Qed.
Lemma pch_history : hc_history (pcx 2 1) pch 0 1.
Proof.
  pose proof pcK_pos as HK. intros t Ht. assert (P : 0 < 1 + pcK * t) by (assert (0 <= pcK * t) by (apply Rmult_le_pos; lra); lra).
  assert (F : hp_f (pcx 2 1) (pch t) = / 2) by (unfold hp_f; cbn; lra).
  assert (Rr : hp_r (pcx 2 1) (pch t) = Rpower (1 + pcK * t) (/ 3)) by (unfold hp_r; cbn; lra).
  assert (Nn : hp_N (pcx 2 1) (pch t) = / (1 + pcK * t)) by (unfold hp_N; cbn; lra).
  set (r := Rpower (1 + pcK * t) (/ 3)) in *. assert (Hr : 0 < r) by apply exp_pos.
  assert (R3 : r ^ 3 = 1 + pcK * t). { unfold r. rewrite <- Rpower_pow by apply exp_pos. rewrite Rpower_mult. replace (/ 3 * INR 3) with 1 by (cbn; field). apply Rpower_1. exact P. }
  split; [|rewrite F, Rr; lra].
  assert (DL : is_derive (fun u => 1 + pcK * u) t pcK) by (eapply D_eq; [apply D_plus; [apply D_const|apply D_mult; [apply D_const|apply D_id]]|cbv beta; ring]).
  assert (SW : fst (hp_switch (pcx 2 1) 0 (/ 2)) = 1) by exact pch_switch.
  intros i Hi. unfold hp_rates. cbv zeta. rewrite F, Rr, Nn. destruct i as [|[|[|i]]]; [| | |lia].
  - rewrite (hc_frate_zero (pcx 2 1) (/ 2) r); [|exact pch_switch|lra]. cbn [pch h3]. unfold Rdiv. rewrite Rmult_0_l. apply D_const.
  - eapply D_eq; [apply (D_Rpower _ (/ 3) t pcK DL P)|]. cbv beta. unfold hp_rrate. cbv zeta. rewrite SW.
    rewrite Rpower_m1 by exact P. fold r. change (hp_rr (pcx 2 1) (/ 2) r) with (pcK / (3 * r ^ 2)). rewrite <- R3. cbn [hp_rs pcx]. field. lra.
  - eapply D_eq; [apply (D_inv _ t pcK DL); lra|]. cbv beta. unfold hp_Nrate, hp_Nr. cbv zeta. rewrite SW. change (hp_rr (pcx 2 1) (/ 2) r) with (pcK / (3 * r ^ 2)). rewrite <- R3. cbn [hp_Ns pcx]. field. lra.
Qed.
(** Without precipitate the Jacobian holds whatever was in an uninitialised variable. *)
Lemma hc_junk_seen : exists p h, hc_phys p /\ hp_f p h = 0 /\ forall j j', j <> j' -> hp_jac p j h 1%nat 0%nat <> hp_jac p j' h 1%nat 0%nat.
Proof.
  set (h := h3 0 1 1). assert (F : forall Cf, hp_f (pcx 1 Cf) h = 0) by (intros; unfold hp_f; cbn; ring).
  assert (K : forall Cf, 0 < Cf -> hp_rr (pcx 1 Cf) 0 1 - hp_rn (pcx 1 Cf) 0 1 1 <> 0 -> exists p h, hc_phys p /\ hp_f p h = 0 /\ forall j j', j <> j' -> hp_jac p j h 1%nat 0%nat <> hp_jac p j' h 1%nat 0%nat).
  { intros Cf HC Hne. exists (pcx 1 Cf), h. split; [apply pcx_phys; [lia|exact HC]|]. split; [apply F|].
    intros j j' Hj E. pose proof (hc_junk (pcx 1 Cf) j j' h (pcx_phys 1 Cf ltac:(lia) HC)) as G. rewrite F in G. specialize (G ltac:(lra)).
    replace (hp_r (pcx 1 Cf) h) with 1 in G by (unfold hp_r; cbn; ring). replace (hp_N (pcx 1 Cf) h) with 1 in G by (unfold hp_N; cbn; ring).
    cbn [hp_rs hp_fs pcx] in G. rewrite E in G. apply (Rmult_integral_contrapositive_currified (j - j') _ ltac:(lra) Hne).
    match goal with |- ?x = 0 => replace x with (x / 1 * 1) by field end. rewrite <- G. ring. }
  assert (X : hp_rr (pcx 1 2) 0 1 = 2 * hp_rr (pcx 1 1) 0 1) by (unfold hp_rr, hp_K, hp_c, hp_D; cbn [hp_Cf hp_chi hp_Vm hp_R hp_T hp_rate hp_c0 hp_cp hp_D0 hp_Q0 pcx]; field).
  assert (Y : hp_rn (pcx 1 2) 0 1 1 = hp_rn (pcx 1 1) 0 1 1) by reflexivity.
  assert (Z : 0 < hp_rr (pcx 1 1) 0 1).
  { unfold hp_rr, hp_K. pose proof (hc_D_pos (pcx 1 1) (pcx_phys 1 1 ltac:(lia) ltac:(lra))) as D. rewrite pcx_c. cbn [hp_Cf hp_chi hp_Vm hp_R hp_T pcx].
    set (d := hp_D (pcx 1 1)) in *. clearbody d. lra. }
  destruct (Req_dec (hp_rr (pcx 1 1) 0 1 - hp_rn (pcx 1 1) 0 1 1) 0) as [E|E]; [|apply (K 1); [lra|exact E]].
  apply (K 2); [lra|]. rewrite X, Y. lra.
Qed.
(** The driving force of a model with one species is zero at equilibrium; the code divides by it. *)
Lemma hc_equilibrium p : hc_phys p -> hp_n p = 1%nat -> 0 < hc_feq p 0%nat < 1 /\ hc_switch p (hc_feq p 0%nat) = 1 /\ hp_Gv p (hc_feq p 0%nat) = 0.
Proof.
  intros H Hn. destruct (hy_c p H 0%nat ltac:(lia)) as [[A B] C].
  assert (R : 0 < hc_feq p 0%nat < 1).
  { unfold hc_feq. split; [apply Rdiv_lt_0_compat; lra|]. apply (Rmult_lt_reg_r (hp_cp p 0%nat - hp_ceq p 0%nat)); [lra|]. unfold Rdiv. rewrite Rmult_assoc, Rinv_l by lra. lra. }
  assert (E : hp_c p (hc_feq p 0%nat) 0%nat = hp_ceq p 0%nat) by (unfold hp_c, hc_feq; field; split; lra).
  split; [exact R|]. split.
  - apply hc_switch_one; [exact H|exact R|]. exists 0%nat. split; [lia|]. lra.
  - unfold hp_Gv. rewrite Hn. cbn [rprod]. rewrite E. replace (1 * hp_ceq p 0%nat / (1 * hp_ceq p 0%nat)) with 1 by (field; lra). rewrite ln_1. ring.
Qed.

(** One system, one precipitate. *)
Definition dsx : dspac := {| ds_n := 1; ds_J1 := 1; ds_J2 := 1; ds_K := 1; ds_L0 := 1; ds_a := 1; ds_b := 1; ds_G := 1 |}.
Definition hkx : hcock := {| hk_d := spacing dsx; hk_m := 1; hk_p := fun _ => pcx 2 1; hk_ap := 1; hk_ac := 1; hk_b := 1; hk_G := 1; hk_junk := 0 |}.
Definition Lx (n : nat) : slat := {| l_n := n; l_off := fun _ => 0%nat; l_loc := fun p => p; l_twin := fun _ => false; l_M := fun _ _ => 1; l_N := fun _ _ => 0; l_b := fun _ => 1 |}.
Definition hx : vec := fun i => match i with 0%nat => 1 | 1%nat => / 4 | _ => 1 end.
Lemma hkx_part : hk_p_part hkx hx 0 = fun q => hx (1 + q)%nat.
Proof. reflexivity. Qed.
Lemma hkx_in : hk_in (Lx 1) hkx (spacing_in dsx) hx /\ hk_rate_in hkx (fun _ => spacing_in dsx) (fun _ => 1) hx.
Proof.
  assert (S : spacing_in dsx hx) by (intros i Hi; cbn in Hi; replace i with 0%nat by lia; cbn; lra).
  assert (F : forall h, hp_f (pcx 2 1) h = h 0%nat) by (intros h; unfold hp_f; cbn; ring).
  assert (C : hk_c hkx hx = 5 / 6).
  { unfold hk_c. cbn [hk_m hkx rsum hk_p]. cbn [hp_n pcx rsum]. rewrite !F. rewrite !pcx_c. unfold hp_vm. cbn. field. }
  split.
  - unfold hk_in. split; [exact S|]. split; [|split; [|split]].
    + intros i Hi. cbn in Hi. replace i with 0%nat by lia. cbn [hk_p hkx]. rewrite F, hkx_part. cbn. lra.
    + unfold hk_NA. cbn. unfold hp_r, hp_N. cbn. lra.
    + rewrite C. cbn. lra.
    + intros p Hp. cbn in Hp. replace p with 0%nat by lia. cbn. lra.
  - split; [exact S|]. intros i Hi. cbn in Hi. replace i with 0%nat by lia. cbn [hk_p hkx].
    destruct pcx_reg as (A & B & D & E & G). unfold hc_reg in *. rewrite !F in *. exact (conj A (conj B (conj D (conj E G)))).
Qed.
Definition arx : arrh := {| ar_g0 := 1; ar_A := / 2; ar_B := 3 / 2; ar_b := 1; ar_a0 := 1; ar_G0 := 1; ar_k := 1; ar_T := 1 |}.
