From Verif Require Import Base.
From Verif Require Import Diff.
From Verif Require Import NemlMathModel.
From Verif Require Import TensorModel.
From Verif Require Import Blocks.
From Verif Require Import SlipModel.
From Verif Require Import SlipSpec.
From Verif Require Import SlipProofs.
From Coq Require Import Lia Lra.

(** *** The scalar laws *)


Lemma cpow_step x n : 0 < x -> cpow x n = cpow x (n - 1) * x.
Proof. intros H. rewrite !cpow_pos by assumption. rewrite <- (Rpower_1 x H) at 3. rewrite <- Rpower_plus. f_equal. ring. Qed.
Lemma cpow_div x y n : 0 < x -> 0 < y -> cpow (x / y) n = cpow x n / cpow y n.
Proof.
  intros Hx Hy. rewrite !cpow_pos by (try assumption; apply Rdiv_lt_0_compat; assumption).
  unfold Rpower, Rdiv. rewrite ln_mult, ln_Rinv by (try assumption; apply Rinv_0_lt_compat; assumption).
  rewrite <- exp_Ropp, <- exp_plus. apply f_equal. ring.
Qed.
Lemma cpow_gt0 x n : 0 < x -> 0 < cpow x n.
Proof. intros H. rewrite cpow_pos by assumption. apply exp_pos. Qed.

Lemma pl_scalar g0 n res : scalar_exact (pl_rule g0 n res) (pl_in n).
Proof.
  intros tau st t vt vst Ht Hst [Hp Hs]. cbn in *. specialize (Hst 0%nat ltac:(lia)).
  unfold pl_slip, pl_dtau, pl_dstr, dot. cbn [rsum].
  destruct (Req_dec (tau t) 0) as [H0|H0].
  - assert (Hn : 1 < n) by (destruct Hs; [contradiction|assumption]). clear Hs.
    assert (Hq : is_derive (fun u => tau u / st u 0%nat) t ((vt * st t 0%nat - tau t * vst 0%nat) / (st t 0%nat * st t 0%nat)))
      by (apply D_div; [exact Ht|exact Hst|lra]).
    assert (Hz : tau t / st t 0%nat = 0) by (rewrite H0; field; lra).
    assert (Hx : is_derive (fun u => g0 * tau u / st u 0%nat) t (g0 * ((vt * st t 0%nat - tau t * vst 0%nat) / (st t 0%nat * st t 0%nat)))).
    { eapply D_ext; [|eapply D_eq; [apply D_mult; [apply (D_const g0)|exact Hq]|cbv beta; ring]].
      intros u. cbv beta. unfold Rdiv. ring. }
    eapply D_eq.
    + apply (D_zero_times _ (fun u => cpow (Rabs (tau u / st u 0%nat)) (n - 1)) t _ Hx).
      * rewrite H0. field. lra.
      * apply C_cpow_zero; [apply (D_cont _ _ _ Hq)|exact Hz|lra].
    + cbv beta. rewrite Hz, H0, Rabs_R0, cpow_zero by lra. field.
      repeat split; first [lra | apply Rgt_not_eq, cpow_gt0; exact Hp].
  - assert (Hns : st t 0%nat <> 0) by lra.
    assert (Habs : forall u, 0 < st u 0%nat -> Rabs (tau u / st u 0%nat) = Rabs (tau u) / st u 0%nat).
    { intros u Hu. unfold Rdiv. rewrite Rabs_mult, (Rabs_pos_eq (/ st u 0%nat)); [reflexivity|]. left. now apply Rinv_0_lt_compat. }
    assert (HA : is_derive (fun u => Rabs (tau u)) t (copysign 1 (tau t) * vt)) by (apply D_abs_safe; [exact Ht|left; exact H0]).
    assert (Hta : 0 < Rabs (tau t)) by (apply Rabs_pos_lt; exact H0).
    assert (HX : is_derive (fun u => Rabs (tau u) / st u 0%nat) t ((copysign 1 (tau t) * vt * st t 0%nat - Rabs (tau t) * vst 0%nat) / (st t 0%nat * st t 0%nat)))
      by (apply (D_div (fun u => Rabs (tau u)) (fun u => st u 0%nat)); [exact HA|exact Hst|exact Hns]).
    assert (HX0 : 0 < Rabs (tau t) / st t 0%nat) by (apply Rdiv_lt_0_compat; assumption).
    eapply (D_loc (fun u => g0 * tau u / st u 0%nat * cpow (Rabs (tau u) / st u 0%nat) (n - 1))).
    { eapply filter_imp; [|apply (loc_gt _ t _ 0 Hst Hp)]. intros u Hu. cbn beta in Hu. cbv beta. now rewrite Habs. }
    eapply D_eq.
    + apply D_mult; [apply D_div; [apply D_mult; [apply (D_const g0)|exact Ht]|exact Hst|exact Hns]|apply (D_cpow _ (n - 1) t _ HX HX0)].
    + cbv beta. rewrite Habs by assumption.
      replace (n - 1 - 1) with (n - 2) by ring.
      assert (E1 : cpow (Rabs (tau t) / st t 0%nat) (n - 1) = cpow (Rabs (tau t) / st t 0%nat) (n - 2) * (Rabs (tau t) / st t 0%nat)).
      { rewrite (cpow_step _ (n - 1)) by assumption. replace (n - 1 - 1) with (n - 2) by ring. reflexivity. }
      assert (E2 : cpow (Rabs (tau t)) (n - 1) / cpow (st t 0%nat) (n + 1) = cpow (Rabs (tau t) / st t 0%nat) (n - 2) * Rabs (tau t) / (st t 0%nat * st t 0%nat * st t 0%nat)).
      { rewrite (cpow_div _ _ (n - 2)) by assumption. rewrite (cpow_step (Rabs (tau t)) (n - 1)) by assumption.
        replace (n - 1 - 1) with (n - 2) by ring.
        assert (E3 : cpow (st t 0%nat) (n + 1) = cpow (st t 0%nat) (n - 2) * st t 0%nat * st t 0%nat * st t 0%nat).
        { rewrite (cpow_step _ (n + 1)) by assumption. replace (n + 1 - 1) with n by ring.
          rewrite (cpow_step _ n), (cpow_step _ (n - 1)) by assumption. replace (n - 1 - 1) with (n - 2) by ring. ring. }
        rewrite E3. field. repeat split; first [lra | apply Rgt_not_eq, cpow_gt0; exact Hp]. }
      replace (- n * g0 * tau t * cpow (Rabs (tau t)) (n - 1) / cpow (st t 0%nat) (n + 1)) with
        (- n * g0 * tau t * (cpow (Rabs (tau t)) (n - 1) / cpow (st t 0%nat) (n + 1))) by (unfold Rdiv; ring).
      rewrite E2, E1. clear E1 E2.
      set (K := cpow (Rabs (tau t) / st t 0%nat) (n - 2)). clearbody K.
      assert (Hc : tau t * copysign 1 (tau t) = Rabs (tau t)).
      { rewrite copysign_1. destruct (Rlt_dec (tau t) 0); [rewrite Rabs_left by assumption; ring|rewrite Rabs_pos_eq by lra; ring]. }
      assert (Hm : forall z, tau t * (copysign 1 (tau t) * z) = Rabs (tau t) * z) by (intros; rewrite <- Hc; ring).
      set (cs := copysign 1 (tau t)) in *. clearbody cs.
      replace (g0 * tau t / st t 0%nat * ((n - 1) * K * ((cs * vt * st t 0%nat - Rabs (tau t) * vst 0%nat) / (st t 0%nat * st t 0%nat))))
        with (g0 / st t 0%nat * (n - 1) * K * ((tau t * cs * vt * st t 0%nat - tau t * Rabs (tau t) * vst 0%nat) / (st t 0%nat * st t 0%nat))) by (unfold Rdiv; ring).
      rewrite Hc. field. exact Hns.
Qed.


Lemma copysign_mul k x : 0 <= k -> copysign k x = copysign 1 x * k.
Proof. intros H. unfold copysign. rewrite Rabs_R1, (Rabs_pos_eq k H). destruct (Rlt_dec x 0); ring. Qed.

Lemma kin_scalar g0 n back iso flow : 0 <= g0 -> 0 <= n -> scalar_exact (kin_rule g0 n back iso flow) (kin_in n).
Proof.
  intros Hg Hn0 tau st t vt vst Ht Hst (Hf & Hi & Hs). cbn in *.
  pose proof (Hst 0%nat ltac:(lia)) as S0. pose proof (Hst 1%nat ltac:(lia)) as S1. pose proof (Hst 2%nat ltac:(lia)) as S2.
  assert (Hd : is_derive (fun u => tau u - st u 0%nat) t (vt - vst 0%nat)) by (apply D_minus; assumption).
  destruct (Rtotal_order (kin_over (tau t) (st t)) 0) as [Hlt|[H0|Hgt]].
  - (* inside *)
    unfold kin_slip, kin_dtau, kin_dstr, dot. cbn [rsum].
    assert (Hcont : continuous (fun u => kin_over (tau u) (st u)) t).
    { unfold kin_over. apply (continuous_minus (fun u => Rabs (tau u - st u 0%nat)) (fun u => st u 1%nat)).
      - apply (continuous_comp (fun u => tau u - st u 0%nat) Rabs); [apply (D_cont _ _ _ Hd)|apply continuous_Rabs].
      - apply (D_cont _ _ _ S1). }
    assert (Hloc : locally t (fun u => kin_over (tau u) (st u) < 0)).
    { apply (Hcont (fun y => y < 0)). apply (open_lt 0). exact Hlt. }
    eapply (D_loc (fun _ => 0)).
    + eapply filter_imp; [|exact Hloc]. intros u Hu. cbv beta. destruct (Rle_dec (kin_over (tau u) (st u)) 0); [reflexivity|lra].
    + destruct (Rle_dec (kin_over (tau t) (st t)) 0); [|lra]. eapply D_eq; [apply D_const|ring].
  - (* on the threshold *)
    assert (Hs' : 0 < st t 1%nat /\ 1 < n) by (destruct Hs; [contradiction|assumption]). destruct Hs' as [Hi1 Hn].
    assert (Hne : tau t - st t 0%nat <> 0). { intros E. unfold kin_over in H0. rewrite E, Rabs_R0 in H0. lra. }
    assert (HO : is_derive (fun u => kin_over (tau u) (st u)) t (copysign 1 (tau t - st t 0%nat) * (vt - vst 0%nat) - vst 1%nat)).
    { unfold kin_over. apply D_minus; [|exact S1]. apply (D_abs_safe (fun u => tau u - st u 0%nat)); [exact Hd|left; exact Hne]. }
    unfold kin_slip, kin_dtau, kin_dstr, dot. cbn [rsum].
    destruct (Rle_dec (kin_over (tau t) (st t)) 0); [|lra].
    eapply D_eq; [|instantiate (1 := 0); ring].
    assert (HQ : is_derive (fun u => kin_over (tau u) (st u) / st u 2%nat) t
       (((copysign 1 (tau t - st t 0%nat) * (vt - vst 0%nat) - vst 1%nat) * st t 2%nat - kin_over (tau t) (st t) * vst 2%nat) / (st t 2%nat * st t 2%nat)))
      by (apply (D_div (fun u => kin_over (tau u) (st u)) (fun u => st u 2%nat)); [exact HO|exact S2|lra]).
    assert (HQ0 : kin_over (tau t) (st t) / st t 2%nat = 0) by (rewrite H0; field; lra).
    apply (D_squeeze _ (fun u => g0 * (kin_over (tau u) (st u) / st u 2%nat) * cpow (Rabs (kin_over (tau u) (st u) / st u 2%nat)) (n - 1))).
    + intros u. destruct (Rle_dec (kin_over (tau u) (st u)) 0) as [Hu|Hu]; [rewrite Rabs_R0; apply Rabs_pos|].
      set (X := kin_over (tau u) (st u) / st u 2%nat).
      assert (Hc : forall k z, Rabs (copysign k z) = Rabs k).
      { intros k z. unfold copysign. destruct (Rlt_dec z 0); rewrite ?Rabs_Ropp, Rabs_Rabsolu; reflexivity. }
      rewrite Hc, !Rabs_mult. rewrite Rmult_assoc. apply Rmult_le_compat_l; [apply Rabs_pos|].
      rewrite (Rabs_pos_eq (cpow X n)), (Rabs_pos_eq (cpow (Rabs X) (n - 1))) by apply cpow_nonneg.
      destruct (Rlt_dec 0 X) as [HX|HX].
      * rewrite (Rabs_pos_eq X) by lra. rewrite (cpow_step X n) by assumption. right. ring.
      * unfold cpow at 1. destruct (Rlt_dec 0 X); [lra|]. destruct (Req_EM_T n 0); [lra|].
        apply Rmult_le_pos; [apply Rabs_pos|apply cpow_nonneg].
    + rewrite HQ0. ring.
    + eapply D_eq.
      * apply (D_zero_times (fun u => g0 * (kin_over (tau u) (st u) / st u 2%nat)) (fun u => cpow (Rabs (kin_over (tau u) (st u) / st u 2%nat)) (n - 1)) t).
        -- apply D_mult; [apply (D_const g0)|exact HQ].
        -- rewrite HQ0. ring.
        -- apply C_cpow_zero; [apply (D_cont _ _ _ HQ)|exact HQ0|lra].
      * cbv beta. rewrite HQ0, Rabs_R0, cpow_zero by lra. ring.
  - (* flowing *)
    assert (Hne : tau t - st t 0%nat <> 0). { intros E. unfold kin_over in Hgt. rewrite E, Rabs_R0 in Hgt. lra. }
    assert (HO : is_derive (fun u => kin_over (tau u) (st u)) t (copysign 1 (tau t - st t 0%nat) * (vt - vst 0%nat) - vst 1%nat)).
    { unfold kin_over. apply D_minus; [|exact S1]. apply (D_abs_safe (fun u => tau u - st u 0%nat)); [exact Hd|left; exact Hne]. }
    assert (HQ : is_derive (fun u => kin_over (tau u) (st u) / st u 2%nat) t
       (((copysign 1 (tau t - st t 0%nat) * (vt - vst 0%nat) - vst 1%nat) * st t 2%nat - kin_over (tau t) (st t) * vst 2%nat) / (st t 2%nat * st t 2%nat)))
      by (apply (D_div (fun u => kin_over (tau u) (st u)) (fun u => st u 2%nat)); [exact HO|exact S2|lra]).
    assert (HQ0 : 0 < kin_over (tau t) (st t) / st t 2%nat) by (apply Rdiv_lt_0_compat; assumption).
    assert (Hcn : forall y, 0 <= g0 * cpow y n) by (intros; apply Rmult_le_pos; [exact Hg|apply cpow_nonneg]).
    eapply (D_loc (fun u => copysign 1 (tau t - st t 0%nat) * (g0 * cpow (kin_over (tau u) (st u) / st u 2%nat) n))).
    + assert (Hsame : locally t (fun u => copysign 1 (tau u - st u 0%nat) = copysign 1 (tau t - st t 0%nat))).
      { rewrite !copysign_1. destruct (Rlt_dec (tau t - st t 0%nat) 0) as [Hl|Hl].
        - eapply filter_imp; [|apply (loc_lt _ t _ 0 Hd Hl)]. intros u Hu. cbn beta in Hu. rewrite copysign_1. destruct (Rlt_dec _ _); [reflexivity|lra].
        - assert (Hg0 : 0 < tau t - st t 0%nat) by lra.
          eapply filter_imp; [|apply (loc_gt _ t _ 0 Hd Hg0)]. intros u Hu. cbn beta in Hu. rewrite copysign_1. destruct (Rlt_dec _ _); [lra|reflexivity]. }
      eapply filter_imp; [|apply filter_and; [exact Hsame|apply (loc_gt _ t _ 0 HO Hgt)]].
      intros u [Hu1 Hu2]. cbn beta in Hu2. unfold kin_slip. destruct (Rle_dec (kin_over (tau u) (st u)) 0); [lra|].
      rewrite (copysign_mul (g0 * cpow (kin_over (tau u) (st u) / st u 2%nat) n)) by apply Hcn. now rewrite Hu1.
    + eapply D_eq; [apply D_mult; [apply D_const|apply D_mult; [apply D_const|apply (D_cpow _ n t _ HQ HQ0)]]|].
      cbv beta. unfold kin_dtau, kin_dstr, dot. cbn [rsum]. destruct (Rle_dec (kin_over (tau t) (st t)) 0); [lra|].
      set (o := kin_over (tau t) (st t)) in *.
      replace (st t 1%nat - Rabs (tau t - st t 0%nat)) with (- o) by (unfold o, kin_over; ring).
      assert (HK : 0 <= cpow (o / st t 2%nat) (n - 1)) by apply cpow_nonneg.
      rewrite (cpow_step (o / st t 2%nat) n) by assumption.
      assert (Hgn : 0 <= g0 * n) by (apply Rmult_le_pos; assumption).
      rewrite (copysign_mul (g0 * n * cpow (o / st t 2%nat) (n - 1) / st t 2%nat)).
      2:{ unfold Rdiv. apply Rmult_le_pos; [apply Rmult_le_pos; assumption|left; apply Rinv_0_lt_compat; assumption]. }
      rewrite (copysign_mul (g0 * n * (cpow (o / st t 2%nat) (n - 1) * (o / st t 2%nat)) / st t 2%nat)).
      2:{ unfold Rdiv at 1. apply Rmult_le_pos; [apply Rmult_le_pos; [assumption|apply Rmult_le_pos; [assumption|left; assumption]]|left; apply Rinv_0_lt_compat; assumption]. }
      assert (Hc2 : copysign 1 (tau t - st t 0%nat) * copysign 1 (tau t - st t 0%nat) = 1).
      { rewrite copysign_1. destruct (Rlt_dec _ _); ring. }
      set (cs := copysign 1 (tau t - st t 0%nat)) in *. clearbody cs o.
      set (K := cpow (o / st t 2%nat) (n - 1)) in *. clearbody K.
      replace (cs * (0 * (K * (o / st t 2%nat)))) with 0 by ring.
      transitivity (g0 * n * K / st t 2%nat * ((cs * cs) * (vt - vst 0%nat)) - cs * (g0 * n * K / st t 2%nat) * vst 1%nat
        - cs * (g0 * n * K * (o / st t 2%nat) / st t 2%nat) * vst 2%nat).
      * field. lra.
      * rewrite Hc2. field. lra.
Qed.
