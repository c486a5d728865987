(** Strength of the hardening with several precipitates. *)
From Verif Require Import Base Diff.
From Verif Require Import SlipModel SlipSpec SlipProofs GhModel HcModel GhSpec GhProofs GhMain GhHist.
From Coq Require Import Lia Lra List.

(** The states in which the strength can be differentiated: every species has a precipitate of positive volume. *)
Definition gh_in (L : slat) (k : ghard) (Pd : vec -> Prop) (h : vec) : Prop :=
  let m := gh_m k in let hp := gh_p k h in let F := g_f m hp in
  Pd h /\ c_reg m F /\ (forall i, (i < g_np m)%nat -> 0 < g_r m hp i /\ 0 < g_N m hp i) /\
  (forall s, (s < g_ns m)%nat -> exists i, (i < g_np m)%nat /\ In s (gp_sp (g_p m i))) /\
  forall p, (p < l_n L)%nat -> 0 < h_tau (gh_d k) L p h.

Lemma g_fv_val m F s : g_phys m -> g_fv m F s = rsum (g_np m) (fun i => if in_sp (g_p m i) s then F i * gp_Vm (g_p m i) / g_Na m else 0).
Proof.
  intros H. unfold g_fv. apply rsum_ext. intros i Hi. destruct (gy_sp m H i Hi) as (Hd & _).
  rewrite (rlist_pick (fun _ => F i * gp_Vm (g_p m i) / g_Na m)) by exact Hd. reflexivity.
Qed.
Lemma rsum_pos_one n f i : (i < n)%nat -> (forall j, (j < n)%nat -> 0 <= f j) -> 0 < f i -> 0 < rsum n f.
Proof.
  induction n as [|n IH]; intros Hi H P; [lia|]. cbn [rsum]. destruct (Nat.eq_dec i n) as [->|Hne].
  - assert (0 <= rsum n f) by (apply rsum_nonneg; intros; apply H; lia). lra.
  - assert (0 < rsum n f) by (apply IH; [lia|intros; apply H; lia|exact P]). pose proof (H n ltac:(lia)). lra.
Qed.
Lemma D_fv m (F : R -> vec) t vF s : g_phys m -> Fpath m F t vF -> is_derive (fun u => g_fv m (F u) s) t (rsum (g_np m) (fun j => (if in_sp (g_p m j) s then gp_Vm (g_p m j) / g_Na m else 0) * vF j)).
Proof.
  intros H HF. eapply D_ext; [intros u; symmetry; apply g_fv_val; exact H|]. apply D_rsum. intros i Hi. destruct (gy_k m H) as (_ & HN & _). destruct (in_sp (g_p m i) s).
  - eapply D_eq; [apply D_div; [apply D_mult; [apply (HF i Hi)|apply D_const]|apply D_const|lra]|cbv beta; field; lra].
  - eapply D_eq; [apply D_const|ring].
Qed.
Lemma D_g_vm m (F : R -> vec) t vF s : g_phys m -> Fpath m F t vF -> g_fs m (F t) s <> 0 -> is_derive (fun u => g_vm m (F u) s) t (rsum (g_np m) (fun j => g_vm_f m (F t) s j * vF j)).
Proof.
  intros H HF Hne. assert (Dt : is_derive (fun u => g_fs m (F u) s) t (rsum (g_np m) (fun j => (if in_sp (g_p m j) s then 1 else 0) * vF j))).
  { eapply D_ext; [intros u; symmetry; apply g_fs_taken; exact H|]. eapply D_eq; [apply (D_taken m F t vF s HF)|]. apply rsum_ext. intros j _. destruct (in_sp _ _); ring. }
  unfold g_vm. eapply D_eq; [apply D_div; [apply (D_fv m F t vF s H HF)|exact Dt|exact Hne]|]. cbv beta.
  rewrite (rsum_ext _ (fun j => g_vm_f m (F t) s j * vF j) (fun j => / g_fs m (F t) s * ((if in_sp (g_p m j) s then gp_Vm (g_p m j) / g_Na m else 0) * vF j) + - (g_fv m (F t) s / g_fs m (F t) s / g_fs m (F t) s) * ((if in_sp (g_p m j) s then 1 else 0) * vF j))).
  - rewrite rsum_plus, !rsum_scal. field. exact Hne.
  - intros j _. unfold g_vm_f. cbv zeta. unfold Rdiv. ring.
Qed.
Lemma D_g_svd m (F : R -> vec) t vF : g_phys m -> Fpath m F t vF -> c_reg m (F t) -> (forall s, (s < g_ns m)%nat -> g_fs m (F t) s <> 0 /\ g_vm m (F t) s <> 0) ->
  is_derive (fun u => g_svd m (F u)) t (rsum (g_np m) (fun j => g_svd_f m (F t) j * vF j)).
Proof.
  intros H HF Hc Hv. unfold g_svd. eapply D_eq.
  - apply (D_rsum _ _ _ (fun s => rsum (g_np m) (fun j => (g_c_f m (F t) s j / g_vm m (F t) s - g_c m (F t) s / g_vm m (F t) s / g_vm m (F t) s * g_vm_f m (F t) s j) * vF j))).
    intros s Hs. destruct (Hc s Hs) as [A B]. destruct (Hv s Hs) as [C D]. eapply D_eq; [apply D_div; [apply (D_g_c m F t vF s H HF A B)|apply (D_g_vm m F t vF s H HF C)|exact D]|]. cbv beta.
    symmetry. transitivity (rsum (g_np m) (fun j => / g_vm m (F t) s * (g_c_f m (F t) s j * vF j) + - (g_c m (F t) s / g_vm m (F t) s / g_vm m (F t) s) * (g_vm_f m (F t) s j * vF j))); [apply rsum_ext; intros; unfold Rdiv; ring|].
    rewrite rsum_plus, !rsum_scal. field. exact D.
  - rewrite rsum_swap. apply rsum_ext. intros j _. unfold g_svd_f. rewrite rsum_scal_r. reflexivity.
Qed.
Lemma g_vol_pos m F : g_phys m -> (forall i, (i < g_np m)%nat -> 0 < F i) -> (forall s, (s < g_ns m)%nat -> exists i, (i < g_np m)%nat /\ In s (gp_sp (g_p m i))) ->
  forall s, (s < g_ns m)%nat -> 0 < g_fs m F s /\ 0 < g_vm m F s /\ 0 < g_c m F s / g_vm m F s.
Proof.
  intros H HF Hall s Hs. destruct (Hall s Hs) as (i & Hi & Hin). apply in_sp_in in Hin. destruct (gy_k m H) as (_ & HNa & _).
  assert (A : 0 < g_fs m F s).
  { rewrite g_fs_taken by exact H. apply (rsum_pos_one _ _ i Hi); [intros j Hj; specialize (HF j Hj); cbv beta; destruct (in_sp (g_p m j) s); lra|]. rewrite Hin. apply HF. exact Hi. }
  assert (B : 0 < g_fv m F s).
  { rewrite g_fv_val by exact H. assert (Q : forall j, (j < g_np m)%nat -> 0 < F j * gp_Vm (g_p m j) / g_Na m).
    { intros j Hj. destruct (gy_p m H j Hj) as (_ & HV & _). apply Rdiv_lt_0_compat; [apply Rmult_lt_0_compat; [apply HF; exact Hj|exact HV]|exact HNa]. }
    apply (rsum_pos_one _ _ i Hi); [intros j Hj; specialize (Q j Hj); cbv beta; destruct (in_sp (g_p m j) s); lra|]. rewrite Hin. apply Q. exact Hi. }
  assert (C : 0 < g_vm m F s) by (apply Rdiv_lt_0_compat; assumption). repeat split; [exact A|exact C|]. apply Rdiv_lt_0_compat; [apply g_c_pos; exact H|exact C].
Qed.
Lemma D_g_pad m (c : R -> vec) t v : path (2 * g_np m) c t v ->
  is_derive (fun u => g_pad m (c u)) t (rsum (g_np m) (fun j => 2 * g_N m (c t) j * gp_rs (g_p m j) * v (2 * j)%nat + 2 * g_r m (c t) j * gp_Ns (g_p m j) * v (2 * j + 1)%nat)).
Proof.
  intros H. unfold g_pad. apply D_rsum. intros i Hi. destruct (path_rN m c t v H i Hi) as [Dr DN]. eapply D_eq; [apply D_mult; [apply D_mult; [apply D_const|exact Dr]|exact DN]|]. cbv beta. ring.
Qed.
Lemma gh_strength L k Pd : g_phys (gh_m k) -> (0 < g_np (gh_m k))%nat -> (0 < g_ns (gh_m k))%nat -> 0 < gh_b k -> strength_exact L (gh_d k) Pd ->
  forall p, (p < l_n L)%nat -> is_grad (gh_n k) (gh_in L k Pd) (gh_tau k L p) (gh_dtau k L p).
Proof.
  intros H Hnp Hns Hb Hd p Hp c t v Hc HP. set (m := gh_m k) in *. set (n := h_n (gh_d k)). destruct HP as (Pd0 & Hcr & HrN & Hall & Htd). specialize (Htd p Hp). cbv zeta in *. fold m in Hcr, HrN, Hall.
  set (hp := gh_p k (c t)) in *. set (F := g_f m hp) in *.
  assert (Hc1 : path n c t v) by (intros i Hi; apply (Hc i); unfold gh_n; fold m n; lia).
  set (v2 := fun x => v (n + x)%nat). assert (Hc2 : path (2 * g_np m) (fun u => gh_p k (c u)) t v2) by (intros i Hi; apply (Hc (n + i)%nat); unfold gh_n; fold m n; lia).
  assert (FP : forall i, (i < g_np m)%nat -> 0 < F i).
  { intros i Hi. destruct (HrN i Hi) as [A B]. unfold F, g_f. pose proof PI_RGT_0. apply Rmult_lt_0_compat; [apply Rmult_lt_0_compat; [lra|apply pow_lt; exact A]|exact B]. }
  pose proof (g_vol_pos m F H FP Hall) as HV.
  pose proof (path_F m _ t v2 Hc2) as HF. cbv beta in HF. fold hp in HF. set (vF := g_vF m hp v2) in *.
  pose proof (D_g_svd m (fun u => g_f m (gh_p k (c u))) t vF H HF Hcr ltac:(intros s Hs; destruct (HV s Hs) as (A & B & _); cbv beta; fold hp; fold F; split; lra)) as DS. cbv beta in DS. fold hp in DS. fold F in DS.
  pose proof (D_g_pad m _ t v2 Hc2) as DP. cbv beta in DP. fold hp in DP.
  pose proof (Hd p Hp c t v Hc1 Pd0) as DT. fold n in DT.
  assert (Ppad : 0 < g_pad m hp).
  { unfold g_pad. apply (rsum_pos_one _ _ 0%nat Hnp); [intros j Hj|]; [destruct (HrN j Hj) as [A B]; apply Rlt_le|destruct (HrN 0%nat Hnp) as [A B]]; (apply Rmult_lt_0_compat; [lra|exact B]). }
  assert (Psvd : 0 < g_svd m F). { unfold g_svd. apply (rsum_pos_one _ _ 0%nat Hns); [intros s Hs; apply Rlt_le|]; apply HV; assumption. }
  unfold gh_tau. cbv zeta. unfold gh_taup, gh_tauc. fold m.
  set (kp := gh_ap k * gh_G k * gh_b k). set (kc := gh_ac k * gh_G k * gh_b k).
  set (P := g_pad m hp) in *. set (S0 := g_svd m F) in *. set (td := h_tau (gh_d k) L p (c t)) in *.
  assert (Pr : 0 < td * td + kp * sqrt P * (kp * sqrt P)) by (assert (0 < td * td) by (apply Rmult_lt_0_compat; exact Htd); pose proof (Rle_0_sqr (kp * sqrt P)) as X; unfold Rsqr in X; lra).
  assert (Psq : 0 < sqrt P) by (apply sqrt_lt_R0; exact Ppad). assert (Prt : 0 < sqrt (td * td + kp * sqrt P * (kp * sqrt P))) by (apply sqrt_lt_R0; exact Pr).
  assert (Psb : 0 < S0 * gh_b k) by (apply Rmult_lt_0_compat; assumption). assert (Pssb : 0 < sqrt (S0 * gh_b k)) by (apply sqrt_lt_R0; exact Psb).
  assert (Etp : gh_taup k (c t) = kp * sqrt P) by reflexivity. assert (Etc : gh_tauc k (c t) = kc * sqrt (S0 * gh_b k)) by reflexivity.
  eapply D_eq.
  - apply D_plus.
    + apply D_sqrt; [apply D_plus; [apply D_mult; exact DT|]|cbv beta; fold hp; fold P; fold td; exact Pr].
      apply D_mult; (apply D_mult; [apply D_const|]); (apply D_sqrt; [exact DP|cbv beta; fold hp; fold P; exact Ppad]).
    + apply D_mult; [apply D_const|]. apply D_sqrt; [apply D_mult; [exact DS|apply D_const]|cbv beta; fold hp; fold F; fold S0; exact Psb].
  - cbv beta. fold hp. fold F. fold P. fold S0. fold td.
    unfold dot, gh_n. fold m n. rewrite rsum_app, rsum_pairs.
    rewrite (rsum_ext n (fun i => gh_dtau k L p (c t) i * v i) (fun i => (td / sqrt (td * td + kp * sqrt P * (kp * sqrt P))) * (h_dtau (gh_d k) L p (c t) i * v i))).
    2:{ intros i Hi. unfold gh_dtau. cbv zeta. fold n. destruct (Nat.ltb_spec i n); [|lia]. rewrite Etp. fold td. rewrite (Rplus_comm (kp * sqrt P * (kp * sqrt P))). ring. }
    rewrite rsum_scal.
    set (ts := sqrt (td * td + kp * sqrt P * (kp * sqrt P))) in *.
    set (A := rsum (g_np m) (fun j => g_svd_f m F j * vF j)). set (B := rsum (g_np m) (fun j => 2 * g_N m hp j * gp_rs (g_p m j) * v2 (2 * j)%nat + 2 * g_r m hp j * gp_Ns (g_p m j) * v2 (2 * j + 1)%nat)).
    rewrite (rsum_ext (g_np m) (fun j => gh_dtau k L p (c t) (n + 2 * j)%nat * v (n + 2 * j)%nat + gh_dtau k L p (c t) (n + (2 * j + 1))%nat * v (n + (2 * j + 1))%nat)
      (fun j => (/ 2 * (kc * sqrt (S0 * gh_b k)) / S0) * (g_svd_f m F j * vF j) + (/ 2 * (kp * sqrt P) * (kp * sqrt P) / ts / P) * (2 * g_N m hp j * gp_rs (g_p m j) * v2 (2 * j)%nat + 2 * g_r m hp j * gp_Ns (g_p m j) * v2 (2 * j + 1)%nat))).
    2:{ intros j Hj. unfold gh_dtau. cbv zeta. fold n. destruct (Nat.ltb_spec (n + 2 * j) n); [lia|]. destruct (Nat.ltb_spec (n + (2 * j + 1)) n); [lia|].
        replace (n + 2 * j - n)%nat with (2 * j)%nat by lia. replace (n + (2 * j + 1) - n)%nat with (2 * j + 1)%nat by lia.
        destruct (two_even j) as [X1 X2]. destruct (two_odd j) as [X3 X4]. rewrite X1, X2, X3, X4. cbn [Nat.eqb]. rewrite Etp, Etc. fold m. fold hp. fold F. fold P. fold S0. fold td.
        rewrite (Rplus_comm (kp * sqrt P * (kp * sqrt P))). fold ts. unfold vF, g_vF, v2. unfold Rdiv. ring. }
    rewrite rsum_plus, !rsum_scal. fold A. fold B.
    change (rsum n (fun i => h_dtau (gh_d k) L p (c t) i * v i)) with (dot n (h_dtau (gh_d k) L p (c t)) v). set (T := dot n (h_dtau (gh_d k) L p (c t)) v).
    assert (EP : sqrt P * sqrt P = P) by (apply sqrt_sqrt; lra). assert (ES : sqrt (S0 * gh_b k) * sqrt (S0 * gh_b k) = S0 * gh_b k) by (apply sqrt_sqrt; lra).
    set (q := sqrt P) in *. set (g := sqrt (S0 * gh_b k)) in *.
    assert (E1 : (A * gh_b k + S0 * 0) / (2 * g) = / 2 * g / S0 * A). { apply (Rmult_eq_reg_r (2 * g)); [|lra]. transitivity (A * gh_b k); [field; lra|]. transitivity ((g * g) * (A / S0)); [rewrite ES; field; lra|field; lra]. }
    assert (E2 : / 2 * (kp * q) * (kp * q) / ts / P = kp * kp / (2 * ts)) by (rewrite <- EP; field; split; lra).
    rewrite E1, E2. field. repeat split; lra.
Qed.
