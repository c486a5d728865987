From Verif Require Import Base.
From Verif Require Import Diff.
From Verif Require Import NemlMathModel NemlMathSpec NemlMathProofs SolverModel SolverSpec SolverProofs SubstepModel SurfModel SurfSpec SurfProofs HardProofs RiProofs.
From Verif Require Import PlastModel PlastSpec PlastProofs ViscoProofs YaguchiProofs CreepModel CreepSpec.

(** *** scalar laws *)
Lemma cpow_step x n : 0 < x -> cpow x n = x * cpow x (n - 1).
Proof.
  intros H. rewrite !cpow_pos by exact H. replace n with (1 + (n - 1)) at 1 by ring. rewrite Rpower_plus, Rpower_1 by exact H. reflexivity.
Qed.
Lemma power_law_exact A n : srule_exact (fun se _ _ _ => 0 < se) (PowerLawCreep A n).
Proof. intros t T se ee u vs ve Hs He HP. cbn [sc_g sc_gs sc_ge PowerLawCreep] in *. unfold zero4. eapply D_eq; [dall; exact HP|cbv beta; ring]. Qed.
Lemma normalized_exact s0 n : srule_exact (fun se _ _ T => 0 < se / s0 T /\ s0 T <> 0) (NormalizedPowerLawCreep s0 n).
Proof.
  intros t T se ee u vs ve Hs He [HP H0]. cbn [sc_g sc_gs sc_ge NormalizedPowerLawCreep] in *. unfold zero4.
  eapply D_eq; [dall; first [exact HP|exact H0]|cbv beta; field; exact H0].
Qed.
Lemma blackburn_exact A n beta Rg Q : srule_exact (fun se _ _ T => 0 < beta T * se / n T /\ n T <> 0) (BlackburnCreep A n beta Rg Q).
Proof.
  intros t T se ee u vs ve Hs He [HP H0]. cbn [sc_g sc_gs sc_ge BlackburnCreep] in *. unfold zero4.
  assert (Hh : 0 < sinh (beta T * se u / n T)). { rewrite <- sinh_0. apply sinh_lt, HP. }
  eapply D_eq; [dall; first [exact Hh|exact H0]|cbv beta; field; exact H0].
Qed.
Lemma swindeman_exact C n V Q cel : srule_exact (fun se _ _ _ => 0 < se) (SwindemanCreep C n V Q cel).
Proof.
  intros t T se ee u vs ve Hs He HP. cbn [sc_g sc_gs sc_ge SwindemanCreep] in *. unfold zero4. set (sh := if cel then 273.15 else 0).
  eapply D_eq; [dall; exact HP|cbv beta]. rewrite (cpow_step (se u) n HP), (Rmult_comm (se u) V). ring.
Qed.
Lemma swindeman_temp C n V Q (cel : bool) : srule_temp_exact (fun _ _ _ T => T + (if cel then 273.15 else 0) <> 0) (SwindemanCreep C n V Q cel).
Proof.
  intros se ee t T HP. cbn [sc_g sc_gT SwindemanCreep]. set (sh := if cel then 273.15 else 0) in *.
  eapply D_eq; [dall; exact HP|cbv beta; field; exact HP].
Qed.
Lemma blackburn_temp A n beta Rg Q : srule_temp_exact (fun _ _ _ T => Rg <> 0 /\ T <> 0) (BlackburnCreep (fun _ => A) (fun _ => n) (fun _ => beta) Rg Q).
Proof.
  intros se ee t T [HR HT]. cbn [sc_g sc_gT BlackburnCreep].
  assert (HRT : Rg * T <> 0) by (apply Rmult_integral_contrapositive_currified; assumption).
  eapply D_eq; [dall; exact HRT|cbv beta; field; split; assumption].
Qed.
Lemma mukherjee_exact G A n D0 Q b k Rg : srule_exact (fun se _ _ T => 0 < se / G T /\ G T <> 0) (MukherjeeCreep G A n D0 Q b k Rg).
Proof.
  intros t T se ee u vs ve Hs He [HP H0]. cbn [sc_g sc_gs sc_ge MukherjeeCreep] in *. unfold zero4.
  set (K := A * _ * G T * b / (k * T)). 
  replace (n * A * (D0 * exp (- Q / (Rg * T))) * G T * b / (k * T)) with (n * K) by (unfold K, Rdiv; ring).
  eapply D_eq; [dall; first [exact HP|exact H0]|cbv beta; field; exact H0].
Qed.
Lemma clamp_big x : eps < x -> clamp_eps x = x.
Proof. intros H. unfold clamp_eps. destruct (Rlt_dec x eps); lra. Qed.
Lemma clamp_small x : x < eps -> clamp_eps x = eps.
Proof. intros H. unfold clamp_eps. destruct (Rlt_dec x eps); lra. Qed.
Lemma D_clamp f u v : is_derive f u v -> eps < f u -> is_derive (fun x => clamp_eps (f x)) u v.
Proof.
  intros H Hf. apply (D_loc f); [|exact H]. apply (filter_imp (fun x => eps < f x)); [intros x Hx; symmetry; apply clamp_big, Hx|].
  apply loc_gt with v; assumption.
Qed.
Lemma norton_exact A m n : srule_exact (fun se ee _ T => eps < se /\ eps < ee /\ m T <> 0) (NortonBaileyCreep A m n).
Proof.
  intros t T se ee u vs ve Hs He (H1 & H2 & H3). cbn [sc_g sc_gs sc_ge NortonBaileyCreep] in *. pose proof eps_pos.
  pose proof (D_clamp _ _ _ Hs H1) as D1. pose proof (D_clamp _ _ _ He H2) as D2.
  assert (P1 : 0 < clamp_eps (se u)) by (rewrite clamp_big by exact H1; lra).
  assert (P2 : 0 < clamp_eps (ee u)) by (rewrite clamp_big by exact H2; lra).
  pose (cs := fun x => clamp_eps (se x)). pose (ce := fun x => clamp_eps (ee x)). change (is_derive cs u vs) in D1. change (is_derive ce u ve) in D2.
  change (is_derive (fun v => m T * cpow (A T) (1 / m T) * cpow (cs v) (n T / m T) * cpow (ce v) ((m T - 1) / m T)) u
    (n T * cpow (A T) (1 / m T) * cpow (cs u) (n T / m T - 1) * cpow (ce u) ((m T - 1) / m T) * vs
     + (m T - 1) * cpow (A T) (1 / m T) * cpow (cs u) (n T / m T) * cpow (ce u) (-1 / m T) * ve)).
  change (0 < cs u) in P1. change (0 < ce u) in P2. clearbody cs ce.
  eapply D_eq; [dall; assumption|cbv beta].
  replace ((m T - 1) / m T - 1) with (-1 / m T) by (field; exact H3). field. exact H3.
Qed.
Definition srule_s_exact (P : R -> R -> R -> R -> Prop) (r : srule) : Prop := forall se ee t T, P se ee t T ->
  is_derive (fun x => sc_g r x ee t T) se (sc_gs r se ee t T).
Lemma norton_s_exact A m n : srule_s_exact (fun se ee _ T => eps < se /\ m T <> 0) (NortonBaileyCreep A m n).
Proof.
  intros se ee t T [H1 H3]. cbn [sc_g sc_gs NortonBaileyCreep]. pose proof eps_pos.
  pose proof (D_clamp (fun x => x) se 1 (D_id se) H1) as D1. cbv beta in D1. assert (P1 : 0 < clamp_eps se) by (rewrite clamp_big by exact H1; lra).
  eapply D_eq; [dall; assumption|cbv beta]. field. exact H3.
Qed.
Lemma norton_flat A m n : flat_below_eps (NortonBaileyCreep A m n).
Proof. intros se e1 e2 t T H1 H2. cbn [sc_g NortonBaileyCreep]. rewrite !(clamp_small e1), !(clamp_small e2) by assumption. reflexivity. Qed.
Lemma norton_clamped A m n se ee t T : se < eps -> is_derive (fun x => sc_g (NortonBaileyCreep A m n) x ee t T) se 0.
Proof.
  intros H. cbn [sc_g NortonBaileyCreep]. apply (D_loc (fun x => m T * cpow (A T) (1 / m T) * cpow eps (n T / m T) * cpow (clamp_eps ee) ((m T - 1) / m T))); [|apply D_const].
  apply (filter_imp (fun x => x < eps)); [intros x Hx; rewrite (clamp_small x) by exact Hx; reflexivity|].
  apply (loc_lt (fun x => x) se 1 eps); [apply D_id|exact H].
Qed.

(** the mechanism map *)
Lemma loc_ne (f : R -> R) c u v : is_derive f u v -> f u <> c -> locally u (fun x => f x < c) \/ locally u (fun x => c < f x).
Proof.
  intros D H. destruct (Rtotal_order (f u) c) as [L|[E|G]]; [left; apply loc_lt with v; assumption|contradiction|right; apply loc_gt with v; assumption].
Qed.
Lemma scan_loc cuts f u v : is_derive f u v -> (forall c, In c cuts -> f u <> c) -> forall i, locally u (fun x => km_scan cuts i (f x) = km_scan cuts i (f u)).
Proof.
  intros D. induction cuts as [|c l IH]; intros H i; [apply filter_forall; reflexivity|].
  assert (Hl : forall c', In c' l -> f u <> c') by (intros c' Hc; apply H; right; exact Hc).
  pose proof (locally_singleton u) as LS.
  destruct (loc_ne f c u v D (H c (or_introl eq_refl))) as [L|L]; pose proof (locally_singleton _ _ L) as Lu; cbn [km_scan].
  - apply (filter_imp (fun x => f x < c /\ km_scan l (S i) (f x) = km_scan l (S i) (f u))).
    + intros x [A B]. destruct (Rlt_dec c (f x)); [lra|]. destruct (Rlt_dec c (f u)); [lra|]. exact B.
    + apply filter_and; [exact L|apply IH, Hl].
  - apply (filter_imp (fun x => c < f x)); [|exact L]. intros x A. destruct (Rlt_dec c (f x)); [|lra]. destruct (Rlt_dec c (f u)); [reflexivity|lra].
Qed.
Lemma region_loc n cuts f u v : is_derive f u v -> (forall c, In c cuts -> f u <> c) -> locally u (fun x => km_region n cuts (f x) = km_region n cuts (f u)).
Proof.
  intros D H. unfold km_region. destruct (Nat.eqb n 1); [apply filter_forall; reflexivity|]. destruct cuts as [|c0 l]; [apply filter_forall; reflexivity|].
  pose proof (scan_loc (c0 :: l) f u v D H 0%nat) as S.
  destruct (loc_ne f c0 u v D (H c0 (or_introl eq_refl))) as [L|L]; pose proof (locally_singleton _ _ L) as Lu.
  - apply (filter_imp (fun x => f x < c0)); [|exact L]. intros x A. destruct (Rlt_dec (f x) c0); [|lra]. destruct (Rlt_dec (f u) c0); [reflexivity|lra].
  - apply (filter_imp (fun x => c0 < f x /\ km_scan (c0 :: l) 0 (f x) = km_scan (c0 :: l) 0 (f u))); [|apply filter_and; [exact L|exact S]].
    intros x [A B]. destruct (Rlt_dec (f x) c0); [lra|]. destruct (Rlt_dec (f u) c0); [lra|]. rewrite B. reflexivity.
Qed.
Lemma km_exact cuts A B kb b eps0 G cel :
  srule_exact (fun se _ _ T => 0 < se / G T /\ G T <> 0 /\ forall c, In c cuts -> se / G T <> c) (RegionKMCreep cuts A B kb b eps0 G cel).
Proof.
  intros t T se ee u vs ve Hs He (HP & H0 & HC). cbn [sc_g sc_gs sc_ge RegionKMCreep] in *. unfold zero4.
  set (sh := if cel then 273.15 else 0). set (C1 := - G T * (b * b * b) / (kb * (T + sh))).
  assert (D : is_derive (fun v => se v / G T) u (vs / G T)) by (eapply D_eq; [dall; exact H0|cbv beta; field; exact H0]).
  set (i := match km_region (length A) cuts (se u / G T) with Some i => i | None => length A end).
  set (Ai := nth i A (fun _ => 0) T). set (Bi := nth i B (fun _ => 0) T).
  apply (D_loc (fun v => eps0 * exp (C1 * Bi) * cpow (se v / G T) (C1 * Ai))).
  - refine (filter_imp _ _ _ (region_loc (length A) cuts _ u _ D HC)). intros x E. cbv beta in E. rewrite E. reflexivity.
  - eapply D_eq; [dall; first [exact HP|exact H0]|cbv beta; field; exact H0].
Qed.
Lemma scan_le cuts i x : (km_scan cuts i x <= i + length cuts)%nat.
Proof. revert i. induction cuts as [|c l IH]; intros i; cbn [km_scan length]; [lia|]. destruct (Rlt_dec c x); [lia|]. specialize (IH (S i)). lia. Qed.
(** the region the code takes *)
Lemma region_code n c0 l x : n <> 1%nat -> increasing (c0 :: l) ->
  km_region n (c0 :: l) x = if Rlt_dec x c0 then Some O else if Req_EM_T x c0 then Some (length (c0 :: l)) else Some 1%nat.
Proof.
  intros Hn Hi. unfold km_region. destruct (Nat.eqb_spec n 1); [contradiction|]. destruct (Rlt_dec x c0) as [L|L]; [reflexivity|]. cbn [km_scan].
  destruct (Req_EM_T x c0) as [E|E].
  - destruct (Rlt_dec c0 x); [lra|]. f_equal. subst x.
    assert (X : forall m i, (forall c, In c m -> c0 <= c) -> km_scan m i c0 = (i + length m)%nat).
    { induction m as [|c m IH]; intros i H; cbn [km_scan length]; [lia|]. destruct (Rlt_dec c c0); [specialize (H c (or_introl eq_refl)); lra|]. rewrite IH; [lia|]. intros c' Hc; apply H; right; exact Hc. }
    rewrite X; [reflexivity|]. intros c Hc. destruct (In_nth l c 0 Hc) as (k & Hk & <-). left. specialize (Hi 0%nat (S k)). cbn [length nth] in Hi. apply Hi. lia.
  - destruct (Rlt_dec c0 x); [reflexivity|lra].
Qed.
Lemma region_one_cut n c0 x : n <> 1%nat -> exists i, km_region n [c0] x = Some i /\ in_region [c0] i x.
Proof.
  intros Hn. rewrite region_code by (try exact Hn; intros i j H; cbn in H; lia).
  destruct (Rlt_dec x c0) as [L|L]; [|destruct (Req_EM_T x c0) as [E|E]].
  - exists 0%nat. split; [reflexivity|]. split; [cbn; lia|]. split; [intros k Hk; lia|]. intros k Hk. cbn in Hk. replace k with 0%nat by lia. exact L.
  - exists 1%nat. split; [reflexivity|]. split; [cbn; lia|]. split; [intros k Hk; replace k with 0%nat by lia; cbn; lra|intros k Hk; cbn in Hk; lia].
  - exists 1%nat. split; [reflexivity|]. split; [cbn; lia|]. split; [intros k Hk; replace k with 0%nat by lia; cbn; lra|intros k Hk; cbn in Hk; lia].
Qed.
Lemma region_below n c0 l x : n <> 1%nat -> increasing (c0 :: l) -> (x < c0 \/ (c0 < x /\ (l = [] \/ x < nth 0 l 0))) ->
  exists i, km_region n (c0 :: l) x = Some i /\ in_region (c0 :: l) i x.
Proof.
  intros Hn Hi H. rewrite region_code by assumption.
  assert (M : forall k, (k <= length l)%nat -> c0 <= nth k (c0 :: l) 0).
  { intros k Hk. destruct k; [cbn; lra|]. left. apply (Hi 0%nat (S k)). cbn [length]. lia. }
  destruct (Rlt_dec x c0) as [L|L].
  - exists 0%nat. split; [reflexivity|]. split; [cbn; lia|]. split; [intros k Hk; lia|]. intros k Hk. cbn [length] in Hk. specialize (M k ltac:(lia)). lra.
  - destruct H as [H|[H1 H2]]; [contradiction|]. destruct (Req_EM_T x c0) as [E|E]; [lra|].
    exists 1%nat. split; [reflexivity|]. split; [cbn [length]; lia|]. split; [intros k Hk; replace k with 0%nat by lia; cbn; lra|].
    intros k Hk. cbn [length] in Hk. destruct H2 as [-> | H2]; [cbn in Hk; lia|].
    destruct (Nat.eq_dec k 1) as [->|Nk]; [cbn [nth]; exact H2|]. apply Rlt_trans with (nth 0 l 0); [exact H2|]. specialize (Hi 1%nat k). cbn [length] in Hi. change (nth 0 l 0) with (nth 1 (c0 :: l) 0). apply Hi. lia.
Qed.
Lemma in_region_unique cuts i j x : in_region cuts i x -> in_region cuts j x -> i = j.
Proof.
  intros (A & B & C) (A' & B' & C'). destruct (Nat.lt_trichotomy i j) as [L|[E|L]]; [|exact E|].
  - specialize (B' i L). specialize (C i ltac:(lia)). lra.
  - specialize (B j L). specialize (C' j ltac:(lia)). lra.
Qed.
(** any value past the second cut gets the wrong region *)
Lemma region_wrong n c0 c1 l x : n <> 1%nat -> increasing (c0 :: c1 :: l) -> c1 <= x ->
  km_region n (c0 :: c1 :: l) x = Some 1%nat /\ ~ in_region (c0 :: c1 :: l) 1 x.
Proof.
  intros Hn Hi Hx. assert (c0 < c1) by (specialize (Hi 0%nat 1%nat); cbn in Hi; apply Hi; lia).
  rewrite region_code by assumption. destruct (Rlt_dec x c0); [lra|]. destruct (Req_EM_T x c0); [lra|]. split; [reflexivity|].
  intros (_ & _ & C). specialize (C 1%nat). cbn [length nth] in C. specialize (C ltac:(lia)). lra.
Qed.

(** the generic law *)
Lemma generic_factor f df se : (forall x, is_derive f x (df x)) -> 0 < se -> forall ee t T,
  exists true_dg, is_derive (fun x => sc_g (GenericCreep f df) x ee t T) se true_dg /\
    sc_gs (GenericCreep f df) se ee t T = f (ln se) * true_dg.
Proof.
  intros Hf H ee t T. exists (exp (f (ln se)) * df (ln se) / se). split.
  - cbn [sc_g GenericCreep]. assert (D : is_derive (fun x => f (ln x)) se (df (ln se) * (1 / se))).
    { apply (D_comp f ln). apply (D_ln (fun x => x)); [apply D_id|exact H]. apply Hf. }
    eapply D_eq; [apply D_exp; exact D|cbv beta; field; lra].
  - cbn [sc_gs GenericCreep]. destruct (Rlt_dec 0 se); [|contradiction]. field. lra.
Qed.
Lemma generic_wrong : exists f df se ee t T, (forall x, is_derive f x (df x)) /\ 0 < se /\
  ~ is_derive (fun x => sc_g (GenericCreep f df) x ee t T) se (sc_gs (GenericCreep f df) se ee t T).
Proof.
  exists (fun x => 2 * x), (fun _ => 2), 1, 0, 0, 0.
  assert (Hf : forall x, is_derive (fun x => 2 * x) x 2) by (intros x; eapply D_eq; [dall|cbv beta; ring]).
  split; [exact Hf|]. split; [lra|]. intros D.
  assert (D2 : is_derive (fun x => sc_g (GenericCreep (fun x => 2 * x) (fun _ => 2)) x 0 0 0) 1 2).
  { cbn [sc_g GenericCreep]. assert (D3 : is_derive (fun x => exp (2 * ln x)) 1 (exp (2 * ln 1) * (2 * (1 / 1)))).
    { eapply D_eq; [apply D_exp, D_mult; [apply D_const|apply D_ln; [apply D_id|lra]]|cbv beta; field]. }
    rewrite ln_1, Rmult_0_r, exp_0 in D3. eapply D_eq; [exact D3|field]. }
  pose proof (is_derive_unique _ _ _ D) as U1. pose proof (is_derive_unique _ _ _ D2) as U2. pose proof (eq_trans (eq_sym U1) U2) as U3. clear U1 U2 D D2. rename U3 into U2. cbn [sc_gs GenericCreep] in U2. rewrite ln_1 in U2. destruct (Rlt_dec 0 1); lra.
Qed.

(** 2.25Cr-1Mo: the reported derivative belongs to slightly different constants *)
Definition m225_e1' (c : R) (U : R -> R) (se T : R) : R := cpow 10 (6.7475 + 0.011426 * se + c / U T * log10 se - 13494 / T) / 100.
Definition m225_e2' (c : R) (U : R -> R) (se T : R) : R := cpow 10 (11.498 - 8.2226 * U T / T - 20448 / T + c / T * log10 se) / 100.
Lemma ten_minus2 x : cpow 10 (x - 2) = cpow 10 x / 100.
Proof.
  rewrite !cpow_pos by lra. unfold Rminus. rewrite Rpower_plus, Rpower_Ropp. replace 2 with (1 + 1) by ring. rewrite Rpower_plus, Rpower_1 by lra. field.
Qed.
Lemma D_pow10 f u v : is_derive f u v -> is_derive (fun x => cpow 10 (f x)) u (cpow 10 (f u) * ln 10 * v).
Proof.
  intros D. apply (D_ext (fun x => exp (f x * ln 10))). { intros x. rewrite cpow_pos by lra. reflexivity. }
  eapply D_eq; [apply D_exp; apply D_mult; [exact D|apply D_const]|cbv beta]. rewrite cpow_pos by lra. unfold Rpower. ring.
Qed.
Lemma ln10_pos : 0 < ln 10.
Proof. rewrite <- ln_1. apply ln_increasing; lra. Qed.
Lemma m225_d1 U se T : 0 < se -> U T <> 0 -> is_derive (fun x => m225_e1' (428.961 * ln 10) U x T) se (m225_de1 U se T).
Proof.
  intros Hs HU. unfold m225_e1', m225_de1. pose proof ln10_pos.
  replace (4.7475 + 0.011426 * se + 428.961 / U T * ln se - 13494 / T) with ((6.7475 + 0.011426 * se + 428.961 / U T * ln se - 13494 / T) - 2) by lra.
  rewrite ten_minus2.
  apply (D_ext (fun x => cpow 10 (6.7475 + 0.011426 * x + 428.961 / U T * ln x - 13494 / T) / 100)).
  { intros x. do 2 f_equal. unfold log10. set (W := 13494 / T). field. repeat split; first [exact HU|lra]. }
  eapply D_eq. apply D_div; [apply D_pow10|apply D_const|lra]. eapply D_eq; [dall; exact Hs|]. cbv beta. reflexivity.
  cbv beta. set (W := 13494 / T). field. repeat split; first [exact HU|lra].
Qed.
Lemma m225_d2 U se T : 0 < se -> T <> 0 -> is_derive (fun x => m225_e2' (2546.01 * ln 10) U x T) se (m225_de2 U se T).
Proof.
  intros Hs HT. unfold m225_e2', m225_de2. pose proof ln10_pos.
  replace (9.498 - 8.2226 * U T / T - 20448 / T + 2546.01 / T * ln se) with ((11.498 - 8.2226 * U T / T - 20448 / T + 2546.01 / T * ln se) - 2) by lra.
  rewrite ten_minus2.
  apply (D_ext (fun x => cpow 10 (11.498 - 8.2226 * U T / T - 20448 / T + 2546.01 / T * ln x) / 100)).
  { intros x. do 2 f_equal. unfold log10. field. repeat split; first [exact HT|lra]. }
  eapply D_eq. apply D_div; [apply D_pow10|apply D_const|lra]. eapply D_eq; [dall; exact Hs|]. cbv beta. reflexivity.
  cbv beta. set (W := cpow 10 _). field. repeat split; first [exact HT|lra].
Qed.
