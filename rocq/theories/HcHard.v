(** Dislocation spacing, Hu-Cocks hardening and the Arrhenius rule. *)
From Verif Require Import Base Diff Blocks.
From Verif Require Import SlipModel SlipSpec SlipProofs HcModel HcSpec HcProofs HcMain HcHardSpec.
From Coq Require Import Lia Lra List.

(** *** Spacing *)
Lemma spacing_exact L v ne : ds_n v = l_n L -> strength_exact L (spacing v) (spacing_in v) /\ rates_exact L (spacing v) ne (fun _ => spacing_in v).
Proof.
  intros Hn. split.
  - intros p Hp c t w Hc HP. cbn [h_n h_tau h_dtau spacing] in *. specialize (HP p ltac:(lia)). eapply D_eq.
    + apply D_div; [apply D_const|apply (Hc p ltac:(lia))|lra].
    + cbv beta. rewrite dot_one by lia. field. lra.
  - apply (exact_combined L (spacing v) ne _ (fun sl h x p => - (h x ^ 3 * ds_J v x p * copysign 1 (sl p)))
      (fun sl h x q => if Nat.eqb q x then rsum (l_n L) (fun j => - (3 * h x ^ 2 * ds_J v x j * Rabs (sl j))) - 3 * ds_K v / h x ^ 4 else 0)).
    + intros sl h t vs vh Hs Hh Ha HP x Hx. cbn [h_n spacing] in *. specialize (HP x Hx). rewrite dot_one by assumption. cbn [h_rate spacing].
      eapply D_ext; [intros u; cbn [pow]; reflexivity|]. eapply D_eq.
      * apply D_plus.
        -- apply (D_rsum _ _ _ (fun j => - (3 * h t x ^ 2 * ds_J v x j * Rabs (sl t j)) * vh x + - (h t x ^ 3 * ds_J v x j * copysign 1 (sl t j)) * vs j)).
           intros j Hj. eapply D_eq.
           ++ apply D_opp. apply D_mult; [apply D_mult; [|apply D_const]|apply D_abs_safe; [apply (Hs j Hj)|apply (Ha j Hj)]].
              apply D_mult; [apply (Hh x Hx)|]. apply D_mult; [apply (Hh x Hx)|]. apply D_mult; [apply (Hh x Hx)|apply D_const].
           ++ cbv beta. ring.
        -- apply D_div; [apply D_const| |].
           ++ apply D_mult; [apply (Hh x Hx)|]. apply D_mult; [apply (Hh x Hx)|]. apply D_mult; [apply (Hh x Hx)|apply D_const].
           ++ rewrite Rmult_1_r. repeat apply Rmult_integral_contrapositive_currified; lra.
      * cbv beta. rewrite rsum_plus, rsum_scal_r. field. lra.
    + intros. cbn [h_rate_s spacing]. apply rsum_ext. intros. cbv beta. ring.
    + intros sl dh h x c Hx Hc. cbn [h_rate_h spacing]. destruct (Nat.eqb c x).
      * rewrite rsum_minus. rewrite (rsum_ext _ (fun p => - (h x ^ 3 * ds_J v x p * copysign 1 (sl p)) * dh p c) (fun p => - (h x ^ 3 * ds_J v x p * copysign 1 (sl p) * dh p c))) by (intros; ring).
        rewrite !rsum_opp. ring.
      * rewrite (rsum_ext _ _ (fun p => - (h x ^ 3 * ds_J v x p * copysign 1 (sl p)) * dh p c)) by (intros; cbv beta; ring). ring.
    + right. intros. cbn [h_rate_e spacing]. apply rsum_ext. intros. cbv beta. ring.
Qed.

(** The rate in terms of the total slip activity S. *)
Lemma spacing_rate v L sl h i : h_rate (spacing v) L sl h i = ds_K v / h i ^ 3 - h i ^ 3 * activity v L sl i.
Proof.
  cbn [h_rate spacing]. unfold activity. rewrite (rsum_ext _ _ (fun j => (- h i ^ 3) * (ds_J v i j * Rabs (sl j)))) by (intros; ring).
  rewrite rsum_scal. ring.
Qed.
Lemma pow6_le a b : 0 < a -> a <= b -> a ^ 6 <= b ^ 6.
Proof. intros Ha H. apply pow_incr. lra. Qed.
Lemma spacing_rate_sign K S x : 0 < x -> (0 <= K / x ^ 3 - x ^ 3 * S <-> x ^ 6 * S <= K) /\ (K / x ^ 3 - x ^ 3 * S <= 0 <-> K <= x ^ 6 * S).
Proof.
  intros Hx. assert (P : 0 < x ^ 3) by (apply pow_lt; exact Hx).
  assert (E : (K / x ^ 3 - x ^ 3 * S) * x ^ 3 = K - x ^ 6 * S) by (field; lra).
  split; split; intros G.
  - assert (0 <= (K / x ^ 3 - x ^ 3 * S) * x ^ 3) by (apply Rmult_le_pos; lra). lra.
  - apply (Rmult_le_reg_r (x ^ 3)); [exact P|]. rewrite E. lra.
  - assert ((K / x ^ 3 - x ^ 3 * S) * x ^ 3 <= 0 * x ^ 3) by (apply Rmult_le_compat_r; lra). lra.
  - apply (Rmult_le_reg_r (x ^ 3)); [exact P|]. rewrite E. lra.
Qed.
Lemma spacing_steady v L sl h i : 0 < h i -> (h_rate (spacing v) L sl h i = 0 <-> h i ^ 6 * activity v L sl i = ds_K v).
Proof. intros H. rewrite spacing_rate. destruct (spacing_rate_sign (ds_K v) (activity v L sl i) (h i) H) as [[A B] [C D]]. split; intros G; [specialize (A ltac:(lra)); specialize (C ltac:(lra)); lra|specialize (B ltac:(lra)); specialize (D ltac:(lra)); lra]. Qed.
(** One backward Euler step stays on the same side of the bounds. *)
Lemma spacing_step_bounds K S dt x0 x1 lo hi : 0 < x1 -> 0 <= dt -> 0 <= K -> 0 <= S -> x1 = x0 + dt * (K / x1 ^ 3 - x1 ^ 3 * S) ->
  0 < lo -> lo <= x0 <= hi -> lo ^ 6 * S <= K -> K <= hi ^ 6 * S -> lo <= x1 <= hi.
Proof.
  intros H1 Hdt HK HS E Hlo H0 HL HH. destruct (spacing_rate_sign K S x1 H1) as [[A B] [C D]]. split.
  - destruct (Rle_lt_dec lo x1) as [G|G]; [exact G|].
    assert (x1 ^ 6 * S <= lo ^ 6 * S) by (apply Rmult_le_compat_r; [exact HS|apply pow6_le; lra]).
    assert (0 <= dt * (K / x1 ^ 3 - x1 ^ 3 * S)) by (apply Rmult_le_pos; [exact Hdt|apply B; lra]). lra.
  - destruct (Rle_lt_dec x1 hi) as [G|G]; [exact G|].
    assert (hi ^ 6 * S <= x1 ^ 6 * S) by (apply Rmult_le_compat_r; [exact HS|apply pow6_le; lra]).
    assert (dt * (K / x1 ^ 3 - x1 ^ 3 * S) <= 0) by (apply Rle_trans with (dt * 0); [apply Rmult_le_compat_l; [exact Hdt|apply D; lra]|lra]). lra.
Qed.
Lemma activity_nonneg v L sl i : 0 <= ds_J1 v -> 0 <= ds_J2 v -> 0 <= activity v L sl i.
Proof. intros A B. apply rsum_nonneg. intros j _. apply Rmult_le_pos; [unfold ds_J; destruct (Nat.eqb i j); assumption|apply Rabs_pos]. Qed.
Lemma spacing_history v L steps h0 hn lo hi Smin Smax : spacing_steps v L h0 steps hn -> 0 <= ds_K v -> 0 <= ds_J1 v -> 0 <= ds_J2 v ->
  0 < lo -> lo ^ 6 * Smax <= ds_K v -> ds_K v <= hi ^ 6 * Smin ->
  (forall dt sl, In (dt, sl) steps -> forall i, (i < ds_n v)%nat -> Smin <= activity v L sl i <= Smax) ->
  (forall i, (i < ds_n v)%nat -> lo <= h0 i <= hi) -> forall i, (i < ds_n v)%nat -> lo <= hn i <= hi.
Proof.
  intros H HK HJ1 HJ2 Hlo HL HH. induction H as [h|h h1 hn dt sl steps Hdt Hpos Hstep Hrest IH]; intros HS H0; [exact H0|].
  apply IH; [intros dt' sl' Hin; apply (HS dt' sl'); right; exact Hin|].
  intros i Hi. pose proof (HS dt sl (or_introl eq_refl) i Hi) as HSi. pose proof (H0 i Hi) as H0i.
  pose proof (activity_nonneg v L sl i HJ1 HJ2) as HA. assert (P6 : 0 < lo ^ 6) by (apply pow_lt; exact Hlo).
  assert (P6' : 0 <= hi ^ 6) by (apply pow_le; lra).
  assert (lo ^ 6 * activity v L sl i <= lo ^ 6 * Smax) by (apply Rmult_le_compat_l; lra).
  assert (hi ^ 6 * Smin <= hi ^ 6 * activity v L sl i) by (apply Rmult_le_compat_l; lra).
  apply (spacing_step_bounds (ds_K v) (activity v L sl i) dt (h i) (h1 i)); try assumption; try lra.
  - apply Hpos; exact Hi.
  - rewrite (Hstep i Hi) at 1. rewrite spacing_rate. reflexivity.
Qed.
(** A step has at most one positive solution. *)
Lemma spacing_unique v L sl dt h0 h1 h2 i : 0 <= dt -> 0 <= ds_K v -> 0 <= ds_J1 v -> 0 <= ds_J2 v -> 0 < h1 i -> 0 < h2 i ->
  h1 i = h0 i + dt * h_rate (spacing v) L sl h1 i -> h2 i = h0 i + dt * h_rate (spacing v) L sl h2 i -> h1 i = h2 i.
Proof.
  intros Hdt HK HJ1 HJ2 P1 P2 E1 E2. rewrite spacing_rate in E1, E2. pose proof (activity_nonneg v L sl i HJ1 HJ2) as HA.
  set (S := activity v L sl i) in *. clearbody S. set (x := h1 i) in *. set (y := h2 i) in *. set (z := h0 i) in *. set (K := ds_K v) in *. clearbody x y z K.
  assert (M : forall a b, 0 < a -> a < b -> K / b ^ 3 - b ^ 3 * S <= K / a ^ 3 - a ^ 3 * S).
  { intros a b Ha Hab. assert (Pa : 0 < a ^ 3) by (apply pow_lt; exact Ha). assert (Q : a ^ 3 <= b ^ 3) by (apply pow_incr; lra).
    assert (a ^ 3 * S <= b ^ 3 * S) by (apply Rmult_le_compat_r; assumption).
    assert (K / b ^ 3 <= K / a ^ 3) by (apply Rmult_le_compat_l; [exact HK|apply Rinv_le_contravar; assumption]). lra. }
  destruct (Rtotal_order x y) as [G|[G|G]]; [|exact G|].
  - pose proof (Rmult_le_compat_l dt _ _ Hdt (M x y P1 G)). lra.
  - pose proof (Rmult_le_compat_l dt _ _ Hdt (M y x P2 G)). lra.
Qed.
