(** Proofs about temperature histories, time steps and meshes. *)
From Verif Require Import Base Diff.
From Verif Require Import SolverModel SubstepModel CreepModel NlModel UniModel BarModel BarSpec AxiModel AxiSpec GradModel GradSpec.
From Coq Require Import ZArith List Arith Lia.
Import ListNotations.

(** ** the outer temperature *)
Lemma thot_eq h : hist_ok h -> thot h = heat_time h.
Proof. intros (H & _). unfold thot, heat_time, Rdiv. rewrite Rabs_mult. rewrite (Rabs_right (/ hi_hot h)); [reflexivity|]. apply Rle_ge, Rlt_le, Rinv_0_lt_compat, H. Qed.
Lemma tcold_eq h : hist_ok h -> tcold h = cool_time h.
Proof. intros (_ & H & _). unfold tcold, cool_time, Rdiv. rewrite Rabs_mult. rewrite (Rabs_right (/ hi_cold h)); [reflexivity|]. apply Rle_ge, Rlt_le, Rinv_0_lt_compat, H. Qed.
Lemma period_eq h : hist_ok h -> period h = cycle_time h.
Proof. intros H. unfold period, cycle_time. rewrite thot_eq, tcold_eq by exact H. reflexivity. Qed.
Lemma heat_facts h : hist_ok h -> 0 <= thot h /\ 0 <= tcold h /\ hi_hot h * thot h = Rabs (hi_T2 h - hi_T1 h) /\ hi_cold h * tcold h = Rabs (hi_T2 h - hi_T1 h).
Proof.
  intros H. assert (H' := H). destruct H' as (Hh & Hc & _). split; [unfold thot; apply Rabs_pos|]. split; [unfold tcold; apply Rabs_pos|]. rewrite thot_eq, tcold_eq by exact H. unfold heat_time, cool_time.
  split; field; lra.
Qed.
Lemma sgn_abs x : sgn3 x * Rabs x = x.
Proof. unfold sgn3. destruct (Rlt_dec 0 x); [rewrite Rabs_right by lra; ring|]. destruct (Rlt_dec x 0); [rewrite Rabs_left by lra; ring|]. replace x with 0 by lra. ring. Qed.
Lemma sgn_range x : -1 <= sgn3 x <= 1.
Proof. unfold sgn3. destruct (Rlt_dec 0 x); [lra|]. destruct (Rlt_dec x 0); lra. Qed.
(** heat that has gone in at time s of the cycle: as a difference of two monotone functions *)
Definition heated (h : hist) (s : R) : R := hi_hot h * Rmin s (thot h) - hi_cold h * Rmax 0 (Rmin (s - thot h - hi_hold h) (tcold h)).
Lemma t_right_form h s : hist_ok h -> t_right h s = hi_T1 h + sgn3 (hi_T2 h - hi_T1 h) * heated h s.
Proof.
  intros H. destruct (heat_facts h H) as (P1 & P2 & E1 & E2). destruct H as (Hh & Hc & Hho & Hto). unfold t_right, heated.
  assert (SA := sgn_abs (hi_T2 h - hi_T1 h)).
  destruct (Rlt_dec s (thot h)).
  - rewrite (Rmin_left s) by lra. rewrite (Rmin_left (s - thot h - hi_hold h)) by lra. rewrite Rmax_left by lra. ring.
  - rewrite (Rmin_right s) by lra. rewrite E1. destruct (Rlt_dec s (thot h + hi_hold h)).
    + rewrite (Rmin_left (s - thot h - hi_hold h)) by lra. rewrite Rmax_left by lra. lra.
    + destruct (Rlt_dec s (thot h + hi_hold h + tcold h)).
      * rewrite (Rmin_left (s - thot h - hi_hold h)) by lra. rewrite Rmax_right by lra. rewrite Rmult_minus_distr_l, SA. ring.
      * rewrite (Rmin_right (s - thot h - hi_hold h)) by lra. rewrite Rmax_right by lra. rewrite E2. ring.
Qed.
Lemma heated_range h s : hist_ok h -> 0 <= s -> 0 <= heated h s <= Rabs (hi_T2 h - hi_T1 h).
Proof.
  intros H Hs. destruct (heat_facts h H) as (P1 & P2 & E1 & E2). destruct H as (Hh & Hc & Hho & Hto). unfold heated.
  destruct (Rle_dec s (thot h)).
  - rewrite (Rmin_left s) by lra. rewrite (Rmin_left (s - thot h - hi_hold h)) by lra. rewrite Rmax_left by lra.
    assert (0 <= hi_hot h * s) by (apply Rmult_le_pos; lra). assert (0 <= hi_hot h * (thot h - s)) by (apply Rmult_le_pos; lra). lra.
  - rewrite (Rmin_right s) by lra. rewrite E1. assert (0 <= Rmax 0 (Rmin (s - thot h - hi_hold h) (tcold h)) <= tcold h).
    { split; [apply Rmax_l|]. apply Rmax_lub; [exact P2|apply Rmin_r]. }
    set (b := Rmax 0 _) in *. assert (0 <= hi_cold h * b) by (apply Rmult_le_pos; lra). assert (0 <= hi_cold h * (tcold h - b)) by (apply Rmult_le_pos; lra). lra.
Qed.
Lemma heated_lip h s s' : hist_ok h -> s <= s' -> Rabs (heated h s' - heated h s) <= Rmax (hi_hot h) (hi_cold h) * (s' - s).
Proof.
  intros H Hs. destruct (heat_facts h H) as (P1 & P2 & E1 & E2). destruct H as (Hh & Hc & Hho & Hto). unfold heated.
  set (A := Rmin s (thot h)). set (A' := Rmin s' (thot h)). set (B := Rmax 0 (Rmin (s - thot h - hi_hold h) (tcold h))). set (B' := Rmax 0 (Rmin (s' - thot h - hi_hold h) (tcold h))).
  assert (Q : 0 <= A' - A /\ 0 <= B' - B /\ (A' - A) + (B' - B) <= s' - s).
  { unfold A, A', B, B'. clear A A' B B'. unfold Rmin; repeat (match goal with |- context [Rle_dec ?x ?y] => destruct (Rle_dec x y) end); unfold Rmax; repeat (match goal with |- context [Rle_dec ?x ?y] => destruct (Rle_dec x y) end); lra. }
  destruct Q as (Q1 & Q2 & Q3). clearbody A A' B B'. assert (M1 := Rmax_l (hi_hot h) (hi_cold h)). assert (M2 := Rmax_r (hi_hot h) (hi_cold h)). set (L := Rmax (hi_hot h) (hi_cold h)) in *.
  assert (0 <= hi_hot h * (A' - A) <= L * (A' - A)) by (split; [apply Rmult_le_pos; lra|apply Rmult_le_compat_r; lra]).
  assert (0 <= hi_cold h * (B' - B) <= L * (B' - B)) by (split; [apply Rmult_le_pos; lra|apply Rmult_le_compat_r; lra]).
  assert (L * ((A' - A) + (B' - B)) <= L * (s' - s)) by (apply Rmult_le_compat_l; lra).
  apply Rabs_le. split; lra.
Qed.
Lemma t_right_lip h s s' : hist_ok h -> s <= s' -> Rabs (t_right h s' - t_right h s) <= Rmax (hi_hot h) (hi_cold h) * (s' - s).
Proof.
  intros H Hs. rewrite !t_right_form by exact H. replace (_ - _) with (sgn3 (hi_T2 h - hi_T1 h) * (heated h s' - heated h s)) by ring. rewrite Rabs_mult.
  apply Rle_trans with (1 * Rabs (heated h s' - heated h s)); [|rewrite Rmult_1_l; apply heated_lip; assumption]. apply Rmult_le_compat_r; [apply Rabs_pos|]. apply Rabs_le. apply sgn_range.
Qed.
Lemma t_right_0 h : hist_ok h -> t_right h 0 = hi_T1 h.
Proof.
  intros H. destruct (heat_facts h H) as (P1 & P2 & _). rewrite t_right_form by exact H. destruct H as (_ & _ & Hho & _). unfold heated. rewrite (Rmin_left 0) by lra. rewrite (Rmin_left (0 - thot h - hi_hold h)) by lra. rewrite Rmax_left by lra. ring.
Qed.
Lemma t_right_end h s : hist_ok h -> thot h + hi_hold h + tcold h <= s -> t_right h s = hi_T1 h.
Proof. intros H Hs. destruct (heat_facts h H) as (P1 & P2 & _). destruct H as (_ & _ & Hho & _). unfold t_right. repeat (destruct (Rlt_dec _ _); [lra|]). reflexivity. Qed.
Lemma t_right_range h s : hist_ok h -> 0 <= s -> within (hi_T1 h) (hi_T2 h) (t_right h s).
Proof.
  intros H Hs. rewrite t_right_form by exact H. assert (R := heated_range h s H Hs). set (d := hi_T2 h - hi_T1 h) in *. replace (hi_T2 h) with (hi_T1 h + d) by (unfold d; ring). unfold within, sgn3.
  destruct (Rlt_dec 0 d); [rewrite Rabs_right in R by lra; rewrite Rmin_left, Rmax_right by lra; lra|]. destruct (Rlt_dec d 0); [rewrite Rabs_left in R by lra; rewrite Rmin_right, Rmax_left by lra; lra|].
  rewrite Rmin_right, Rmax_left by lra. lra.
Qed.
Lemma t_right_hot h s : hist_ok h -> thot h <= s <= thot h + hi_hold h -> t_right h s = hi_T2 h.
Proof.
  intros H Hs. rewrite t_right_form by exact H. destruct (heat_facts h H) as (P1 & P2 & E1 & _). unfold heated. rewrite (Rmin_right s) by lra. rewrite (Rmin_left (s - thot h - hi_hold h)) by lra. rewrite Rmax_left by lra.
  rewrite E1. assert (SA := sgn_abs (hi_T2 h - hi_T1 h)). lra.
Qed.
(** ** the remainder *)
Lemma pmod_range x p : 0 < p -> 0 <= pmod x p < p.
Proof.
  intros Hp. unfold pmod. destruct (base_Int_part (x / p)) as [L U]. set (n := IZR (Int_part (x / p))) in *. assert (E : x = p * (x / p)) by (field; lra). set (y := x / p) in *. rewrite E.
  replace (p * y - p * n) with (p * (y - n)) by ring. split; [apply Rmult_le_pos; lra|]. rewrite <- (Rmult_1_r p) at 2. apply Rmult_lt_compat_l; lra.
Qed.
Lemma pmod_unique x p n s : 0 < p -> 0 <= s < p -> x = p * IZR n + s -> pmod x p = s.
Proof.
  intros Hp Hs E. unfold pmod. assert (Q : n = Int_part (x / p)).
  { enough (n + 1 = up (x / p))%Z by (unfold Int_part; lia). assert (x / p = IZR n + s / p) by (rewrite E; field; lra). assert (0 <= s / p < 1) by (split; [apply Rmult_le_pos; [lra|apply Rlt_le, Rinv_0_lt_compat, Hp]|apply Rmult_lt_reg_r with p; [exact Hp|]; unfold Rdiv; rewrite Rmult_assoc, Rinv_l by lra; lra]). apply tech_up; rewrite plus_IZR; lra. }
  rewrite <- Q, E. ring.
Qed.
Lemma pmod_shift x p k : 0 < p -> pmod (x + INR k * p) p = pmod x p.
Proof.
  intros Hp. apply (pmod_unique _ p (Int_part (x / p) + Z.of_nat k) _ Hp (pmod_range x p Hp)). rewrite plus_IZR, <- INR_IZR_INZ. unfold pmod. ring.
Qed.
Lemma pmod_small s p : 0 <= s < p -> pmod s p = s.
Proof. intros Hs. apply (pmod_unique s p 0%Z s); [lra|exact Hs|]. ring. Qed.
Lemma right_lip h t t' : hist_ok h -> t <= t' -> Rabs (right_at h t' - right_at h t) <= Rmax (hi_hot h) (hi_cold h) * (t' - t).
Proof.
  intros H Ht. assert (M : 0 <= Rmax (hi_hot h) (hi_cold h)) by (apply Rle_trans with (hi_hot h); [destruct H; lra|apply Rmax_l]). set (L := Rmax (hi_hot h) (hi_cold h)) in *. unfold right_at.
  destruct (Req_EM_T (period h) 0) as [Z|Z]; [rewrite Rminus_diag_eq, Rabs_R0 by reflexivity; apply Rmult_le_pos; lra|].
  destruct (heat_facts h H) as (P1 & P2 & _). assert (H' := H). destruct H' as (_ & _ & Hho & Hto). assert (Pp : 0 < period h) by (unfold period in *; lra). set (p := period h) in *.
  set (x := t - hi_delay h). set (x' := t' - hi_delay h). assert (R := pmod_range x p Pp). assert (R' := pmod_range x' p Pp).
  set (n := Int_part (x / p)). set (n' := Int_part (x' / p)). assert (E : x = p * IZR n + pmod x p) by (unfold pmod, n; ring). assert (E' : x' = p * IZR n' + pmod x' p) by (unfold pmod, n'; ring).
  assert (Hx : x <= x') by (unfold x, x'; lra). replace (t' - t) with (x' - x) by (unfold x, x'; ring). set (s := pmod x p) in *. set (s' := pmod x' p) in *.
  destruct (Z.lt_trichotomy n n') as [Hn|[Hn|Hn]].
  - assert (IZR (n + 1) <= IZR n') by (apply IZR_le; lia). rewrite plus_IZR in H0. assert (p * (IZR n + 1) <= p * IZR n') by (apply Rmult_le_compat_l; lra).
    assert (Q1 := t_right_lip h s p H ltac:(lra)). rewrite (t_right_end h p H) in Q1 by (unfold p, period; lra).
    assert (Q2 := t_right_lip h 0 s' H ltac:(lra)). rewrite (t_right_0 h H) in Q2. fold L in Q1, Q2. assert (x' - x >= (p - s) + s') by lra. assert (L * ((p - s) + s') <= L * (x' - x)) by (apply Rmult_le_compat_l; lra).
    replace (t_right h s' - t_right h s) with ((t_right h s' - hi_T1 h) + (hi_T1 h - t_right h s)) by ring. eapply Rle_trans; [apply Rabs_triang|]. lra.
  - rewrite Hn in E. replace (x' - x) with (s' - s) by lra. apply t_right_lip; [exact H|]. lra.
  - exfalso. assert (IZR (n' + 1) <= IZR n) by (apply IZR_le; lia). rewrite plus_IZR in H0. assert (p * (IZR n' + 1) <= p * IZR n) by (apply Rmult_le_compat_l; lra). lra.
Qed.
Lemma right_delay h : hist_ok h -> right_at h (hi_delay h) = hi_T1 h.
Proof.
  intros H. unfold right_at. destruct (Req_EM_T (period h) 0); [reflexivity|]. destruct (heat_facts h H) as (P1 & P2 & _). assert (H' := H). destruct H' as (_ & _ & Hho & Hto).
  rewrite pmod_small; [rewrite Rminus_diag_eq by reflexivity; apply t_right_0, H|]. unfold period in *. lra.
Qed.
(** ** the gradient *)
Definition outer (h : hist) (t : R) : R := if Rlt_dec t (hi_delay h) then hi_T1 h else right_at h t.
Lemma gradient_outer ri ro h r t : ri < ro -> gradient ri ro h r t = hi_T1 h + (r - ri) / (ro - ri) * (outer h t - hi_T1 h).
Proof. intros Hr. unfold gradient, outer. destruct (Rlt_dec t (hi_delay h)); [ring|]. cbv zeta. ring. Qed.
Lemma outer_lip h t t' : hist_ok h -> t <= t' -> Rabs (outer h t' - outer h t) <= Rmax (hi_hot h) (hi_cold h) * (t' - t).
Proof.
  intros H Ht. assert (M : 0 <= Rmax (hi_hot h) (hi_cold h)) by (apply Rle_trans with (hi_hot h); [destruct H; lra|apply Rmax_l]). unfold outer. destruct (Rlt_dec t (hi_delay h)), (Rlt_dec t' (hi_delay h)); try lra.
  - rewrite Rminus_diag_eq, Rabs_R0 by reflexivity. apply Rmult_le_pos; lra.
  - assert (Q := right_lip h (hi_delay h) t' H ltac:(lra)). rewrite right_delay in Q by exact H. eapply Rle_trans; [exact Q|]. apply Rmult_le_compat_l; lra.
  - apply right_lip; assumption.
Qed.
Lemma outer_range h t : hist_ok h -> within (hi_T1 h) (hi_T2 h) (outer h t).
Proof.
  intros H. assert (W1 : within (hi_T1 h) (hi_T2 h) (hi_T1 h)) by (split; [apply Rmin_l|apply Rmax_l]). unfold outer. destruct (Rlt_dec t (hi_delay h)); [exact W1|]. unfold right_at. destruct (Req_EM_T (period h) 0) as [Z|Z]; [exact W1|].
  apply t_right_range; [exact H|]. destruct (heat_facts h H) as (P1 & P2 & _). destruct H as (_ & _ & Hho & Hto). apply pmod_range. unfold period in *. lra.
Qed.
Lemma frac_range ri ro r : ri < ro -> ri <= r <= ro -> 0 <= (r - ri) / (ro - ri) <= 1.
Proof. intros H Hr. split; [apply Rmult_le_pos; [lra|apply Rlt_le, Rinv_0_lt_compat; lra]|]. apply Rmult_le_reg_r with (ro - ri); [lra|]. unfold Rdiv. rewrite Rmult_assoc, Rinv_l by lra. lra. Qed.
Lemma within_mix a b x f : within a b x -> 0 <= f <= 1 -> within a b (a + f * (x - a)).
Proof.
  unfold within, Rmin, Rmax. destruct (Rle_dec a b); intros Hx Hf.
  - assert (0 <= f * (x - a)) by (apply Rmult_le_pos; lra). assert (0 <= (1 - f) * (x - a)) by (apply Rmult_le_pos; lra). lra.
  - assert (0 <= f * (a - x)) by (apply Rmult_le_pos; lra). assert (0 <= (1 - f) * (a - x)) by (apply Rmult_le_pos; lra). lra.
Qed.
(** between the two temperatures, cold side fixed, linear across the wall *)
Lemma gradient_range ri ro h r t : hist_ok h -> ri < ro -> ri <= r <= ro -> within (hi_T1 h) (hi_T2 h) (gradient ri ro h r t).
Proof. intros H Hr Hi. rewrite gradient_outer by exact Hr. apply within_mix; [apply outer_range, H|apply frac_range; assumption]. Qed.
Lemma gradient_linear ri ro h r t : ri < ro -> gradient ri ro h ri t = hi_T1 h /\ gradient ri ro h r t = hi_T1 h + (r - ri) / (ro - ri) * (gradient ri ro h ro t - hi_T1 h).
Proof. intros Hr. rewrite !gradient_outer by exact Hr. split; field; lra. Qed.
(** no faster than the rates *)
Lemma gradient_rate ri ro h r t t' : hist_ok h -> ri < ro -> ri <= r <= ro -> Rabs (gradient ri ro h r t' - gradient ri ro h r t) <= Rmax (hi_hot h) (hi_cold h) * Rabs (t' - t).
Proof.
  intros H Hr Hi. rewrite !gradient_outer by exact Hr. assert (F := frac_range ri ro r Hr Hi). set (f := (r - ri) / (ro - ri)) in *. replace (_ - _) with (f * (outer h t' - outer h t)) by ring. rewrite Rabs_mult, (Rabs_right f) by lra.
  assert (Q : Rabs (outer h t' - outer h t) <= Rmax (hi_hot h) (hi_cold h) * Rabs (t' - t)).
  { destruct (Rle_dec t t'); [rewrite (Rabs_right (t' - t)) by lra; apply outer_lip; assumption|]. rewrite (Rabs_left (t' - t)) by lra. rewrite Rabs_minus_sym. replace (- (t' - t)) with (t - t') by ring. apply outer_lip; [exact H|lra]. }
  assert (P := Rabs_pos (outer h t' - outer h t)). apply Rle_trans with (1 * Rabs (outer h t' - outer h t)); [apply Rmult_le_compat_r; lra|lra].
Qed.
(** periodic *)
Lemma gradient_periodic ri ro h r t k : hist_ok h -> hi_delay h <= t -> gradient ri ro h r (t + INR k * cycle_time h) = gradient ri ro h r t.
Proof.
  intros H Ht. rewrite <- period_eq by exact H. unfold gradient. assert (P : 0 <= period h) by (destruct (heat_facts h H) as (P1 & P2 & _); destruct H as (_ & _ & Hho & Hto); unfold period; lra). assert (0 <= INR k * period h) by (apply Rmult_le_pos; [apply pos_INR|exact P]).
  destruct (Rlt_dec (t + INR k * period h) (hi_delay h)); [lra|]. destruct (Rlt_dec t (hi_delay h)); [lra|]. cbv zeta. unfold right_at. destruct (Req_EM_T (period h) 0) as [Z|Z]; [reflexivity|].
  replace (t + INR k * period h - hi_delay h) with (t - hi_delay h + INR k * period h) by ring. rewrite pmod_shift by lra. reflexivity.
Qed.
(** within a cycle: heating at the given rate, hold, cooling at the given rate, rest *)
Lemma outer_in_cycle ri ro h s : hist_ok h -> ri < ro -> 0 <= s < cycle_time h -> gradient ri ro h ro (hi_delay h + s) = t_right h s.
Proof.
  intros H Hr Hs. rewrite gradient_outer by exact Hr. unfold outer. destruct (Rlt_dec (hi_delay h + s) (hi_delay h)); [lra|]. unfold right_at. rewrite period_eq by exact H. destruct (Req_EM_T (cycle_time h) 0); [lra|].
  replace (hi_delay h + s - hi_delay h) with s by ring. rewrite pmod_small by exact Hs. field. lra.
Qed.
Lemma gradient_cycle ri ro h s : hist_ok h -> ri < ro -> 0 <= s < cycle_time h -> let d := sgn3 (hi_T2 h - hi_T1 h) in
  (s <= heat_time h -> gradient ri ro h ro (hi_delay h + s) = hi_T1 h + d * (hi_hot h * s)) /\
  (heat_time h <= s <= heat_time h + hi_hold h -> gradient ri ro h ro (hi_delay h + s) = hi_T2 h) /\
  (heat_time h + hi_hold h <= s <= heat_time h + hi_hold h + cool_time h -> gradient ri ro h ro (hi_delay h + s) = hi_T2 h - d * (hi_cold h * (s - heat_time h - hi_hold h))) /\
  (heat_time h + hi_hold h + cool_time h <= s -> gradient ri ro h ro (hi_delay h + s) = hi_T1 h).
Proof.
  intros H Hr Hs d. rewrite (outer_in_cycle ri ro h s H Hr Hs). rewrite <- thot_eq, <- tcold_eq by exact H. destruct (heat_facts h H) as (P1 & P2 & E1 & E2).
  split; [|split; [apply t_right_hot, H|split; [|apply t_right_end, H]]].
  - intros L. rewrite t_right_form by exact H. assert (H' := H). destruct H' as (_ & _ & Hho & _). unfold heated. rewrite (Rmin_left s) by lra. rewrite (Rmin_left (s - thot h - hi_hold h)) by lra. rewrite Rmax_left by lra. unfold d. ring.
  - intros L. rewrite t_right_form by exact H. assert (H' := H). destruct H' as (_ & _ & Hho & _). unfold heated. rewrite (Rmin_right s) by lra. rewrite (Rmin_left (s - thot h - hi_hold h)) by lra. rewrite Rmax_right by lra. rewrite E1.
    assert (SA := sgn_abs (hi_T2 h - hi_T1 h)). fold d in SA. unfold d at 1. fold d. rewrite Rmult_minus_distr_l, SA. ring.
Qed.
