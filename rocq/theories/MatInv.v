(** The inverse of a differentiable matrix is differentiable. *)
From Verif Require Import Base.
From Verif Require Import Diff.
From Verif Require Import NemlMathModel.
From Verif Require Import NemlMathSpec.
From Coq Require Import List Arith Lia Lra.
From Coquelicot Require Import Coquelicot.
Open Scope R_scope.

(** sum of the absolute values of all entries *)
Definition mabs (n : nat) (A : mat) : R := rsum n (fun i => rsum n (fun j => Rabs (A i j))).
Lemma rsum_le n f g : (forall i, (i < n)%nat -> f i <= g i) -> rsum n f <= rsum n g.
Proof. induction n as [|n IH]; intros H; cbn [rsum]; [lra|]. apply Rplus_le_compat; [apply IH; intros; apply H; lia|apply H; lia]. Qed.
Lemma rsum_abs n f : Rabs (rsum n f) <= rsum n (fun i => Rabs (f i)).
Proof. induction n as [|n IH]; cbn [rsum]; [rewrite Rabs_R0; lra|]. eapply Rle_trans; [apply Rabs_triang|]. lra. Qed.
Lemma rsum_ge0 n f : (forall i, (i < n)%nat -> 0 <= f i) -> 0 <= rsum n f.
Proof. intros H. rewrite <- (rsum_0 n). apply rsum_le. exact H. Qed.
Lemma rsum_one n f i : (i < n)%nat -> (forall k, (k < n)%nat -> 0 <= f k) -> f i <= rsum n f.
Proof.
  induction n as [|n IH]; intros Hi H; [lia|]. cbn [rsum]. destruct (Nat.eq_dec i n) as [->|N].
  - assert (0 <= rsum n f) by (apply rsum_ge0; intros; apply H; lia). lra.
  - assert (f i <= rsum n f) by (apply IH; [lia|intros; apply H; lia]). pose proof (H n ltac:(lia)). lra.
Qed.
Lemma mabs_ge0 n A : 0 <= mabs n A.
Proof. apply rsum_ge0. intros i _. apply rsum_ge0. intros j _. apply Rabs_pos. Qed.
Lemma mabs_entry n A i j : (i < n)%nat -> (j < n)%nat -> Rabs (A i j) <= mabs n A.
Proof.
  intros Hi Hj. eapply Rle_trans; [|apply (rsum_one n (fun i => rsum n (fun j => Rabs (A i j))) i Hi)].
  - apply (rsum_one n (fun j => Rabs (A i j)) j Hj). intros; apply Rabs_pos.
  - intros k _. apply rsum_ge0. intros; apply Rabs_pos.
Qed.
Lemma rsum_mult n f c : (forall i, (i < n)%nat -> 0 <= f i) -> (forall i, (i < n)%nat -> 0 <= c i) -> rsum n (fun i => f i * c i) <= rsum n f * rsum n c.
Proof.
  intros Hf Hc. rewrite <- rsum_scal_r. apply rsum_le. intros i Hi. apply Rmult_le_compat_l; [apply Hf; exact Hi|]. apply rsum_one; assumption.
Qed.
Lemma mabs_mm n A B : mabs n (mm n A B) <= mabs n A * mabs n B.
Proof.
  unfold mabs at 1. unfold mm.
  eapply Rle_trans with (rsum n (fun i => rsum n (fun k => Rabs (A i k) * rsum n (fun j => Rabs (B k j))))).
  - apply rsum_le. intros i Hi. eapply Rle_trans with (rsum n (fun j => rsum n (fun k => Rabs (A i k) * Rabs (B k j)))).
    + apply rsum_le. intros j Hj. eapply Rle_trans; [apply rsum_abs|]. apply rsum_le. intros k Hk. rewrite Rabs_mult. lra.
    + rewrite rsum_swap. apply rsum_le. intros k Hk. rewrite rsum_scal. lra.
  - unfold mabs. rewrite <- rsum_scal_r. apply rsum_le. intros i Hi. rewrite <- rsum_scal_r. apply rsum_le. intros k Hk.
    apply Rmult_le_compat_l; [apply Rabs_pos|]. apply (rsum_one n (fun k => rsum n (fun j => Rabs (B k j))) k Hk). intros q _. apply rsum_ge0. intros; apply Rabs_pos.
Qed.
(** c continuous at t, a differentiable at t: (a - a(t)) c has the derivative a' c(t) *)
Lemma D_small (a c : R -> R) t da : is_derive a t da -> continuity_pt c t -> is_derive (fun u => c u * (a u - a t)) t (c t * da).
Proof.
  intros Ha Hc. apply is_derive_Reals. apply is_derive_Reals in Ha. intros eps He.
  set (M := Rabs (c t) + 1). assert (HM : 0 < M) by (unfold M; pose proof (Rabs_pos (c t)); lra).
  set (D := Rabs da + 1). assert (HD : 0 < D) by (unfold D; pose proof (Rabs_pos da); lra).
  destruct (Ha (eps / (2 * M))) as (d1 & H1). { apply Rdiv_lt_0_compat; lra. }
  destruct (Hc (Rmin 1 (eps / (2 * D)))) as (d2 & Hd2 & H2). { apply Rmin_pos; [lra|]. apply Rdiv_lt_0_compat; lra. }
  assert (Hd : 0 < Rmin d1 d2) by (apply Rmin_pos; [apply cond_pos|lra]). exists (mkposreal _ Hd). intros h Hh Hlt. cbn [pos] in Hlt.
  assert (L1 : Rabs h < d1) by (eapply Rlt_le_trans; [exact Hlt|apply Rmin_l]). assert (L2 : Rabs h < d2) by (eapply Rlt_le_trans; [exact Hlt|apply Rmin_r]).
  specialize (H1 h Hh L1). assert (H2' : Rabs (c (t + h) - c t) < Rmin 1 (eps / (2 * D))).
  { apply (H2 (t + h)). split; [split; [exact I|lra]|]. unfold dist, R_met; cbn. unfold R_dist. replace (t + h - t) with h by ring. exact L2. }
  assert (C1 : Rabs (c (t + h) - c t) < 1) by (eapply Rlt_le_trans; [exact H2'|apply Rmin_l]). assert (C2 : Rabs (c (t + h) - c t) < eps / (2 * D)) by (eapply Rlt_le_trans; [exact H2'|apply Rmin_r]).
  assert (CM : Rabs (c (t + h)) < M) by (unfold M; replace (c (t + h)) with (c t + (c (t + h) - c t)) by ring; eapply Rle_lt_trans; [apply Rabs_triang|lra]).
  replace ((c (t + h) * (a (t + h) - a t) - c t * (a t - a t)) / h - c t * da) with (c (t + h) * ((a (t + h) - a t) / h - da) + (c (t + h) - c t) * da) by (field; exact Hh).
  eapply Rle_lt_trans; [apply Rabs_triang|]. rewrite !Rabs_mult.
  assert (X : Rabs (c (t + h)) * Rabs ((a (t + h) - a t) / h - da) < M * (eps / (2 * M)) ).
  { apply Rmult_le_0_lt_compat; [apply Rabs_pos|apply Rabs_pos|exact CM|exact H1]. }
  assert (Y : Rabs (c (t + h) - c t) * Rabs da < eps / (2 * D) * D).
  { apply Rmult_le_0_lt_compat; [apply Rabs_pos|apply Rabs_pos|exact C2|unfold D; lra]. }
  assert (E1 : M * (eps / (2 * M)) = eps / 2) by (field; lra). assert (E2 : eps / (2 * D) * D = eps / 2) by (field; lra). lra.
Qed.
Lemma mm_id_l n E A i j : (forall k, (k < n)%nat -> E i k = delta i k) -> (i < n)%nat -> mm n E A i j = A i j.
Proof. intros HE Hi. unfold mm. rewrite (rsum_ext n _ (fun k => delta i k * A k j)) by (intros k Hk; rewrite HE by exact Hk; reflexivity). apply (rsum_delta n i (fun k => A k j) Hi). Qed.
Lemma mm_id_r n E A i j : (forall k, (k < n)%nat -> E k j = delta k j) -> (j < n)%nat -> mm n A E i j = A i j.
Proof.
  intros HE Hj. unfold mm. rewrite (rsum_ext n _ (fun k => delta j k * A i k)); [apply (rsum_delta n j (fun k => A i k) Hj)|].
  intros k Hk. rewrite HE by exact Hk. unfold delta. rewrite (Nat.eqb_sym k j). ring.
Qed.
Lemma mm_assoc n A B C i j : mm n (mm n A B) C i j = mm n A (mm n B C) i j.
Proof.
  unfold mm. rewrite (rsum_ext n _ (fun k => rsum n (fun l => A i l * B l k * C k j))) by (intros k _; rewrite <- rsum_scal_r; reflexivity).
  rewrite rsum_swap. apply rsum_ext. intros l _. rewrite <- rsum_scal. apply rsum_ext. intros k _. ring.
Qed.
Lemma mm_congr n A B B' i j : (forall k, (k < n)%nat -> B k j = B' k j) -> mm n A B i j = mm n A B' i j.
Proof. intros H. unfold mm. apply rsum_ext. intros k Hk. rewrite H by exact Hk. reflexivity. Qed.
Lemma mm_minus_r n A B C i j : mm n A (fun a b => B a b - C a b) i j = mm n A B i j - mm n A C i j.
Proof. unfold mm. rewrite <- rsum_minus. apply rsum_ext. intros k _. ring. Qed.
Lemma mm_minus_l n A B C i j : mm n (fun a b => A a b - B a b) C i j = mm n A C i j - mm n B C i j.
Proof. unfold mm. rewrite <- rsum_minus. apply rsum_ext. intros k _. ring. Qed.

Definition inverse_of (n : nat) (B A : mat) : Prop :=
  forall i j, (i < n)%nat -> (j < n)%nat -> mm n B A i j = delta i j /\ mm n A B i j = delta i j.
Lemma inverse_step n Bu Au Bt At i j : inverse_of n Bu Au -> inverse_of n Bt At -> (i < n)%nat -> (j < n)%nat ->
  Bu i j = Bt i j - mm n Bu (mm n (fun a b => Au a b - At a b) Bt) i j.
Proof.
  intros HU HT Hi Hj.
  rewrite (mm_congr n Bu _ (fun a b => mm n Au Bt a b - mm n At Bt a b)) by (intros k Hk; apply mm_minus_l).
  rewrite mm_minus_r. rewrite <- (mm_assoc n Bu Au Bt).
  rewrite (mm_id_l n (mm n Bu Au) Bt i j (fun k Hk => proj1 (HU i k Hi Hk)) Hi).
  rewrite (mm_id_r n (mm n At Bt) Bu i j (fun k Hk => proj2 (HT k j Hk Hj)) Hj). ring.
Qed.
Lemma mabs_cont n (A : R -> mat) t : (forall i j, (i < n)%nat -> (j < n)%nat -> continuity_pt (fun u => A u i j) t) ->
  forall eps, 0 < eps -> exists d, 0 < d /\ forall u, Rabs (u - t) < d -> mabs n (fun a b => A u a b - A t a b) < eps.
Proof.
  intros H eps He.
  assert (C : continuity_pt (fun u => mabs n (fun a b => A u a b - A t a b)) t).
  { assert (G : forall m, (m <= n)%nat -> forall F : R -> nat -> R, (forall i, (i < m)%nat -> continuity_pt (fun u => F u i) t) -> continuity_pt (fun u => rsum m (F u)) t).
    { induction m as [|m IH]; intros Hm F HF; cbn [rsum]; [apply continuity_pt_const; intros x y; reflexivity|].
      apply (continuity_pt_plus (fun u => rsum m (F u)) (fun u => F u m)); [apply IH; [lia|intros; apply HF; lia]|apply HF; lia]. }
    unfold mabs. apply (G n (le_n n) (fun u i => rsum n (fun j => Rabs (A u i j - A t i j)))). intros i Hi.
    apply (G n (le_n n) (fun u j => Rabs (A u i j - A t i j))). intros j Hj.
    apply (continuity_pt_comp (fun u => A u i j - A t i j) Rabs); [|apply Rcontinuity_abs].
    apply (continuity_pt_minus (fun u => A u i j) (fun _ => A t i j)); [apply H; assumption|apply continuity_pt_const; intros x y; reflexivity]. }
  destruct (C eps He) as (d & Hd & HC). exists d. split; [exact Hd|]. intros u Hu.
  assert (Z : mabs n (fun a b => A t a b - A t a b) = 0).
  { unfold mabs. rewrite <- (rsum_0 n). apply rsum_ext. intros i _. rewrite <- (rsum_0 n). apply rsum_ext. intros j _. rewrite Rminus_diag_eq by reflexivity. apply Rabs_R0. }
  destruct (Req_dec u t) as [->|N]; [rewrite Z; exact He|].
  assert (X : Rabs (mabs n (fun a b => A u a b - A t a b) - mabs n (fun a b => A t a b - A t a b)) < eps) by (apply (HC u); split; [split; [exact I|lra]|exact Hu]).
  rewrite Z in X. rewrite Rminus_0_r in X. rewrite Rabs_pos_eq in X by apply mabs_ge0. exact X.
Qed.
Lemma inverse_cont n (A B : R -> mat) t : (forall i j, (i < n)%nat -> (j < n)%nat -> continuity_pt (fun u => A u i j) t) ->
  locally t (fun u => inverse_of n (B u) (A u)) -> forall i j, (i < n)%nat -> (j < n)%nat -> continuity_pt (fun u => B u i j) t.
Proof.
  intros HA HB i j Hi Hj. destruct HB as [d0 HB]. assert (Ht : inverse_of n (B t) (A t)) by (apply HB; apply ball_center).
  set (N := mabs n (B t) + 1). assert (HN : 0 < N) by (unfold N; pose proof (mabs_ge0 n (B t)); lra).
  intros eps He. destruct (mabs_cont n A t HA (Rmin (/ (2 * N)) (eps / (2 * N * N)))) as (d & Hd & Hsm).
  { apply Rmin_pos; [apply Rinv_0_lt_compat; lra|apply Rdiv_lt_0_compat; [exact He|nra]]. }
  exists (Rmin d d0). split; [apply Rmin_pos; [exact Hd|apply cond_pos]|]. intros u [_ Hu]. unfold dist in *; cbn in *. unfold R_dist in *.
  assert (U1 : Rabs (u - t) < d) by (eapply Rlt_le_trans; [exact Hu|apply Rmin_l]). assert (U2 : Rabs (u - t) < d0) by (eapply Rlt_le_trans; [exact Hu|apply Rmin_r]).
  assert (HU : inverse_of n (B u) (A u)) by (apply HB; exact U2). specialize (Hsm u U1).
  set (a := mabs n (fun p q => A u p q - A t p q)) in *. assert (Ha : 0 <= a) by apply mabs_ge0.
  assert (A1 : a < / (2 * N)) by (eapply Rlt_le_trans; [exact Hsm|apply Rmin_l]). assert (A2 : a < eps / (2 * N * N)) by (eapply Rlt_le_trans; [exact Hsm|apply Rmin_r]).
  assert (T : mabs n (mm n (B u) (mm n (fun p q => A u p q - A t p q) (B t))) <= mabs n (B u) * (a * mabs n (B t))).
  { eapply Rle_trans; [apply mabs_mm|]. apply Rmult_le_compat_l; [apply mabs_ge0|]. apply mabs_mm. }
  assert (Bd : mabs n (B u) <= mabs n (B t) + mabs n (B u) * (a * mabs n (B t))).
  { eapply Rle_trans; [|apply Rplus_le_compat_l; exact T]. unfold mabs at 1 2 3. rewrite <- rsum_plus. apply rsum_le. intros p Hp. rewrite <- rsum_plus. apply rsum_le. intros q Hq.
    rewrite (inverse_step n (B u) (A u) (B t) (A t) p q HU Ht Hp Hq) at 1. unfold Rminus. eapply Rle_trans; [apply Rabs_triang|]. rewrite Rabs_Ropp. lra. }
  pose proof (mabs_ge0 n (B u)) as P1. pose proof (mabs_ge0 n (B t)) as P2. assert (P3 : mabs n (B t) < N) by (unfold N; lra).
  assert (K : a * N < / 2). { apply Rmult_lt_reg_r with (/ N); [apply Rinv_0_lt_compat; lra|]. replace (a * N * / N) with a by (field; lra). replace (/ 2 * / N) with (/ (2 * N)) by (field; lra). exact A1. }
  assert (K' : a * mabs n (B t) <= / 2) by nra.
  assert (B2 : mabs n (B u) <= 2 * mabs n (B t)) by nra.
  rewrite (inverse_step n (B u) (A u) (B t) (A t) i j HU Ht Hi Hj). match goal with |- Rabs (_ - ?x - _) < _ => replace (B t i j - x - B t i j) with (- x) by ring end.
  rewrite Rabs_Ropp. eapply Rle_lt_trans; [apply (mabs_entry n _ i j Hi Hj)|]. eapply Rle_lt_trans; [exact T|].
  assert (Q : a * N * (2 * N) < eps). { apply Rmult_lt_reg_r with (/ (2 * N * N)); [apply Rinv_0_lt_compat; nra|]. replace (a * N * (2 * N) * / (2 * N * N)) with a by (field; lra). exact A2. }
  assert (X : mabs n (B u) * (a * mabs n (B t)) <= 2 * N * (a * N)).
  { apply Rmult_le_compat; [lra|apply Rmult_le_pos; lra|lra|]. apply Rmult_le_compat_l; lra. }
  lra.
Qed.
(** B' = - B A' B *)
Lemma D_inverse n (A B : R -> mat) (dA : mat) t : (forall i j, (i < n)%nat -> (j < n)%nat -> is_derive (fun u => A u i j) t (dA i j)) ->
  locally t (fun u => inverse_of n (B u) (A u)) -> forall i j, (i < n)%nat -> (j < n)%nat ->
  is_derive (fun u => B u i j) t (- mm n (B t) (mm n dA (B t)) i j).
Proof.
  intros HA HB i j Hi Hj.
  assert (HC : forall p q, (p < n)%nat -> (q < n)%nat -> continuity_pt (fun u => B u p q) t).
  { apply (inverse_cont n A B t); [|exact HB]. intros p q Hp Hq. apply derivable_continuous_pt. exists (dA p q). apply is_derive_Reals. apply HA; assumption. }
  assert (Ht : inverse_of n (B t) (A t)) by (apply (locally_singleton _ _ HB)).
  apply (D_loc (fun u => B t i j - mm n (B u) (mm n (fun a b => A u a b - A t a b) (B t)) i j)).
  { destruct HB as [d HB]. exists d. intros u Hu. symmetry. apply inverse_step; [apply HB; exact Hu|exact Ht|exact Hi|exact Hj]. }
  eapply D_eq; [apply (D_minus (fun _ => B t i j) (fun u => mm n (B u) (mm n (fun a b => A u a b - A t a b) (B t)) i j)); [apply D_const|]|].
  - unfold mm. apply (D_rsum n (fun u k => B u i k * rsum n (fun l => (A u k l - A t k l) * B t l j))) with (d := fun k => rsum n (fun l => B t i k * dA k l * B t l j)).
    intros k Hk. apply (D_ext (fun u => rsum n (fun l => B u i k * (A u k l - A t k l) * B t l j))).
    { intros u. rewrite <- rsum_scal. apply rsum_ext. intros l _. ring. }
    apply (D_rsum n (fun u l => B u i k * (A u k l - A t k l) * B t l j)). intros l Hl.
    eapply D_eq; [apply (D_mult (fun u => B u i k * (A u k l - A t k l)) (fun _ => B t l j)); [apply (D_small (fun u => A u k l) (fun u => B u i k)); [apply HA; assumption|apply HC; assumption]|apply D_const]|].
    cbv beta. ring.
  - cbv beta. unfold mm. rewrite Rminus_0_l. f_equal. apply rsum_ext. intros k _. rewrite <- rsum_scal. apply rsum_ext. intros l _. ring.
Qed.
