(** Proofs about the damaged kinematic model. *)
From Verif Require Import Base.
From Verif Require Import Diff.
From Verif Require Import NemlMathModel.
From Verif Require Import NemlMathSpec.
From Verif Require Import NemlMathProofs.
From Verif Require Import RotModel.
From Verif Require Import TensorModel.
From Verif Require Import CpModel.
From Verif Require Import CpSpec.
From Verif Require Import CpProofs.
From Verif Require Import CpFacts.
From Verif Require Import MatInv.
From Verif Require Import CdModel.
From Verif Require Import CdSpec.
From Verif Require Import CdProofs.
From Coq Require Import List.

Lemma mv_sum n A (f : nat -> vec) (v : vec) i : mv 6 A (fun k => rsum n (fun x => f x k * v x)) i = rsum n (fun x => mv 6 A (f x) i * v x).
Proof.
  unfold mv. rewrite (rsum_ext 6 _ (fun j => rsum n (fun x => A i j * f x j * v x))) by (intros j _; rewrite <- rsum_scal; apply rsum_ext; intros; ring).
  rewrite rsum_swap. apply rsum_ext. intros x _. rewrite <- rsum_scal_r. reflexivity.
Qed.
Lemma mv_msum n (M : nat -> mat) (v : vec) y i : mv 6 (fun a b => rsum n (fun x => M x a b * v x)) y i = rsum n (fun x => mv 6 (M x) y i * v x).
Proof.
  unfold mv. rewrite (rsum_ext 6 _ (fun j => rsum n (fun x => M x i j * v x * y j))) by (intros j _; rewrite <- rsum_scal_r; apply rsum_ext; intros; ring).
  rewrite rsum_swap. apply rsum_ext. intros x _. rewrite <- rsum_scal_r. apply rsum_ext. intros; ring.
Qed.
Lemma mv_minus6 A a b i : mv 6 A (fun k => a k - b k) i = mv 6 A a i - mv 6 A b i.
Proof. unfold mv. rewrite <- rsum_minus. apply rsum_ext. intros; ring. Qed.
Lemma mv_plus6 A a b i : mv 6 A (fun k => a k + b k) i = mv 6 A a i + mv 6 A b i.
Proof. unfold mv. rewrite <- rsum_plus. apply rsum_ext. intros; ring. Qed.
Lemma mv_mplus6 A B v i : mv 6 (fun a b => A a b + B a b) v i = mv 6 A v i + mv 6 B v i.
Proof. unfold mv. rewrite <- rsum_plus. apply rsum_ext. intros; ring. Qed.
Lemma mv_mopp6 A v i : mv 6 (fun a b => - A a b) v i = - mv 6 A v i.
Proof. unfold mv. rewrite <- rsum_opp. apply rsum_ext. intros; ring. Qed.
Lemma mv_row A B v i : (forall j, (j < 6)%nat -> A i j = B i j) -> mv 6 A v i = mv 6 B v i.
Proof. intros H. unfold mv. apply rsum_ext. intros j Hj. rewrite H by exact Hj. reflexivity. Qed.
Lemma path_mat (A : R -> mat) (x : R -> vec) t (dA : mat) v : (forall i j, (i < 6)%nat -> (j < 6)%nat -> is_derive (fun u => A u i j) t (dA i j)) -> path 6 x t v ->
  path 6 (fun u => mv 6 (A u) (x u)) t (fun i => mv 6 dA (x t) i + mv 6 (A t) v i).
Proof.
  intros HA Hx i Hi. unfold mv. rewrite <- rsum_plus. apply (D_rsum 6 (fun u j => A u i j * x u j)). intros j Hj. apply D_mult; [apply HA; assumption|apply Hx; exact Hj].
Qed.
Lemma path_dk_i m (h : R -> vec) t vh nd : path (i_n m + nd) h t vh -> path (i_n m) (fun u => dk_i m (h u)) t vh.
Proof. intros H k Hk. unfold dk_i. apply Nat.ltb_lt in Hk as E. rewrite E. apply H. lia. Qed.
Lemma path_dk_d m (h : R -> vec) t vh nd : path (i_n m + nd) h t vh -> path nd (fun u => dk_d m (h u)) t (dk_d m vh).
Proof. intros H k Hk. unfold dk_d. apply H. lia. Qed.

(** the velocity of the projection and of the stress on the undamaged material *)
Definition vP (m : imodel) (dm : cdamage) (s h vh : vec) : mat := fun a b => rsum (cd_n dm) (fun x => cd_P_h dm s (dk_d m h) x a b * dk_d m vh x).
Definition vsp (inv : mat -> mat) (m : imodel) (dm : cdamage) (s h vs vh : vec) : vec := fun k =>
  mv 6 (dk_Pi inv m dm s h) vs k - mv 6 (dk_Pi inv m dm s h) (mv 6 (vP m dm s h vh) (dk_sp inv m dm s h)) k.
Lemma path_P m dm (s h : R -> vec) t vs vh Q : projection_exact dm Q -> path 6 s t vs -> path (i_n m + cd_n dm) h t vh -> Q (s t) (dk_d m (h t)) ->
  (forall i j k, (i < 6)%nat -> (j < 6)%nat -> (k < 6)%nat -> cd_P_s dm (s t) (dk_d m (h t)) i j k = 0) ->
  forall i j, (i < 6)%nat -> (j < 6)%nat -> is_derive (fun u => dk_P m dm (s u) (h u) i j) t (vP m dm (s t) (h t) vh i j).
Proof.
  intros HE Hs Hh HQ HZ i j Hi Hj. unfold dk_P. eapply D_eq; [apply (HE s (fun u => dk_d m (h u)) t vs (dk_d m vh) Hs (path_dk_d m h t vh _ Hh) HQ i j Hi Hj)|].
  rewrite (rsum_ext 6 _ (fun _ => 0)), rsum_0, Rplus_0_l; [reflexivity|]. intros k Hk. rewrite HZ by assumption. ring.
Qed.
Lemma path_sp inv m dm (s h : R -> vec) t vs vh Q : inverts inv -> projection_exact dm Q -> stays_invertible dm Q -> path 6 s t vs -> path (i_n m + cd_n dm) h t vh -> Q (s t) (dk_d m (h t)) ->
  (forall i j k, (i < 6)%nat -> (j < 6)%nat -> (k < 6)%nat -> cd_P_s dm (s t) (dk_d m (h t)) i j k = 0) ->
  path 6 (fun u => dk_sp inv m dm (s u) (h u)) t (vsp inv m dm (s t) (h t) vs vh).
Proof.
  intros HI HE HV Hs Hh HQ HZ.
  assert (DI : forall i j, (i < 6)%nat -> (j < 6)%nat -> is_derive (fun u => dk_Pi inv m dm (s u) (h u) i j) t
     (- mm 6 (dk_Pi inv m dm (s t) (h t)) (mm 6 (vP m dm (s t) (h t) vh) (dk_Pi inv m dm (s t) (h t))) i j)).
  { apply (D_inverse 6 (fun u => dk_P m dm (s u) (h u)) (fun u => dk_Pi inv m dm (s u) (h u))).
    - apply (path_P m dm s h t vs vh Q); assumption.
    - pose proof (HV s (fun u => dk_d m (h u)) t vs (dk_d m vh) Hs (path_dk_d m h t vh _ Hh) HQ) as L. revert L. apply filter_imp. intros u Hu. apply HI. exact Hu. }
  intros i Hi. unfold dk_sp at 1. eapply D_eq; [apply (path_mat _ s t (fun a b => - mm 6 (dk_Pi inv m dm (s t) (h t)) (mm 6 (vP m dm (s t) (h t) vh) (dk_Pi inv m dm (s t) (h t))) a b) vs DI Hs i Hi)|].
  cbv beta. unfold vsp. rewrite mv_mopp6, mv_mm6. rewrite (mv_ext6 _ (mv 6 (mm 6 (vP m dm (s t) (h t) vh) (dk_Pi inv m dm (s t) (h t))) (s t)) (mv 6 (vP m dm (s t) (h t) vh) (dk_sp inv m dm (s t) (h t)))) by (intros k Hk; rewrite mv_mm6; reflexivity).
  change (fun a b : nat => dk_Pi inv m dm (s t) (h t) a b) with (dk_Pi inv m dm (s t) (h t)). ring.
Qed.
(** the action of d_stress_partial *)
Lemma partial_action inv f m dm s h q i : (i < 6)%nat -> mv 6 (dk_partial inv f m dm s h) q i =
  - (mv 6 (dk_P m dm s h) (mv 6 (flat 6 (f_C f)) (mv 6 (i_dp_s m (dk_sp inv m dm s h) (dk_i m h)) q)) i
     + net q (dk_O inv f m dm s h) i + net (dk_sp inv m dm s h) (mv 6 (i_wp_s m (dk_sp inv m dm s h) (dk_i m h)) q) i).
Proof.
  intros Hi. unfold dk_partial. cbv zeta. rewrite mv_mopp6. f_equal. rewrite !mv_mplus6. f_equal; [f_equal|].
  - rewrite !mv_mm6. reflexivity.
  - rewrite (mv_row _ (fun a b => net (fun c => flat 6 (rowmajor 6 delta) c b) (dk_O inv f m dm s h) a)) by (intros j Hj; apply D2_net; assumption).
    unfold mv. rewrite <- (net_sum_l 6 (fun j a => flat 6 (rowmajor 6 delta) a j) q) by exact Hi. apply net_ext; [|reflexivity|exact Hi].
    intros a Ha. rewrite <- (rsum_delta 6 a q Ha). apply rsum_ext. intros j Hj. f_equal. unfold flat, rowmajor. f_equal.
    + rewrite Nat.mul_comm, Nat.div_add_l by lia. rewrite (Nat.div_small j) by exact Hj. lia.
    + rewrite Nat.add_comm, Nat.mul_comm, Nat.mod_add by lia. apply Nat.mod_small. exact Hj.
  - rewrite (mv_row _ (fun a b => net (dk_sp inv m dm s h) (fun c => i_wp_s m (dk_sp inv m dm s h) (dk_i m h) c b) a)) by (intros j Hj; apply D3_net; assumption).
    unfold mv at 1. rewrite <- (net_sum_r 6 (fun j a => i_wp_s m (dk_sp inv m dm s h) (dk_i m h) a j) q) by exact Hi. reflexivity.
Qed.
Lemma ds_action inv f m dm s d h v i : (i < 6)%nat -> (forall a b k, (a < 6)%nat -> (b < 6)%nat -> (k < 6)%nat -> cd_P_s dm s (dk_d m h) a b k = 0) ->
  mv 6 (dk_ds inv f m dm s d h) v i = mv 6 (dk_partial inv f m dm s h) (mv 6 (dk_Pi inv m dm s h) v) i.
Proof.
  intros Hi HZ. unfold dk_ds. cbv zeta. rewrite mv_mm6. apply mv_row. intros j Hj. unfold dk_partial. cbv zeta.
  replace (dot_k (cd_P_s dm s (dk_d m h)) (vsub d (i_dp m (dk_sp inv m dm s h) (dk_i m h))) i j) with 0; [ring|]. unfold dot_k. symmetry.
  rewrite (rsum_ext 6 _ (fun _ => 0)); [apply rsum_0|]. intros k Hk. rewrite HZ by assumption. ring.
Qed.
(** the pushes add up to the effect of the moving projection *)
Lemma push_sum inv m dm s h vh k : rsum (cd_n dm) (fun x => dk_push inv m dm s h x k * dk_d m vh x) = mv 6 (dk_Pi inv m dm s h) (mv 6 (vP m dm s h vh) (dk_sp inv m dm s h)) k.
Proof.
  unfold dk_push. rewrite <- (mv_sum (cd_n dm) (dk_Pi inv m dm s h) (fun x => mv 6 (cd_P_h dm s (dk_d m h) x) (dk_sp inv m dm s h)) (dk_d m vh) k).
  apply mv_ext6. intros j Hj. symmetry. apply (mv_msum (cd_n dm) (fun x => cd_P_h dm s (dk_d m h) x)).
Qed.
Lemma damaged_rate_exact inv f m dm Pm Q d : inverts inv -> inelastic_exact m Pm -> projection_exact dm Q -> stays_invertible dm Q ->
  is_jac2 6 6 (i_n m + cd_n dm) (dk_in inv m dm Pm Q) (fun s h => dk_rate inv f m dm s d h) (fun s h => dk_ds inv f m dm s d h) (fun s h => dk_dh inv f m dm s d h).
Proof.
  intros HI HE HX HV s h t vs vh Hs Hh (HP & HQ & HZ). destruct HE as (HD & HW & _).
  pose proof (path_sp inv m dm s h t vs vh Q HI HX HV Hs Hh HQ HZ) as Hq. pose proof (path_dk_i m h t vh _ Hh) as Hi'.
  pose proof (HD _ _ t _ _ Hq Hi' HP) as D1. pose proof (HW _ _ t _ _ Hq Hi' HP) as W1. cbv beta in D1, W1.
  set (q := vsp inv m dm (s t) (h t) vs vh) in *. set (sp := dk_sp inv m dm (s t) (h t)) in *. set (hi := dk_i m (h t)) in *.
  set (dD := vadd (mv 6 (i_dp_s m sp hi) q) (mv (i_n m) (i_dp_h m sp hi) vh)) in *. set (dW := vadd (mv 6 (i_wp_s m sp hi) q) (mv (i_n m) (i_wp_h m sp hi) vh)) in *.
  assert (X1 : path 6 (fun u => vsub d (i_dp m (dk_sp inv m dm (s u) (h u)) (dk_i m (h u)))) t (fun k => - dD k)).
  { intros k Hk. unfold vsub. eapply D_eq; [apply D_minus; [apply D_const|apply (D1 k Hk)]|cbv beta; ring]. }
  pose proof (path_mv 6 6 (flat 6 (f_C f)) _ t _ X1) as X2.
  pose proof (path_mat (fun u => dk_P m dm (s u) (h u)) _ t (vP m dm (s t) (h t) vh) _ (path_P m dm s h t vs vh Q HX Hs Hh HQ HZ) X2) as X3. cbv beta in X3.
  assert (XO : path 3 (fun u => dk_O inv f m dm (s u) (h u)) t dW).
  { intros k Hk. unfold dk_O, vadd at 1. eapply D_eq; [apply D_plus; [apply D_const|apply (W1 k Hk)]|cbv beta; ring]. }
  pose proof (D_net _ _ t _ _ Hq XO) as XN.
  intros i Hi. unfold dk_rate. cbv zeta. unfold vsub at 1. eapply D_eq; [apply D_minus; [apply (X3 i Hi)|apply (XN i Hi)]|].
  cbv beta. unfold vadd. cbv beta. fold sp hi.
  set (PART := dk_partial inv f m dm (s t) (h t)). set (Cv := mv 6 (flat 6 (f_C f)) (vsub d (i_dp m sp hi))).
  (* the columns of the inelastic variables *)
  match goal with |- context [mv (i_n m + cd_n dm) ?A vh i] => change (mv (i_n m + cd_n dm) A vh i) with (rsum (i_n m + cd_n dm) (fun x => A i x * vh x)) end.
  cbv beta. rewrite rsum_app.
  assert (S1 : rsum (i_n m) (fun x => dk_dh inv f m dm (s t) d (h t) i x * vh x) =
     - (mv 6 (dk_P m dm (s t) (h t)) (mv 6 (flat 6 (f_C f)) (mv (i_n m) (i_dp_h m sp hi) vh)) i + net sp (mv (i_n m) (i_wp_h m sp hi) vh) i)).
  { rewrite (rsum_ext (i_n m) _ (fun x => - (mv 6 (mm 6 (dk_P m dm (s t) (h t)) (flat 6 (f_C f))) (fun k => i_dp_h m sp hi k x) i * vh x + net sp (fun l => i_wp_h m sp hi l x) i * vh x))).
    - rewrite rsum_opp, rsum_plus. f_equal. f_equal.
      + rewrite <- (mv_sum (i_n m) _ (fun x k => i_dp_h m sp hi k x) vh). rewrite mv_mm6. reflexivity.
      + rewrite <- (net_sum_r (i_n m) (fun x l => i_wp_h m sp hi l x) vh) by exact Hi. reflexivity.
    - intros x Hx. unfold dk_dh. cbv zeta. apply Nat.ltb_lt in Hx. rewrite Hx. rewrite mv_mopp6. fold sp hi. ring. }
  assert (S2 : rsum (cd_n dm) (fun x => dk_dh inv f m dm (s t) d (h t) i (i_n m + x)%nat * vh (i_n m + x)%nat) =
     mv 6 (vP m dm (s t) (h t) vh) Cv i - mv 6 PART (mv 6 (dk_Pi inv m dm (s t) (h t)) (mv 6 (vP m dm (s t) (h t) vh) sp)) i).
  { rewrite (rsum_ext (cd_n dm) _ (fun x => mv 6 (cd_P_h dm (s t) (dk_d m (h t)) x) Cv i * dk_d m vh x - mv 6 PART (dk_push inv m dm (s t) (h t) x) i * dk_d m vh x)).
    - rewrite rsum_minus. f_equal; [symmetry; apply (mv_msum (cd_n dm) (fun x => cd_P_h dm (s t) (dk_d m (h t)) x))|].
      rewrite <- (mv_sum (cd_n dm) PART (fun x => dk_push inv m dm (s t) (h t) x) (dk_d m vh)). apply mv_ext6. intros k Hk. apply push_sum.
    - intros x Hx. unfold dk_dh. cbv zeta. replace (Nat.ltb (i_n m + x) (i_n m)) with false by (symmetry; apply Nat.ltb_ge; lia).
      replace (i_n m + x - i_n m)%nat with x by lia. fold sp hi Cv PART. unfold dk_d. ring. }
  rewrite S1, S2. rewrite ds_action by assumption. fold PART.
  assert (S3 : mv 6 PART q i = mv 6 PART (mv 6 (dk_Pi inv m dm (s t) (h t)) vs) i - mv 6 PART (mv 6 (dk_Pi inv m dm (s t) (h t)) (mv 6 (vP m dm (s t) (h t) vh) sp)) i).
  { unfold q, vsp. apply mv_minus6. }
  assert (S4 : mv 6 PART q i = - (mv 6 (dk_P m dm (s t) (h t)) (mv 6 (flat 6 (f_C f)) (mv 6 (i_dp_s m sp hi) q)) i + net q (dk_O inv f m dm (s t) (h t)) i + net sp (mv 6 (i_wp_s m sp hi) q) i)).
  { apply partial_action. exact Hi. }
  assert (S5 : mv 6 (dk_P m dm (s t) (h t)) (mv 6 (flat 6 (f_C f)) (fun k => - dD k)) i =
     - (mv 6 (dk_P m dm (s t) (h t)) (mv 6 (flat 6 (f_C f)) (mv 6 (i_dp_s m sp hi) q)) i + mv 6 (dk_P m dm (s t) (h t)) (mv 6 (flat 6 (f_C f)) (mv (i_n m) (i_dp_h m sp hi) vh)) i)).
  { rewrite (mv_ext6 _ _ (fun k => 0 - (mv 6 (flat 6 (f_C f)) (mv 6 (i_dp_s m sp hi) q) k + mv 6 (flat 6 (f_C f)) (mv (i_n m) (i_dp_h m sp hi) vh) k))).
    - rewrite mv_minus6, mv_0, mv_plus6. ring.
    - intros k Hk. rewrite (mv_ext6 _ _ (fun j => 0 - dD j)) by (intros j Hj; ring). rewrite mv_minus6, mv_0. f_equal. unfold dD, vadd. apply mv_plus6. }
  assert (S6 : net sp dW i = net sp (mv 6 (i_wp_s m sp hi) q) i + net sp (mv (i_n m) (i_wp_h m sp hi) vh) i).
  { transitivity (net sp (mv 6 (i_wp_s m sp hi) q) i + net sp (mv (i_n m) (i_wp_h m sp hi) vh) i * 1); [|ring]. rewrite <- net_lin_r by exact Hi. apply net_ext; [reflexivity| |exact Hi]. intros a Ha. unfold dW, vadd. ring. }
  rewrite S5, S6. fold Cv. lra.
Qed.
(** *** The other derivatives *)
Lemma damaged_history_exact inv m dm Pm Q Qr : inverts inv -> inelastic_exact m Pm -> projection_exact dm Q -> stays_invertible dm Q -> damage_rate_exact (i_n m) dm Qr ->
  is_jac2 (i_n m + cd_n dm) 6 (i_n m + cd_n dm) (fun s h => dk_in inv m dm Pm Q s h /\ Qr (dk_sp inv m dm s h) (dk_i m h) (dk_d m h))
    (fun s h => dk_hrate inv m dm s h) (fun s h => dk_hrate_s inv m dm s h) (fun s h => dk_hrate_h inv m dm s h).
Proof.
  intros HI HE HX HV HR s h t vs vh Hs Hh ((HP & HQ & HZ) & HQr). destruct HE as (_ & _ & HH).
  pose proof (path_sp inv m dm s h t vs vh Q HI HX HV Hs Hh HQ HZ) as Hq. pose proof (path_dk_i m h t vh _ Hh) as Hi'. pose proof (path_dk_d m h t vh _ Hh) as Hd'.
  pose proof (HH _ _ t _ _ Hq Hi' HP) as D1. pose proof (HR _ _ _ t _ _ _ Hq Hi' Hd' HQr) as D2. cbv beta in D1, D2.
  set (q := vsp inv m dm (s t) (h t) vs vh) in *. set (sp := dk_sp inv m dm (s t) (h t)) in *. set (hi := dk_i m (h t)) in *. set (hd := dk_d m (h t)) in *.
  intros i Hi. unfold vadd.
  assert (Hst : mv 6 (dk_hrate_s inv m dm (s t) (h t)) vs i = mv 6 (dk_hpart inv m dm (s t) (h t)) (mv 6 (dk_Pi inv m dm (s t) (h t)) vs) i) by (unfold dk_hrate_s; apply mv_mm6).
  assert (Hqq : mv 6 (dk_hpart inv m dm (s t) (h t)) q i = mv 6 (dk_hpart inv m dm (s t) (h t)) (mv 6 (dk_Pi inv m dm (s t) (h t)) vs) i
     - rsum (cd_n dm) (fun x => sym_contract (dk_hpart inv m dm (s t) (h t) i) (dk_push inv m dm (s t) (h t) x) * dk_d m vh x)).
  { unfold q, vsp. rewrite mv_minus6. f_equal. rewrite (mv_ext6 _ _ (fun k => rsum (cd_n dm) (fun x => dk_push inv m dm (s t) (h t) x k * dk_d m vh x))) by (intros k Hk; symmetry; apply push_sum).
    rewrite (mv_sum (cd_n dm) (dk_hpart inv m dm (s t) (h t)) (fun x => dk_push inv m dm (s t) (h t) x) (dk_d m vh) i). reflexivity. }
  rewrite Hst.
  match goal with |- context [mv (i_n m + cd_n dm) ?A vh i] => change (mv (i_n m + cd_n dm) A vh i) with (rsum (i_n m + cd_n dm) (fun x => A i x * vh x)) end.
  cbv beta. rewrite rsum_app.
  assert (Hcut : rsum (cd_n dm) (fun x => dk_hrate_h inv m dm (s t) (h t) i (i_n m + x)%nat * vh (i_n m + x)%nat) =
     rsum (cd_n dm) (fun x => (if Nat.ltb i (i_n m) then 0 else cd_rate_d dm sp hi hd (i - i_n m)%nat x) * dk_d m vh x)
     - rsum (cd_n dm) (fun x => sym_contract (dk_hpart inv m dm (s t) (h t) i) (dk_push inv m dm (s t) (h t) x) * dk_d m vh x)).
  { rewrite <- rsum_minus. apply rsum_ext. intros x Hx. unfold dk_hrate_h. cbv zeta. replace (Nat.ltb (i_n m + x) (i_n m)) with false by (symmetry; apply Nat.ltb_ge; lia).
    replace (i_n m + x - i_n m)%nat with x by lia. change (vh (i_n m + x)%nat) with (dk_d m vh x). fold sp hi hd. destruct (Nat.ltb i (i_n m)); ring. }
  rewrite Hcut. clear Hcut. unfold dk_hrate. cbv zeta. destruct (Nat.ltb i (i_n m)) eqn:Eb.
  - apply Nat.ltb_lt in Eb as Li. eapply D_eq; [apply (D1 i Li)|]. unfold vadd. cbv beta.
    rewrite (rsum_ext (cd_n dm) (fun x => 0 * _) (fun _ => 0)), rsum_0 by (intros; ring).
    assert (R1 : mv 6 (i_rate_s m sp hi) q i = mv 6 (dk_hpart inv m dm (s t) (h t)) q i) by (apply mv_row; intros j Hj; unfold dk_hpart; cbv zeta; rewrite Eb; reflexivity).
    rewrite R1, Hqq. change (mv (i_n m) (i_rate_h m sp hi) vh i) with (rsum (i_n m) (fun x => i_rate_h m sp hi i x * vh x)). rewrite (rsum_ext (i_n m) (fun x => dk_hrate_h inv m dm (s t) (h t) i x * vh x) (fun x => i_rate_h m sp hi i x * vh x)).
    + ring.
    + intros x Hx. unfold dk_hrate_h. cbv zeta. apply Nat.ltb_lt in Hx. rewrite Eb, Hx. fold sp hi. ring.
  - apply Nat.ltb_ge in Eb as Li. eapply D_eq; [apply (D2 (i - i_n m)%nat); lia|]. cbv beta.
    assert (R1 : mv 6 (cd_rate_s dm sp hi hd) q (i - i_n m)%nat = mv 6 (dk_hpart inv m dm (s t) (h t)) q i) by (unfold mv; apply rsum_ext; intros j Hj; unfold dk_hpart; cbv zeta; rewrite Eb; reflexivity).
    rewrite R1, Hqq. change (mv (i_n m) (cd_rate_i dm sp hi hd) vh (i - i_n m)%nat) with (rsum (i_n m) (fun x => cd_rate_i dm sp hi hd (i - i_n m)%nat x * vh x)).
    change (mv (cd_n dm) (cd_rate_d dm sp hi hd) (dk_d m vh) (i - i_n m)%nat) with (rsum (cd_n dm) (fun x => cd_rate_d dm sp hi hd (i - i_n m)%nat x * dk_d m vh x)). rewrite (rsum_ext (i_n m) (fun x => dk_hrate_h inv m dm (s t) (h t) i x * vh x) (fun x => cd_rate_i dm sp hi hd (i - i_n m)%nat x * vh x)).
    + ring.
    + intros x Hx. unfold dk_hrate_h. cbv zeta. apply Nat.ltb_lt in Hx. rewrite Eb, Hx. fold sp hi hd. ring.
Qed.
Lemma damaged_by_d inv f m dm (s h : vec) (d : R -> vec) t vd : path 6 d t vd -> path 6 (fun u => dk_rate inv f m dm s (d u) h) t (mv 6 (dk_dd f m dm s h) vd).
Proof.
  intros Hd i Hi. unfold dk_rate. cbv zeta. unfold vsub at 1.
  assert (X : path 6 (fun u => vsub (d u) (i_dp m (dk_sp inv m dm s h) (dk_i m h))) t vd) by (intros k Hk; unfold vsub; eapply D_eq; [apply D_minus; [apply (Hd k Hk)|apply D_const]|cbv beta; ring]).
  eapply D_eq; [apply D_minus; [apply (path_mv 6 6 (dk_P m dm s h) _ t _ (path_mv 6 6 (flat 6 (f_C f)) _ t _ X) i Hi)|apply D_const]|]. cbv beta. unfold dk_dd. rewrite mv_mm6. ring.
Qed.
Lemma damaged_by_w inv C S m dm (s0 h0 s d h : vec) (w : R -> vec) t vw : path 3 w t vw ->
  path 6 (fun u => dk_rate inv (dk_decouple inv C S m dm s0 (w u) h0) m dm s d h) t (mv 3 (dk_dw_decouple inv m dm s h) vw).
Proof.
  intros Hw i Hi. unfold dk_rate. cbv zeta. unfold vsub at 1. cbn [dk_decouple f_C].
  assert (XO : path 3 (fun u => dk_O inv (dk_decouple inv C S m dm s0 (w u) h0) m dm s h) t vw).
  { intros k Hk. unfold dk_O, vadd. cbn [dk_decouple f_spin]. unfold dk_spin. cbv zeta. unfold vsub at 1. unfold vsub at 1. eapply D_eq; [apply D_plus; [apply D_minus; [apply D_minus; [apply (Hw k Hk)|apply D_const]|apply D_const]|apply D_const]|cbv beta; ring]. }
  assert (Xs : path 6 (fun _ : R => dk_sp inv m dm s h) t (fun _ => 0)) by (intros k Hk; apply D_const).
  eapply D_eq; [apply D_minus; [apply D_const|apply (D_net _ _ t _ _ Xs XO i Hi)]|]. cbv beta. unfold vadd. rewrite net_0_l by exact Hi.
  unfold dk_dw_decouple. rewrite special_net by exact Hi.
  rewrite (mv_row (flat 6 (rowmajor 6 delta)) delta).
  - rewrite mv_delta by exact Hi. ring.
  - intros j Hj. unfold flat, rowmajor. f_equal.
    + rewrite Nat.mul_comm, Nat.div_add_l by lia. rewrite (Nat.div_small j) by exact Hj. lia.
    + rewrite Nat.add_comm, Nat.mul_comm, Nat.mod_add by lia. apply Nat.mod_small. exact Hj.
Qed.
(** *** Without damage *)
Lemma inverse_unique A B B' i j : inverse_of 6 B A -> inverse_of 6 B' A -> (i < 6)%nat -> (j < 6)%nat -> B i j = B' i j.
Proof.
  intros H H' Hi Hj. transitivity (mm 6 B (mm 6 A B') i j); [symmetry; apply (mm_id_r 6 (mm 6 A B') B i j); [intros k Hk; apply H'; assumption|exact Hj]|].
  rewrite <- mm_assoc. apply (mm_id_l 6 (mm 6 B A) B' i j); [intros k Hk; apply H; assumption|exact Hi].
Qed.
Lemma mm_respects A A' B B' i j : (i < 6)%nat -> (j < 6)%nat -> (forall a b, (a < 6)%nat -> (b < 6)%nat -> A a b = A' a b) -> (forall a b, (a < 6)%nat -> (b < 6)%nat -> B a b = B' a b) -> mm 6 A B i j = mm 6 A' B' i j.
Proof. intros Hi Hj HA HB. unfold mm. apply rsum_ext. intros k Hk. rewrite HA, HB by assumption. reflexivity. Qed.
Lemma inv_of inv A G : inverts inv -> inverse_of 6 G A -> forall i j, (i < 6)%nat -> (j < 6)%nat -> inv A i j = G i j.
Proof. intros HI HG i j Hi Hj. apply (inverse_unique A); [apply HI; exists G; exact HG|exact HG|exact Hi|exact Hj]. Qed.
Lemma undamaged_sp inv m dm s h : inverts inv -> (forall a b, (a < 6)%nat -> (b < 6)%nat -> dk_P m dm s h a b = delta a b) -> veq 6 (dk_sp inv m dm s h) s.
Proof.
  intros HI HP k Hk. unfold dk_sp. rewrite (mv_row _ delta); [apply mv_delta; exact Hk|]. intros j Hj. unfold dk_Pi. apply (inv_of inv); [exact HI| |exact Hk|exact Hj].
  intros a b Ha Hb. split; [rewrite (mm_respects _ delta _ delta) by (try assumption; reflexivity || exact HP)|rewrite (mm_respects _ delta _ delta) by (try assumption; reflexivity || exact HP)]; apply (mm_id_l 6 delta delta a b); auto.
Qed.
(** the response of an undamaged state *)
Lemma undamaged_rate inv f m dm s d h : inverts inv -> (forall a b, (a < 6)%nat -> (b < 6)%nat -> dk_P m dm s h a b = delta a b) ->
  (forall x y g, veq 6 x y -> veq 6 (i_dp m x g) (i_dp m y g) /\ veq 3 (i_wp m x g) (i_wp m y g)) -> forall i, (i < 6)%nat ->
  dk_rate inv f m dm s d h i = mv 6 (flat 6 (f_C f)) (vsub d (i_dp m s (dk_i m h))) i - net s (vadd (f_spin f) (i_wp m s (dk_i m h))) i.
Proof.
  intros HI HP HE i Hi. pose proof (undamaged_sp inv m dm s h HI HP) as ES. destruct (HE _ _ (dk_i m h) ES) as [E1 E2]. unfold dk_rate. cbv zeta. unfold vsub at 1. f_equal.
  - rewrite (mv_row _ delta) by (intros j Hj; apply HP; assumption). rewrite mv_delta by exact Hi. apply mv_ext6. intros k Hk. unfold vsub. rewrite E1 by exact Hk. reflexivity.
  - apply net_ext; [intros k Hk; apply ES; exact Hk| |exact Hi]. intros k Hk. unfold dk_O, vadd. rewrite E2 by exact Hk. reflexivity.
Qed.
(** isotropic elasticity *)
Definition isotropic (C : mat) : Prop := exists lam mu, forall i j, (i < 6)%nat -> (j < 6)%nat -> C i j = 2 * mu * delta i j + (if andb (Nat.ltb i 3) (Nat.ltb j 3) then lam else 0).
Lemma isotropic_net C e w i : isotropic C -> (i < 6)%nat -> mv 6 C (net e w) i = net (mv 6 C e) w i.
Proof.
  intros (lam & mu & H) Hi.
  assert (A : forall v k, (k < 6)%nat -> mv 6 C v k = 2 * mu * v k + (if Nat.ltb k 3 then lam else 0) * (v 0%nat + v 1%nat + v 2%nat)).
  { intros v k Hk. rewrite (mv_row C (fun i j => 2 * mu * delta i j + (if andb (Nat.ltb i 3) (Nat.ltb j 3) then lam else 0))) by (intros j Hj; apply H; assumption). unfold mv. cases6 k Hk; cbn; ring. }
  rewrite (net_ext (mv 6 C e) (fun k => 2 * mu * e k + (if Nat.ltb k 3 then lam else 0) * (e 0%nat + e 1%nat + e 2%nat)) w w i) by (try exact Hi; try reflexivity; intros k Hk; apply A; exact Hk).
  rewrite A by exact Hi. rewrite !net_table by lia. cases6 i Hi; cbn; ring.
Qed.
Lemma undamaged_isotropic inv f m dm s d h : inverts inv -> (forall a b, (a < 6)%nat -> (b < 6)%nat -> dk_P m dm s h a b = delta a b) ->
  (forall x y g, veq 6 x y -> veq 6 (i_dp m x g) (i_dp m y g) /\ veq 3 (i_wp m x g) (i_wp m y g)) ->
  isotropic (flat 6 (f_C f)) -> inverse_of 6 (flat 6 (f_S f)) (flat 6 (f_C f)) -> forall i, (i < 6)%nat ->
  dk_rate inv f m dm s d h i = sk_rate f m s d (dk_i m h) i.
Proof.
  intros HI HP HE HC HS i Hi. rewrite undamaged_rate by assumption. unfold sk_rate.
  change (vsub (vsub d (i_dp m s (dk_i m h))) (net (sk_e f s) (sk_O f m s (dk_i m h)))) with (fun k => vsub d (i_dp m s (dk_i m h)) k - net (sk_e f s) (sk_O f m s (dk_i m h)) k).
  rewrite mv_minus6. f_equal. rewrite isotropic_net by assumption. apply net_ext; [|reflexivity|exact Hi]. intros k Hk. unfold sk_e. rewrite <- mv_mm6.
  rewrite (mv_row _ delta) by (intros j Hj; apply HS; assumption). symmetry. apply mv_delta. exact Hk.
Qed.
