(** Inelastic models and the standard kinematics: derivatives. *)
From Verif Require Import Base.
From Verif Require Import Diff.
From Verif Require Import NemlMathModel.
From Verif Require Import NemlMathSpec.
From Verif Require Import NemlMathProofs.
From Verif Require Import RotModel.
From Verif Require Import TensorModel.
From Verif Require Import TensorProofs.
From Verif Require Import Blocks.
From Verif Require Import SlipModel.
From Verif Require Import SlipSpec.
From Verif Require Import SlipProofs.
From Verif Require Import SlipRule.
From Verif Require Import SlipWhole.
From Verif Require Import CpModel.
From Verif Require Import CpSpec.
From Coq Require Import Lia Lra List.
Import ListNotations.

(** *** The commutator of a symmetric and a skew tensor *)
Lemma net_table e w k : (k < 6)%nat -> net e w k =
  match k with
  | 0%nat => r2 * (- e 4%nat * w 1%nat + e 5%nat * w 2%nat)
  | 1%nat => r2 * (e 3%nat * w 0%nat - e 5%nat * w 2%nat)
  | 2%nat => r2 * (- e 3%nat * w 0%nat + e 4%nat * w 1%nat)
  | 3%nat => r2 * e 2%nat * w 0%nat - e 4%nat * w 2%nat + e 5%nat * w 1%nat - r2 * e 1%nat * w 0%nat
  | 4%nat => r2 * e 0%nat * w 1%nat - r2 * e 2%nat * w 1%nat + e 3%nat * w 2%nat - e 5%nat * w 0%nat
  | _ => - (r2 * e 0%nat * w 2%nat) - e 3%nat * w 1%nat + e 4%nat * w 0%nat + r2 * e 1%nat * w 2%nat
  end.
Proof.
  intros Hk. unfold net, sym_skew, skew_sym, mk_symmetric. cases6 k Hk; ttab; r2ring.
Qed.

Lemma D_net (e w : R -> vec) t ve vw : path 6 e t ve -> path 3 w t vw ->
  path 6 (fun u => net (e u) (w u)) t (vadd (net ve (w t)) (net (e t) vw)).
Proof.
  intros He Hw k Hk. eapply D_ext; [intros u; symmetry; apply net_table; exact Hk|].
  unfold vadd. rewrite !net_table by exact Hk.
  assert (E0 := He 0%nat ltac:(lia)). assert (E1 := He 1%nat ltac:(lia)). assert (E2 := He 2%nat ltac:(lia)).
  assert (E3 := He 3%nat ltac:(lia)). assert (E4 := He 4%nat ltac:(lia)). assert (E5 := He 5%nat ltac:(lia)).
  assert (W0 := Hw 0%nat ltac:(lia)). assert (W1 := Hw 1%nat ltac:(lia)). assert (W2 := Hw 2%nat ltac:(lia)).
  cases6 k Hk; cbv beta iota.
  all: eapply D_eq; [dall|cbv beta; ring].
Qed.

Lemma D2_net (M W : vec) i j : (i < 6)%nat -> (j < 6)%nat ->
  flat 6 (SymSymR4SkewmSkewSymR4SymR4 M W) i j = net (fun a => flat 6 M a j) W i.
Proof.
  intros Hi Hj. rewrite net_table by exact Hi. unfold flat. cases6 i Hi; cases6 j Hj; cbn [Nat.mul Nat.add SymSymR4SkewmSkewSymR4SymR4]; ring.
Qed.
Lemma D3_net (D : vec) (M : mat) i j : (i < 6)%nat -> (j < 6)%nat ->
  flat 6 (SymSkewR4SymmSkewSymR4SymR4 D (rowmajor 6 M)) i j = net D (fun a => M a j) i.
Proof.
  intros Hi Hj. rewrite net_table by exact Hi. unfold flat, rowmajor. 
  cases6 i Hi; cases6 j Hj; cbn [Nat.mul Nat.add SymSkewR4SymmSkewSymR4SymR4];
  cbv [Nat.div Nat.modulo Nat.divmod fst snd Nat.sub]; ring.
Qed.
Lemma special_net (C e w : vec) i : (i < 6)%nat ->
  mv 3 (fun i j => -2 * flat 3 (SpecialSymSymR4Sym e C) i j) w i = - mv 6 (flat 6 C) (net e w) i.
Proof.
  intros Hi. unfold mv.
  cbn [rsum]. rewrite !net_table by lia. unfold flat. cases6 i Hi; cbn [Nat.mul Nat.add SpecialSymSymR4Sym]; r2ring.
Qed.

(** *** Inelastic models *)
Lemma mv_zero n (A : mat) v k : (forall j, (j < n)%nat -> A k j = 0) -> mv n A v k = 0.
Proof. intros H. unfold mv. rewrite (rsum_ext n _ (fun _ => 0)); [apply rsum_0|]. intros j Hj. rewrite H by exact Hj. ring. Qed.
Lemma zero_jac2 k n P : is_jac2 k 6 n P vzero2 mzero2 mzero2.
Proof.
  intros s h t vs vh Hs Hh _ i Hi. apply (D_eq (fun _ => 0) t 0); [apply (D_const 0)|]. unfold vadd. rewrite !mv_zero by (intros; reflexivity). symmetry. apply Rplus_0_r.
Qed.
Lemma no_inelasticity_exact : inelastic_exact no_inelasticity (fun _ _ => True).
Proof. split; [|split]; apply zero_jac2. Qed.

(** A weighted sum of slip rates. *)
Lemma D_slip_sum L r Ps Ph (c : nat -> R) (s h : R -> vec) t vs vh :
  scalar_exact r Ps -> (forall k, (k < r_n r)%nat -> strength_exact L (r_str r k) (Ph k)) ->
  path 6 s t vs -> path (r_nh r) h t vh -> slip_in L r Ps Ph (s t) (h t) ->
  is_derive (fun u => rsum (l_n L) (fun p => rs_slip L r (s u) (h u) p * c p)) t
    (rsum 6 (fun j => rsum (l_n L) (fun p => c p * rs_dslip_s L r (s t) (h t) p j) * vs j)
     + rsum (r_nh r) (fun x => rsum (l_n L) (fun p => rs_dslip_h L r (s t) (h t) p x * c p) * vh x)).
Proof.
  intros HP HS Hs Hh Hin. pose proof (slip_whole L r Ps Ph HP HS s h t vs vh Hs Hh Hin) as W.
  eapply D_eq.
  - apply (D_rsum (l_n L) (fun u p => rs_slip L r (s u) (h u) p * c p) t
      (fun p => vadd (mv 6 (rs_dslip_s L r (s t) (h t)) vs) (mv (r_nh r) (rs_dslip_h L r (s t) (h t)) vh) p * c p)).
    intros p Hp. eapply D_eq; [apply D_mult; [apply (W p Hp)|apply D_const]|cbv beta; ring].
  - unfold vadd, mv.
    rewrite (rsum_ext (l_n L) _ (fun p => rsum 6 (fun j => c p * rs_dslip_s L r (s t) (h t) p j * vs j) + rsum (r_nh r) (fun x => rs_dslip_h L r (s t) (h t) p x * c p * vh x))).
    + rewrite rsum_plus. f_equal.
      * rewrite rsum_swap. apply rsum_ext. intros j Hj. rewrite <- rsum_scal_r. apply rsum_ext. intros; ring.
      * rewrite rsum_swap. apply rsum_ext. intros x Hx. rewrite <- rsum_scal_r. apply rsum_ext. intros; ring.
    + intros p Hp. rewrite Rmult_plus_distr_r. f_equal; rewrite <- rsum_scal_r; apply rsum_ext; intros; ring.
Qed.

Lemma asaro_exact L r Ps Ph Pr : scalar_exact r Ps ->
  (forall k, (k < r_n r)%nat -> strength_exact L (r_str r k) (Ph k)) ->
  (forall k, (k < r_n r)%nat -> rates_exact L (r_str r k) (r_n r - 1) (Pr k)) ->
  inelastic_exact (asaro L r) (fun s h => slip_in L r Ps Ph s h /\ abs_safe L r s h /\
       forall k, (k < r_n r)%nat -> Pr k (rs_slip L r s h) (bsub (r_sizes r) h k)).
Proof.
  intros HP HS HR. split; [|split].
  - intros s h t vs vh Hs Hh (Hin & _) i Hi. cbn. unfold vadd, mv.
    apply (D_slip_sum L r Ps Ph (fun p => l_M L p i)); assumption.
  - intros s h t vs vh Hs Hh (Hin & _) i Hi. cbn. unfold vadd, mv.
    pose proof (D_slip_sum L r Ps Ph (fun p => if l_twin L p then 0 else l_N L p i) s h t vs vh HP HS Hs Hh Hin) as D.
    eapply D_ext; [|eapply D_eq; [exact D|]].
    + intros u. apply rsum_ext. intros p Hp. destruct (l_twin L p); ring.
    + f_equal; apply rsum_ext; intros j Hj; f_equal; apply rsum_ext; intros p Hp; destruct (l_twin L p); ring.
  - exact (rate_whole L r Ps Ph Pr HP HS HR).
Qed.

Lemma sym_norm_norm2 d : sym_norm d = norm2 6 d.
Proof.
  destruct (sym_norm_value d) as (Hp & _ & Hv). unfold norm2. rewrite <- (sqrt_square (sym_norm d) Hp). rewrite Hv. reflexivity.
Qed.
Lemma id_dev_dev s k : (k < 6)%nat -> mv 6 id_dev s k = sym_dev s k.
Proof. intros Hk. unfold mv, id_dev, delta, sym_dev, sym_trace. cases6 k Hk; cbn; field. Qed.
Lemma path_sym_dev (s : R -> vec) t v : path 6 s t v -> path 6 (fun u => sym_dev (s u)) t (sym_dev v).
Proof.
  intros H k Hk. unfold sym_dev, sym_trace. 
  assert (H0 := H 0%nat ltac:(lia)). assert (H1 := H 1%nat ltac:(lia)). assert (H2 := H 2%nat ltac:(lia)). assert (H3 := H k Hk).
  eapply D_eq; [apply D_minus; [exact H3|apply D_mult; [apply (D_div (fun u => s u 0%nat + s u 1%nat + s u 2%nat) (fun _ => 3)); [dall|apply D_const|lra]|apply D_const]]|cbv beta; field].
Qed.
Lemma sym_dev_orth s v : dot 6 (sym_dev s) (sym_dev v) = dot 6 (sym_dev s) v.
Proof. unfold dot, sym_dev, sym_trace. cbn. field. Qed.
Lemma sym_dev_idem s k : (k < 6)%nat -> sym_dev (sym_dev s) k = sym_dev s k.
Proof. intros Hk. unfold sym_dev, sym_trace. cases6 k Hk; cbn; field. Qed.

Lemma D_pi_seq (s : R -> vec) t v : path 6 s t v -> 0 < pi_seq (s t) ->
  is_derive (fun u => pi_seq (s u)) t (3 / 2 * dot 6 (sym_dev (s t)) v / pi_seq (s t)).
Proof.
  intros H Hp. unfold pi_seq in *. rewrite sym_norm_norm2 in *.
  assert (Hq : 0 < sqrt (3 / 2)) by (apply sqrt_lt_R0; lra).
  assert (Hn : 0 < norm2 6 (sym_dev (s t))).
  { destruct (Rlt_dec 0 (norm2 6 (sym_dev (s t)))); [assumption|]. exfalso.
    assert (norm2 6 (sym_dev (s t)) = 0) by (apply Rle_antisym; [lra|apply sqrt_pos]). rewrite H0 in Hp. lra. }
  apply (D_ext (fun u => sqrt (3 / 2) * norm2 6 (sym_dev (s u)))); [intros u; rewrite sym_norm_norm2; reflexivity|].
  eapply D_eq; [apply D_mult; [apply D_const|apply (D_norm2 6 (fun u => sym_dev (s u))); [apply path_sym_dev; exact H|exact Hn]]|].
  cbv beta. rewrite sym_dev_orth. set (N := norm2 6 _) in *. set (q := sqrt (3/2)) in *.
  assert (E : q * q = 3 / 2) by (apply sqrt_sqrt; lra). 
  rewrite <- E. field. split; lra.
Qed.

Lemma power_exact A n : inelastic_exact (power_inelasticity A n) (fun s _ => eps < pi_seq s).
Proof.
  split; [|split]; [|apply zero_jac2|apply zero_jac2].
  intros s h t vs vh Hs Hh He k Hk. cbn. unfold vadd. 
  assert (Hz : mv 0 (mzero2 (s t) (h t)) vh k = 0) by reflexivity. rewrite Hz, Rplus_0_r.
  assert (He0 : 0 < eps) by (unfold eps; apply Rinv_0_lt_compat; apply pow_lt; lra).
  assert (Hq : 0 < pi_seq (s t)) by lra.
  pose proof (D_pi_seq s t vs Hs Hq) as Dq. pose proof (path_sym_dev s t vs Hs k Hk) as Dd.
  apply (D_loc (fun u => A * cpow (pi_seq (s u)) (n - 1) * sym_dev (s u) k)).
  { apply (filter_imp (fun u => eps < pi_seq (s u))); [|apply (loc_gt _ _ _ _ Dq He)].
    intros u Hu. unfold pi_dp. destruct (Rlt_dec (pi_seq (s u)) eps); [lra|reflexivity]. }
  eapply D_eq; [apply D_mult; [apply D_mult; [apply D_const|apply (D_cpow (fun u => pi_seq (s u)) (n - 1) t _ Dq Hq)]|exact Dd]|].
  cbv beta. unfold pi_dp_s. destruct (Rlt_dec (pi_seq (s t)) eps); [lra|].
  set (q := pi_seq (s t)) in *.
  assert (E : mv 6 (mm 6 id_dev (fun i j => 3 / 2 * (A * n * cpow q (n - 1) - A * cpow q n / q) * (sym_dev (s t) i / q * (sym_dev (s t) j / q)) + delta i j * (A * cpow q n) / q)) vs k
    = mv 6 id_dev (fun i => 3 / 2 * (A * n * cpow q (n - 1) - A * cpow q n / q) * (sym_dev (s t) i / q) * (dot 6 (sym_dev (s t)) vs / q) + A * cpow q n / q * vs i) k).
  { unfold mv, mm. transitivity (rsum 6 (fun l => id_dev k l * rsum 6 (fun j => (3 / 2 * (A * n * cpow q (n - 1) - A * cpow q n / q) * (sym_dev (s t) l / q * (sym_dev (s t) j / q)) + delta l j * (A * cpow q n) / q) * vs j))).
    - rewrite (rsum_ext 6 _ (fun j => rsum 6 (fun l => id_dev k l * ((3 / 2 * (A * n * cpow q (n - 1) - A * cpow q n / q) * (sym_dev (s t) l / q * (sym_dev (s t) j / q)) + delta l j * (A * cpow q n) / q) * vs j)))).
      + rewrite rsum_swap. apply rsum_ext. intros l Hl. apply rsum_scal.
      + intros j Hj. rewrite <- rsum_scal_r. apply rsum_ext. intros; ring.
    - apply rsum_ext. intros l Hl. f_equal.
      rewrite (rsum_ext 6 _ (fun j => (3 / 2 * (A * n * cpow q (n - 1) - A * cpow q n / q) * (sym_dev (s t) l / q) / q) * (sym_dev (s t) j * vs j) + delta l j * (A * cpow q n / q * vs j))).
      + rewrite rsum_plus. f_equal; [rewrite rsum_scal; unfold dot; field; lra|]. rewrite rsum_delta by exact Hl. reflexivity.
      + intros j Hj. field. lra. }
  rewrite E. clear E.
  rewrite id_dev_dev by exact Hk.
  assert (L : forall a b (x y : vec), sym_dev (fun i => a * x i + b * y i) k = a * sym_dev x k + b * sym_dev y k).
  { intros a b x y. unfold sym_dev, sym_trace. field. }
  set (c := dot 6 (sym_dev (s t)) vs).
  transitivity (sym_dev (fun i => (3 / 2 * (A * n * cpow q (n - 1) - A * cpow q n / q) / q * (c / q)) * sym_dev (s t) i + (A * cpow q n / q) * vs i) k).
  2:{ unfold sym_dev, sym_trace. field. lra. }
  rewrite L, sym_dev_idem by exact Hk.
  rewrite !(cpow_pos q) by assumption. 
  assert (E1 : Rpower q n = Rpower q (n - 1) * q).
  { rewrite <- (Rpower_1 q Hq) at 3. rewrite <- Rpower_plus. f_equal. ring. }
  assert (E2 : Rpower q (n - 1) = Rpower q (n - 1 - 1) * q).
  { rewrite <- (Rpower_1 q Hq) at 3. rewrite <- Rpower_plus. f_equal. ring. }
  rewrite E1. rewrite E2. field. lra.
Qed.
