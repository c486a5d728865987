From Verif Require Import Base.
From Verif Require Import Diff.
From Verif Require Import NemlMathModel NemlMathSpec NemlMathProofs SurfModel SurfSpec SurfProofs HardModel HardProofs PlastModel PlastSpec PlastProofs RiProofs ViscoModel ViscoSpec ViscoProofs TensorModel TensorSpec TensorProofs WalkerModel WalkerSpec WalkerProofs WalkerDeriv WalkerVars WalkerMore WalkerInv.
From Verif Require Import SolverModel SubstepModel SubstepSpec.

Lemma wk_jacobian P C V lam eps0 next past st : vflow_exact P V -> 0 < gi_dt next past ->
  is_jac (6 + vf_n V) (6 + vf_n V)
    (fun x => P (ld_T next) x (hist_of x) /\ (lam (ld_T next) = 0 \/ norm2 6 (dev_vec (gi_edot next past)) <> 0))
    (gi_R (WKSwitch C V lam eps0) next past st) (gi_J (WKSwitch C V lam eps0) next past).
Proof. intros HV Hdt. apply (gi_jac (WKSwitch C V lam eps0) _ next past st (wk_exact P C V lam eps0 HV) Hdt). Qed.
Lemma wk_work C S V lam eps0 s a e T Td : left_inverse 6 S (C T) ->
  dot 6 s (fun i => e i - mv 6 S (gf_s (WKSwitch C V lam eps0) s a e T Td) i)
  = gf_work (WKSwitch C V lam eps0) s a e T Td - dot 6 s (fun i => Td * pv (vf_gT V) s a T i + pv (vf_gt V) s a T i).
Proof.
  intros HL. cbn [gf_s gf_work WKSwitch].
  rewrite (dot_ext_r 6 (fun i => e i - mv 6 S _ i) (fun i => vf_y V s a T * wk_kappa lam eps0 e T * pv (vf_g V) s a T i)).
  - unfold dot. rewrite <- rsum_minus. apply rsum_ext. intros. ring.
  - intros i Hi. rewrite <- mv_mm. rewrite (mv_mat_ext 6 (mm 6 S (C T)) (fun p q => delta p q)) by (intros j Hj; apply HL; assumption).
    rewrite mv_delta by exact Hi. ring.
Qed.
Lemma wk_kink lam eps0 T e : eps0 <> 0 -> lam T <> 0 -> norm2 6 (dev_vec e) <> 0 ->
  ~ ex_derive (fun u => wk_kappa lam eps0 (fun i => u * e i) T) 0.
Proof.
  intros H0 HL Hn [l H]. set (c := lam T * (sqrt (2 / 3) * norm2 6 (dev_vec e)) / eps0).
  assert (Hc : c <> 0).
  { unfold c. assert (0 < sqrt (2 / 3)) by (apply sqrt_lt_R0; lra). unfold Rdiv. repeat apply Rmult_integral_contrapositive_currified; try assumption; try lra. apply Rinv_neq_0_compat, H0. }
  assert (E : forall u, wk_kappa lam eps0 (fun i => u * e i) T = 1 - lam T + c * Rabs u).
  { intros u. unfold wk_kappa. replace (norm2 6 (dev_vec (fun i => u * e i))) with (Rabs u * norm2 6 (dev_vec e)); [unfold c, Rdiv; ring|].
    rewrite <- norm2_scale by apply Rabs_pos. unfold norm2, dot. f_equal. apply rsum_ext. intros i Hi. rewrite dev_scale.
    transitivity ((Rabs u * Rabs u) * (dev_vec e i * dev_vec e i)); [ring|]. rewrite <- Rabs_mult, (Rabs_pos_eq (u * u)) by apply Rle_0_sqr. ring. }
  assert (D : is_derive (fun u => 1 - lam T + c * Rabs u) 0 l) by (apply (D_ext (fun u => wk_kappa lam eps0 (fun i => u * e i) T)); [exact E|exact H]).
  apply is_derive_Reals in D. destruct (D (Rabs c) (Rabs_pos_lt _ Hc)) as [d Hd].
  assert (Hp := cond_pos d). assert (P1 := Hd (d / 2) ltac:(lra) ltac:(rewrite Rabs_pos_eq; lra)). assert (P2 := Hd (- (d / 2)) ltac:(lra) ltac:(rewrite Rabs_Ropp, Rabs_pos_eq; lra)).
  rewrite !Rplus_0_l in P1, P2. rewrite Rabs_R0 in P1, P2. rewrite Rabs_Ropp in P2. rewrite (Rabs_pos_eq (d / 2)) in P1, P2 by lra.
  replace ((1 - lam T + c * (d / 2) - (1 - lam T + c * 0)) / (d / 2) - l) with (c - l) in P1 by (field; lra).
  replace ((1 - lam T + c * (d / 2) - (1 - lam T + c * 0)) / - (d / 2) - l) with (- c - l) in P2 by (field; lra).
  assert (T1 := Rabs_triang (c - l) (- (- c - l))). rewrite Rabs_Ropp in T1. replace (c - l + - (- c - l)) with (2 * c) in T1 by ring.
  rewrite Rabs_mult, (Rabs_pos_eq 2) in T1 by lra. lra.
Qed.
(** the switch itself never refuses a strain rate *)
Lemma wk_no_limit C V lam eps0 s a T : gf_throws (WKSwitch C V lam eps0) s a T = false.
Proof. reflexivity. Qed.

(** a Walker model with one backstress, at a sheared state *)
Definition one (T : R) : R := 1.
Definition ex_kin : wkin := {| k_c0 := one; k_c1 := one; k_c2 := one; k_l0 := one; k_l1 := fun _ => / 2; k_l := one; k_b0 := fun _ => / 2;
  k_x0 := one; k_x1 := one; k_soft := WalkerSoftening one one; k_scale := one |}.
Definition ex_walker : walker := full_walker one one one one one one one one one one one one one one one one 1 1 (fun _ => ex_kin).
Definition ex_s : vec := fun i => if Nat.eqb i 3 then 5 else 0.
Definition ex_a : vec := whist 1 0 2 (fun _ k => if Nat.eqb k 3 then 1 else 0).
Lemma ex_d k : (k < 6)%nat -> w_d ex_walker ex_s ex_a k = if Nat.eqb k 3 then 4 else 0.
Proof. intros Hk. unfold w_d, w_TX, wX, ex_a, ex_s, sym_dev, sym_trace. cases6 k Hk; cbn; lra. Qed.
Lemma ex_kd k : (k < 6)%nat -> k_d (w_state ex_walker ex_s ex_a 0 (wX ex_a 0)) k = if Nat.eqb k 3 then 4 else 0.
Proof. intros Hk. unfold k_d, wX, ex_a, ex_s, sym_dev, sym_trace. cases6 k Hk; cbn; lra. Qed.
Lemma ge_norm d x : 0 <= x -> d 3%nat = x -> x <= norm2 6 d.
Proof. intros Hx E. assert (Q := comp_le_norm 6 d 3 ltac:(lia)). rewrite E, Rabs_pos_eq in Q by lra. exact Q. Qed.
Lemma sqrt32_ge : 1 <= sqrt (3 / 2).
Proof. rewrite <- sqrt_1 at 1. apply sqrt_le_1_alt. lra. Qed.
Lemma ex_in_domain : let w := ex_walker in let Pa := fun a (T : R) => 0 < a /\ a <> ainc in
  w_domain w Pa 0 ex_s ex_a /\
  w_var_domain w (fun x => st_h x <> one (st_T x)) (fun x => 1 < st_h x /\ one (st_T x) <> 0 /\ Pa (st_a x) (st_T x))
    (fun i x => wkin_dom (set_scale ex_kin one) Pa x) 0 ex_s ex_a /\ 0 < w_y w ex_s ex_a 0.
Proof.
  cbv zeta. assert (Hd := ge_norm (w_d ex_walker ex_s ex_a) 4 ltac:(lra) (ex_d 3 ltac:(lia))).
  assert (Hq := sqrt32_ge).
  assert (Ho : 0 < w_over ex_walker ex_s ex_a 0).
  { unfold w_over. apply Rdiv_lt_0_compat; [|cbn; lra]. rewrite wsn.
    replace (w_Y ex_walker ex_a 0) with 1.
    - assert (4 <= sqrt (3 / 2) * norm2 6 (w_d ex_walker ex_s ex_a)); [|lra]. replace 4 with (1 * 4) by ring. apply Rmult_le_compat; lra.
    - unfold w_Y. cbn. unfold one. destruct (Rlt_dec _ 0); [lra|]. replace ((2 - 1) / 1) with 1 by field. unfold cpow. destruct (Rlt_dec 0 1); [|lra]. rewrite Rpower_1 by lra. ring. }
  assert (Hp : 0 < w_pre ex_walker ex_a 0).
  { unfold w_pre. cbn. unfold one, ws_phi. destruct (Rle_dec 1 0); [lra|]. unfold ainc. destruct (Rlt_dec 1 (/ 1000)); [lra|]. unfold cpow. destruct (Rlt_dec 0 1); [|lra]. rewrite Rpower_1 by lra. lra. }
  assert (Ha : 0 < 1 /\ 1 <> ainc) by (unfold ainc; lra).
  assert (Htr : traceless (wX ex_a 0)) by (unfold traceless; rewrite wtr; unfold wX, ex_a; cbn; ring).
  split; [|split].
  - unfold w_domain. split; [rewrite wsn; lra|]. split; [cbn; lra|]. split; [cbn; unfold one; lra|]. split; [exact Ha|].
    split; [intros i Hi; replace i with 0%nat by (cbn in Hi; lia); exact Htr|]. left. split; [exact Ho|]. split; [cbn; lra|exact Hp].
  - unfold w_var_domain. split; [cbn; unfold one; lra|]. split; [split; [cbn; lra|split; [unfold one; lra|exact Ha]]|].
    intros i Hi. replace i with 0%nat by (cbn in Hi; lia). unfold wkin_dom.
    split; [exact Htr|].
    assert (Hk := ge_norm (k_d (w_state ex_walker ex_s ex_a 0 (wX ex_a 0))) 4 ltac:(lra) (ex_kd 3 ltac:(lia))).
    split; [rewrite wsn; lra|]. split; [cbn; lra|].
    split. { apply wk_L_bounds; cbn; unfold one; lra. }
    split. { rewrite wsn. assert (Hx := ge_norm (wX ex_a 0) 1 ltac:(lra) ltac:(reflexivity)). cbn [st_h w_state]. lra. }
    split; [cbn; lra|exact Ha].
  - destruct (w_y_facts ex_walker ex_s ex_a 0 Hp) as [H1 H2]. assert (w_y ex_walker ex_s ex_a 0 <> 0) by (rewrite H2; lra). lra.
Qed.
(** its backstress is bounded by 2 sqrt(2/3) 3/2 < 3 at every temperature *)
Lemma ex_kin_bounded : kin_bounded (fun _ => True) 3 (WalkerKin ex_kin).
Proof.
  apply wkin_bounded. intros T _. cbn. unfold one.
  assert (Q : sqrt (2 / 3) <= 1) by (rewrite <- sqrt_1; apply sqrt_le_1_alt; lra). assert (0 <= sqrt (2 / 3)) by apply sqrt_pos.
  repeat split; try lra.
  - intros a. assert (E := wsoft_value one one T). destruct E as (_ & _ & E). assert (1 <= ws_phi one one a T) by (apply E; unfold one; lra). unfold one in *. lra.
  - rewrite Rmax_right by lra. nra.
Qed.
(** a run: one step along which all variables change *)
Lemma ex_run : walker_run ex_walker (fun _ => True) 0 1 (fun j => ex_a j - pv (vf_h (WalkerFlow ex_walker)) ex_s ex_a 0 j) ex_a.
Proof.
  eapply (wr_step ex_walker _ _ 0 _ _ ex_a 0 ex_s 1 0 (fun _ => 0)); [apply wr_start|exact I| |].
  - split; [lra|]. split; [lra|]. intros j Hj. ring.
  - unfold norm2, dot. rewrite (rsum_ext _ _ (fun _ => 0)), rsum_0, sqrt_0; [lra|]. intros. ring.
Qed.
Lemma ex_initial : let a := whist 0 0 1 (fun _ _ => 0) in
  w_init ex_walker 2%nat = 1 /\ w_m ex_walker 0 <> 0 /\ a 2%nat = dv_0 (w_D ex_walker) 0 /\ w_pre ex_walker a 0 <> 0 /\ 0 < w_over ex_walker ex_s a 0.
Proof.
  cbv zeta. split; [reflexivity|]. split; [cbn; unfold one; lra|]. split; [reflexivity|]. split.
  - unfold w_pre. cbn. unfold one, ws_phi. destruct (Rle_dec 0 0); lra.
  - unfold w_over. apply Rdiv_lt_0_compat; [|cbn; lra]. rewrite wsn.
    assert (Hd := ge_norm (w_d ex_walker ex_s (whist 0 0 1 (fun _ _ => 0))) 5 ltac:(lra) ltac:(unfold w_d, w_TX, wX, ex_s, sym_dev, sym_trace; cbn; lra)).
    assert (Hq := sqrt32_ge).
    replace (w_Y ex_walker (whist 0 0 1 (fun _ _ => 0)) 0) with 0.
    + assert (5 <= sqrt (3 / 2) * norm2 6 (w_d ex_walker ex_s (whist 0 0 1 (fun _ _ => 0)))); [|lra]. replace 5 with (1 * 5) by ring. apply Rmult_le_compat; lra.
    + unfold w_Y. cbn. unfold one. replace ((1 - 1) / 1) with 0 by field. destruct (Rlt_dec 0 0); [lra|]. unfold cpow. destruct (Rlt_dec 0 0); [lra|]. destruct (Req_EM_T 1 0); lra.
Qed.
