From Verif Require Import Base.
From Verif Require Import Diff.
From Verif Require Import NemlMathModel NemlMathSpec NemlMathProofs InterpModel.
From Verif Require Import SolverModel SubstepModel SurfModel SurfSpec SurfProofs HardModel HardSpec HardProofs RiProofs.
From Verif Require Import PlastModel PlastSpec PlastProofs PlastEx ViscoModel ViscoSpec ViscoProofs YaguchiProofs.

(** *** superposition, indexed *)
Lemma rsum_S_l n f : rsum (S n) f = f O + rsum n (fun k => f (S k)).
Proof. induction n; [cbn; ring|]. change (rsum (S (S n)) f) with (rsum (S n) f + f (S n)). rewrite IHn. cbn [rsum]. ring. Qed.
Lemma rsumn_S_l n f : rsumn (S n) f = (f O + rsumn n (fun k => f (S k)))%nat.
Proof. induction n; [cbn; lia|]. change (rsumn (S (S n)) f) with (rsumn (S n) f + f (S n))%nat. rewrite IHn. cbn [rsumn]. lia. Qed.
Lemma comp_hist_S r l k a : comp_hist (r :: l) (S k) a = comp_hist l k (drop (vf_n r) a).
Proof. apply FunctionalExtensionality.functional_extensionality. intros i. unfold comp_hist, drop, offset. cbn [firstn sp_n]. f_equal. lia. Qed.
Lemma comp_hist_0 rs a : comp_hist rs 0 a = a.
Proof. apply FunctionalExtensionality.functional_extensionality. intros i. reflexivity. Qed.
Lemma sp_rate rs s a T :
  vf_n (Superimposed rs) = rsumn (length rs) (fun k => vf_n (comp rs k)) /\
  vf_y (Superimposed rs) s a T = rsum (length rs) (fun k => vf_y (comp rs k) s (comp_hist rs k a) T).
Proof.
  cbn [vf_n vf_y Superimposed]. revert a. induction rs as [|r l IH]; intros a; [split; reflexivity|].
  cbn [length sp_n sp_y]. rewrite rsumn_S_l, rsum_S_l. destruct (IH (drop (vf_n r) a)) as [E1 E2]. split.
  - rewrite E1. reflexivity.
  - rewrite E2. rewrite comp_hist_0. cbn [comp nth]. f_equal. apply rsum_ext. intros k Hk. rewrite comp_hist_S. reflexivity.
Qed.
Lemma sp_cat_nth sel rs k s a T i : (k < length rs)%nat -> (i < vf_n (comp rs k))%nat ->
  sp_cat sel rs s a T (offset rs k + i)%nat = pv (sel (comp rs k)) s (comp_hist rs k a) T i.
Proof.
  revert k a. induction rs as [|r l IH]; intros k a Hk Hi; cbn [length] in Hk; [lia|].
  destruct k as [|k].
  - cbn [sp_cat offset firstn sp_n comp nth Nat.add] in *. rewrite ltb_t by exact Hi. rewrite comp_hist_0. reflexivity.
  - cbn [sp_cat]. unfold offset. cbn [firstn sp_n]. fold (offset l k). rewrite ltb_f by lia.
    replace (vf_n r + offset l k + i - vf_n r)%nat with (offset l k + i)%nat by lia.
    change (comp (r :: l) (S k)) with (comp l k) in *. rewrite comp_hist_S. apply IH; [lia|exact Hi].
Qed.
Lemma sp_num_sum sel rs s a T i :
  sp_num sel rs s a T i = rsum (length rs) (fun k => vf_y (comp rs k) s (comp_hist rs k a) T * pv (sel (comp rs k)) s (comp_hist rs k a) T i).
Proof.
  revert a. induction rs as [|r l IH]; intros a; [reflexivity|]. cbn [sp_num length]. rewrite rsum_S_l, IH, comp_hist_0. cbn [comp nth]. f_equal.
  apply rsum_ext. intros k Hk. rewrite comp_hist_S. reflexivity.
Qed.
Lemma sp_strain_rate rs s a T i :
  (forall k, (k < length rs)%nat -> 0 <= vf_y (comp rs k) s (comp_hist rs k a) T) ->
  vf_y (Superimposed rs) s a T * pv (vf_g (Superimposed rs)) s a T i
  = rsum (length rs) (fun k => vf_y (comp rs k) s (comp_hist rs k a) T * pv (vf_g (comp rs k)) s (comp_hist rs k a) T i).
Proof.
  intros H. destruct (sp_rate rs s a T) as [_ E]. cbn [vf_y Superimposed vf_g pv sp_avg] in *.
  rewrite sp_num_sum. unfold div_pos. destruct (Rlt_dec 0 (sp_y rs s a T)) as [L|L]; [field; lra|].
  assert (Z : rsum (length rs) (fun k => vf_y (comp rs k) s (comp_hist rs k a) T) = 0).
  { assert (0 <= rsum (length rs) (fun k => vf_y (comp rs k) s (comp_hist rs k a) T)) by (apply rsum_nonneg; exact H). lra. }
  rewrite (rsum_ext _ (fun k => vf_y (comp rs k) s (comp_hist rs k a) T * _) (fun _ => 0)), rsum_0; [ring|].
  intros k Hk. rewrite (rsum_zero_inv _ _ H Z k Hk). ring.
Qed.
Lemma sp_num_zero sel rs s a T i : (forall k, (k < length rs)%nat -> sel (comp rs k) = zero_part) -> sp_num sel rs s a T i = 0.
Proof.
  intros H. rewrite sp_num_sum. rewrite (rsum_ext _ _ (fun _ => 0)), rsum_0; [reflexivity|]. intros k Hk. rewrite H by assumption. cbn. ring.
Qed.
Lemma sp_stress_rate rs C limit s a e T Td i :
  (forall k, (k < length rs)%nat -> 0 <= vf_y (comp rs k) s (comp_hist rs k a) T /\ vf_gt (comp rs k) = zero_part /\ vf_gT (comp rs k) = zero_part) ->
  gf_s (TVP C (Superimposed rs) limit) s a e T Td i
  = mv 6 (C T) (fun j => e j - rsum (length rs) (fun k => vf_y (comp rs k) s (comp_hist rs k a) T * pv (vf_g (comp rs k)) s (comp_hist rs k a) T j)) i.
Proof.
  intros H. cbn [gf_s TVP]. apply mv_vec_ext. intros j Hj.
  rewrite <- sp_strain_rate by (intros k Hk; apply H; exact Hk).
  assert (Z : pv (vf_gT (Superimposed rs)) s a T j = 0 /\ pv (vf_gt (Superimposed rs)) s a T j = 0).
  { cbn [vf_gt vf_gT Superimposed pv sp_avg]. rewrite !sp_num_zero by (intros k Hk; apply H; exact Hk). unfold div_pos. destruct (Rlt_dec 0 _); unfold Rdiv; split; ring. }
  destruct Z as [-> ->]. ring.
Qed.

(** a rule with unit rate and a unit strain rate per unit time *)
Definition unit_rule : vflow :=
  {| vf_n := 0; vf_y := fun _ _ _ => 1; vf_ys := fun _ _ _ _ => 0; vf_ya := fun _ _ _ _ => 0;
     vf_g := zero_part; vf_gt := {| pv := fun _ _ _ _ => 1; pds := fun _ _ _ _ _ => 0; pda := fun _ _ _ _ _ => 0 |}; vf_gT := zero_part;
     vf_h := zero_part; vf_ht := zero_part; vf_hT := zero_part; vf_guess := fun x => x |}.
Lemma sp_time_refuted : exists rs s a T,
  (forall k, (k < length rs)%nat -> 0 < vf_y (comp rs k) s (comp_hist rs k a) T) /\
  pv (vf_gt (Superimposed rs)) s a T 0%nat
  <> rsum (length rs) (fun k => pv (vf_gt (comp rs k)) s (comp_hist rs k a) T 0%nat).
Proof.
  exists [unit_rule; unit_rule], vzero, vzero, 0. split.
  - intros k Hk. cbn [length] in Hk. destruct k as [|[|k]]; [cbn; lra|cbn; lra|lia].
  - cbn. unfold div_pos. destruct (Rlt_dec 0 _) as [L|L]; lra.
Qed.

(** *** J2 Perzyna on shear states *)
Definition shv (x : R) : vec := fun i => match i with 3%nat => x | _ => 0 end.
Lemma rel_shv x q : veq 6 (rel (shv x) (expand_hist q)) (shv x).
Proof. intros i Hi. unfold rel, vadd, dev_vec, tail1, expand_hist. do 6 (destruct i as [|i]; [cbn; lra|]). lia. Qed.
Lemma norm_shv x q : norm2 6 (rel (shv x) (expand_hist q)) = Rabs x.
Proof.
  unfold norm2. rewrite (dot_ext 6 _ (shv x) _ (shv x)) by apply rel_shv. unfold dot, shv. cbn [rsum].
  match goal with |- sqrt ?y = _ => replace y with (Rsqr x) by (unfold Rsqr; ring) end. apply sqrt_Rsqr_abs.
Qed.
Lemma f_shv x q T : ys_f IsoJ2 (shv x) q T = Rabs x + sqrt (2 / 3) * q 0%nat.
Proof. cbn [ys_f IsoJ2 IsoFunction IsoKinJ2]. unfold j2_f. rewrite norm_shv. reflexivity. Qed.
Lemma s23_lt1 : sqrt (2 / 3) < 1.
Proof. assert (sqrt (2 / 3) < sqrt 1) by (apply sqrt_lt_1; lra). rewrite sqrt_1 in *. assumption. Qed.

Definition perz1 : vflow := Perzyna IsoJ2 (VoceIso (fun _ => 1) (fun _ => 0) (fun _ => 0)) (GPowerLaw (fun _ => 1) (fun _ => 1)).
Lemma perz1_f x a T : ys_f IsoJ2 (shv x) (hr_q (VoceIso (fun _ => 1) (fun _ => 0) (fun _ => 0)) a T) T = Rabs x - sqrt (2 / 3).
Proof. rewrite f_shv. cbn [hr_q VoceIso scalar_rule]. ring. Qed.
Lemma sp_own_rate_refuted : exists rs C limit s a e T k i,
  (forall j, (j < length rs)%nat -> 0 <= vf_y (comp rs j) s (comp_hist rs j a) T) /\
  (k < length rs)%nat /\ (i < vf_n (comp rs k))%nat /\
  vf_y (comp rs k) s (comp_hist rs k a) T = 0 /\
  gf_a (TVP C (comp rs k) limit) s (comp_hist rs k a) e T 0 i = 0 /\
  gf_a (TVP C (Superimposed rs) limit) s a e T 0 (offset rs k + i)%nat <> 0.
Proof.
  set (lv := LinearViscous IsoJ2 (fun _ => 1)).
  pose proof s23. pose proof s23_lt1.
  assert (Y0 : forall a, vf_y perz1 (shv (1 / 2)) a 0 = 0).
  { intros a. cbn [vf_y perz1 Perzyna]. fold perz1. rewrite perz1_f. rewrite Rabs_pos_eq by lra.
    destruct (Rlt_dec 0 (1 / 2 - sqrt (2 / 3))) as [L|L]; [|reflexivity].
    exfalso. assert (1 / 2 < sqrt (2 / 3)). { rewrite <- (sqrt_square (1 / 2)) by lra. apply sqrt_lt_1; lra. } lra. }
  assert (Y1 : forall a, vf_y lv (shv (1 / 2)) a 0 = 3 / 4).
  { intros a. cbn [vf_y lv LinearViscous]. rewrite f_shv. unfold vzero. rewrite Rabs_pos_eq by lra. field. }
  exists [perz1; lv], (fun _ => delta), 10, (shv (1 / 2)), vzero, vzero, 0, 0%nat, 0%nat.
  split; [|split; [|split; [|split; [|split]]]].
  - intros j Hj. cbn [length] in Hj. destruct j as [|[|j]]; [| |lia]; unfold comp; cbn [nth]; [rewrite Y0|rewrite Y1]; lra.
  - cbn; lia.
  - cbn; lia.
  - unfold comp; cbn [nth]. apply Y0.
  - cbn [gf_a TVP]. unfold comp; cbn [nth]. rewrite Y0. cbn [vf_hT vf_ht perz1 Perzyna zero_part pv]. ring.
  - cbn [gf_a TVP]. cbn [vf_y vf_h vf_hT vf_ht Superimposed pv sp_blocks sp_y sp_cat offset firstn sp_n Nat.add].
    rewrite Y0, Y1. change (vf_n perz1) with 1%nat. cbn [Nat.ltb Nat.leb]. cbn [vf_h vf_hT vf_ht perz1 Perzyna pv zero_part].
    cbn [ys_dq IsoJ2 IsoFunction IsoKinJ2]. unfold j2_dq. lra.
Qed.

(** *** no flow inside the surface *)
Lemma cpow_pos_pos x y : 0 < x -> 0 < cpow x y.
Proof. intros H. rewrite cpow_pos by exact H. apply exp_pos. Qed.
Lemma perzyna_flows Y H n eta V s a T : make_perzyna Y H (GPowerLaw n eta) = Some V -> 0 < eta T ->
  0 <= vf_y V s a T /\ (0 < vf_y V s a T <-> 0 < ys_f Y s (hr_q H a T) T).
Proof.
  unfold make_perzyna. destruct (Nat.eqb (ys_n Y) (hr_n H)); [|discriminate]. intros HV He. injection HV as <-.
  cbn [vf_y Perzyna]. destruct (Rlt_dec 0 (ys_f Y s (hr_q H a T) T)) as [L|L]; [|lra].
  cbn [gf_g GPowerLaw]. rewrite Rabs_pos_eq by lra.
  assert (0 < cpow (ys_f Y s (hr_q H a T) T / eta T) (n T)) by (apply cpow_pos_pos, Rdiv_lt_0_compat; assumption). lra.
Qed.
Lemma chaboche_flows Y H F n pre V s a T : make_chaboche Y H F n pre = Some V -> 0 < fl_eta F (a 0%nat) T -> 0 < pre T ->
  0 <= vf_y V s a T /\ (0 < vf_y V s a T <-> 0 < ys_f Y s (na_q H a T) T).
Proof.
  unfold make_chaboche. destruct (Nat.eqb (ys_n Y) (na_ninter H)); [|discriminate]. intros HV He Hp. injection HV as <-.
  cbn [vf_y ChabocheFlow]. destruct (Rlt_dec 0 (ys_f Y s (na_q H a T) T)) as [L|L]; [|lra].
  assert (0 < sqrt (3 / 2) * cpow (ys_f Y s (na_q H a T) T / (sqrt (2 / 3) * fl_eta F (a 0%nat) T)) (n T) * pre T).
  { pose proof s23. repeat apply Rmult_lt_0_compat; [apply sqrt_lt_R0; lra| |exact Hp].
    apply cpow_pos_pos, Rdiv_lt_0_compat; [exact L|apply Rmult_lt_0_compat; assumption]. }
  lra.
Qed.
Lemma yaguchi_flows p s a T : 0 < yD p T ->
  0 <= vf_y (Yaguchi p) s a T /\ (0 < vf_y (Yaguchi p) s a T <-> a 13%nat < yJ2 (y_dS s a)).
Proof.
  intros HD. cbn [vf_y Yaguchi].
  assert (E : 0 < y_over p s a T <-> a 13%nat < yJ2 (y_dS s a)).
  { unfold y_over. split; intros H.
    - assert (K : 0 < yJ2 (y_dS s a) - a 13%nat); [|lra].
      replace (yJ2 (y_dS s a) - a 13%nat) with ((yJ2 (y_dS s a) - a 13%nat) / yD p T * yD p T) by (field; lra). apply Rmult_lt_0_compat; assumption.
    - apply Rdiv_lt_0_compat; lra. }
  destruct (Rlt_dec 0 (y_over p s a T)) as [L|L].
  - destruct (over_pos p s a T L) as [_ Hy]. split; [lra|]. split; [intros _; apply E; exact L|intros _; exact Hy].
  - rewrite (over_neg p s a T) by lra. split; [lra|]. split; [lra|]. intros H. apply E in H. lra.
Qed.
Lemma perzyna_elastic Y H G V C limit s a e T Td : make_perzyna Y H G = Some V -> ys_f Y s (hr_q H a T) T <= 0 ->
  veq 6 (gf_s (TVP C V limit) s a e T Td) (mv 6 (C T) e) /\
  (forall i, gf_a (TVP C V limit) s a e T Td i = 0) /\ gf_work (TVP C V limit) s a e T Td = 0.
Proof.
  unfold make_perzyna. destruct (Nat.eqb (ys_n Y) (hr_n H)); [|discriminate]. intros HV Hf. injection HV as <-.
  assert (Z : vf_y (Perzyna Y H G) s a T = 0) by (cbn [vf_y Perzyna]; destruct (Rlt_dec 0 _); [lra|reflexivity]).
  cbn [gf_s gf_a gf_work TVP]. rewrite Z. cbn [vf_gT vf_gt vf_ht vf_hT Perzyna zero_part pv]. split; [|split].
  - intros i Hi. apply mv_vec_ext. intros j Hj. ring.
  - intros i. ring.
  - rewrite (dot_ext 6 s s _ (fun _ => 0)); [|intros i Hi; reflexivity|intros i Hi; ring]. apply dot_zero.
Qed.
Lemma chaboche_elastic Y H F n pre V C limit s a e T Td : make_chaboche Y H F n pre = Some V -> ys_f Y s (na_q H a T) T <= 0 ->
  veq 6 (gf_s (TVP C V limit) s a e T Td) (mv 6 (C T) e) /\
  (forall i, gf_a (TVP C V limit) s a e T Td i = na_hT H s a T i * Td + na_ht H s a T i) /\ gf_work (TVP C V limit) s a e T Td = 0.
Proof.
  unfold make_chaboche. destruct (Nat.eqb (ys_n Y) (na_ninter H)); [|discriminate]. intros HV Hf. injection HV as <-.
  assert (Z : vf_y (ChabocheFlow Y H F n pre) s a T = 0) by (cbn [vf_y ChabocheFlow]; destruct (Rlt_dec 0 _); [lra|reflexivity]).
  cbn [gf_s gf_a gf_work TVP]. rewrite Z. cbn [vf_gT vf_gt vf_ht vf_hT ChabocheFlow zero_part pv]. split; [|split].
  - intros i Hi. apply mv_vec_ext. intros j Hj. ring.
  - intros i. ring.
  - rewrite (dot_ext 6 s s _ (fun _ => 0)); [|intros i Hi; reflexivity|intros i Hi; ring]. apply dot_zero.
Qed.
Lemma j2_s_dot_g s q T : 0 <= dot 6 s (ys_ds IsoJ2 s q T).
Proof.
  cbn [ys_ds IsoJ2 IsoFunction IsoKinJ2]. unfold j2_ds, normalize_vec.
  assert (E : veq 6 (rel s (expand_hist q)) (dev_vec s)). { intros i Hi. unfold rel, vadd, tail1, expand_hist. ring. }
  destruct (Rlt_dec (Rabs (norm2 6 (rel s (expand_hist q)))) eps) as [L|L].
  - change vzero with (fun _ : nat => 0). rewrite dot_zero. lra.
  - rewrite (dot_ext 6 s s _ (fun i => dev_vec s i * / norm2 6 (rel s (expand_hist q)))); [|intros i Hi; reflexivity|intros i Hi; rewrite E by exact Hi; reflexivity].
    rewrite dot_comm, dot_scal_l, dev_orth. apply Rmult_le_pos; [apply dot_nonneg|].
    pose proof (norm2_nonneg 6 (rel s (expand_hist q))). pose proof eps_pos. rewrite Rabs_pos_eq in L by assumption. left. apply Rinv_0_lt_compat. lra.
Qed.
Lemma perzyna_dissipates H n eta V C limit s a e T Td : make_perzyna IsoJ2 H (GPowerLaw n eta) = Some V -> 0 < eta T ->
  0 <= gf_work (TVP C V limit) s a e T Td.
Proof.
  intros HV He. destruct (perzyna_flows _ _ _ _ _ s a T HV He) as [Hy _].
  unfold make_perzyna in HV. destruct (Nat.eqb (ys_n IsoJ2) (hr_n H)); [|discriminate]. injection HV as <-.
  cbn [gf_work TVP]. 
  rewrite (dot_ext 6 s s _ (fun i => ys_ds IsoJ2 s (hr_q H a T) T i * vf_y (Perzyna IsoJ2 H (GPowerLaw n eta)) s a T)); [|intros i Hi; reflexivity|].
  - rewrite dot_comm, dot_scal_l, dot_comm. apply Rmult_le_pos; [apply j2_s_dot_g|exact Hy].
  - intros i Hi. cbn [vf_g vf_gT vf_gt Perzyna zero_part pv]. ring.
Qed.
Lemma viscous_uniaxial eta x a T : eps < sqrt (2 / 3) * Rabs x ->
  let s := fun i => match i with O => x | _ => 0 end in
  vf_y (LinearViscous IsoJ2 eta) s a T * pv (vf_g (LinearViscous IsoJ2 eta)) s a T 0%nat = x / eta T.
Proof.
  intros He s. cbn [vf_y vf_g LinearViscous pv].
  assert (Ef : ys_f IsoJ2 s vzero T = sqrt (2 / 3) * Rabs x).
  { transitivity (sqrt (2 / 3) * (Rabs x + 0)); [exact (j2_uniaxial x 0 T)|ring]. }
  assert (En : norm2 6 (rel s (expand_hist vzero)) = sqrt (2 / 3) * Rabs x).
  { rewrite <- Ef. cbn [ys_f IsoJ2 IsoFunction IsoKinJ2]. unfold j2_f, expand_hist, vzero. ring. }
  rewrite Ef. cbn [ys_ds IsoJ2 IsoFunction IsoKinJ2]. unfold j2_ds.
  rewrite normalize_big by (rewrite En; exact He). rewrite En.
  assert (Er : rel s (expand_hist vzero) 0%nat = 2 / 3 * x). { unfold rel, vadd, dev_vec, tail1, expand_hist, vzero, s. cbn. field. }
  rewrite Er. pose proof eps_pos. set (u := sqrt (2 / 3) * Rabs x) in *. clearbody u. unfold Rdiv.
  replace (3 * / 2 * u * / eta T * (2 * / 3 * x * / u)) with (x * / eta T * (u * / u)) by (set (iu := / u); set (ie := / eta T); lra).
  rewrite Rinv_r; [ring|]. lra.
Qed.
Lemma c30_case V : make_perzyna IsoJ2 (VoceIso (fun _ => 1) (fun _ => 0) (fun _ => 0)) (GPowerLaw (fun _ => 2) (fun _ => 1)) = Some V ->
  vf_y V vzero vzero 0 = 0 /\ 0 < vf_y V (vlist [0; 0; 0; 5]) vzero 0.
Proof.
  intros HV. pose proof s23. pose proof s23_lt1.
  assert (Hs : forall x s, (forall i, (i < 6)%nat -> s i = shv x i) -> ys_f IsoJ2 s (hr_q (VoceIso (fun _ => 1) (fun _ => 0) (fun _ => 0)) vzero 0) 0 = Rabs x - sqrt (2 / 3)).
  { intros x s Hx. rewrite <- (perz1_f x vzero 0). cbn [ys_f IsoJ2 IsoFunction IsoKinJ2]. unfold j2_f. f_equal. apply norm2_ext. intros i Hi.
    unfold rel, vadd, dev_vec. rewrite !Hx by lia. reflexivity. }
  split.
  - destruct (perzyna_flows _ _ _ _ _ vzero vzero 0 HV ltac:(lra)) as [A [B _]]. destruct A as [A|A]; [|symmetry; exact A]. apply B in A.
    rewrite (Hs 0) in A. rewrite Rabs_R0 in A; lra. intros i Hi. do 6 (destruct i as [|i]; [reflexivity|]). lia.
  - apply (proj2 (perzyna_flows _ _ _ _ _ (vlist [0; 0; 0; 5]) vzero 0 HV ltac:(lra))). rewrite (Hs 5). rewrite Rabs_pos_eq; lra.
    intros i Hi. do 6 (destruct i as [|i]; [reflexivity|]). lia.
Qed.
