From Verif Require Import Base.
From Verif Require Import Diff.
From Verif Require Import NemlMathModel NemlMathSpec NemlMathProofs InterpModel.
From Verif Require Import SurfModel SurfSpec SurfProofs HardModel HardSpec HardProofs RiModel RiSpec RiProofs.
From Verif Require Import PlastModel PlastSpec PlastProofs ViscoModel ViscoSpec.

Lemma zero_part_exact k n P : part_exact k n P zero_part.
Proof.
  intros T s a t vs va Hs Ha HP i Hi. cbn. unfold vadd, mv. eapply D_eq. apply D_const.
  rewrite (rsum_ext 6 _ (fun _ => 0)), (rsum_ext n _ (fun _ => 0)), !rsum_0; [ring| |]; intros; ring.
Qed.

(** *** TVP *)
Lemma D_mvn n (C : mat) (y : R -> vec) t vy i : path n y t vy -> is_derive (fun u => mv n C (y u) i) t (mv n C vy i).
Proof.
  intros Hy. unfold mv. apply (D_rsum n (fun u j => C i j * y u j) t). intros j Hj.
  eapply D_eq. apply D_mult; [apply D_const|apply Hy; assumption]. cbv beta. ring.
Qed.
Lemma mv_matlin n (A B : mat) v k i : mv n (fun a b => A a b + k * B a b) v i = mv n A v i + k * mv n B v i.
Proof. unfold mv. rewrite <- rsum_scal, <- rsum_plus. apply rsum_ext. intros. ring. Qed.
Lemma mv_outer n (a b v : vec) i : mv n (outer a b) v i = a i * dot n b v.
Proof. unfold mv, outer, dot. rewrite <- rsum_scal. apply rsum_ext. intros. ring. Qed.
Lemma mv_mat_ext n (A B : mat) v i : (forall j, (j < n)%nat -> A i j = B i j) -> mv n A v i = mv n B v i.
Proof. intros H. unfold mv. apply rsum_ext. intros j Hj. rewrite H by assumption. reflexivity. Qed.

(** derivative of y*p and its matrix form *)
Lemma mv_comb n (y : R) (g gy : vec) (D Dt DT : mat) (Td k : R) v i :
  mv n (fun i j => k * (D i j * y + g i * gy j) + DT i j * (k * Td) + k * Dt i j) v i
  = k * (y * mv n D v i + g i * dot n gy v + Td * mv n DT v i + mv n Dt v i).
Proof.
  unfold mv, dot. rewrite <- !rsum_scal, <- !rsum_plus, <- rsum_scal. apply rsum_ext. intros. ring.
Qed.
Lemma tvp_exact P C V limit : vflow_exact P V -> gflow_exact (fun T s a _ => P T s a) (TVP C V limit).
Proof.
  intros (Hy & Hg & Ht & HT & Hh & Hht & HhT) T Td s a e t vs va ve Hs Ha He HP.
  cbn [gf_n TVP gf_s gf_ss gf_sa gf_se gf_a gf_as gf_aa gf_ae] in *.
  pose proof (Hy T s a t vs va Hs Ha HP) as Dy.
  split.
  - intros i Hi.
    set (W := fun i => ve i - ((dot 6 (vf_ys V (s t) (a t) T) vs + dot (vf_n V) (vf_ya V (s t) (a t) T) va) * pv (vf_g V) (s t) (a t) T i
       + vf_y V (s t) (a t) T * (mv 6 (pds (vf_g V) (s t) (a t) T) vs i + mv (vf_n V) (pda (vf_g V) (s t) (a t) T) va i))
       - Td * (mv 6 (pds (vf_gT V) (s t) (a t) T) vs i + mv (vf_n V) (pda (vf_gT V) (s t) (a t) T) va i)
       - (mv 6 (pds (vf_gt V) (s t) (a t) T) vs i + mv (vf_n V) (pda (vf_gt V) (s t) (a t) T) va i)).
    eapply D_eq. apply (D_mvn 6 (C T) _ t W).
    + intros j Hj.
      pose proof (He j Hj) as E1. pose proof (Hg T s a t vs va Hs Ha HP j Hj) as E2.
      pose proof (HT T s a t vs va Hs Ha HP j Hj) as E3. pose proof (Ht T s a t vs va Hs Ha HP j Hj) as E4.
      cbv beta in *. eapply D_eq.
      { apply D_minus; [apply D_minus; [apply D_minus; [exact E1|apply D_mult; [exact Dy|exact E2]]|apply D_mult; [apply D_const|exact E3]]|exact E4]. }
      unfold W, vadd. ring.
    + unfold vadd. rewrite !mv_mm.
      match goal with |- _ = mv 6 _ ?x i + (mv 6 _ ?y i + _) => set (A1 := x); set (A2 := y) end.
      transitivity (mv 6 (C T) (vadd (vadd A1 A2) ve) i).
      * apply mv_vec_ext. intros j Hj. unfold W, vadd, A1, A2. clear W A1 A2.
        rewrite (mv_mat_ext 6 (fun i j => pds (vf_g V) (s t) (a t) T i j * - vf_y V (s t) (a t) T - _ - _ - _) (fun i j => (-1) * (pds (vf_g V) (s t) (a t) T i j * vf_y V (s t) (a t) T + pv (vf_g V) (s t) (a t) T i * vf_ys V (s t) (a t) T j)
           + pds (vf_gT V) (s t) (a t) T i j * ((-1) * Td) + (-1) * pds (vf_gt V) (s t) (a t) T i j)) by (intros; ring).
        rewrite (mv_mat_ext (vf_n V) (fun i j => pda (vf_g V) (s t) (a t) T i j * - vf_y V (s t) (a t) T - _ - _ - _) (fun i j => (-1) * (pda (vf_g V) (s t) (a t) T i j * vf_y V (s t) (a t) T + pv (vf_g V) (s t) (a t) T i * vf_ya V (s t) (a t) T j)
           + pda (vf_gT V) (s t) (a t) T i j * ((-1) * Td) + (-1) * pda (vf_gt V) (s t) (a t) T i j)) by (intros; ring).
        rewrite !mv_comb. ring.
      * rewrite !mv_vadd. ring.
  - intros i Hi.
    pose proof (Hh T s a t vs va Hs Ha HP i Hi) as E2.
    pose proof (HhT T s a t vs va Hs Ha HP i Hi) as E3. pose proof (Hht T s a t vs va Hs Ha HP i Hi) as E4.
    cbv beta in *. eapply D_eq.
    { apply D_plus; [apply D_plus; [apply D_mult; [exact E2|exact Dy]|apply D_mult; [exact E3|apply D_const]]|exact E4]. }
    unfold vadd.
    rewrite (mv_mat_ext 6 (fun i j => pds (vf_h V) (s t) (a t) T i j * _ + _ + _ + _) (fun i j => 1 * (pds (vf_h V) (s t) (a t) T i j * vf_y V (s t) (a t) T + pv (vf_h V) (s t) (a t) T i * vf_ys V (s t) (a t) T j)
           + pds (vf_hT V) (s t) (a t) T i j * (1 * Td) + 1 * pds (vf_ht V) (s t) (a t) T i j)) by (intros; ring).
    rewrite (mv_mat_ext (vf_n V) (fun i j => pda (vf_h V) (s t) (a t) T i j * _ + _ + _ + _) (fun i j => 1 * (pda (vf_h V) (s t) (a t) T i j * vf_y V (s t) (a t) T + pv (vf_h V) (s t) (a t) T i * vf_ya V (s t) (a t) T j)
           + pda (vf_hT V) (s t) (a t) T i j * (1 * Td) + 1 * pda (vf_ht V) (s t) (a t) T i j)) by (intros; ring).
    rewrite !mv_comb.
    replace (mv 6 (fun _ _ : nat => 0) ve i) with 0. ring.
    unfold mv. symmetry. rewrite (rsum_ext 6 _ (fun _ => 0)), rsum_0; [reflexivity|intros; ring].
Qed.

Ltac vsplit := split; [|split; [|split; [|split; [|split; [|split]]]]].
Lemma D_loc' (f g : R -> R) (t a : R) : is_derive f t a -> locally t (fun u => f u = g u) -> is_derive g t a.
Proof. intros H1 H2. exact (D_loc f g t a H2 H1). Qed.
(** *** flow functions *)
Lemma gpower_exact n eta T : 0 < eta T -> gfun_exact (GPowerLaw n eta) T.
Proof.
  intros He f Hf. cbn. eapply D_eq. eapply (D_cpow (fun x => x / eta T) (n T)).
  - apply D_div; [apply D_id|apply D_const|lra].
  - cbv beta. apply Rdiv_lt_0_compat; assumption.
  - cbv beta. field. lra.
Qed.
Lemma constant_fluid_exact eta : fluid_exact (ConstantFluidity eta).
Proof. intros T a. cbn [fl_eta fl_deta ConstantFluidity]. apply D_const. Qed.
Lemma saturating_fluid_exact K0 A b : fluid_exact (SaturatingFluidity K0 A b).
Proof. intros T a. cbn [fl_eta fl_deta SaturatingFluidity]. eapply D_eq; [dall|]. cbv beta. ring. Qed.
Lemma dot_scal_l n k a b : dot n (fun i => a i * k) b = dot n a b * k.
Proof. unfold dot. rewrite <- rsum_scal_r. apply rsum_ext. intros. ring. Qed.
Lemma dot_zero_l n b : dot n (fun _ => 0) b = 0.
Proof. unfold dot. rewrite (rsum_ext n _ (fun _ => 0)), rsum_0; [reflexivity|intros; ring]. Qed.

Lemma perzyna_exact Y H G V P Q : make_perzyna Y H G = Some V -> surface_exact P Y -> hard_exact Q H ->
  vflow_exact (fun T s a => P T s (hr_q H a T) /\ Q T a /\ ys_f Y s (hr_q H a T) T <> 0 /\ gfun_exact G T) V.
Proof.
  unfold make_perzyna. destruct (Nat.eqb_spec (ys_n Y) (hr_n H)) as [E|]; [|discriminate].
  intros HV HY HH. injection HV as <-.
  vsplit.
  - intros T s a t vs va Hs Ha (HP & HQ & Hf & HG). cbn [vf_y vf_ys vf_ya Perzyna vf_n] in *.
    destruct (HY T) as [H1 _]. rewrite E in *.
    pose proof (chain_grad _ _ (P T) (Q T) _ _ _ _ _ H1 (HH T) s a t vs va Hs Ha (conj HP HQ)) as Df.
    cbv beta in Df. destruct (Rlt_dec 0 (ys_f Y (s t) (hr_q H (a t) T) T)) as [L|L].
    + eapply D_eq. eapply (D_loc' (fun u => gf_g G (ys_f Y (s u) (hr_q H (a u) T) T) T)).
      { eapply (D_comp (fun x => gf_g G x T) (fun u => ys_f Y (s u) (hr_q H (a u) T) T) t); [exact Df|apply HG; exact L]. }
      { pose proof (loc_gt _ _ _ 0 Df L) as LL. revert LL. apply filter_imp. intros u Hu. cbv beta in *.
        destruct (Rlt_dec 0 _); [|lra]. rewrite Rabs_pos_eq by lra. reflexivity. }
      rewrite Rabs_pos_eq by lra. rewrite !dot_scal_l. ring.
    + eapply D_eq. eapply (D_loc' (fun u => 0)). apply D_const.
      { assert (L' : ys_f Y (s t) (hr_q H (a t) T) T < 0) by lra.
        pose proof (loc_lt _ _ _ 0 Df L') as LL. revert LL. apply filter_imp. intros u Hu. cbv beta in *.
        destruct (Rlt_dec 0 _); [lra|]. reflexivity. }
      rewrite !dot_zero_l. ring.
  - intros T s a t vs va Hs Ha (HP & HQ & _). cbn [pv pds pda vf_g Perzyna vf_n] in *.
    destruct (HY T) as [_ [H2 _]]. rewrite E in *.
    exact (chain_jac _ _ _ (P T) (Q T) _ _ _ _ _ H2 (HH T) s a t vs va Hs Ha (conj HP HQ)).
  - apply zero_part_exact.
  - apply zero_part_exact.
  - intros T s a t vs va Hs Ha (HP & HQ & _). cbn [pv pds pda vf_h Perzyna vf_n] in *.
    destruct (HY T) as [_ [_ H2]]. rewrite E in *.
    exact (chain_jac _ _ _ (P T) (Q T) _ _ _ _ _ H2 (HH T) s a t vs va Hs Ha (conj HP HQ)).
  - apply zero_part_exact.
  - apply zero_part_exact.
Qed.

Lemma linear_viscous_exact Y eta P : surface_exact P Y ->
  vflow_exact (fun T s a => P T s vzero) (LinearViscous Y eta).
Proof.
  intros HY. vsplit.
  - intros T s a t vs va Hs Ha HP. cbn [vf_y vf_ys vf_ya LinearViscous vf_n] in *.
    destruct (HY T) as [H1 _]. pose proof (H1 s (fun _ => vzero) t vs vzero Hs (path_const _ _ _) HP) as Df. cbv beta in Df.
    eapply D_eq. { unfold Rdiv at 1. apply D_mult; [apply D_mult; [apply D_const|exact Df]|apply D_const]. }
    rewrite (dot_comm (ys_n Y) _ vzero).
    replace (dot (ys_n Y) vzero _) with 0 by (symmetry; apply dot_zero_l). rewrite dot_zero_l.
    replace (dot 6 (fun i => 3 / 2 * ys_ds Y (s t) vzero T i / eta T) vs) with (dot 6 (fun i => ys_ds Y (s t) vzero T i * (3 / 2 / eta T)) vs)
      by (apply dot_ext; intros i Hi; unfold Rdiv; ring).
    rewrite dot_scal_l. unfold Rdiv. ring.
  - intros T s a t vs va Hs Ha HP. cbn [pv pds pda vf_g LinearViscous vf_n] in *.
    destruct (HY T) as [_ [H2 _]]. eapply path_ext. apply (H2 s (fun _ => vzero) t vs vzero Hs (path_const _ _ _) HP).
    intros i Hi. unfold vadd. cbv beta. f_equal. unfold mv at 2. cbn [rsum].
    unfold mv. rewrite (rsum_ext _ _ (fun _ => 0)), rsum_0; [reflexivity|intros; unfold vzero; ring].
  - apply zero_part_exact.
  - apply zero_part_exact.
  - apply zero_part_exact.
  - apply zero_part_exact.
  - apply zero_part_exact.
Qed.

Lemma chaboche_flow_exact Y H F n pre V P Q Ph Pt PT : make_chaboche Y H F n pre = Some V -> surface_exact P Y ->
  na_q_exact Q H -> na_h_exact Ph H -> na_time_exact Pt H -> na_temp_exact PT H -> fluid_exact F -> (1 <= na_n H)%nat ->
  vflow_exact (fun T s a => P T s (na_q H a T) /\ Q T a /\ Ph T s a /\ Pt T s a /\ PT T s a /\
    ys_f Y s (na_q H a T) T <> 0 /\ 0 < fl_eta F (a 0%nat) T) V.
Proof.
  unfold make_chaboche. destruct (Nat.eqb_spec (ys_n Y) (na_ninter H)) as [E|]; [|discriminate].
  intros HV HY HQ HH Ht HT HF Hn. injection HV as <-.
  vsplit.
  - intros T s a t vs va Hs Ha (HP & HQq & _ & _ & _ & Hf & Heta). cbn [vf_y vf_ys vf_ya ChabocheFlow vf_n] in *.
    destruct (HY T) as [H1 _]. rewrite E in *.
    pose proof (chain_grad _ _ (P T) (Q T) _ _ _ _ _ H1 (HQ T) s a t vs va Hs Ha (conj HP HQq)) as Df.
    cbv beta in Df.
    assert (De : is_derive (fun u => sqrt (2 / 3) * fl_eta F (a u 0%nat) T) t (sqrt (2 / 3) * (fl_deta F (a t 0%nat) T * va 0%nat))).
    { eapply D_eq. apply D_mult; [apply D_const|]. apply (D_comp (fun x => fl_eta F x T) (fun u => a u 0%nat) t (va 0%nat) (fl_deta F (a t 0%nat) T)).
      apply Ha; lia. apply HF. cbv beta. ring. }
    assert (H23 : 0 < sqrt (2 / 3)) by (apply sqrt_lt_R0; lra).
    assert (He : 0 < sqrt (2 / 3) * fl_eta F (a t 0%nat) T) by (apply Rmult_lt_0_compat; assumption).
    destruct (Rlt_dec 0 (ys_f Y (s t) (na_q H (a t) T) T)) as [L|L].
    + eapply D_eq. eapply (D_loc' (fun u => sqrt (3 / 2) * cpow (ys_f Y (s u) (na_q H (a u) T) T / (sqrt (2 / 3) * fl_eta F (a u 0%nat) T)) (n T) * pre T)).
      { apply D_mult; [apply D_mult; [apply D_const|apply (D_cpow (fun u => ys_f Y (s u) (na_q H (a u) T) T / (sqrt (2 / 3) * fl_eta F (a u 0%nat) T))); [apply D_div; [exact Df|exact De|lra]|]]|apply D_const].
        cbv beta. apply Rdiv_lt_0_compat; assumption. }
      { pose proof (loc_gt _ _ _ 0 Df L) as LL. revert LL. apply filter_imp. intros u Hu. cbv beta in *.
        destruct (Rlt_dec 0 _); [|lra]. reflexivity. }
      cbv beta. set (m := sqrt (3 / 2) * cpow _ (n T - 1) * n T / _ * pre T).
      set (m2 := - sqrt (3 / 2) * _ * _ * n T / _ * pre T).
      rewrite (dot_ext (na_n H) (fun i => mtv (na_ninter H) (na_dq H (a t) T) (ys_dq Y (s t) (na_q H (a t) T) T) i * m + (if Nat.eqb i 0 then sqrt (2 / 3) * fl_deta F (a t 0%nat) T * m2 else 0))
         (fun i => mtv (na_ninter H) (na_dq H (a t) T) (ys_dq Y (s t) (na_q H (a t) T) T) i * m + sqrt (2 / 3) * fl_deta F (a t 0%nat) T * m2 * delta 0 i) va va);
        [| |intros i Hi; reflexivity].
      2:{ intros i Hi. unfold delta. rewrite (Nat.eqb_sym i 0). destruct (Nat.eqb 0 i); ring. }
      rewrite !dot_scal_l.
      replace (dot (na_n H) (fun i => mtv (na_ninter H) (na_dq H (a t) T) (ys_dq Y (s t) (na_q H (a t) T) T) i * m + sqrt (2 / 3) * fl_deta F (a t 0%nat) T * m2 * delta 0 i) va)
        with (dot (na_n H) (mtv (na_ninter H) (na_dq H (a t) T) (ys_dq Y (s t) (na_q H (a t) T) T)) va * m + sqrt (2 / 3) * fl_deta F (a t 0%nat) T * m2 * va 0%nat).
      2:{ unfold dot. rewrite <- (rsum_delta (na_n H) 0 va) by lia. rewrite <- rsum_scal, <- rsum_scal_r, <- rsum_plus. apply rsum_ext. intros. ring. }
      unfold m, m2. field. lra.
    + eapply D_eq. eapply (D_loc' (fun u => 0)). apply D_const.
      { assert (L' : ys_f Y (s t) (na_q H (a t) T) T < 0) by lra.
        pose proof (loc_lt _ _ _ 0 Df L') as LL. revert LL. apply filter_imp. intros u Hu. cbv beta in *.
        destruct (Rlt_dec 0 _); [lra|]. reflexivity. }
      rewrite !dot_zero_l. ring.
  - intros T s a t vs va Hs Ha (HP & HQq & _). cbn [pv pds pda vf_g ChabocheFlow vf_n] in *.
    destruct (HY T) as [_ [H2 _]]. rewrite E in *.
    exact (chain_jac _ _ _ (P T) (Q T) _ _ _ _ _ H2 (HQ T) s a t vs va Hs Ha (conj HP HQq)).
  - apply zero_part_exact.
  - apply zero_part_exact.
  - intros T s a t vs va Hs Ha (HP & HQq & Hp & _). apply (HH T s a t vs va Hs Ha Hp).
  - intros T s a t vs va Hs Ha (HP & HQq & _ & Hp & _). apply (Ht T s a t vs va Hs Ha Hp).
  - intros T s a t vs va Hs Ha (HP & HQq & _ & _ & Hp & _). apply (HT T s a t vs va Hs Ha Hp).
Qed.

(** *** superposition *)
Lemma path_split n m a t va : path (n + m) a t va -> path n a t va /\ path m (fun u => drop n (a u)) t (drop n va).
Proof. intros H. split; intros i Hi; unfold drop; apply H; lia. Qed.
Lemma rsum_cat n m (f g v : nat -> R) :
  rsum (n + m) (fun j => (if Nat.ltb j n then f j else g (j - n)%nat) * v j) = rsum n (fun j => f j * v j) + rsum m (fun j => g j * drop n v j).
Proof.
  rewrite rsum_app. f_equal.
  - apply rsum_ext. intros j Hj. rewrite ltb_t by assumption. reflexivity.
  - apply rsum_ext. intros j Hj. rewrite ltb_f by lia. replace (n + j - n)%nat with j by lia. reflexivity.
Qed.
Lemma rsum_first n m (f v : nat -> R) :
  rsum (n + m) (fun j => (if Nat.ltb j n then f j else 0) * v j) = rsum n (fun j => f j * v j).
Proof.
  rewrite (rsum_cat n m f (fun _ => 0)). rewrite (rsum_ext m _ (fun _ => 0)), rsum_0; [ring|intros; ring].
Qed.
Lemma rsum_second n m (g v : nat -> R) :
  rsum (n + m) (fun j => (if Nat.ltb j n then 0 else g (j - n)%nat) * v j) = rsum m (fun j => g j * drop n v j).
Proof.
  rewrite (rsum_cat n m (fun _ => 0) g). rewrite (rsum_ext n _ (fun _ => 0)), rsum_0; [ring|intros; ring].
Qed.

Definition rules_exact (rs : list (vflow * (R -> vec -> vec -> Prop))) : Prop := forall r P, In (r, P) rs -> vflow_exact P r.
Lemma sp_y_grad rs : rules_exact rs -> forall T, is_grad2 6 (sp_n (map fst rs)) (all_dom rs T)
  (fun s a => sp_y (map fst rs) s a T) (fun s a => sp_ys (map fst rs) s a T) (fun s a => sp_ya (map fst rs) s a T).
Proof.
  induction rs as [|[r P] l IH]; intros HR T s a t vs va Hs Ha HD; cbn [map fst sp_n sp_y sp_ys sp_ya all_dom] in *.
  - eapply D_eq. apply D_const. rewrite dot_zero_l. unfold dot. cbn. ring.
  - destruct HD as [HP HD]. destruct (path_split _ _ _ _ _ Ha) as [Ha1 Ha2].
    destruct (HR r P (or_introl eq_refl)) as [Hy _].
    assert (HR' : rules_exact l) by (intros r' P' Hin; apply (HR r' P'); right; exact Hin).
    eapply D_eq. apply D_plus. apply (Hy T s a t vs va Hs Ha1 HP).
    apply (IH HR' T s _ t vs _ Hs Ha2 HD).
    unfold dot. rewrite rsum_cat.
    rewrite (rsum_ext 6 (fun i => (_ + _) * vs i) (fun i => vf_ys r (s t) (a t) T i * vs i + sp_ys (map fst l) (s t) (drop (vf_n r) (a t)) T i * vs i)) by (intros; ring).
    rewrite rsum_plus. ring.
Qed.
Lemma sp_num_jac sel rs : rules_exact rs -> (forall r P, In (r, P) rs -> part_exact 6 (vf_n r) P (sel r)) ->
  forall T, is_jac2 6 6 (sp_n (map fst rs)) (all_dom rs T)
  (fun s a => sp_num sel (map fst rs) s a T) (fun s a => sp_nums sel (map fst rs) s a T) (fun s a => sp_numa sel (map fst rs) s a T).
Proof.
  induction rs as [|[r P] l IH]; intros HR HS T s a t vs va Hs Ha HD i Hi; cbn [map fst sp_n sp_num sp_nums sp_numa all_dom] in *.
  - eapply D_eq. apply D_const. unfold vadd, mv. rewrite (rsum_ext 6 _ (fun _ => 0)), rsum_0; [cbn; ring|intros; ring].
  - destruct HD as [HP HD]. destruct (path_split _ _ _ _ _ Ha) as [Ha1 Ha2].
    destruct (HR r P (or_introl eq_refl)) as [Hy _].
    pose proof (HS r P (or_introl eq_refl) T s a t vs va Hs Ha1 HP i Hi) as Hg.
    assert (HR' : rules_exact l) by (intros r' P' Hin; apply (HR r' P'); right; exact Hin).
    assert (HS' : forall r P, In (r, P) l -> part_exact 6 (vf_n r) P (sel r)) by (intros r' P' Hin; apply (HS r' P'); right; exact Hin).
    eapply D_eq. apply D_plus. apply D_mult. apply (Hy T s a t vs va Hs Ha1 HP). exact Hg.
    apply (IH HR' HS' T s _ t vs _ Hs Ha2 HD i Hi).
    unfold vadd, mv, dot.
    rewrite (rsum_cat (vf_n r) _ (fun j => vf_y r (s t) (a t) T * pda (sel r) (s t) (a t) T i j + pv (sel r) (s t) (a t) T i * vf_ya r (s t) (a t) T j)
       (fun j => sp_numa sel (map fst l) (s t) (drop (vf_n r) (a t)) T i j)).
    rewrite (rsum_ext 6 (fun j => (_ + _ + _) * vs j) (fun j => vf_y r (s t) (a t) T * (pds (sel r) (s t) (a t) T i j * vs j) + pv (sel r) (s t) (a t) T i * (vf_ys r (s t) (a t) T j * vs j) + sp_nums sel (map fst l) (s t) (drop (vf_n r) (a t)) T i j * vs j)) by (intros; ring).
    rewrite (rsum_ext (vf_n r) (fun j => (_ + _) * va j) (fun j => vf_y r (s t) (a t) T * (pda (sel r) (s t) (a t) T i j * va j) + pv (sel r) (s t) (a t) T i * (vf_ya r (s t) (a t) T j * va j))) by (intros; ring).
    rewrite !rsum_plus, !rsum_scal. ring.
Qed.
Lemma mv_div_pos n (A : mat) (b : vec) y c v i : 0 < y ->
  mv n (fun i j => div_pos y (A i j) - div_pos y (div_pos y c) * b j) v i = mv n A v i / y - c / y / y * dot n b v.
Proof.
  intros Hy. unfold div_pos. destruct (Rlt_dec 0 y); [|lra]. unfold mv, dot, Rdiv.
  rewrite <- rsum_scal, <- rsum_scal_r, <- rsum_minus. apply rsum_ext. intros. ring.
Qed.
Lemma sp_avg_exact sel rs : rules_exact rs -> (forall r P, In (r, P) rs -> part_exact 6 (vf_n r) P (sel r)) ->
  part_exact 6 (sp_n (map fst rs)) (fun T s a => all_dom rs T s a /\ 0 < sp_y (map fst rs) s a T) (sp_avg sel (map fst rs)).
Proof.
  intros HR HS T s a t vs va Hs Ha [HD Hy] i Hi. cbn [pv pds pda sp_avg].
  pose proof (sp_y_grad rs HR T s a t vs va Hs Ha HD) as Dy.
  pose proof (sp_num_jac sel rs HR HS T s a t vs va Hs Ha HD i Hi) as Dn. cbv beta in Dy, Dn.
  eapply D_eq. eapply (D_loc' (fun u => sp_num sel (map fst rs) (s u) (a u) T i / sp_y (map fst rs) (s u) (a u) T)).
  { apply D_div; [exact Dn|exact Dy|lra]. }
  { pose proof (loc_gt _ _ _ 0 Dy Hy) as LL. revert LL. apply filter_imp. intros u Hu. cbv beta in *.
    unfold div_pos. destruct (Rlt_dec 0 _); [reflexivity|lra]. }
  cbv zeta. unfold vadd.
  pose proof (mv_div_pos 6 (sp_nums sel (map fst rs) (s t) (a t) T) (sp_ys (map fst rs) (s t) (a t) T) _ (sp_num sel (map fst rs) (s t) (a t) T i) vs i Hy) as E1.
  pose proof (mv_div_pos (sp_n (map fst rs)) (sp_numa sel (map fst rs) (s t) (a t) T) (sp_ya (map fst rs) (s t) (a t) T) _ (sp_num sel (map fst rs) (s t) (a t) T i) va i Hy) as E2.
  unfold mv in E1, E2 |- *. cbv beta in E1, E2 |- *. rewrite E1, E2. field. lra.
Qed.
Lemma sp_cat_exact sel rs : (forall r P, In (r, P) rs -> part_exact (vf_n r) (vf_n r) P (sel r)) ->
  part_exact (sp_n (map fst rs)) (sp_n (map fst rs)) (all_dom rs) (sp_blocks sel (map fst rs)).
Proof.
  induction rs as [|[r P] l IH]; intros HS T s a t vs va Hs Ha HD i Hi; cbn [map fst sp_n sp_blocks pv pds pda sp_cat sp_cats sp_cata all_dom] in *; [lia|].
  destruct HD as [HP HD]. destruct (path_split _ _ _ _ _ Ha) as [Ha1 Ha2].
  assert (HS' : forall r P, In (r, P) l -> part_exact (vf_n r) (vf_n r) P (sel r)) by (intros r' P' Hin; apply (HS r' P'); right; exact Hin).
  unfold vadd, mv. destruct (Nat.ltb_spec i (vf_n r)) as [L|L].
  - eapply D_eq. apply (HS r P (or_introl eq_refl) T s a t vs va Hs Ha1 HP i L).
    rewrite rsum_first. reflexivity.
  - eapply D_eq. apply (IH HS' T s _ t vs _ Hs Ha2 HD (i - vf_n r)%nat ltac:(lia)).
    cbn [sp_blocks pv pds pda]. unfold vadd, mv.
    rewrite (rsum_second (vf_n r) _ (fun j => sp_cata sel (map fst l) (s t) (drop (vf_n r) (a t)) T (i - vf_n r)%nat j)). reflexivity.
Qed.
Lemma part_weaken k n (P P' : R -> vec -> vec -> Prop) p : (forall T s a, P' T s a -> P T s a) -> part_exact k n P p -> part_exact k n P' p.
Proof. intros H E T s a t vs va Hs Ha HP. apply E; [assumption|assumption|apply H; exact HP]. Qed.
Lemma superimposed_exact rs : rules_exact rs ->
  vflow_exact (fun T s a => all_dom rs T s a /\ 0 < sp_y (map fst rs) s a T) (Superimposed (map fst rs)).
Proof.
  intros HR. vsplit.
  - intros T s a t vs va Hs Ha [HD _]. apply (sp_y_grad rs HR T); assumption.
  - apply sp_avg_exact; [exact HR|]. intros r P Hin. apply (HR r P Hin).
  - apply sp_avg_exact; [exact HR|]. intros r P Hin. apply (HR r P Hin).
  - apply sp_avg_exact; [exact HR|]. intros r P Hin. apply (HR r P Hin).
  - eapply part_weaken; [|apply sp_cat_exact]. intros T s a HH; exact (proj1 HH). intros r P Hin. apply (HR r P Hin).
  - eapply part_weaken; [|apply sp_cat_exact]. intros T s a HH; exact (proj1 HH). intros r P Hin. apply (HR r P Hin).
  - eapply part_weaken; [|apply sp_cat_exact]. intros T s a HH; exact (proj1 HH). intros r P Hin. apply (HR r P Hin).
Qed.
