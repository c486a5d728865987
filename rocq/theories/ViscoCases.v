From Verif Require Import Base.
From Verif Require Import Diff.
From Verif Require Import NemlMathModel NemlMathSpec NemlMathProofs InterpModel.
From Verif Require Import SolverModel SubstepModel SubstepSpec SurfModel SurfSpec SurfProofs HardModel HardSpec HardProofs RiProofs.
From Verif Require Import PlastModel PlastSpec PlastProofs PlastEx ViscoModel ViscoSpec ViscoProofs YaguchiProofs ViscoMore.

(** *** restriction of the domain *)
Lemma vflow_weaken (P P' : R -> vec -> vec -> Prop) V : (forall T s a, P' T s a -> P T s a) -> vflow_exact P V -> vflow_exact P' V.
Proof.
  intros W (H1 & H2 & H3 & H4 & H5 & H6 & H7). vsplit; try (eapply part_weaken; eassumption).
  intros T s a t vs va Hs Ha HP. apply H1; auto.
Qed.
Lemma j2_perzyna s0 Rv d n eta V : (forall T, 0 < eta T) ->
  make_perzyna IsoJ2 (VoceIso s0 Rv d) (GPowerLaw n eta) = Some V ->
  vflow_exact (fun T s a => iso_domain T s a /\ norm2 6 (dev_vec s) <> sqrt (2 / 3) * (s0 T + Rv T * (1 - exp (- d T * a 0%nat)))) V.
Proof.
  intros He HV. refine (vflow_weaken _ _ V _ (perzyna_exact _ _ _ _ _ _ HV isoj2_exact (voce_exact s0 Rv d))).
  intros T s a [H1 H2]. split; [exact H1|]. split; [exact I|]. split; [|apply gpower_exact, He].
  cbn [ys_f IsoJ2 IsoFunction IsoKinJ2]. unfold j2_f. 
  rewrite (norm2_ext 6 _ (dev_vec s)) by (intros i Hi; unfold rel, vadd, tail1, expand_hist; cbn; ring).
  cbn [expand_hist hr_q VoceIso scalar_rule]. intros E. apply H2. lra.
Qed.
Lemma j2_chaboche iso p F n pre V Q : hr_n iso = 1%nat -> hard_exact Q iso -> (forall i, gamma_exact (ch_g p i)) ->
  fluid_exact F -> (forall a T, 0 < fl_eta F a T) -> make_chaboche IsoKinJ2 (Chaboche iso p) F n pre = Some V ->
  vflow_exact (fun T s a => Q T a /\ ch_domain (ch_nb p) T s a /\ ch_time_domain p T s a /\
    ys_f IsoKinJ2 s (na_q (Chaboche iso p) a T) T <> 0) V.
Proof.
  intros Hn Hi Hg HF Hp HV.
  assert (L : (1 <= na_n (Chaboche iso p))%nat) by (cbn; lia).
  refine (vflow_weaken _ _ V _ (chaboche_flow_exact _ _ _ _ _ _ _ _ _ _ _ HV j2_exact (chaboche_q iso p Q Hn Hi) (chaboche_h iso p Hg) (chaboche_time iso p) (chaboche_temp iso p) HF L)).
  intros T s a (H1 & H2 & H3 & H4). exact (conj (dom_qx p T s a H2) (conj H1 (conj H2 (conj H3 (conj I (conj H4 (Hp _ _))))))).
Qed.
Lemma visco_case d n eta V : (forall T, 0 < eta T) ->
  make_perzyna IsoJ2 (VoceIso (fun _ => 0) (fun _ => 0) d) (GPowerLaw n eta) = Some V ->
  gflow_exact (fun T s a _ => iso_domain T s a /\ norm2 6 (dev_vec s) <> 0) (TVP (fun _ => delta) V 1) /\
  iso_domain 0 (vlist [0; 0; 0; 1]) vzero.
Proof.
  intros He HV. split.
  - apply tvp_exact. refine (vflow_weaken _ _ V _ (j2_perzyna _ _ _ _ _ _ He HV)). intros T s a [A B]. split; [exact A|]. intros E. apply B. rewrite E. ring.
  - unfold iso_domain. replace (norm2 6 (dev_vec (vlist [0; 0; 0; 1]))) with 1; [pose proof eps_lt_1; lra|].
    unfold norm2. symmetry. replace (dot 6 _ _) with (1 * 1) by (unfold dot, dev_vec; cbn; lra). apply sqrt_square. lra.
Qed.

(** *** Yaguchi: trace of the backstresses *)
Lemma tr_y v : tr2 (usym v) = v 0%nat + v 1%nat + v 2%nat.
Proof. reflexivity. Qed.
Lemma yaguchi_deviatoric p s a T y : tr2 (usym (yX1 a)) = 0 -> tr2 (usym (yX2 a)) = 0 ->
  let rate := fun i => pv (vf_h (Yaguchi p)) s a T i * y + pv (vf_ht (Yaguchi p)) s a T i in
  tr2 (usym (yX1 rate)) = 0 /\ tr2 (usym (yX2 rate)) = 0.
Proof.
  intros H1 H2 rate. rewrite tr_y in H1, H2. rewrite !tr_y. unfold rate, yX1, yX2 in *. cbn [Nat.add] in *. cbn [vf_h vf_ht pv Yaguchi].
  assert (D : y_dir s a 0%nat + y_dir s a 1%nat + y_dir s a 2%nat = 0).
  { unfold y_dir, dev_vec. cbn [Nat.ltb Nat.leb]. unfold Rdiv. set (iJ := / yJ2 _). field. }
  unfold y_h, y_ht. cbn [Nat.ltb Nat.leb Nat.sub].
  set (c1 := cpow (yJ2 (yX1 a)) (ym p T - 1)). set (c2 := cpow (yJ2 (yX2 a)) (ym p T - 1)).
  set (d0 := y_dir s a 0%nat) in *. set (d1 := y_dir s a 1%nat) in *. set (d2 := y_dir s a 2%nat) in *.
  replace d2 with (- d0 - d1) by lra. replace (a 2%nat) with (- a 0%nat - a 1%nat) by lra. replace (a 8%nat) with (- a 6%nat - a 7%nat) by lra.
  split; ring.
Qed.
Definition yconst : yparams :=
  {| yD := fun _ => 1; yn := fun _ => 1; ya10 := fun _ => 0; yC2 := fun _ => 0; ya2 := fun _ => 0; yg1 := fun _ => 1; yg2 := fun _ => 0; ym := fun _ => 3;
     ybr := fun _ => 0; ybh := fun _ => 0; yA := fun _ => 0; yB := fun _ => 0; yd := fun _ => 0; yq := fun _ => 0; yC1 := fun _ => 0 |}.
Lemma yJ2_sh (d : vec) x : (forall i, (i < 6)%nat -> d i = shv x i) -> yJ2 d = sqrt (3 / 2) * Rabs x.
Proof.
  intros H. unfold yJ2. replace (dot 6 (dev_vec d) (dev_vec d)) with (Rsqr x).
  - rewrite sqrt_mult by (try lra; apply Rle_0_sqr). rewrite sqrt_Rsqr_abs. reflexivity.
  - unfold dot, dev_vec, Rsqr. cbn [rsum Nat.ltb Nat.leb]. rewrite !H by lia. cbn [shv]. field.
Qed.
Lemma s32 : 0 < sqrt (3 / 2).
Proof. apply sqrt_lt_R0. lra. Qed.
Lemma cpow_2 x : 0 < x -> cpow x (3 - 1) = x * x.
Proof. intros H. rewrite cpow_pos by exact H. replace (3 - 1) with (1 + 1) by ring. rewrite Rpower_plus, Rpower_1 by exact H. reflexivity. Qed.
Lemma yaguchi_nondev : exists p T s a,
  yD p T <> 0 /\ 0 < yJ2 (y_dS s a) /\ y_over p s a T <> 0 /\ 0 < yJ2 (yX1 a) /\ 0 < yJ2 (yX2 a) /\ tr2 (usym (yX2 a)) = 0 /\
  ~ is_derive (fun x => pv (vf_ht (Yaguchi p)) s (fun i => if Nat.eqb i 0 then x else a i) T 0%nat) (a 0%nat)
      (pda (vf_ht (Yaguchi p)) s a T 0%nat 0%nat).
Proof.
  set (a := vlist [1; 0; 0; 0; 0; 0; 0; 0; 0; 1]). set (s := vlist [1; 0; 0; 3]).
  pose proof s32 as S.
  assert (JS : yJ2 (y_dS s a) = sqrt (3 / 2) * 2).
  { rewrite (yJ2_sh _ 2); [rewrite Rabs_pos_eq by lra; reflexivity|]. intros i Hi. unfold y_dS, yX1, yX2, s, a. do 6 (destruct i as [|i]; [cbn; lra|]). lia. }
  assert (J1 : forall x, 0 < x -> yJ2 (yX1 (fun i => if Nat.eqb i 0 then x else a i)) = x).
  { intros x Hx. unfold yJ2. replace (3 / 2 * dot 6 _ _) with (x * x) by (unfold dot, dev_vec, yX1, a; cbn; field). apply sqrt_square. lra. }
  assert (E1 : yX1 a = yX1 (fun i => if Nat.eqb i 0 then 1 else a i)).
  { apply FunctionalExtensionality.functional_extensionality. intros [|i]; reflexivity. }
  assert (J10 : yJ2 (yX1 a) = 1) by (rewrite E1; apply J1; lra).
  exists yconst, 0, s, a. split; [cbn; lra|]. split; [lra|]. split.
  { unfold y_over. rewrite JS. cbn. lra. }
  split; [lra|]. split.
  { rewrite (yJ2_sh _ 1); [rewrite Rabs_pos_eq by lra; lra|]. intros i Hi. unfold yX2, a. do 6 (destruct i as [|i]; [cbn; lra|]). lia. }
  split; [unfold tr2, a; cbn; lra|].
  intros D.
  assert (D' : is_derive (fun x => - (x * x * x)) 1 (pda (vf_ht (Yaguchi yconst)) s a 0 0%nat 0%nat)).
  { refine (D_loc' _ _ _ _ D _). exists (mkposreal 1 Rlt_0_1). intros u Hu. change (Rabs (u + - 1) < 1) in Hu. apply Rabs_def2 in Hu.
    cbn [vf_ht Yaguchi pv]. unfold y_ht. cbn [Nat.ltb Nat.leb Nat.eqb yg1 ym yconst]. rewrite J1, cpow_2 by lra. ring. }
  assert (D2 : is_derive (fun x => - (x * x * x)) 1 (-3)). { clear D D'. eapply D_eq; [dall|cbv beta; ring]. }
  pose proof (is_derive_unique _ _ _ D') as U1. pose proof (is_derive_unique _ _ _ D2) as U2. rewrite U1 in U2.
  cbn [vf_ht Yaguchi pda] in U2. unfold y_hta, y_rec in U2. cbn [Nat.ltb Nat.leb Nat.eqb yg1 ym yconst] in U2. rewrite J10 in U2.
  rewrite !cpow_pos in U2 by lra. unfold Rpower in U2. rewrite ln_1, !Rmult_0_r, exp_0 in U2.
  unfold dev_vec, dev_vec_deriv, yX1, a in U2. cbn in U2. lra.
Qed.

(** Grade 91 at 800 K *)
Lemma gr91_case : exists s a, y_domain gr91 800 s a /\ 0 < y_y gr91 s a 800.
Proof.
  pose proof s32 as S.
  assert (HD : 0 < yD gr91 800). { cbn [yD gr91]. apply cpow_pos_pos. lra. }
  set (D := yD gr91 800) in *.
  set (x := (D + 1) / sqrt (3 / 2)).
  assert (Hx : 0 < x) by (apply Rdiv_lt_0_compat; lra).
  set (a := fun i : nat => match i with 3%nat => 1 | 9%nat => 1 | 13%nat => 1 | _ => 0 end).
  set (s := shv (x + 2)).
  assert (JS : yJ2 (y_dS s a) = D + 1).
  { rewrite (yJ2_sh _ x). rewrite Rabs_pos_eq by lra. unfold x. field. lra.
    intros i Hi. unfold y_dS, yX1, yX2, s, a. do 6 (destruct i as [|i]; [cbn; lra|]). lia. }
  assert (O1 : y_over gr91 s a 800 = 1). { unfold y_over. rewrite JS. fold D. cbn [a]. field. lra. }
  assert (Y1 : y_y gr91 s a 800 = 1). { unfold y_y. rewrite O1. destruct (Rlt_dec 0 1); [|lra]. rewrite Rabs_R1. rewrite cpow_pos by lra. unfold Rpower. rewrite ln_1, Rmult_0_r, exp_0. reflexivity. }
  assert (SA : y_sas gr91 s a 800 = yA gr91 800). { unfold y_sas. rewrite Y1. unfold log10. rewrite ln_1. unfold Rdiv. ring. }
  assert (A8 : yA gr91 800 < 0). { cbn [yA gr91]. unfold three. destruct (Rlt_dec 800 673); [lra|]. destruct (Rlt_dec 800 823); lra. }
  assert (X1 : yJ2 (yX1 a) = sqrt (3 / 2) * 1). { rewrite (yJ2_sh _ 1). rewrite Rabs_pos_eq by lra. reflexivity. intros i Hi. do 6 (destruct i as [|i]; [cbn; lra|]). lia. }
  assert (X2 : yJ2 (yX2 a) = sqrt (3 / 2) * 1). { rewrite (yJ2_sh _ 1). rewrite Rabs_pos_eq by lra. reflexivity. intros i Hi. do 6 (destruct i as [|i]; [cbn; lra|]). lia. }
  exists s, a. split; [|lra]. unfold y_domain. rewrite JS, O1, Y1, SA, X1, X2. fold D. unfold log_tol.
  repeat split; try lra; try (cbn [a]; lra); unfold tr2, a; cbn; lra.
Qed.

(** *** the viscoplastic step *)
Lemma mv_scale_l n (A : mat) v k i : k * mv n A v i = mv n A (fun j => k * v j) i.
Proof. unfold mv. rewrite <- rsum_scal. apply rsum_ext. intros; ring. Qed.
Lemma visco_step lsolve inv prm C V limit skip next past st st' A E : (1 <= miter prm)%Z ->
  update_step lsolve inv prm (GenIntegrator C (TVP C V limit) skip) next past st = Some (st', A, E) ->
  eps <= ld_t next - ld_t past ->
  let T := ld_T next in let dt := ld_t next - ld_t past in let dT := ld_T next - ld_T past in
  let s' := ps_s st' in let a' := ps_h st' in
  vf_y V s' a' T <= limit /\
  exists r, within_tolerance prm (6 + vf_n V) r (gi_R (TVP C V limit) next past st (sb_init (GenIntegrator C (TVP C V limit) skip) next past st)) /\
    (forall i, (i < 6)%nat -> s' i = ps_s st i
       + mv 6 (C T) (fun j => (ld_e next j - ld_e past j)
           - (dt * vf_y V s' a' T * pv (vf_g V) s' a' T j + dT * pv (vf_gT V) s' a' T j + dt * pv (vf_gt V) s' a' T j)) i + r i) /\
    (forall i, (i < vf_n V)%nat -> a' i = ps_h st i
       + (dt * vf_y V s' a' T * pv (vf_h V) s' a' T i + dT * pv (vf_hT V) s' a' T i + dt * pv (vf_ht V) s' a' T i) + r (6 + i)%nat).
Proof.
  intros Hm HS Hdt T dt dT s' a'. pose proof eps_pos.
  destruct (gi_step_eqs _ _ _ _ _ _ _ _ _ _ _ _ Hm HS Hdt) as (HT & r & Hr & H1 & H2).
  cbn [gf_throws TVP] in HT. split. { unfold s', a', T. destruct (Rlt_dec limit _); [discriminate|lra]. }
  exists r. split; [exact Hr|]. fold T dt s' a' in H1, H2. cbn [gf_s gf_a gf_n TVP] in H1, H2. split.
  - intros i Hi. rewrite H1 by exact Hi. f_equal. f_equal. rewrite mv_scale_l. apply mv_vec_ext. intros j Hj. unfold dT, T. fold dt. field. unfold dt; lra.
  - intros i Hi. rewrite H2 by exact Hi. f_equal. f_equal. unfold dT, T. fold dt. field. unfold dt; lra.
Qed.
Lemma visco_strain lsolve inv prm C S V limit skip next past st st' A E : (1 <= miter prm)%Z ->
  update_step lsolve inv prm (GenIntegrator C (TVP C V limit) skip) next past st = Some (st', A, E) ->
  eps <= ld_t next - ld_t past -> ld_T next = ld_T past -> left_inverse 6 (S (ld_T next)) (C (ld_T next)) ->
  let T := ld_T next in let dt := ld_t next - ld_t past in
  exists r, within_tolerance prm (6 + vf_n V) r (gi_R (TVP C V limit) next past st (sb_init (GenIntegrator C (TVP C V limit) skip) next past st)) /\
    forall i, (i < 6)%nat -> plastic_strain S next (ps_s st') i = plastic_strain S past (ps_s st) i
      + dt * (vf_y V (ps_s st') (ps_h st') T * pv (vf_g V) (ps_s st') (ps_h st') T i + pv (vf_gt V) (ps_s st') (ps_h st') T i)
      - mv 6 (S T) r i.
Proof.
  intros Hm HS Hdt HT HL T dt. destruct (visco_step _ _ _ _ _ _ _ _ _ _ _ _ _ Hm HS Hdt) as (_ & r & Hr & H1 & _).
  exists r. split; [exact Hr|]. intros i Hi. unfold plastic_strain. rewrite <- HT. fold T. fold T in H1.
  set (y := fun j => _ - (_ + _ + _)) in H1.
  rewrite (mv_vec_ext 6 (S T) (ps_s st') (vadd (vadd (ps_s st) (mv 6 (C T) y)) r) i) by (intros k Hk; rewrite H1 by exact Hk; reflexivity).
  assert (I6 : mv 6 (mm 6 (S T) (C T)) y i = y i).
  { unfold mv. rewrite (rsum_ext 6 _ (fun j => delta i j * y j)) by (intros j Hj; unfold T; rewrite HL by assumption; reflexivity). apply rsum_delta, Hi. }
  rewrite !mv_vadd, <- mv_mm, I6. unfold y. fold dt. replace (ld_T past) with T by exact HT. ring.
Qed.
Lemma visco_elastic lsolve inv prm Y H G V C limit skip next past st st' A E : (1 <= miter prm)%Z -> make_perzyna Y H G = Some V ->
  update_step lsolve inv prm (GenIntegrator C (TVP C V limit) skip) next past st = Some (st', A, E) ->
  eps <= ld_t next - ld_t past -> ys_f Y (ps_s st') (hr_q H (ps_h st') (ld_T next)) (ld_T next) <= 0 ->
  exists r, within_tolerance prm (6 + vf_n V) r (gi_R (TVP C V limit) next past st (sb_init (GenIntegrator C (TVP C V limit) skip) next past st)) /\
    (forall i, (i < 6)%nat -> ps_s st' i = ps_s st i + mv 6 (C (ld_T next)) (fun j => ld_e next j - ld_e past j) i + r i) /\
    (forall i, (i < vf_n V)%nat -> ps_h st' i = ps_h st i + r (6 + i)%nat).
Proof.
  intros Hm HV HS Hdt Hf. destruct (visco_step _ _ _ _ _ _ _ _ _ _ _ _ _ Hm HS Hdt) as (_ & r & Hr & H1 & H2).
  exists r. split; [exact Hr|].
  assert (Z : vf_y V (ps_s st') (ps_h st') (ld_T next) = 0 /\ vf_gT V = zero_part /\ vf_gt V = zero_part /\ vf_hT V = zero_part /\ vf_ht V = zero_part).
  { unfold make_perzyna in HV. destruct (Nat.eqb (ys_n Y) (hr_n H)); [|discriminate]. injection HV as <-. cbn [vf_y vf_gT vf_gt vf_hT vf_ht Perzyna].
    destruct (Rlt_dec 0 _); [lra|]. repeat split; reflexivity. }
  destruct Z as (Z & Z1 & Z2 & Z3 & Z4). split.
  - intros i Hi. rewrite H1 by exact Hi. f_equal. f_equal. apply mv_vec_ext. intros j Hj. rewrite Z, Z1, Z2. cbn [pv zero_part]. ring.
  - intros i Hi. rewrite H2 by exact Hi. rewrite Z, Z3, Z4. cbn [pv zero_part]. ring.
Qed.
Lemma visco_step_case : exists lsolve inv prm V next past st r, (1 <= miter prm)%Z /\ eps <= ld_t next - ld_t past /\
  make_perzyna IsoJ2 (VoceIso (fun _ => 1) (fun _ => 0) (fun _ => 0)) (GPowerLaw (fun _ => 1) (fun _ => 1)) = Some V /\
  update_step lsolve inv prm (GenIntegrator (fun _ => delta) (TVP (fun _ => delta) V 10) false) next past st = Some r.
Proof.
  pose proof s23. pose proof eps_lt_1.
  set (M := GenIntegrator (fun _ => delta) (TVP (fun _ => delta) perz1 10) false).
  set (x := sb_init M (ld (1 / 4) 1) (ld 0 0) (stt 0 0)).
  assert (Sx : forall i, (i < 6)%nat -> x i = shv (1 / 4) i).
  { intros i Hi. unfold x, M. cbn [sb_init GenIntegrator gf_guess TVP vf_guess perz1 Perzyna]. rewrite (ltb_t i 6 Hi). unfold gi_s_guess. rewrite Bool.andb_false_r.
    unfold vadd. change (fun _ : R => delta) with Cid. change delta with (Cid (ld_T (ld (1 / 4) 1))). rewrite mv_Cid by exact Hi. unfold de, vsub. do 6 (destruct i as [|i]; [cbn; lra|]). lia. }
  assert (Y0 : vf_y perz1 x (hist_of x) 0 = 0).
  { cbn [vf_y perz1 Perzyna]. destruct (Rlt_dec 0 _) as [L|L]; [|reflexivity]. exfalso.
    replace (ys_f IsoJ2 x _ 0) with (ys_f IsoJ2 (shv (1 / 4)) (hr_q (VoceIso (fun _ => 1) (fun _ => 0) (fun _ => 0)) (hist_of x) 0) 0) in L.
    - rewrite perz1_f in L. rewrite Rabs_pos_eq in L by lra.
      assert (1 / 2 < sqrt (2 / 3)). { rewrite <- (sqrt_square (1 / 2)) by lra. apply sqrt_lt_1; lra. } lra.
    - cbn [ys_f IsoJ2 IsoFunction IsoKinJ2]. unfold j2_f. f_equal. apply norm2_ext. intros i Hi. unfold rel, vadd, dev_vec. rewrite !Sx by lia. reflexivity. }
  assert (RJ : sb_RJ M (ld (1 / 4) 1) (ld 0 0) (stt 0 0) x = Some (gi_R (TVP (fun _ => delta) perz1 10) (ld (1 / 4) 1) (ld 0 0) (stt 0 0) x, gi_J (TVP (fun _ => delta) perz1 10) (ld (1 / 4) 1) (ld 0 0) x)).
  { cbn [sb_RJ M GenIntegrator gf_throws TVP]. change (ld_T (ld (1 / 4) 1)) with 0. rewrite Y0. destruct (Rlt_dec 10 0); [lra|reflexivity]. }
  assert (N0 : norm2 7 (gi_R (TVP (fun _ => delta) perz1 10) (ld (1 / 4) 1) (ld 0 0) (stt 0 0) x) = 0).
  { rewrite (norm2_ext 7 _ (fun _ => 0)).
    - unfold norm2. rewrite dot_zero. apply sqrt_0.
    - intros i Hi. unfold gi_R, gi_edot, gi_Tdot, gi_dt. cbn [ld ld_t ld_T ld_e]. destruct (Rlt_dec 0 (1 - 0)) as [_|N]; [|lra].
      destruct (Nat.lt_ge_cases i 6) as [L|G].
      + rewrite (ltb_t i 6 L). cbn [gf_s TVP]. rewrite Y0. change delta with (Cid 0). rewrite mv_Cid by exact L. rewrite Sx by exact L.
        cbn [vf_gT vf_gt perz1 Perzyna zero_part pv stt ps_s]. do 6 (destruct i as [|i]; [cbn; lra|]). lia.
      + rewrite (ltb_f i 6 G). replace (i - 6)%nat with 0%nat by lia. replace i with 6%nat by lia. cbn [gf_a TVP]. rewrite Y0.
        cbn [vf_hT vf_ht perz1 Perzyna zero_part pv stt ps_h]. unfold x, M. cbn. unfold vzero. ring. }
  exists (fun _ _ => None), (fun _ J => Some J), {| rtol := 0; atol := 1; miter := 5; linesearch := false |}, perz1, (ld (1 / 4) 1), (ld 0 0), (stt 0 0).
  eexists. split; [cbn; lia|]. split; [cbn; lra|]. split; [reflexivity|].
  unfold update_step. fold M.
  assert (NE : sb_elastic M (ld (1 / 4) 1) (ld 0 0) (stt 0 0) = false). { cbn [sb_elastic M GenIntegrator]. unfold gi_dt. cbn [ld ld_t]. destruct (Rlt_dec _ eps); [lra|reflexivity]. }
  rewrite NE.
  unfold newton. cbn [sys_RJ sys_init vec_sys]. fold x. rewrite RJ. cbn [newton_loop Z.to_nat]. cbn [sys_norm vec_sys fst]. change (sb_np M) with 7%nat. rewrite N0.
  unfold conv_test. cbn [flt atol]. destruct (Rlt_dec 0 1) as [_|N]; [|lra]. cbn [orb Z.eqb miter]. reflexivity.
Qed.
