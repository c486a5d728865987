From Verif Require Import Base.
From Verif Require Import Diff.
From Verif Require Import NemlMathModel NemlMathSpec InterpModel InterpSpec SolverModel SolverSpec SolverProofs SubstepModel SubstepSpec SubstepProofs.
From Verif Require Import SurfModel SurfSpec SurfProofs HardModel HardSpec HardProofs RiModel RiSpec RiProofs PlastModel PlastSpec.

Lemma ltb_t i n : (i < n)%nat -> Nat.ltb i n = true.
Proof. intros. apply Nat.ltb_lt. assumption. Qed.
Lemma ltb_f i n : (n <= i)%nat -> Nat.ltb i n = false.
Proof. intros. apply Nat.ltb_ge. assumption. Qed.

(** state with the given stress and history *)
Definition mkst (s h : vec) (u p : R) : pst := {| ps_s := s; ps_h := h; ps_u := u; ps_p := p |}.

Lemma D_mv6 (C : mat) (y : R -> vec) t vy i : path 6 y t vy -> is_derive (fun u => mv 6 C (y u) i) t (mv 6 C vy i).
Proof.
  intros H. unfold mv. apply (D_rsum 6 (fun u k => C i k * y u k)). intros k Hk.
  eapply D_eq; [apply D_mult; [apply D_const | apply H; exact Hk]|]. cbv beta. ring.
Qed.
Lemma path_mv6 (C : mat) (y : R -> vec) t vy n : path 6 y t vy -> path n (fun u => mv 6 C (y u)) t (mv 6 C vy).
Proof. intros H i Hi. apply D_mv6, H. Qed.
Lemma path_vsub n (a b : R -> vec) t va vb : path n a t va -> path n b t vb -> path n (fun u => vsub (a u) (b u)) t (vsub va vb).
Proof. intros Ha Hb i Hi. apply D_minus; auto. Qed.
Lemma path_vadd n (a b : R -> vec) t va vb : path n a t va -> path n b t vb -> path n (fun u => vadd (a u) (b u)) t (vadd va vb).
Proof. intros Ha Hb i Hi. apply D_plus; auto. Qed.
Lemma path_const n (k : vec) t : path n (fun _ => k) t vzero.
Proof. intros i Hi. apply D_const. Qed.
Lemma path_hist n (x : R -> vec) t v : path (6 + n) x t v -> path n (fun u => hist_of (x u)) t (hist_of v).
Proof. intros H i Hi. apply H. lia. Qed.

Lemma rsum_blocks n f : rsum (6 + n + 1) f = rsum 6 f + rsum n (fun j => f (6 + j)%nat) + f (6 + n)%nat.
Proof. rewrite (rsum_app (6 + n) 1), (rsum_app 6 n). change (rsum 1 (fun i => f (6 + n + i)%nat)) with (0 + f (6 + n + 0)%nat). rewrite Nat.add_0_r. cbv beta. ring. Qed.
Lemma mv_blocks n (A : mat) v i : mv (6 + n + 1) A v i =
  mv 6 A v i + mv n (fun a b => A a (6 + b)%nat) (hist_of v) i + A i (6 + n)%nat * v (6 + n)%nat.
Proof. unfold mv. rewrite rsum_blocks. reflexivity. Qed.
Lemma mv_blocks2 n (A : mat) v i : mv (6 + n) A v i =
  mv 6 A v i + mv n (fun a b => A a (6 + b)%nat) (hist_of v) i.
Proof. unfold mv. rewrite rsum_app. reflexivity. Qed.
Lemma mv_lin n (A : mat) (a b : vec) k i : mv n A (fun j => a j + k * b j) i = mv n A a i + k * mv n A b i.
Proof. unfold mv. rewrite <- rsum_scal, <- rsum_plus. apply rsum_ext. intros; ring. Qed.
Lemma mv_scale n (A : mat) v k i : mv n (fun a b => A a b * k) v i = k * mv n A v i.
Proof. unfold mv. rewrite <- rsum_scal. apply rsum_ext. intros; ring. Qed.
Lemma mv_plus_delta n (A : mat) v i : (i < n)%nat -> mv n (fun a b => A a b + delta a b) v i = mv n A v i + v i.
Proof.
  intros Hi. unfold mv. rewrite (rsum_ext n _ (fun j => A i j * v j + delta i j * v j)) by (intros; ring).
  rewrite rsum_plus, rsum_delta by assumption. reflexivity.
Qed.
Lemma mv_vec_ext n (A : mat) v w i : veq n v w -> mv n A v i = mv n A w i.
Proof. intros H. unfold mv. apply rsum_ext. intros j Hj. rewrite H by assumption. reflexivity. Qed.
Lemma mv_opp n (A : mat) v i : mv n (fun a b => - A a b) v i = - mv n A v i.
Proof. unfold mv. rewrite <- rsum_opp. apply rsum_ext. intros; ring. Qed.
Lemma mv_vadd n (A : mat) a b i : mv n A (vadd a b) i = mv n A a i + mv n A b i.
Proof. unfold mv, vadd. rewrite <- rsum_plus. apply rsum_ext. intros; ring. Qed.
Lemma mv_vsub n (A : mat) a b i : mv n A (vsub a b) i = mv n A a i - mv n A b i.
Proof. unfold mv, vsub. rewrite <- rsum_minus. apply rsum_ext. intros; ring. Qed.
Lemma delta_add k i j : delta (k + i) (k + j) = delta i j.
Proof. unfold delta. destruct (Nat.eqb_spec i j) as [->|N]; [rewrite Nat.eqb_refl; reflexivity|].
  destruct (Nat.eqb_spec (k + i) (k + j)); [lia|reflexivity]. Qed.

Lemma D_dg (g : R -> vec) (dg : R -> R) t vg vd n : path n g t vg -> is_derive dg t vd ->
  path n (fun u k => g u k * dg u) t (fun k => vg k * dg t + g t k * vd).
Proof. intros Hg Hd k Hk. apply D_mult; [apply Hg; exact Hk | exact Hd]. Qed.

(** derivative of the rate independent residual in everything it depends on *)
Definition rip_in (Ce Se : R -> mat) nh (next past : load) (ve1 ve0 vs0 vh0 : vec) : vec := fun i =>
  if Nat.ltb i 6 then mv 6 (Ce (ld_T next)) (fun k => ve1 k - ve0 k + mv 6 (Se (ld_T past)) vs0 k) i
  else if Nat.ltb i (6 + nh) then vh0 (i - 6)%nat else 0.

Lemma rip_path Ce Se F P next past : flow_exact P F -> forall x e1 e0 s0 h0 t vx ve1 ve0 vs0 vh0,
  path (6 + rf_n F + 1) x t vx -> path 6 e1 t ve1 -> path 6 e0 t ve0 -> path 6 s0 t vs0 -> path (rf_n F) h0 t vh0 ->
  P (ld_T next) (x t) (hist_of (x t)) ->
  path (6 + rf_n F + 1) (fun u => rip_R Ce Se F (set_e next (e1 u)) (set_e past (e0 u)) (mkst (s0 u) (h0 u) 0 0) (x u)) t
    (vsub (mv (6 + rf_n F + 1) (rip_J Ce F next (x t)) vx) (rip_in Ce Se (rf_n F) next past ve1 ve0 vs0 vh0)).
Proof.
  intros HF x e1 e0 s0 h0 t vx ve1 ve0 vs0 vh0 Hx He1 He0 Hs0 Hh0 HP i Hi.
  set (nh := rf_n F) in *. set (T := ld_T next) in *.
  destruct (HF T) as [Hf [Hg Hh]]. fold nh in Hf, Hg, Hh.
  assert (Hxs : path 6 x t vx) by (apply (path_le 6 (6 + nh + 1)); [lia | exact Hx]).
  assert (Hxa : path nh (fun u => hist_of (x u)) t (hist_of vx)).
  { apply path_hist. apply (path_le (6 + nh) (6 + nh + 1)); [lia | exact Hx]. }
  assert (Hdg : is_derive (fun u => x u (6 + nh)%nat) t (vx (6 + nh)%nat)) by (apply Hx; lia).
  specialize (Hf x (fun u => hist_of (x u)) t vx (hist_of vx) Hxs Hxa HP).
  specialize (Hg x (fun u => hist_of (x u)) t vx (hist_of vx) Hxs Hxa HP).
  specialize (Hh x (fun u => hist_of (x u)) t vx (hist_of vx) Hxs Hxa HP).
  cbv beta in Hf, Hg, Hh.
  unfold rip_R, set_e, mkst, inel. cbn [ld_e ld_T ld_t ps_s ps_h]. fold nh. fold T. cbv zeta.
  destruct (Nat.lt_ge_cases i 6) as [L6|G6].
  - unfold vsub at 2. rewrite mv_blocks. unfold rip_in. rewrite (ltb_t i 6 L6).
    apply (D_ext (fun u => x u i - mv 6 (Ce T) (vsub (vsub (e1 u) (vsub (e0 u) (mv 6 (Se (ld_T past)) (s0 u)))) (fun k => rf_g F (x u) (hist_of (x u)) T k * x u (6 + nh)%nat)) i)).
    { intros u. reflexivity. }
    eapply D_eq.
    + apply D_minus; [apply Hxs; exact L6|]. apply D_mv6. apply path_vsub; [|exact (D_dg _ _ _ _ _ 6 Hg Hdg)].
      apply path_vsub; [exact He1|]. apply path_vsub; [exact He0|]. apply path_mv6, Hs0.
    + rewrite (mv_ext 6 (rip_J Ce F next (x t)) (fun a b => mm 6 (Ce T) (rf_gs F (x t) (hist_of (x t)) T) a b * x t (6 + nh)%nat + delta a b)).
      2:{ intros j Hj. unfold rip_J. rewrite (ltb_t i 6 L6), (ltb_t j 6 Hj). reflexivity. }
      rewrite mv_plus_delta, mv_scale by exact L6.
      rewrite (mv_ext nh (fun a b => rip_J Ce F next (x t) a (6 + b)%nat) (fun a b => mm 6 (Ce T) (rf_ga F (x t) (hist_of (x t)) T) a b * x t (6 + nh)%nat)).
      2:{ intros j Hj. unfold rip_J. rewrite (ltb_t i 6 L6), (ltb_f (6 + j) 6) by lia. fold nh. rewrite (ltb_t (6 + j) (6 + nh)) by lia.
          replace (6 + j - 6)%nat with j by lia. reflexivity. }
      rewrite mv_scale. rewrite !mv_mm.
      replace (rip_J Ce F next (x t) i (6 + nh)%nat) with (mv 6 (Ce T) (rf_g F (x t) (hist_of (x t)) T) i).
      2:{ unfold rip_J. fold nh. rewrite (ltb_t i 6 L6), (ltb_f (6 + nh) 6), (ltb_f (6 + nh) (6 + nh)) by lia. reflexivity. }
      rewrite mv_vsub.
      rewrite (mv_vec_ext 6 (Ce T) (fun k => vadd (mv 6 (rf_gs F (x t) (hist_of (x t)) T) vx) (mv nh (rf_ga F (x t) (hist_of (x t)) T) (hist_of vx)) k * x t (6 + nh)%nat + rf_g F (x t) (hist_of (x t)) T k * vx (6 + nh)%nat)
        (vadd (fun k => 0 + x t (6 + nh)%nat * vadd (mv 6 (rf_gs F (x t) (hist_of (x t)) T) vx) (mv nh (rf_ga F (x t) (hist_of (x t)) T) (hist_of vx)) k)
              (fun k => 0 + vx (6 + nh)%nat * rf_g F (x t) (hist_of (x t)) T k))) by (intros k Hk; unfold vadd; ring).
      rewrite mv_vadd, !(mv_lin 6 (Ce T) (fun _ => 0)), mv_vadd.
      assert (Z : mv 6 (Ce T) (fun _ => 0) i = 0) by (unfold mv; rewrite (rsum_ext 6 _ (fun _ => 0)) by (intros; ring); apply rsum_0).
      rewrite Z. fold T.
      rewrite (mv_vec_ext 6 (Ce T) (fun k => ve1 k - ve0 k + mv 6 (Se (ld_T past)) vs0 k) (vsub ve1 (vsub ve0 (mv 6 (Se (ld_T past)) vs0)))) by (intros k Hk; unfold vsub; ring).
      ring.
  - destruct (Nat.lt_ge_cases i (6 + nh)) as [Ln|Gn].
    + assert (Hi6 : (i - 6 < nh)%nat) by lia.
      unfold vsub. rewrite mv_blocks. unfold rip_in. rewrite (ltb_f i 6 G6), (ltb_t i (6 + nh) Ln).
      eapply D_eq.
      * apply D_minus; [apply D_minus; [apply Hx; exact Hi | apply Hh0; exact Hi6]|].
        apply D_mult; [apply (Hh (i - 6)%nat Hi6) | exact Hdg].
      * cbv beta.
        rewrite (mv_ext 6 (rip_J Ce F next (x t)) (fun a b => (- rf_hs F (x t) (hist_of (x t)) T (i - 6)%nat b) * x t (6 + nh)%nat)).
        2:{ intros j Hj. unfold rip_J. fold nh. rewrite (ltb_f i 6 G6), (ltb_t i (6 + nh) Ln), (ltb_t j 6 Hj). fold T. ring. }
        rewrite mv_scale.
        change (mv 6 (fun _ b : nat => - rf_hs F (x t) (hist_of (x t)) T (i - 6)%nat b) vx i) with
               (mv 6 (fun a b : nat => - rf_hs F (x t) (hist_of (x t)) T a b) vx (i - 6)%nat). rewrite mv_opp.
        transitivity (vx i - vh0 (i - 6)%nat - (mv 6 (rf_hs F (x t) (hist_of (x t)) T) vx (i - 6)%nat + mv nh (rf_ha F (x t) (hist_of (x t)) T) (hist_of vx) (i - 6)%nat) * x t (6 + nh)%nat - rf_h F (x t) (hist_of (x t)) T (i - 6)%nat * vx (6 + nh)%nat).
        { unfold vadd. fold T. ring. }
        assert (M : mv nh (fun a b => rip_J Ce F next (x t) a (6 + b)%nat) (hist_of vx) i =
                    - (x t (6 + nh)%nat * mv nh (rf_ha F (x t) (hist_of (x t)) T) (hist_of vx) (i - 6)%nat) + vx i).
        { rewrite (mv_ext nh (fun a b => rip_J Ce F next (x t) a (6 + b)%nat) (fun a b => - (rf_ha F (x t) (hist_of (x t)) T (i - 6)%nat b * x t (6 + nh)%nat) + delta (i - 6) b)).
          2:{ intros j Hj. unfold rip_J. fold nh. rewrite (ltb_f i 6 G6), (ltb_t i (6 + nh) Ln), (ltb_f (6 + j) 6), (ltb_t (6 + j) (6 + nh)) by lia.
              replace (6 + j - 6)%nat with j by lia. replace (delta i (6 + j)) with (delta (i - 6) j). fold T. ring.
              rewrite <- (delta_add 6 (i - 6) j). f_equal. lia. }
          change (mv nh (fun _ b : nat => - (rf_ha F (x t) (hist_of (x t)) T (i - 6)%nat b * x t (6 + nh)%nat) + delta (i - 6) b) (hist_of vx) i) with
                 (mv nh (fun a b : nat => - (rf_ha F (x t) (hist_of (x t)) T a b * x t (6 + nh)%nat) + delta a b) (hist_of vx) (i - 6)%nat).
          rewrite (mv_plus_delta nh (fun a b => - (rf_ha F (x t) (hist_of (x t)) T a b * x t (6 + nh)%nat))) by exact Hi6.
          rewrite (mv_opp nh (fun a b => rf_ha F (x t) (hist_of (x t)) T a b * x t (6 + nh)%nat)), mv_scale. change (hist_of vx (i - 6)%nat) with (vx (6 + (i - 6))%nat). replace (6 + (i - 6))%nat with i by lia. reflexivity. }
        rewrite M.
        replace (rip_J Ce F next (x t) i (6 + nh)%nat) with (- rf_h F (x t) (hist_of (x t)) T (i - 6)%nat).
        2:{ unfold rip_J. fold nh. rewrite (ltb_f i 6 G6), (ltb_t i (6 + nh) Ln), (ltb_f (6 + nh) 6), (ltb_f (6 + nh) (6 + nh)) by lia. reflexivity. }
        ring.
    + assert (E : i = (6 + nh)%nat) by lia. unfold vsub. rewrite mv_blocks. unfold rip_in. rewrite (ltb_f i 6 G6), (ltb_f i (6 + nh) Gn).
      eapply D_eq; [exact Hf|]. fold T.
      replace (mv 6 (rip_J Ce F next (x t)) vx i) with (dot 6 (rf_fs F (x t) (hist_of (x t)) T) vx).
      2:{ unfold mv, dot. apply rsum_ext. intros j Hj. unfold rip_J. fold nh. rewrite (ltb_f i 6 G6), (ltb_f i (6 + nh) Gn), (ltb_t j 6 Hj). reflexivity. }
      replace (mv nh (fun a b => rip_J Ce F next (x t) a (6 + b)%nat) (hist_of vx) i) with (dot nh (rf_fa F (x t) (hist_of (x t)) T) (hist_of vx)).
      2:{ unfold mv, dot. apply rsum_ext. intros j Hj. unfold rip_J. fold nh. rewrite (ltb_f i 6 G6), (ltb_f i (6 + nh) Gn), (ltb_f (6 + j) 6), (ltb_t (6 + j) (6 + nh)) by lia.
          replace (6 + j - 6)%nat with j by lia. reflexivity. }
      replace (rip_J Ce F next (x t) i (6 + nh)%nat) with 0.
      2:{ unfold rip_J. fold nh. rewrite (ltb_f i 6 G6), (ltb_f i (6 + nh) Gn), (ltb_f (6 + nh) 6), (ltb_f (6 + nh) (6 + nh)) by lia. reflexivity. }
      ring.
Qed.

(** perfect plasticity is the case without internal variables *)
Definition ppflow (Y : surface) (ys : R -> R) : riflow :=
  {| rf_n := 0;
     rf_f := fun s a T => ys_f Y s (fun _ => - ys T) T; rf_fs := fun s a T => ys_ds Y s (fun _ => - ys T) T; rf_fa := fun s a T => vzero;
     rf_g := fun s a T => ys_ds Y s (fun _ => - ys T) T; rf_gs := fun s a T => ys_dss Y s (fun _ => - ys T) T; rf_ga := fun s a T _ _ => 0;
     rf_h := fun s a T => vzero; rf_hs := fun s a T _ _ => 0; rf_ha := fun s a T _ _ => 0 |}.
Lemma ppflow_exact P Y ys : surface_exact P Y -> flow_exact (fun T s a => P T s (fun _ => - ys T)) (ppflow Y ys).
Proof.
  intros H T. destruct (H T) as [H1 [H2 _]]. split; [|split].
  - intros s a t vs va Hs Ha HP. eapply D_eq; [exact (H1 s (fun _ _ => - ys T) t vs vzero Hs (path_const _ _ _) HP)|].
    simpl. f_equal. unfold dot. simpl. rewrite (rsum_ext _ _ (fun _ => 0)); [apply rsum_0|]. intros; unfold vzero; ring.
  - intros s a t vs va Hs Ha HP. eapply path_ext; [exact (H2 s (fun _ _ => - ys T) t vs vzero Hs (path_const _ _ _) HP)|].
    intros i Hi. simpl. unfold vadd. f_equal. unfold mv. simpl. rewrite (rsum_ext _ _ (fun _ => 0)); [apply rsum_0|]. intros; unfold vzero; ring.
  - intros s a t vs va Hs Ha HP i Hi. simpl in Hi. lia.
Qed.
Lemma pp_R_rip Ce Se Y ys next past st x : veq 7 (pp_R Ce Se Y ys next past st x) (rip_R Ce Se (ppflow Y ys) next past st x).
Proof.
  intros i Hi. unfold pp_R, rip_R. cbn [rf_n ppflow Nat.add]. destruct (Nat.ltb i 6) eqn:E; reflexivity.
Qed.
Lemma pp_J_rip Ce Y ys next x i j : (i < 7)%nat -> (j < 7)%nat -> pp_J Ce Y ys next x i j = rip_J Ce (ppflow Y ys) next x i j.
Proof.
  intros Hi Hj. unfold pp_J, rip_J. cbn [rf_n ppflow Nat.add]. destruct (Nat.ltb i 6) eqn:E; destruct (Nat.ltb j 6) eqn:E'; try reflexivity.
Qed.

Lemma pp_path Ce Se Y ys P next past : surface_exact P Y -> forall x e1 e0 s0 t vx ve1 ve0 vs0,
  path 7 x t vx -> path 6 e1 t ve1 -> path 6 e0 t ve0 -> path 6 s0 t vs0 ->
  P (ld_T next) (x t) (fun _ => - ys (ld_T next)) ->
  path 7 (fun u => pp_R Ce Se Y ys (set_e next (e1 u)) (set_e past (e0 u)) (mkst (s0 u) vzero 0 0) (x u)) t
    (vsub (mv 7 (pp_J Ce Y ys next (x t)) vx) (rip_in Ce Se 0 next past ve1 ve0 vs0 vzero)).
Proof.
  intros HY x e1 e0 s0 t vx ve1 ve0 vs0 Hx H1 H0 Hs HP i Hi.
  pose proof (rip_path Ce Se (ppflow Y ys) _ next past (ppflow_exact P Y ys HY) x e1 e0 s0 (fun _ => vzero) t vx ve1 ve0 vs0 vzero Hx H1 H0 Hs (path_const _ _ _) HP i Hi) as D.
  apply (D_ext (fun u => rip_R Ce Se (ppflow Y ys) (set_e next (e1 u)) (set_e past (e0 u)) (mkst (s0 u) vzero 0 0) (x u) i)).
  - intros u. symmetry. apply pp_R_rip, Hi.
  - eapply D_eq; [exact D|]. unfold vsub. f_equal. apply mv_ext. intros j Hj. symmetry. apply pp_J_rip; assumption.
Qed.

Definition gi_in (G : gflow) (next past : load) (x ve1 ve0 vs0 vh0 : vec) : vec := fun i =>
  if Nat.ltb i 6 then vs0 i + mv 6 (gf_se G x (hist_of x) (gi_edot next past) (ld_T next) (gi_Tdot next past)) (vsub ve1 ve0) i
  else vh0 (i - 6)%nat + mv 6 (gf_ae G x (hist_of x) (gi_edot next past) (ld_T next) (gi_Tdot next past)) (vsub ve1 ve0) (i - 6)%nat.

Lemma gi_path G P next past : gflow_exact P G -> 0 < gi_dt next past -> forall x e1 e0 s0 h0 t vx ve1 ve0 vs0 vh0,
  path (6 + gf_n G) x t vx -> path 6 e1 t ve1 -> path 6 e0 t ve0 -> path 6 s0 t vs0 -> path (gf_n G) h0 t vh0 ->
  P (ld_T next) (x t) (hist_of (x t)) (gi_edot (set_e next (e1 t)) (set_e past (e0 t))) ->
  path (6 + gf_n G) (fun u => gi_R G (set_e next (e1 u)) (set_e past (e0 u)) (mkst (s0 u) (h0 u) 0 0) (x u)) t
    (vsub (mv (6 + gf_n G) (gi_J G (set_e next (e1 t)) (set_e past (e0 t)) (x t)) vx)
          (gi_in G (set_e next (e1 t)) (set_e past (e0 t)) (x t) ve1 ve0 vs0 vh0)).
Proof.
  intros HG Hdt x e1 e0 s0 h0 t vx ve1 ve0 vs0 vh0 Hx He1 He0 Hs0 Hh0 HP i Hi.
  set (nh := gf_n G) in *. set (T := ld_T next) in *. set (dt := gi_dt next past) in *. set (Td := gi_Tdot next past).
  assert (Hxs : path 6 x t vx) by (apply (path_le 6 (6 + nh)); [lia | exact Hx]).
  assert (Hxa : path nh (fun u => hist_of (x u)) t (hist_of vx)) by (apply path_hist; exact Hx).
  set (ed := fun u => gi_edot (set_e next (e1 u)) (set_e past (e0 u))).
  assert (Hed : path 6 ed t (fun k => (ve1 k - ve0 k) / dt)).
  { intros k Hk. apply (D_ext (fun u => (e1 u k - e0 u k) / dt)).
    - intros u. unfold ed, gi_edot. change (gi_dt (set_e next (e1 u)) (set_e past (e0 u))) with dt. destruct (Rlt_dec 0 dt); [reflexivity|contradiction].
    - eapply D_eq; [apply D_div; [apply D_minus; [apply He1, Hk | apply He0, Hk] | apply D_const | lra]|]. cbv beta. field. lra. }
  destruct (HG T Td x (fun u => hist_of (x u)) ed t vx (hist_of vx) _ Hxs Hxa Hed HP) as [DS DA]. fold nh in DS, DA.
  set (s := x t) in *. set (a := hist_of s) in *.
  assert (Sc : forall M k, mv 6 M (fun k => (ve1 k - ve0 k) / dt) k * dt = mv 6 M (vsub ve1 ve0) k).
  { intros M k. unfold mv. rewrite <- rsum_scal_r. apply rsum_ext. intros j _. unfold vsub. field. lra. }
  unfold gi_R. cbv zeta. change (gi_Tdot (set_e next (e1 t)) (set_e past (e0 t))) with Td.
  destruct (Nat.lt_ge_cases i 6) as [L|Ge].
  - rewrite (ltb_t i 6 L).
    apply (D_ext (fun u => x u i - s0 u i - gf_s G (x u) (hist_of (x u)) (ed u) T Td i * dt)); [intros u; reflexivity|].
    eapply D_eq; [apply D_minus; [apply D_minus; [apply Hxs, L | apply Hs0, L] | apply D_mult; [apply (DS i L) | apply D_const]]|]. cbv beta.
    unfold vsub at 1. rewrite mv_blocks2. unfold gi_in, gi_J. rewrite (ltb_t i 6 L).
    change (gi_Tdot (set_e next (e1 t)) (set_e past (e0 t))) with Td. change (gi_dt (set_e next (e1 t)) (set_e past (e0 t))) with dt.
    change (gi_edot (set_e next (e1 t)) (set_e past (e0 t))) with (ed t). change (ld_T (set_e next (e1 t))) with T.
    rewrite (mv_ext 6 _ (fun p q => (- gf_ss G s a (ed t) T Td p q) * dt + delta p q)).
    2:{ intros j Hj. rewrite (ltb_t i 6 L), (ltb_t j 6 Hj). fold a. ring. }
    rewrite mv_plus_delta, mv_scale, mv_opp by exact L.
    rewrite (mv_ext nh _ (fun p q => (- gf_sa G s a (ed t) T Td p q) * dt)).
    2:{ intros j Hj. rewrite (ltb_t i 6 L), (ltb_f (6 + j) 6) by lia. replace (6 + j - 6)%nat with j by lia. reflexivity. }
    rewrite mv_scale, mv_opp. unfold vadd. rewrite <- (Sc _ i). fold a. ring.
  - assert (Hi6 : (i - 6 < nh)%nat) by lia. rewrite (ltb_f i 6 Ge).
    apply (D_ext (fun u => x u i - h0 u (i - 6)%nat - gf_a G (x u) (hist_of (x u)) (ed u) T Td (i - 6)%nat * dt)); [intros u; reflexivity|].
    eapply D_eq; [apply D_minus; [apply D_minus; [apply Hx; exact Hi | apply Hh0, Hi6] | apply D_mult; [apply (DA _ Hi6) | apply D_const]]|]. cbv beta.
    unfold vsub at 1. rewrite mv_blocks2. unfold gi_in, gi_J. rewrite (ltb_f i 6 Ge).
    change (gi_Tdot (set_e next (e1 t)) (set_e past (e0 t))) with Td. change (gi_dt (set_e next (e1 t)) (set_e past (e0 t))) with dt.
    change (gi_edot (set_e next (e1 t)) (set_e past (e0 t))) with (ed t). change (ld_T (set_e next (e1 t))) with T.
    rewrite (mv_ext 6 _ (fun p q => (- gf_as G s a (ed t) T Td (p - 6)%nat q) * dt)).
    2:{ intros j Hj. rewrite (ltb_f i 6 Ge), (ltb_t j 6 Hj). fold a. ring. }
    rewrite mv_scale.
    change (mv 6 (fun p q => - gf_as G s a (ed t) T Td (p - 6)%nat q) vx i) with (mv 6 (fun p q => - gf_as G s a (ed t) T Td p q) vx (i - 6)%nat).
    rewrite mv_opp.
    rewrite (mv_ext nh _ (fun p q => (- gf_aa G s a (ed t) T Td (p - 6)%nat q) * dt + delta (p - 6) q)).
    2:{ intros j Hj. rewrite (ltb_f i 6 Ge), (ltb_f (6 + j) 6) by lia. replace (6 + j - 6)%nat with j by lia.
        replace (delta i (6 + j)) with (delta (i - 6) j). fold a. ring. rewrite <- (delta_add 6 (i - 6) j). f_equal. lia. }
    change (mv nh (fun p q => (- gf_aa G s a (ed t) T Td (p - 6)%nat q) * dt + delta (p - 6) q) (hist_of vx) i) with
           (mv nh (fun p q => (- gf_aa G s a (ed t) T Td p q) * dt + delta p q) (hist_of vx) (i - 6)%nat).
    rewrite mv_plus_delta, mv_scale, mv_opp by exact Hi6.
    unfold vadd. rewrite <- (Sc _ (i - 6)%nat). fold a. change (hist_of vx (i - 6)%nat) with (vx (6 + (i - 6))%nat). replace (6 + (i - 6))%nat with i by lia. ring.
Qed.

(** C25 *)
Lemma rip_in_0 Ce Se nh next past : veq (6 + nh + 1) (rip_in Ce Se nh next past vzero vzero vzero vzero) vzero.
Proof.
  intros i Hi. unfold rip_in. destruct (Nat.ltb i 6).
  - unfold mv. rewrite (rsum_ext 6 _ (fun _ => 0)); [apply rsum_0|]. intros j Hj.
    rewrite (rsum_ext 6 _ (fun _ => 0)); [rewrite rsum_0; unfold vzero; ring|]. intros; unfold vzero; ring.
  - destruct (Nat.ltb i (6 + nh)); reflexivity.
Qed.
Lemma set_e_id l : set_e l (ld_e l) = l.
Proof. destruct l. reflexivity. Qed.
Lemma rip_jac Ce Se F P next past st : flow_exact P F ->
  is_jac (6 + rf_n F + 1) (6 + rf_n F + 1) (fun x => P (ld_T next) x (hist_of x)) (rip_R Ce Se F next past st) (rip_J Ce F next).
Proof.
  intros HF x t v Hx HP. pose proof (rip_path Ce Se F P next past HF x (fun _ => ld_e next) (fun _ => ld_e past) (fun _ => ps_s st) (fun _ => ps_h st) t v vzero vzero vzero vzero Hx (path_const _ _ _) (path_const _ _ _) (path_const _ _ _) (path_const _ _ _) HP) as D.
  cbv beta in D. rewrite !set_e_id in D. change (rip_R Ce Se F next past (mkst (ps_s st) (ps_h st) 0 0)) with (rip_R Ce Se F next past st) in D.
  eapply path_ext; [exact D|]. intros i Hi. unfold vsub. rewrite rip_in_0 by exact Hi. unfold vzero. ring.
Qed.
Lemma pp_jac Ce Se Y ys P next past st : surface_exact P Y ->
  is_jac 7 7 (fun x => P (ld_T next) x (fun _ => - ys (ld_T next))) (pp_R Ce Se Y ys next past st) (pp_J Ce Y ys next).
Proof.
  intros HF x t v Hx HP. pose proof (pp_path Ce Se Y ys P next past HF x (fun _ => ld_e next) (fun _ => ld_e past) (fun _ => ps_s st) t v vzero vzero vzero Hx (path_const _ _ _) (path_const _ _ _) (path_const _ _ _) HP) as D.
  cbv beta in D. rewrite !set_e_id in D. change (pp_R Ce Se Y ys next past (mkst (ps_s st) vzero 0 0)) with (pp_R Ce Se Y ys next past st) in D.
  eapply path_ext; [exact D|]. intros i Hi. unfold vsub. rewrite rip_in_0 by exact Hi. unfold vzero. ring.
Qed.
Lemma gi_in_0 G next past x : veq (6 + gf_n G) (gi_in G next past x vzero vzero vzero vzero) vzero.
Proof.
  intros i Hi. unfold gi_in. assert (Z : forall M k, mv 6 M (vsub vzero vzero) k = 0).
  { intros M k. unfold mv. rewrite (rsum_ext 6 _ (fun _ => 0)); [apply rsum_0|]. intros; unfold vsub, vzero; ring. }
  rewrite !Z. destruct (Nat.ltb i 6); unfold vzero; ring.
Qed.
Lemma gi_jac G P next past st : gflow_exact P G -> 0 < gi_dt next past ->
  is_jac (6 + gf_n G) (6 + gf_n G) (fun x => P (ld_T next) x (hist_of x) (gi_edot next past)) (gi_R G next past st) (gi_J G next past).
Proof.
  intros HG Hdt x t v Hx HP. pose proof (gi_path G P next past HG Hdt x (fun _ => ld_e next) (fun _ => ld_e past) (fun _ => ps_s st) (fun _ => ps_h st) t v vzero vzero vzero vzero Hx (path_const _ _ _) (path_const _ _ _) (path_const _ _ _) (path_const _ _ _)) as D.
  cbv beta in D. rewrite !set_e_id in D. specialize (D HP).
  change (gi_R G next past (mkst (ps_s st) (ps_h st) 0 0)) with (gi_R G next past st) in D.
  eapply path_ext; [exact D|]. intros i Hi. unfold vsub. rewrite gi_in_0 by exact Hi. unfold vzero. ring.
Qed.

(** what a non-elastic step returned by update_step is *)
Lemma step_newton lsolve inv prm M next past st st' A E : (1 <= miter prm)%Z ->
  update_step lsolve inv prm M next past st = Some (st', A, E) -> sb_elastic M next past st = false ->
  exists x r J r0 J0, sb_RJ M next past st x = Some (r, J) /\ sb_RJ M next past st (sb_init M next past st) = Some (r0, J0) /\
    within_tolerance prm (sb_np M) r r0 /\ inv (sb_np M) J = Some A /\ E = sb_E M next past st x /\
    st' = {| ps_s := x; ps_h := sb_h M x st; ps_u := fst (sb_work M next past st x (sb_h M x st)); ps_p := snd (sb_work M next past st x (sb_h M x st)) |}.
Proof.
  intros Hm H He. unfold update_step in H. rewrite He in H.
  destruct (newton _ prm) as [[[x [r J]] c]|] eqn:N; [|discriminate].
  destruct (inv (sb_np M) J) as [K|] eqn:I; [|discriminate]. injection H as <- <- <-.
  destruct (proj1 (@newton_iff _ _ _ _ prm x (r, J) Hm) (ex_intro _ c N)) as (k & [r0 J0] & _ & Hr & Hc).
  exists x, r, J, r0, J0. split; [exact (@reached_RJ _ _ _ _ _ _ _ _ _ Hr)|]. split.
  - clear - Hr. remember (r0, J0) as d0. induction Hr; [subst; assumption|]. auto.
  - split; [|auto]. destruct Hc as (q & Eq & Hc). cbn in Eq. injection Eq as <-. destruct Hc as [Hc|(q0 & E0 & Hn & Hc)]; [left; exact Hc|].
    cbn in E0. injection E0 as <-. right. split; assumption.
Qed.
Lemma step_elastic lsolve inv prm M next past st st' A E :
  update_step lsolve inv prm M next past st = Some (st', A, E) -> sb_elastic M next past st = true ->
  let s1 := vadd (mv 6 (sb_C M (ld_T next)) (de next past)) (ps_s st) in
  st' = {| ps_s := s1; ps_h := ps_h st; ps_u := fst (sb_work M next past st s1 (ps_h st)); ps_p := snd (sb_work M next past st s1 (ps_h st)) |} /\
  A = (fun i j => if andb (Nat.ltb i 6) (Nat.eqb i j) then 1 else 0) /\ E = (fun i j => if Nat.ltb i 6 then sb_C M (ld_T next) i j else 0).
Proof. intros H He. unfold update_step in H. rewrite He in H. injection H as <- <- <-. auto. Qed.

(** C27 *)
Lemma solved n (Rf : R -> vec) (X : R -> vec) t J vx inn K : left_inverse n K J ->
  path n Rf t (vsub (mv n J vx) inn) -> locally t (fun u => veq n (Rf u) vzero) -> veq n vx (mv n K inn).
Proof.
  intros HK HD HL i Hi.
  assert (E : veq n (mv n J vx) inn).
  { intros k Hk. specialize (HD k Hk).
    assert (Z : is_derive (fun u => Rf u k) t 0).
    { apply (D_loc (fun _ => 0)); [|apply D_const]. revert HL. apply filter_imp. intros u Hu. symmetry. apply (Hu k Hk). }
    pose proof (eq_trans (eq_sym (is_derive_unique _ _ _ HD)) (is_derive_unique _ _ _ Z)) as Q. unfold vsub in Q. lra. }
  rewrite <- (mv_vec_ext n K _ _ i E), <- mv_mm. unfold mv. rewrite (rsum_ext n _ (fun j => delta i j * vx j)).
  - symmetry. apply rsum_delta, Hi.
  - intros j Hj. rewrite HK by assumption. reflexivity.
Qed.

From Coq Require Import FunctionalExtensionality.
Lemma on_path_eq l0 l1 f l : on_path l0 l1 f l -> l = load_at l0 l1 f.
Proof.
  intros [He [HT Ht]]. destruct l as [e T tt]. unfold load_at. simpl in *. f_equal.
  - apply functional_extensionality. intros i. rewrite He. ring.
  - rewrite HT. ring.
  - rewrite Ht. ring.
Qed.
Lemma set_e_at l0 l1 f e : set_e (load_at l0 l1 f) (fun i => ld_e l0 i + f * (e i - ld_e l0 i)) = load_at l0 (set_e l1 e) f.
Proof. reflexivity. Qed.

Lemma gi_chain_tangent P Ce G skip lsolve inv prm md l0 l1 e e' t : gflow_exact P G -> (1 <= miter prm)%Z ->
  (forall n J K, inv n J = Some K -> left_inverse n K J) -> eps <= (/ 2) ^ md * (ld_t l1 - ld_t l0) -> ld_e l1 = e t -> path 6 e t e' ->
  forall f past st A fs stN AN, chain (6 + gf_n G) (update_step lsolve inv prm (GenIntegrator Ce G skip)) md l0 l1 f past st A fs stN AN ->
  forall X XN, gi_branch P G (update_step lsolve inv prm (GenIntegrator Ce G skip)) l0 l1 e t f st X fs XN ->
  path (6 + gf_n G) X t (mv 6 A e') -> path 6 XN t (mv 6 AN e').
Proof.
  intros HG Hm Hinv Hdt He1 He f past st A fs stN AN HC. induction HC as [past st A Hp | f f' past next st st' A A_inc E_inc fs stN AN k Hp Hn Hf Hk Hle Hstep HC IH]; intros X XN HB HX.
  - inversion HB; subst. apply (path_le 6 (6 + gf_n G)); [lia | exact HX].
  - inversion HB as [|? ? ? st1 A1 E1 ? X1 V1 ? ? HS HV Hxt HPx Hres HB']; subst.
    pose proof (on_path_eq _ _ _ _ Hp) as Ep. pose proof (on_path_eq _ _ _ _ Hn) as En. subst past next.
    rewrite HS in Hstep. injection Hstep as <- <- <-.
    apply (IH X1 XN HB').
    set (f' := f + (/ 2) ^ k) in *. set (next := load_at l0 l1 f') in *. set (past := load_at l0 l1 f) in *.
    assert (Hpk : 0 < (/ 2) ^ k) by (apply pow_lt; lra).
    assert (Hmd : (/ 2) ^ md <= (/ 2) ^ k).
    { replace md with (k + (md - k))%nat by lia. rewrite pow_add. assert ((/ 2) ^ (md - k) <= 1) by (rewrite <- (pow1 (md - k)); apply pow_incr; lra). nra. }
    assert (Hd : eps <= gi_dt next past).
    { unfold gi_dt, next, past, load_at, f'. simpl. pose proof eps_pos. assert (0 < (/ 2) ^ md) by (apply pow_lt; lra).
      assert (0 < ld_t l1 - ld_t l0) by nra. nra. }
    assert (Hd0 : 0 < gi_dt next past) by (pose proof eps_pos; lra).
    assert (NE : sb_elastic (GenIntegrator Ce G skip) next past st = false).
    { simpl. destruct (Rlt_dec (gi_dt next past) eps); [lra|reflexivity]. }
    destruct (step_newton lsolve inv prm _ next past st st1 A1 E1 Hm HS NE) as (x & r & J & r0 & J0 & HRJ & _ & _ & HI & HE & Hst).
    cbn [sb_RJ sb_np sb_E GenIntegrator] in HRJ, HI, HE. destruct (gf_throws G x (hist_of x) (ld_T next)); [discriminate HRJ|]. injection HRJ as Hr HJ.
    assert (Ex : x = X1 t) by (rewrite Hxt, Hst; reflexivity). subst x.
    set (ea := fun (g : R) u i => ld_e l0 i + g * (e u i - ld_e l0 i)).
    assert (Pe : forall g, path 6 (ea g) t (fun i => g * e' i)).
    { intros g i Hi. unfold ea. eapply D_eq; [apply D_plus; [apply D_const | apply D_mult; [apply D_const | apply D_minus; [apply He, Hi | apply D_const]]]|]. cbv beta. ring. }
    assert (HXs : path 6 X t (mv 6 A e')) by (apply (path_le 6 (6 + gf_n G)); [lia | exact HX]).
    assert (HXh : path (gf_n G) (fun u => hist_of (X u)) t (hist_of (mv 6 A e'))) by (apply path_hist; exact HX).
    assert (Sn : set_e next (ea f' t) = next). { unfold next, ea. rewrite <- He1. apply set_e_id. }
    assert (Sp : set_e past (ea f t) = past). { unfold past, ea. rewrite <- He1. apply set_e_id. }
    assert (HPx' : P (ld_T next) (X1 t) (hist_of (X1 t)) (gi_edot (set_e next (ea f' t)) (set_e past (ea f t)))) by (rewrite Sn, Sp; exact HPx).
    pose proof (gi_path G P next past HG Hd0 X1 (ea f') (ea f) X (fun u => hist_of (X u)) t V1 _ _ _ _ HV (Pe f') (Pe f) HXs HXh HPx') as D.
    rewrite Sn, Sp in D. rewrite <- HJ in HI.
    pose proof (solved (6 + gf_n G) _ X t _ V1 _ A1 (Hinv _ _ _ HI) D) as Q.
    assert (Q' : veq (6 + gf_n G) V1 (mv (6 + gf_n G) A1 (gi_in G next past (X1 t) (fun i => f' * e' i) (fun i => f * e' i) (mv 6 A e') (hist_of (mv 6 A e'))))).
    { apply Q. apply filter_forall. intros u. exact (Hres u). }
    clear Q D. eapply path_ext; [exact HV|]. intros i Hi. rewrite (Q' i Hi).
    rewrite mv_mm. apply mv_vec_ext. intros j Hj. unfold gi_in. rewrite HE.
    assert (Lin : forall M p, mv 6 M (vsub (fun i => f' * e' i) (fun i => f * e' i)) p = (f' - f) * mv 6 M e' p).
    { intros M p. unfold mv. rewrite <- rsum_scal. apply rsum_ext. intros; unfold vsub; ring. }
    rewrite !Lin.
    destruct (Nat.lt_ge_cases j 6) as [L|Ge].
    + rewrite (ltb_t j 6 L). unfold mv at 3. rewrite (rsum_ext 6 _ (fun k0 => A j k0 * e' k0 + (f' - f) * (gf_se G (X1 t) (hist_of (X1 t)) (gi_edot next past) (ld_T next) (gi_Tdot next past) j k0 * e' k0))).
      * rewrite rsum_plus, rsum_scal. reflexivity.
      * intros q Hq. rewrite (ltb_t j 6 L). ring.
    + rewrite (ltb_f j 6 Ge). unfold mv at 3. rewrite (rsum_ext 6 _ (fun k0 => A j k0 * e' k0 + (f' - f) * (gf_ae G (X1 t) (hist_of (X1 t)) (gi_edot next past) (ld_T next) (gi_Tdot next past) (j - 6)%nat k0 * e' k0))).
      * rewrite rsum_plus, rsum_scal. unfold hist_of at 1. replace (6 + (j - 6))%nat with j by lia. reflexivity.
      * intros q Hq. rewrite (ltb_f j 6 Ge). ring.
Qed.

Lemma tangent_first np A E i j : tangent_update np A E (fun _ _ => 0) 1 i j = mm np A E i j.
Proof. unfold tangent_update, mm. apply rsum_ext. intros; ring. Qed.

Lemma rip_one_step P Ce Se F lsolve inv prm next past st st' A E e e' t X V : flow_exact P F -> (1 <= miter prm)%Z ->
  (forall n J K, inv n J = Some K -> left_inverse n K J) ->
  update_step lsolve inv prm (RateIndependent Ce Se F) next past st = Some (st', A, E) ->
  sb_elastic (RateIndependent Ce Se F) next past st = false ->
  ld_e next = e t -> path 6 e t e' -> path (6 + rf_n F + 1) X t V -> X t = ps_s st' ->
  P (ld_T next) (X t) (hist_of (X t)) ->
  locally t (fun u => veq (6 + rf_n F + 1) (rip_R Ce Se F (set_e next (e u)) past st (X u)) vzero) ->
  path 6 X t (mv 6 (mm (6 + rf_n F + 1) A E) e').
Proof.
  intros HF Hm Hinv HS NE He1 He HX Hxt HP Hres.
  destruct (step_newton lsolve inv prm _ next past st st' A E Hm HS NE) as (x & r & J & r0 & J0 & HRJ & _ & _ & HI & HE & Hst).
  cbn [sb_RJ sb_np sb_E RateIndependent] in HRJ, HI, HE. injection HRJ as Hr HJ.
  assert (Ex : x = X t) by (rewrite Hxt, Hst; reflexivity). subst x.
  pose proof (rip_path Ce Se F P next past HF X e (fun _ => ld_e past) (fun _ => ps_s st) (fun _ => ps_h st) t V e' vzero vzero vzero HX He (path_const _ _ _) (path_const _ _ _) (path_const _ _ _) HP) as D.
  rewrite <- HJ in HI. cbv beta in D. rewrite set_e_id in D.
  assert (Q : veq (6 + rf_n F + 1) V (mv (6 + rf_n F + 1) A (rip_in Ce Se (rf_n F) next past e' vzero vzero vzero))).
  { exact (solved (6 + rf_n F + 1) _ X t _ V _ A (Hinv _ _ _ HI) D Hres). }
  intros i Hi. eapply D_eq; [apply HX; lia|]. rewrite Q by lia. rewrite mv_mm. apply mv_vec_ext. intros j Hj. rewrite HE. unfold rip_in.
  destruct (Nat.lt_ge_cases j 6) as [L|Ge].
  - rewrite (ltb_t j 6 L). rewrite (mv_ext 6 (fun i j => if Nat.ltb i 6 then Ce (ld_T next) i j else 0) (Ce (ld_T next))) by (intros; rewrite (ltb_t j 6 L); reflexivity).
    apply mv_vec_ext. intros k Hk. unfold vzero. unfold mv. rewrite (rsum_ext 6 (fun j0 => Se (ld_T past) k j0 * 0) (fun _ => 0)) by (intros; ring). rewrite rsum_0. ring.
  - rewrite (ltb_f j 6 Ge). unfold mv. rewrite (rsum_ext 6 _ (fun _ => 0)) by (intros; rewrite (ltb_f j 6 Ge); ring). rewrite rsum_0. destruct (Nat.ltb j (6 + rf_n F)); reflexivity.
Qed.

Lemma pp_one_step P Ce Se Y ys lsolve inv prm next past st st' A E e e' t X V : surface_exact P Y -> (1 <= miter prm)%Z ->
  (forall n J K, inv n J = Some K -> left_inverse n K J) ->
  update_step lsolve inv prm (PerfectPlasticity Ce Se Y ys) next past st = Some (st', A, E) ->
  sb_elastic (PerfectPlasticity Ce Se Y ys) next past st = false ->
  ld_e next = e t -> path 6 e t e' -> path 7 X t V -> X t = ps_s st' ->
  P (ld_T next) (X t) (fun _ => - ys (ld_T next)) ->
  locally t (fun u => veq 7 (pp_R Ce Se Y ys (set_e next (e u)) past st (X u)) vzero) ->
  path 6 X t (mv 6 (mm 7 A E) e').
Proof.
  intros HF Hm Hinv HS NE He1 He HX Hxt HP Hres.
  destruct (step_newton lsolve inv prm _ next past st st' A E Hm HS NE) as (x & r & J & r0 & J0 & HRJ & _ & _ & HI & HE & Hst).
  cbn [sb_RJ sb_np sb_E PerfectPlasticity] in HRJ, HI, HE. injection HRJ as Hr HJ.
  assert (Ex : x = X t) by (rewrite Hxt, Hst; reflexivity). subst x.
  pose proof (pp_path Ce Se Y ys P next past HF X e (fun _ => ld_e past) (fun _ => ps_s st) t V e' vzero vzero HX He (path_const _ _ _) (path_const _ _ _) HP) as D.
  rewrite <- HJ in HI. cbv beta in D. rewrite set_e_id in D.
  assert (Q : veq 7 V (mv 7 A (rip_in Ce Se 0 next past e' vzero vzero vzero))).
  { exact (solved 7 _ X t _ V _ A (Hinv _ _ _ HI) D Hres). }
  intros i Hi. eapply D_eq; [apply HX; lia|]. rewrite Q by lia. rewrite mv_mm. apply mv_vec_ext. intros j Hj. rewrite HE. unfold rip_in.
  destruct (Nat.lt_ge_cases j 6) as [L|Ge].
  - rewrite (ltb_t j 6 L). rewrite (mv_ext 6 (fun i j => if Nat.ltb i 6 then Ce (ld_T next) i j else 0) (Ce (ld_T next))) by (intros; rewrite (ltb_t j 6 L); reflexivity).
    apply mv_vec_ext. intros k Hk. unfold vzero. unfold mv. rewrite (rsum_ext 6 (fun j0 => Se (ld_T past) k j0 * 0) (fun _ => 0)) by (intros; ring). rewrite rsum_0. ring.
  - rewrite (ltb_f j 6 Ge). unfold mv. rewrite (rsum_ext 6 _ (fun _ => 0)) by (intros; rewrite (ltb_f j 6 Ge); ring). rewrite rsum_0. destruct (Nat.ltb j (6 + 0)); reflexivity.
Qed.

Lemma elastic_tangent lsolve inv prm M next past st st' A E (e : R -> vec) e' t : (6 <= sb_np M)%nat ->
  update_step lsolve inv prm M next past st = Some (st', A, E) -> sb_elastic M next past st = true ->
  ld_e next = e t -> path 6 e t e' ->
  forall (s : R -> vec), locally t (fun u => exists st1 A1 E1, update_step lsolve inv prm M (set_e next (e u)) past st = Some (st1, A1, E1) /\
      sb_elastic M (set_e next (e u)) past st = true /\ s u = ps_s st1) ->
  path 6 s t (mv 6 (mm (sb_np M) A E) e').
Proof.
  intros Hnp HS HE He1 He s HL i Hi.
  destruct (step_elastic _ _ _ _ _ _ _ _ _ _ HS HE) as (_ & -> & ->).
  apply (D_loc (fun u => mv 6 (sb_C M (ld_T next)) (vsub (e u) (ld_e past)) i + ps_s st i)).
  - revert HL. apply filter_imp. intros u (st1 & A1 & E1 & H1 & H2 & H3). destruct (step_elastic _ _ _ _ _ _ _ _ _ _ H1 H2) as (E2 & _). rewrite H3, E2. reflexivity.
  - eapply D_eq. { apply D_plus; [apply D_mv6; apply path_vsub; [exact He | apply path_const] | apply D_const]. }
    rewrite Rplus_0_r. transitivity (mv 6 (sb_C M (ld_T next)) e' i).
    + apply mv_vec_ext. intros k Hk. unfold vsub, vzero. ring.
    + apply mv_ext. intros j Hj. unfold mm.
      rewrite (rsum_ext (sb_np M) _ (fun k => delta i k * (if Nat.ltb k 6 then sb_C M (ld_T next) k j else 0))).
      * rewrite rsum_delta by lia. rewrite (ltb_t i 6 Hi). reflexivity.
      * intros k Hk. rewrite (ltb_t i 6 Hi). reflexivity.
Qed.

(** C26 *)
Lemma rip_step_eqs lsolve inv prm Ce Se F next past st st' A E : (1 <= miter prm)%Z ->
  update_step lsolve inv prm (RateIndependent Ce Se F) next past st = Some (st', A, E) ->
  sb_elastic (RateIndependent Ce Se F) next past st = false ->
  let M := RateIndependent Ce Se F in let T := ld_T next in
  exists dg r, within_tolerance prm (sb_np M) r (rip_R Ce Se F next past st (sb_init M next past st)) /\
    (forall i, (i < 6)%nat -> ps_s st' i =
       mv 6 (Ce T) (fun k => ld_e next k - plastic_strain Se past (ps_s st) k - dg * rf_g F (ps_s st') (ps_h st') T k) i + r i) /\
    (forall i, (i < rf_n F)%nat -> ps_h st' i = ps_h st i + dg * rf_h F (ps_s st') (ps_h st') T i + r (6 + i)%nat) /\
    rf_f F (ps_s st') (ps_h st') T = r (6 + rf_n F)%nat.
Proof.
  intros Hm HS NE M T.
  destruct (step_newton lsolve inv prm _ next past st st' A E Hm HS NE) as (x & r & J & r0 & J0 & HRJ & HRJ0 & Ht & _ & _ & Hst).
  cbn [sb_RJ RateIndependent] in HRJ, HRJ0. injection HRJ as Hr HJ. injection HRJ0 as Hr0 HJ0.
  exists (x (6 + rf_n F)%nat), r. rewrite Hst. cbn [ps_s ps_h sb_h RateIndependent]. split; [rewrite <- Hr0 in Ht; exact Ht|].
  split; [|split].
  - intros i Hi. rewrite <- Hr. unfold rip_R. rewrite (ltb_t i 6 Hi). fold T.
    match goal with |- _ = mv 6 ?C ?a i + (x i - mv 6 ?C ?b i) => rewrite (mv_vec_ext 6 C a b i) end; [ring|].
    intros k Hk. unfold plastic_strain, inel, vsub. ring.
  - intros i Hi. rewrite <- Hr. unfold rip_R. rewrite (ltb_f (6 + i) 6), (ltb_t (6 + i) (6 + rf_n F)) by lia. replace (6 + i - 6)%nat with i by lia.
    fold T. unfold hist_of at 1. ring.
  - rewrite <- Hr. unfold rip_R. rewrite (ltb_f (6 + rf_n F) 6), (ltb_f (6 + rf_n F) (6 + rf_n F)) by lia. reflexivity.
Qed.
Lemma plastic_strain_step Ce Se next past s s' dg (g r : vec) : left_inverse 6 (Se (ld_T next)) (Ce (ld_T next)) ->
  (forall i, (i < 6)%nat -> s' i = mv 6 (Ce (ld_T next)) (fun k => ld_e next k - plastic_strain Se past s k - dg * g k) i + r i) ->
  forall i, (i < 6)%nat -> plastic_strain Se next s' i = plastic_strain Se past s i + dg * g i - mv 6 (Se (ld_T next)) r i.
Proof.
  intros HL H i Hi. unfold plastic_strain at 1. set (y := fun k => ld_e next k - plastic_strain Se past s k - dg * g k) in *.
  rewrite (mv_vec_ext 6 (Se (ld_T next)) s' (vadd (mv 6 (Ce (ld_T next)) y) r) i) by (intros k Hk; rewrite H by exact Hk; reflexivity).
  rewrite mv_vadd, <- mv_mm. unfold mv at 1. rewrite (rsum_ext 6 _ (fun j => delta i j * y j)) by (intros; rewrite HL by assumption; reflexivity).
  rewrite rsum_delta by exact Hi. unfold y. ring.
Qed.
Lemma pp_step_eqs lsolve inv prm Ce Se Y ys next past st st' A E : (1 <= miter prm)%Z ->
  update_step lsolve inv prm (PerfectPlasticity Ce Se Y ys) next past st = Some (st', A, E) ->
  sb_elastic (PerfectPlasticity Ce Se Y ys) next past st = false ->
  let M := PerfectPlasticity Ce Se Y ys in let T := ld_T next in
  exists dg r, within_tolerance prm 7 r (pp_R Ce Se Y ys next past st (sb_init M next past st)) /\
    (forall i, (i < 6)%nat -> ps_s st' i =
       mv 6 (Ce T) (fun k => ld_e next k - plastic_strain Se past (ps_s st) k - dg * ys_ds Y (ps_s st') (fun _ => - ys T) T k) i + r i) /\
    ys_f Y (ps_s st') (fun _ => - ys T) T = r 6%nat /\ ps_h st' = ps_h st.
Proof.
  intros Hm HS NE M T.
  destruct (step_newton lsolve inv prm _ next past st st' A E Hm HS NE) as (x & r & J & r0 & J0 & HRJ & HRJ0 & Ht & _ & _ & Hst).
  cbn [sb_RJ PerfectPlasticity] in HRJ, HRJ0. injection HRJ as Hr HJ. injection HRJ0 as Hr0 HJ0.
  exists (x 6%nat), r. rewrite Hst. cbn [ps_s ps_h sb_h PerfectPlasticity]. split; [rewrite <- Hr0 in Ht; exact Ht|].
  split; [|split; [|reflexivity]].
  - intros i Hi. rewrite <- Hr. unfold pp_R. rewrite (ltb_t i 6 Hi). fold T.
    match goal with |- _ = mv 6 ?C ?a i + (x i - mv 6 ?C ?b i) => rewrite (mv_vec_ext 6 C a b i) end; [ring|].
    intros k Hk. unfold plastic_strain, inel, vsub, pp_ys. fold T. ring.
  - rewrite <- Hr. reflexivity.
Qed.
Lemma gi_step_eqs lsolve inv prm Ce G skip next past st st' A E : (1 <= miter prm)%Z ->
  update_step lsolve inv prm (GenIntegrator Ce G skip) next past st = Some (st', A, E) ->
  eps <= ld_t next - ld_t past ->
  let M := GenIntegrator Ce G skip in let T := ld_T next in
  let dt := ld_t next - ld_t past in
  let edot := fun i => (ld_e next i - ld_e past i) / dt in let Tdot := (ld_T next - ld_T past) / dt in
  gf_throws G (ps_s st') (ps_h st') T = false /\
  exists r, within_tolerance prm (sb_np M) r (gi_R G next past st (sb_init M next past st)) /\
    (forall i, (i < 6)%nat -> ps_s st' i = ps_s st i + dt * gf_s G (ps_s st') (ps_h st') edot T Tdot i + r i) /\
    (forall i, (i < gf_n G)%nat -> ps_h st' i = ps_h st i + dt * gf_a G (ps_s st') (ps_h st') edot T Tdot i + r (6 + i)%nat).
Proof.
  intros Hm HS Hdt M T dt edot Tdot. pose proof eps_pos as Hep.
  assert (NE : sb_elastic (GenIntegrator Ce G skip) next past st = false).
  { cbn [sb_elastic GenIntegrator]. unfold gi_dt. destruct (Rlt_dec _ eps); [lra|reflexivity]. }
  destruct (step_newton lsolve inv prm _ next past st st' A E Hm HS NE) as (x & r & J & r0 & J0 & HRJ & HRJ0 & Ht & _ & _ & Hst).
  cbn [sb_RJ GenIntegrator] in HRJ, HRJ0.
  destruct (gf_throws G x (hist_of x) (ld_T next)) eqn:TH; [discriminate|]. injection HRJ as Hr HJ.
  destruct (gf_throws G (sb_init (GenIntegrator Ce G skip) next past st) _ (ld_T next)) eqn:TH0; [discriminate|]. injection HRJ0 as Hr0 HJ0.
  rewrite Hst. cbn [ps_s ps_h sb_h GenIntegrator]. split; [exact TH|]. exists r. split; [rewrite <- Hr0 in Ht; exact Ht|].
  assert (Eed : gi_edot next past = edot). { unfold gi_edot, gi_dt. destruct (Rlt_dec 0 (ld_t next - ld_t past)); [reflexivity|lra]. }
  assert (Etd : gi_Tdot next past = Tdot). { unfold gi_Tdot, gi_dt. destruct (Rlt_dec 0 (ld_t next - ld_t past)); [reflexivity|lra]. }
  rewrite <- Eed, <- Etd. fold (gi_dt next past) in dt. fold dt.
  split.
  - intros i Hi. rewrite <- Hr. unfold gi_R. rewrite (ltb_t i 6 Hi). fold T. fold dt. ring.
  - intros i Hi. rewrite <- Hr. unfold gi_R. rewrite (ltb_f (6 + i) 6) by lia. replace (6 + i - 6)%nat with i by lia. fold T. fold dt. unfold hist_of at 1. ring.
Qed.

Lemma rip_trial_isothermal Ce Se next past st : ld_T next = ld_T past -> left_inverse 6 (Ce (ld_T next)) (Se (ld_T next)) ->
  veq 6 (rip_trial Ce Se next past st) (vadd (mv 6 (Ce (ld_T next)) (de next past)) (ps_s st)).
Proof.
  intros HT HL i Hi. unfold rip_trial, inel, vadd. rewrite mv_vsub. unfold vsub at 1. rewrite <- HT.
  assert (X : mv 6 (Ce (ld_T next)) (fun k => ld_e past k - mv 6 (Se (ld_T next)) (ps_s st) k) i = mv 6 (Ce (ld_T next)) (ld_e past) i - ps_s st i).
  { change (fun k => ld_e past k - mv 6 (Se (ld_T next)) (ps_s st) k) with (vsub (ld_e past) (mv 6 (Se (ld_T next)) (ps_s st))). rewrite mv_vsub, <- mv_mm. f_equal.
    unfold mv. rewrite (rsum_ext 6 _ (fun j => delta i j * ps_s st j)) by (intros; rewrite HL by assumption; reflexivity). apply rsum_delta, Hi. }
  rewrite X. unfold de. rewrite mv_vsub. ring.
Qed.

(** C42 *)
Lemma dot_lin n a b c k : dot n a (fun i => b i + k * c i) = dot n a b + k * dot n a c.
Proof. unfold dot. rewrite <- rsum_scal, <- rsum_plus. apply rsum_ext. intros; ring. Qed.
Definition symm (n : nat) (S : mat) : Prop := forall i j, (i < n)%nat -> (j < n)%nat -> S i j = S j i.
Lemma dot_symm S a b : symm 6 S -> dot 6 a (mv 6 S b) = dot 6 b (mv 6 S a).
Proof.
  intros H. unfold dot, mv. transitivity (rsum 6 (fun i => rsum 6 (fun j => a i * S i j * b j))).
  - apply rsum_ext. intros. rewrite <- rsum_scal. apply rsum_ext. intros; ring.
  - rewrite rsum_swap. apply rsum_ext. intros j Hj. rewrite <- rsum_scal. apply rsum_ext. intros i Hi. rewrite (H i j) by assumption. ring.
Qed.
Lemma trap_psi S s s' : symm 6 S -> dot 6 (vadd s' s) (mv 6 S (vsub s' s)) / 2 = psi S s' - psi S s.
Proof.
  intros H. unfold psi.
  assert (E : dot 6 (vadd s' s) (mv 6 S (vsub s' s)) = dot 6 s' (mv 6 S s') - dot 6 s' (mv 6 S s) + dot 6 s (mv 6 S s') - dot 6 s (mv 6 S s)).
  { rewrite (dot_ext 6 _ (vadd s' s) _ (vsub (mv 6 S s') (mv 6 S s))) by (intros i Hi; try reflexivity; rewrite mv_vsub; reflexivity).
    unfold dot, vadd, vsub. rewrite <- rsum_minus, <- rsum_plus, <- rsum_minus. apply rsum_ext. intros; ring. }
  rewrite E, (dot_symm S s' s H). lra.
Qed.
Lemma ri_balance Se next past st s1 h1 : ld_T next = ld_T past -> symm 6 (Se (ld_T past)) ->
  let w := ri_work Se next past st s1 h1 in
  (fst w - ps_u st) - (snd w - ps_p st) = psi (Se (ld_T past)) s1 - psi (Se (ld_T past)) (ps_s st).
Proof.
  intros HT HS w. rewrite <- (trap_psi _ _ _ HS). unfold w, ri_work, trap. cbn [fst snd].
  assert (E : dot 6 (vadd s1 (ps_s st)) (vsub (inel Se next s1) (inel Se past (ps_s st))) = dot 6 (vadd s1 (ps_s st)) (de next past) - dot 6 (vadd s1 (ps_s st)) (mv 6 (Se (ld_T past)) (vsub s1 (ps_s st)))).
  { unfold dot. rewrite <- rsum_minus. apply rsum_ext. intros i Hi. rewrite mv_vsub. unfold vsub, inel, de, vsub. rewrite HT. ring. }
  rewrite E. lra.
Qed.
(** every step of a rate independent model does its accounting with ri_work *)
Lemma step_work lsolve inv prm M next past st st' A E :
  update_step lsolve inv prm M next past st = Some (st', A, E) ->
  (ps_u st', ps_p st') = sb_work M next past st (ps_s st') (ps_h st').
Proof.
  unfold update_step. destruct (sb_elastic M next past st).
  - intros H. injection H as <- <- <-. cbn [ps_s ps_h ps_u ps_p]. destruct (sb_work _ _ _ _ _ _); reflexivity.
  - destruct (newton _ prm) as [[[x [r J]] c]|]; [|discriminate]. destruct (inv (sb_np M) J); [|discriminate].
    intros H. injection H as <- <- <-. cbn [ps_s ps_h ps_u ps_p]. destruct (sb_work _ _ _ _ _ _); reflexivity.
Qed.
Lemma chain_balance Se lsolve inv prm M np md l0 l1 : sb_work M = ri_work Se -> ld_T l1 = ld_T l0 -> symm 6 (Se (ld_T l0)) ->
  forall f past st A fs stN AN, chain np (update_step lsolve inv prm M) md l0 l1 f past st A fs stN AN ->
  (ps_u stN - ps_u st) - (ps_p stN - ps_p st) = psi (Se (ld_T l0)) (ps_s stN) - psi (Se (ld_T l0)) (ps_s st).
Proof.
  intros HM HT HS f past st A fs stN AN HC. induction HC as [past st A Hp | f f' past next st st' A A_inc E_inc fs stN AN k Hp Hn Hf Hk Hle Hstep HC IH]; [lra|].
  pose proof (step_work _ _ _ _ _ _ _ _ _ _ Hstep) as W. rewrite HM in W.
  destruct Hp as (_ & Tp & _). destruct Hn as (_ & Tn & _). rewrite HT in Tp, Tn.
  assert (Tp' : ld_T past = ld_T l0) by (rewrite Tp; ring). assert (Tn' : ld_T next = ld_T l0) by (rewrite Tn; ring).
  pose proof (ri_balance Se next past st (ps_s st') (ps_h st')) as B. cbv zeta in B. rewrite <- W in B. cbn [fst snd] in B. rewrite Tp', Tn' in B.
  specialize (B eq_refl HS). lra.
Qed.

(** C47 *)
Lemma km_select_from {M} g gs (models : list M) k : (length gs + k < length models)%nat ->
  exists i m, nth_error models i = Some m /\ km_select g gs models k = Some m /\ 
    (((k <= i)%nat /\ (i - k < length gs)%nat /\ g < nth (i - k) gs 0 /\ (forall j, (j < i - k)%nat -> nth j gs 0 <= g)) \/
     (i = (length models - 1)%nat /\ forall j, (j < length gs)%nat -> nth j gs 0 <= g)).
Proof.
  revert k. induction gs as [|a gs IH]; intros k Hl; cbn [km_select].
  - destruct models as [|m0 ms] eqn:Em; [simpl in Hl; lia|]. rewrite <- Em in *.
    destruct (nth_error models (length models - 1)) as [m|] eqn:E.
    + exists (length models - 1)%nat, m. split; [exact E|]. split; [reflexivity|]. right. split; [reflexivity|]. simpl. intros; lia.
    + apply nth_error_None in E. rewrite Em in E. simpl in E. lia.
  - destruct (Rlt_dec g a) as [L|N].
    + destruct (nth_error models k) as [m|] eqn:E; [|apply nth_error_None in E; simpl in Hl; lia].
      exists k, m. split; [exact E|]. split; [reflexivity|]. left. rewrite Nat.sub_diag. simpl. split; [lia|]. split; [lia|]. split; [exact L|]. intros; lia.
    + simpl in Hl. destruct (IH (S k) ltac:(lia)) as (i & m & E & Es & [(H1 & H2 & H3 & H4)|(H1 & H2)]); exists i, m; (split; [exact E|]); (split; [exact Es|]).
      * left. split; [lia|]. replace (i - k)%nat with (S (i - S k)) by lia. simpl. split; [lia|]. split; [exact H3|].
        intros [|j] Hj; [lra|]. apply H4. lia.
      * right. split; [exact H1|]. intros [|j] Hj; simpl; [lra|]. apply H2. simpl in Hj. lia.
Qed.
