From Verif Require Import Base.
From Verif Require Import Diff.
From Verif Require Import NemlMathModel NemlMathSpec NemlMathProofs SolverModel SolverSpec SolverProofs SubstepModel SurfModel SurfSpec SurfProofs HardProofs RiProofs.
From Verif Require Import PlastModel PlastSpec PlastProofs ViscoProofs YaguchiProofs CreepModel CreepSpec CreepProofs J2CreepProofs DamageModel DamageSpec DamageProofs.

(** *** von Mises, mean *)
Lemma vm_mises s : vm s = mises s. Proof. rewrite vm_seq. apply seq_mises. Qed.
Lemma vm_scale k s : vm (fun i => k * s i) = Rabs k * vm s.
Proof.
  unfold vm. rewrite <- sqrt_Rsqr_abs, <- sqrt_mult_alt by apply Rle_0_sqr. f_equal. unfold Rsqr. field.
Qed.
Lemma vonmises_exact : es_exact (fun s => 0 < vm s) VonMisesES.
Proof.
  intros s u vs Hs Hv. exists (fun x => vm (s x)), (fun i => dev_vec (s u) i * (3 / 2 / vm (s u))).
  split; [apply filter_forall; intros x; reflexivity|]. split.
  - cbn [es_d VonMisesES]. f_equal. destruct (Req_EM_T (vm (s u)) 0); [lra|reflexivity].
  - rewrite dot_scale_l. eapply D_eq; [apply D_vm; [exact Hs|exact Hv]|]. set (q := dot 6 _ _). field. lra.
Qed.
Lemma vonmises_hom : es_homogeneous VonMisesES.
Proof. intros s k Hk. cbn [es_v VonMisesES]. rewrite vm_scale, Rabs_pos_eq by lra. reflexivity. Qed.
Lemma mean_exact : es_exact (fun _ => True) MeanES.
Proof.
  intros s u vs Hs _. exists (fun x => (s x 0%nat + s x 1%nat + s x 2%nat) / 3), (fun i => if Nat.ltb i 3 then 1 / 3 else 0).
  split; [apply filter_forall; intros x; reflexivity|]. split; [reflexivity|].
  eapply D_eq; [apply D_div; [apply D_plus; [apply D_plus; apply Hs; lia|apply Hs; lia]|apply D_const|lra]|cbv beta; tab; field].
Qed.
Lemma mean_hom : es_homogeneous MeanES.
Proof. intros s k Hk. cbn [es_v MeanES]. f_equal. field. Qed.

(** *** Huddleston *)
Lemma I2_mandel s : I2 s = / 2 * (I1 s * I1 s - dot 6 s s).
Proof. rewrite I2_spec, usym_dot. reflexivity. Qed.
Lemma hud_se_vm s : hud_se s = vm s.
Proof. unfold hud_se, vm. f_equal. rewrite I2_mandel. tab. field. Qed.
Lemma hud_arg s : - 3 * I2 (dev_vec s) + I2 s = dot 6 s s.
Proof. rewrite !I2_mandel. tab. field. Qed.
Lemma hud_ss_norm s : hud_ss s = norm2 6 s.
Proof. unfold hud_ss, norm2. rewrite hud_arg. reflexivity. Qed.
Lemma hud_I2p s : I2 (dev_vec s) = - (vm s * vm s) / 3.
Proof. rewrite <- hud_se_vm. unfold hud_se. rewrite sqrt_sqrt; [field|].
  replace (-3 * I2 (dev_vec s)) with (3 / 2 * dot 6 (dev_vec s) (dev_vec s)); [|rewrite I2_mandel; tab; field].
  apply Rmult_le_pos; [lra|]. unfold dot. apply rsum_nonneg. intros; nra. Qed.
Lemma norm_pos_vm s : 0 < vm s -> 0 < norm2 6 s.
Proof.
  intros H. unfold norm2. apply sqrt_lt_R0. assert (G : 0 <= dot 6 s s) by (unfold dot; apply rsum_nonneg; intros; nra).
  destruct G as [G|G]; [exact G|]. exfalso. assert (Z : forall i, (i < 6)%nat -> s i = 0).
  { intros i Hi. pose proof (rsum_zero_inv 6 (fun i => s i * s i)) as Z. cbv beta in Z. fold (dot 6 s s) in Z.
    assert (Q : s i * s i = 0) by (apply Z; [intros; nra|symmetry; exact G|exact Hi]). nra. }
  unfold vm in H. rewrite !Z in H by lia. replace ((_ + _) / 2) with 0 in H by field. rewrite sqrt_0 in H. lra.
Qed.
Lemma cpow_32 x : 0 < x -> cpow (x * x) (3 / 2) = x * x * x.
Proof.
  intros H. assert (0 < x * x) by nra. rewrite cpow_step by assumption. replace (3 / 2 - 1) with (/ 2) by lra.
  rewrite cpow_pos, Rpower_sqrt, sqrt_square by (assumption || lra). ring.
Qed.
Lemma I1_path s u vs : path 6 s u vs -> is_derive (fun x => I1 (s x)) u (I1 vs).
Proof. intros H. unfold I1. apply D_plus; [apply D_plus; apply H; lia|apply H; lia]. Qed.
Lemma huddleston_exact b : es_exact (fun s => 0 < vm s) (HuddlestonES b).
Proof.
  intros s u vs Hs Hv. pose proof (norm_pos_vm _ Hv) as Hn.
  pose proof (D_vm s u vs Hs Hv) as Dv. pose proof (D_norm2 6 s u vs Hs Hn) as Dn. pose proof (I1_path s u vs Hs) as D1.
  exists (fun x => vm (s x) * exp (b * (I1 (s x) / norm2 6 (s x) - 1))). eexists. split; [|split; [reflexivity|]].
  - refine (filter_imp _ _ _ (loc_gt (fun x => norm2 6 (s x)) u _ 0 Dn Hn)). intros x Hx. cbv beta in Hx. cbn [es_v HuddlestonES]. rewrite hud_ss_norm.
    destruct (Req_EM_T (norm2 6 (s x)) 0); [lra|]. unfold hud_eff. rewrite hud_se_vm, hud_ss_norm. reflexivity.
  - assert (Es : I2 (s u) - 3 * I2 (dev_vec (s u)) = norm2 6 (s u) * norm2 6 (s u)).
    { unfold norm2. rewrite sqrt_sqrt; [|unfold dot; apply rsum_nonneg; intros; nra]. rewrite <- hud_arg. ring. }
    rewrite (dot_ext 6 _ (fun i => let eff := hud_eff b (s u) in let n := norm2 6 (s u) in
       (if Nat.ltb i 3 then b * eff / n + - b * eff * I1 (s u) / (2 * (n * n * n)) * I1 (s u) else 0) - - b * eff * I1 (s u) / (2 * (n * n * n)) * s u i
       - 1 / 2 * eff * (3 * b * I1 (s u) / (n * n * n) + 1 / (- (vm (s u) * vm (s u)) / 3)) * dev_vec (s u) i) vs vs); [| |intros i Hi; reflexivity].
    2:{ intros i Hi. cbv zeta. destruct (Req_EM_T (norm2 6 (s u)) 0); [lra|]. rewrite hud_ss_norm. destruct (Req_EM_T (norm2 6 (s u)) 0); [lra|].
        rewrite Es, cpow_32, sqrt_square, hud_I2p by lra. destruct (Nat.ltb i 3); ring. }
    eapply D_eq; [apply D_mult; [exact Dv|apply D_exp; apply D_mult; [apply D_const|apply D_minus; [apply D_div; [exact D1|exact Dn|lra]|apply D_const]]]|cbv beta].
    unfold hud_eff. rewrite hud_se_vm, hud_ss_norm. set (n := norm2 6 (s u)) in *. set (q := vm (s u)) in *.
    set (X := exp (b * (I1 (s u) / n - 1))). cbv zeta.
    set (c1 := b * (q * X) / n + - b * (q * X) * I1 (s u) / (2 * (n * n * n)) * I1 (s u)).
    set (c2 := - b * (q * X) * I1 (s u) / (2 * (n * n * n))).
    set (c3 := 1 / 2 * (q * X) * (3 * b * I1 (s u) / (n * n * n) + 1 / (- (q * q) / 3))).
    assert (E : dot 6 (fun i => (if Nat.ltb i 3 then c1 else 0) - c2 * s u i - c3 * dev_vec (s u) i) vs = c1 * I1 vs - c2 * dot 6 (s u) vs - c3 * dot 6 (dev_vec (s u)) vs) by (tab; ring).
    rewrite E. assert (E2 : dot 6 (dev_vec (s u)) vs = dot 6 (s u) vs - I1 (s u) * I1 vs / 3) by (tab; field).
    rewrite E2. unfold c1, c2, c3. set (d1 := dot 6 (s u) vs). set (t := I1 vs). set (k := I1 (s u)). field. split; lra.
Qed.
Lemma norm2_scale6 k s : 0 < k -> norm2 6 (fun i => k * s i) = k * norm2 6 s.
Proof.
  intros H. unfold norm2. transitivity (sqrt (k * k) * sqrt (dot 6 s s)); [|rewrite sqrt_square by lra; reflexivity]. rewrite <- sqrt_mult_alt by nra. f_equal. unfold dot. rewrite <- rsum_scal. apply rsum_ext. intros; ring.
Qed.
Lemma huddleston_hom b : es_homogeneous (HuddlestonES b).
Proof.
  intros s k Hk. cbn [es_v HuddlestonES]. f_equal. rewrite !hud_ss_norm, norm2_scale6 by exact Hk. unfold hud_eff. rewrite !hud_se_vm, !hud_ss_norm, norm2_scale6, vm_scale, (Rabs_pos_eq k) by lra.
  destruct (Req_EM_T (norm2 6 s) 0) as [Z|Z]; destruct (Req_EM_T (k * norm2 6 s) 0) as [Y|Y].
  - ring.
  - exfalso. apply Y. rewrite Z. ring.
  - exfalso. apply Z. nra.
  - replace (I1 (fun i => k * s i)) with (k * I1 s) by (unfold I1; ring). replace (k * I1 s / (k * norm2 6 s)) with (I1 s / norm2 6 s) by (field; lra). ring.
Qed.
Lemma huddleston_value b s : 0 < norm2 6 s -> es_v (HuddlestonES b) s = Some (mises s * exp (b * (I1 s / norm2 6 s - 1))).
Proof. intros H. cbn [es_v HuddlestonES]. rewrite hud_ss_norm. destruct (Req_EM_T _ 0); [lra|]. unfold hud_eff. rewrite hud_se_vm, hud_ss_norm, vm_mises. reflexivity. Qed.

(** *** maximum of several *)
Lemma msel_scale l s k : 0 < k -> (forall m, In m l -> es_homogeneous m) -> forall i best,
  msel l (fun j => k * s j) i (match best with Some (n, b) => Some (n, k * b) | None => None end) =
  match msel l s i best with Some (Some (n, v)) => Some (Some (n, k * v)) | Some None => Some None | None => None end.
Proof.
  intros Hk. induction l as [|m l IH]; intros H i best; cbn [msel].
  - destruct best as [[n b]|]; reflexivity.
  - rewrite (H m (or_introl eq_refl) s k Hk). destruct (es_v m s) as [v|]; [|reflexivity].
    rewrite <- (IH (fun m' Hm => H m' (or_intror Hm))). f_equal. destruct best as [[n b]|]; [|reflexivity].
    destruct (Rlt_dec b v) as [L|L]; destruct (Rlt_dec (k * b) (k * v)) as [L'|L']; try reflexivity; exfalso; nra.
Qed.
Lemma max_hom l : (forall m, In m l -> es_homogeneous m) -> es_homogeneous (MaxSeveralES l).
Proof.
  intros H s k Hk. cbn [es_v MaxSeveralES]. pose proof (msel_scale l s k Hk H 0 None) as E. cbv beta iota in E. rewrite E.
  destruct (msel l s 0 None) as [[[n v]|]|]; reflexivity.
Qed.
Lemma msel_sound l s : forall i best k v, msel l s i best = Some (Some (k, v)) ->
  (forall m, In m l -> exists w, es_v m s = Some w /\ w <= v) /\ (forall n b, best = Some (n, b) -> b <= v) /\
  (best = Some (k, v) \/ exists j m, k = (i + j)%nat /\ nth_error l j = Some m /\ es_v m s = Some v /\ (forall n b, best = Some (n, b) -> b < v) /\
     forall j' m' w, (j' < j)%nat -> nth_error l j' = Some m' -> es_v m' s = Some w -> w < v).
Proof.
  induction l as [|m l IH]; intros i best k v; cbn [msel].
  - intros E. injection E as ->. split; [contradiction|]. split; [intros n b E; injection E as _ <-; lra|left; reflexivity].
  - destruct (es_v m s) as [w|] eqn:Ew; [|discriminate]. intros E. specialize (IH _ _ _ _ E). destruct IH as (A & B & C).
    assert (Bw : w <= v /\ forall n b, best = Some (n, b) -> b <= v).
    { destruct best as [[n b]|].
      - destruct (Rlt_dec b w) as [L|L].
        + specialize (B _ _ eq_refl). split; [exact B|]. intros n' b' E'. injection E' as _ <-. lra.
        + specialize (B _ _ eq_refl). split; [lra|]. intros n' b' E'. injection E' as _ <-. exact B.
      - specialize (B _ _ eq_refl). split; [exact B|discriminate]. }
    split; [|split; [apply Bw|]].
    { intros m' [<-|Hm]; [exists w; split; [exact Ew|apply Bw]|apply A, Hm]. }
    destruct C as [C|(j & m' & -> & Hj & Hv & Cb & Cp)].
    + destruct best as [[n b]|].
      * destruct (Rlt_dec b w) as [L|L]; injection C as <- <-.
        -- right. exists 0%nat, m. rewrite Nat.add_0_r. split; [reflexivity|]. split; [reflexivity|]. split; [exact Ew|]. split; [intros n' b' E'; injection E' as _ <-; exact L|intros; lia].
        -- left. reflexivity.
      * injection C as <- <-. right. exists 0%nat, m. rewrite Nat.add_0_r. split; [reflexivity|]. split; [reflexivity|]. split; [exact Ew|]. split; [discriminate|intros; lia].
    + right. exists (S j), m'. split; [lia|]. split; [exact Hj|]. split; [exact Hv|].
      assert (Q : w < v /\ forall n b, best = Some (n, b) -> b < v).
      { destruct best as [[n b]|].
        - destruct (Rlt_dec b w) as [L|L].
          + specialize (Cb _ _ eq_refl). split; [exact Cb|]. intros n' b' E'. injection E' as _ <-. lra.
          + specialize (Cb _ _ eq_refl). split; [lra|]. intros n' b' E'. injection E' as _ <-. exact Cb.
        - specialize (Cb _ _ eq_refl). split; [exact Cb|discriminate]. }
      split; [apply Q|]. intros [|j'] m'' w' Hlt Hn Hw.
      * injection Hn as <-. rewrite Ew in Hw. injection Hw as <-. apply Q.
      * apply (Cp j' m'' w'); [lia|exact Hn|exact Hw].
Qed.
Lemma max_value l s v : es_v (MaxSeveralES l) s = Some v ->
  (exists m, In m l /\ es_v m s = Some v) /\ (forall m, In m l -> exists w, es_v m s = Some w /\ w <= v).
Proof.
  cbn [es_v MaxSeveralES]. destruct (msel l s 0 None) as [[[k v']|]|] eqn:E; try discriminate. intros H. injection H as ->.
  destruct (msel_sound _ _ _ _ _ _ E) as (A & _ & [C|(j & m & _ & Hj & Hv & _)]); [discriminate|]. split; [|exact A]. exists m. split; [exact (nth_error_In _ _ Hj)|exact Hv].
Qed.
Lemma max_defined l s : l <> [] -> (forall m, In m l -> es_v m s <> None) -> es_v (MaxSeveralES l) s <> None.
Proof.
  intros Hl H. cbn [es_v MaxSeveralES].
  assert (G : forall i best, (l = [] -> best <> None) -> exists r, msel l s i best = Some (Some r)).
  { clear Hl. induction l as [|m l IH]; intros i best Hb; cbn [msel].
    - destruct best as [r|]; [exists r; reflexivity|exfalso; apply Hb; reflexivity].
    - destruct (es_v m s) as [w|] eqn:Ew; [|exfalso; apply (H m (or_introl eq_refl)), Ew]. apply IH; [intros m' Hm; apply H; right; exact Hm|].
      intros _. destruct best as [[n b]|]; [destruct (Rlt_dec b w)|]; discriminate. }
  destruct (G 0%nat None) as ([k v] & E); [contradiction|]. rewrite E. discriminate.
Qed.
Lemma max_empty s : es_v (MaxSeveralES []) s = None. Proof. reflexivity. Qed.
(** a strict maximum is selected *)
Lemma msel_after l s k v : (forall m, In m l -> exists w, es_v m s = Some w /\ w <= v) -> forall i, msel l s i (Some (k, v)) = Some (Some (k, v)).
Proof.
  induction l as [|m l IH]; intros H i; cbn [msel]; [reflexivity|]. destruct (H m (or_introl eq_refl)) as (w & -> & Hw).
  destruct (Rlt_dec v w); [lra|]. apply IH. intros m' Hm. apply H. right. exact Hm.
Qed.
Lemma msel_strict l s : forall i best j m v, nth_error l j = Some m -> es_v m s = Some v -> (forall n b, best = Some (n, b) -> b < v) ->
  (forall j' m', j' <> j -> nth_error l j' = Some m' -> exists w, es_v m' s = Some w /\ w < v) ->
  msel l s i best = Some (Some ((i + j)%nat, v)).
Proof.
  induction l as [|a l IH]; intros i best j m v Hj Hv Hb H; [destruct j; discriminate|]. destruct j as [|j].
  - injection Hj as ->. cbn [msel]. rewrite Hv, Nat.add_0_r.
    assert (E : (match best with None => Some (i, v) | Some (k, b) => if Rlt_dec b v then Some (i, v) else Some (k, b) end) = Some (i, v)).
    { destruct best as [[n b]|]; [|reflexivity]. destruct (Rlt_dec b v) as [L|L]; [reflexivity|]. exfalso. apply L, (Hb n b), eq_refl. }
    rewrite E. apply msel_after. intros m' Hm. apply In_nth_error in Hm. destruct Hm as [j' Hj']. destruct (H (S j') m' ltac:(discriminate) Hj') as (w & Hw & L). exists w. split; [exact Hw|lra].
  - cbn [msel]. destruct (H 0%nat a ltac:(discriminate) eq_refl) as (w & -> & Hw). replace (i + S j)%nat with (S i + j)%nat by lia. apply (IH (S i) _ j m v Hj Hv).
    + intros n b E. destruct best as [[n' b']|]; [destruct (Rlt_dec b' w)|]; injection E as _ <-; try exact Hw. apply (Hb n' b' eq_refl).
    + intros j' m' Hne Hn. apply (H (S j') m'); [lia|exact Hn].
Qed.
Lemma max_exact P l : (forall m, In m l -> es_exact P m) ->
  es_exact (fun s => P s /\ exists k m v, nth_error l k = Some m /\ es_v m s = Some v /\
              forall j m', j <> k -> nth_error l j = Some m' -> exists w, es_v m' s = Some w /\ w < v) (MaxSeveralES l).
Proof.
  intros H s u vs Hs (HP & k & m & v & Hk & Hv & HS).
  destruct (H m (nth_error_In _ _ Hk) s u vs Hs HP) as (f & g & L & Eg & D). exists f, g.
  pose proof (locally_singleton _ _ L) as Lu. cbv beta in Lu. rewrite Hv in Lu. injection Lu as Ev.
  split; [|split; [|exact D]].
  - assert (G : locally u (fun x => forall j m', j <> k -> nth_error l j = Some m' -> exists w, es_v m' (s x) = Some w /\ w < f x)).
    { assert (G0 : forall n, locally u (fun x => forall j m', (j < n)%nat -> j <> k -> nth_error l j = Some m' -> exists w, es_v m' (s x) = Some w /\ w < f x)).
      { induction n as [|n IH]; [apply filter_forall; intros; lia|].
        assert (G1 : locally u (fun x => forall m', n <> k -> nth_error l n = Some m' -> exists w, es_v m' (s x) = Some w /\ w < f x)).
        { destruct (nth_error l n) as [m'|] eqn:En; [|apply filter_forall; discriminate].
          destruct (Nat.eq_dec n k) as [->|Hne]; [apply filter_forall; intros x m'' Hc; contradiction|].
          destruct (H m' (nth_error_In _ _ En) s u vs Hs HP) as (f' & g' & L' & _ & D'). pose proof (locally_singleton _ _ L') as Lu'. cbv beta in Lu'.
          destruct (HS n m' Hne En) as (w & Hw & Hlt). rewrite Lu' in Hw. injection Hw as Hw.
          pose proof (loc_gt (fun x => f x - f' x) u _ 0 (D_minus _ _ _ _ _ D D')) as LG. cbv beta in LG. specialize (LG ltac:(lra)).
          refine (filter_imp _ _ _ (filter_and _ _ L' LG)). intros x (X1 & X2) m'' _ E. injection E as <-. exists (f' x). split; [exact X1|lra]. }
        refine (filter_imp _ _ _ (filter_and _ _ IH G1)). intros x (X1 & X2) j m' Hj. destruct (Nat.eq_dec j n) as [->|Hn]; [apply X2|apply X1; lia]. }
      refine (filter_imp _ _ _ (G0 (length l))). intros x X j m' Hne Hn. apply (X j m'); [|exact Hne|exact Hn]. apply nth_error_Some. rewrite Hn. discriminate. }
    refine (filter_imp _ _ _ (filter_and _ _ L G)). intros x (X1 & X2). cbn [es_v MaxSeveralES].
    rewrite (msel_strict l (s x) 0 None k m (f x) Hk X1); [reflexivity|discriminate|exact X2].
  - cbn [es_d MaxSeveralES]. rewrite (msel_strict l (s u) 0 None k m v Hk Hv); [|discriminate|exact HS]. cbn [Nat.add]. rewrite Hk. exact Eg.
Qed.

(** *** weighted sums *)
Lemma sum_exact_aux P l : (forall m w, In (m, w) l -> es_exact P m) -> forall (s : R -> vec) u vs, path 6 s u vs -> P (s u) ->
  exists f g, locally u (fun x => sum_v l (s x) = Some (f x)) /\ sum_d l (s u) = Some g /\ is_derive f u (dot 6 g vs).
Proof.
  induction l as [|[m w] l IH]; intros H s u vs Hs HP.
  - exists (fun _ => 0), (fun _ => 0). split; [apply filter_forall; reflexivity|]. split; [reflexivity|]. eapply D_eq; [apply D_const|symmetry; apply dot_zero6].
  - destruct (IH (fun m' w' Hm => H m' w' (or_intror Hm)) s u vs Hs HP) as (f & g & L & Eg & D).
    destruct (H m w (or_introl eq_refl) s u vs Hs HP) as (f1 & g1 & L1 & Eg1 & D1).
    exists (fun x => w * f1 x + f x), (fun i => w * g1 i + g i). split; [|split].
    + refine (filter_imp _ _ _ (filter_and _ _ L L1)). intros x (X1 & X2). cbn [sum_v]. rewrite X2, X1. reflexivity.
    + cbn [sum_d]. rewrite Eg1, Eg. reflexivity.
    + eapply D_eq; [apply D_plus; [apply D_mult; [apply D_const|exact D1]|exact D]|cbv beta].
      unfold dot. rewrite (rsum_ext 6 (fun i => (w * g1 i + g i) * vs i) (fun i => w * (g1 i * vs i) + g i * vs i)) by (intros; ring). rewrite rsum_plus, rsum_scal. ring.
Qed.
Lemma sumseveral_exact P ms ws E : SumSeveralES ms ws = Some E -> (forall m, In m ms -> es_exact P m) -> es_exact P E.
Proof.
  unfold SumSeveralES. destruct (Nat.eqb _ _); [|discriminate]. intros E0 H. injection E0 as <-. intros s u vs Hs HP. cbn [es_v es_d].
  apply (sum_exact_aux P); [|exact Hs|exact HP]. intros m w Hm. apply H. exact (in_combine_l _ _ _ _ Hm).
Qed.
Lemma sum_hom_aux l s k : 0 < k -> (forall m w, In (m, w) l -> es_homogeneous m) -> sum_v l (fun i => k * s i) = match sum_v l s with Some v => Some (k * v) | None => None end.
Proof.
  intros Hk. induction l as [|[m w] l IH]; intros H; cbn [sum_v]; [f_equal; ring|].
  rewrite (H m w (or_introl eq_refl) s k Hk), (IH (fun m' w' Hm => H m' w' (or_intror Hm))). destruct (es_v m s) as [v|]; [|reflexivity].
  destruct (sum_v l s) as [v'|]; [|reflexivity]. f_equal. ring.
Qed.
Lemma sum_hom ms ws E : SumSeveralES ms ws = Some E -> (forall m, In m ms -> es_homogeneous m) -> es_homogeneous E.
Proof.
  unfold SumSeveralES. destruct (Nat.eqb _ _); [|discriminate]. intros E0 H. injection E0 as <-. intros s k Hk. cbn [es_v]. apply sum_hom_aux; [exact Hk|].
  intros m w Hm. apply H. exact (in_combine_l _ _ _ _ Hm).
Qed.
Lemma sum_value_aux l s : (forall m w, In (m, w) l -> es_v m s <> None) -> forall d, sum_v l s = Some (rsum (length l) (fun i => let (m, w) := nth i l (MeanES, 0) in w * match es_v m s with Some v => v | None => d end)).
Proof.
  intros H d. induction l as [|[m w] l IH]; [reflexivity|]. cbn [sum_v]. rewrite (IH (fun m' w' Hm => H m' w' (or_intror Hm))).
  pose proof (H m w (or_introl eq_refl)) as Hm. destruct (es_v m s) as [v|] eqn:E; [|contradiction]. f_equal.
  change (length ((m, w) :: l)) with (1 + length l)%nat. rewrite rsum_app. cbn [rsum nth Nat.add]. rewrite E. rewrite Rplus_0_l. f_equal.
Qed.
