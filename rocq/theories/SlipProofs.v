From Verif Require Import Base.
From Verif Require Import Diff.
From Verif Require Import NemlMathModel.
From Verif Require Import TensorModel.
From Verif Require Import Blocks.
From Verif Require Import SlipModel.
From Verif Require Import SlipSpec.
From Coq Require Import Lia Lra.

(** *** Calculus at kinks *)

Lemma D_squeeze (f g : R -> R) (t : R) : (forall u, Rabs (f u) <= Rabs (g u)) -> g t = 0 ->
  is_derive g t 0 -> is_derive f t 0.
Proof.
  intros Hle Hg Hd. apply is_derive_Reals in Hd. apply is_derive_Reals.
  intros e He. destruct (Hd e He) as [d Hdd]. exists d. intros k Hk Hkd.
  specialize (Hdd k Hk Hkd).
  assert (Hf : f t = 0). { pose proof (Hle t) as H. rewrite Hg, Rabs_R0 in H. pose proof (Rabs_pos (f t)).
    destruct (Req_dec (f t) 0) as [|Hn]; [assumption|]. pose proof (Rabs_pos_lt _ Hn). lra. }
  rewrite Hf, Hg in *. rewrite !Rminus_0_r in *.
  eapply Rle_lt_trans; [|exact Hdd]. unfold Rdiv. rewrite !Rabs_mult.
  apply Rmult_le_compat_r; [apply Rabs_pos|apply Hle].
Qed.

Lemma D_Rabs_zero (f : R -> R) (t : R) : is_derive f t 0 -> f t = 0 -> is_derive (fun u => Rabs (f u)) t 0.
Proof. intros H H0. apply (D_squeeze _ f); auto. intros u. rewrite Rabs_Rabsolu. apply Rle_refl. Qed.

Lemma copysign_1 x : copysign 1 x = if Rlt_dec x 0 then -1 else 1.
Proof. unfold copysign. rewrite Rabs_R1. reflexivity. Qed.

(** |f| where f is not zero or has zero velocity: the code's copysign(1,f) f'. *)
Lemma D_abs_safe (f : R -> R) (t a : R) : is_derive f t a -> f t <> 0 \/ a = 0 ->
  is_derive (fun u => Rabs (f u)) t (copysign 1 (f t) * a).
Proof.
  intros H Hs. rewrite copysign_1. destruct (Rlt_dec (f t) 0) as [Hn|Hn].
  - eapply D_eq; [apply (D_Rabs_neg f t a); assumption|cbv beta; ring].
  - destruct (Req_dec (f t) 0) as [H0|H0].
    + destruct Hs as [Hs| ->]; [contradiction|]. eapply D_eq; [apply D_Rabs_zero; assumption|cbv beta; ring].
    + eapply D_eq; [apply (D_Rabs_pos f t a); [assumption|lra]|cbv beta; ring].
Qed.

(** x c with x = 0 and c merely continuous. *)
Lemma D_zero_times (x c : R -> R) (t a : R) : is_derive x t a -> x t = 0 -> continuous c t ->
  is_derive (fun u => x u * c u) t (a * c t).
Proof.
  intros Hx H0 Hc. apply is_derive_Reals in Hx. apply is_derive_Reals.
  apply continuity_pt_filterlim in Hc. intros e He.
  set (K := Rabs (c t) + 1). set (A := Rabs a + 1).
  assert (HK : 0 < K) by (unfold K; pose proof (Rabs_pos (c t)); lra).
  assert (HA : 0 < A) by (unfold A; pose proof (Rabs_pos a); lra).
  assert (He1 : 0 < e / 2 / K) by (apply Rdiv_lt_0_compat; lra).
  assert (He2 : 0 < Rmin 1 (e / 2 / A)) by (apply Rmin_glb_lt; [lra|apply Rdiv_lt_0_compat; lra]).
  destruct (Hx _ He1) as [d1 Hd1].
  destruct (Hc _ He2) as (d2 & Hd2 & Hcc).
  assert (Hd : 0 < Rmin d1 d2) by (apply Rmin_glb_lt; [apply cond_pos|exact Hd2]).
  exists (mkposreal _ Hd). intros k Hk Hkd. cbn in Hkd.
  assert (Hk1 : Rabs k < d1) by (eapply Rlt_le_trans; [exact Hkd|apply Rmin_l]).
  assert (Hk2 : Rabs k < d2) by (eapply Rlt_le_trans; [exact Hkd|apply Rmin_r]).
  specialize (Hd1 k Hk Hk1).
  assert (Hck : Rabs (c (t + k) - c t) < Rmin 1 (e / 2 / A)).
  { apply Hcc. split; [split; [exact I|lra]|]. cbn. unfold R_dist. replace (t + k - t) with k by ring. exact Hk2. }
  rewrite H0 in *. rewrite Rminus_0_r in Hd1. rewrite Rmult_0_l, Rminus_0_r.
  set (q := x (t + k) / k) in *.
  replace (x (t + k) * c (t + k) / k - a * c t) with ((q - a) * c (t + k) + a * (c (t + k) - c t)) by (unfold q; field; exact Hk).
  assert (Hb : Rabs (c (t + k)) < K).
  { unfold K. replace (c (t + k)) with (c t + (c (t + k) - c t)) by ring.
    eapply Rle_lt_trans; [apply Rabs_triang|]. pose proof (Rmin_l 1 (e / 2 / A)). lra. }
  eapply Rle_lt_trans; [apply Rabs_triang|]. rewrite !Rabs_mult.
  assert (H1 : Rabs (q - a) * Rabs (c (t + k)) <= (e / 2 / K) * K).
  { apply Rmult_le_compat; try apply Rabs_pos; lra. }
  assert (H2 : Rabs a * Rabs (c (t + k) - c t) < A * (e / 2 / A)).
  { pose proof (Rmin_r 1 (e / 2 / A)). pose proof (Rabs_pos a). pose proof (Rabs_pos (c (t+k) - c t)).
    apply Rle_lt_trans with (Rabs a * (e / 2 / A)).
    - apply Rmult_le_compat_l; lra.
    - apply Rmult_lt_compat_r; [apply Rdiv_lt_0_compat; lra|unfold A; lra]. }
  replace (e / 2 / K * K) with (e / 2) in H1 by (field; lra).
  replace (A * (e / 2 / A)) with (e / 2) in H2 by (field; lra). lra.
Qed.

Lemma cpow_nonneg x y : 0 <= cpow x y.
Proof. unfold cpow. destruct (Rlt_dec 0 x). - left. apply exp_pos. - destruct (Req_EM_T y 0); lra. Qed.

(** |f|^y is continuous at a zero of f for y > 0. *)
Lemma C_cpow_zero (f : R -> R) (t y : R) : continuous f t -> f t = 0 -> 0 < y ->
  continuous (fun u => cpow (Rabs (f u)) y) t.
Proof.
  intros Hc H0 Hy. apply continuity_pt_filterlim in Hc. apply continuity_pt_filterlim.
  intros e He. assert (Hp : 0 < Rpower e (/ y)) by apply exp_pos.
  destruct (Hc _ Hp) as (d & Hd & H). exists d. split; [exact Hd|]. intros u Hu.
  specialize (H u Hu). cbn in *. unfold R_dist in *. rewrite H0, Rminus_0_r in H.
  rewrite H0, Rabs_R0.
  assert (Hz : cpow 0 y = 0). { unfold cpow. destruct (Rlt_dec 0 0); [lra|]. destruct (Req_EM_T y 0); [lra|reflexivity]. }
  rewrite Hz, Rminus_0_r. rewrite Rabs_pos_eq by apply cpow_nonneg.
  unfold cpow. destruct (Rlt_dec 0 (Rabs (f u))) as [Hf|Hf].
  - replace e with (Rpower (Rpower e (/ y)) y) at 1.
    + unfold Rpower at 1 2. apply exp_increasing. apply Rmult_lt_compat_l; [exact Hy|]. apply ln_increasing; assumption.
    + rewrite Rpower_mult. replace (/ y * y) with 1 by (field; lra). apply Rpower_1. exact He.
  - destruct (Req_EM_T y 0); lra.
Qed.

Lemma cpow_zero y : 0 < y -> cpow 0 y = 0.
Proof. intros H. unfold cpow. destruct (Rlt_dec 0 0); [lra|]. destruct (Req_EM_T y 0); [lra|reflexivity]. Qed.

(** *** Assembling a rate's derivative *)

Lemma assemble (np hn ne : nat) (a : nat -> R) (b vs vh : vec) (ds dh : drates) (ns : nat -> nat) (de : nat -> drates) (ve : nat -> vec)
    (S H : vec) (E : nat -> vec) :
  (forall c, (c < 6)%nat -> S c = rsum np (fun p => a p * ds p c)) ->
  (forall c, (c < hn)%nat -> H c = rsum np (fun p => a p * dh p c) + b c) ->
  (forall j c, (j < ne)%nat -> (c < ns j)%nat -> E j c = rsum np (fun p => a p * de j p c)) ->
  rsum np (fun p => a p * (dot 6 (ds p) vs + dot hn (dh p) vh + rsum ne (fun j => dot (ns j) (de j p) (ve j)))) + dot hn b vh
  = dot 6 S vs + dot hn H vh + rsum ne (fun j => dot (ns j) (E j) (ve j)).
Proof.
  intros HS HH HE.
  assert (K : forall n (d : drates) w, rsum np (fun p => a p * dot n (d p) w) = dot n (fun c => rsum np (fun p => a p * d p c)) w).
  { intros n d w. unfold dot. rewrite (rsum_ext np _ (fun p => rsum n (fun c => a p * d p c * w c))).
    - rewrite rsum_swap. apply rsum_ext. intros c _. now rewrite rsum_scal_r.
    - intros p _. rewrite <- rsum_scal. apply rsum_ext. intros c _. ring. }
  rewrite (rsum_ext np _ (fun p => a p * dot 6 (ds p) vs + a p * dot hn (dh p) vh + rsum ne (fun j => a p * dot (ns j) (de j p) (ve j)))).
  2:{ intros p _. rewrite rsum_scal. ring. }
  rewrite !rsum_plus, !K, rsum_swap.
  rewrite (rsum_ext ne (fun j => rsum np (fun p => a p * dot (ns j) (de j p) (ve j))) (fun j => dot (ns j) (E j) (ve j))).
  2:{ intros j Hj. rewrite K. unfold dot. apply rsum_ext. intros c Hc. now rewrite HE. }
  replace (dot 6 S vs) with (dot 6 (fun c => rsum np (fun p => a p * ds p c)) vs).
  2:{ unfold dot. apply rsum_ext. intros c Hc. now rewrite HS. }
  replace (dot hn H vh) with (dot hn (fun c => rsum np (fun p => a p * dh p c)) vh + dot hn b vh).
  2:{ unfold dot. rewrite <- rsum_plus. apply rsum_ext. intros c Hc. rewrite HH by assumption. ring. }
  ring.
Qed.

Lemma rsum_pick np x (f : nat -> R) : (x < np)%nat -> rsum np (fun p => (if Nat.eqb p x then 1 else 0) * f p) = f x.
Proof.
  intros Hx. rewrite <- (rsum_delta np x f Hx). apply rsum_ext. intros p _. unfold delta.
  rewrite Nat.eqb_sym. reflexivity.
Qed.

Lemma rsum_one np x (k : R) (f : nat -> R) : (x < np)%nat -> rsum np (fun p => (if Nat.eqb p x then k else 0) * f p) = k * f x.
Proof.
  intros Hx. rewrite <- (rsum_pick np x (fun p => k * f p) Hx). apply rsum_ext. intros p _. destruct (Nat.eqb p x); ring.
Qed.

Lemma dot_one n x (k : R) (w : vec) : (x < n)%nat -> dot n (fun q => if Nat.eqb q x then k else 0) w = k * w x.
Proof. intros Hx. unfold dot. apply rsum_one. exact Hx. Qed.

(** The hardening model's rate for a law acting on one system and one variable
    (x): rate = F(slip x, h x) with F_s = a, F_h = b. *)
Lemma exact_per_system L m ne (P : rates -> vec -> Prop) (a b : rates -> vec -> nat -> R) :
  h_n m = l_n L ->
  (forall (sl : R -> rates) (h : R -> vec) (t : R) (vs vh : vec), (forall x, (x < l_n L)%nat -> is_derive (fun u => sl u x) t (vs x)) -> path (l_n L) h t vh ->
     (forall p, (p < l_n L)%nat -> sl t p <> 0 \/ vs p = 0) -> P (sl t) (h t) ->
     forall x, (x < l_n L)%nat -> is_derive (fun u => h_rate m L (sl u) (h u) x) t (a (sl t) (h t) x * vs x + b (sl t) (h t) x * vh x)) ->
  (forall sl ds h x c, (x < l_n L)%nat -> h_rate_s m L sl ds h x c = a sl h x * ds x c) ->
  (forall sl dh h x c, (x < l_n L)%nat -> h_rate_h m L sl dh h x c = a sl h x * dh x c + (if Nat.eqb c x then b sl h x else 0)) ->
  (ne = 0%nat \/ forall sl de h x c, (x < l_n L)%nat -> h_rate_e m L sl de h x c = a sl h x * de x c) ->
  rates_exact L m ne P.
Proof.
  intros Hn Hr Hs Hh He sl h t vs vh ds dh ns de ve v Hv Hpath Hsafe HP x Hx.
  rewrite Hn in Hpath, Hx.
  pose proof (Hr sl h t v vh Hv Hpath Hsafe HP x Hx) as HD. clear Hr.
  eapply D_eq; [exact HD|]. unfold v.
  refine (eq_trans _ (assemble (l_n L) (h_n m) ne (fun p => if Nat.eqb p x then a (sl t) (h t) x else 0)
     (fun q => if Nat.eqb q x then b (sl t) (h t) x else 0) vs vh ds dh ns de ve _ _
     (fun j => h_rate_e m L (sl t) (de j) (h t) x) _ _ _)).
  - rewrite (rsum_one (l_n L) x) by assumption. rewrite dot_one by lia. reflexivity.
  - intros c _. rewrite Hs by assumption. now rewrite (rsum_one (l_n L) x).
  - intros c _. rewrite Hh by assumption. now rewrite (rsum_one (l_n L) x).
  - intros j c Hj _. destruct He as [He|He]; [lia|]. rewrite He by assumption. now rewrite (rsum_one (l_n L) x).
Qed.

(** The same for a law whose rates are fixed combinations of |slip|. *)
Lemma exact_combined L m ne (P : rates -> vec -> Prop) (a : rates -> vec -> nat -> nat -> R) (b : rates -> vec -> nat -> nat -> R) :
  (forall (sl : R -> rates) (h : R -> vec) (t : R) (vs vh : vec), (forall x, (x < l_n L)%nat -> is_derive (fun u => sl u x) t (vs x)) -> path (h_n m) h t vh ->
     (forall p, (p < l_n L)%nat -> sl t p <> 0 \/ vs p = 0) -> P (sl t) (h t) ->
     forall x, (x < h_n m)%nat -> is_derive (fun u => h_rate m L (sl u) (h u) x) t
       (rsum (l_n L) (fun p => a (sl t) (h t) x p * vs p) + dot (h_n m) (b (sl t) (h t) x) vh)) ->
  (forall sl ds h x c, h_rate_s m L sl ds h x c = rsum (l_n L) (fun p => a sl h x p * ds p c)) ->
  (forall sl dh h x c, (x < h_n m)%nat -> (c < h_n m)%nat -> h_rate_h m L sl dh h x c = rsum (l_n L) (fun p => a sl h x p * dh p c) + b sl h x c) ->
  (ne = 0%nat \/ forall sl de h x c, h_rate_e m L sl de h x c = rsum (l_n L) (fun p => a sl h x p * de p c)) ->
  rates_exact L m ne P.
Proof.
  intros Hr Hs Hh He sl h t vs vh ds dh ns de ve v Hv Hpath Hsafe HP x Hx.
  pose proof (Hr sl h t v vh Hv Hpath Hsafe HP x Hx) as HD. clear Hr.
  eapply D_eq; [exact HD|]. unfold v.
  refine (eq_trans _ (assemble (l_n L) (h_n m) ne (a (sl t) (h t) x) (b (sl t) (h t) x) vs vh ds dh ns de ve _ _
     (fun j => h_rate_e m L (sl t) (de j) (h t) x) _ _ _)); auto.
  intros j c Hj _. destruct He as [He|He]; [lia|]. apply He.
Qed.

(** *** The hardening laws *)

Lemma tau_component (L : slat) (m : hlaw) (P : vec -> Prop) (s0 : nat -> R) :
  (forall p, (p < l_n L)%nat -> (p < h_n m)%nat) ->
  (forall p h, h_tau m L p h = h p + s0 p) -> (forall p h q, h_dtau m L p h q = if Nat.eqb q p then 1 else 0) ->
  strength_exact L m P.
Proof.
  intros Hn Ht Hd p Hp c t v Hc _. specialize (Hn p Hp).
  eapply D_ext; [intros u; symmetry; apply Ht|].
  eapply D_eq; [apply D_plus; [apply (Hc p Hn)|apply D_const]|].
  rewrite Rplus_0_r. rewrite (dot_ext (h_n m) _ (fun q => if Nat.eqb q p then 1 else 0) v v).
  - rewrite dot_one by assumption. ring.
  - intros q _. apply Hd.
  - intros q _. reflexivity.
Qed.

Lemma fixed_exact L s ne : strength_exact L (fixed_strength s) (fun _ => True) /\ rates_exact L (fixed_strength s) ne (fun _ _ => True).
Proof.
  split.
  - intros p Hp c t v Hc _. cbn. unfold dot. cbn. apply D_const.
  - intros sl h t vs vh ds dh ns de ve v _ _ _ _ x Hx. cbn in Hx. lia.
Qed.

Lemma voce_exact L v : vp_n v = l_n L -> strength_exact L (voce_per_system v) (fun _ => True)
  /\ rates_exact L (voce_per_system v) 0 (voce_in v).
Proof.
  intros Hn. split.
  - apply (tau_component L _ _ (fun _ => 0)).
    + intros p Hp. cbn. lia.
    + intros p h. cbn. ring.
    + reflexivity.
  - apply (exact_per_system L (voce_per_system v) 0 (voce_in v)
      (fun sl h k => vp_k v k * cpow (vp_base v h k) (vp_m v k))
      (fun sl h k => - vp_k v k * vp_m v k / (vp_sat v k - vp_init v k) * cpow (vp_base v h k) (vp_m v k - 1) * sl k)).
    + exact Hn.
    + intros sl h t vs vh Hs Hh _ HP x Hx. cbn. destruct (HP x ltac:(lia)) as [Hd Hb].
      assert (HB : is_derive (fun u => vp_base v (h u) x) t (- (vh x / (vp_sat v x - vp_init v x)))).
      { unfold vp_base. eapply D_eq.
        - apply D_minus; [apply D_const|]. apply D_div; [apply D_minus; [apply (Hh x Hx)|apply D_const]|apply D_const|lra].
        - cbv beta. field. lra. }
      eapply D_eq; [apply D_mult; [apply D_mult; [apply D_const|apply (D_cpow _ (vp_m v x) t _ HB Hb)]|apply (Hs x Hx)]|].
      cbv beta. field. lra.
    + intros sl ds h x c _. cbn. ring.
    + intros sl dh h x c _. cbn. rewrite Rplus_comm. reflexivity.
    + left. reflexivity.
Qed.

Lemma fa_exact L v : fa_n v = l_n L -> strength_exact L (fa_slip v) (fun _ => True) /\ rates_exact L (fa_slip v) 0 (fa_in v).
Proof.
  intros Hn. split.
  - apply (tau_component L _ _ (fun _ => 0)).
    + intros p Hp. cbn. lia.
    + intros p h. cbn. ring.
    + reflexivity.
  - apply (exact_per_system L (fa_slip v) 0 (fa_in v)
      (fun sl h k => fa_k v k * (1 - h k / fa_sat v k * copysign 1 (sl k)))
      (fun sl h k => - fa_k v k / fa_sat v k * Rabs (sl k))).
    + exact Hn.
    + intros sl h t vs vh Hs Hh Ha HP x Hx. cbn. pose proof (HP x ltac:(lia)) as Hd.
      eapply D_eq.
      * apply D_mult; [apply D_const|]. apply D_minus; [apply (Hs x Hx)|].
        apply D_mult; [apply D_div; [apply (Hh x Hx)|apply D_const|exact Hd]|].
        apply D_abs_safe; [apply (Hs x Hx)|apply (Ha x Hx)].
      * cbv beta. field. exact Hd.
    + intros sl ds h x c _. cbn. ring.
    + intros sl dh h x c _. cbn. rewrite Rplus_comm. reflexivity.
    + left. reflexivity.
Qed.

Lemma general_linear_exact L v ne : gl_n v = l_n L -> strength_exact L (general_linear v) (fun _ => True)
  /\ rates_exact L (general_linear v) ne (fun _ _ => True).
Proof.
  intros Hn. split.
  - apply (tau_component L _ _ (gl_tau0 v)).
    + intros p Hp. cbn. lia.
    + intros p h. cbn. ring.
    + reflexivity.
  - apply (exact_combined L (general_linear v) ne (fun _ _ => True)
      (fun sl h x j => gl_M v x j * gl_sign v (sl j)) (fun _ _ _ _ => 0)).
    + intros sl h t vs vh Hs Hh Ha _ x Hx. cbn.
      eapply D_eq.
      * apply (D_rsum _ _ _ (fun j => gl_M v x j * (gl_sign v (sl t j) * vs j))). intros j Hj. unfold gl_sign. destruct (gl_abs v).
        -- eapply D_eq; [apply D_mult; [apply D_const|apply D_abs_safe; [apply (Hs j Hj)|apply (Ha j Hj)]]|cbv beta; ring].
        -- eapply D_eq; [apply D_mult; [apply D_const|apply (Hs j Hj)]|cbv beta; ring].
      * unfold dot. rewrite (rsum_ext (gl_n v) _ (fun _ => 0)) by (intros; ring). rewrite rsum_0, Rplus_0_r.
        apply rsum_ext. intros j Hj. ring.
    + intros. cbn. apply rsum_ext. intros. cbv beta. ring.
    + intros. cbn. ring.
    + right. intros. reflexivity.
Qed.

Lemma simple_linear_exact L v ne : sm_n v = l_n L -> strength_exact L (simple_linear v) (fun _ => True)
  /\ rates_exact L (simple_linear v) ne (fun _ _ => True).
Proof.
  intros Hn. split.
  - intros p Hp c t w Hc _. cbn in *. eapply D_eq.
    + apply D_plus; [|apply D_const]. apply D_rsum. intros j Hj. apply D_mult; [apply D_const|apply (Hc j Hj)].
    + rewrite Rplus_0_r. unfold dot. apply rsum_ext. intros. cbv beta. ring.
  - apply (exact_per_system L (simple_linear v) ne (fun _ _ => True) (fun sl h k => copysign 1 (sl k)) (fun _ _ _ => 0)).
    + exact Hn.
    + intros sl h t vs vh Hs Hh Ha _ x Hx. cbn. eapply D_eq; [apply D_abs_safe; [apply (Hs x Hx)|apply (Ha x Hx)]|cbv beta; ring].
    + reflexivity.
    + intros. cbn. destruct (Nat.eqb c x); ring.
    + right. reflexivity.
Qed.

(** x |-> max(0,x)^2 *)
Lemma D_sqpos (f : R -> R) (t a k : R) : is_derive f t a ->
  is_derive (fun u => if Rlt_dec 0 (f u) then k * f u * f u else 0) t ((if Rlt_dec 0 (f t) then 2 * k * f t else 0) * a).
Proof.
  intros H. destruct (Rtotal_order (f t) 0) as [Hlt|[H0|Hgt]].
  - eapply (D_loc (fun _ => 0)).
    + eapply filter_imp; [|apply (loc_lt f t a 0 H Hlt)]. intros u Hu. cbn beta in Hu. destruct (Rlt_dec 0 (f u)); [lra|reflexivity].
    + destruct (Rlt_dec 0 (f t)); [lra|]. eapply D_eq; [apply D_const|cbv beta; ring].
  - destruct (Rlt_dec 0 (f t)); [lra|]. rewrite Rmult_0_l.
    apply (D_squeeze _ (fun u => k * f u * f u)).
    + intros u. destruct (Rlt_dec 0 (f u)); [apply Rle_refl|]. rewrite Rabs_R0. apply Rabs_pos.
    + rewrite H0. ring.
    + eapply D_eq; [apply D_mult; [apply D_mult; [apply D_const|exact H]|exact H]|]. cbv beta. rewrite H0. ring.
  - eapply (D_loc (fun u => k * f u * f u)).
    + eapply filter_imp; [|apply (loc_gt f t a 0 H Hgt)]. intros u Hu. cbn beta in Hu. destruct (Rlt_dec 0 (f u)); [reflexivity|lra].
    + destruct (Rlt_dec 0 (f t)); [|lra].
      eapply D_eq; [apply D_mult; [apply D_mult; [apply D_const|exact H]|exact H]|]. cbv beta. ring.
Qed.

Lemma lanl_exact L v : la_n v = l_n L -> strength_exact L (lanl_ti v) (fun _ => True)
  /\ rates_exact L (lanl_ti v) 0 (fun _ _ => True).
Proof.
  intros Hn. split.
  - intros p Hp c t w Hc _. cbn in *. rewrite Hn in *. destruct (l_twin L p) eqn:E.
    + eapply D_eq.
      * apply D_plus; [|apply D_const]. apply D_mult; [|apply D_const]. apply D_mult; [|apply D_const].
        apply (D_rsum _ _ _ (fun k => if l_twin L k then 0 else (if Rlt_dec 0 (c t k) then 2 * (la_C v (p - la_ns v)%nat k * l_b L k) * c t k else 0) * w k)).
        intros k Hk. destruct (l_twin L k); [apply D_const|].
        apply (D_sqpos (fun u => c u k)). apply (Hc k Hk).
      * cbv beta. unfold dot. rewrite !Rmult_0_r, !Rplus_0_r, <- !rsum_scal_r.
        apply rsum_ext. intros k Hk. destruct (l_twin L k); [ring|]. destruct (Rlt_dec 0 (c t k)); ring.
    + eapply D_eq.
      * apply D_plus; [|apply D_const]. apply D_mult; [apply D_const|apply (Hc p Hp)].
      * rewrite rsum_one by exact Hp. cbv beta. ring.
  - apply (exact_per_system L (lanl_ti v) 0 (fun _ _ => True)
      (fun sl h k => if l_twin L k then copysign 1 (sl k) else / 2 * (la_k1 v k - la_k2 v k * h k) * copysign 1 (sl k))
      (fun sl h k => if l_twin L k then 0 else - (/ 2) * la_k2 v k * Rabs (sl k))).
    + exact Hn.
    + intros sl h t vs vh Hs Hh Ha _ x Hx. cbn. destruct (l_twin L x).
      * eapply D_eq; [apply D_abs_safe; [apply (Hs x Hx)|apply (Ha x Hx)]|cbv beta; ring].
      * eapply D_eq.
        -- apply D_mult; [apply D_mult; [apply D_const|apply D_minus; [apply D_const|apply D_mult; [apply D_const|apply (Hh x Hx)]]]|].
           apply D_abs_safe; [apply (Hs x Hx)|apply (Ha x Hx)].
        -- cbv beta. ring.
    + intros sl ds h x c _. cbn. destruct (l_twin L x); ring.
    + intros sl dh h x c _. cbn. destruct (l_twin L x), (Nat.eqb c x); ring.
    + left. reflexivity.
Qed.

Lemma voce_factor tau_sat b tau0 nye : factor_exact (voce_slip tau_sat b tau0 nye).
Proof.
  intros s. cbn. eapply D_eq; [apply D_mult; [apply D_const|apply D_minus; [apply D_const|apply D_id]]|]. cbv beta. ring.
Qed.
Lemma linear_factor tau0 k1 nye : factor_exact (linear_slip tau0 k1 nye).
Proof. intros s. cbn. apply D_const. Qed.

Lemma D_sum_slip L (sl : R -> rates) t vs :
  (forall x, (x < l_n L)%nat -> is_derive (fun u => sl u x) t (vs x)) ->
  (forall p, (p < l_n L)%nat -> sl t p <> 0 \/ vs p = 0) ->
  is_derive (fun u => sum_slip L (sl u)) t (rsum (l_n L) (fun p => copysign 1 (sl t p) * vs p)).
Proof.
  intros Hs Ha. unfold sum_slip. apply D_rsum. intros p Hp. apply D_abs_safe; [apply (Hs p Hp)|apply (Ha p Hp)].
Qed.

Lemma sum_plastic_exact L n m ne : (forall i, (i < n)%nat -> factor_exact (m i)) ->
  strength_exact L (sum_plastic n m) (fun _ => True) /\ rates_exact L (sum_plastic n m) ne (fun _ _ => True).
Proof.
  intros Hf. split.
  - intros p Hp c t v Hc _. cbn in *. eapply D_eq.
    + apply D_rsum. intros i Hi. apply D_plus; [apply D_plus; [apply (Hc i Hi)|apply D_const]|apply D_const].
    + unfold dot. apply rsum_ext. intros. cbv beta. ring.
  - apply (exact_combined L (sum_plastic n m) ne (fun _ _ => True)
      (fun sl h x j => ps_f (m x) (h x) * copysign 1 (sl j)) (fun sl h x c => if Nat.eqb c x then ps_df (m x) (h x) * sum_slip L sl else 0)).
    + intros sl h t vs vh Hs Hh Ha _ x Hx. cbn in *.
      eapply D_eq.
      * apply D_mult; [|apply (D_sum_slip L sl t vs Hs Ha)].
        apply (D_comp (ps_f (m x)) (fun u => h u x)); [apply (Hh x Hx)|apply (Hf x Hx)].
      * rewrite rsum_one by exact Hx. rewrite <- rsum_scal. rewrite Rplus_comm. f_equal.
        -- apply rsum_ext. intros. cbv beta. ring.
        -- cbv beta. ring.
    + intros. cbn. unfold d_sum_slip. rewrite <- rsum_scal. apply rsum_ext. intros. cbv beta. ring.
    + intros. cbn. unfold d_sum_slip. rewrite <- rsum_scal. f_equal. apply rsum_ext. intros. cbv beta. ring.
    + right. intros. cbn. unfold d_sum_slip. rewrite <- rsum_scal. apply rsum_ext. intros. cbv beta. ring.
Qed.

Lemma plastic_exact L m ne : factor_exact m ->
  strength_exact L (plastic_slip m) (fun _ => True) /\ rates_exact L (plastic_slip m) ne (fun _ _ => True).
Proof.
  intros Hf. split.
  - intros p Hp c t v Hc _. cbn in *. eapply D_eq.
    + apply D_plus; [apply D_plus; [apply (Hc 0%nat ltac:(lia))|apply D_const]|apply D_const].
    + unfold dot. cbn. ring.
  - apply (exact_combined L (plastic_slip m) ne (fun _ _ => True)
      (fun sl h x j => ps_f m (h 0%nat) * copysign 1 (sl j)) (fun sl h x c => ps_df m (h 0%nat) * sum_slip L sl)).
    + intros sl h t vs vh Hs Hh Ha _ x Hx. cbn in *.
      eapply D_eq.
      * apply D_mult; [|apply (D_sum_slip L sl t vs Hs Ha)].
        apply (D_comp (ps_f m) (fun u => h u 0%nat)); [apply (Hh 0%nat ltac:(lia))|apply Hf].
      * unfold dot. cbn [rsum]. rewrite <- rsum_scal. rewrite Rplus_comm. f_equal.
        -- apply rsum_ext. intros. cbv beta. ring.
        -- cbv beta. ring.
    + intros. cbn. unfold d_sum_slip. rewrite <- rsum_scal. apply rsum_ext. intros. cbv beta. ring.
    + intros. cbn. unfold d_sum_slip. rewrite <- rsum_scal. f_equal. apply rsum_ext. intros. cbv beta. ring.
    + right. intros. cbn. unfold d_sum_slip. rewrite <- rsum_scal. apply rsum_ext. intros. cbv beta. ring.
Qed.
