From Verif Require Import Base.
From Verif Require Import Diff.
From Verif Require Import SolverModel NlModel NlSpec.
From Coq Require Import ZArith.

Lemma flt_true a b : flt a b = true <-> exists x y, a = Some x /\ b = Some y /\ x < y.
Proof.
  unfold flt. destruct a as [x|], b as [y|]; split; intros H; try discriminate; try (destruct H as (? & ? & ? & ? & ?); discriminate).
  - destruct (Rlt_dec x y); [eauto|discriminate].
  - destruct H as (p & q & E1 & E2 & L). injection E1 as ->. injection E2 as ->. destruct (Rlt_dec p q); [reflexivity|contradiction].
Qed.
Lemma goes_on_iff rt at_ nR nR0 r r0 : nR = Some r -> nR0 = Some r0 -> py_goes_on rt at_ nR nR0 = true <-> ~ py_converged rt at_ nR nR0.
Proof.
  intros -> ->. unfold py_goes_on, fgt, fmul, flt. split.
  - intros H (a & b & E1 & E2 & C). injection E1 as <-. injection E2 as <-. apply andb_prop in H.
    destruct (Rlt_dec (rt * r0) r), (Rlt_dec at_ r); destruct H as [H1 H2]; try discriminate. lra.
  - intros H. destruct (Rlt_dec (rt * r0) r); destruct (Rlt_dec at_ r); try reflexivity; exfalso; apply H; exists r, r0; repeat split; try reflexivity; lra.
Qed.
Lemma goes_on_not rt at_ nR nR0 : py_goes_on rt at_ nR nR0 = true -> ~ py_converged rt at_ nR nR0.
Proof.
  intros H. assert (H' := H). unfold py_goes_on in H. apply andb_prop in H. destruct H as [H1 H2]. unfold fgt in *. apply flt_true in H1. destruct H1 as (a & b & E1 & E2 & _).
  unfold fmul in E1. destruct nR0 as [r0|]; [|discriminate]. apply (goes_on_iff rt at_ nR (Some r0) b r0 E2 eq_refl), H'.
Qed.

Lemma loop_spec {X D V} (s : nsys X D V) dir len rt at_ miter fail d0 : sys_RJ s (sys_init s) = Some d0 ->
  forall fuel k x d, py_iterate s dir len rt at_ d0 k x d ->
  match py_loop fuel s dir len rt at_ miter fail (sys_norm s d0) (Z.of_nat k) x d with
  | Ret (x', d', i) => exists k', (k <= k')%nat /\ i = Z.of_nat k' /\ py_iterate s dir len rt at_ d0 k' x' d' /\
       (py_goes_on rt at_ (sys_norm s d') (sys_norm s d0) = false \/ (fail = false /\ (miter < i)%Z))
  | Raise _ => True
  end.
Proof.
  intros H0. induction fuel as [|fuel IH]; intros k x d Hk; cbn [py_loop]; [exact I|].
  destruct (py_goes_on _ _ _ _) eqn:G.
  2:{ exists k. split; [lia|]. split; [reflexivity|]. split; [exact Hk|]. left. exact G. }
  destruct (dir d) as [v|] eqn:Ed; [|exact I]. destruct (len x d v) as [f|] eqn:El; [|exact I].
  cbv zeta. destruct (sys_RJ s (sys_move s x f v)) as [d'|] eqn:ER; [|exact I].
  assert (Hn : py_iterate s dir len rt at_ d0 (S k) (sys_move s x f v) d') by (eapply pi_move; eauto using goes_on_not).
  destruct (Z.ltb_spec miter (Z.of_nat k + 1)) as [L|L].
  - destruct fail; [exact I|]. exists (S k). split; [lia|]. split; [lia|]. split; [exact Hn|]. right. split; [reflexivity|lia].
  - replace (Z.of_nat k + 1)%Z with (Z.of_nat (S k)) by lia. specialize (IH (S k) _ _ Hn).
    destruct (py_loop fuel _ _ _ _ _ _ _ _ _ _ _) as [[[x' d''] i]|]; [|exact I]. destruct IH as (k' & A & B). exists k'. split; [lia|exact B].
Qed.
Lemma loop_bound {X D V} (s : nsys X D V) dir len rt at_ miter fail nR0 : forall fuel i x d, (0 <= i <= Z.max 0 miter)%Z ->
  match py_loop fuel s dir len rt at_ miter fail nR0 i x d with Ret (_, _, i') => (i' <= Z.max 0 miter + (if fail then 0 else 1))%Z | Raise _ => True end.
Proof.
  induction fuel as [|fuel IH]; intros i x d Hi; cbn [py_loop]; [exact I|]. destruct (py_goes_on _ _ _ _); [|destruct fail; lia].
  destruct (dir d) as [v|]; [|exact I]. destruct (len x d v) as [f|]; [|exact I]. cbv zeta. destruct (sys_RJ s _) as [d'|]; [|exact I]. destruct (Z.ltb_spec miter (i + 1)).
  - destruct fail; [exact I|lia].
  - apply IH. lia.
Qed.
Lemma loop_fuel {X D V} (s : nsys X D V) dir len rt at_ miter fail nR0 : (forall x d v, len x d v <> Raise Spins) ->
  forall fuel i x d, (0 <= i)%Z -> (Z.max 0 (miter - i) < Z.of_nat fuel)%Z -> py_loop fuel s dir len rt at_ miter fail nR0 i x d <> Raise Spins.
Proof.
  intros HL. induction fuel as [|fuel IH]; intros i x d Hi Hf; [lia|]. cbn [py_loop]. destruct (py_goes_on _ _ _ _); [|discriminate].
  destruct (dir d) as [v|]; [|discriminate]. destruct (len x d v) as [f|e] eqn:E; [|intros Q; injection Q as ->; exact (HL _ _ _ E)].
  cbv zeta. destruct (sys_RJ s _) as [d'|]; [|discriminate]. destruct (Z.ltb_spec miter (i + 1)); [destruct fail; discriminate|].
  apply IH; lia.
Qed.

(** ** what a returned value is *)
Lemma run_result {X D V} (s : nsys X D V) dir len rt at_ miter fail x d i : py_run s dir len rt at_ miter fail = Ret (x, d, i) ->
  exists d0 k, sys_RJ s (sys_init s) = Some d0 /\ i = Z.of_nat k /\ py_iterate s (dir d0) len rt at_ d0 k x d /\ sys_RJ s x = Some d /\
    (i <= Z.max 0 miter + (if fail then 0 else 1))%Z /\
    ((fail = true \/ (i <= miter)%Z) -> py_converged rt at_ (sys_norm s d) (sys_norm s d0) \/ sys_norm s d = None \/ sys_norm s d0 = None).
Proof.
  unfold py_run. destruct (sys_RJ s (sys_init s)) as [d0|] eqn:E0; [|discriminate]. intros H.
  assert (S0 := loop_spec s (dir d0) len rt at_ miter fail d0 E0 (S (S (Z.to_nat miter))) 0 (sys_init s) d0 (pi_start _ _ _ _ _ _ E0)).
  cbn [Z.of_nat] in S0. rewrite H in S0. destruct S0 as (k & _ & Hi & Hk & C).
  assert (B := loop_bound s (dir d0) len rt at_ miter fail (sys_norm s d0) (S (S (Z.to_nat miter))) 0 (sys_init s) d0 ltac:(lia)). rewrite H in B.
  exists d0, k. split; [reflexivity|]. split; [exact Hi|]. split; [exact Hk|]. split; [inversion Hk; subst; assumption|]. split; [exact B|].
  intros Hf. destruct C as [G|[F L]]; [|destruct Hf; [congruence|lia]].
  destruct (sys_norm s d) as [r|]; [|right; left; reflexivity]. destruct (sys_norm s d0) as [r0|]; [|right; right; reflexivity].
  left. destruct (Rle_lt_dec r (rt * r0)) as [L|L]; [exists r, r0; auto|]. destruct (Rle_lt_dec r at_) as [L2|L2]; [exists r, r0; auto|].
  exfalso. unfold py_goes_on, fgt, fmul, flt in G. destruct (Rlt_dec (rt * r0) r); [|contradiction]. destruct (Rlt_dec at_ r); [discriminate|contradiction].
Qed.
Lemma run_converged {X D V} (s : nsys X D V) dir len rt at_ miter x d i : no_nan s -> py_run s dir len rt at_ miter true = Ret (x, d, i) ->
  exists d0, sys_RJ s (sys_init s) = Some d0 /\ sys_RJ s x = Some d /\ py_converged rt at_ (sys_norm s d) (sys_norm s d0) /\ (0 <= i <= Z.max 0 miter)%Z.
Proof.
  intros HN H. destruct (run_result s dir len rt at_ miter true x d i H) as (d0 & k & E0 & Hi & Hk & E & B & C). exists d0.
  split; [exact E0|]. split; [exact E|]. split; [|lia]. destruct (HN _ _ E) as [r Er]. destruct (HN _ _ E0) as [r0 Er0].
  destruct (C (or_introl eq_refl)) as [Q|[Q|Q]]; [exact Q|congruence|congruence].
Qed.
(** it stops, and raises only what the code raises, when there is no line search *)
Lemma run_stops {X D V} (s : nsys X D V) dir len rt at_ miter fail : (forall x d v, len x d v <> Raise Spins) ->
  py_run s dir len rt at_ miter fail <> Raise Spins.
Proof.
  intros HL. unfold py_run. destruct (sys_RJ s (sys_init s)) as [d0|]; [|discriminate]. apply loop_fuel; [exact HL|lia|lia].
Qed.
(** a residual that is not a number ends the iteration as if it had converged *)
Lemma nan_start {X D V} (s : nsys X D V) dir len rt at_ miter fail d0 : sys_RJ s (sys_init s) = Some d0 -> sys_norm s d0 = None ->
  py_run s dir len rt at_ miter fail = Ret (sys_init s, d0, 0%Z).
Proof. intros E N. unfold py_run. rewrite E, N. cbn [py_loop]. rewrite N. reflexivity. Qed.
Lemma nan_later {X D V} (s : nsys X D V) dir len rt at_ miter fail fuel nR0 i x d v f d' : sys_norm s d <> None ->
  py_goes_on rt at_ (sys_norm s d) nR0 = true -> dir d = Some v -> len x d v = Ret f -> sys_RJ s (sys_move s x f v) = Some d' -> sys_norm s d' = None ->
  (i < miter)%Z -> py_loop (S (S fuel)) s dir len rt at_ miter fail nR0 i x d = Ret (sys_move s x f v, d', (i + 1)%Z).
Proof.
  intros _ G Ed El ER N L. cbn [py_loop]. rewrite G, Ed, El. cbv zeta. rewrite ER. destruct (Z.ltb_spec miter (i + 1)); [lia|].
  unfold py_goes_on. rewrite N. unfold fgt, flt. destruct (fmul rt nR0); reflexivity.
Qed.

(** ** linear problems are solved in one step *)
Lemma loop_S {X D V} fuel (s : nsys X D V) dir len rt at_ miter fail nR0 i x d : py_loop (S fuel) s dir len rt at_ miter fail nR0 i x d =
  if py_goes_on rt at_ (sys_norm s d) nR0 then
    match dir d with
    | None => Raise LinAlgError
    | Some v => match len x d v with
      | Raise e => Raise e
      | Ret f => match sys_RJ s (sys_move s x f v) with
        | None => Raise ModelError
        | Some d' => if Z.ltb miter (i + 1) then (if fail then Raise MaximumIterations else Ret (sys_move s x f v, d', (i + 1)%Z))
            else py_loop fuel s dir len rt at_ miter fail nR0 (i + 1) (sys_move s x f v) d'
        end
      end
    end
  else Ret (x, d, i).
Proof. reflexivity. Qed.
Lemma linear_once n (A : mat) (b x0 : vec) (RJ : vec -> option (vec * mat)) solve rt at_ miter lin : exact_solve n solve -> 0 <= rt -> 0 <= at_ -> (1 <= miter)%Z ->
  (forall x, exists d, RJ x = Some d /\ veq n (fst d) (fun i => mv n A x i - b i) /\ forall i j, (i < n)%nat -> (j < n)%nat -> snd d i j = A i j) ->
  (forall d, RJ x0 = Some d -> exists v, solve (snd d) (fst d) = Some v) ->
  exists x d i, py_newton (vec_sys n x0 RJ solve) lin rt at_ miter LNone true = Ret (x, d, i) /\ (0 <= i <= 1)%Z /\
    (i = 1%Z -> veq n (mv n A x) b).
Proof.
  intros HS Hr Ha Hm HR HV. destruct (HR x0) as (d0 & E0 & F0 & G0). destruct (HV d0 E0) as [v Hv].
  assert (Z : forall i, (i < n)%nat -> mv n A (fun j => x0 j - 1 * v j) i - b i = 0).
  { intros i Hi. assert (E := HS _ _ _ Hv i Hi). rewrite (F0 i Hi) in E. unfold mv in *. rewrite (rsum_ext n (fun j => A i j * (x0 j - 1 * v j)) (fun j => A i j * x0 j - A i j * v j)) by (intros; ring).
    rewrite rsum_minus. rewrite (rsum_ext n (fun j => snd d0 i j * v j) (fun j => A i j * v j)) in E by (intros j Hj; rewrite (G0 i j Hi Hj); reflexivity). rewrite E. ring. }
  destruct (HR (fun j => x0 j - 1 * v j)) as (d1 & E1 & F1 & _).
  assert (N0 : norm2 n (fst d1) = 0).
  { unfold norm2, dot. rewrite (rsum_ext n _ (fun _ => 0)), rsum_0, sqrt_0; [reflexivity|]. intros i Hi. rewrite (F1 i Hi), (Z i Hi). ring. }
  unfold py_newton, py_run. cbn [sys_RJ sys_init vec_sys]. rewrite E0. rewrite loop_S. destruct (py_goes_on _ _ _ _).
  2:{ eexists _, _, _. split; [reflexivity|]. split; [lia|]. intros Q. discriminate. }
  cbn [sys_solve vec_sys]. rewrite Hv. cbn [py_len sys_RJ vec_sys sys_move]. rewrite E1.
  destruct (Z.ltb_spec miter (0 + 1)); [lia|]. rewrite loop_S. cbn [sys_norm vec_sys]. rewrite N0.
  assert (G2 : forall r, py_goes_on rt at_ (Some 0) (Some r) = false).
  { intros r. unfold py_goes_on, fgt, fmul, flt. destruct (Rlt_dec at_ 0); [lra|]. apply andb_false_r. }
  rewrite G2. eexists _, _, _. split; [reflexivity|]. split; [lia|]. intros _ i Hi. specialize (Z i Hi). lra.
Qed.

(** ** backtracking *)
Lemma backtrack_spec {X D V} (s : nsys X D V) lin tau c x d v : forall fuel k alpha,
  (forall j, (j < k)%nat -> exists d', sys_RJ s (sys_move s x (tau ^ j) v) = Some d' /\ fgt (sys_norm s d') (lin d v (c * tau ^ j)) = true) ->
  backtrack fuel s lin tau c x d v (tau ^ k) = Ret alpha -> first_acceptable s lin tau c x d v alpha.
Proof.
  induction fuel as [|fuel IH]; intros k alpha Hk H; cbn [backtrack] in H; destruct (sys_RJ s (sys_move s x (tau ^ k) v)) as [d'|] eqn:E; try discriminate;
    destruct (fgt _ _) eqn:G; try discriminate.
  - injection H as <-. exists k. split; [reflexivity|]. split; [exact Hk|]. eauto.
  - replace (tau ^ k * tau) with (tau ^ S k) in H by (cbn; ring). apply (IH (S k)); [|exact H]. intros j Hj.
    destruct (Nat.eq_dec j k) as [->|]; [eauto|apply Hk; lia].
  - injection H as <-. exists k. split; [reflexivity|]. split; [exact Hk|]. eauto.
Qed.
Lemma backtrack_first {X D V} (s : nsys X D V) lin tau c x d v fuel alpha :
  backtrack fuel s lin tau c x d v 1 = Ret alpha -> first_acceptable s lin tau c x d v alpha.
Proof. intros H. apply (backtrack_spec s lin tau c x d v fuel 0); [intros; lia|exact H]. Qed.
Lemma lin_value n d v k : veq n (mv n (snd d) v) (fst d) -> vlin n d v k = Some (norm2 n (fun i => (1 - k) * fst d i)).
Proof.
  intros E. unfold vlin. f_equal. unfold norm2, dot. f_equal. apply rsum_ext. intros i Hi. rewrite (E i Hi). ring.
Qed.
Lemma norm2_scal n k v : norm2 n (fun i => k * v i) = Rabs k * norm2 n v.
Proof.
  unfold norm2. replace (dot n (fun i => k * v i) (fun i => k * v i)) with (k * k * dot n v v).
  - rewrite sqrt_mult_alt by apply Rle_0_sqr. f_equal. rewrite <- sqrt_Rsqr_abs. reflexivity.
  - unfold dot. rewrite <- rsum_scal. apply rsum_ext. intros. ring.
Qed.
(** with an exact linear solve an accepted step reduces the residual *)
Lemma backtrack_reduces n init RJ solve tau c x d v fuel alpha : exact_solve n solve -> solve (snd d) (fst d) = Some v -> 0 < tau -> tau <= 1 -> 0 < c -> c < 1 ->
  0 < norm2 n (fst d) ->
  backtrack fuel (vec_sys n init RJ solve) (vlin n) tau c x d v 1 = Ret alpha ->
  0 < alpha <= 1 /\ exists d', RJ (fun j => x j - alpha * v j) = Some d' /\ norm2 n (fst d') <= (1 - c * alpha) * norm2 n (fst d) /\ norm2 n (fst d') < norm2 n (fst d).
Proof.
  intros HS Hv T0 T1 C0 C1 Hp H. destruct (backtrack_first _ _ _ _ _ _ _ _ _ H) as (k & -> & _ & d' & E & G).
  cbn [sys_RJ vec_sys sys_move sys_norm] in E, G. rewrite (lin_value n d v _ (HS _ _ _ Hv)) in G. rewrite norm2_scal in G.
  assert (P : 0 < tau ^ k) by (apply pow_lt, T0). assert (Q : tau ^ k <= 1). { rewrite <- (pow1 k). apply pow_incr. lra. }
  split; [lra|]. exists d'. split; [exact E|].
  assert (B : c * tau ^ k <= c * 1) by (apply Rmult_le_compat_l; lra). rewrite Rabs_pos_eq in G by lra.
  unfold fgt, flt in G. destruct (Rlt_dec _ _) as [|L] in G; [discriminate|]. split; [lra|].
  assert (0 < c * tau ^ k * norm2 n (fst d)) by (apply Rmult_lt_0_compat; [apply Rmult_lt_0_compat; assumption|assumption]). lra.
Qed.

(** ** the line search ends *)
Lemma slope_below (g : R -> R) a l : is_derive g 0 l -> l < a -> exists e, 0 < e /\ forall t, 0 < t < e -> g t < g 0 + a * t.
Proof.
  intros H L. apply is_derive_Reals in H. destruct (H (a - l) ltac:(lra)) as [e He]. exists e. split; [apply cond_pos|]. intros t Ht.
  specialize (He t ltac:(lra) ltac:(rewrite Rabs_pos_eq; lra)). rewrite Rplus_0_l in He. apply Rabs_def2 in He. destruct He as [He _].
  assert (Q : (g t - g 0) / t < a) by lra. apply (Rmult_lt_compat_r t) in Q; [|lra]. unfold Rdiv in Q. rewrite Rmult_assoc, Rinv_l, Rmult_1_r in Q by lra. lra.
Qed.
Lemma pow_small tau e : 0 < tau < 1 -> 0 < e -> exists k, tau ^ k < e.
Proof.
  intros HT He. destruct (pow_lt_1_zero tau ltac:(rewrite Rabs_pos_eq; lra) e He) as [N H]. exists N. specialize (H N ltac:(lia)).
  rewrite Rabs_pos_eq in H; [exact H|]. apply pow_le. lra.
Qed.
Lemma backtrack_end {X D V} (s : nsys X D V) lin tau c x d v k : (forall j d', sys_RJ s (sys_move s x (tau ^ j) v) = Some d' -> (k <= j)%nat -> fgt (sys_norm s d') (lin d v (c * tau ^ j)) = false) ->
  forall m j fuel, (k <= j + m)%nat -> (m <= fuel)%nat -> backtrack fuel s lin tau c x d v (tau ^ j) <> Raise Spins.
Proof.
  intros H. induction m as [|m IH]; intros j fuel Hk Hf.
  - destruct fuel; cbn [backtrack]; destruct (sys_RJ s _) as [d'|] eqn:E; try discriminate; rewrite (H j d' E ltac:(lia)); discriminate.
  - destruct fuel as [|fuel]; [lia|]. cbn [backtrack]. destruct (sys_RJ s _) as [d'|]; [|discriminate]. destruct (fgt _ _); [|discriminate].
    replace (tau ^ j * tau) with (tau ^ S j) by (cbn; ring). apply IH; lia.
Qed.
Lemma backtrack_ends n init (Rf : vec -> vec) (Jf : vec -> mat) solve tau c x v : exact_solve n solve -> solve (Jf x) (Rf x) = Some v -> 0 < tau < 1 -> 0 < c < 1 ->
  0 < norm2 n (Rf x) ->
  (forall i, (i < n)%nat -> is_derive (fun a => Rf (fun j => x j - a * v j) i) 0 (- mv n (Jf x) v i)) ->
  (forall i, (i < n)%nat -> Rf (fun j => x j - 0 * v j) i = Rf x i) ->
  let s := vec_sys n init (fun y => Some (Rf y, Jf y)) solve in
  exists N, forall fuel, (N <= fuel)%nat -> exists alpha, backtrack fuel s (vlin n) tau c x (Rf x, Jf x) v 1 = Ret alpha.
Proof.
  intros HS Hv HT HC Hp HD H0 s.
  assert (N00 : norm2 n (Rf (fun j => x j - 0 * v j)) = norm2 n (Rf x)).
  { unfold norm2, dot. f_equal. apply rsum_ext. intros i Hi. rewrite (H0 i Hi). reflexivity. }
  assert (DN : is_derive (fun a => norm2 n (Rf (fun j => x j - a * v j))) 0 (- norm2 n (Rf x))).
  { eapply D_eq; [apply (D_norm2 n (fun a => Rf (fun j => x j - a * v j)) 0 (fun i => - Rf x i))|].
    - intros i Hi. assert (Q := HD i Hi). rewrite (HS _ _ _ Hv i Hi) in Q. exact Q.
    - rewrite N00. exact Hp.
    - rewrite N00. assert (E : dot n (Rf (fun j => x j - 0 * v j)) (fun i => - Rf x i) = - (norm2 n (Rf x) * norm2 n (Rf x))).
      { rewrite norm2_sqr. unfold dot. rewrite <- rsum_opp. apply rsum_ext. intros i Hi. rewrite (H0 i Hi). ring. }
      rewrite E. field. lra. }
  destruct (slope_below _ (- c * norm2 n (Rf x)) _ DN) as (e & He & Hb).
  { assert (c * norm2 n (Rf x) < 1 * norm2 n (Rf x)) by (apply Rmult_lt_compat_r; lra). lra. }
  destruct (pow_small tau e HT He) as [k Hk]. exists k. intros fuel Hf.
  assert (NE : backtrack fuel s (vlin n) tau c x (Rf x, Jf x) v (tau ^ 0) <> Raise Spins).
  { apply (backtrack_end s (vlin n) tau c x (Rf x, Jf x) v k) with (m := k); [|lia|exact Hf]. intros j d' E Hj. cbn [s vec_sys sys_RJ sys_move] in E. injection E as <-.
    rewrite (lin_value n (Rf x, Jf x) v _ (HS _ _ _ Hv)). rewrite norm2_scal. cbn [s vec_sys sys_norm fst]. unfold fgt, flt.
    destruct (Rlt_dec _ _) as [L|]; [|reflexivity]. exfalso.
    assert (P : 0 < tau ^ j) by (apply pow_lt; lra). assert (Q : tau ^ j <= tau ^ k).
    { replace j with (k + (j - k))%nat by lia. rewrite pow_add. assert (tau ^ (j - k) <= 1). { rewrite <- (pow1 (j - k)). apply pow_incr. lra. }
      assert (0 < tau ^ k) by (apply pow_lt; lra). rewrite <- (Rmult_1_r (tau ^ k)) at 2. apply Rmult_le_compat_l; lra. }
    specialize (Hb (tau ^ j) ltac:(lra)). rewrite N00 in Hb.
    assert (P1 : tau ^ j <= 1). { rewrite <- (pow1 j). apply pow_incr. lra. }
    assert (c * tau ^ j <= 1 * 1) by (apply Rmult_le_compat; lra). rewrite Rabs_pos_eq in L by lra. lra. }
  rewrite pow_O in NE.
  assert (NR : forall f j e, backtrack f s (vlin n) tau c x (Rf x, Jf x) v j = Raise e -> e = Spins).
  { induction f as [|f IH]; intros j e0; cbn [backtrack s vec_sys sys_RJ]; destruct (fgt _ _); try discriminate; [congruence|apply IH]. }
  destruct (backtrack fuel s (vlin n) tau c x (Rf x, Jf x) v 1) as [al|e0] eqn:E; [eauto|]. exfalso. apply NE. rewrite (NR _ _ _ E). reflexivity.
Qed.

(** ** monotone: with the line search the residuals decrease at every iteration *)
Lemma newton_decreases n init RJ solve tau c rt at_ bt d0 : exact_solve n solve -> 0 < tau <= 1 -> 0 < c < 1 -> 0 <= at_ ->
  let s := vec_sys n init RJ solve in forall k x d, py_iterate s (sys_solve s) (py_len s (vlin n) (LBacktracking bt tau c)) rt at_ d0 k x d ->
  norm2 n (fst d) <= norm2 n (fst d0) /\ ((0 < k)%nat -> norm2 n (fst d) < norm2 n (fst d0)).
Proof.
  intros HS HT HC Ha s k x d Hk. induction Hk as [E|k x d v f d' Hk IH NC Ed El ER]; [split; [lra|lia]|].
  cbn [s vec_sys sys_solve] in Ed. cbn [py_len] in El.
  assert (Hp : 0 < norm2 n (fst d)).
  { destruct (Rle_lt_or_eq_dec 0 _ (norm2_nonneg n (fst d))) as [L|L]; [exact L|]. exfalso. apply NC. cbn [s vec_sys sys_norm].
    eexists _, _. split; [reflexivity|]. split; [reflexivity|]. right. lra. }
  destruct (backtrack_reduces n init RJ solve tau c x d v bt f HS Ed ltac:(lra) ltac:(lra) ltac:(lra) ltac:(lra) Hp El) as (_ & d2 & E2 & _ & L).
  cbn [s vec_sys sys_RJ sys_move] in ER. rewrite E2 in ER. injection ER as <-. destruct IH as [IH _]. split; [lra|intros _; lra].
Qed.

(** ** a scalar problem that converges only in the iteration after the last: it is solved, and the
    solver raises *)
Lemma late_convergence : exists RJ : R -> option (R * R), exists x1, RJ x1 = Some (0, 1) /\
  sys_move (scalar_sys 1 RJ) 1 1 1 = x1 /\ py_scalar (scalar_sys 1 RJ) (1 / 2) (1 / 2) 0 None = Raise MaximumIterations.
Proof.
  exists (fun x => Some (x, 1)), (1 - 1 * 1). split; [f_equal; f_equal; ring|]. split; [reflexivity|].
  unfold py_scalar, py_run. cbn [scalar_sys sys_init sys_RJ sys_norm fst snd sys_solve sys_move py_loop Z.to_nat].
  unfold py_goes_on, fgt, fmul, flt. rewrite Rabs_pos_eq by lra. destruct (Rlt_dec (1 / 2 * 1) 1); [|lra]. destruct (Rlt_dec (1 / 2) 1); [|lra]. cbn [andb].
  destruct (Req_EM_T 1 0); [lra|]. reflexivity.
Qed.
