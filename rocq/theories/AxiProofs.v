(** Proofs about the wall of a vessel. *)
From Verif Require Import Base Diff.
From Verif Require Import SolverModel SubstepModel CreepModel NlModel NlSpec UniModel UniSpec HardProofs ElasticProofs TestsProofs BarModel BarSpec AxiModel AxiSpec.
From Coq Require Import ZArith List Arith Lia.
Import ListNotations.

Lemma Nl_lerp xi v e : Nl xi v e = lerp xi v e.
Proof. unfold Nl, lerp. field. Qed.
Lemma lerp_pos a e xi : wall a -> (e < ax_ne a)%nat -> -1 <= xi <= 1 -> 0 < lerp xi (ax_mesh a) e.
Proof.
  intros (_ & H0 & Hi & _) He Hx. assert (P : forall k, (k <= ax_ne a)%nat -> 0 < ax_mesh a k).
  { induction k as [|k IH]; intros Hk; [exact H0|]. assert (0 < ax_mesh a k) by (apply IH; lia). assert (ax_mesh a k < ax_mesh a (S k)) by (apply Hi; lia). lra. }
  assert (0 < ax_mesh a e) by (apply P; lia). assert (ax_mesh a e < ax_mesh a (S e)) by (apply Hi; lia). unfold lerp.
  assert (0 <= (1 + xi) / 2 * (ax_mesh a (S e) - ax_mesh a e)) by (apply Rmult_le_pos; lra). lra.
Qed.
Lemma rsum_at n i (f : nat -> R) x : (i < n)%nat -> rsum n (fun k => if Nat.eqb k i then f k + x else f k) = rsum n f + x.
Proof.
  intros Hi. rewrite (rsum_ext n _ (fun k => f k + (if Nat.eqb k i then x else 0))) by (intros k _; destruct (Nat.eqb k i); ring).
  rewrite rsum_plus. f_equal. transitivity (x * 1); [|ring]. rewrite <- (rsum_pick n (fun _ => 1) i x Hi). apply rsum_ext. intros k _. ring.
Qed.
Lemma dot_at n f i x v : (i < n)%nat -> dot n (vadd_at f i x) v = dot n f v + x * v i.
Proof.
  intros Hi. unfold dot, vadd_at. rewrite <- (rsum_at n i (fun k => f k * v k) (x * v i) Hi). apply rsum_ext. intros k _.
  destruct (Nat.eqb k i) eqn:E; [apply Nat.eqb_eq in E; subst k; ring|reflexivity].
Qed.

(** ** the assembled forces are the virtual work *)
Definition pt_work (a : axi) (v : vec) (x : nat * R * R * gp) : R := let '(e, xi, w, q) := x in
  w * ((ax_mesh a (S e) - ax_mesh a e) / 2) * (gp_stress q 0%nat * ((v (S e) - v e) / (ax_mesh a (S e) - ax_mesh a e)) + (gp_stress q 1%nat - gp_stress q 0%nat) * (lerp xi v e / lerp xi (ax_mesh a) e)
   + v (S (ax_ne a)) * gp_stress q 2%nat / ax_t a).
Lemma asm_pt_work a e xi w s A acc q v : wall a -> (e < ax_ne a)%nat -> -1 <= xi <= 1 -> gp_stress q = s ->
  dot (S (S (ax_ne a))) (a_F (asm_pt a e xi w s A acc)) v = dot (S (S (ax_ne a))) (a_F acc) v + pt_work a v (e, xi, w, q).
Proof.
  intros Ha He Hx <-. assert (Pr := lerp_pos a e xi Ha He Hx). destruct Ha as (_ & H0 & Hi & Eri & Ero & Et & _). assert (Pl := Hi e He).
  assert (Pt : ax_t a <> 0).
  { rewrite Et, Ero, Eri. assert (G : forall k, (k < ax_ne a)%nat -> ax_mesh a 0%nat < ax_mesh a (S k)) by (induction k as [|k IH]; intros Hk; [apply Hi; lia|apply (Rlt_trans _ (ax_mesh a (S k))); [apply IH; lia|apply Hi; lia]]).
    destruct (ax_ne a) as [|m]; [lia|]. specialize (G m ltac:(lia)). lra. }
  cbn [a_F asm_pt]. rewrite !dot_at by lia. unfold pt_work, Bk, Nk, rad, len. cbn [Nat.eqb]. rewrite Nl_lerp. unfold lerp in *. field. repeat split; lra.
Qed.
Lemma sum_over_app {A} (l m : list A) f : sum_over (l ++ m) f = sum_over l f + sum_over m f.
Proof. unfold sum_over. induction l as [|x l IH]; cbn; [ring|]. unfold sum_over in *. rewrite IH. ring. Qed.
Lemma elem_work a old T d ez t e v : wall a -> (e < ax_ne a)%nat -> forall gps qs acc l acc', Forall (fun g => -1 <= fst g <= 1) gps -> length qs = length gps ->
  elem_RJ a old T d ez t e gps qs acc = Some (l, acc') -> length l = length gps /\
  dot (S (S (ax_ne a))) (a_F acc') v = dot (S (S (ax_ne a))) (a_F acc) v + sum_over (map (fun x => (e, fst (fst x), snd (fst x), snd x)) (combine gps l)) (pt_work a v).
Proof.
  intros Ha He gps. induction gps as [|[xi w] gps IH]; intros qs acc l acc' HF HL E.
  - cbn in E. injection E as <- <-. split; [reflexivity|]. cbn. ring.
  - destruct qs as [|q qs]; [discriminate|]. cbn [elem_RJ] in E. destruct (axi_pt a old T d ez t e xi q) as [[q' A]|] eqn:Ep; [|discriminate].
    destruct (elem_RJ a old T d ez t e gps qs _) as [[l1 acc1]|] eqn:Er; [|discriminate]. injection E as <- <-. inversion HF; subst.
    destruct (IH qs _ l1 acc1 ltac:(assumption) ltac:(cbn in HL; lia) Er) as [L1 D1]. split; [cbn; lia|]. rewrite D1.
    rewrite (asm_pt_work a e xi w _ A acc q' v Ha He ltac:(assumption) eq_refl). unfold sum_over. cbn [map combine fold_right fst snd]. ring.
Qed.
Lemma elems_work a old T d ez t v : wall a -> forall qss e acc ll acc', (e + length qss <= ax_ne a)%nat -> shaped a qss ->
  elems_RJ a old T d ez t e qss acc = Some (ll, acc') -> length ll = length qss /\ shaped a ll /\
  dot (S (S (ax_ne a))) (a_F acc') v = dot (S (S (ax_ne a))) (a_F acc) v + sum_over (points_from a e ll) (pt_work a v).
Proof.
  intros Ha qss. induction qss as [|qs qss IH]; intros e acc ll acc' Hl HS E.
  - cbn in E. injection E as <- <-. split; [reflexivity|]. split; [constructor|]. cbn. ring.
  - cbn [elems_RJ] in E. destruct (elem_RJ a old T d ez t e (ax_gp a) qs acc) as [[l acc1]|] eqn:E1; [|discriminate].
    destruct (elems_RJ a old T d ez t (S e) qss acc1) as [[ll1 acc2]|] eqn:E2; [|discriminate]. injection E as <- <-. inversion HS as [|? ? HS1 HS2]; subst. cbn in Hl.
    assert (HG : Forall (fun g => -1 <= fst g <= 1) (ax_gp a)) by apply Ha.
    destruct (elem_work a old T d ez t e v Ha ltac:(lia) (ax_gp a) qs acc l acc1 HG HS1 E1) as [L1 D1].
    destruct (IH (S e) acc1 ll1 acc2 ltac:(lia) HS2 E2) as (L2 & S2 & D2).
    split; [cbn; lia|]. split; [constructor; [lia|exact S2]|]. rewrite D2, D1. cbn [points_from]. rewrite sum_over_app. ring.
Qed.
Lemma dot_hat n f k : (k < n)%nat -> dot n f (hat k) = f k.
Proof.
  intros Hk. unfold dot, hat. rewrite (rsum_ext n _ (fun j => (if Nat.eqb j k then 1 else 0) * f j)) by (intros j _; ring). rewrite (rsum_pick n f k 1 Hk). ring.
Qed.
Lemma sum_over_ext {A} (l : list A) f g : (forall x, In x l -> f x = g x) -> sum_over l f = sum_over l g.
Proof. induction l as [|x l IH]; intros H; cbn; [reflexivity|]. unfold sum_over in IH. rewrite IH by (intros y Hy; apply H; right; exact Hy). rewrite H by (left; reflexivity). reflexivity. Qed.
Lemma sum_over_scal {A} (l : list A) c f : sum_over l (fun x => c * f x) = c * sum_over l f.
Proof. induction l as [|x l IH]; cbn; [ring|]. unfold sum_over in *. rewrite IH. ring. Qed.
Lemma t_pos a : wall a -> 0 < ax_t a /\ 0 < ax_ri a /\ ax_ri a < ax_ro a.
Proof.
  intros (Hn & H0 & Hi & Eri & Ero & Et & _). rewrite Et, Ero, Eri.
  assert (G : forall k, (k < ax_ne a)%nat -> ax_mesh a 0%nat < ax_mesh a (S k)) by (induction k as [|k IH]; intros Hk; [apply Hi; lia|apply (Rlt_trans _ (ax_mesh a (S k))); [apply IH; lia|apply Hi; lia]]).
  destruct (ax_ne a) as [|m]; [lia|]. specialize (G m ltac:(lia)). lra.
Qed.
Lemma residual_ok a old T t x Rv J ll s pl pr : wall a -> length (as_pts old) = ax_ne a -> shaped a (as_pts old) ->
  axi_RJ a old T pl pr t x = Some (Rv, J, ll) -> as_pts s = ll -> as_press s = pl -> as_ext s = pr ->
  length ll = ax_ne a /\ shaped a ll /\ forall k, (k < S (S (ax_ne a)))%nat -> Rv k = unbalanced a s k.
Proof.
  intros Ha HL HS E Es <- <-. unfold axi_RJ in E. destruct (elems_RJ a old T x (x (S (ax_ne a))) t 0 (as_pts old) asm0) as [[ll1 acc]|] eqn:E1; [|discriminate].
  injection E as <- <- <-. destruct (elems_work a old T x (x (S (ax_ne a))) t (fun _ => 0) Ha (as_pts old) 0%nat asm0 ll1 acc ltac:(lia) HS E1) as (L & S1 & _).
  split; [lia|]. split; [exact S1|]. intros k Hk.
  destruct (elems_work a old T x (x (S (ax_ne a))) t (hat k) Ha (as_pts old) 0%nat asm0 ll1 acc ltac:(lia) HS E1) as (_ & _ & D). rewrite !dot_hat in D by lia. rewrite D. cbn [a_F asm0].
  destruct (t_pos a Ha) as (Pt & Pri & Pro). unfold unbalanced, axi_ext, virtual_work, through_wall. rewrite Es. assert (Hne : (1 <= ax_ne a)%nat) by apply Ha.
  destruct (Nat.eqb k (S (ax_ne a))) eqn:Ek.
  - apply Nat.eqb_eq in Ek. subst k. rewrite Rplus_0_l.
    assert (Et : ax_ro a - ax_ri a = ax_t a) by (destruct Ha as (_ & _ & _ & _ & _ & Et & _); lra). rewrite Et.
    transitivity (/ ax_t a * sum_over (points_from a 0 ll1) (fun x0 => let '(e, xi, w, q) := x0 in w * ((ax_mesh a (S e) - ax_mesh a e) / 2) * gp_stress q 2%nat) - (as_press s * ax_ri a ^ 2 - as_ext s * ax_ro a ^ 2) / (ax_ro a ^ 2 - ax_ri a ^ 2)).
    2:{ field. split; [|lra]. assert (0 < (ax_ro a - ax_ri a) * (ax_ro a + ax_ri a)) by (apply Rmult_lt_0_compat; lra). lra. }
    rewrite <- sum_over_scal. f_equal; [|field; assert (0 < (ax_ro a - ax_ri a) * (ax_ro a + ax_ri a)) by (apply Rmult_lt_0_compat; lra); lra].
    assert (EQ : forall l e0, (e0 + length l <= ax_ne a)%nat -> forall x0, In x0 (points_from a e0 l) -> (fst (fst (fst x0)) < ax_ne a)%nat).
    { induction l as [|qs l IH]; intros e0 He x0; cbn [points_from]; [intros []|]. intros Hin. apply in_app_or in Hin. cbn in He. destruct Hin as [Hin|Hin]; [|apply (IH (S e0)); [lia|exact Hin]].
      apply in_map_iff in Hin. destruct Hin as (y & <- & _). cbn. lia. }
    apply sum_over_ext. intros [[[e xi] w] q] Hin. assert (He := EQ ll1 0%nat ltac:(lia) _ Hin). cbn in He. unfold pt_work, hat. rewrite Nat.eqb_refl. unfold lerp.
    replace (Nat.eqb e (S (ax_ne a))) with false by (symmetry; apply Nat.eqb_neq; lia). replace (Nat.eqb (S e) (S (ax_ne a))) with false by (symmetry; apply Nat.eqb_neq; lia). unfold Rdiv. ring.
  - apply Nat.eqb_neq in Ek. rewrite Rplus_0_l. f_equal.
    + apply sum_over_ext. intros [[[e xi] w] q] Hin. unfold pt_work. replace (hat k (S (ax_ne a))) with 0 by (unfold hat; destruct (Nat.eqb (S (ax_ne a)) k) eqn:E2; [apply Nat.eqb_eq in E2; lia|reflexivity]). unfold Rdiv. ring.
    + unfold hat. destruct (Nat.eqb k (ax_ne a)) eqn:E3; [apply Nat.eqb_eq in E3; subst k; rewrite Nat.eqb_refl; replace (Nat.eqb 0 (ax_ne a)) with false by (symmetry; apply Nat.eqb_neq; lia); ring|].
      replace (Nat.eqb (ax_ne a) k) with false by (symmetry; rewrite Nat.eqb_sym; exact E3). destruct (Nat.eqb k 0) eqn:E4; [apply Nat.eqb_eq in E4; subst k; cbn; ring|]. rewrite Nat.eqb_sym, E4. ring.
Qed.

(** ** a step that converged *)
Lemma pt_moved a old T d ez t e xi q q' A s : wall a -> (e < ax_ne a)%nat -> -1 <= xi <= 1 -> as_temp s = T -> as_disp s = d -> as_ez s = ez ->
  axi_pt a old T d ez t e xi q = Some (q', A) -> point_moved a t old s e xi q q'.
Proof.
  intros Ha He Hx <- <- <- E. assert (Pr := lerp_pos a e xi Ha He Hx). assert (Pl : ax_mesh a e < ax_mesh a (S e)) by (apply Ha; exact He).
  unfold axi_pt in E. cbv zeta in E. rewrite !Nl_lerp in E. destruct (upd _ _ _ _ _ _ _ _ _ _ _) as [r|] eqn:Eu; [|discriminate]. injection E as <- _.
  unfold point_moved. cbv zeta. cbn [gp_strain gp_tstrain gp_mstrain gp_stress gp_hist gp_estrain].
  split; [unfold axi_strain, len; cbn [Nat.eqb]; field; lra|]. split; [unfold axi_strain; cbn [Nat.eqb]; unfold rad; rewrite !Nl_lerp; field; lra|]. split; [reflexivity|].
  split; [intros k Hk; unfold axi_strain; destruct k as [|[|[|k]]]; try lia; reflexivity|].
  split; [intros k; unfold ones3; destruct (Nat.ltb k 3); ring|]. split; [intros k; ring|]. split; [|reflexivity].
  exists r. split; [exact Eu|]. split; reflexivity.
Qed.
Lemma elem_moved a old T d ez t e s : wall a -> (e < ax_ne a)%nat -> as_temp s = T -> as_disp s = d -> as_ez s = ez ->
  forall gps qs acc l acc', Forall (fun g => -1 <= fst g <= 1) gps -> length qs = length gps -> elem_RJ a old T d ez t e gps qs acc = Some (l, acc') ->
  forall k xi w, nth_error gps k = Some (xi, w) -> exists q q', nth_error qs k = Some q /\ nth_error l k = Some q' /\ point_moved a t old s e xi q q'.
Proof.
  intros Ha He ET Ed Ez gps. induction gps as [|[x0 w0] gps IH]; intros qs acc l acc' HF HL E k xi w Hk; [destruct k; discriminate|].
  destruct qs as [|q qs]; [discriminate|]. cbn [elem_RJ] in E. destruct (axi_pt a old T d ez t e x0 q) as [[q' A]|] eqn:Ep; [|discriminate].
  destruct (elem_RJ a old T d ez t e gps qs _) as [[l1 acc1]|] eqn:Er; [|discriminate]. injection E as <- <-. inversion HF as [|? ? HF1 HF2]; subst.
  destruct k as [|k]; cbn [nth_error] in *.
  - injection Hk as -> ->. exists q, q'. split; [reflexivity|]. split; [reflexivity|]. exact (pt_moved a old _ _ _ t e xi q q' A s Ha He HF1 eq_refl eq_refl eq_refl Ep).
  - apply (IH qs _ l1 acc1 HF2 ltac:(cbn in HL; lia) Er k xi w Hk).
Qed.
Lemma elems_moved a old T d ez t s : wall a -> as_temp s = T -> as_disp s = d -> as_ez s = ez ->
  forall qss e acc ll acc', (e + length qss <= ax_ne a)%nat -> shaped a qss -> elems_RJ a old T d ez t e qss acc = Some (ll, acc') ->
  forall j qs k xi w, nth_error qss j = Some qs -> nth_error (ax_gp a) k = Some (xi, w) ->
  exists qs' q q', nth_error ll j = Some qs' /\ nth_error qs k = Some q /\ nth_error qs' k = Some q' /\ point_moved a t old s (e + j) xi q q'.
Proof.
  intros Ha ET Ed Ez qss. induction qss as [|qs0 qss IH]; intros e acc ll acc' Hl HS E j qs k xi w Hj Hk; [destruct j; discriminate|].
  cbn [elems_RJ] in E. destruct (elem_RJ a old T d ez t e (ax_gp a) qs0 acc) as [[l acc1]|] eqn:E1; [|discriminate].
  destruct (elems_RJ a old T d ez t (S e) qss acc1) as [[ll1 acc2]|] eqn:E2; [|discriminate]. injection E as <- <-. inversion HS as [|? ? HS1 HS2]; subst. cbn in Hl.
  destruct j as [|j]; cbn [nth_error] in *.
  - injection Hj as <-. assert (HG : Forall (fun g => -1 <= fst g <= 1) (ax_gp a)) by apply Ha.
    destruct (elem_moved a old _ _ _ t e s Ha ltac:(lia) eq_refl eq_refl eq_refl (ax_gp a) qs0 acc l acc1 HG HS1 E1 k xi w Hk) as (q & q' & Q1 & Q2 & Q3).
    exists l, q, q'. rewrite Nat.add_0_r. repeat split; assumption || apply Q3.
  - replace (e + S j)%nat with (S e + j)%nat by lia. apply (IH (S e) acc1 ll1 acc2 ltac:(lia) HS2 E2 j qs k xi w Hj Hk).
Qed.
Lemma RJ_moved a old T pl pr t x Rv J ll s : wall a -> shape a old -> axi_RJ a old T pl pr t x = Some (Rv, J, ll) ->
  as_pts s = ll -> as_temp s = T -> as_disp s = x -> as_ez s = x (S (ax_ne a)) ->
  forall e k xi w, (e < ax_ne a)%nat -> nth_error (ax_gp a) k = Some (xi, w) -> exists q q', point old e k = Some q /\ point s e k = Some q' /\ point_moved a t old s e xi q q'.
Proof.
  intros Ha [HL HS] E Ep ET Ed Ez e k xi w He Hk. unfold axi_RJ in E. destruct (elems_RJ _ _ _ _ _ _ _ _ _) as [[ll1 acc]|] eqn:E1; [|discriminate]. injection E as _ _ <-.
  destruct (nth_error (as_pts old) e) as [qs|] eqn:Eq; [|apply nth_error_None in Eq; lia].
  destruct (elems_moved a old T x (x (S (ax_ne a))) t s Ha ET Ed Ez (as_pts old) 0%nat asm0 ll1 acc ltac:(lia) HS E1 e qs k xi w Eq Hk) as (qs' & q & q' & Q1 & Q2 & Q3 & Q4).
  exists q, q'. unfold point. rewrite Eq, Ep, Q1. split; [exact Q2|]. split; [exact Q3|exact Q4].
Qed.
Lemma loop_ok a tri old T pl pr t rtol atol nR0 : forall k x Rv J ll x' ll', axi_RJ a old T pl pr t x = Some (Rv, J, ll) -> (ax_con a = true -> x (S (ax_ne a)) = 0) ->
  axi_loop k a tri old T pl pr t rtol atol nR0 x Rv J ll = Some (x', ll') ->
  exists R' J', axi_RJ a old T pl pr t x' = Some (R', J', ll') /\ (ax_con a = true -> x' (S (ax_ne a)) = 0) /\ (axi_norm a R' <= atol \/ axi_norm a R' / nR0 <= rtol).
Proof.
  induction k as [|k IH]; intros x Rv J ll x' ll' E Hc; cbn [axi_loop]; (destruct (Rlt_dec atol (axi_norm a Rv)) as [L1|L1]; [destruct (Rlt_dec rtol (axi_norm a Rv / nR0)) as [L2|L2]|]).
  - discriminate.
  - injection 1 as <- <-. exists Rv, J. split; [exact E|]. split; [exact Hc|right; lra].
  - injection 1 as <- <-. exists Rv, J. split; [exact E|]. split; [exact Hc|left; lra].
  - destruct (axi_move a tri x Rv J) as [x1|] eqn:Em; [|discriminate]. destruct (axi_RJ a old T pl pr t x1) as [[[R1 J1] ll1]|] eqn:E1; [|discriminate].
    intros HL. apply (IH x1 R1 J1 ll1 x' ll' E1); [|destruct k; [discriminate|exact HL]].
    intros Hcon. unfold axi_move in Em. rewrite Hcon in Em. destruct (tri _ _ _ _ _) as [y|]; [|discriminate]. injection Em as <-. rewrite Nat.eqb_refl. apply Hc. exact Hcon.
  - injection 1 as <- <-. exists Rv, J. split; [exact E|]. split; [exact Hc|right; lra].
  - injection 1 as <- <-. exists Rv, J. split; [exact E|]. split; [exact Hc|left; lra].
Qed.
Lemma norm_ob a s Rv : (forall k, (k < S (S (ax_ne a)))%nat -> Rv k = unbalanced a s k) -> axi_norm a Rv = out_of_balance a s.
Proof.
  intros H. unfold axi_norm, out_of_balance. destruct (ax_con a); unfold norm2; f_equal; apply dot_ext; intros k Hk; apply H; lia.
Qed.
Lemma norm2_nonneg n v : 0 <= norm2 n v. Proof. unfold norm2. apply sqrt_pos. Qed.
Lemma axi_norm_nonneg a v : 0 <= axi_norm a v. Proof. unfold axi_norm. destruct (ax_con a); apply norm2_nonneg. Qed.
Lemma take_step_ok a tri rows old t trec rtol atol ilimit predict s : wall a -> shape a old -> 0 <= atol -> hd_error rows = Some old ->
  take_step a tri rows t trec rtol atol ilimit predict = Some s -> wall_follows a rtol atol t old s /\ as_time s = trec /\ shape a s.
Proof.
  intros Ha Hs Hat Hh. destruct rows as [|o rows]; [discriminate|]. cbn in Hh. injection Hh as ->. unfold take_step. cbv zeta.
  set (T := fun k => ax_T a (ax_mesh a k) t). set (x0 := if ax_con a then _ else _).
  destruct (axi_RJ a old T (ax_p a t) (ax_pext a t) t x0) as [[[R0 J0] ll0]|] eqn:E0; [|discriminate].
  assert (Hc0 : ax_con a = true -> x0 (S (ax_ne a)) = 0) by (intros Hc; unfold x0; rewrite Hc, Nat.eqb_refl; reflexivity).
  destruct ilimit as [|n]; [discriminate|]. destruct (axi_loop (S n) _ _ _ _ _ _ _ _ _ _ _ _ _ _) as [[x' ll']|] eqn:El; [|discriminate]. injection 1 as <-.
  destruct (loop_ok a tri old T (ax_p a t) (ax_pext a t) t rtol atol (axi_norm a R0) (S n) x0 R0 J0 ll0 x' ll' E0 Hc0 El) as (R' & J' & E' & Hc' & St).
  set (s := {| as_time := trec; as_press := ax_p a t; as_ext := ax_pext a t; as_temp := T; as_disp := x'; as_ez := x' (S (ax_ne a)); as_pts := ll' |}).
  set (s0 := {| as_time := trec; as_press := ax_p a t; as_ext := ax_pext a t; as_temp := T; as_disp := x0; as_ez := x0 (S (ax_ne a)); as_pts := ll0 |}).
  destruct (residual_ok a old T t x' R' J' ll' s _ _ Ha (proj1 Hs) (proj2 Hs) E' eq_refl eq_refl eq_refl) as (L' & S' & N').
  destruct (residual_ok a old T t x0 R0 J0 ll0 s0 _ _ Ha (proj1 Hs) (proj2 Hs) E0 eq_refl eq_refl eq_refl) as (_ & _ & N0).
  split; [|split; [reflexivity|split; assumption]]. split.
  - split; [reflexivity|]. split; [reflexivity|]. split; [reflexivity|]. split; [exact Hc'|]. exact (RJ_moved a old T _ _ t x' R' J' ll' s Ha Hs E' eq_refl eq_refl eq_refl eq_refl).
  - exists s0. split.
    + split; [reflexivity|]. split; [reflexivity|]. split; [reflexivity|]. split; [exact Hc0|]. exact (RJ_moved a old T _ _ t x0 R0 J0 ll0 s0 Ha Hs E0 eq_refl eq_refl eq_refl eq_refl).
    + rewrite <- (norm_ob a s R' N'), <- (norm_ob a s0 R0 N0). destruct (Req_dec (axi_norm a R0) 0) as [Z|Z].
      * left. cbn [axi_loop] in El. destruct (Rlt_dec atol (axi_norm a R0)) as [L|L]; [lra|]. injection El as <- <-.
        rewrite E0 in E'. injection E' as <- _. lra.
      * destruct St as [St|St]; [left; exact St|right]. assert (P := axi_norm_nonneg a R0). apply Rmult_le_reg_r with (/ axi_norm a R0); [apply Rinv_0_lt_compat; lra|].
        rewrite Rmult_assoc, Rinv_r by exact Z. rewrite Rmult_1_r. exact St.
Qed.
