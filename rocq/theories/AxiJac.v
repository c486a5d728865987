(** The matrix assembled for the wall of a vessel, and the Newton step. *)
From Verif Require Import Base Diff.
From Verif Require Import SolverModel SubstepModel CreepModel NlModel NlSpec UniModel UniSpec HardProofs ElasticProofs BarModel BarSpec AxiModel AxiSpec AxiProofs.
From Coq Require Import ZArith List Arith Lia.
Import ListNotations.

(** change of stress component i of a point for a change v *)
Definition dsig (a : axi) (A : mat) (e : nat) (xi : R) (v : vec) (i : nat) : R :=
  A i 0%nat * axi_strain a v (v (S (ax_ne a))) e xi 0%nat + A i 1%nat * axi_strain a v (v (S (ax_ne a))) e xi 1%nat + A i 2%nat * axi_strain a v (v (S (ax_ne a))) e xi 2%nat.
(** force of a point with stresses s on entry k *)
Definition fpt (a : axi) (e : nat) (xi w : R) (s : vec) (k : nat) : R :=
  (if Nat.eqb k e then w * (s 0%nat * Bk (len a e) 0 + (s 1%nat - s 0%nat) * Nk xi (rad a e xi) 0) * len a e / 2 else 0)
  + (if Nat.eqb k (S e) then w * (s 0%nat * Bk (len a e) 1 + (s 1%nat - s 0%nat) * Nk xi (rad a e xi) 1) * len a e / 2 else 0)
  + (if Nat.eqb k (S (ax_ne a)) then w * s 2%nat * len a e / 2 / ax_t a else 0).
Lemma asm_F a e xi w s A acc k : (e < ax_ne a)%nat -> a_F (asm_pt a e xi w s A acc) k = a_F acc k + fpt a e xi w s k.
Proof.
  intros He. cbn [a_F asm_pt]. unfold vadd_at, fpt. destruct (Nat.eq_dec k e) as [->|N1]; [|destruct (Nat.eq_dec k (S e)) as [->|N2]].
  - rewrite Nat.eqb_refl. replace (Nat.eqb e (S e)) with false by (symmetry; apply Nat.eqb_neq; lia). replace (Nat.eqb e (S (ax_ne a))) with false by (symmetry; apply Nat.eqb_neq; lia). ring.
  - rewrite Nat.eqb_refl. replace (Nat.eqb (S e) e) with false by (symmetry; apply Nat.eqb_neq; lia). replace (Nat.eqb (S e) (S (ax_ne a))) with false by (symmetry; apply Nat.eqb_neq; lia). ring.
  - replace (Nat.eqb k e) with false by (symmetry; apply Nat.eqb_neq; lia). replace (Nat.eqb k (S e)) with false by (symmetry; apply Nat.eqb_neq; lia). destruct (Nat.eqb k (S (ax_ne a))); ring.
Qed.
Lemma asm_mv a e xi w s A acc v k : (e < ax_ne a)%nat -> (k < S (S (ax_ne a)))%nat -> len a e <> 0 -> rad a e xi <> 0 ->
  axi_mv a (asm_pt a e xi w s A acc) v k = axi_mv a acc v k + fpt a e xi w (dsig a A e xi v) k.
Proof.
  intros He Hk Hl Hr. unfold axi_mv, fpt. destruct (Nat.eqb k (S (ax_ne a))) eqn:Ek.
  - apply Nat.eqb_eq in Ek. subst k. replace (Nat.eqb (S (ax_ne a)) e) with false by (symmetry; apply Nat.eqb_neq; lia). replace (Nat.eqb (S (ax_ne a)) (S e)) with false by (symmetry; apply Nat.eqb_neq; lia).
    cbn [a_21 a_22 asm_pt]. rewrite !dot_at by lia. unfold dsig, axi_strain, Bk, Nk, Nl, Rdiv. cbn [Nat.eqb]. ring.
  - apply Nat.eqb_neq in Ek. assert (Hk' : (k < S (ax_ne a))%nat) by lia. unfold tri_mv. cbn [a_du a_d a_dl a_12 asm_pt]. unfold vadd_at.
    destruct (Nat.eq_dec k e) as [->|N1]; [|destruct (Nat.eq_dec k (S e)) as [->|N2]].
    + rewrite Nat.eqb_refl. replace (Nat.eqb e (S e)) with false by (symmetry; apply Nat.eqb_neq; lia). replace (Nat.ltb (S e) (S (ax_ne a))) with true by (symmetry; apply Nat.ltb_lt; lia).
      assert (HM : forall X, match e with O => 0 | S j => (if Nat.eqb j e then a_dl acc j + X else a_dl acc j) * v j end = match e with O => 0 | S j => a_dl acc j * v j end).
      { intros X. destruct e as [|j]; [reflexivity|]. replace (Nat.eqb j (S j)) with false by (symmetry; apply Nat.eqb_neq; lia). reflexivity. }
      rewrite HM. generalize (match e with O => 0 | S j => a_dl acc j * v j end). intros Y.
      unfold dsig, axi_strain, Bk, Nk, Nl, Rdiv. cbn [Nat.eqb]. rewrite ?Nat.eqb_refl. ring.
    + rewrite Nat.eqb_refl. replace (Nat.eqb (S e) e) with false by (symmetry; apply Nat.eqb_neq; lia).
      destruct (Nat.ltb (S (S e)) (S (ax_ne a))); unfold dsig, axi_strain, Bk, Nk, Nl, Rdiv; cbn [Nat.eqb]; rewrite ?Nat.eqb_refl; ring.
    + replace (Nat.eqb k e) with false by (symmetry; apply Nat.eqb_neq; lia). replace (Nat.eqb k (S e)) with false by (symmetry; apply Nat.eqb_neq; lia).
      assert (HM : forall X, match k with O => 0 | S j => (if Nat.eqb j e then a_dl acc j + X else a_dl acc j) * v j end = match k with O => 0 | S j => a_dl acc j * v j end).
      { intros X. destruct k as [|j]; [reflexivity|]. replace (Nat.eqb j e) with false by (symmetry; apply Nat.eqb_neq; lia). reflexivity. }
      rewrite HM.
      ring.
Qed.

(** ** the matrix is the derivative *)
Lemma strain_path a x w v e xi : path (S (S (ax_ne a))) x w v -> (e < ax_ne a)%nat -> rad a e xi <> 0 -> len a e <> 0 ->
  forall i, is_derive (fun z => axi_strain a (x z) (x z (S (ax_ne a))) e xi i) w (axi_strain a v (v (S (ax_ne a))) e xi i).
Proof.
  intros Hx He Hr Hl i. assert (D0 := Hx e ltac:(lia)). assert (D1 := Hx (S e) ltac:(lia)). assert (Dz := Hx (S (ax_ne a)) ltac:(lia)).
  unfold axi_strain. destruct (Nat.eqb i 0); [|destruct (Nat.eqb i 1); [|destruct (Nat.eqb i 2); [exact Dz|apply D_const]]].
  - apply (D_ext (fun z => / len a e * (x z (S e) - x z e))); [intros u; field; exact Hl|]. eapply D_eq; [apply D_mult; [apply D_const|apply D_minus; [exact D1|exact D0]]|cbv beta; field; exact Hl].
  - unfold Nl. apply (D_ext (fun z => / rad a e xi * ((1 - xi) / 2 * x z e + (1 + xi) / 2 * x z (S e)))); [intros u; field; exact Hr|].
    eapply D_eq; [apply D_mult; [apply D_const|apply D_plus; (apply D_mult; [apply D_const|eassumption])]|cbv beta; field; exact Hr].
Qed.
Lemma pt_path a old T x w v t e xi q (r : R -> gp * mat) : path (S (S (ax_ne a))) x w v -> (e < ax_ne a)%nat -> rad a e xi <> 0 -> len a e <> 0 -> pt_slope a old T (x w) t e xi q ->
  locally w (fun z => axi_pt a old T (x z) (x z (S (ax_ne a))) t e xi q = Some (r z)) ->
  forall i, (i < 3)%nat -> is_derive (fun z => gp_stress (fst (r z)) i) w (dsig a (snd (r w)) e xi v i).
Proof.
  intros Hx He Hr Hl HS HU i Hi.
  set (ts := fun k => gp_tstrain q k + pm_alpha (ax_mat a e) (Nl xi T e) * (Nl xi T e - Nl xi (as_temp old) e) * ones3 k).
  set (y := fun z => (fun k => axi_strain a (x z) (x z (S (ax_ne a))) e xi k - ts k) : vec).
  set (f := fun E => upd (ax_mat a e) E (gp_mstrain q) (Nl xi T e) (Nl xi (as_temp old) e) t (as_time old) (gp_stress q) (gp_hist q) 0 0).
  assert (HP : forall z, axi_pt a old T (x z) (x z (S (ax_ne a))) t e xi q = match f (y z) with None => None | Some p =>
     Some ({| gp_strain := axi_strain a (x z) (x z (S (ax_ne a))) e xi; gp_tstrain := ts; gp_mstrain := y z; gp_estrain := pm_estrain (ax_mat a e) (pr_s p) (Nl xi T e) (pr_h p); gp_stress := pr_s p; gp_hist := pr_h p |}, pr_A p) end) by (intros z; reflexivity).
  set (dflt := {| pr_s := fun _ => 0; pr_h := fun _ => 0; pr_A := fun _ _ => 0; pr_u := 0; pr_p := 0 |}).
  set (rr := fun z => match f (y z) with Some p => p | None => dflt end).
  assert (HF : locally w (fun z => f (y z) = Some (rr z) /\ gp_stress (fst (r z)) = pr_s (rr z) /\ snd (r z) = pr_A (rr z))).
  { eapply filter_imp; [|exact HU]. intros z Ez. cbv beta in Ez. rewrite HP in Ez. unfold rr. destruct (f (y z)) as [p|]; [|discriminate]. injection Ez as Ez. rewrite <- Ez. repeat split. }
  assert (W := locally_singleton _ _ HF). destruct W as (W1 & W2 & W3).
  assert (EX : exact_at f (y w)).
  { assert (E := locally_singleton _ _ HU). cbv beta in E. assert (Q := HS (fst (r w)) (snd (r w)) ltac:(rewrite E; destruct (r w); reflexivity)). fold f in Q. rewrite HP, W1 in E. injection E as E. rewrite <- E in Q. exact Q. }
  specialize (EX y rr w (fun k => axi_strain a v (v (S (ax_ne a))) e xi k) eq_refl).
  assert (Py : path 6 y w (fun k => axi_strain a v (v (S (ax_ne a))) e xi k)).
  { intros k _. unfold y. eapply D_eq; [apply D_minus; [apply (strain_path a x w v e xi Hx He Hr Hl k)|apply D_const]|ring]. }
  assert (FI : locally w (fun z => f (y z) = Some (rr z))) by (eapply filter_imp; [|exact HF]; intros z [Q _]; exact Q).
  specialize (EX Py FI i ltac:(lia)). apply (D_loc (fun z => pr_s (rr z) i)); [eapply filter_imp; [|exact HF]; intros z (_ & Q & _); rewrite Q; reflexivity|].
  eapply D_eq; [exact EX|]. rewrite W3. unfold mv, dot, dsig. cbn [rsum]. unfold axi_strain at 4 5 6. cbn [Nat.eqb]. ring.
Qed.
Lemma fpt_path a e xi w (s : R -> vec) u (ds : vec) k : (forall i, (i < 3)%nat -> is_derive (fun z => s z i) u (ds i)) -> is_derive (fun z => fpt a e xi w (s z) k) u (fpt a e xi w ds k).
Proof.
  intros H. assert (D0 := H 0%nat ltac:(lia)). assert (D1 := H 1%nat ltac:(lia)). assert (D2 := H 2%nat ltac:(lia)). unfold fpt. apply D_plus; [apply D_plus|].
  - destruct (Nat.eqb k e); [|apply D_const]. apply (D_ext (fun z => (w * Bk (len a e) 0 * len a e / 2) * s z 0%nat + (w * Nk xi (rad a e xi) 0 * len a e / 2) * (s z 1%nat - s z 0%nat))); [intros z; field|].
    eapply D_eq; [apply D_plus; (apply D_mult; [apply D_const|]); [exact D0|apply D_minus; [exact D1|exact D0]]|cbv beta; field].
  - destruct (Nat.eqb k (S e)); [|apply D_const]. apply (D_ext (fun z => (w * Bk (len a e) 1 * len a e / 2) * s z 0%nat + (w * Nk xi (rad a e xi) 1 * len a e / 2) * (s z 1%nat - s z 0%nat))); [intros z; field|].
    eapply D_eq; [apply D_plus; (apply D_mult; [apply D_const|]); [exact D0|apply D_minus; [exact D1|exact D0]]|cbv beta; field].
  - destruct (Nat.eqb k (S (ax_ne a))); [|apply D_const]. apply (D_ext (fun z => (w * len a e / 2 / ax_t a) * s z 2%nat)); [intros z; unfold Rdiv; ring|].
    eapply D_eq; [apply D_mult; [apply D_const|exact D2]|cbv beta; unfold Rdiv; ring].
Qed.
Definition asm_path (a : axi) (acc : R -> asm) (w : R) (v : vec) : Prop := forall k, (k < S (S (ax_ne a)))%nat -> is_derive (fun z => a_F (acc z) k) w (axi_mv a (acc w) v k).
Lemma elem_path a old T x u v t e : wall a -> (e < ax_ne a)%nat -> path (S (S (ax_ne a))) x u v ->
  forall gps qs (acc : R -> asm) (L : R -> list gp) (acc' : R -> asm), Forall (fun g => -1 <= fst g <= 1) gps -> (forall xi w q, In (xi, w) gps -> In q qs -> pt_slope a old T (x u) t e xi q) ->
  asm_path a acc u v -> locally u (fun z => elem_RJ a old T (x z) (x z (S (ax_ne a))) t e gps qs (acc z) = Some (L z, acc' z)) -> asm_path a acc' u v.
Proof.
  intros Ha He Hx gps. induction gps as [|[xi w] gps IH]; intros qs acc L acc' HF HS HA HU.
  - assert (E := locally_singleton _ _ HU). cbn in E. injection E as _ E. intros k Hk. rewrite <- E. apply (D_loc (fun z => a_F (acc z) k)); [|apply HA; exact Hk].
    eapply filter_imp; [|exact HU]. intros z Ez. cbn in Ez. injection Ez as _ <-. reflexivity.
  - destruct qs as [|q qs].
    + assert (E := locally_singleton _ _ HU). cbn in E. injection E as _ E. intros k Hk. rewrite <- E. apply (D_loc (fun z => a_F (acc z) k)); [|apply HA; exact Hk].
      eapply filter_imp; [|exact HU]. intros z Ez. cbn in Ez. injection Ez as _ <-. reflexivity.
    + inversion HF as [|? ? HF1 HF2]; subst. cbn [fst] in HF1.
      assert (Hr : rad a e xi <> 0) by (unfold rad; rewrite Nl_lerp; assert (Q := lerp_pos a e xi Ha He HF1); lra).
      assert (Hl : len a e <> 0) by (unfold len; assert (Q : ax_mesh a e < ax_mesh a (S e)) by (apply Ha; exact He); lra).
      set (r := fun z => match axi_pt a old T (x z) (x z (S (ax_ne a))) t e xi q with Some p => p | None => (q, fun _ _ => 0) end).
      assert (HP : locally u (fun z => axi_pt a old T (x z) (x z (S (ax_ne a))) t e xi q = Some (r z))).
      { eapply filter_imp; [|exact HU]. intros z Ez. cbn [elem_RJ] in Ez. unfold r. destruct (axi_pt a old T (x z) (x z (S (ax_ne a))) t e xi q) as [p|]; [reflexivity|discriminate]. }
      apply (IH qs (fun z => asm_pt a e xi w (gp_stress (fst (r z))) (snd (r z)) (acc z)) (fun z => tl (L z)) acc' HF2).
      * intros xi' w' q' H1 H2. apply (HS xi' w' q'); right; assumption.
      * intros k Hk. rewrite asm_mv by assumption. apply (D_ext (fun z => a_F (acc z) k + fpt a e xi w (gp_stress (fst (r z))) k)); [intros z; symmetry; apply asm_F; exact He|].
        apply D_plus; [apply HA; exact Hk|]. apply (fpt_path a e xi w (fun z => gp_stress (fst (r z))) u). intros i Hi.
        apply (pt_path a old T x u v t e xi q r Hx He Hr Hl); [apply (HS xi w q); left; reflexivity|exact HP|exact Hi].
      * assert (HB := filter_and _ _ HU HP). eapply filter_imp; [|exact HB]. intros z [Ez Ep]. cbn [elem_RJ] in Ez. rewrite Ep in Ez. destruct (r z) as [q' A]. cbn [fst snd].
        destruct (elem_RJ a old T (x z) (x z (S (ax_ne a))) t e gps qs (asm_pt a e xi w (gp_stress q') A (acc z))) as [[l1 acc1]|]; [|discriminate]. injection Ez as <- <-. reflexivity.
Qed.
Lemma elems_path a old T x u v t : wall a -> path (S (S (ax_ne a))) x u v ->
  forall qss e (acc : R -> asm) (L : R -> list (list gp)) (acc' : R -> asm), (e + length qss <= ax_ne a)%nat ->
  (forall j qs xi w q, nth_error qss j = Some qs -> In (xi, w) (ax_gp a) -> In q qs -> pt_slope a old T (x u) t (e + j) xi q) ->
  asm_path a acc u v -> locally u (fun z => elems_RJ a old T (x z) (x z (S (ax_ne a))) t e qss (acc z) = Some (L z, acc' z)) -> asm_path a acc' u v.
Proof.
  intros Ha Hx qss. induction qss as [|qs qss IH]; intros e acc L acc' Hl HS HA HU.
  - assert (E := locally_singleton _ _ HU). cbn in E. injection E as _ E. intros k Hk. rewrite <- E. apply (D_loc (fun z => a_F (acc z) k)); [|apply HA; exact Hk].
    eapply filter_imp; [|exact HU]. intros z Ez. cbn in Ez. injection Ez as _ <-. reflexivity.
  - cbn [length] in Hl.
    set (r := fun z => match elem_RJ a old T (x z) (x z (S (ax_ne a))) t e (ax_gp a) qs (acc z) with Some p => p | None => ([], acc z) end).
    assert (HP : locally u (fun z => elem_RJ a old T (x z) (x z (S (ax_ne a))) t e (ax_gp a) qs (acc z) = Some (fst (r z), snd (r z)))).
    { eapply filter_imp; [|exact HU]. intros z Ez. cbn [elems_RJ] in Ez. unfold r. destruct (elem_RJ a old T (x z) (x z (S (ax_ne a))) t e (ax_gp a) qs (acc z)) as [[l p]|]; [reflexivity|discriminate]. }
    apply (IH (S e) (fun z => snd (r z)) (fun z => tl (L z)) acc'); [lia| | |].
    + intros j qs' xi w q Hj Hg Hq. replace (S e + j)%nat with (e + S j)%nat by lia. apply (HS (S j) qs' xi w q Hj Hg Hq).
    + apply (elem_path a old T x u v t e Ha ltac:(lia) Hx (ax_gp a) qs acc (fun z => fst (r z)) (fun z => snd (r z))); [apply Ha| |exact HA|exact HP].
      intros xi w q Hg Hq. replace e with (e + 0)%nat by lia. apply (HS 0%nat qs xi w q eq_refl Hg Hq).
    + assert (HB := filter_and _ _ HU HP). eapply filter_imp; [|exact HB]. intros z [Ez Ep]. cbn [elems_RJ] in Ez. rewrite Ep in Ez.
      destruct (elems_RJ a old T (x z) (x z (S (ax_ne a))) t (S e) qss (snd (r z))) as [[l1 acc1]|]; [|discriminate]. injection Ez as <- <-. reflexivity.
Qed.
Lemma axi_jacobian a old T pl pr t (x : R -> vec) u v (Rz : R -> vec) (Jz : R -> asm) (Lz : R -> list (list gp)) : wall a -> shape a old -> path (S (S (ax_ne a))) x u v ->
  (forall e k xi w q, (e < ax_ne a)%nat -> In (xi, w) (ax_gp a) -> point old e k = Some q -> pt_slope a old T (x u) t e xi q) ->
  locally u (fun z => axi_RJ a old T pl pr t (x z) = Some (Rz z, Jz z, Lz z)) -> path (S (S (ax_ne a))) Rz u (axi_mv a (Jz u) v).
Proof.
  intros Ha [HL HSh] Hx HS HU k Hk.
  assert (HE : locally u (fun z => elems_RJ a old T (x z) (x z (S (ax_ne a))) t 0 (as_pts old) asm0 = Some (Lz z, Jz z) /\ Rz z k = a_F (Jz z) k - axi_ext a pl pr k)).
  { eapply filter_imp; [|exact HU]. intros z Ez. unfold axi_RJ in Ez. destruct (elems_RJ _ _ _ _ _ _ _ _ _) as [[ll acc]|]; [|discriminate]. injection Ez as <- <- <-. split; reflexivity. }
  apply (D_loc (fun z => a_F (Jz z) k - axi_ext a pl pr k)); [eapply filter_imp; [|exact HE]; intros z [_ Q]; symmetry; exact Q|].
  eapply D_eq; [apply D_minus; [|apply D_const]|apply Rminus_0_r].
  apply (elems_path a old T x u v t Ha Hx (as_pts old) 0%nat (fun _ => asm0) Lz Jz ltac:(lia)); [| | |exact Hk].
  - intros j qs xi w q Hj Hg Hq. destruct (In_nth_error _ _ Hq) as [m Hm]. apply (HS j m xi w q); [|exact Hg|unfold point; rewrite Hj; exact Hm].
    assert (j < length (as_pts old))%nat by (apply nth_error_Some; rewrite Hj; discriminate). cbn. lia.
  - intros i Hi. eapply D_eq; [apply D_const|]. unfold axi_mv, tri_mv, asm0. cbn [a_du a_d a_dl a_12 a_21 a_22].
    destruct (Nat.eqb i (S (ax_ne a))); [unfold dot; rewrite (rsum_ext _ _ (fun _ => 0)) by (intros; ring); rewrite rsum_0; ring|].
    destruct (Nat.ltb (S i) (S (ax_ne a))), i; ring.
  - eapply filter_imp; [|exact HE]; intros z [Q _]; exact Q.
Qed.

(** ** the Newton step *)
Lemma tri_lin n DU D DL x y c k : tri_mv n DU D DL (fun i => x i - c * y i) k = tri_mv n DU D DL x k - c * tri_mv n DU D DL y k.
Proof. unfold tri_mv. destruct (Nat.ltb (S k) n), k; ring. Qed.
Lemma tri_ext n DU D DL x y k : (k < n)%nat -> veq n x y -> tri_mv n DU D DL x k = tri_mv n DU D DL y k.
Proof.
  intros Hk H. unfold tri_mv. rewrite (H k Hk). destruct (Nat.ltb (S k) n) eqn:E; [apply Nat.ltb_lt in E; rewrite (H (S k) E)|]; (destruct k as [|j]; [reflexivity|rewrite (H j) by lia; reflexivity]).
Qed.
Lemma newton_free a tri x Rv J x' : tri_ok tri -> ax_con a = false -> a_22 J <> 0 -> axi_regular a J -> axi_move a tri x Rv J = Some x' ->
  veq (S (S (ax_ne a))) (axi_mv a J (fun k => x k - x' k)) Rv.
Proof.
  intros Htri Hc H22 HR E. unfold axi_move in E. rewrite Hc in E. cbv zeta in E. set (n := S (ax_ne a)) in *.
  unfold cute_solve in E. destruct (tri n (a_du J) (a_d J) (a_dl J) (fun k => Rv k - Rv n / a_22 J * a_12 J k)) as [xc|] eqn:E1; [|discriminate].
  destruct (tri n (a_du J) (a_d J) (a_dl J) (fun k => - a_12 J k / a_22 J)) as [y|] eqn:E2; [|discriminate]. injection E as <-.
  apply Htri in E1. apply Htri in E2.
  assert (HD : 1 + dot n (a_21 J) y <> 0).
  { intros Z. assert (Q : veq (S n) (fun k => if Nat.eqb k n then 1 / a_22 J else y k) (fun _ => 0)).
    { apply HR. intros k Hk. unfold axi_mv. fold n. rewrite Nat.eqb_refl. destruct (Nat.eqb k n) eqn:Ek.
      - rewrite (dot_ext n (a_21 J) (a_21 J) _ y); [|intros i _; reflexivity|intros i Hi; replace (Nat.eqb i n) with false by (symmetry; apply Nat.eqb_neq; lia); reflexivity].
        replace (dot n (a_21 J) y) with (-1) by lra. field. exact H22.
      - apply Nat.eqb_neq in Ek. rewrite (tri_ext n _ _ _ _ y k); [|lia|intros i Hi; replace (Nat.eqb i n) with false by (symmetry; apply Nat.eqb_neq; lia); reflexivity].
        rewrite (E2 k) by lia. field. exact H22. }
    specialize (Q n ltac:(lia)). cbv beta in Q. rewrite Nat.eqb_refl in Q. apply Rmult_integral in Q. destruct Q as [Q|Q]; [lra|]. apply Rinv_neq_0_compat in H22. contradiction. }
  set (c := dot n (a_21 J) xc / (1 + dot n (a_21 J) y)).
  assert (E3 : dot n (a_21 J) (fun k => xc k - c * y k) = c).
  { unfold dot. rewrite (rsum_ext n _ (fun k => a_21 J k * xc k - c * (a_21 J k * y k))) by (intros; ring). rewrite rsum_minus, rsum_scal. fold (dot n (a_21 J) xc). fold (dot n (a_21 J) y).
    unfold c. field. exact HD. }
  intros k Hk. unfold axi_mv. fold n. cbv beta. rewrite Nat.eqb_refl. rewrite E3. destruct (Nat.eqb k n) eqn:Ek.
  - apply Nat.eqb_eq in Ek. subst k. rewrite (dot_ext n (a_21 J) (a_21 J) _ (fun k => xc k - c * y k)); [|intros i _; reflexivity|].
    + rewrite E3. field. exact H22.
    + intros i Hi. replace (Nat.eqb i n) with false by (symmetry; apply Nat.eqb_neq; lia). ring.
  - apply Nat.eqb_neq in Ek. rewrite (tri_ext n _ _ _ _ (fun k => xc k - c * y k) k); [|lia|].
    + rewrite tri_lin, (E1 k) by lia. rewrite (E2 k) by lia. field. exact H22.
    + intros i Hi. replace (Nat.eqb i n) with false by (symmetry; apply Nat.eqb_neq; lia). ring.
Qed.
Lemma newton_con a tri x Rv J x' : tri_ok tri -> ax_con a = true -> axi_move a tri x Rv J = Some x' ->
  veq (S (ax_ne a)) (axi_mv a J (fun k => x k - x' k)) Rv /\ x' (S (ax_ne a)) = x (S (ax_ne a)).
Proof.
  intros Htri Hc E. unfold axi_move in E. rewrite Hc in E. set (n := S (ax_ne a)) in *. destruct (tri n (a_du J) (a_d J) (a_dl J) Rv) as [x1|] eqn:E1; [|discriminate]. injection E as <-. apply Htri in E1.
  cbv beta. rewrite Nat.eqb_refl. split; [|reflexivity]. intros k Hk. unfold axi_mv. fold n. rewrite Nat.eqb_refl. replace (Nat.eqb k n) with false by (symmetry; apply Nat.eqb_neq; lia).
  rewrite (tri_ext n _ _ _ _ x1 k Hk); [rewrite (E1 k Hk); ring|]. intros i Hi. replace (Nat.eqb i n) with false by (symmetry; apply Nat.eqb_neq; lia). ring.
Qed.

(** ** elastic walls *)
Lemma pt_elastic a old T x t e xi q C : elastic_base C (pm_base (ax_mat a e)) -> exists q' A, axi_pt a old T x (x (S (ax_ne a))) t e xi q = Some (q', A) /\
  (forall i j, (i < 6)%nat -> (j < 6)%nat -> A i j = C i j) /\
  veq 6 (gp_stress q') (mv 6 C (fun k => axi_strain a x (x (S (ax_ne a))) e xi k - (gp_tstrain q k + pm_alpha (ax_mat a e) (Nl xi T e) * (Nl xi T e - Nl xi (as_temp old) e) * ones3 k))).
Proof.
  intros HC. unfold axi_pt. cbv zeta. unfold upd. match goal with |- context [ba_update _ ?l1 ?l0 ?s ?h ?u ?p] => destruct (HC l1 l0 s h u p) as (r & E & Hs & HA) end. rewrite E.
  eexists _, _. split; [reflexivity|]. split; [exact HA|]. exact Hs.
Qed.
Definition affine (a : axi) (x1 x2 : vec) (acc1 acc2 : asm) : Prop := forall k, (k < S (S (ax_ne a)))%nat -> a_F acc1 k - a_F acc2 k = axi_mv a acc1 (fun i => x1 i - x2 i) k.
Lemma fpt_diff a e xi w s1 s2 d k : (forall i, (i < 3)%nat -> s1 i - s2 i = d i) -> fpt a e xi w s1 k - fpt a e xi w s2 k = fpt a e xi w d k.
Proof.
  intros H. unfold fpt. rewrite <- (H 0%nat), <- (H 1%nat), <- (H 2%nat) by lia. destruct (Nat.eqb k e), (Nat.eqb k (S e)), (Nat.eqb k (S (ax_ne a))); unfold Rdiv; ring.
Qed.
Lemma elem_elastic a old T x1 x2 t e C : wall a -> (e < ax_ne a)%nat -> elastic_base C (pm_base (ax_mat a e)) -> forall gps qs acc1 acc2, Forall (fun g => -1 <= fst g <= 1) gps -> affine a x1 x2 acc1 acc2 ->
  exists l1 b1 l2 b2, elem_RJ a old T x1 (x1 (S (ax_ne a))) t e gps qs acc1 = Some (l1, b1) /\ elem_RJ a old T x2 (x2 (S (ax_ne a))) t e gps qs acc2 = Some (l2, b2) /\ affine a x1 x2 b1 b2.
Proof.
  intros Ha He HC gps. induction gps as [|[xi w] gps IH]; intros qs acc1 acc2 HF HA; [repeat eexists; exact HA|]. destruct qs as [|q qs]; [repeat eexists; exact HA|].
  inversion HF as [|? ? HF1 HF2]; subst. cbn [fst] in HF1.
  assert (Hr : rad a e xi <> 0) by (unfold rad; rewrite Nl_lerp; assert (Q := lerp_pos a e xi Ha He HF1); lra).
  assert (Hl : len a e <> 0) by (unfold len; assert (Q : ax_mesh a e < ax_mesh a (S e)) by (apply Ha; exact He); lra).
  destruct (pt_elastic a old T x1 t e xi q C HC) as (q1 & A1 & E1 & HA1 & S1). destruct (pt_elastic a old T x2 t e xi q C HC) as (q2 & A2 & E2 & HA2 & S2).
  destruct (IH qs (asm_pt a e xi w (gp_stress q1) A1 acc1) (asm_pt a e xi w (gp_stress q2) A2 acc2) HF2) as (l1 & b1 & l2 & b2 & R1 & R2 & RA).
  { intros k Hk. rewrite asm_mv by assumption. rewrite !asm_F by exact He. specialize (HA k Hk). rewrite <- HA.
    enough (Q : fpt a e xi w (gp_stress q1) k - fpt a e xi w (gp_stress q2) k = fpt a e xi w (dsig a A1 e xi (fun i => x1 i - x2 i)) k) by lra.
    apply fpt_diff. intros i Hi. rewrite (S1 i) by lia. rewrite (S2 i) by lia. unfold mv, dsig. rewrite !HA1 by lia. cbn [rsum]. unfold axi_strain. cbn [Nat.eqb]. unfold Nl, Rdiv. ring. }
  cbn [elem_RJ]. rewrite E1, E2, R1, R2. repeat eexists. exact RA.
Qed.
Lemma elems_elastic a old T x1 x2 t (C : nat -> mat) : wall a -> (forall e, (e < ax_ne a)%nat -> elastic_base (C e) (pm_base (ax_mat a e))) -> forall qss e acc1 acc2, (e + length qss <= ax_ne a)%nat -> affine a x1 x2 acc1 acc2 ->
  exists l1 b1 l2 b2, elems_RJ a old T x1 (x1 (S (ax_ne a))) t e qss acc1 = Some (l1, b1) /\ elems_RJ a old T x2 (x2 (S (ax_ne a))) t e qss acc2 = Some (l2, b2) /\ affine a x1 x2 b1 b2.
Proof.
  intros Ha HC qss. induction qss as [|qs qss IH]; intros e acc1 acc2 Hl HA; [repeat eexists; exact HA|]. cbn [length] in Hl.
  destruct (elem_elastic a old T x1 x2 t e (C e) Ha ltac:(lia) (HC e ltac:(lia)) (ax_gp a) qs acc1 acc2 ltac:(apply Ha) HA) as (l1 & b1 & l2 & b2 & E1 & E2 & HB).
  destruct (IH (S e) b1 b2 ltac:(lia) HB) as (m1 & c1 & m2 & c2 & F1 & F2 & HD). cbn [elems_RJ]. rewrite E1, E2, F1, F2. repeat eexists. exact HD.
Qed.
Lemma RJ_elastic a old T pl pr t (C : nat -> mat) x1 x2 : wall a -> shape a old -> (forall e, (e < ax_ne a)%nat -> elastic_base (C e) (pm_base (ax_mat a e))) ->
  exists R1 J1 l1 R2 J2 l2, axi_RJ a old T pl pr t x1 = Some (R1, J1, l1) /\ axi_RJ a old T pl pr t x2 = Some (R2, J2, l2) /\
  forall k, (k < S (S (ax_ne a)))%nat -> R1 k - R2 k = axi_mv a J1 (fun i => x1 i - x2 i) k.
Proof.
  intros Ha [HL _] HC. destruct (elems_elastic a old T x1 x2 t C Ha HC (as_pts old) 0%nat asm0 asm0) as (l1 & b1 & l2 & b2 & E1 & E2 & HA); [lia| |].
  - intros i Hi. unfold axi_mv, tri_mv, asm0. cbn [a_F a_du a_d a_dl a_12 a_21 a_22].
    destruct (Nat.eqb i (S (ax_ne a))); [unfold dot; rewrite (rsum_ext _ _ (fun _ => 0)) by (intros; ring); rewrite rsum_0; ring|].
    destruct (Nat.ltb (S i) (S (ax_ne a))), i; ring.
  - unfold axi_RJ. rewrite E1, E2. repeat eexists. intros k Hk. rewrite <- (HA k Hk). ring.
Qed.
(** one Newton step reaches the solution *)
Lemma newton_elastic a tri old T pl pr t (C : nat -> mat) x R0 J0 l0 : tri_ok tri -> tri_total tri -> wall a -> shape a old -> (forall e, (e < ax_ne a)%nat -> elastic_base (C e) (pm_base (ax_mat a e))) ->
  axi_RJ a old T pl pr t x = Some (R0, J0, l0) -> axi_solvable a J0 -> exists x1 R1 J1 l1, axi_move a tri x R0 J0 = Some x1 /\ axi_RJ a old T pl pr t x1 = Some (R1, J1, l1) /\ axi_norm a R1 = 0.
Proof.
  intros Hok Htot Ha Hs HC E0 [HT HS]. assert (EM : exists x1, axi_move a tri x R0 J0 = Some x1).
  { unfold axi_move. destruct (ax_con a) eqn:Hc; [destruct (Htot _ _ _ _ R0 HT) as [y Ey]; rewrite Ey; eauto|]. cbv zeta. unfold cute_solve.
    match goal with |- context [tri ?n ?u ?d ?l ?c] => destruct (Htot n u d l c HT) as [y Ey]; rewrite Ey end.
    match goal with |- context [tri ?n ?u ?d ?l ?c] => destruct (Htot n u d l c HT) as [y' Ey']; rewrite Ey' end. eauto. }
  destruct EM as [x1 EM]. destruct (RJ_elastic a old T pl pr t C x x1 Ha Hs HC) as (R0' & J0' & l0' & R1 & J1 & l1 & E0' & E1 & HA). rewrite E0 in E0'. injection E0' as <- <- <-.
  exists x1, R1, J1, l1. split; [exact EM|]. split; [exact E1|]. unfold axi_norm. destruct (ax_con a) eqn:Hc.
  - destruct (newton_con a tri x R0 J0 x1 Hok Hc EM) as [HN _]. unfold norm2, dot. rewrite (rsum_ext _ _ (fun _ => 0)); [rewrite rsum_0; apply sqrt_0|].
    intros k Hk. specialize (HN k Hk). specialize (HA k ltac:(lia)). rewrite HN in HA. replace (R1 k) with 0 by lra. ring.
  - destruct (HS eq_refl) as [H22 HR]. assert (HN := newton_free a tri x R0 J0 x1 Hok Hc H22 HR EM). unfold norm2, dot. rewrite (rsum_ext _ _ (fun _ => 0)); [rewrite rsum_0; apply sqrt_0|].
    intros k Hk. specialize (HN k Hk). specialize (HA k Hk). rewrite HN in HA. replace (R1 k) with 0 by lra. ring.
Qed.
Lemma take_elastic a tri rows old t trec rtol atol ilimit predict (C : nat -> mat) : tri_ok tri -> tri_total tri -> wall a -> shape a old -> 0 <= atol -> (2 <= ilimit)%nat -> hd_error rows = Some old ->
  (forall e, (e < ax_ne a)%nat -> elastic_base (C e) (pm_base (ax_mat a e))) ->
  (forall x Rv J ll, axi_RJ a old (fun k => ax_T a (ax_mesh a k) t) (ax_p a t) (ax_pext a t) t x = Some (Rv, J, ll) -> axi_solvable a J) ->
  exists s, take_step a tri rows t trec rtol atol ilimit predict = Some s.
Proof.
  intros Hok Htot Ha Hs Hat Hil Hh HC HJ. destruct rows as [|o rows]; [discriminate|]. cbn in Hh. injection Hh as ->. unfold take_step. cbv zeta.
  set (T := fun k => ax_T a (ax_mesh a k) t) in *. set (x0 := if ax_con a then _ else _).
  destruct (RJ_elastic a old T (ax_p a t) (ax_pext a t) t C x0 x0 Ha Hs HC) as (R0 & J0 & l0 & _ & _ & _ & E0 & _). rewrite E0.
  destruct ilimit as [|[|n]]; try lia. rewrite (surjective_pairing (match axi_loop _ _ _ _ _ _ _ _ _ _ _ _ _ _ _ with Some p => p | None => (x0, l0) end)) || idtac.
  assert (HX : exists x' ll', axi_loop (S (S n)) a tri old T (ax_p a t) (ax_pext a t) t rtol atol (axi_norm a R0) x0 R0 J0 l0 = Some (x', ll')).
  { destruct (newton_elastic a tri old T (ax_p a t) (ax_pext a t) t C x0 R0 J0 l0 Hok Htot Ha Hs HC E0 (HJ _ _ _ _ E0)) as (x1 & R1 & J1 & l1 & EM & E1 & N1).
    cbn [axi_loop]. destruct (Rlt_dec atol (axi_norm a R0)); [|eauto]. destruct (Rlt_dec rtol _); [|eauto]. rewrite EM, E1. rewrite N1. destruct (Rlt_dec atol 0); [lra|]. eauto. }
  destruct HX as (x' & ll' & EX). rewrite EX. eauto.
Qed.
