From Verif Require Import Base.
From Verif Require Import Diff.
From Verif Require Import NemlMathModel NemlMathSpec NemlMathProofs SolverModel SolverSpec SolverProofs SubstepModel SurfModel SurfSpec SurfProofs HardProofs RiProofs.
From Verif Require Import PlastModel PlastSpec PlastProofs ViscoProofs YaguchiProofs CreepModel CreepSpec CreepProofs J2CreepProofs.

Lemma sscp_eqs lsolve inv prm cr B sf next past sn hn un pn res : (1 <= miter prm)%Z -> energy_free B -> sf <> 0 ->
  sscp_update lsolve inv prm cr B sf next past sn hn un pn = Some res ->
  exists ep rb ec Bm r r0,
    ba_update B (with_e ep next) (with_e hn past) sn (fun i => hn (6 + i)%nat) un pn = Some rb /\
    cr (pr_s rb) (fun i => ld_e past i - hn i) (ld_T next) (ld_T past) (ld_t next) (ld_t past) = Some (ec, Bm) /\
    within_tolerance prm 6 r r0 /\
    (forall i, ep i + ec i = ld_e next i + r i / sf) /\
    (forall i, pr_s res i = pr_s rb i) /\
    (forall i, (i < 6)%nat -> pr_h res i = ep i) /\
    (forall i, pr_h res (6 + i)%nat = pr_h rb i) /\
    form_tangent inv (pr_A rb) Bm = Some (pr_A res) /\
    pr_u res = un + dot 6 (vadd (pr_s rb) sn) (vsub (ld_e next) (ld_e past)) / 2 /\
    pr_p res = pr_p rb + dot 6 (vadd (pr_s rb) sn) (fun i => ec i - (ld_e past i - hn i)) / 2.
Proof.
  intros Hm HB Hsf H. unfold sscp_update in H. destruct (newton _ prm) as [[[x [r J]] c]|] eqn:N; [|discriminate].
  destruct (ba_update B (with_e x next) (with_e (sscp_ep hn) past) sn (sscp_h hn) un pn) as [rb|] eqn:Eb; [|discriminate].
  destruct (cr (pr_s rb) _ _ _ _ _) as [[ec Bm]|] eqn:Ec; [|discriminate].
  destruct (form_tangent inv (pr_A rb) Bm) as [A|] eqn:EA; [|discriminate]. injection H as <-.
  destruct (newton_sound _ _ _ _ _ _ _ _ _ Hm N) as (E & r0 & J0 & E0 & W).
  unfold sscp_RJ in E. pose proof (HB (with_e x next) (with_e (sscp_ep hn) past) sn (sscp_h hn) 0 0 un pn) as HH. rewrite Eb in HH.
  destruct (ba_update B (with_e x next) (with_e (sscp_ep hn) past) sn (sscp_h hn) 0 0) as [rb0|] eqn:Eb0; [|contradiction].
  destruct HH as (Hs & _ & _). rewrite Hs, Ec in E. injection E as E _.
  exists x, rb, ec, Bm, r, r0. cbn [pr_s pr_h pr_A pr_u pr_p].
  split; [exact Eb|]. split; [exact Ec|]. split; [exact W|]. split.
  { intros i. rewrite <- E. field. exact Hsf. }
  split; [reflexivity|]. split. { intros i Hi. apply Nat.ltb_lt in Hi. rewrite Hi. reflexivity. }
  split. { intros i. destruct (Nat.ltb_spec (6 + i) 6) as [L|L]; [lia|]. f_equal. lia. }
  split; [exact EA|]. split; reflexivity.
Qed.

(** *** the tangent *)
Lemma mm_mv n A B v i : mv n (mm n A B) v i = mv n A (mv n B v) i.
Proof. apply mv_mm. Qed.
Lemma form_tangent_apply inv A B Tn : inv_ok inv -> form_tangent inv A B = Some Tn ->
  forall vs vep vec_ ve, veq 6 vs (mv 6 A vep) -> veq 6 vec_ (mv 6 B vs) -> (forall i, (i < 6)%nat -> ve i = vep i + vec_ i) ->
  veq 6 vs (mv 6 Tn ve).
Proof.
  intros HI H vs vep vc ve Hs Hc He. unfold form_tangent in H. destruct (inv 6%nat _) as [C|] eqn:EC; [|discriminate]. injection H as <-.
  destruct (HI _ _ _ EC) as [HC _]. set (J := fun i j => mm 6 A B i j + delta i j) in *.
  (* (AB + I) vs = A ve *)
  assert (E1 : veq 6 (mv 6 J vs) (mv 6 A ve)).
  { intros i Hi. unfold J. transitivity (mv 6 A (mv 6 B vs) i + vs i).
    - rewrite <- (mv_mm 6 6 A B vs i). unfold mv at 1. rewrite (rsum_ext 6 _ (fun j => mm 6 A B i j * vs j + delta i j * vs j)) by (intros; ring).
      rewrite rsum_plus, (rsum_delta 6 i vs Hi). reflexivity.
    - rewrite (mv_vec_ext 6 A _ (fun k => vc k)) by (intros k Hk; symmetry; apply Hc; exact Hk). rewrite (Hs i Hi).
      rewrite (mv_vec_ext 6 A ve (fun k => vep k + vc k)) by (intros k Hk; apply He; exact Hk).
      unfold mv. rewrite <- rsum_plus. apply rsum_ext. intros; ring. }
  assert (E2 : veq 6 (mv 6 (mm 6 C A) ve) vs).
  { intros i Hi. rewrite mv_mm. rewrite <- (mv_vec_ext 6 C _ _ i E1). rewrite <- (mv_mm 6 6 C J vs i). unfold mv.
    rewrite (rsum_ext 6 _ (fun j => delta i j * vs j)) by (intros j Hj; rewrite (HC i j Hi Hj); reflexivity). apply (rsum_delta 6 i vs Hi). }
  intros i Hi. transitivity (mv 6 A ve i - mv 6 (mm 6 A (mm 6 B (mm 6 C A))) ve i).
  - rewrite mv_mm. rewrite (mv_vec_ext 6 A (mv 6 (mm 6 B (mm 6 C A)) ve) vc).
    + rewrite (mv_vec_ext 6 A ve (fun k => vep k + vc k)) by (intros k Hk; apply He; exact Hk). rewrite (Hs i Hi). unfold mv. rewrite <- rsum_minus. apply rsum_ext. intros; ring.
    + intros k Hk. rewrite mv_mm, (mv_vec_ext 6 B _ _ k E2). symmetry. apply Hc, Hk.
  - unfold mv. rewrite <- rsum_minus. apply rsum_ext. intros; ring.
Qed.
Lemma mm_assoc n A B C i j : mm n (mm n A B) C i j = mm n A (mm n B C) i j.
Proof.
  unfold mm. transitivity (rsum n (fun k => rsum n (fun l => A i l * B l k * C k j))).
  - apply rsum_ext. intros k Hk. rewrite <- rsum_scal_r. reflexivity.
  - rewrite rsum_swap. apply rsum_ext. intros l Hl. rewrite <- rsum_scal. apply rsum_ext. intros; ring.
Qed.
(** the textbook form (A^-1 + B) T = I when the base tangent is invertible *)
Lemma form_tangent_inverse inv A Ai B Tn : inv_ok inv -> form_tangent inv A B = Some Tn -> left_inverse 6 Ai A -> left_inverse 6 A Ai ->
  left_inverse 6 (fun i j => Ai i j + B i j) Tn.
Proof.
  intros HI H HA HA'. 
  assert (X : forall v, veq 6 (mv 6 (fun i j => Ai i j + B i j) (mv 6 Tn v)) v).
  { intros v.
    (* solve for the parts of v *)
    assert (G : exists vs vep vc, veq 6 vs (mv 6 A vep) /\ veq 6 vc (mv 6 B vs) /\ (forall i, (i < 6)%nat -> v i = vep i + vc i)).
    { unfold form_tangent in H. destruct (inv 6%nat _) as [C|] eqn:EC; [|discriminate]. destruct (HI _ _ _ EC) as [HC HC2].
      set (J := fun i j => mm 6 A B i j + delta i j) in *.
      pose (vs := mv 6 (mm 6 C A) v). exists vs, (fun i => v i - mv 6 B vs i), (mv 6 B vs). split; [|split; [intros i Hi; reflexivity|intros; ring]].
      intros i Hi. assert (E : mv 6 J vs i = mv 6 A v i).
      { unfold vs. rewrite (mv_vec_ext 6 J _ (mv 6 C (mv 6 A v))) by (intros k Hk; apply mv_mm). rewrite <- (mv_mm 6 6 J C). unfold mv at 1.
        rewrite (rsum_ext 6 _ (fun j => delta i j * mv 6 A v j)) by (intros j Hj; rewrite (HC2 i j Hi Hj); reflexivity). apply (rsum_delta 6 i (mv 6 A v) Hi). }
      assert (E' : mv 6 J vs i = mv 6 A (mv 6 B vs) i + vs i).
      { unfold J. rewrite <- (mv_mm 6 6 A B vs i). unfold mv at 1. rewrite (rsum_ext 6 _ (fun j => mm 6 A B i j * vs j + delta i j * vs j)) by (intros; ring).
        rewrite rsum_plus, (rsum_delta 6 i vs Hi). reflexivity. }
      rewrite E in E'. rewrite (mv_vec_ext 6 A _ (vsub v (mv 6 B vs))) by (intros k Hk; reflexivity).
      transitivity (mv 6 A v i - mv 6 A (mv 6 B vs) i); [lra|]. unfold vsub, mv. rewrite <- rsum_minus. apply rsum_ext. intros; ring. }
    destruct G as (vs & vep & vc & G1 & G2 & G3). pose proof (form_tangent_apply inv A B Tn HI H vs vep vc v G1 G2 G3) as GT.
    intros i Hi. rewrite <- (mv_vec_ext 6 _ _ _ i GT). transitivity (mv 6 Ai vs i + mv 6 B vs i).
    - unfold mv. rewrite <- rsum_plus. apply rsum_ext. intros; ring.
    - rewrite (mv_vec_ext 6 Ai _ _ i G1), <- (mv_mm 6 6 Ai A vep i). rewrite (G3 i Hi), (G2 i Hi). f_equal.
      unfold mv. rewrite (rsum_ext 6 _ (fun j => delta i j * vep j)) by (intros j Hj; rewrite (HA i j Hi Hj); reflexivity). apply (rsum_delta 6 i vep Hi). }
  intros i j Hi Hj. specialize (X (fun k => delta k j) i Hi). cbv beta in X. rewrite <- X. unfold mm, mv. apply rsum_ext. intros k Hk. f_equal.
  rewrite (rsum_ext 6 _ (fun l => delta j l * Tn k l)).
  - symmetry. apply (rsum_delta 6 j (fun l => Tn k l) Hj).
  - intros l Hl. unfold delta. rewrite (Nat.eqb_sym l j). ring.
Qed.

(** *** the Jacobian of the residual *)
Lemma sscp_jac cr B sf next past sn hn (y : R -> vec) u vy (RJ : R -> vec * mat) :
  base_tangent_at B next (with_e hn past) sn (fun i => hn (6 + i)%nat) (y u) ->
  (forall rb, ba_update B (with_e (y u) next) (with_e hn past) sn (fun i => hn (6 + i)%nat) 0 0 = Some rb ->
     creep_tangent_at cr (fun i => ld_e past i - hn i) (ld_T next) (ld_T past) (ld_t next) (ld_t past) (pr_s rb)) ->
  path 6 y u vy ->
  locally u (fun w => sscp_RJ cr B sf next past sn hn (y w) = Some (RJ w)) ->
  path 6 (fun w => fst (RJ w)) u (mv 6 (snd (RJ u)) vy).
Proof.
  intros HB HC Hy HL.
  (* pointwise witnesses for the base and creep results *)
  pose (br := fun w => match ba_update B (with_e (y w) next) (with_e hn past) sn (fun i => hn (6 + i)%nat) 0 0 with Some r => r | None => {| pr_s := vzero; pr_h := vzero; pr_A := fun _ _ => 0; pr_u := 0; pr_p := 0 |} end).
  pose (ec := fun w => match cr (pr_s (br w)) (fun i => ld_e past i - hn i) (ld_T next) (ld_T past) (ld_t next) (ld_t past) with Some r => r | None => (vzero, fun _ _ => 0) end).
  assert (HW : forall w, sscp_RJ cr B sf next past sn hn (y w) = Some (RJ w) ->
     ba_update B (with_e (y w) next) (with_e hn past) sn (fun i => hn (6 + i)%nat) 0 0 = Some (br w) /\
     cr (pr_s (br w)) (fun i => ld_e past i - hn i) (ld_T next) (ld_T past) (ld_t next) (ld_t past) = Some (ec w) /\
     (forall i, fst (RJ w) i = (y w i + fst (ec w) i - ld_e next i) * sf) /\
     (forall i j, snd (RJ w) i j = (mm 6 (snd (ec w)) (pr_A (br w)) i j + delta i j) * sf)).
  { intros w Hw. unfold sscp_RJ, sscp_ep, sscp_h in Hw. unfold ec, br.
    destruct (ba_update B (with_e (y w) next) (with_e hn past) sn (fun i => hn (6 + i)%nat) 0 0) as [rb|]; [|discriminate].
    destruct (cr (pr_s rb) (fun i => ld_e past i - hn i) (ld_T next) (ld_T past) (ld_t next) (ld_t past)) as [[c Bm]|]; [|discriminate].
    injection Hw as <-. auto. }
  pose proof (locally_singleton _ _ HL) as Hu. destruct (HW u Hu) as (Ub & Uc & _ & UJ).
  assert (PB : path 6 (fun w => pr_s (br w)) u (mv 6 (pr_A (br u)) vy)).
  { apply (HB y br u vy eq_refl Hy). refine (filter_imp _ _ _ HL). intros w Hw. apply (HW w Hw). }
  assert (PC : path 6 (fun w => fst (ec w)) u (mv 6 (snd (ec u)) (mv 6 (pr_A (br u)) vy))).
  { apply (HC (br u) Ub (fun w => pr_s (br w)) ec u _ eq_refl PB). refine (filter_imp _ _ _ HL). intros w Hw. apply (HW w Hw). }
  intros i Hi. apply (D_loc (fun w => (y w i + fst (ec w) i - ld_e next i) * sf)).
  - refine (filter_imp _ _ _ HL). intros w Hw. symmetry. apply (HW w Hw).
  - eapply D_eq; [apply D_mult; [apply D_minus; [apply D_plus; [apply (Hy i Hi)|apply (PC i Hi)]|apply D_const]|apply D_const]|cbv beta].
    rewrite <- (mv_mm 6 6). unfold mv. rewrite (rsum_ext 6 (fun j => snd (RJ u) i j * vy j) (fun j => sf * (mm 6 (snd (ec u)) (pr_A (br u)) i j * vy j) + sf * (delta i j * vy j))) by (intros; rewrite UJ; ring).
    rewrite rsum_plus, !rsum_scal, (rsum_delta 6 i vy Hi). ring.
Qed.

(** *** the consistent tangent: along any curve of exact solutions *)
Lemma sscp_tangent_exact lsolve inv prm cr B sf next past sn hn un pn res : energy_free B -> inv_ok inv ->
  sscp_update lsolve inv prm cr B sf next past sn hn un pn = Some res ->
  exists x, (forall i, (i < 6)%nat -> pr_h res i = x i) /\
  forall (e ep : R -> vec) (rb : R -> pres) (ec : R -> vec * mat) (c : vec) u ve vep,
    path 6 e u ve -> path 6 ep u vep -> ep u = x ->
    base_tangent_at B next (with_e hn past) sn (fun i => hn (6 + i)%nat) x ->
    creep_tangent_at cr (fun i => ld_e past i - hn i) (ld_T next) (ld_T past) (ld_t next) (ld_t past) (pr_s res) ->
    locally u (fun w => ba_update B (with_e (ep w) next) (with_e hn past) sn (fun i => hn (6 + i)%nat) 0 0 = Some (rb w)) ->
    locally u (fun w => cr (pr_s (rb w)) (fun i => ld_e past i - hn i) (ld_T next) (ld_T past) (ld_t next) (ld_t past) = Some (ec w)) ->
    locally u (fun w => forall i, (i < 6)%nat -> ep w i + fst (ec w) i - e w i = c i) ->
    pr_s (rb u) = pr_s res /\ path 6 (fun w => pr_s (rb w)) u (mv 6 (pr_A res) ve).
Proof.
  intros HB HI H. unfold sscp_update in H. destruct (newton _ prm) as [[[x [r J]] cc]|] eqn:N; [|discriminate].
  destruct (ba_update B (with_e x next) (with_e (sscp_ep hn) past) sn (sscp_h hn) un pn) as [rb1|] eqn:Eb; [|discriminate].
  destruct (cr (pr_s rb1) _ _ _ _ _) as [[ec1 Bm]|] eqn:Ec; [|discriminate].
  destruct (form_tangent inv (pr_A rb1) Bm) as [A|] eqn:EA; [|discriminate]. injection H as <-. cbn [pr_s pr_h pr_A].
  exists x. split. { intros i Hi. apply Nat.ltb_lt in Hi. rewrite Hi. reflexivity. }
  intros e ep rb ec c u ve vep He Hp Ex TB TC LB LC LE.
  pose proof (locally_singleton _ _ LB) as UB. pose proof (locally_singleton _ _ LC) as UC. cbv beta in UB, UC.
  pose proof (HB (with_e x next) (with_e (sscp_ep hn) past) sn (sscp_h hn) 0 0 un pn) as HH. rewrite Eb in HH.
  unfold sscp_ep, sscp_h in HH. rewrite Ex in UB. rewrite UB in HH. destruct HH as (HS & _ & HA).
  rewrite HS in UC. unfold sscp_ep in Ec. rewrite UC in Ec. injection Ec as Ec. rewrite <- HA in EA. rewrite <- HS in TC.
  split; [exact HS|].
  pose proof (TB ep rb u vep Ex Hp LB) as PB. pose proof (TC (fun w => pr_s (rb w)) ec u _ eq_refl PB LC) as PC.
  assert (EB : snd (ec u) = Bm) by (rewrite Ec; reflexivity). rewrite EB in PC.
  assert (G : veq 6 (mv 6 (pr_A (rb u)) vep) (mv 6 A ve)).
  { apply (form_tangent_apply inv (pr_A (rb u)) Bm A HI EA (mv 6 (pr_A (rb u)) vep) vep (mv 6 Bm (mv 6 (pr_A (rb u)) vep)) ve); [intros i Hi; reflexivity|intros i Hi; reflexivity|].
    intros i Hi. assert (D : is_derive (fun w => ep w i + fst (ec w) i - e w i) u (vep i + mv 6 Bm (mv 6 (pr_A (rb u)) vep) i - ve i)).
    { apply D_minus; [apply D_plus; [apply (Hp i Hi)|apply (PC i Hi)]|apply (He i Hi)]. }
    assert (D0 : is_derive (fun w => ep w i + fst (ec w) i - e w i) u 0).
    { apply (D_loc (fun _ => c i)); [|apply D_const]. refine (filter_imp _ _ _ LE). intros w Hw. symmetry. apply Hw, Hi. }
    pose proof (is_derive_unique _ _ _ D) as U1. pose proof (is_derive_unique _ _ _ D0) as U2. pose proof (eq_trans (eq_sym U1) U2) as U. lra. }
  intros i Hi. rewrite <- (G i Hi). apply (PB i Hi).
Qed.
