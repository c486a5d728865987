(** On a linear elastic material, and on one that flows at a constant rate, the steps of the driver
    succeed and are exact when the tolerances are zero: the standard tests can be followed. *)
From Verif Require Import Base Diff.
From Verif Require Import SolverModel SubstepModel CreepModel NlModel NlSpec NlProofs UniModel UniSpec UniProofs DrvModel DrvSpec DrvProofs DrvDeriv TestsModel TestsSpec TestsProofs.
From Verif Require Import WalkerInv.
From Coq Require Import ZArith String List FunctionalExtensionality.
Import ListNotations.

Lemma mv7 A v i : mv 7 A v i = A i 0%nat * v 0%nat + rsum 6 (fun j => A i (S j) * v (S j)).
Proof. unfold mv. cbn [rsum]. ring. Qed.
Lemma erate_is_vec_sys M P d sd erate t1 T1 g : t1 <> topr (dv_t d) ->
  erate_sys M P d sd erate t1 T1 g = vec_sys 7 g (erate_RJ M P d sd erate t1 T1) (dp_solve P 7%nat).
Proof.
  intros HT. unfold erate_sys, vec_sys. f_equal. apply functional_extensionality. intros b. destruct (Req_EM_T (t1 - topr (dv_t d)) 0); [lra|reflexivity].
Qed.
Lemma erate_elastic_works M P d sdir erate t1 T1 ge ga C S : t1 <> topr (dv_t d) -> solve_ok (dp_solve P) -> solve_total (dp_solve P) -> elastic_base C (pm_base M) ->
  (forall i j, (i < 6)%nat -> (j < 6)%nat -> mm 6 S C i j = delta i j) -> dot 6 (unitv sdir) (mv 6 S (unitv sdir)) <> 0 -> 0 <= dp_rt P -> 0 <= dp_at P -> (1 <= dp_miter P)%Z ->
  exists d' ei a, erate_step M P d sdir erate t1 T1 ge ga = Ret (d', ei, a).
Proof.
  intros HT HS HTot HB HI HD Hr Ha Hm. set (sd := unitv sdir) in *. set (en := thermal M P d T1). set (dt := t1 - topr (dv_t d)). assert (Hdt : dt <> 0) by (unfold dt; lra).
  set (g := erate_guess sd ge ga).
  assert (HF : forall e, exists r, dupd M P d e t1 T1 = Some r /\ veq 6 (pr_s r) (mv 6 C (fun i => e i - en i)) /\ forall i j, (i < 6)%nat -> (j < 6)%nat -> pr_A r i j = C i j) by (intros e; apply HB).
  set (K := fun i j : nat => if Nat.ltb i 6 then (if Nat.eqb j 0 then - sd i else C i (j - 1)%nat) else (if Nat.eqb j 0 then 0 else sd (j - 1)%nat / dt)).
  set (b := fun i : nat => if Nat.ltb i 6 then top (dv_stress d) i - mv 6 C (fun j => top (dv_strain d) j - en j) i else erate).
  assert (HR : forall x, exists r, erate_RJ M P d sd erate t1 T1 x = Some r /\ veq 7 (fst r) (fun i => mv 7 K x i - b i) /\ forall i j, (i < 7)%nat -> (j < 7)%nat -> snd r i j = K i j).
  { intros x. destruct (HF (fun i => top (dv_strain d) i + vtl x i)) as (r & E & Hs & HA). unfold erate_RJ. rewrite E. eexists. split; [reflexivity|]. cbn [fst snd]. split.
    - intros i Hi. rewrite mv7. unfold K, b. cbn [Nat.eqb]. destruct (Nat.ltb_spec i 6) as [L|L].
      + rewrite (Hs i L). unfold mv, vtl. cbn [rsum Nat.sub]. ring.
      + unfold dot, vtl. cbn [rsum Nat.sub]. fold dt. field. exact Hdt.
    - intros i j Hi Hj. unfold K. destruct (Nat.ltb_spec i 6); destruct (Nat.eqb_spec j 0); try reflexivity. apply HA; lia. }
  assert (NS : forall A w, (forall i j, (i < 7)%nat -> (j < 7)%nat -> A i j = K i j) -> veq 7 (mv 7 A w) (fun _ => 0) -> veq 7 w (fun _ => 0)).
  { intros A w HA Q.
    assert (Q1 : veq 6 (mv 6 C (vtl w)) (fun i => w 0%nat * sd i)).
    { intros i Hi. assert (E := Q i ltac:(lia)). rewrite (mv_meq 7 A K w i ltac:(lia) HA), mv7 in E. unfold K in E. cbn [Nat.eqb] in E. destruct (Nat.ltb_spec i 6); [|lia]. unfold mv, vtl. cbn [rsum Nat.sub] in *. lra. }
    assert (Q2 : dot 6 (vtl w) sd = 0).
    { assert (E := Q 6%nat ltac:(lia)). rewrite (mv_meq 7 A K w 6%nat ltac:(lia) HA), mv7 in E. unfold K in E. cbn [Nat.eqb Nat.ltb Nat.leb] in E.
      assert (E2 : dot 6 (vtl w) sd / dt = 0). { rewrite <- E. unfold dot, vtl. cbn [rsum Nat.sub]. field. exact Hdt. }
      replace (dot 6 (vtl w) sd) with (dot 6 (vtl w) sd / dt * dt) by (field; exact Hdt). rewrite E2. ring. }
    assert (Q3 : veq 6 (vtl w) (fun i => w 0%nat * mv 6 S sd i)).
    { intros i Hi. rewrite <- (first_of_inverse S C (vtl w) HI i Hi). rewrite (mv_veq 6 S _ _ i Q1). unfold mv. rewrite <- rsum_scal. apply rsum_ext. intros. ring. }
    assert (Q4 : w 0%nat * dot 6 sd (mv 6 S sd) = 0).
    { rewrite <- Q2. unfold dot. rewrite <- rsum_scal. apply rsum_ext. intros j Hj. rewrite (Q3 j Hj). ring. }
    assert (W0 : w 0%nat = 0) by (apply Rmult_integral in Q4; destruct Q4; [assumption|contradiction]).
    intros [|i] Hi; [exact W0|]. change (w (Datatypes.S i)) with (vtl w i). rewrite (Q3 i ltac:(lia)), W0. ring. }
  destruct (linear_once 7 K b g (erate_RJ M P d sd erate t1 T1) (dp_solve P 7%nat) (dp_rt P) (dp_at P) (dp_miter P) (vlin 7)) as (x & bb & i & EN & _); try assumption.
  - intros J r v E. apply (HS 7%nat _ _ _ E).
  - intros r E. destruct (HR g) as (r' & E' & _ & HA). rewrite E' in E. injection E as <-. apply HTot. intros w. apply NS, HA.
  - unfold erate_step. fold sd. fold g. rewrite <- erate_is_vec_sys in EN by exact HT. rewrite (try_first _ _ _ _ _ _ _ _ EN).
    unfold strain_step. destruct (HF (fun i => top (dv_strain d) i + vtl x i)) as (r & E & _). rewrite E. eauto.
Qed.
