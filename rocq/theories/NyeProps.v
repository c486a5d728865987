(** Property theorems about the Nye tensor of single crystals (C101). *)
From Coq Require Import List Arith ZArith Lia Lra FunctionalExtensionality.
From Verif Require Import Base.
From Verif Require Import Diff RotModel TensorModel CpModel SlipModel ScModel ScCase NyeModel NyeSpec NyeProofs.
Import ListNotations.

(** update_nye writes the nine components of the tensor and nothing else; without a law
    that uses it, nothing at all *)
Theorem C101_set : forall hist a i, ((i < 9)%nat -> update_nye true hist a (8 + i)%nat = a i) /\ (~ (8 <= i < 17)%nat -> update_nye true hist a i = hist i) /\ update_nye false hist a i = hist i.
Proof. intros hist a i. split; [exact (nye_set hist a i)|]. split; [exact (update_elsewhere true hist a i)|reflexivity]. Qed.
Print Assumptions C101_set.
(** a program that sets the tensor before every step gets what a user expects *)
Theorem C101_set_each_step : forall fuel lsolve inv m o ops x y, sg_use m = true -> sets_each false ops -> same_results true x y ->
  both (same_results true) (nrun fuel lsolve inv m o ops x) (ideal_run fuel lsolve inv m o ops y).
Proof. intros fuel lsolve inv m o ops x y Hu Hs H. exact (run_each fuel lsolve inv m o Hu ops false x y Hs H ltac:(discriminate)). Qed.
Print Assumptions C101_set_each_step.
(** every other program behaves as if the tensor were set to zero after every step *)
Theorem C101_exact : forall fuel lsolve inv m o ops x y, sg_use m = true -> same_results true x y -> same_nye x y ->
  both (fun x' y' => same_results true x' y' /\ same_nye x' y') (nrun fuel lsolve inv m o ops x) (ideal_run fuel lsolve inv m o (clears ops) y).
Proof. intros fuel lsolve inv m o ops x y Hu. exact (run_clears fuel lsolve inv m o Hu ops x y). Qed.
Print Assumptions C101_exact.
(** crystals without a law that uses it are not affected by update_nye *)
Theorem C101_unused : forall fuel lsolve inv m o ops x, sg_use m = false -> nrun fuel lsolve inv m o ops x = nrun fuel lsolve inv m o (no_nye ops) x.
Proof. intros fuel lsolve inv m o ops x Hu. exact (run_unused fuel lsolve inv m o Hu ops x). Qed.
Print Assumptions C101_unused.
(** the reported strength: right after setting the tensor it counts, for a Voce law k sqrt|a| *)
Theorem C101_strength_set : forall n tau k at_ hist a T, (0 < n)%nat -> k 0 <> 0 ->
  let m := {| sg_inel := IAsaro n [{| hd_tau := tau; hd_parts := [SVoce k] |}]; sg_at := at_ |} in
  sg_strength m (update_nye (sg_use m) hist a) T = inel_strength (sg_inel m) (get_state (sg_use m) hist) T None + k T * sqrt (norm9 a).
Proof.
  intros n tau k at_ hist a T Hn Hk m. assert (Hu : sg_use m = true).
  { unfold sg_use, m. cbn. unfold harden_use. cbn. unfold voce_use_nye. destruct (Req_EM_T (k 0) 0); [contradiction|reflexivity]. }
  rewrite Hu, (strength_set m hist a T Hu). unfold m. cbn [sg_inel inel_strength]. rewrite (voce_strength n tau k _ T (nine a) Hn Hk). do 3 f_equal.
Qed.
Print Assumptions C101_strength_set.
(** but after any step of any crystal it does not: the strength is that without a tensor *)
Theorem C101_strength_lost_refuted : forall fuel lsolve inv m o x l y T, nstep fuel lsolve inv m o x l = Some y ->
  sg_strength m (pt_hist y) T = inel_strength (sg_inel m) (get_state (sg_use m) (pt_hist y)) T None.
Proof. exact @strength_after. Qed.
Print Assumptions C101_strength_lost_refuted.

(** a crystal uses the tensor exactly if some law in its model, however deeply combined, does;
    otherwise its strength does not depend on any tensor *)
Theorem C101_uses : forall m, (sg_use m = true <-> exists s, has_law (sg_inel m) s /\ law_uses s) /\
  (sg_use m = false -> forall st T a b, inel_strength (sg_inel m) st T a = inel_strength (sg_inel m) st T b).
Proof.
  intros m. split; [split; [apply inel_use_has|intros (s & H & U); exact (has_inel_use _ s H U)]|].
  intros H st T a b. now apply unused_strength.
Qed.
Print Assumptions C101_uses.
(** so a Voce law whose factor vanishes at zero degrees but not at the temperature of the
    crystal ignores every tensor at every temperature *)
Theorem C101_cold_refuted : forall n tau k at_ T, k 0 = 0 -> k T <> 0 ->
  let m := {| sg_inel := IAsaro n [{| hd_tau := tau; hd_parts := [SVoce k] |}]; sg_at := at_ |} in
  (forall hist a, update_nye (sg_use m) hist a = hist) /\ forall st a, inel_strength (sg_inel m) st T a = inel_strength (sg_inel m) st T None.
Proof.
  intros n tau k at_ T H0 _ m. assert (Hu : sg_use m = false).
  { unfold sg_use, m. cbn. unfold harden_use. cbn. unfold voce_use_nye. destruct (Req_EM_T (k 0) 0); [reflexivity|contradiction]. }
  split; [intros hist a; now rewrite Hu|]. intros st a. exact (unused_strength _ st T a None Hu).
Qed.
Print Assumptions C101_cold_refuted.

(** concrete cases *)
Definition nye_cube : single := {| sg_inel := IAsaro 12 [{| hd_tau := fun _ _ _ => 10; hd_parts := [SPlain; SVoce (fun _ => 5)] |}]; sg_at := fun _ => cube |}.
Definition ex_nye : vec := fun i => match i with 0%nat => 4 | _ => 0 end.
Definition at_rest : point := {| pt_hist := init_store true (Quat 1 0 0 0) vzero; pt_s := vzero; pt_d := vzero; pt_w := vzero; pt_T := 300; pt_t := 0; pt_u := 0; pt_p := 0 |}.
Definition ideal_rest : ideal := {| id_nye := vzero; id_q := Quat 1 0 0 0; id_h := vzero; id_s := vzero; id_d := vzero; id_w := vzero; id_T := 300; id_t := 0; id_u := 0; id_p := 0 |}.
Definition ex_load : nload := {| nl_d := stretch; nl_w := vzero; nl_T := 300; nl_t := 1 |}.
Lemma cube_uses : sg_use nye_cube = true.
Proof. unfold sg_use. cbn. unfold harden_use. cbn. unfold voce_use_nye. destruct (Req_EM_T 5 0); [lra|reflexivity]. Qed.
Lemma rest_same : same_results true at_rest ideal_rest /\ same_nye at_rest ideal_rest.
Proof.
  split.
  - unfold same_results. cbn [at_rest pt_s pt_hist pt_u pt_p pt_d pt_w pt_T pt_t ideal_rest id_s id_h id_q id_u id_p id_d id_w id_T id_t]. unfold init_store. rewrite get_state_pack, get_q_pack. repeat split.
  - intros i Hi. cbn [at_rest pt_hist ideal_rest id_nye]. unfold init_store. rewrite get_nye_pack by exact Hi. reflexivity.
Qed.
(** the tensor expected in force is not: the strength drops from 20 to 10 in an elastic step *)
Theorem C101_kept_refuted : exists x' y', same_results true at_rest ideal_rest /\ same_nye at_rest ideal_rest /\
  nrun 2 (fun _ _ => None) id_inv nye_cube (opts 0 0) [ONye ex_nye; OStep ex_load] at_rest = Some x' /\
  ideal_run 2 (fun _ _ => None) id_inv nye_cube (opts 0 0) [ONye ex_nye; OStep ex_load] ideal_rest = Some y' /\ same_results true x' y' /\
  inel_strength (sg_inel nye_cube) (id_h y') 300 (Some (nine (id_nye y'))) = 20 /\ sg_strength nye_cube (pt_hist x') 300 = 10.
Proof.
  destruct rest_same as [H1 H2]. destruct (elastic_ok (fun _ _ => None) unit6 unit6 (opts 0 0) (pull vzero)) as (r & Hr); [cbn; lia|cbn; lia|cbn; lra|reflexivity|intros l _; reflexivity|].
  pose proof (C101_set_each_step 2 (fun _ _ => None) id_inv nye_cube (opts 0 0) [ONye ex_nye; OStep ex_load] at_rest ideal_rest cube_uses ltac:(cbn; tauto) H1) as HB.
  assert (EI : exists y', ideal_run 2 (fun _ _ => None) id_inv nye_cube (opts 0 0) [ONye ex_nye; OStep ex_load] ideal_rest = Some y' /\ id_nye y' = ex_nye).
  { cbn [ideal_run]. unfold ideal_step. cbn [nye_cube sg_at]. change (mk_call _ _ _ _ _ _ _ _ _ _) with (pull vzero). fold cube in Hr. change (2 ^ so_max (opts 0 0) + so_max (opts 0 0) + 1)%nat with 2%nat in Hr. rewrite Hr. eexists. split; reflexivity. }
  destruct EI as (y' & EI & EN). rewrite EI in HB. destruct (nrun _ _ _ _ _ _ _) as [x'|] eqn:ER; cbn [both] in HB; [|contradiction].
  exists x', y'. split; [exact H1|]. split; [exact H2|]. split; [reflexivity|]. split; [exact EI|]. split; [exact HB|].
  assert (Base : forall st nye, inel_strength (sg_inel nye_cube) st 300 nye = 10 + voce_nye (fun _ => 5) 300 nye).
  { intros st nye. cbn [nye_cube sg_inel inel_strength]. unfold rule_strength, harden_tau. cbn [map fold_right hd_tau hd_parts slaw_nye rsum]. field. }
  split.
  - rewrite Base, EN. unfold voce_nye, voce_use_nye. destruct (Req_EM_T 5 0); [lra|]. replace (norm9 (nine ex_nye)) with (2 * 2); [rewrite sqrt_square by lra; lra|].
    unfold norm9, contract9. cbn [rsum nine ex_nye Nat.ltb Nat.leb]. unfold nine, ex_nye. cbn. match goal with |- context [sqrt ?e] => replace e with (4 * 4) by ring end. rewrite sqrt_square; lra.
  - cbn [nrun] in ER. destruct (nstep _ _ _ _ _ _ _) as [z|] eqn:ES; [|discriminate ER]. injection ER as <-. rewrite (C101_strength_lost_refuted _ _ _ _ _ _ _ _ 300 ES), Base.
    unfold voce_nye. destruct (voce_use_nye _); lra.
Qed.
Print Assumptions C101_kept_refuted.
Example C101_each_case : sets_each false [ONye ex_nye; OActive (Quat 1 0 0 0); OStep ex_load; ONye vzero; OStep ex_load] /\ sg_use nye_cube = true.
Proof. split; [cbn; tauto|exact cube_uses]. Qed.
Example C101_unused_case : sg_use {| sg_inel := IComb [INone; IAsaro 12 [{| hd_tau := fun _ _ _ => 10; hd_parts := [SVoce (fun T => T)] |}]]; sg_at := fun _ => cube |} = false.
Proof. unfold sg_use. cbn. unfold harden_use. cbn. unfold voce_use_nye. destruct (Req_EM_T 0 0); [reflexivity|lra]. Qed.
Example C101_uses_case : has_law (IComb [INone; IComb [IAsaro 12 [{| hd_tau := fun _ _ _ => 10; hd_parts := [SPlain; SLinear (fun _ => 2)] |}]]]) (SLinear (fun _ => 2)).
Proof. apply hl_comb with (IComb [IAsaro 12 [{| hd_tau := fun _ _ _ => 10; hd_parts := [SPlain; SLinear (fun _ => 2)] |}]]); [cbn; auto|]. eapply hl_comb; [left; reflexivity|]. eapply hl_asaro; [left; reflexivity|cbn; auto]. Qed.
Example C101_cold_case : (fun T : R => T) 0 = 0 /\ (fun T : R => T) 300 <> 0.
Proof. split; [reflexivity|cbv beta; lra]. Qed.
