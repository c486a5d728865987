(** Concrete walls: the hypotheses can be met, and what the code gets wrong. *)
From Verif Require Import Base Diff.
From Verif Require Import SolverModel SubstepModel CreepModel NlModel NlSpec UniModel UniSpec ElasticProofs PyEx BarModel BarSpec AxiModel AxiSpec AxiProofs AxiHist AxiJac.
From Coq Require Import ZArith List Arith Lia.
Import ListNotations.

(** ** an exact solver for tridiagonal systems *)
Definition tri_mat (DU D DL : vec) : mat := fun i j => (if Nat.eqb j i then D i else 0) + (if Nat.eqb j (S i) then DU i else 0) + (match i with O => 0 | S m => if Nat.eqb j m then DL m else 0 end).
Lemma tri_mat_mv n DU D DL x i : (i < n)%nat -> mv n (tri_mat DU D DL) x i = tri_mv n DU D DL x i.
Proof.
  intros Hi. unfold mv, tri_mat, tri_mv.
  rewrite (rsum_ext n _ (fun j => (if Nat.eqb j i then D i else 0) * x j + ((if Nat.eqb j (S i) then DU i else 0) * x j + (match i with O => 0 | S m => if Nat.eqb j m then DL m else 0 end) * x j))) by (intros; ring).
  rewrite !rsum_plus, (rsum_pick n x i (D i) Hi).
  assert (E1 : rsum n (fun j => (if Nat.eqb j (S i) then DU i else 0) * x j) = if Nat.ltb (S i) n then DU i * x (S i) else 0).
  { destruct (Nat.ltb_spec (S i) n) as [L|L]; [apply (rsum_pick n x (S i) (DU i) L)|]. rewrite (rsum_ext n _ (fun _ => 0)); [apply rsum_0|]. intros j Hj. replace (Nat.eqb j (S i)) with false by (symmetry; apply Nat.eqb_neq; lia). ring. }
  assert (E2 : rsum n (fun j => (match i with O => 0 | S m => if Nat.eqb j m then DL m else 0 end) * x j) = match i with O => 0 | S j => DL j * x j end).
  { destruct i as [|m]; [rewrite (rsum_ext n _ (fun _ => 0)) by (intros; ring); apply rsum_0|]. apply (rsum_pick n x m (DL m)). lia. }
  rewrite E1, E2. ring.
Qed.
Definition the_tri (n : nat) (DU D DL c : vec) : option vec := the_solve n (tri_mat DU D DL) c.
Lemma the_tri_ok : tri_ok the_tri.
Proof. intros n DU D DL c x E k Hk. destruct (the_solve_ok _ _ _ _ E) as [H _]. rewrite <- (tri_mat_mv n DU D DL x k Hk). apply H, Hk. Qed.
Lemma the_tri_total : tri_total the_tri.
Proof. intros n DU D DL c H. apply the_solve_total. intros w Hw. apply H. intros k Hk. rewrite <- (tri_mat_mv n DU D DL w k Hk). apply Hw, Hk. Qed.

(** ** an elastic wall of one element *)
Definition el_mat : pymodel := {| pm_base := {| ba_nh := 0; ba_update := fun l1 _ _ _ _ _ => Some {| pr_s := ld_e l1; pr_h := fun _ => 0; pr_A := delta; pr_u := 0; pr_p := 0 |}; ba_init := fun _ => 0 |};
  pm_alpha := fun _ => 0; pm_estrain := fun s _ _ => s; pm_damage := fun _ => 0 |}.
Definition el_wall (con : bool) : axi := {| ax_ne := 1; ax_mesh := fun k => 1 + INR k; ax_mat := fun _ => el_mat; ax_gp := [(0, 2)]; ax_T := fun _ _ => 0; ax_p := fun t => t; ax_pext := fun _ => 0; ax_con := con; ax_ri := 1; ax_ro := 2; ax_t := 1 |}.
Lemma el_ok con : wall (el_wall con).
Proof.
  unfold wall. cbn [el_wall ax_ne ax_mesh ax_gp ax_ri ax_ro ax_t]. split; [lia|]. split; [cbn; lra|]. split; [intros e He; rewrite S_INR; lra|]. repeat split; try (cbn; lra).
  constructor; [cbn; lra|constructor].
Qed.
Lemma el_elastic con e : (e < ax_ne (el_wall con))%nat -> elastic_base delta (pm_base (ax_mat (el_wall con) e)).
Proof.
  intros _ l1 l0 s h u p. eexists. cbn. split; [reflexivity|]. split; [|reflexivity]. intros i Hi. unfold mv, delta. cbn [rsum].
  destruct i as [|[|[|[|[|[|i]]]]]]; try lia; cbn; ring.
Qed.
Lemma el_J con old T pl pr t x Rv J ll : (exists q, as_pts old = [[q]]) -> axi_RJ (el_wall con) old T pl pr t x = Some (Rv, J, ll) ->
  a_d J 0%nat = 13 / 9 /\ a_du J 0%nat = - (11 / 9) /\ a_dl J 0%nat = - (5 / 9) /\ a_d J 1%nat = 7 / 9 /\ a_22 J = 1 /\ a_21 J 0%nat = 0 /\ a_21 J 1%nat = 0 /\ a_12 J 0%nat = 0 /\ a_12 J 1%nat = 0.
Proof.
  intros [q Eq] E. unfold axi_RJ in E. rewrite Eq in E. cbn [elems_RJ elem_RJ el_wall ax_gp] in E. unfold axi_pt in E. cbn [el_wall ax_mat] in E. unfold upd in E. cbn [el_mat pm_base ba_update] in E. cbv zeta in E. cbn [gp_stress pr_s pr_A] in E.
  injection E as _ <- _. cbn [asm_pt a_d a_du a_dl a_22 a_21 a_12 asm0]. unfold vadd_at, Bk, Nk, len, rad, Nl, delta. cbn. repeat split; field.
Qed.
Lemma el_solvable con old T pl pr t x Rv J ll : (exists q, as_pts old = [[q]]) -> axi_RJ (el_wall con) old T pl pr t x = Some (Rv, J, ll) -> axi_solvable (el_wall con) J.
Proof.
  intros Hq E. destruct (el_J con old T pl pr t x Rv J ll Hq E) as (D0 & DU & DL & D1 & J22 & J210 & J211 & J120 & J121). cbn [el_wall ax_ne].
  assert (HT : forall w, veq 2 (tri_mv 2 (a_du J) (a_d J) (a_dl J) w) (fun _ => 0) -> veq 2 w (fun _ => 0)).
  { intros w Hw. assert (W0 := Hw 0%nat ltac:(lia)). assert (W1 := Hw 1%nat ltac:(lia)). unfold tri_mv in W0, W1. cbn [Nat.ltb Nat.leb] in W0, W1. rewrite ?D0, ?DU, ?DL, ?D1 in *.
    intros k Hk. destruct k as [|[|k]]; try lia; lra. }
  split; [exact HT|]. intros _. split; [rewrite J22; lra|]. intros v Hv k Hk.
  assert (V2 := Hv 2%nat ltac:(cbn; lia)). unfold axi_mv, dot in V2. cbn [el_wall ax_ne Nat.eqb rsum] in V2. rewrite J210, J211, J22 in V2.
  assert (Z2 : v 2%nat = 0) by lra. cbn [el_wall ax_ne] in Hk. destruct (Nat.eq_dec k 2) as [->|N]; [exact Z2|].
  apply (HT v); [|lia]. intros i Hi. specialize (Hv i ltac:(cbn; lia)). unfold axi_mv in Hv. cbn [el_wall ax_ne] in Hv. replace (Nat.eqb i 2) with false in Hv by (symmetry; apply Nat.eqb_neq; lia).
  rewrite Z2 in Hv. lra.
Qed.
Definition opt (ilimit maxdiv : nat) (atol : R) : aopt := {| ao_rtol := 0; ao_atol := atol; ao_div := 2; ao_maxdiv := maxdiv; ao_predict := 1; ao_ilimit := ilimit |}.
Lemma el_init con : exists q, as_pts (axi_init (el_wall con)) = [[q]].
Proof. eexists. cbn. reflexivity. Qed.
Lemma el_case con tri : tri_ok tri -> tri_total tri -> exists s, axi_step 2 (el_wall con) tri (opt 2 4 0) [axi_init (el_wall con)] 1 = ([s; axi_init (el_wall con)], Ret tt) /\
  wall_follows (el_wall con) 0 0 1 (axi_init (el_wall con)) s.
Proof.
  intros Hok Htot. destruct (take_elastic (el_wall con) tri [axi_init (el_wall con)] (axi_init (el_wall con)) 1 1 0 0 2 1 (fun _ => delta) Hok Htot (el_ok con) (init_shape _) ltac:(lra) ltac:(lia) eq_refl (el_elastic con)) as [s Es].
  - intros x Rv J ll E. exact (el_solvable con _ _ _ _ _ _ _ _ _ (el_init con) E).
  - exists s. apply (step_direct (el_wall con) tri (opt 2 4 0) 0 (axi_init (el_wall con)) [] 1 s (el_ok con)); [cbn; lra|cbn; lra|apply init_shape|exact Es].
Qed.
(** convergence in the last allowed iteration counts as failure *)
Lemma last_iteration tri : tri_ok tri -> tri_total tri -> exists a old T x R0 J0 l0 x1 R1 J1 l1, wall a /\ old = axi_init a /\ (forall k, x k = 0) /\ (forall k, T k = ax_T a (ax_mesh a k) 1) /\
  axi_RJ a old T (ax_p a 1) (ax_pext a 1) 1 x = Some (R0, J0, l0) /\ axi_move a tri x R0 J0 = Some x1 /\ axi_RJ a old T (ax_p a 1) (ax_pext a 1) 1 x1 = Some (R1, J1, l1) /\ axi_norm a R1 = 0 /\
  axi_step 2 a tri (opt 1 0 0) [old] 1 = ([old], Raise ModelError).
Proof.
  intros Hok Htot. set (a := el_wall true). set (old := axi_init a). set (T := fun k : nat => ax_T a (ax_mesh a k) 1). set (x := fun k : nat => if Nat.eqb k 2 then 0 else axi_guess a [old] 1 k).
  destruct (RJ_elastic a old T (ax_p a 1) (ax_pext a 1) 1 (fun _ => delta) x x (el_ok true) (init_shape a) (el_elastic true)) as (R0 & J0 & l0 & _ & _ & _ & E0 & _).
  destruct (newton_elastic a tri old T (ax_p a 1) (ax_pext a 1) 1 (fun _ => delta) x R0 J0 l0 Hok Htot (el_ok true) (init_shape a) (el_elastic true) E0 (el_solvable true _ _ _ _ _ _ _ _ _ (el_init true) E0)) as (x1 & R1 & J1 & l1 & EM & E1 & N1).
  exists a, old, T, x, R0, J0, l0, x1, R1, J1, l1. split; [apply el_ok|]. split; [reflexivity|]. split; [intros k; unfold x, axi_guess; cbn; destruct (Nat.eqb k 2); reflexivity|]. split; [reflexivity|]. split; [exact E0|]. split; [exact EM|]. split; [exact E1|]. split; [exact N1|].
  assert (N0 : axi_norm a R0 = 1).
  { assert (E := E0). unfold axi_RJ in E. cbn [a old axi_init as_pts elems_RJ elem_RJ el_wall ax_gp map seq ax_ne ax_mat] in E. unfold axi_pt in E. cbn [ax_mat] in E. unfold upd in E. cbn [el_mat pm_base ba_update] in E. cbv zeta in E. cbn [gp_stress pr_s pr_A] in E.
    injection E as <- _ _. unfold axi_norm. cbn [a el_wall ax_con ax_ne]. unfold norm2. match goal with |- sqrt ?z = 1 => replace z with 1; [apply sqrt_1|] end.
    unfold dot. cbn [rsum]. unfold axi_ext, asm_pt, vadd_at, axi_strain, Bk, Nk, len, rad, Nl, x, axi_guess. cbn. field. }
  unfold axi_step. cbv zeta. cbn [opt ao_div ao_maxdiv pow axi_steps]. destruct (Req_EM_T 0 1); [lra|]. cbn [ao_rtol ao_atol ao_ilimit ao_predict].
  match goal with |- context [take_step a tri [old] ?z 1 _ _ _ _] => replace z with 1 by (cbn; field) end.
  assert (ET : take_step a tri [old] 1 1 (ao_rtol (opt 1 0 0)) (ao_atol (opt 1 0 0)) (ao_ilimit (opt 1 0 0)) (ao_predict (opt 1 0 0)) = None).
  { cbn [opt ao_rtol ao_atol ao_ilimit ao_predict]. unfold take_step. cbv zeta. fold T. change (if ax_con a then fun k : nat => if Nat.eqb k (S (ax_ne a)) then 0 else axi_guess a [old] 1 k else axi_guess a [old] 1) with x. rewrite E0. cbn [axi_loop]. rewrite N0.
    destruct (Rlt_dec 0 1); [|lra]. destruct (Rlt_dec 0 (1 / 1)); [|lra]. rewrite EM, E1. reflexivity. }
  rewrite ET. reflexivity.
Qed.

(** ** a divided step: the last part is taken at a later time than recorded *)
Definition shy_mat : pymodel := {| pm_base := {| ba_nh := 0; ba_update := fun l1 l0 _ _ _ _ => if Rlt_dec (3 / 4) (ld_T l1 - ld_T l0) then None else Some {| pr_s := fun _ => 0; pr_h := fun _ => 0; pr_A := fun _ _ => 0; pr_u := 0; pr_p := 0 |}; ba_init := fun _ => 0 |};
  pm_alpha := fun _ => 0; pm_estrain := fun s _ _ => s; pm_damage := fun _ => 0 |}.
Definition ramp (t : R) : R := if Rlt_dec t 1 then t else 1.
Definition shy_wall : axi := {| ax_ne := 1; ax_mesh := fun k => 1 + INR k; ax_mat := fun _ => shy_mat; ax_gp := [(0, 2)]; ax_T := fun _ => ramp; ax_p := fun t => t; ax_pext := fun _ => 0; ax_con := true; ax_ri := 1; ax_ro := 2; ax_t := 1 |}.
Lemma shy_ok : wall shy_wall.
Proof. exact (el_ok true). Qed.
Lemma shy_take tri old rest q t trec pr c : as_pts old = [[q]] -> (forall k, as_temp old k = c) -> 0 <= t <= 10 ->
  (3 / 4 < ramp t - c -> take_step shy_wall tri (old :: rest) t trec 0 10 10 pr = None) /\
  (ramp t - c <= 3 / 4 -> exists s q', take_step shy_wall tri (old :: rest) t trec 0 10 10 pr = Some s /\ as_pts s = [[q']] /\ (forall k, as_temp s k = ramp t) /\ as_time s = trec /\ as_press s = t).
Proof.
  intros Eq Ec Ht. unfold take_step. cbv zeta. match goal with |- context [axi_RJ shy_wall old ?T ?p ?pe t ?x] => set (x0 := x); set (TT := T); assert (ER : axi_RJ shy_wall old TT p pe t x0 = if Rlt_dec (3 / 4) (Nl 0 TT 0 - Nl 0 (as_temp old) 0) then None else axi_RJ shy_wall old TT p pe t x0) end.
  { unfold axi_RJ. rewrite Eq. cbn [elems_RJ elem_RJ shy_wall ax_gp]. unfold axi_pt. cbn [shy_wall ax_mat]. unfold upd. cbn [shy_mat pm_base ba_update ld_T]. destruct (Rlt_dec _ _); reflexivity. }
  assert (EN : Nl 0 TT 0 - Nl 0 (as_temp old) 0 = ramp t - c) by (unfold Nl, TT; rewrite !Ec; cbn; field). rewrite EN in ER. split; intros L.
  - rewrite ER. destruct (Rlt_dec (3 / 4) (ramp t - c)); [reflexivity|lra].
  - clear ER. unfold axi_RJ. rewrite Eq. cbn [elems_RJ elem_RJ shy_wall ax_gp]. unfold axi_pt. cbn [shy_wall ax_mat]. unfold upd. cbn [shy_mat pm_base ba_update ld_T]. rewrite EN. destruct (Rlt_dec (3 / 4) (ramp t - c)); [lra|]. cbv iota beta zeta. cbn [gp_stress pr_s pr_A].
    match goal with |- context [axi_norm ?a ?R] => set (RR := R); assert (N : axi_norm a RR <= 10) end.
    { unfold axi_norm. cbn [ax_con ax_ne]. unfold norm2. replace 10 with (sqrt (10 * 10)) by (rewrite sqrt_square; lra). apply sqrt_le_1_alt. unfold RR, dot. cbn [rsum]. unfold axi_ext, asm_pt, vadd_at. cbn.
      match goal with |- ?z <= _ => replace z with (t * t) by (unfold Rdiv; ring) end. apply Rmult_le_compat; lra. }
    cbn [axi_loop]. match goal with |- context [Rlt_dec 10 ?z] => destruct (Rlt_dec 10 z) as [K|K] end; [exfalso; apply (Rlt_irrefl 10); eapply Rlt_le_trans; [exact K|exact N]|].
    eexists _, _. split; [reflexivity|]. cbn [as_pts as_temp as_time as_press]. split; [reflexivity|]. split; [intros k; reflexivity|]. split; reflexivity.
Qed.
Lemma divided_step tri : exists a o rows s, wall a /\ axi_step 10 a tri o [axi_init a] 1 = (s :: rows, Ret tt) /\ rows = [axi_init a] /\ as_time s = 1 /\ as_press s = ax_p a 2 /\ as_press s <> ax_p a 1.
Proof.
  set (i0 := axi_init shy_wall). assert (I0 : as_pts i0 = [[gp_init shy_mat]]) by reflexivity.
  assert (R1 : ramp 1 = 1) by (unfold ramp; destruct (Rlt_dec 1 1); lra). assert (R2 : ramp 2 = 1) by (unfold ramp; destruct (Rlt_dec 2 1); lra). assert (Rh : ramp (1 / 2) = 1 / 2) by (unfold ramp; destruct (Rlt_dec (1 / 2) 1); lra).
  assert (T0 : forall k, as_temp i0 k = 0) by (intros k; cbn; unfold ramp; destruct (Rlt_dec 0 1); lra).
  destruct (shy_take tri i0 [] _ 1 1 1 0 I0 T0 ltac:(lra)) as [F1 _]. specialize (F1 ltac:(rewrite R1; lra)).
  destruct (shy_take tri i0 [] _ (1 / 2) 1 1 0 I0 T0 ltac:(lra)) as [_ G1]. destruct (G1 ltac:(rewrite Rh; lra)) as (s1 & q1 & E1 & P1 & Te1 & Ti1 & _).
  destruct (shy_take tri s1 [i0] _ 2 1 1 (1 / 2) P1 ltac:(intros k; rewrite Te1; exact Rh) ltac:(lra)) as [_ G2]. destruct (G2 ltac:(rewrite R2; lra)) as (s2 & q2 & E2 & P2 & Te2 & Ti2 & Pr2).
  exists shy_wall, (opt 10 2 10), [i0], s2. split; [exact shy_ok|]. split; [|split; [reflexivity|split; [exact Ti2|split; [exact Pr2|rewrite Pr2; cbn; lra]]]].
  unfold axi_step. cbv zeta. cbn [opt ao_div ao_maxdiv axi_steps ao_rtol ao_atol ao_ilimit ao_predict]. fold i0. change (as_time i0) with 0.
  destruct (Req_EM_T 0 (2 ^ 2)) as [Q|_]; [cbn in Q; lra|]. replace (0 + (1 - 0) * (0 + 2 ^ 2) / 2 ^ 2) with 1 by (cbn; field). rewrite F1. cbn [Nat.ltb Nat.leb].
  destruct (Req_EM_T 0 (2 ^ 2)) as [Q|_]; [cbn in Q; lra|]. replace (0 + (1 - 0) * (0 + 2 ^ 2 / 2) / 2 ^ 2) with (1 / 2) by (cbn; field). rewrite E1.
  destruct (Req_EM_T (0 + 2 ^ 2 / 2) (2 ^ 2)) as [Q|_]; [cbn in Q; lra|]. rewrite Ti1. replace (1 + (1 - 0) * (0 + 2 ^ 2 / 2 + 2 ^ 2 / 2) / 2 ^ 2) with 2 by (cbn; field). rewrite E2.
  destruct (Req_EM_T (0 + 2 ^ 2 / 2 + 2 ^ 2 / 2) (2 ^ 2)) as [_|Q]; [reflexivity|exfalso; apply Q; cbn; field].
Qed.

(** ** the axial force *)
Definition ax_mat_c (c : R) : pymodel := {| pm_base := {| ba_nh := 0; ba_update := fun _ _ _ _ _ _ => Some {| pr_s := fun i => if Nat.eqb i 2 then c else 0; pr_h := fun _ => 0; pr_A := fun _ _ => 0; pr_u := 0; pr_p := 0 |}; ba_init := fun _ => 0 |};
  pm_alpha := fun _ => 0; pm_estrain := fun s _ _ => s; pm_damage := fun _ => 0 |}.
Definition ax_wall : axi := {| ax_ne := 2; ax_mesh := fun k => 1 + INR k; ax_mat := fun e => ax_mat_c (if Nat.eqb e 0 then 1 else -1); ax_gp := [(0, 2)]; ax_T := fun _ _ => 0; ax_p := fun _ => 0; ax_pext := fun _ => 0; ax_con := false; ax_ri := 1; ax_ro := 3; ax_t := 2 |}.
Lemma ax_ok : wall ax_wall.
Proof.
  unfold wall. cbn [ax_wall ax_ne ax_mesh ax_gp ax_ri ax_ro ax_t]. split; [lia|]. split; [cbn; lra|]. split; [intros e He; rewrite S_INR; lra|]. repeat split; try (cbn; lra).
  constructor; [cbn; lra|constructor].
Qed.
Lemma axial_force tri : exists a o s, wall a /\ ax_con a = false /\ axi_step 2 a tri o [axi_init a] 1 = ([s; axi_init a], Ret tt) /\ wall_follows a 0 0 1 (axi_init a) s /\ out_of_balance a s <= 0 /\
  through_wall a s (fun e xi q => lerp xi (ax_mesh a) e * gp_stress q 2%nat) <> (as_press s * ax_ri a ^ 2 - as_ext s * ax_ro a ^ 2) / 2.
Proof.
  assert (HT : exists s q0 q1, take_step ax_wall tri [axi_init ax_wall] 1 1 0 0 1 1 = Some s /\ as_pts s = [[q0]; [q1]] /\ gp_stress q0 2%nat = 1 /\ gp_stress q1 2%nat = -1 /\ as_press s = 0 /\ as_ext s = 0).
  { unfold take_step. cbv zeta. unfold axi_RJ. cbn [axi_init as_pts ax_wall ax_ne seq map ax_gp elems_RJ elem_RJ]. unfold axi_pt. cbn [ax_wall ax_mat Nat.eqb]. unfold upd. cbn [ax_mat_c pm_base ba_update]. cbv iota beta zeta. cbn [gp_stress pr_s pr_A].
    match goal with |- context [axi_norm ?a ?R] => set (RR := R); assert (N : axi_norm a RR = 0) end.
    { unfold axi_norm. cbn [ax_wall ax_con ax_ne]. unfold norm2. match goal with |- sqrt ?z = 0 => replace z with 0; [apply sqrt_0|] end. unfold RR, dot. cbn [rsum]. unfold axi_ext, asm_pt, vadd_at, len. cbn. field. }
    cbn [axi_loop]. match goal with |- context [Rlt_dec 0 ?z] => destruct (Rlt_dec 0 z) as [K|K] end; [exfalso; rewrite N in K; lra|].
    eexists _, _, _. split; [reflexivity|]. cbn [as_pts as_press as_ext]. split; [reflexivity|]. cbn. repeat split; reflexivity. }
  destruct HT as (s & q0 & q1 & E & P & S0 & S1 & Pr & Ex). exists ax_wall, (opt 1 4 0), s. split; [exact ax_ok|]. split; [reflexivity|].
  destruct (step_direct ax_wall tri (opt 1 4 0) 0 (axi_init ax_wall) [] 1 s ax_ok ltac:(cbn; lra) ltac:(cbn; lra) (init_shape _) E) as [E1 F]. split; [exact E1|]. split; [exact F|]. split.
  - destruct F as [_ (s0 & _ & [Q|Q])]; [exact Q|]. cbn [opt ao_rtol] in Q. rewrite Rmult_0_l in Q. exact Q.
  - unfold through_wall. rewrite P. cbn [points_from ax_wall ax_gp combine map app]. unfold sum_over. cbn [fold_right fst snd]. cbv beta iota. cbn [fst snd]. unfold lerp. rewrite S0, S1, Pr, Ex. cbn. lra.
Qed.
