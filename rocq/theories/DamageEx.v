From Verif Require Import Base.
From Verif Require Import Diff.
From Coq Require Import ClassicalDescription.
From Verif Require Import NemlMathModel NemlMathSpec NemlMathProofs SolverModel SolverSpec SolverProofs SubstepModel SurfModel SurfSpec SurfProofs HardProofs RiProofs.
From Verif Require Import PlastModel PlastSpec PlastProofs ViscoProofs YaguchiProofs CreepModel CreepSpec CreepProofs J2CreepProofs CreepPlastProofs CreepEx.
From Verif Require Import DamageModel DamageSpec DamageProofs WorkDamageProofs EffStressProofs PrincipalProofs DamagedProofs LarsonProofs.

(** *** convergence of the damage update and no healing *)
Lemma norm_comp n r i : (i < n)%nat -> Rabs (r i) <= norm2 n r.
Proof.
  intros Hi. unfold norm2. rewrite <- sqrt_Rsqr_abs. apply sqrt_le_1_alt. unfold dot, Rsqr.
  revert Hi. induction n as [|n IH]; [lia|]. intros Hi. cbn [rsum]. assert (P : 0 <= rsum n (fun k => r k * r k)) by (apply rsum_nonneg; intros; apply Rle_0_sqr).
  destruct (Nat.eq_dec i n) as [->|N]; [lra|]. specialize (IH ltac:(lia)). pose proof (Rle_0_sqr (r n)) as Q. unfold Rsqr in Q. lra.
Qed.
Lemma step_no_healing lsolve inv prm k C B D next past sn hn un pn res : (1 <= miter prm)%Z -> ~ removed k (hn 0%nat) -> hn 0%nat <= 1 ->
  (forall a, adn a = hn 0%nat -> ad a <= 1 -> aT a = ld_T next -> at_ a = ld_t next -> atn a = ld_t past -> adn a <= dm D a) ->
  dmg_update lsolve inv prm k C B D next past sn hn un pn = Some res ->
  exists r r0, within_tolerance prm 7 r r0 /\ hn 0%nat - norm2 7 r <= pr_h res 0%nat.
Proof.
  intros Hm Hr H1 HD H. destruct (dmg_eqs _ _ _ _ _ _ _ _ _ _ _ _ _ _ Hm Hr H) as (x & rb & r & r0 & _ & W & _ & Ew & K1 & K2).
  exists r, r0. split; [exact W|]. pose proof (norm_comp 7 r 6 ltac:(lia)) as N. pose proof (Rabs_pos (r 6%nat)) as P. destruct (removed_dec k (x 6%nat)) as [R1|R1].
  - rewrite (K1 R1). cbn [ekill_update pr_h Nat.eqb]. lra.
  - destruct (K2 R1) as (_ & E & _). rewrite E. destruct (Rle_dec (x 6%nat) 1) as [L|L]; [|lra].
    pose proof (HD (dargs_of next past (x 6%nat) (hn 0%nat) (fun i => x i / (1 - x 6%nat)) (fun i => sn i / (1 - hn 0%nat))) eq_refl L eq_refl eq_refl eq_refl) as HH.
    apply Rabs_le_between in N. cbn [adn dargs_of] in HH. lra.
Qed.

(** *** a concrete step: the elastic bar, work damage, w goes from 0 to 1/4 *)
Definition S1 : R -> mat := fun _ => delta.
Lemma S1_sym T : sym6 (S1 T). Proof. intros i j _ _. unfold S1, delta. rewrite (Nat.eqb_sym i j). reflexivity. Qed.
Definition W4 : damage := WorkDamage S1 (fun _ => 1) (fun _ => 0) 1 (1 / 4) 1 false.
Definition bnext : load := hold (uni 1) 1.
Definition bpast : load := hold (uni (2 / 3)) 0.
Definition bsn : vec := uni (3 / 4).
Definition bhn : vec := fun i => match i with O => 0 | _ => 7 end.
Definition Kb (k : R) : mat := fun i j => if Nat.eqb i 0 then (if Nat.eqb j 0 then k else 0) else delta i j.
Definition invb (n : nat) (J : mat) : option mat := if excluded_middle_informative (two_inverse n (Kb (12 / 7)) J) then Some (Kb (12 / 7)) else None.
Lemma invb_ok : inv_ok invb.
Proof. intros n J K. unfold invb. destruct (excluded_middle_informative _) as [H|]; [intros E; injection E as <-; exact H|discriminate]. Qed.
(** the damage law at the solution *)
Definition ba (s' : vec) : dargs := dargs_of bnext bpast (1 / 4) 0 s' (eff_s bsn 0).
Lemma ba_dp s' i : veq 6 s' (uni 1) -> (i < 6)%nat -> wk_dp S1 (ba s') (1 / 4) i = uni (1 / 3) i.
Proof.
  intros H Hi. unfold wk_dp, vsub, S1. rewrite mv_delta by exact Hi. unfold ba, dargs_of. cbn [ae aen as_ asn adn aT]. rewrite (H i Hi).
  unfold bnext, bpast, hold, eff_s, bsn. cbn [ld_e]. do 6 (destruct i as [|i]; [unfold uni; cbn; lra|]). lia.
Qed.
Lemma dot_uni a b v w : veq 6 v (uni a) -> veq 6 w (uni b) -> dot 6 v w = a * b.
Proof. intros H1 H2. rewrite (dot_ext 6 _ (uni a) _ (uni b) H1 H2). unfold dot, uni. cbn. ring. Qed.
Lemma ba_work s' : veq 6 s' (uni 1) -> plastic_work S1 (ba s') = 1 / 3.
Proof.
  intros H. unfold plastic_work. cbv zeta. rewrite (dot_uni 1 (1 / 3)); [ring| |].
  - exact H.
  - intros i Hi. rewrite <- (ba_dp s' i H Hi). reflexivity.
Qed.
Lemma ba_wr s' : veq 6 s' (uni 1) -> workrate S1 1 (ba s') (Rabs (ad (ba s'))) = 1 / 4.
Proof.
  intros H. unfold ba at 1. cbn [ad dargs_of]. rewrite workrate_pos.
  - rewrite ba_work by exact H. unfold ba, dargs_of. cbn [ad at_ atn]. unfold bnext, bpast, hold. cbn [ld_t]. field.
  - unfold ba, dargs_of. cbn [ad]. lra.
  - unfold ba, dargs_of. cbn [ad]. lra.
  - rewrite ba_work by exact H. lra.
  - unfold ba, dargs_of, bnext, bpast, hold. cbn [at_ atn ld_t]. lra.
Qed.
Lemma cpow_0 x : 0 < x -> cpow x 0 = 1. Proof. intros H. rewrite cpow_pos, Rpower_O by exact H. reflexivity. Qed.
Ltac ba_go H := unfold W4, WorkDamage; cbv zeta beta; cbn [dm dm_d dm_e dm_s]; rewrite ?ba_wr by exact H; unfold wcrit, dwcrit; change (ad (ba _)) with (1 / 4);
  replace ((1 - 1) / 1) with 0 by field; rewrite ?(Rabs_pos_eq (1 / 4)) by lra; rewrite ?cpow_0 by lra.
Lemma ba_dm s' : veq 6 s' (uni 1) -> dm W4 (ba s') = 1 / 4.
Proof.
  intros H. ba_go H. destruct (Req_EM_T _ _); [lra|]. unfold ba, dargs_of, bnext, bpast, hold. cbn [adn at_ atn ld_t]. field.
Qed.
Lemma ba_d s' : veq 6 s' (uni 1) -> dm_d W4 (ba s') = 5 / 12.
Proof.
  intros H. ba_go H. destruct (Req_EM_T _ _); [lra|]. cbv zeta. rewrite (dot_uni 1 1).
  - unfold ba, dargs_of, bnext, bpast, hold. cbn [adn at_ atn ld_t]. field.
  - exact H.
  - intros i Hi. unfold S1. rewrite mv_delta by exact Hi. apply (H i Hi).
Qed.
Lemma ba_e s' i : veq 6 s' (uni 1) -> (i < 6)%nat -> dm_e W4 (ba s') i = uni (3 / 4) i.
Proof.
  intros H Hi. ba_go H. destruct (Rle_dec _ _); [lra|]. destruct (Req_EM_T _ _); [lra|]. cbv zeta. change (as_ (ba s') i) with (s' i). rewrite (H i Hi).
  do 6 (destruct i as [|i]; [unfold uni; cbn; field|]). lia.
Qed.
Lemma ba_s s' i : veq 6 s' (uni 1) -> (i < 6)%nat -> dm_s W4 (ba s') i = uni (- 5 / 16) i.
Proof.
  intros H Hi. ba_go H. destruct (Rle_dec _ _); [lra|]. destruct (Req_EM_T _ _); [lra|]. cbv zeta. rewrite ba_dp by assumption. unfold S1. rewrite mv_delta by exact Hi. change (as_ (ba s') i) with (s' i). rewrite (H i Hi).
  do 6 (destruct i as [|i]; [unfold uni; cbn; field|]). lia.
Qed.
Lemma ba_k1 s' : veq 6 s' (uni 1) -> 1 - 1 / (1 - ad (ba s')) * dot 6 (dm_s W4 (ba s')) (as_ (ba s')) - dm_d W4 (ba s') = 1.
Proof. intros H. rewrite ba_d by exact H. rewrite (dot_uni (- 5 / 16) 1); [|intros i Hi; apply ba_s; assumption|exact H]. change (ad (ba s')) with (1 / 4). field. Qed.
Lemma Kb_inverse J : (forall i j, (i < 6)%nat -> (j < 6)%nat -> J i j = Kb (7 / 12) i j) -> two_inverse 6 (Kb (12 / 7)) J.
Proof.
  intros H. split; intros i j Hi Hj; unfold mm.
  - rewrite (rsum_ext 6 _ (fun k => Kb (12 / 7) i k * Kb (7 / 12) k j)) by (intros k Hk; rewrite H by assumption; reflexivity).
    clear H. unfold Kb, delta. do 6 (destruct i as [|i]; [do 6 (destruct j as [|j]; [cbn; field|]); lia|]); lia.
  - rewrite (rsum_ext 6 _ (fun k => Kb (7 / 12) i k * Kb (12 / 7) k j)) by (intros k Hk; rewrite H by assumption; reflexivity).
    clear H. unfold Kb, delta. do 6 (destruct i as [|i]; [do 6 (destruct j as [|j]; [cbn; field|]); lia|]); lia.
Qed.
Lemma norm_small7 r : (forall i, (i < 7)%nat -> r i = 0) -> norm2 7 r = 0.
Proof. intros H. unfold norm2. rewrite <- sqrt_0. f_equal. unfold dot. cbn [rsum]. rewrite !H by lia. ring. Qed.
Definition keep : dsettings := {| kd_ekill := true; kd_dkill := 1 / 2; kd_sfact := 1000 |}.
Definition kill : dsettings := {| kd_ekill := true; kd_dkill := 1 / 5; kd_sfact := 1000 |}.
Definition nols (J : mat) (b : vec) : option vec := None.
Lemma b_RJ : dmg_RJ bar W4 bnext bpast bsn bhn 0 0 (dmg_init W4 bsn 0) =
  Some (fun i => if Nat.ltb i 6 then dmg_init W4 bsn 0 i - (1 - dmg_init W4 bsn 0 6%nat) * ld_e bnext i else dmg_init W4 bsn 0 6%nat - dm W4 (dargs_of bnext bpast (dmg_init W4 bsn 0 6%nat) 0 (eff_s (dmg_init W4 bsn 0) (dmg_init W4 bsn 0 6%nat)) (eff_s bsn 0)),
        snd (match dmg_RJ bar W4 bnext bpast bsn bhn 0 0 (dmg_init W4 bsn 0) with Some rj => rj | None => (vzero, delta) end)).
Proof. reflexivity. Qed.
Lemma b_init6 : dmg_init W4 bsn 0 6%nat = 1 / 4.
Proof. unfold dmg_init. cbn [Nat.eqb]. destruct (Req_EM_T 0 0); [reflexivity|lra]. Qed.
Lemma b_init i : (i < 6)%nat -> dmg_init W4 bsn 0 i = uni (3 / 4) i.
Proof. intros Hi. unfold dmg_init, bsn. do 6 (destruct i as [|i]; [reflexivity|]). lia. Qed.
Lemma b_newton : exists r J, newton (vec_sys 7 (dmg_init W4 bsn (bhn 0%nat)) (dmg_RJ bar W4 bnext bpast bsn bhn 0 0) nols) prmd = Ok (dmg_init W4 bsn 0, (r, J), 1%nat).
Proof.
  eexists _, _. change (bhn 0%nat) with 0. apply (newton_at_init 7 (dmg_init W4 bsn 0) _ nols prmd _ _ b_RJ); [|unfold prmd, miter; lia].
  rewrite norm_small7; [unfold prmd, atol; lra|]. intros i Hi. destruct (Nat.ltb_spec i 6) as [L|L].
  - rewrite b_init6, b_init by exact L. unfold bnext, hold. cbn [ld_e]. do 6 (destruct i as [|i]; [unfold uni; cbn; field|]). lia.
  - rewrite b_init6. change (dargs_of bnext bpast (1 / 4) 0 (eff_s (dmg_init W4 bsn 0) (1 / 4)) (eff_s bsn 0)) with (ba (eff_s (dmg_init W4 bsn 0) (1 / 4))).
    rewrite ba_dm; [lra|]. intros k Hk. unfold eff_s. rewrite b_init by exact Hk. do 6 (destruct k as [|k]; [unfold uni; cbn; field|]). lia.
Qed.
Lemma b_step : exists res, dmg_update nols invb prmd keep S1 bar W4 bnext bpast bsn bhn 0 0 = Some res /\ pr_h res 0%nat = 1 / 4 /\ pr_h res 1%nat = 7 /\
  veq 6 (pr_s res) (uni (3 / 4)) /\ (forall i j, (i < 6)%nat -> (j < 6)%nat -> pr_A res i j = if Nat.eqb i 0 then 0 else 3 / 4 * delta i j).
Proof.
  destruct b_newton as (r & J & HN). unfold dmg_update. rewrite HN. change (bhn 0%nat) with 0. rewrite b_init6.
  rewrite (killed_false keep 0) by (unfold removed, keep; cbn [kd_dkill]; lra). rewrite (killed_false keep (1 / 4)) by (unfold removed, keep; cbn [kd_dkill]; lra).
  cbn [ba_update bar pr_s pr_A pr_h pr_p pr_u]. unfold dmg_tangent. cbv zeta.
  change (dargs_of bnext bpast (1 / 4) 0 (eff_s (fun i => (1 - 1 / 4) * ld_e bnext i) (1 / 4)) (eff_s bsn 0)) with (ba (eff_s (fun i => (1 - 1 / 4) * ld_e bnext i) (1 / 4))).
  set (s' := eff_s (fun i => (1 - 1 / 4) * ld_e bnext i) (1 / 4)).
  assert (Hs : veq 6 s' (uni 1)) by (intros i Hi; unfold s', eff_s, bnext, hold; cbn [ld_e]; field).
  rewrite (ba_k1 s' Hs).
  assert (HI : invb 6 (fun i j => delta i j + as_ (ba s') i * (dm_s W4 (ba s') j / (1 * (1 - ad (ba s'))))) = Some (Kb (12 / 7))).
  { unfold invb. destruct (excluded_middle_informative _) as [|N]; [reflexivity|]. exfalso. apply N, Kb_inverse. intros i j Hi Hj. rewrite ba_s by assumption.
    change (as_ (ba s') i) with (s' i). rewrite (Hs i Hi). change (ad (ba s')) with (1 / 4). unfold Kb, delta.
    do 6 (destruct i as [|i]; [do 6 (destruct j as [|j]; [unfold uni; cbn; field|]); lia|]); lia. }
  rewrite HI. eexists. split; [reflexivity|]. cbn [pr_h pr_s pr_A]. split; [reflexivity|]. split; [reflexivity|]. split.
  - intros i Hi. unfold bnext, hold. cbn [ld_e]. do 6 (destruct i as [|i]; [unfold uni; cbn; field|]). lia.
  - intros i j Hi Hj. unfold mm. rewrite (rsum_ext 6 _ (fun k => Kb (12 / 7) i k * (delta k j * (1 - 1 / 4) - uni 1 k * (uni (3 / 4) j / 1)))).
    + unfold Kb, delta. do 6 (destruct i as [|i]; [do 6 (destruct j as [|j]; [unfold uni; cbn; field|]); lia|]); lia.
    + intros k Hk. rewrite ba_e by assumption. change (as_ (ba s') k) with (s' k). rewrite (Hs k Hk). reflexivity.
Qed.
(** with the lower threshold the same step removes the point *)
Lemma b_kill : dmg_update nols invb prmd kill S1 bar W4 bnext bpast bsn bhn 2 3 = Some (ekill_update S1 1000 bnext bhn 2 3).
Proof.
  assert (HN : exists r J, newton (vec_sys 7 (dmg_init W4 bsn (bhn 0%nat)) (dmg_RJ bar W4 bnext bpast bsn bhn 2 3) nols) prmd = Ok (dmg_init W4 bsn 0, (r, J), 1%nat)) by exact b_newton.
  destruct HN as (r & J & HN). unfold dmg_update. rewrite HN. change (bhn 0%nat) with 0. rewrite b_init6.
  rewrite (killed_false kill 0) by (unfold removed, kill; cbn [kd_dkill]; lra). rewrite (killed_true kill (1 / 4)) by (unfold removed, kill; cbn [kd_dkill kd_ekill]; split; [reflexivity|lra]).
  reflexivity.
Qed.

(** *** the tangent returned by an update *)
Lemma dmg_update_tangent P lsolve inv prm k C B D next past sn hn un pn res : (1 <= miter prm)%Z -> damage_exact P D -> inv_ok inv -> energy_free B ->
  ~ removed k (hn 0%nat) -> dmg_update lsolve inv prm k C B D next past sn hn un pn = Some res -> pr_h res 0%nat <> 1 ->
  forall (e : R -> vec) (w : R -> R) (rb : R -> pres) c u ve vw,
  let s x := fun i => (1 - w x) * pr_s (rb x) i in
  let a x := dargs_of (with_e (e x) next) past (w x) (hn 0%nat) (fun i => s x i / (1 - w x)) (fun i => sn i / (1 - hn 0%nat)) in
  path 6 e u ve -> e u = ld_e next -> is_derive w u vw -> w u = pr_h res 0%nat -> P (a u) ->
  1 - 1 / (1 - w u) * dot 6 (dm_s D (a u)) (as_ (a u)) - dm_d D (a u) <> 0 ->
  base_tangent_at B next past (fun i => sn i / (1 - hn 0%nat)) (fun i => hn (S i)) (e u) ->
  locally u (fun x => ba_update B (with_e (e x) next) past (fun i => sn i / (1 - hn 0%nat)) (fun i => hn (S i)) 0 0 = Some (rb x)) ->
  locally u (fun x => w x - dm D (a x) = c) ->
  (forall i, s u i = pr_s res i) /\ path 6 s u (mv 6 (pr_A res) ve).
Proof.
  intros Hm HD Hi Hef Hr H Hn e w rb c u ve vw s a He Heu Hw Hwu HP Hk HB L1 L2.
  destruct (dmg_eqs _ _ _ _ _ _ _ _ _ _ _ _ _ _ Hm Hr H) as (x & rb0 & r & r0 & E0 & W & _ & Ew & K1 & K2).
  destruct (removed_dec k (x 6%nat)) as [R1|R1]; [exfalso; apply Hn; rewrite (K1 R1); reflexivity|].
  destruct (K2 R1) as (Es & Ew1 & _ & _ & _ & ET). pose proof (locally_singleton _ _ L1) as E1. cbv beta in E1.
  assert (Hnx : with_e (e u) next = next) by (rewrite Heu; destruct next; reflexivity). rewrite Hnx in E1.
  pose proof (Hef next past (fun i => sn i / (1 - hn 0%nat)) (fun i => hn (S i)) 0 0 un pn) as Q. rewrite E1, E0 in Q. destruct Q as (Q1 & Q2 & Q3).
  rewrite Ew1 in Hwu. split.
  - intros i. rewrite Es. unfold s. rewrite Hwu, Q1. reflexivity.
  - apply (dmg_tangent_exact P inv B D next past sn hn (pr_A res) e w rb c u ve vw HD Hi); try assumption.
    + rewrite Hnx, Hwu, Q1, Q3. exact ET.
    + rewrite Hwu, <- Ew1. exact Hn.
Qed.

(** *** where the iteration starts *)
Lemma dmg_start lsolve inv prm k C B D next past sn hn un pn rb w0 res : (1 <= miter prm)%Z -> 0 < atol prm -> ~ removed k (hn 0%nat) -> ~ removed k w0 ->
  (hn 0%nat = 0 -> w0 = dm_init D) -> (hn 0%nat <> 0 -> w0 = hn 0%nat) ->
  ba_update B next past (fun i => sn i / (1 - hn 0%nat)) (fun i => hn (S i)) un pn = Some rb ->
  (forall i, (i < 6)%nat -> sn i = (1 - w0) * pr_s rb i) ->
  w0 = dm D (dargs_of next past w0 (hn 0%nat) (fun i => (if Nat.eqb i 6 then w0 else sn i) / (1 - w0)) (fun i => sn i / (1 - hn 0%nat))) ->
  dmg_update lsolve inv prm k C B D next past sn hn un pn = Some res -> pr_h res 0%nat = w0.
Proof.
  intros Hm Ha H0 H1 Hz Hnz HB Hs Hw HU.
  assert (EI : dmg_init D sn (hn 0%nat) = fun i => if Nat.eqb i 6 then w0 else sn i).
  { unfold dmg_init. destruct (Req_EM_T (hn 0%nat) 0) as [E|E]; [rewrite (Hz E)|rewrite (Hnz E)]; reflexivity. }
  unfold dmg_update in HU. rewrite (killed_false k (hn 0%nat) H0) in HU. rewrite EI in HU.
  set (x0 := fun i => if Nat.eqb i 6 then w0 else sn i) in *.
  destruct (dmg_RJ B D next past sn hn un pn x0) as [[r J]|] eqn:ER; [|unfold dmg_RJ, eff_s in ER; rewrite HB in ER; discriminate].
  assert (Hr : norm2 7 r < atol prm).
  { unfold dmg_RJ, eff_s in ER. rewrite HB in ER. injection ER as Er _. replace (norm2 7 r) with 0; [exact Ha|].
    unfold norm2, dot. rewrite (rsum_ext 7 _ (fun _ => 0)), rsum_0, sqrt_0; [reflexivity|]. intros i Hi. rewrite <- Er. destruct (Nat.ltb_spec i 6) as [L|L].
    - replace (x0 i) with (sn i). + change (x0 6%nat) with w0. rewrite (Hs i L). ring.
      + unfold x0. destruct (Nat.eqb_spec i 6); [lia|reflexivity].
    - change (x0 6%nat) with w0. unfold x0. rewrite <- Hw. ring. }
  rewrite (newton_at_init 7 x0 _ lsolve prm r J ER Hr Hm) in HU.
  change (ba_update B next past (eff_s sn (hn 0%nat)) (fun i => hn (S i)) un pn) with (ba_update B next past (fun i => sn i / (1 - hn 0%nat)) (fun i => hn (S i)) un pn) in HU.
  rewrite HB in HU. change (x0 6%nat) with w0 in HU. rewrite (killed_false k w0 H1) in HU.
  destruct (dmg_tangent _ _ _ _) in HU; [|discriminate]. injection HU as <-. reflexivity.
Qed.
