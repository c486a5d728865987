(** Concrete precipitation models: what the code gets wrong, and cases meeting the hypotheses. *)
From Verif Require Import Base Diff.
From Verif Require Import SlipModel SlipSpec SlipProofs GhModel HcModel HcSpec HcMain HcHardSpec HcHard HcEx HcWhole GhSpec GhProofs GhMain GhHist GhHard.
From Coq Require Import List Lia Lra String FunctionalExtensionality.
Import ListNotations.
Open Scope R_scope.

Definition gpx (sp : list nat) (rt : nat) : gpre :=
  {| gp_sp := sp; gp_rate := rt; gp_cp := fun s => match s with O => 3 / 4 | _ => 5 / 8 end; gp_am := 1; gp_Vm := 1; gp_D0 := 1; gp_Q0 := 1; gp_N0 := 1; gp_chi := 1; gp_Cf := 1;
     gp_ri := 1; gp_Ni := 3 / (16 * PI); gp_rs := 1; gp_Ns := 1 |}.
Definition gmx (ns np : nat) (p : nat -> gpre) : gmod :=
  {| g_ns := ns; g_c0 := fun _ => / 2; g_ceq := fun s => match s with O => / 4 | _ => / 8 end; g_np := np; g_p := p; g_kb := 1; g_Na := 1; g_R := 1; g_T := 1 |}.
Lemma geps_small : geps < / 8.
Proof. unfold geps. apply Rinv_lt_contravar; [|]; cbn; lra. Qed.
Lemma gmx_phys ns np sp rt : (forall i, (i < np)%nat -> NoDup (sp i) /\ In (rt i) (sp i) /\ forall s, In s (sp i) -> (s < ns)%nat) -> g_phys (gmx ns np (fun i => gpx (sp i) (rt i))).
Proof.
  intros H. pose proof geps_small. split; cbn.
  - exact H.
  - intros s Hs. destruct s; lra.
  - intros i s Hi Hin. destruct s; lra.
  - intros i Hi. repeat split; lra.
  - repeat split; lra.
Qed.
(** Radius one and a quarter of the volume for every precipitate. *)
Definition N0 : R := 3 / (16 * PI).
Definition hq : vec := fun x => if Nat.eqb (Nat.modulo x 2) 0 then 1 else N0.
Lemma N0_pos : 0 < N0.
Proof. pose proof PI_RGT_0. unfold N0. apply Rdiv_lt_0_compat; lra. Qed.
Lemma hq_vals ns np sp rt i : let m := gmx ns np (fun i => gpx (sp i) (rt i)) in g_r m hq i = 1 /\ g_N m hq i = N0 /\ g_f m hq i = / 4.
Proof.
  intros m. assert (A : g_r m hq i = 1) by (unfold g_r, hq; destruct (two_even i) as [_ B]; rewrite B; cbn; lra).
  assert (B : g_N m hq i = N0) by (unfold g_N, hq; destruct (two_odd i) as [_ B]; rewrite B; cbn; lra).
  split; [exact A|split; [exact B|]]. unfold g_f. rewrite A, B. unfold N0. pose proof PI_RGT_0. field. lra.
Qed.

(** *** The derivative *)
Definition m1 : gmod := gmx 1 1 (fun i => gpx [0%nat] 0).
Lemma m1_phys : g_phys m1.
Proof. apply (gmx_phys 1 1 (fun _ => [0%nat]) (fun _ => 0%nat)). intros i _. split; [constructor; [intros []|constructor]|]. split; [left; reflexivity|]. intros s [<-|[]]. lia. Qed.
Lemma m1_vals : g_r m1 hq 0 = 1 /\ g_N m1 hq 0 = N0 /\ g_f m1 hq 0 = / 4.
Proof. exact (hq_vals 1 1 (fun _ => [0%nat]) (fun _ => 0%nat) 0%nat). Qed.
Lemma m1_left : taken m1 (g_f m1 hq) 0 = / 4 /\ left_over m1 (g_f m1 hq) 0 = 5 / 12 /\ g_c m1 (g_f m1 hq) 0 = 5 / 12.
Proof.
  destruct m1_vals as (_ & _ & F). assert (A : taken m1 (g_f m1 hq) 0 = / 4) by (unfold taken; cbn; rewrite F; lra).
  assert (B : left_over m1 (g_f m1 hq) 0 = 5 / 12) by (unfold left_over; rewrite A; unfold held; cbn; rewrite F; field).
  split; [exact A|split; [exact B|]]. rewrite g_c_val by exact m1_phys. rewrite B. pose proof geps_small. destruct (Rlt_dec _ _); lra.
Qed.
Lemma m1_x : g_x m1 (g_f m1 hq) 0 = / 3.
Proof. destruct m1_left as (_ & _ & C). unfold g_x. rewrite C. cbn. field. Qed.
Lemma m1_reg : g_reg m1 hq.
Proof.
  destruct m1_left as (A & B & C). destruct m1_vals as (R1 & N1 & F1). pose proof geps_small. pose proof N0_pos. split.
  - intros s Hs. cbn in Hs. replace s with 0%nat by lia. rewrite A, B. split; lra.
  - intros i Hi. cbn in Hi. replace i with 0%nat by lia. rewrite R1, N1. split; [lra|]. split; [lra|]. split.
    + unfold g_G. cbn [gp_sp gpx g_p m1 gmx rlist]. change (gmx 1 1 (fun _ : nat => gpx [0%nat] 0)) with m1. rewrite C. cbn. assert (L : 0 < ln (5 / 12 / / 4)) by (rewrite <- ln_1; apply ln_increasing; lra).
      unfold g_v. cbn. lra.
    + right. left. exists 0%nat. split; [left; reflexivity|]. rewrite m1_x. split; [lra|]. intros s' [<-|[]] G. contradiction.
Qed.
Lemma m1_switch : fst (g_switch m1 (g_f m1 hq) 0 0) = / 3.
Proof.
  unfold g_switch. cbv zeta. cbn [gp_sp gpx g_p m1 gmx g_scan]. cbv zeta. change (gmx 1 1 (fun _ : nat => gpx [0%nat] 0)) with m1. rewrite m1_x. cbn [fst]. destruct (Rlt_dec 0 (/ 3)); [|lra]. cbn [fst]. destruct (Rlt_dec 1 (/ 3)); [lra|reflexivity].
Qed.
Lemma m1_twice : g_twice m1 hq 1%nat 0%nat <> 0.
Proof.
  destruct m1_left as (A & B & C). destruct m1_vals as (R1 & N1 & F1). pose proof N0_pos as HN. pose proof PI_RGT_0. unfold g_twice. cbv zeta. change (Nat.div 1 2) with 0%nat. change (Nat.div 0 2) with 0%nat. change (Nat.modulo 1 2) with 1%nat. change (Nat.modulo 0 2) with 0%nat. cbn [Nat.eqb].
  rewrite m1_switch, R1, N1. assert (Q : g_c_f m1 (g_f m1 hq) 0 0 < 0).
  { unfold g_c_f. cbv zeta. rewrite g_ct_held, g_ft_taken by exact m1_phys. unfold held. rewrite A. cbn. rewrite F1. pose proof geps_small. destruct (Rlt_dec _ _) as [G|G]; [cbn; lra|exfalso; apply G; cbn; lra]. }
  unfold g_rr_f, g_f_r. rewrite R1, N1. cbn [gp_Ns gp_rs gpx g_p m1 gmx gp_Cf gp_chi gp_Vm gp_rate g_R g_T]. change (gmx 1 1 (fun _ : nat => gpx [0%nat] 0)) with m1.
  assert (D : 0 < g_D m1 0) by (apply Rmult_lt_0_compat; [cbn; lra|apply exp_pos]).
  set (q := g_c_f m1 (g_f m1 hq) 0 0) in *. set (d := g_D m1 0) in *. set (n := N0) in *. clear A B C R1 N1 F1. clearbody q d n.
  match goal with |- ?e <> 0 => replace e with (- (32 / 27) * (PI * (n * n) * (d * q))) by field end.
  assert (0 < PI * (n * n)) by (apply Rmult_lt_0_compat; [assumption|apply Rmult_lt_0_compat; assumption]). assert (0 < d * - q) by (apply Rmult_lt_0_compat; lra).
  assert (0 < PI * (n * n) * (d * - q)) by (apply Rmult_lt_0_compat; assumption). lra.
Qed.
Lemma g_jacobian_wrong : exists m, g_phys m /\ ~ is_jac (2 * g_np m) (2 * g_np m) (g_reg m) (g_rate m) (g_drate m).
Proof.
  exists m1. split; [exact m1_phys|]. intros J.
  set (c := fun u : R => fun x => if Nat.eqb x 0 then 1 + u else hq x). set (v := fun x => if Nat.eqb x 0 then 1 else 0 : R).
  assert (P : path (2 * g_np m1) c 0 v).
  { intros x Hx. unfold c, v. destruct (Nat.eqb x 0); [|apply D_const]. eapply D_eq; [apply D_plus; [apply D_const|apply D_id]|cbv beta; ring]. }
  assert (E : forall x, c 0 x = hq x) by (intros x; unfold c; destruct (Nat.eqb_spec x 0) as [->|]; [unfold hq; cbn; ring|reflexivity]).
  assert (E' : c 0 = hq) by (apply functional_extensionality; exact E).
  pose proof (J c 0 v P ltac:(rewrite E'; exact m1_reg) 1%nat ltac:(cbn; lia)) as D1.
  pose proof (g_jacobian m1 m1_phys c 0 v P ltac:(rewrite E'; exact m1_reg) 1%nat ltac:(cbn; lia)) as D2.
  pose proof (is_derive_unique _ _ _ D1) as U1. pose proof (is_derive_unique _ _ _ D2) as U2. pose proof (eq_trans (eq_sym U1) U2) as U. clear U1 U2 D1 D2. rename U into U1. rewrite E' in U1. unfold mv in U1. cbn [g_np m1 gmx Nat.mul Nat.add rsum] in U1. unfold v in U1. cbn [Nat.eqb] in U1.
  apply m1_twice. change (gmx 1 1 (fun _ : nat => gpx [0%nat] 0)) with m1 in U1. lra.
Qed.
(** Elsewhere it is right: radii, and number densities with respect to number densities. *)
Lemma g_twice_zero m h x y : Nat.modulo x 2 = 0%nat \/ Nat.modulo y 2 = 1%nat -> g_twice m h x y = 0.
Proof. intros [E|E]; unfold g_twice; cbv zeta; rewrite E; [reflexivity|]. destruct (Nat.eqb (Nat.modulo x 2) 0); reflexivity. Qed.

(** *** Mass *)
Lemma g_deficit m F s : g_phys m -> taken m F s <> 1 -> geps <= left_over m F s ->
  held m F s + (1 - rsum (g_np m) F) * g_c m F s = g_c0 m s - (rsum (g_np m) (fun i => if in_sp (g_p m i) s then 0 else F i)) * g_c m F s.
Proof.
  intros H Ht He. rewrite <- (g_mass m F s H Ht He).
  assert (E : rsum (g_np m) F = taken m F s + rsum (g_np m) (fun i => if in_sp (g_p m i) s then 0 else F i)).
  { unfold taken. rewrite <- rsum_plus. apply rsum_ext. intros i _. destruct (in_sp (g_p m i) s); ring. }
  rewrite E. ring.
Qed.
Definition m2 : gmod := gmx 2 2 (fun i => gpx [i] i).
Lemma m2_phys : g_phys m2.
Proof. apply (gmx_phys 2 2 (fun i => [i]) (fun i => i)). intros i Hi. split; [constructor; [intros []|constructor]|]. split; [left; reflexivity|]. intros s [<-|[]]. lia. Qed.
Lemma m2_f i : g_f m2 hq i = / 4.
Proof. apply (hq_vals 2 2 (fun i => [i]) (fun i => i) i). Qed.
Lemma m2_left s : (s < 2)%nat -> taken m2 (g_f m2 hq) s = / 4 /\ / 3 < left_over m2 (g_f m2 hq) s.
Proof.
  intros Hs. assert (A : taken m2 (g_f m2 hq) s = / 4) by (unfold taken; destruct s as [|[|s]]; [| |lia]; cbn; rewrite !m2_f; lra).
  split; [exact A|]. unfold left_over. rewrite A. unfold held. destruct s as [|[|s]]; [| |lia]; cbn; rewrite !m2_f; lra.
Qed.
Lemma g_mass_wrong : exists m h, g_phys m /\ (forall i, (i < g_np m)%nat -> 0 < g_f m h i) /\ rsum (g_np m) (g_f m h) < 1 /\
  forall s, (s < g_ns m)%nat -> held m (g_f m h) s + (1 - rsum (g_np m) (g_f m h)) * g_c m (g_f m h) s < g_c0 m s.
Proof.
  exists m2, hq. split; [exact m2_phys|]. split; [intros i _; rewrite m2_f; lra|]. split; [cbn; rewrite !m2_f; lra|].
  intros s Hs. destruct (m2_left s Hs) as [A B]. pose proof geps_small. rewrite g_deficit; [|exact m2_phys|lra|lra].
  pose proof (g_c_pos m2 (g_f m2 hq) s m2_phys). set (c := g_c m2 (g_f m2 hq) s) in *. clearbody c.
  cbn in Hs. destruct s as [|[|s]]; [| |lia]; cbn; rewrite !m2_f; lra.
Qed.

(** *** A species in no precipitate, or only in precipitates of no volume, has an effective volume 0/0 *)
Lemma g_unused m F s : (forall i, (i < g_np m)%nat -> In s (gp_sp (g_p m i)) -> F i = 0) -> g_fs m F s = 0 /\ g_fv m F s = 0.
Proof.
  intros H. split; unfold g_fs, g_fv; (rewrite (rsum_ext _ _ (fun _ => 0)); [apply rsum_0|]); intros i Hi; (rewrite (rlist_ext _ (fun _ => 0)); [apply rlist_0|]); intros x Hx;
    (destruct (Nat.eqb_spec x s) as [->|]; [|reflexivity]); rewrite (H i Hi Hx); [reflexivity|unfold Rdiv; ring].
Qed.
Lemma g_unused_case : exists m, g_phys m /\ forall h, exists s, (s < g_ns m)%nat /\ g_fs m (g_f m h) s = 0 /\ g_fv m (g_f m h) s = 0.
Proof.
  exists (gmx 2 1 (fun _ => gpx [0%nat] 0)). split.
  - apply (gmx_phys 2 1 (fun _ => [0%nat]) (fun _ => 0%nat)). intros i _. split; [constructor; [intros []|constructor]|]. split; [left; reflexivity|]. intros s [<-|[]]. lia.
  - intros h. exists 1%nat. split; [cbn; lia|]. apply g_unused. intros i _ G. cbn in G. destruct G as [G|[]]. discriminate.
Qed.

(** *** A history: two precipitates share two species and coarsen *)
Lemma rsum_const n c : rsum n (fun _ => c) = INR n * c.
Proof. induction n as [|n IH]; cbn [rsum]; [cbn; ring|]. rewrite IH, S_INR. ring. Qed.
Definition m3 (np : nat) : gmod := gmx 2 np (fun _ => gpx [0%nat; 1%nat] 0).
Lemma m3_phys np : g_phys (m3 np).
Proof.
  apply (gmx_phys 2 np (fun _ => [0%nat; 1%nat]) (fun _ => 0%nat)). intros i _. split.
  - constructor; [intros [G|[]]; discriminate|]. constructor; [intros []|constructor].
  - split; [left; reflexivity|]. intros s [<-|[<-|[]]]; lia.
Qed.
Definition gK : R := gp_Cf (gpx [] 0) * 8 * 1 * 1 * g_D (m3 1) 0 * / 4 / 9.
Lemma gK_pos : 0 < gK.
Proof. unfold gK. assert (D : 0 < g_D (m3 1) 0) by (apply Rmult_lt_0_compat; [cbn; lra|apply exp_pos]). cbn [gp_Cf gpx]. lra. Qed.
(** n times as many particles in each of the precipitates *)
Definition gh3 (n : R) (t : R) : vec := fun x => if Nat.eqb (Nat.modulo x 2) 0 then Rpower (1 + gK * t) (/ 3) else n * N0 / (1 + gK * t).
Lemma gh3_vals np n t i : 0 < 1 + gK * t -> g_r (m3 np) (gh3 n t) i = Rpower (1 + gK * t) (/ 3) /\ g_N (m3 np) (gh3 n t) i = n * N0 / (1 + gK * t) /\ g_f (m3 np) (gh3 n t) i = n / 4.
Proof.
  intros P. assert (A : g_r (m3 np) (gh3 n t) i = Rpower (1 + gK * t) (/ 3)) by (unfold g_r, gh3; destruct (two_even i) as [_ B]; rewrite B; cbn; lra).
  assert (B : g_N (m3 np) (gh3 n t) i = n * N0 / (1 + gK * t)) by (unfold g_N, gh3; destruct (two_odd i) as [_ B]; rewrite B; cbn; lra).
  split; [exact A|split; [exact B|]]. unfold g_f. rewrite A, B. set (r := Rpower (1 + gK * t) (/ 3)).
  assert (R3 : r ^ 3 = 1 + gK * t). { unfold r. rewrite <- Rpower_pow by apply exp_pos. rewrite Rpower_mult. replace (/ 3 * INR 3) with 1 by (cbn; field). apply Rpower_1. exact P. }
  rewrite R3. unfold N0. pose proof PI_RGT_0. field. lra.
Qed.
Lemma m3_left np n F s : INR np * n = 2 -> (forall i, F i = n / 4) -> (s < 2)%nat -> taken (m3 np) F s = / 2 /\ left_over (m3 np) F s = match s with O => / 4 | _ => 3 / 8 end /\ g_c (m3 np) F s = match s with O => / 4 | _ => 3 / 8 end.
Proof.
  intros E HF Hs. assert (I : in_sp (gpx [0%nat; 1%nat] 0) s = true) by (destruct s as [|[|s]]; [reflexivity|reflexivity|lia]).
  assert (A : taken (m3 np) F s = / 2).
  { unfold taken. cbn [g_np g_p m3 gmx]. rewrite (rsum_ext _ _ (fun _ => n / 4)) by (intros; rewrite I; apply HF). rewrite rsum_const. lra. }
  assert (B : left_over (m3 np) F s = match s with O => / 4 | _ => 3 / 8 end).
  { unfold left_over. rewrite A. unfold held. cbn [g_np g_p m3 gmx]. rewrite (rsum_ext _ _ (fun _ => n / 4 * gp_cp (gpx [0%nat; 1%nat] 0) s)) by (intros; rewrite I, HF; reflexivity).
    rewrite rsum_const. cbn [g_c0 gmx]. replace (INR np * (n / 4 * gp_cp (gpx [0%nat; 1%nat] 0) s)) with (/ 2 * gp_cp (gpx [0%nat; 1%nat] 0) s) by (rewrite <- Rmult_assoc; replace (INR np * (n / 4)) with (/ 2) by lra; reflexivity).
    destruct s as [|s]; cbn; lra. }
  split; [exact A|split; [exact B|]]. rewrite g_c_val by apply m3_phys. rewrite B. pose proof geps_small. destruct (Rlt_dec _ _); destruct s; lra.
Qed.
Lemma gh3_history np n : INR np * n = 2 -> g_history (m3 np) (gh3 n) 0 1.
Proof.
  intros E t Ht. pose proof gK_pos as HK. assert (P : 0 < 1 + gK * t) by (assert (0 <= gK * t) by (apply Rmult_le_pos; lra); lra).
  assert (V : forall i, g_f (m3 np) (gh3 n t) i = n / 4) by (intros i; apply gh3_vals; exact P).
  assert (Hr0 : 0 < Rpower (1 + gK * t) (/ 3)) by apply exp_pos.
  split; [|split; [intros i _; destruct (gh3_vals np n t i P) as (A & _); rewrite A; lra|intros s Hs; destruct (m3_left np n _ s E V Hs) as (A & _); rewrite A; lra]].
  assert (SW : forall i, (i < np)%nat -> fst (g_switch (m3 np) (g_f (m3 np) (gh3 n t)) i i) = 1).
  { intros i Hi. apply g_switch_one; [apply m3_phys|exact Hi|]. exists 0%nat. split; [left; reflexivity|]. destruct (m3_left np n _ 0%nat E V ltac:(lia)) as (_ & _ & C). rewrite C. cbn. lra. }
  assert (DL : is_derive (fun u => 1 + gK * u) t gK) by (eapply D_eq; [apply D_plus; [apply D_const|apply D_mult; [apply D_const|apply D_id]]|cbv beta; ring]).
  set (r := Rpower (1 + gK * t) (/ 3)) in *.
  assert (R3 : r ^ 3 = 1 + gK * t). { unfold r. rewrite <- Rpower_pow by apply exp_pos. rewrite Rpower_mult. replace (/ 3 * INR 3) with 1 by (cbn; field). apply Rpower_1. exact P. }
  assert (RR : forall i, g_rr (m3 np) (g_f (m3 np) (gh3 n t)) i r = gK / 3 / r / r).
  { intros i. unfold g_rr, g_M. cbn [gp_rate gp_Cf gp_chi gp_Vm g_p m3 gmx gpx g_R g_T]. change (gmx 2 np (fun _ : nat => gpx [0%nat; 1%nat] 0)) with (m3 np). destruct (m3_left np n _ 0%nat E V ltac:(lia)) as (_ & _ & C). rewrite C. change (g_D (m3 np) i) with (g_D (m3 1) 0). unfold gK. cbn [gp_Cf gpx]. field. lra. }
  intros x Hx. cbn [g_np m3 gmx] in Hx. assert (Hi : (Nat.div x 2 < np)%nat) by (apply Nat.div_lt_upper_bound; lia).
  destruct (gh3_vals np n t (Nat.div x 2) P) as (A & B & _). fold r in A.
  unfold g_rate. cbv zeta. unfold g_mixed. cbv zeta. rewrite (SW _ Hi). unfold g_ripen. cbv zeta. rewrite A, B, RR. unfold gh3 at 1. destruct (Nat.eqb (Nat.modulo x 2) 0).
  - eapply D_eq; [apply (D_Rpower _ (/ 3) t gK DL P)|]. cbv beta. cbn [fst]. rewrite Rpower_m1 by exact P. fold r. rewrite <- R3. cbn [gp_rs g_p m3 gmx gpx]. field. lra.
  - eapply D_eq; [apply D_div; [apply D_const|exact DL|lra]|]. cbv beta. cbn [snd]. rewrite <- R3. cbn [gp_Ns g_p m3 gmx gpx]. field. lra.
Qed.
(** One precipitate: a history of the basic model. *)
Lemma m3_single t : 0 <= t <= 1 -> 0 < g_f (m3 1) (gh3 2 t) 0 < 1 /\ 0 < g_r (m3 1) (gh3 2 t) 0 /\ g_N (m3 1) (gh3 2 t) 0 <> 0 /\ g_G (m3 1) (g_f (m3 1) (gh3 2 t)) 0 <> 0 /\ single_above (m3 1) (gh3 2 t).
Proof.
  intros Ht. pose proof gK_pos as HK. assert (P : 0 < 1 + gK * t) by (assert (0 <= gK * t) by (apply Rmult_le_pos; lra); lra).
  destruct (gh3_vals 1 2 t 0 P) as (A & B & C). assert (V : forall i, g_f (m3 1) (gh3 2 t) i = 2 / 4) by (intros i; apply gh3_vals; exact P).
  assert (E : INR 1 * 2 = 2) by (cbn; lra). pose proof N0_pos. pose proof geps_small.
  rewrite A, B, C. split; [lra|]. split; [apply exp_pos|]. split; [assert (0 < 2 * N0 / (1 + gK * t)) by (apply Rdiv_lt_0_compat; lra); lra|]. split.
  - unfold g_G. cbn [gp_sp gpx g_p m3 gmx rlist]. change (gmx 2 1 (fun _ : nat => gpx [0%nat; 1%nat] 0)) with (m3 1).
    destruct (m3_left 1 2 _ 0%nat E V ltac:(lia)) as (_ & _ & C0). destruct (m3_left 1 2 _ 1%nat E V ltac:(lia)) as (_ & _ & C1). rewrite C0, C1. cbn.
    replace (/ 4 / / 4) with 1 by field. rewrite ln_1. assert (0 < ln (3 / 8 / / 8)) by (rewrite <- ln_1; apply ln_increasing; lra). unfold g_v. cbn. lra.
  - intros s Hs. destruct (m3_left 1 2 _ s E V Hs) as (_ & L & _). rewrite L. destruct s; lra.
Qed.
(** Hardening with these precipitates over one dislocation spacing. *)
Definition ghx : ghard := {| gh_d := spacing dsx; gh_m := m3 2; gh_ap := 1; gh_ac := 1; gh_b := 1; gh_G := 1 |}.
Definition ghh : vec := fun x => match x with O => 1 | S y => gh3 1 0 y end.
Lemma ghx_in : gh_in (Lx 1) ghx (spacing_in dsx) ghh.
Proof.
  assert (P : 0 < 1 + gK * 0) by lra. pose proof N0_pos. pose proof geps_small.
  assert (E : forall x, gh_p ghx ghh x = gh3 1 0 x) by (intros x; reflexivity). assert (E2 : INR 2 * 1 = 2) by (cbn; lra).
  assert (V : forall i, g_f (m3 2) (gh_p ghx ghh) i = 1 / 4) by (intros i; apply (gh3_vals 2 1 0 i P)).
  unfold gh_in. cbv zeta. change (gh_m ghx) with (m3 2). split; [intros i Hi; cbn in Hi; replace i with 0%nat by lia; cbn; lra|]. split.
  - intros s Hs. destruct (m3_left 2 1 _ s E2 V Hs) as (A & B & _). rewrite A, B. split; [lra|destruct s; lra].
  - split.
    + intros i Hi. destruct (gh3_vals 2 1 0 i P) as (A & B & _). change (0 < g_r (m3 2) (gh3 1 0) i /\ 0 < g_N (m3 2) (gh3 1 0) i). rewrite A, B. split; [apply exp_pos|apply Rdiv_lt_0_compat; lra].
    + split; [intros s Hs; exists 0%nat; split; [cbn; lia|]; cbn in Hs |- *; destruct s as [|[|s]]; [left; reflexivity|right; left; reflexivity|lia]|].
      intros p Hp. cbn in Hp. replace p with 0%nat by lia. cbn. lra.
Qed.
