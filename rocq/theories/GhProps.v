(** The precipitation model with several precipitates *)
From Verif Require Import Base Diff.
From Verif Require Import SlipModel SlipSpec SlipProofs HcModel HcSpec HcMain HcHardSpec HcHard HcEx GhModel GhSpec GhProofs GhMain GhHist GhHard GhEx.
From Coq Require Import Lia Lra List String.
Import ListNotations.
Open Scope R_scope.

(** ** C88 *)
(** the model is built exactly if all names are known, each standing for the first species of that name *)
Theorem C88_names : forall names ps l, link names ps = Some l <-> Forall2 (fun p x => Forall2 (named names) (fst p) (fst x) /\ named names (snd p) (snd x)) ps l.
Proof. exact @link_some. Qed.
Print Assumptions C88_names.
(** and refused exactly if some name is not *)
Theorem C88_unknown_name : forall names ps, link names ps = None <-> exists p k, In p ps /\ (In k (fst p) \/ k = snd p) /\ ~ In k names.
Proof. exact @link_none. Qed.
Print Assumptions C88_unknown_name.
(** initial radii and number densities, whatever the scales *)
Theorem C88_initial : forall m i, g_phys m -> (i < g_np m)%nat -> g_r m (g_init m) i = gp_ri (g_p m i) /\ g_N m (g_init m) i = gp_Ni (g_p m i).
Proof. exact @g_initial. Qed.
Print Assumptions C88_initial.
(** each species is shared between the precipitates that contain it and the rest of the volume *)
Theorem C88_mass : forall m F s, g_phys m -> taken m F s <> 1 -> geps <= left_over m F s -> held m F s + (1 - taken m F s) * g_c m F s = g_c0 m s.
Proof. exact @g_mass. Qed.
Print Assumptions C88_mass.
(** the volume of the precipitates without a species is counted as solution: so much of the species is missing *)
Theorem C88_mass_missing : forall m F s, g_phys m -> taken m F s <> 1 -> geps <= left_over m F s ->
  held m F s + (1 - rsum (g_np m) F) * g_c m F s = g_c0 m s - (rsum (g_np m) (fun i => if in_sp (g_p m i) s then 0 else F i)) * g_c m F s.
Proof. exact @g_deficit. Qed.
Print Assumptions C88_mass_missing.
(** with two precipitates of different species neither is conserved *)
Theorem C88_mass_refuted : exists m h, g_phys m /\ (forall i, (i < g_np m)%nat -> 0 < g_f m h i) /\ rsum (g_np m) (g_f m h) < 1 /\
  forall s, (s < g_ns m)%nat -> held m (g_f m h) s + (1 - rsum (g_np m) (g_f m h)) * g_c m (g_f m h) s < g_c0 m s.
Proof. exact @g_mass_wrong. Qed.
Print Assumptions C88_mass_refuted.
(** the weight of coarsening is a weight *)
Theorem C88_switch : forall m F i j, 0 <= fst (g_switch m F i j) <= 1.
Proof. exact @g_switch_range. Qed.
Print Assumptions C88_switch.
(** and one exactly when some species of the precipitate has reached equilibrium *)
Theorem C88_switch_equilibrium : forall m F i, g_phys m -> (i < g_np m)%nat -> (fst (g_switch m F i i) = 1 <-> exists s, In s (gp_sp (g_p m i)) /\ g_c m F s <= g_ceq m s).
Proof. exact @g_switch_one. Qed.
Print Assumptions C88_switch_equilibrium.
(** at equilibrium fewer and larger particles, with the same volume *)
Theorem C88_coarsening : forall m h i, g_phys m -> (i < g_np m)%nat -> 0 < g_r m h i -> 0 < g_N m h i -> (exists s, In s (gp_sp (g_p m i)) /\ g_c m (g_f m h) s <= g_ceq m s) ->
  g_vF m h (g_rate m h) i = 0 /\ 0 < g_rate m h (2 * i)%nat * gp_rs (g_p m i) /\ g_rate m h (2 * i + 1)%nat * gp_Ns (g_p m i) < 0.
Proof. exact @g_coarsen. Qed.
Print Assumptions C88_coarsening.
(** over any history no species is driven below its equilibrium, however many precipitates share it *)
Theorem C88_no_undershoot : forall m h a b s, g_phys m -> g_history m h a b -> (s < g_ns m)%nat -> g_ceq m s <= left_over m (g_f m (h a)) s ->
  forall t, a <= t <= b -> g_ceq m s <= left_over m (g_f m (h t)) s.
Proof. exact @g_above. Qed.
Print Assumptions C88_no_undershoot.
(** one precipitate of all species has the rates of the basic model *)
Theorem C88_single : forall m h fs, g_phys m -> g_np m = 1%nat -> gp_sp (g_p m 0%nat) = seq 0 (g_ns m) -> fs <> 0 -> single_above m h ->
  g_r m h 0 <> 0 -> g_N m h 0 <> 0 -> g_G m (g_f m h) 0 <> 0 ->
  g_rate m h 0%nat = hp_rates (g_basic m fs 1) (g_state m fs h) 1%nat /\ g_rate m h 1%nat = hp_rates (g_basic m fs 1) (g_state m fs h) 2%nat.
Proof. exact @g_single. Qed.
Print Assumptions C88_single.
(** and its histories *)
Theorem C88_single_history : forall m h a b fs, g_phys m -> g_np m = 1%nat -> gp_sp (g_p m 0%nat) = seq 0 (g_ns m) -> fs <> 0 -> g_history m h a b ->
  (forall t, a <= t <= b -> 0 < g_f m (h t) 0 < 1 /\ 0 < g_r m (h t) 0 /\ g_N m (h t) 0 <> 0 /\ g_G m (g_f m (h t)) 0 <> 0 /\ single_above m (h t)) ->
  hc_history (g_basic m fs 1) (fun t => g_state m fs (h t)) a b.
Proof. exact @g_single_history. Qed.
Print Assumptions C88_single_history.
(** the reported derivatives, less the part counted twice, are those of the rates *)
Theorem C88_jacobian_partial : forall m, g_phys m -> is_jac (2 * g_np m) (2 * g_np m) (g_reg m) (g_rate m) (fun h x y => g_drate m h x y - g_twice m h x y).
Proof. exact @g_jacobian. Qed.
Print Assumptions C88_jacobian_partial.
(** nothing is counted twice in the rows of the radii and the columns of the number densities *)
Theorem C88_jacobian_rows : forall m h x y, Nat.modulo x 2 = 0%nat \/ Nat.modulo y 2 = 1%nat -> g_twice m h x y = 0.
Proof. exact @g_twice_zero. Qed.
Print Assumptions C88_jacobian_rows.
(** the reported derivatives are not those of the rates *)
Theorem C88_jacobian_refuted : exists m, g_phys m /\ ~ is_jac (2 * g_np m) (2 * g_np m) (g_reg m) (g_rate m) (g_drate m).
Proof. exact @g_jacobian_wrong. Qed.
Print Assumptions C88_jacobian_refuted.
(** the derivatives of the strength, for any dislocation model whose own are exact *)
Theorem C88_strength : forall L k Pd, g_phys (gh_m k) -> (0 < g_np (gh_m k))%nat -> (0 < g_ns (gh_m k))%nat -> 0 < gh_b k -> strength_exact L (gh_d k) Pd ->
  forall p, (p < l_n L)%nat -> is_grad (gh_n k) (gh_in L k Pd) (gh_tau k L p) (gh_dtau k L p).
Proof. exact @gh_strength. Qed.
Print Assumptions C88_strength.
(** the effective volume of a species none of whose precipitates has a volume is 0/0 *)
Theorem C88_volume_undefined : forall m F s, (forall i, (i < g_np m)%nat -> In s (gp_sp (g_p m i)) -> F i = 0) -> g_fs m F s = 0 /\ g_fv m F s = 0.
Proof. exact @g_unused. Qed.
Print Assumptions C88_volume_undefined.
(** so that a listed species in no precipitate makes every strength undefined *)
Theorem C88_unused_species_refuted : exists m, g_phys m /\ forall h, exists s, (s < g_ns m)%nat /\ g_fs m (g_f m h) s = 0 /\ g_fv m (g_f m h) s = 0.
Proof. exact @g_unused_case. Qed.
Print Assumptions C88_unused_species_refuted.
(** the hypotheses are met *)
Example C88_names_case : link ["Cr"; "C"; "Mo"]%string [(["Cr"; "C"], "Cr"); (["Mo"], "Mo")]%string = Some [([0; 1], 0); ([2], 2)]%nat /\
  link ["Cr"; "C"]%string [(["Cr"; "N"], "Cr")]%string = None.
Proof. split; reflexivity. Qed.
Example C88_phys_case : g_phys m1 /\ g_reg m1 hq /\ g_phys m2 /\ (forall s, (s < 2)%nat -> taken m2 (g_f m2 hq) s <> 1 /\ geps <= left_over m2 (g_f m2 hq) s).
Proof.
  split; [exact m1_phys|]. split; [exact m1_reg|]. split; [exact m2_phys|]. intros s Hs. destruct (m2_left s Hs). pose proof geps_small. split; lra.
Qed.
(** two precipitates sharing two species, one of which is at equilibrium *)
Example C88_history_case : g_phys (m3 2) /\ g_history (m3 2) (gh3 1) 0 1 /\ (forall s, (s < 2)%nat -> g_ceq (m3 2) s <= left_over (m3 2) (g_f (m3 2) (gh3 1 0)) s) /\
  g_r (m3 2) (gh3 1 0) 0 < g_r (m3 2) (gh3 1 1) 0.
Proof.
  assert (E : INR 2 * 1 = 2) by (cbn; lra). pose proof gK_pos. split; [apply m3_phys|]. split; [exact (gh3_history 2 1 E)|]. split.
  - intros s Hs. destruct (m3_left 2 1 (g_f (m3 2) (gh3 1 0)) s E ltac:(intros i; apply gh3_vals; lra) Hs) as (_ & L & _). rewrite L. destruct s; cbn; lra.
  - destruct (gh3_vals 2 1 0 0 ltac:(lra)) as (A & _). destruct (gh3_vals 2 1 1 0 ltac:(lra)) as (B & _). rewrite A, B. apply Rlt_Rpower_l; lra.
Qed.
Example C88_coarsening_case : exists s, In s (gp_sp (g_p (m3 2) 1)) /\ g_c (m3 2) (g_f (m3 2) (gh3 1 0)) s <= g_ceq (m3 2) s.
Proof.
  assert (E : INR 2 * 1 = 2) by (cbn; lra). exists 0%nat. split; [left; reflexivity|]. destruct (m3_left 2 1 (g_f (m3 2) (gh3 1 0)) 0%nat E ltac:(intros i; apply gh3_vals; pose proof gK_pos; lra) ltac:(lia)) as (_ & _ & C). rewrite C. cbn. lra.
Qed.
Example C88_single_case : g_phys (m3 1) /\ g_history (m3 1) (gh3 2) 0 1 /\ g_np (m3 1) = 1%nat /\ gp_sp (g_p (m3 1) 0) = seq 0 (g_ns (m3 1)) /\
  forall t, 0 <= t <= 1 -> 0 < g_f (m3 1) (gh3 2 t) 0 < 1 /\ 0 < g_r (m3 1) (gh3 2 t) 0 /\ g_N (m3 1) (gh3 2 t) 0 <> 0 /\ g_G (m3 1) (g_f (m3 1) (gh3 2 t)) 0 <> 0 /\ single_above (m3 1) (gh3 2 t).
Proof. split; [apply m3_phys|]. split; [apply gh3_history; cbn; lra|]. split; [reflexivity|]. split; [reflexivity|]. exact m3_single. Qed.
Example C88_strength_case : g_phys (gh_m ghx) /\ strength_exact (Lx 1) (gh_d ghx) (spacing_in dsx) /\ gh_in (Lx 1) ghx (spacing_in dsx) ghh.
Proof. split; [apply m3_phys|]. split; [apply (spacing_exact (Lx 1) dsx 0 eq_refl)|]. exact ghx_in. Qed.
