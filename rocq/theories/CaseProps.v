(** Cases that meet the hypotheses of theorems about composed models: the theorems of the
    components put together, and states inside the resulting domains. *)
From Coq Require Import String ZArith List Lia Lra.
From Verif Require Import Base.
From Verif Require Import Diff.
From Verif Require Import NemlMathModel NemlMathSpec NemlMathProofs InterpModel SolverModel SubstepModel SubstepSpec SurfModel SurfSpec SurfProofs HardModel HardSpec HardProofs RiModel RiSpec RiProofs.
From Verif Require Import PlastModel PlastSpec PlastProofs ViscoModel ViscoSpec ViscoProofs YaguchiProofs ViscoMore ViscoCases CreepModel CreepSpec CreepProofs J2CreepProofs CreepEx DamageModel DamageSpec DamageProofs WorkDamageProofs EffStressProofs DamageEx.
From Verif Require Import SurfProps HardProps RiProps PlastProps ViscoProps CreepProps DamageProps.
Import ListNotations.
Open Scope R_scope.

(** C24: associative J2 with Voce and linear isotropic hardening; J2 with Chaboche hardening, two backstresses *)
Definition iso2 : hardrule := CombinedIso [VoceIso (fun _ => 10) (fun _ => 20) (fun _ => 3); LinearIso (fun _ => 1) (fun T => T)].
Lemma iso2_exact : hard_exact (fun _ _ => True) iso2.
Proof. apply C21_combined_isotropic. constructor; [split; [reflexivity | apply C21_voce] |]. constructor; [split; [reflexivity | apply C21_linear] |]. constructor. Qed.
Example C24_associative_case : exists F, make_associative IsoJ2 iso2 = Some F /\ flow_exact (fun T s a => iso_domain T s (hr_q iso2 a T) /\ True) F /\
  iso_domain 0 (vlist [0; 0; 0; 1]) (hr_q iso2 vzero 0).
Proof.
  eexists. split; [reflexivity |]. split; [apply (C24_associative IsoJ2 iso2 _ iso_domain (fun _ _ => True) eq_refl C19_isoj2 iso2_exact) |].
  destruct (C28_case (fun _ => 1) (fun _ => 1) (fun _ => 1) _ (fun _ => Rlt_0_1) eq_refl) as (_ & H). exact H.
Qed.
Definition ch2 : chparams := {| ch_nb := 2; ch_c := fun i _ => INR i + 1; ch_dc := fun _ _ => 0; ch_g := fun _ => SatGamma (fun _ => 1) (fun _ => 2) (fun _ => 3);
              ch_A := fun i _ => 1; ch_a := fun i _ => match i with O => 1 | _ => 3 end |}.
Lemma ch2_gamma i : gamma_exact (ch_g ch2 i).
Proof. exact (proj2 (C22_gamma_models (fun _ => 0) (fun _ => 1) (fun _ => 2) (fun _ => 3))). Qed.
Example C24_chaboche_case : exists F, make_nonassociative IsoKinJ2 (Chaboche iso2 ch2) = Some F /\ flow_exact (fun T s a => True /\ ch_domain 2 T s a) F /\ exists s a, ch_domain 2 0 s a.
Proof.
  eexists. split; [reflexivity |]. split; [exact (C24_j2_chaboche iso2 ch2 _ (fun _ _ => True) eq_refl iso2_exact ch2_gamma eq_refl) |].
  eexists _, _. exact (proj1 C22_case).
Qed.
(** C25: the residual of the rate independent model built from it *)
Example C25_rate_independent_case : forall Ce Se next past st, exists F, make_nonassociative IsoKinJ2 (Chaboche iso2 ch2) = Some F /\
  is_jac (6 + 13 + 1) (6 + 13 + 1) (fun x => True /\ ch_domain 2 (ld_T next) x (hist_of x)) (rip_R Ce Se F next past st) (rip_J Ce F next).
Proof.
  intros. destruct C24_chaboche_case as (F & E & X & _). exists F. split; [exact E |].
  assert (N : rf_n F = 13%nat) by (injection E as <-; reflexivity). rewrite <- N. exact (C25_rate_independent Ce Se F _ next past st X).
Qed.
(** C28, C29: viscoplastic Chaboche, and its superposition with a Perzyna rule *)
Example C28_chaboche_case : exists V, make_chaboche IsoKinJ2 (Chaboche iso2 ch2) (ConstantFluidity (fun _ => 2)) (fun _ => 3) (fun _ => 1) = Some V /\
  vflow_exact (fun T s a => True /\ ch_domain 2 T s a /\ ch_time_domain ch2 T s a /\ ys_f IsoKinJ2 s (na_q (Chaboche iso2 ch2) a T) T <> 0) V.
Proof.
  eexists. split; [reflexivity |]. refine (C28_j2_chaboche iso2 ch2 (ConstantFluidity (fun _ => 2)) _ _ _ (fun _ _ => True) eq_refl iso2_exact ch2_gamma _ _ eq_refl).
  - exact (proj1 (C28_fluidity (fun _ => 2) (fun _ => 0) (fun _ => 0) (fun _ => 0))).
  - intros. cbn. lra.
Qed.
Example C29_superimposed_case : exists V W, make_perzyna IsoJ2 iso2 (GPowerLaw (fun _ => 2) (fun _ => 5)) = Some V /\
  make_chaboche IsoKinJ2 (Chaboche iso2 ch2) (ConstantFluidity (fun _ => 2)) (fun _ => 3) (fun _ => 1) = Some W /\
  let P T s a := iso_domain T s (hr_q iso2 a T) /\ True /\ ys_f IsoJ2 s (hr_q iso2 a T) T <> 0 /\ gfun_exact (GPowerLaw (fun _ => 2) (fun _ => 5)) T in
  let Q T s a := True /\ ch_domain 2 T s a /\ ch_time_domain ch2 T s a /\ ys_f IsoKinJ2 s (na_q (Chaboche iso2 ch2) a T) T <> 0 in
  vflow_exact (fun T s a => all_dom [(V, P); (W, Q); (V, P)] T s a /\ 0 < vf_y (Superimposed [V; W; V]) s a T) (Superimposed [V; W; V]).
Proof.
  destruct C28_chaboche_case as (W & EW & XW). eexists _, W. split; [reflexivity |]. split; [exact EW |]. cbv zeta.
  pose proof (fun V E => C28_perzyna IsoJ2 iso2 (GPowerLaw (fun _ => 2) (fun _ => 5)) V iso_domain (fun _ _ => True) E C19_isoj2 iso2_exact) as XV. specialize (XV _ eq_refl).
  match type of XV with vflow_exact ?P ?V => match type of XW with vflow_exact ?Q _ =>
    refine (C29_derivatives [(V, P); (W, Q); (V, P)] _) end end.
  intros r D [H|[H|[H|[]]]]; injection H as <- <-; [exact XV | exact XW | exact XV].
Qed.
(** C33: J2 creep with the Norton-Bailey law, at a creep strain and at zero strain *)
Example C33_norton_bailey_case : forall A n,
  creep_exact (fun t T s e => eps < mises s /\ eps < strain_eq e /\ eps < mises s /\ eps < strain_eq e /\ 2 <> 0) (J2Creep (NortonBaileyCreep A (fun _ => 2) n)) /\
  creep_exact (fun t T s e => eps < mises s /\ strain_eq e < eps /\ eps < mises s /\ 2 <> 0) (J2Creep (NortonBaileyCreep A (fun _ => 2) n)) /\
  eps < mises (uni 1) /\ strain_eq vzero < eps.
Proof.
  intros A n. destruct (C31_norton_bailey A (fun _ => 2) n) as (X & Y & Z & _). split; [exact (C33_derivatives _ _ X) |].
  split; [exact (C33_derivatives_small_strain _ _ Y Z) |]. split; [exact (proj1 (proj2 C33_case)) |].
  unfold strain_eq, dot, vzero. cbn [rsum]. match goal with |- sqrt ?x < _ => replace x with 0 by ring end. rewrite sqrt_0. apply eps_pos.
Qed.
(** C34, C35: modular creep damage with the largest of two effective stresses, added to work damage *)
Definition es2 : estress := MaxSeveralES [VonMisesES; MeanES].
Lemma es2_exact : es_exact (fun s => 0 < vm s /\ exists k m v, nth_error [VonMisesES; MeanES] k = Some m /\ es_v m s = Some v /\
              forall j m', j <> k -> nth_error [VonMisesES; MeanES] j = Some m' -> exists w, es_v m' s = Some w /\ w < v) es2.
Proof.
  apply (C35_max (fun s => 0 < vm s)). intros m [<-|[<-|[]]]; [exact C35_von_mises |]. intros s u vs Hp _. exact (C35_mean s u vs Hp Logic.I).
Qed.
Lemma es2_inside : 0 < vm (uni 90) /\ exists k m v, nth_error [VonMisesES; MeanES] k = Some m /\ es_v m (uni 90) = Some v /\
              forall j m', j <> k -> nth_error [VonMisesES; MeanES] j = Some m' -> exists w, es_v m' (uni 90) = Some w /\ w < v.
Proof.
  destruct C35_case as (_ & M & V & P & _). split; [exact P |]. exists 0%nat, VonMisesES, 90. split; [reflexivity |]. split; [exact V |].
  intros [|[|j]] m' H E; [contradiction | injection E as <- | destruct j; discriminate]. exists 30. split; [exact M | lra].
Qed.
Example C35_max_case : es_exact (fun s => 0 < vm s /\ exists k m v, nth_error [VonMisesES; MeanES] k = Some m /\ es_v m s = Some v /\
              forall j m', j <> k -> nth_error [VonMisesES; MeanES] j = Some m' -> exists w, es_v m' s = Some w /\ w < v) es2 /\ es_homogeneous es2 /\
  exists E, SumSeveralES [VonMisesES; MeanES] [2; 3] = Some E /\ es_exact (fun s => 0 < vm s) E /\ es_homogeneous E.
Proof.
  split; [exact es2_exact |]. assert (H : forall m, In m [VonMisesES; MeanES] -> es_homogeneous m) by (intros m [<-|[<-|[]]]; [exact C35_von_mises_homogeneous | exact C35_mean_homogeneous]).
  split; [apply C35_max_homogeneous; exact H |]. destruct C35_case as (_ & _ & _ & _ & E & S & _). exists E. split; [exact S |]. split; [| eapply C35_sum_homogeneous; [exact S | exact H]].
  apply (C35_sum (fun s => 0 < vm s) _ _ _ S). intros m [<-|[<-|[]]]; [exact C35_von_mises |]. intros s u vs Hp _. exact (C35_mean s u vs Hp Logic.I).
Qed.
Example C34_modular_case : forall phi xi, let r := ModularCreepDamage (fun _ => 200) xi phi es2 in
  let P s := 0 < vm s /\ exists k m v, nth_error [VonMisesES; MeanES] k = Some m /\ es_v m s = Some v /\
              forall j m', j <> k -> nth_error [VonMisesES; MeanES] j = Some m' -> exists w, es_v m' s = Some w /\ w < v in
  damage_exact (fun a => P (as_ a) /\ 0 < ev_of es2 (as_ a) /\ 0 < 200 /\ ad a < 1) (RateDamage r) /\
  P (uni 90) /\ ev_of es2 (uni 90) = 90 /\ ad (wargs (1 / 2) (1 / 4) vzero (uni 90)) < 1.
Proof.
  intros phi xi r P. split; [exact (C34_rate_form _ _ (C34_modular_creep _ (fun _ => 200) xi phi es2 es2_exact)) |]. split; [exact es2_inside |]. split; [| cbn; lra].
  unfold ev_of. destruct C35_case as (M & _). unfold es2. rewrite M. reflexivity.
Qed.
(** C34: two laws combined *)
Example C34_combined_case : forall S, (forall T, sym6 (S T)) -> forall A a A' xi phi,
  damage_exact (fun b => 0 < vm (as_ b) /\ 0 < A' (aT b) /\ ad b < 1 /\ exists i, (i < 6)%nat /\ plastic_increment S b i <> 0)
    (CombinedDamage [StandardDamage S (PowerLawDamage A a); RateDamage (ClassicalCreepDamage A' xi phi)]).
Proof.
  intros S HS A a A' xi phi. apply C34_combined. intros m [<-|[<-|[]]].
  - intros b d e s u vd ve vs Hd He Hs H (V & _ & _ & I). exact (C34_standard _ S (PowerLawDamage A a) (C34_power_law A a) HS b d e s u vd ve vs Hd He Hs (conj V I)).
  - intros b d e s u vd ve vs Hd He Hs H (V & Q & L & _). exact (C34_rate_form _ _ (C34_classical_creep A' xi phi) b d e s u vd ve vs Hd He Hs (conj V (conj Q L))).
Qed.
(** C20: a state with a pressure added *)
Example C20_case : ys_f (IsoKinJ2I1 (fun _ => 2) (fun _ => 3)) (uni 1) vzero 0 < ys_f (IsoKinJ2I1 (fun _ => 2) (fun _ => 3)) (add_pressure 5 (uni 1)) vzero 0 /\
  ys_f IsoKinJ2 (add_pressure 5 (uni 1)) vzero 0 = ys_f IsoKinJ2 (uni 1) vzero 0.
Proof.
  split; [apply C20_i1_increases_with_pressure; lra |]. apply C20_j2_ignores_pressure.
Qed.
(** C10: two variables exchanged *)
From Verif Require HistModel HistSpec HistProofs HistProps.
Example C10_case : exists h', HistModel.hreorder ["b"; "a"]%string HistProps.ex_hist = HistModel.HOk h' /\ HistModel.horder h' = ["b"; "a"]%string /\ HistModel.horder HistProps.ex_hist = ["a"; "b"]%string.
Proof.
  destruct (HistProps.C10_reorder_partial HistProps.ex_hist HistProps.ex_hist_reachable ["b"; "a"]%string) as (h' & s & H & O & _).
  - constructor; [intros [H|[]]; discriminate | constructor; [intros [] | constructor]].
  - intros n. cbn. tauto.
  - exists h'. split; [exact H |]. split; [exact O | reflexivity].
Qed.
(** C13: numbers that are read back as they were *)
From Verif Require TextModel TextProofs ParseProps.
Example C13_case : TextModel.stod (TextModel.show_double (- 5 / 2)) = Some (- 5 / 2) /\ TextModel.stoi (TextModel.show_int (-123456789)) = Some (-123456789)%Z /\
  TextModel.stoul (TextModel.show_int (2 ^ 40)) = Some (2 ^ 40)%Z.
Proof.
  split; [apply ParseProps.C13_short_double_exact_partial; exists (-25)%Z, (-1)%Z; split; [lia |]; unfold powerRZ; change (Pos.to_nat 1) with 1%nat; field |].
  split; [apply ParseProps.C13_int_reload | apply ParseProps.C13_size_reload]; cbv; split; intros; discriminate || reflexivity.
Qed.
(** C16: cubic constants of a nickel alloy *)
From Verif Require ElasticModel ElasticSpec ElasticProps.
Example C16_cubic_case : exists S, ElasticModel.inverse6 S (ElasticModel.cubic_fill 250000 160000 118000).
Proof. destruct (ElasticProps.C16_cubic_inverse 250000 160000 118000) as (S & H & _); try lra. exists S. exact H. Qed.
