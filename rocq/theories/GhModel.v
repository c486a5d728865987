(** Model of src/cp/generalizedhucocks.cxx: several precipitates that share species.

    The temperature is constant in a call, so value(T) is a number.  Species and precipitates are numbered
    in the order of the model's lists; initialize (115-154) finds the species of a precipitate by name, and
    is modelled below on names.  With distinct names comparing names and comparing pointers agree.
    History: the radius and the number density of precipitate i are items 2i and 2i+1 (75-87). *)
From Verif Require Import Base.
From Verif Require Import Blocks SlipModel.
From Coq Require Import List String.
Import ListNotations.

(** Names: split_string gives the list of names. *)
(** src/cp/generalizedhucocks.cxx:122-150: the inner searches by name *)
Fixpoint find_name (names : list string) (k : string) : option nat :=
  match names with [] => None | n :: r => if String.eqb n k then Some 0%nat else option_map S (find_name r k) end.
(** The species of one precipitate and its rate limiting species; None for a thrown error. *)
(** src/cp/generalizedhucocks.cxx:122-136: all species of a precipitate *)
Fixpoint find_all (names ks : list string) : option (list nat) :=
  match ks with
  | [] => Some []
  | k :: r => match find_name names k with None => None | Some i => option_map (cons i) (find_all names r) end
  end.
(** src/cp/generalizedhucocks.cxx:122-150: one pass of the loop over precipitates *)
Definition link_one (names : list string) (p : list string * string) : option (list nat * nat) :=
  match find_all names (fst p) with None => None | Some l => option_map (pair l) (find_name names (snd p)) end.
Fixpoint link (names : list string) (ps : list (list string * string)) : option (list (list nat * nat)) :=    (* 115-154 *)
  match ps with
  | [] => Some []
  | p :: r => match link_one names p with None => None | Some x => option_map (cons x) (link names r) end
  end.

(** One precipitate (27-48): its species in order, the rate limiting one, the fraction of each species in
    it, and constants.  cp.at throws for a rate limiting species that is not one of the precipitate's
    (392); the theorems assume it is. *)
Record gpre := { gp_sp : list nat; gp_rate : nat; gp_cp : vec; gp_am : R; gp_Vm : R; gp_D0 : R; gp_Q0 : R; gp_N0 : R; gp_chi : R; gp_Cf : R;
  gp_ri : R; gp_Ni : R; gp_rs : R; gp_Ns : R }.
(** src/cp/generalizedhucocks.cxx:104-113 (GeneralizedHuCocksPrecipitationModel): members, at one temperature *)
Record gmod := { g_ns : nat; g_c0 : vec; g_ceq : vec; g_np : nat; g_p : nat -> gpre; g_kb : R; g_Na : R; g_R : R; g_T : R }.
(** src/cp/generalizedhucocks.cxx:204-218 (concentration): std::numeric_limits<double>::epsilon() *)
Definition geps : R := / 2 ^ 52.
(** a sum over the species of a precipitate, as in src/cp/generalizedhucocks.cxx:204-218 *)
Fixpoint rlist (f : nat -> R) (l : list nat) : R := match l with [] => 0 | x :: r => f x + rlist f r end.
(** src/cp/generalizedhucocks.cxx:221-248 (d_concentration_d_f): pp->cp.count(...) *)
Definition in_sp (p : gpre) (s : nat) : bool := existsb (Nat.eqb s) (gp_sp p).
(** f, d_f_d_r, d_f_d_N, r, N (include/cp/generalizedhucocks.h:51-55), init_hist (82-87) *)
Definition g_r (m : gmod) (h : vec) (i : nat) : R := h (2 * i)%nat * gp_rs (g_p m i).
(** include/cp/generalizedhucocks.h:55: number density *)
Definition g_N (m : gmod) (h : vec) (i : nat) : R := h (2 * i + 1)%nat * gp_Ns (g_p m i).
(** include/cp/generalizedhucocks.h:51-53 *)
Definition g_f (m : gmod) (h : vec) (i : nat) : R := 4 / 3 * PI * g_r m h i ^ 3 * g_N m h i.
(** include/cp/generalizedhucocks.h:51-53 *)
Definition g_f_r (m : gmod) (h : vec) (i : nat) : R := 4 * PI * g_r m h i ^ 2 * g_N m h i.
(** include/cp/generalizedhucocks.h:51-53 *)
Definition g_f_N (m : gmod) (h : vec) (i : nat) : R := 4 / 3 * PI * g_r m h i ^ 3.
(** src/cp/generalizedhucocks.cxx:83-87 (init_hist) *)
Definition g_init (m : gmod) : vec := fun x => let p := g_p m (Nat.div x 2) in if Nat.eqb (Nat.modulo x 2) 0 then gp_ri p / gp_rs p else gp_Ni p / gp_Ns p.
(** diffusivity (196-201), concentration (203-218), d_concentration_d_f (220-248); F are the fractions *)
Definition g_D (m : gmod) (i : nat) : R := gp_D0 (g_p m i) * exp (- gp_Q0 (g_p m i) / (g_R m * g_T m)).
(** src/cp/generalizedhucocks.cxx:204-218 (concentration): numerator, denominator *)
Definition g_ct (m : gmod) (F : vec) (s : nat) : R := g_c0 m s - rsum (g_np m) (fun i => rlist (fun x => if Nat.eqb x s then F i * gp_cp (g_p m i) x else 0) (gp_sp (g_p m i))).
(** src/cp/generalizedhucocks.cxx:204-218 (concentration): numerator, denominator *)
Definition g_ft (m : gmod) (F : vec) (s : nat) : R := 1 - rsum (g_np m) (fun i => rlist (fun x => if Nat.eqb x s then F i else 0) (gp_sp (g_p m i))).
(** src/cp/generalizedhucocks.cxx:204-218 (concentration) *)
Definition g_c (m : gmod) (F : vec) (s : nat) : R := let c := g_ct m F s / g_ft m F s in if Rlt_dec geps c then c else geps.
(** src/cp/generalizedhucocks.cxx:221-248 (d_concentration_d_f) *)
Definition g_c_f (m : gmod) (F : vec) (s j : nat) : R :=
  if in_sp (g_p m j) s then
    if Rlt_dec geps (g_ct m F s / g_ft m F s) then - gp_cp (g_p m j) s / g_ft m F s - g_ct m F s / g_ft m F s / g_ft m F s * -1 else 0
  else 0.
(** precipitate_areal_density and derivatives (250-273) *)
Definition g_pad (m : gmod) (h : vec) : R := rsum (g_np m) (fun i => 2 * g_r m h i * g_N m h i).
(** effective_molecular_volume and its derivative (275-318), solution_volumetric_density and its
    derivative (320-346) *)
Definition g_fv (m : gmod) (F : vec) (s : nat) : R := rsum (g_np m) (fun i => rlist (fun x => if Nat.eqb x s then F i * gp_Vm (g_p m i) / g_Na m else 0) (gp_sp (g_p m i))).
(** src/cp/generalizedhucocks.cxx:276-289 (effective_molecular_volume): the denominator *)
Definition g_fs (m : gmod) (F : vec) (s : nat) : R := rsum (g_np m) (fun i => rlist (fun x => if Nat.eqb x s then F i else 0) (gp_sp (g_p m i))).
(** src/cp/generalizedhucocks.cxx:276-289 (effective_molecular_volume) *)
Definition g_vm (m : gmod) (F : vec) (s : nat) : R := g_fv m F s / g_fs m F s.
(** src/cp/generalizedhucocks.cxx:292-318 (d_effective_molecular_volume_d_f) *)
Definition g_vm_f (m : gmod) (F : vec) (s j : nat) : R :=
  let b := in_sp (g_p m j) s in
  (if b then gp_Vm (g_p m j) / g_Na m else 0) / g_fs m F s - g_fv m F s / g_fs m F s / g_fs m F s * (if b then 1 else 0).
(** src/cp/generalizedhucocks.cxx:321-328 (solution_volumetric_density) *)
Definition g_svd (m : gmod) (F : vec) : R := rsum (g_ns m) (fun s => g_c m F s / g_vm m F s).
(** src/cp/generalizedhucocks.cxx:331-346 (d_solution_volumetric_density_d_f) *)
Definition g_svd_f (m : gmod) (F : vec) (j : nat) : R :=
  rsum (g_ns m) (fun s => g_c_f m F s j / g_vm m F s - g_c m F s / g_vm m F s / g_vm m F s * g_vm_f m F s j).
(** gibbs_free_energy and its derivative (348-376) *)
Definition g_v (m : gmod) (i : nat) : R := gp_Vm (g_p m i) / g_Na m.
(** src/cp/generalizedhucocks.cxx:349-360 (gibbs_free_energy) *)
Definition g_G (m : gmod) (F : vec) (i : nat) : R := rlist (fun s => - ln (g_c m F s / g_ceq m s)) (gp_sp (g_p m i)) * (g_kb m * g_T m / g_v m i).
(** src/cp/generalizedhucocks.cxx:363-376 (d_gibbs_free_energy_d_f) *)
Definition g_G_f (m : gmod) (F : vec) (i j : nat) : R := rlist (fun s => -1 / g_c m F s * g_c_f m F s j) (gp_sp (g_p m i)) * (g_kb m * g_T m / g_v m i).
(** growth_rate (378-405), d_growth_rate (407-455) *)
Definition g_Zk (m : gmod) (i : nat) : R := 2 * g_v m i * g_D m i / gp_am (g_p m i) ^ 4 * sqrt (gp_chi (g_p m i) / g_kb m / g_T m).
(** src/cp/generalizedhucocks.cxx:379-405 (growth_rate): shorthand in it *)
Definition g_Z (m : gmod) (F : vec) (i : nat) : R := 2 * g_v m i * g_D m i * g_c m F (gp_rate (g_p m i)) / gp_am (g_p m i) ^ 4 * sqrt (gp_chi (g_p m i) / g_kb m / g_T m).
(** src/cp/generalizedhucocks.cxx:379-405 (growth_rate): shorthand in it *)
Definition g_Gs (m : gmod) (F : vec) (i : nat) : R := 16 * PI * gp_chi (g_p m i) ^ 3 / 3 / g_G m F i ^ 2.
(** src/cp/generalizedhucocks.cxx:379-405 (growth_rate): shorthand in it *)
Definition g_rc (m : gmod) (F : vec) (i : nat) : R := -2 * gp_chi (g_p m i) / g_G m F i.
(** src/cp/generalizedhucocks.cxx:379-405 (growth_rate): its two results *)
Definition g_Ng (m : gmod) (F : vec) (i : nat) : R := gp_N0 (g_p m i) * g_Z m F i * exp (- g_Gs m F i / g_kb m / g_T m).
(** src/cp/generalizedhucocks.cxx:379-405 (growth_rate): its two results *)
Definition g_rg (m : gmod) (F : vec) (i : nat) (r N : R) : R :=
  let s := gp_rate (g_p m i) in g_D m i / r * (g_c m F s - g_ceq m s) / (gp_cp (g_p m i) s - g_ceq m s) + g_Ng m F i / N * (g_rc m F i - r).
(** src/cp/generalizedhucocks.cxx:408-455 (d_growth_rate): derivatives to the volume fraction of precipitate j *)
Definition g_Ng_f (m : gmod) (F : vec) (i j : nat) : R :=
  gp_N0 (g_p m i) * exp (- g_Gs m F i / g_kb m / g_T m) * g_Zk m i * g_c_f m F (gp_rate (g_p m i)) j +
  gp_N0 (g_p m i) * g_Z m F i * exp (- g_Gs m F i / g_kb m / g_T m) * -1 / g_kb m / g_T m * (-32 * PI * gp_chi (g_p m i) ^ 3 / 3 / g_G m F i ^ 3) * g_G_f m F i j.
(** src/cp/generalizedhucocks.cxx:408-455 (d_growth_rate): derivatives to the volume fraction of precipitate j *)
Definition g_rg_f (m : gmod) (F : vec) (i j : nat) (r N : R) : R :=
  let s := gp_rate (g_p m i) in
  g_D m i / r / (gp_cp (g_p m i) s - g_ceq m s) * g_c_f m F s j + g_Ng m F i / N * (2 * gp_chi (g_p m i) / g_G m F i / g_G m F i) * g_G_f m F i j + g_Ng_f m F i j / N * (g_rc m F i - r).
(** src/cp/generalizedhucocks.cxx:379-405 (growth_rate) *)
Definition g_growth (m : gmod) (h : vec) (i : nat) : R * R := (g_rg m (g_f m h) i (g_r m h i) (g_N m h i), g_Ng m (g_f m h) i).
(** src/cp/generalizedhucocks.cxx:408-455 (d_growth_rate) *)
Definition g_dgrowth (m : gmod) (h : vec) (i j : nat) : (R * R) * (R * R) :=
  let F := g_f m h in let r := g_r m h i in let N := g_N m h i in let s := gp_rate (g_p m i) in
  ((g_rg_f m F i j r N * g_f_r m h j + (if Nat.eqb i j then - g_D m i / r / r * (g_c m F s - g_ceq m s) / (gp_cp (g_p m i) s - g_ceq m s) - g_Ng m F i / N else 0),
    g_rg_f m F i j r N * g_f_N m h j + (if Nat.eqb i j then - g_Ng m F i / N / N * (g_rc m F i - r) else 0)),
   (g_Ng_f m F i j * g_f_r m h j, g_Ng_f m F i j * g_f_N m h j)).
(** ripening_rate (457-478), d_ripening_rate (480-517) *)
Definition g_M (m : gmod) (i : nat) (c : R) : R := gp_Cf (g_p m i) * 8 * gp_chi (g_p m i) * gp_Vm (g_p m i) * g_D m i * c / 9 / g_R m / g_T m.
(** src/cp/generalizedhucocks.cxx:458-478 (ripening_rate): the radius *)
Definition g_rr (m : gmod) (F : vec) (i : nat) (r : R) : R := g_M m i (g_c m F (gp_rate (g_p m i))) / 3 / r / r.
(** src/cp/generalizedhucocks.cxx:458-478 (ripening_rate) *)
Definition g_ripen (m : gmod) (h : vec) (i : nat) : R * R :=
  let rd := g_rr m (g_f m h) i (g_r m h i) in (rd, -3 * g_N m h i / g_r m h i * rd).
(** src/cp/generalizedhucocks.cxx:481-517 (d_ripening_rate): to the volume fraction of precipitate j *)
Definition g_rr_f (m : gmod) (F : vec) (i j : nat) (r : R) : R :=
  1 / 3 / r / r * (gp_Cf (g_p m i) * 8 * gp_chi (g_p m i) * gp_Vm (g_p m i) * g_D m i / 9 / g_R m / g_T m) * g_c_f m F (gp_rate (g_p m i)) j.
(** src/cp/generalizedhucocks.cxx:481-517 (d_ripening_rate) *)
Definition g_dripen (m : gmod) (h : vec) (i j : nat) : (R * R) * (R * R) :=
  let F := g_f m h in let r := g_r m h i in let N := g_N m h i in let e := Nat.eqb i j in
  let M := g_M m i (g_c m F (gp_rate (g_p m i))) in let rd := M / 3 / r / r in
  let rf := g_rr_f m F i j r in
  let rrr := rf * g_f_r m h j + (if e then -2 * M / 3 / r / r / r else 0) in
  let rrN := rf * g_f_N m h j in
  let Nrd := -3 * N / r in let Nf := Nrd * rf in
  ((rrr, rrN),
   (Nf * g_f_r m h j + ((if e then 3 * N / r / r * rd else 0) + Nrd * rrr),
    Nf * g_f_N m h j + (if e then -3 / r * rd else 0))).
(** switching_function (519-544) *)
Definition g_x (m : gmod) (F : vec) (s : nat) : R := (g_c m F s - g_c0 m s) / (g_ceq m s - g_c0 m s).
(** src/cp/generalizedhucocks.cxx:520-544 (switching_function): the loop over species *)
Fixpoint g_scan (m : gmod) (F : vec) (j : nat) (l : list nat) (acc : R * R) : R * R :=
  match l with
  | [] => acc
  | s :: r => g_scan m F j r (if Rlt_dec (fst acc) (g_x m F s) then (g_x m F s, g_c_f m F s j / (g_ceq m s - g_c0 m s)) else acc)
  end.
(** src/cp/generalizedhucocks.cxx:520-544 (switching_function) *)
Definition g_switch (m : gmod) (F : vec) (i j : nat) : R * R :=
  let v := g_scan m F j (gp_sp (g_p m i)) (0, 0) in if Rlt_dec 1 (fst v) then (1, 0) else v.
(** mixed_rate (546-560), d_mixed_rate (562-591), rate (593-605), d_rate (607-628) *)
Definition g_mixed (m : gmod) (h : vec) (i : nat) : R * R :=
  let fi := fst (g_switch m (g_f m h) i i) in let g := g_growth m h i in let p := g_ripen m h i in
  ((1 - fi) * fst g + fi * fst p, (1 - fi) * snd g + fi * snd p).
(** src/cp/generalizedhucocks.cxx:563-591 (d_mixed_rate) *)
Definition g_dmixed (m : gmod) (h : vec) (i j : nat) : (R * R) * (R * R) :=
  let (fi, dfi) := g_switch m (g_f m h) i j in
  let g := g_growth m h i in let p := g_ripen m h i in let dg := g_dgrowth m h i j in let dp := g_dripen m h i j in
  let rf := dfi * (fst p - fst g) in let Nf := dfi * (snd p - snd g) in
  (((1 - fi) * fst (fst dg) + fi * fst (fst dp) + rf * g_f_r m h j, (1 - fi) * snd (fst dg) + fi * snd (fst dp) + rf * g_f_N m h j),
   ((1 - fi) * fst (snd dg) + fi * fst (snd dp) + Nf * g_f_r m h j, (1 - fi) * snd (snd dg) + fi * snd (snd dp) + Nf * g_f_N m h j)).
(** src/cp/generalizedhucocks.cxx:594-605 (rate) *)
Definition g_rate (m : gmod) (h : vec) : vec := fun x =>
  let i := Nat.div x 2 in if Nat.eqb (Nat.modulo x 2) 0 then fst (g_mixed m h i) / gp_rs (g_p m i) else snd (g_mixed m h i) / gp_Ns (g_p m i).
(** src/cp/generalizedhucocks.cxx:608-628 (d_rate) *)
Definition g_drate (m : gmod) (h : vec) : mat := fun x y =>
  let i := Nat.div x 2 in let j := Nat.div y 2 in let d := g_dmixed m h i j in
  match Nat.eqb (Nat.modulo x 2) 0, Nat.eqb (Nat.modulo y 2) 0 with
  | true, true => fst (fst d) / gp_rs (g_p m i) * gp_rs (g_p m j)
  | true, false => snd (fst d) / gp_rs (g_p m i) * gp_Ns (g_p m j)
  | false, true => fst (snd d) / gp_Ns (g_p m i) * gp_rs (g_p m j)
  | false, false => snd (snd d) / gp_Ns (g_p m i) * gp_Ns (g_p m j)
  end.

(** GeneralizedHuCocksHardening (630-838): hist_to_tau (681-693) and d_hist_to_tau (695-734); the variables
    of the dislocation model come first. *)
Record ghard := { gh_d : hlaw; gh_m : gmod; gh_ap : R; gh_ac : R; gh_b : R; gh_G : R }.
(** src/cp/generalizedhucocks.cxx:667-671 (populate_hist): number of variables *)
Definition gh_n (k : ghard) : nat := (h_n (gh_d k) + 2 * g_np (gh_m k))%nat.
(** src/cp/generalizedhucocks.cxx:667-671 (populate_hist): those of the precipitates *)
Definition gh_p (k : ghard) (h : vec) : vec := fun x => h (h_n (gh_d k) + x)%nat.
(** src/cp/generalizedhucocks.cxx:682-693 (hist_to_tau): terms of it *)
Definition gh_taup (k : ghard) (h : vec) : R := gh_ap k * gh_G k * gh_b k * sqrt (g_pad (gh_m k) (gh_p k h)).
(** src/cp/generalizedhucocks.cxx:682-693 (hist_to_tau): terms of it *)
Definition gh_tauc (k : ghard) (h : vec) : R := gh_ac k * gh_G k * gh_b k * sqrt (g_svd (gh_m k) (g_f (gh_m k) (gh_p k h)) * gh_b k).
(** src/cp/generalizedhucocks.cxx:682-693 (hist_to_tau) *)
Definition gh_tau (k : ghard) (L : slat) (p : nat) (h : vec) : R :=
  let td := h_tau (gh_d k) L p h in sqrt (td * td + gh_taup k h * gh_taup k h) + gh_tauc k h.
(** src/cp/generalizedhucocks.cxx:696-734 (d_hist_to_tau) *)
Definition gh_dtau (k : ghard) (L : slat) (p : nat) (h : vec) : vec := fun x =>
  let m := gh_m k in let hp := gh_p k h in
  let td := h_tau (gh_d k) L p h in let tp := gh_taup k h in let ts := sqrt (tp * tp + td * td) in
  if Nat.ltb x (h_n (gh_d k)) then h_dtau (gh_d k) L p h x * (td / ts)
  else let y := (x - h_n (gh_d k))%nat in let j := Nat.div y 2 in
    let c := / 2 * gh_tauc k h / g_svd m (g_f m hp) * g_svd_f m (g_f m hp) j in
    let q := / 2 * tp * tp / ts / g_pad m hp in
    if Nat.eqb (Nat.modulo y 2) 0 then (c * g_f_r m hp j + q * (2 * g_N m hp j)) * gp_rs (g_p m j)
    else (c * g_f_N m hp j + q * (2 * g_r m hp j)) * gp_Ns (g_p m j).
