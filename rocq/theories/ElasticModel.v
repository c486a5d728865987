(** Model of src/elasticity.cxx. *)
From Coq Require Import String List.
From Verif Require Import Base.
From Verif Require Import NemlMathModel.
Import ListNotations.
Local Open Scope string_scope.

(** include/elasticity.h valid_types_ *)
(** include/elasticity.h:80-81 *)
Definition valid_types : list string := ["bulk"; "shear"; "youngs"; "poissons"].
(** include/elasticity.h:80-81 *)
Definition valid_type (t : string) : bool := existsb (String.eqb t) valid_types.
(** src/elasticity.cxx:54-71; the moduli are functions of temperature (Interpolate::value),
    None: std::invalid_argument *)
Record iso := { iso_m1 : R -> R; iso_m2 : R -> R; iso_t1 : string; iso_t2 : string }.
(** src/elasticity.cxx:54-71 (IsotropicLinearElasticModel) *)
Definition make_iso (m1 m2 : R -> R) (t1 t2 : string) : option iso :=
  if String.eqb t1 t2 then None
  else if negb (valid_type t1) then None
  else if negb (valid_type t2) then None
  else Some {| iso_m1 := m1; iso_m2 := m2; iso_t1 := t1; iso_t2 := t2 |}.
(** src/elasticity.cxx:185-241; returns (G, K) *)
Definition get_GK_vals (t1 t2 : string) (m1 m2 : R) : option (R * R) :=
  let is a b := andb (String.eqb t1 a) (String.eqb t2 b) in
  if is "shear" "bulk" then Some (m1, m2)
  else if is "bulk" "shear" then Some (m2, m1)
  else if is "youngs" "poissons" then Some (m1 / (2 * (1 + m2)), m1 / (3 * (1 - 2 * m2)))
  else if is "poissons" "youngs" then Some (m2 / (2 * (1 + m1)), m2 / (3 * (1 - 2 * m1)))
  else if is "youngs" "shear" then Some (m2, m1 * m2 / (3 * (3 * m2 - m1)))
  else if is "shear" "youngs" then Some (m1, m2 * m1 / (3 * (3 * m1 - m2)))
  else if is "youngs" "bulk" then Some (3 * m2 * m1 / (9 * m2 - m1), m2)
  else if is "bulk" "youngs" then Some (3 * m1 * m2 / (9 * m1 - m2), m1)
  else if is "poissons" "shear" then Some (m2, 2 * m2 * (1 + m1) / (3 * (1 - 2 * m1)))
  else if is "shear" "poissons" then Some (m1, 2 * m1 * (1 + m2) / (3 * (1 - 2 * m2)))
  else if is "poissons" "bulk" then Some (3 * m2 * (1 - 2 * m1) / (2 * (1 + m1)), m2)
  else if is "bulk" "poissons" then Some (3 * m1 * (1 - 2 * m2) / (2 * (1 + m2)), m1)
  else None.
(** src/elasticity.cxx:185-241 (get_GK_) *)
Definition get_GK (o : iso) (T : R) : option (R * R) := get_GK_vals (iso_t1 o) (iso_t2 o) (iso_m1 o T) (iso_m2 o T).
(** src/elasticity.cxx:111-133 *)
Definition iso_E (o : iso) (T : R) : option R := match get_GK o T with Some (G, K) => Some (9 * K * G / (3 * K + G)) | None => None end.
(** src/elasticity.cxx:119-125 (nu) *)
Definition iso_nu (o : iso) (T : R) : option R := match get_GK o T with Some (G, K) => Some ((3 * K - 2 * G) / (2 * (3 * K + G))) | None => None end.
(** src/elasticity.cxx:127-133 (K) *)
Definition iso_K (o : iso) (T : R) : option R := match get_GK o T with Some (_, K) => Some K | None => None end.
(** src/elasticity.cxx:135-156 *)
Definition C_calc (G K : R) : vec := fun p =>
  let l := K - 2 / 3 * G in
  match p with
  | 0 => 2 * G + l | 1 => l | 2 => l
  | 6 => l | 7 => 2 * G + l | 8 => l
  | 12 => l | 13 => l | 14 => 2 * G + l
  | 21 => 2 * G | 28 => 2 * G | 35 => 2 * G
  | _ => 0
  end.
(** src/elasticity.cxx:158-183 *)
Definition S_calc (G K : R) : vec := fun p =>
  let l := K - 2 / 3 * G in
  let a := (G + l) / (2 * G * G + 3 * G * l) in
  let b := - l / (4 * G * G + 6 * G * l) in
  let c := 1 / (2 * G) in
  match p with
  | 0 => a | 1 => b | 2 => b
  | 6 => b | 7 => a | 8 => b
  | 12 => b | 13 => b | 14 => a
  | 21 => c | 28 => c | 35 => c
  | _ => 0
  end.
(** src/elasticity.cxx:95-109 *)
Definition iso_C (o : iso) (T : R) : option vec := match get_GK o T with Some (G, K) => Some (C_calc G K) | None => None end.
(** src/elasticity.cxx:103-109 *)
Definition iso_S (o : iso) (T : R) : option vec := match get_GK o T with Some (G, K) => Some (S_calc G K) | None => None end.

(** src/elasticity.cxx:243-328 *)
Record cubic := { cub_1 : R -> R; cub_2 : R -> R; cub_3 : R -> R; cub_method : string }.
(** src/elasticity.cxx:243-253 (CubicLinearElasticModel) *)
Definition make_cubic (m1 m2 m3 : R -> R) (method : string) : option cubic :=
  if andb (negb (String.eqb method "moduli")) (negb (String.eqb method "components")) then None
  else Some {| cub_1 := m1; cub_2 := m2; cub_3 := m3; cub_method := method |}.
(** src/elasticity.cxx:307-328 (get_components_) *)
Definition cubic_components (o : cubic) (T : R) : option (R * R * R) :=
  if String.eqb (cub_method o) "moduli" then
    let E := cub_1 o T in let nu := cub_2 o T in let mu := cub_3 o T in
    Some (E / ((1 + nu) * (1 - 2 * nu)) * (1 - nu), E / ((1 + nu) * (1 - 2 * nu)) * nu, 2 * mu)
  else if String.eqb (cub_method o) "components" then Some (cub_1 o T, cub_2 o T, cub_3 o T)
  else None.
(** src/elasticity.cxx:277-299 *)
Definition cubic_fill (C1 C2 C3 : R) : vec := fun p =>
  match p with
  | 0 => C1 | 1 => C2 | 2 => C2
  | 6 => C2 | 7 => C1 | 8 => C2
  | 12 => C2 | 13 => C2 | 14 => C1
  | 21 => C3 | 28 => C3 | 35 => C3
  | _ => 0
  end.
(** src/elasticity.cxx:277-299 *)
Definition cubic_C (o : cubic) (T : R) : option vec :=
  match cubic_components o T with Some (C1, C2, C3) => Some (cubic_fill C1 C2 C3) | None => None end.
(** src/elasticity.cxx:330-413 *)
Record trans := { tr_1 : R -> R; tr_2 : R -> R; tr_3 : R -> R; tr_4 : R -> R; tr_5 : R -> R; tr_method : string }.
(** src/elasticity.cxx:330-343 (TransverseIsotropicLinearElasticModel) *)
Definition make_trans (m1 m2 m3 m4 m5 : R -> R) (method : string) : option trans :=
  if negb (String.eqb method "components") then None
  else Some {| tr_1 := m1; tr_2 := m2; tr_3 := m3; tr_4 := m4; tr_5 := m5; tr_method := method |}.
(** src/elasticity.cxx:369-413 *)
Definition trans_fill (C11 C33 C12 C13 C44 : R) : vec := fun p =>
  match p with
  | 0 => C11 | 1 => C12 | 2 => C13
  | 6 => C12 | 7 => C11 | 8 => C13
  | 12 => C13 | 13 => C13 | 14 => C33
  | 21 => C44 | 28 => C44 | 35 => (C11 - C12) / 2
  | _ => 0
  end.
(** src/elasticity.cxx:369-413 *)
Definition trans_C (o : trans) (T : R) : option vec :=
  if String.eqb (tr_method o) "components" then Some (trans_fill (tr_1 o T) (tr_2 o T) (tr_3 o T) (tr_4 o T) (tr_5 o T)) else None.
(** S(T) of the last two classes: invert_mat of C (src/elasticity.cxx:301-305, 392-396), i.e.
    the matrix S with C S = S C = I whenever LAPACK succeeds *)
Definition inverse6 (S C : vec) : Prop := forall i j, (i < 6)%nat -> (j < 6)%nat ->
  rsum 6 (fun k => S (6 * i + k)%nat * C (6 * k + j)%nat) = delta i j /\
  rsum 6 (fun k => C (6 * i + k)%nat * S (6 * k + j)%nat) = delta i j.
