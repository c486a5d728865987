(** Model of src/hardening.cxx.  Temperature dependent parameters are functions of T;
    vectors of parameters (C, gmodels, A, a) are indexed by the backstress number, the
    code does not check that their lengths agree.  CINDEX(i,j,n) is the pair (i,j). *)
From Verif Require Import Base.
From Verif Require Import NemlMathModel InterpModel.
From Verif Require Import SurfModel.

(** HardeningRule, include/hardening.h: nhist, q, dq_da *)
(** src/hardening.cxx:12-16 (HardeningRule): the virtual functions *)
Record hardrule := { hr_n : nat; hr_q : vec -> R -> vec; hr_dq : vec -> R -> mat }.

(** src/hardening.cxx:18-32: a rule with one variable *)
Definition scalar_rule (q dq : R -> R -> R) : hardrule :=
  {| hr_n := 1; hr_q := fun a T _ => q (a 0%nat) T; hr_dq := fun a T _ _ => dq (a 0%nat) T |}.
(** src/hardening.cxx:63-75 *)
Definition LinearIso (s0 K : R -> R) : hardrule :=
  scalar_rule (fun a T => - s0 T - K T * a) (fun a T => - K T).
(** the value of an interpolate, 0 where the code would read out of bounds *)
(** src/hardening.cxx:116-127: the calls of an Interpolate *)
Definition ival (i : interp) (x : R) : R := match ivalue i x with Some v => v | None => 0 end.
(** src/hardening.cxx:116-127: the calls of an Interpolate *)
Definition ider (i : interp) (x : R) : R := match iderivative i x with Some v => v | None => 0 end.
(** src/hardening.cxx:116-127 *)
Definition InterpolatedIso (flow : interp) : hardrule :=
  scalar_rule (fun a T => - ival flow a) (fun a T => - ider flow a).
(** src/hardening.cxx:161-173 *)
Definition VoceIso (s0 Rv d : R -> R) : hardrule :=
  scalar_rule (fun a T => - s0 T - Rv T * (1 - exp (- d T * a))) (fun a T => - d T * Rv T * exp (- d T * a)).
(** src/hardening.cxx:222-239; 1e15 stands for infinity there *)
Definition PowerLawIso (s0 A n : R -> R) : hardrule :=
  scalar_rule (fun a T => - s0 T - A T * cpow a (n T))
    (fun a T => if Req_EM_T a 0 then - 10 ^ 15 else - A T * n T * cpow a (n T - 1)).
(** src/hardening.cxx:271-291 *)
Definition CombinedIso (rules : list hardrule) : hardrule :=
  {| hr_n := 1;
     hr_q := fun a T _ => fold_left (fun acc r => acc + hr_q r a T 0%nat) rules 0;
     hr_dq := fun a T _ _ => fold_left (fun acc r => acc + hr_dq r a T 0%nat 0%nat) rules 0 |}.
(** src/hardening.cxx:342-359 *)
Definition LinearKin (H : R -> R) : hardrule :=
  {| hr_n := 6; hr_q := fun a T i => - H T * a i; hr_dq := fun a T i j => if Nat.eqb i j then - H T else 0 |}.
(** src/hardening.cxx:406-440 *)
Definition drop (n : nat) (a : vec) : vec := fun i => a (n + i)%nat.
(** src/hardening.cxx:366-440 *)
Definition CombinedHard (iso kin : hardrule) : hardrule :=
  {| hr_n := hr_n iso + hr_n kin;
     hr_q := fun a T i => if Nat.ltb i (hr_n iso) then hr_q iso a T i else hr_q kin (drop (hr_n iso) a) T (i - hr_n iso)%nat;
     hr_dq := fun a T i j =>
       if Nat.ltb i (hr_n iso) then if Nat.ltb j (hr_n iso) then hr_dq iso a T i j else 0
       else if Nat.ltb j (hr_n iso) then 0
       else hr_dq kin (drop (hr_n iso) a) T (i - hr_n iso)%nat (j - hr_n iso)%nat |}.

(** ** NonAssociativeHardening *)
(** src/hardening.cxx:442-446 (NonAssociativeHardening): the virtual functions *)
Record nahard := {
  na_ninter : nat; na_n : nat;
  na_q : vec -> R -> vec; na_dq : vec -> R -> mat;
  na_h : vec -> vec -> R -> vec; na_hs : vec -> vec -> R -> mat; na_ha : vec -> vec -> R -> mat;
  na_ht : vec -> vec -> R -> vec; na_hts : vec -> vec -> R -> mat; na_hta : vec -> vec -> R -> mat;
  na_hT : vec -> vec -> R -> vec; na_hTs : vec -> vec -> R -> mat; na_hTa : vec -> vec -> R -> mat
}.

(** GammaModel: src/hardening.cxx:531-537, 576-582 *)
Record gammam := { gm : R -> R -> R; gm_d : R -> R -> R }.
(** src/hardening.cxx:503-541 *)
Definition ConstantGamma (g : R -> R) : gammam := {| gm := fun ep T => g T; gm_d := fun ep T => 0 |}.
(** src/hardening.cxx:546-594 *)
Definition SatGamma (gs g0 beta : R -> R) : gammam :=
  {| gm := fun ep T => gs T + (g0 T - gs T) * exp (- beta T * ep);
     gm_d := fun ep T => beta T * (gs T - g0 T) * exp (- beta T * ep) |}.

(** The members c_, gmodels_, A_, a_ common to the two Chaboche classes *)
(** src/hardening.cxx:599-611 (Chaboche) *)
Record chparams := { ch_nb : nat; ch_c : nat -> R -> R; ch_dc : nat -> R -> R; ch_g : nat -> gammam; ch_A : nat -> R -> R; ch_a : nat -> R -> R }.

(** The history is alpha[0] followed by the backstresses: component j of backstress i is
    alpha[1+i*6+j].  For position 1+r this is i = r/6, j = r mod 6. *)
(** src/hardening.cxx:948-956, 1331-1339: sum of the backstresses *)
Definition ch_back (p : chparams) (al : vec) : vec := fun j => rsum (ch_nb p) (fun i => al (S (i * 6 + j))).
(** src/hardening.cxx:687-710 (h): alpha + 1 + i*6 *)
Definition ch_block (al : vec) (i : nat) : vec := fun j => al (S (i * 6 + j)).
(** src/hardening.cxx:687-710 (h) *)
Definition ch_rel (p : chparams) (s al : vec) : vec := vadd (dev_vec s) (ch_back p al).

(** backstress rows of q, dq_da, h, dh_ds, dh_da: src/hardening.cxx:657-827 for Chaboche and, with the
    same text, :1029-1205 for ChabocheVoceRecovery *)
Definition ch_q (p : chparams) (q0 : R) (al : vec) : vec := fun k => match k with O => q0 | S j => ch_back p al j end.
(** src/hardening.cxx:672-685 (dq_da) *)
Definition ch_dq (p : chparams) (d00 : R) : mat := fun k m =>
  match k, m with
  | O, O => d00
  | S j, S r => if Nat.eqb (r mod 6) j then 1 else 0
  | _, _ => 0
  end.
(** src/hardening.cxx:687-710 (h) *)
Definition ch_h (p : chparams) (h0 : R) (s al : vec) (T : R) : vec := fun k =>
  match k with
  | O => h0
  | S r => - 2 / 3 * ch_c p (r / 6) T * normalize_vec 6 (ch_rel p s al) (r mod 6)%nat
           - sqrt (2 / 3) * gm (ch_g p (r / 6)) (al 0%nat) T * al (S r)
  end.
(** src/hardening.cxx:712-765 (dh_ds): the guarded division by the norm *)
Definition ch_div (nv x : R) : R := if Req_EM_T nv 0 then x else x / nv.
(** src/hardening.cxx:712-765 (dh_ds) *)
Definition ch_hs (p : chparams) (s al : vec) (T : R) : mat := fun k m =>
  match k with
  | O => 0
  | S r => let n := normalize_vec 6 (ch_rel p s al) in let j := (r mod 6)%nat in
           - 2 / 3 * ch_c p (r / 6) T * ch_div (norm2 6 (ch_rel p s al)) (delta j m - iv j * jv m - n j * n m)
  end.
(** src/hardening.cxx:767-827 (dh_da) *)
Definition ch_ha (p : chparams) (d00 : R) (s al : vec) (T : R) : mat := fun k m =>
  match k, m with
  | O, O => d00
  | O, S _ => 0
  | S r, O => - sqrt (2 / 3) * gm_d (ch_g p (r / 6)) (al 0%nat) T * al (S r)
  | S r, S r' => let n := normalize_vec 6 (ch_rel p s al) in let j := (r mod 6)%nat in let j' := (r' mod 6)%nat in
           0 - (if Nat.eqb r r' then sqrt (2 / 3) * gm (ch_g p (r / 6)) (al 0%nat) T else 0)
           - 2 / 3 * ch_c p (r / 6) T * ch_div (norm2 6 (ch_rel p s al)) (delta j j' - n j * n j')
  end.
(** h_temp, dh_da_temp: src/hardening.cxx:898-936, 1287-1324 *)
Definition ch_hT (p : chparams) (al : vec) (T : R) : vec := fun k =>
  match k with
  | O => 0
  | S r => if Req_EM_T (ch_c p (r / 6) T) 0 then 0 else - sqrt (2 / 3) * ch_dc p (r / 6) T / ch_c p (r / 6) T * al (S r)
  end.
(** src/hardening.cxx:920-936 (dh_da_temp) *)
Definition ch_hTa (p : chparams) (T : R) : mat := fun k m =>
  match k, m with
  | S r, S r' => if Nat.eqb r r' then (if Req_EM_T (ch_c p (r / 6) T) 0 then 0 else - sqrt (2 / 3) * ch_dc p (r / 6) T / ch_c p (r / 6) T) else 0
  | _, _ => 0
  end.

(** ** Chaboche; src/hardening.cxx:638-956.  iso is the isotropic rule (one history variable). *)
(** src/hardening.cxx:829-848 *)
Definition ch_ht (p : chparams) (al : vec) (T : R) : vec := fun k =>
  match k with
  | O => 0
  | S r => - ch_A p (r / 6) T * sqrt (3 / 2) * cpow (norm2 6 (ch_block al (r / 6))) (ch_a p (r / 6) T - 1) * al (S r)
  end.
(** src/hardening.cxx:859-896: only the entries within one backstress block are written *)
Definition ch_hta (p : chparams) (al : vec) (T : R) : mat := fun k m =>
  match k, m with
  | S r, S r' =>
    if Nat.eqb (r / 6) (r' / 6) then
      let X := ch_block al (r / 6) in let N := normalize_vec 6 X in
      - ch_A p (r / 6) T * sqrt (3 / 2) * cpow (norm2 6 X) (ch_a p (r / 6) T - 1)
        * (delta (r mod 6) (r' mod 6) + (ch_a p (r / 6) T - 1) * (N (r mod 6)%nat * N (r' mod 6)%nat))
    else 0
  | _, _ => 0
  end.
(** src/hardening.cxx:599-956 *)
Definition Chaboche (iso : hardrule) (p : chparams) : nahard :=
  {| na_ninter := 7; na_n := S (ch_nb p * 6);
     na_q := fun al T => ch_q p (hr_q iso al T 0%nat) al;
     na_dq := fun al T => ch_dq p (hr_dq iso al T 0%nat 0%nat);
     na_h := fun s al T => ch_h p (sqrt (2 / 3)) s al T;
     na_hs := ch_hs p;
     na_ha := fun s al T => ch_ha p 0 s al T;
     na_ht := fun s al T => ch_ht p al T;
     na_hts := fun s al T _ _ => 0;
     na_hta := fun s al T => ch_hta p al T;
     na_hT := fun s al T => ch_hT p al T;
     na_hTs := fun s al T _ _ => 0;
     na_hTa := fun s al T => ch_hTa p T |}.

(** ** ChabocheVoceRecovery; src/hardening.cxx:1010-1339 *)
Record cvparams := { cv_s0 : R -> R; cv_theta0 : R -> R; cv_Rmax : R -> R; cv_Rmin : R -> R; cv_r1 : R -> R; cv_r2 : R -> R }.
(** src/hardening.cxx:1209-1233 *)
Definition cv_ht (v : cvparams) (p : chparams) (al : vec) (T : R) : vec := fun k =>
  match k with
  | O => cv_r1 v T * (cv_Rmin v T - al 0%nat) * cpow (Rabs (cv_Rmin v T - al 0%nat)) (cv_r2 v T - 1)
  | S r => - ch_A p (r / 6) T * cpow (sqrt (3 / 2) * norm2 6 (ch_block al (r / 6))) (ch_a p (r / 6) T - 1) * al (S r)
  end.
(** src/hardening.cxx:1244-1285 *)
Definition cv_hta (v : cvparams) (p : chparams) (al : vec) (T : R) : mat := fun k m =>
  match k, m with
  | O, O => copysign (cv_r1 v T * cv_r2 v T * cpow (Rabs (cv_Rmin v T - al 0%nat)) (cv_r2 v T - 1)) (cv_Rmin v T - al 0%nat)
  | S r, S r' =>
    if Nat.eqb (r / 6) (r' / 6) then
      let X := ch_block al (r / 6) in let N := normalize_vec 6 X in
      - ch_A p (r / 6) T * cpow (sqrt (3 / 2) * norm2 6 X) (ch_a p (r / 6) T - 1)
        * (delta (r mod 6) (r' mod 6) + (ch_a p (r / 6) T - 1) * (N (r mod 6)%nat * N (r' mod 6)%nat))
    else 0
  | _, _ => 0
  end.
(** src/hardening.cxx:961-1339 *)
Definition ChabocheVoceRecovery (v : cvparams) (p : chparams) : nahard :=
  {| na_ninter := 7; na_n := S (ch_nb p * 6);
     na_q := fun al T => ch_q p (- (cv_s0 v T + al 0%nat)) al;
     na_dq := fun al T => ch_dq p (-1);
     na_h := fun s al T => ch_h p (cv_theta0 v T * (1 - al 0%nat / cv_Rmax v T) * sqrt (2 / 3)) s al T;
     na_hs := ch_hs p;
     na_ha := fun s al T => ch_ha p (- cv_theta0 v T / cv_Rmax v T * sqrt (2 / 3)) s al T;
     na_ht := fun s al T => cv_ht v p al T;
     na_hts := fun s al T _ _ => 0;
     na_hta := fun s al T => cv_hta v p al T;
     na_hT := fun s al T => ch_hT p al T;
     na_hTs := fun s al T _ _ => 0;
     na_hTa := fun s al T => ch_hTa p T |}.
