(** Model of the interfaces in util/: the Abaqus user material util/abaqus/nemlumat.f and the example
    programs util/c_interface/csimple.c, util/f_interface/fsimple.f, util/cxx_interface/cxxsimple.cxx and
    util/string_interface/cxxstring.cxx, on top of the C interface of BlockModel.v.

    Fortran's indices 1..6 are 0..5 here.  sqrt(2.0), single precision in the code, is the real number.
    The file and model names are fixed in the code; whether the model loads is an argument.  [base] is
    the model's update_sd, nstore and init_store (CreepModel.v). *)
From Verif Require Import Base.
From Verif Require Import SubstepModel CreepModel BlockModel.
From Coq Require Import ZArith List Arith.
Import ListNotations.

(** 104-109 imap *)
Definition imap (i : nat) : nat := match i with 3%nat => 5%nat | 5%nat => 3%nat | _ => i end.
(** 113-118 smult, 122-127 emult *)
Definition smult (i : nat) : R := if Nat.ltb i 3 then 1 else sqrt 2.
(** util/abaqus/nemlumat.f:122-127 *)
Definition emult (i : nat) : R := if Nat.ltb i 3 then 1 else sqrt 2 / 2.
(** 1-17 convertv; an array of six is zero elsewhere *)
Definition convertv (inp : vec) (idx : nat -> nat) (mult : nat -> R) : vec := fun i => if Nat.ltb i 6 then inp (idx i) * mult i else 0.
(** x(k) = v *)
(** assignment to an entry of a Fortran array; no code of its own *)
Definition vput (x : vec) (k : nat) (v : R) : vec := fun i => if Nat.eqb i k then v else x i.
(** assignment to an entry of a Fortran array; no code of its own *)
Definition mput (x : mat) (k l : nat) (v : R) : mat := fun i j => if andb (Nat.eqb i k) (Nat.eqb j l) then v else x i j.
(** 19-35 bconvertv, 37-56 bconvertt: the loops write to res *)
Definition bconvertv (inp : vec) (idx : nat -> nat) (mult : nat -> R) (res : vec) : vec :=
  fold_left (fun r i => vput r (idx i) (inp i / mult (idx i))) (seq 0 6) res.
(** util/abaqus/nemlumat.f:37-56 *)
Definition bconvertt (inp : mat) (idx : nat -> nat) (multi multj : nat -> R) (res : mat) : mat :=
  fold_left (fun r i => fold_left (fun r j => mput r (idx i) (idx j) (inp i j / (multi (idx i) * multj (idx j)))) (seq 0 6) r) (seq 0 6) res.
(** the row major array the C++ code fills, seen as a column major Fortran array, and transpose *)
(** util/abaqus/nemlumat.f:129-198: the transposition of the tangent *)
Definition fortran (A : mat) : mat := fun i j => A j i.
(** util/abaqus/nemlumat.f:129-198: the transposition of the tangent *)
Definition transpose (A : mat) : mat := fun i j => A j i.

(** 58-75 what Abaqus hands over and gets back: STRESS, STATEV, DDSDDE, SSE, SPD, SCD, PNEWDT *)
Record apoint := { ap_stress : vec; ap_statev : vec; ap_ddsdde : mat; ap_sse : R; ap_spd : R; ap_scd : R; ap_pnewdt : R }.
(** STRAN, DSTRAN, TIME(2), DTIME, TEMP, DTEMP *)
(** util/abaqus/nemlumat.f:58-75 *)
Record ainc := { ai_stran : vec; ai_dstran : vec; ai_time : R; ai_dtime : R; ai_temp : R; ai_dtemp : R }.
(** [Stopped]: the Fortran stop; [Outside]: an access outside an array; [Back]: the values returned and
    the number of model objects in existence *)
(** util/abaqus/nemlumat.f:129-198 *)
Inductive aout := Stopped | Outside | Back (p : apoint) (models : nat).
(** util/abaqus/nemlumat.f:129-198 *)
Definition cut_step (p : apoint) : apoint :=
  {| ap_stress := ap_stress p; ap_statev := ap_statev p; ap_ddsdde := ap_ddsdde p; ap_sse := ap_sse p; ap_spd := ap_spd p; ap_scd := ap_scd p; ap_pnewdt := 1 / 2 |}.
(** 129-198.  [loads]: the model can be read; [dies]: its destructor returns; [models]: objects before;
    [junk]: ier before.  The arrays have ntens and nstatv entries; the conversions use six, update_sd
    the model's nstore. *)
Definition umat (B : base) (loads : thrown unit) (dies : thrown unit) (ntens nstatv : nat) (junk : Z) (a : ainc) (p : apoint) (models : nat) : aout :=
  let (model, ier) := c_create loads junk in
  if negb (Z.eqb ier 0) then Stopped
  else if orb (Nat.ltb ntens 6) (Nat.ltb nstatv (ba_nh B)) then Outside
  else
    let e_np1 := convertv (fun i => ai_stran a i + ai_dstran a i) imap emult in
    let e_n := convertv (ai_stran a) imap emult in
    let s_n := convertv (ap_stress p) imap smult in
    let u_n := ap_sse p + ap_spd p in
    let p_n := ap_spd p in
    let r := ba_update B {| ld_e := e_np1; ld_T := ai_temp a + ai_dtemp a; ld_t := ai_time a + ai_dtime a |}
               {| ld_e := e_n; ld_T := ai_temp a; ld_t := ai_time a |} s_n (ap_statev p) u_n p_n in
    let ier := c_update_sd (match r with Some _ => Returns tt | None => Throws end) ier in
    match r with
    | Some r => if negb (Z.eqb ier 0) then Back (cut_step p) (S models)
      else Back {| ap_stress := bconvertv (pr_s r) imap smult (ap_stress p); ap_statev := pr_h r;
                   ap_ddsdde := bconvertt (transpose (fortran (pr_A r))) imap smult emult (ap_ddsdde p);
                   ap_sse := pr_u r - pr_p r; ap_spd := pr_p r; ap_scd := 0; ap_pnewdt := ap_pnewdt p |}
             (match dies with Returns _ => models | Throws => S models end)
    | None => Back (cut_step p) (S models)
    end.

(** Abaqus itself: an increment whose PNEWDT stays at 1 is accepted, and the totals grow; a state is what
    the solver keeps for an integration point. *)
(** what Abaqus does around util/abaqus/nemlumat.f:58-198; no code of its own *)
Record apt := { at_stran : vec; at_time : R; at_temp : R; at_p : apoint }.
(** what Abaqus does around util/abaqus/nemlumat.f:58-198; no code of its own *)
Record dinc := { di_e : vec; di_t : R; di_T : R }.
(** what Abaqus does around util/abaqus/nemlumat.f:58-198; no code of its own *)
Definition fresh_call (p : apoint) : apoint :=
  {| ap_stress := ap_stress p; ap_statev := ap_statev p; ap_ddsdde := ap_ddsdde p; ap_sse := ap_sse p; ap_spd := ap_spd p; ap_scd := ap_scd p; ap_pnewdt := 1 |}.
(** what Abaqus does around util/abaqus/nemlumat.f:58-198; no code of its own *)
Definition aba_call (B : base) (ntens nstatv : nat) (d : dinc) (q : apt) : aout :=
  umat B (Returns tt) (Returns tt) ntens nstatv 0
    {| ai_stran := at_stran q; ai_dstran := di_e d; ai_time := at_time q; ai_dtime := di_t d; ai_temp := at_temp q; ai_dtemp := di_T d |} (fresh_call (at_p q)) 0.
(** None: the step was cut or the program died *)
(** what Abaqus does around util/abaqus/nemlumat.f:58-198; no code of its own *)
Definition aba_step (B : base) (ntens nstatv : nat) (d : dinc) (q : apt) : option apt :=
  match aba_call B ntens nstatv d q with
  | Back p _ => if Req_EM_T (ap_pnewdt p) 1 then Some {| at_stran := fun i => at_stran q i + di_e d i; at_time := at_time q + di_t d; at_temp := at_temp q + di_T d; at_p := p |} else None
  | _ => None
  end.
(** what Abaqus does around util/abaqus/nemlumat.f:58-198; no code of its own *)
Fixpoint aba_run (B : base) (ntens nstatv : nat) (ds : list dinc) (q : apt) : option apt :=
  match ds with [] => Some q | d :: ds => match aba_step B ntens nstatv d q with Some q' => aba_run B ntens nstatv ds q' | None => None end end.
(** the start: no strain, no stress, the initial history (util/abaqus/report.cxx:17-33) *)
Definition aba_start (B : base) (T t : R) : apt :=
  {| at_stran := fun _ => 0; at_time := t; at_temp := T;
     at_p := {| ap_stress := fun _ => 0; ap_statev := ba_init B; ap_ddsdde := fun _ _ => 0; ap_sse := 0; ap_spd := 0; ap_scd := 0; ap_pnewdt := 1 |} |}.

(** *** The example programs: n steps to strain e and time t at temperature T.  [el] says whether
    elastic_strains returns. *)
(** util/c_interface/csimple.c:43-94: and the other example programs *)
Record sst := { ss_e : vec; ss_t : R; ss_s : vec; ss_h : vec; ss_u : R; ss_p : R }.
(** util/c_interface/csimple.c:43-94: and the other example programs *)
Definition sst0 (B : base) : sst := {| ss_e := fun _ => 0; ss_t := 0; ss_s := fun _ => 0; ss_h := ba_init B; ss_u := 0; ss_p := 0 |}.
(** util/c_interface/csimple.c:43-94: and the other example programs *)
Definition first (x : R) : vec := fun i => if Nat.eqb i 0 then x else 0.
(** util/c_interface/csimple.c:43-94: and the other example programs *)
Definition six (v : vec) : vec := fun i => if Nat.ltb i 6 then v i else 0.
(** util/c_interface/csimple.c:43-94: and the other example programs *)
Definition sim_call (B : base) (T : R) (e : vec) (t : R) (q : sst) : option pres :=
  ba_update B {| ld_e := e; ld_T := T; ld_t := t |} {| ld_e := ss_e q; ld_T := T; ld_t := ss_t q |} (ss_s q) (ss_h q) (ss_u q) (ss_p q).
(** util/c_interface/csimple.c:43-94: and the other example programs *)
Definition sim_next (e : vec) (t : R) (r : pres) : sst := {| ss_e := e; ss_t := t; ss_s := six (pr_s r); ss_h := pr_h r; ss_u := pr_u r; ss_p := pr_p r |}.
(** util/c_interface/csimple.c:65-94, fsimple.f:75-101: k steps after the first i; ier is one variable
    for all the calls *)
Fixpoint c_loop (B : base) (el : pres -> bool) (e t T : R) (n k i : nat) (ier : Z) (q : sst) : option sst :=
  match k with
  | O => Some q
  | S k =>
    let t1 := INR (S i) * t / INR n in let e1 := first (INR (S i) * e / INR n) in
    let r := sim_call B T e1 t1 q in
    let ier1 := c_update_sd (match r with Some _ => Returns tt | None => Throws end) ier in
    match r with
    | Some r => if negb (Z.eqb ier1 0) then None
      else c_loop B el e t T n k (S i) (c_elastic_strains (if el r then Returns tt else Throws) ier1) (sim_next e1 t1 r)
    | None => None
    end
  end.
(** util/c_interface/csimple.c:5-94 *)
Definition csimple (B : base) el (e t T : R) (n : nat) : option sst := c_loop B el e t T n n 0 0 (sst0 B).
(** util/f_interface/fsimple.f:75-101 *)
Fixpoint f_loop (B : base) (el : pres -> bool) (e t T : R) (n k i : nat) (ier : Z) (q : sst) : option sst :=
  match k with
  | O => Some q
  | S k =>
    let t1 := INR (S i) / INR n * t in let e1 := first (INR (S i) / INR n * e) in
    let r := sim_call B T e1 t1 q in
    let ier1 := c_update_sd (match r with Some _ => Returns tt | None => Throws end) ier in
    match r with
    | Some r => if negb (Z.eqb ier1 0) then None
      else f_loop B el e t T n k (S i) (c_elastic_strains (if el r then Returns tt else Throws) ier1) (sim_next e1 t1 r)
    | None => None
    end
  end.
(** util/f_interface/fsimple.f:75-101 *)
Definition fsimple (B : base) el (e t T : R) (n : nat) : option sst := f_loop B el e t T n n 0 0 (sst0 B).
(** cxxsimple.cxx:51-71, cxxstring.cxx: exceptions end the program *)
Fixpoint x_loop (B : base) (el : pres -> bool) (e t T : R) (n k i : nat) (q : sst) : option sst :=
  match k with
  | O => Some q
  | S k =>
    let t1 := INR (S i) * t / INR n in let e1 := first (INR (S i) * e / INR n) in
    match sim_call B T e1 t1 q with
    | Some r => if el r then x_loop B el e t T n k (S i) (sim_next e1 t1 r) else None
    | None => None
    end
  end.
(** util/cxx_interface/cxxsimple.cxx:51-71 *)
Definition cxxsimple (B : base) el (e t T : R) (n : nat) : option sst := x_loop B el e t T n n 0 (sst0 B).
