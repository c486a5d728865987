(** Model of src/damage.cxx and src/larsonmiller.cxx.  Interpolate objects are functions of T (or
    of the argument they are evaluated at, with their derivative where the code uses it). *)
From Verif Require Import Base.
From Verif Require Import NemlMathModel SolverModel SubstepModel SurfModel PlastModel CreepModel.

(** ** EffectiveStress: value and reported gradient; None is an exception or an access out of bounds *)
(** src/damage.cxx:590-594 (EffectiveStress): the virtual functions effective and deffective *)
Record estress := { es_v : vec -> option R; es_d : vec -> option vec }.
(** the von Mises formula, src/damage.cxx:583-588, 619-624, 1571-1576, 1667-1672 *)
Definition vm (s : vec) : R :=
  sqrt (((s 0%nat - s 1%nat) * (s 0%nat - s 1%nat) + (s 1%nat - s 2%nat) * (s 1%nat - s 2%nat) + (s 2%nat - s 0%nat) * (s 2%nat - s 0%nat)
         + 3 * (s 3%nat * s 3%nat + s 4%nat * s 4%nat + s 5%nat * s 5%nat)) / 2).
(** src/damage.cxx:619-637 *)
Definition VonMisesES : estress :=
  {| es_v := fun s => Some (vm s);
     es_d := fun s => Some (fun i => if Req_EM_T (vm s) 0 then dev_vec s i else dev_vec s i * (3 / 2 / vm s)) |}.
(** src/damage.cxx:657-670 *)
Definition MeanES : estress :=
  {| es_v := fun s => Some ((s 0%nat + s 1%nat + s 2%nat) / 3);
     es_d := fun _ => Some (fun i => if Nat.ltb i 3 then 1 / 3 else 0) |}.
(** src/damage.cxx:699-719, 721-762.  sqrt of a negative number (NaN) is 0 here; 1 / I2pv at
    I2pv = 0 (infinity) is 0 *)
Definition hud_se (s : vec) : R := sqrt (- 3 * I2 (dev_vec s)).
(** src/damage.cxx:699-719 (effective) *)
Definition hud_ss (s : vec) : R := sqrt (- 3 * I2 (dev_vec s) + I2 s).
(** src/damage.cxx:699-719 (effective) *)
Definition hud_eff (b : R) (s : vec) : R := hud_se s * exp (b * (I1 s / hud_ss s - 1)).
(** src/damage.cxx:699-762 *)
Definition HuddlestonES (b : R) : estress :=
  {| es_v := fun s => Some (if Req_EM_T (hud_ss s) 0 then 0 else hud_eff b s);
     es_d := fun s => Some (fun i =>
       if Req_EM_T (norm2 6 s) 0 then 0 else
       if Req_EM_T (hud_ss s) 0 then 0 else
       let eff := hud_eff b s in let I1v := I1 s in let I2v := I2 s in let I2pv := I2 (dev_vec s) in
       let t1 := b * eff / sqrt (I2v - 3 * I2pv) in
       let t2 := - b * eff * I1v / (2 * cpow (I2v - 3 * I2pv) (3 / 2)) in
       let t3 := 1 / 2 * eff * (3 * b * I1v / cpow (I2v - 3 * I2pv) (3 / 2) + 1 / I2pv) in
       (if Nat.ltb i 3 then t1 else 0) + (if Nat.ltb i 3 then t2 * I1v else 0) - t2 * s i - t3 * dev_vec s i) |}.
(** src/damage.cxx:788-828; [eigv] and [eigw] are dsyev (nemlmath.cxx:1137-1163): eigenvalues in
    ascending order, and the matrix of eigenvectors with vector k in entries 3k..3k+2 *)
Definition MaxPrincipalES (eigv eigw : vec -> option vec) : estress :=
  {| es_v := fun s => match eigv s with Some v => Some (if Rlt_dec (v 2%nat) 0 then 0 else v 2%nat) | None => None end;
     es_d := fun s =>
       match eigv s with
       | None => None
       | Some v =>
         if Rlt_dec (v 2%nat) 0 then Some (fun _ => 0)
         else match eigw s with
              | None => None
              | Some w =>
                let x i := w (6 + i)%nat in
                let nf := x 0%nat * x 0%nat + x 1%nat * x 1%nat + x 2%nat * x 2%nat in
                let full k := let f := x (k / 3)%nat * x (k mod 3)%nat in if Req_EM_T nf 0 then f else f / nf in
                Some (sym full)
              end
       end |}.
(** select_, src/damage.cxx:872-886: the running maximum starts at -infinity; the result is the
    first index attaining the maximum and its value (None: no measure, index -1) *)
Fixpoint msel (l : list estress) (s : vec) (i : nat) (best : option (nat * R)) : option (option (nat * R)) :=
  match l with
  | [] => Some best
  | m :: r =>
    match es_v m s with
    | None => None
    | Some v => msel r s (S i) (match best with
                                | None => Some (i, v)
                                | Some (k, b) => if Rlt_dec b v then Some (i, v) else Some (k, b) end)
    end
  end.
(** src/damage.cxx:857-870 *)
Definition MaxSeveralES (l : list estress) : estress :=
  {| es_v := fun s => match msel l s 0 None with Some (Some (_, v)) => Some v | _ => None end;
     es_d := fun s => match msel l s 0 None with
                      | Some (Some (k, _)) => match nth_error l k with Some m => es_d m s | None => None end
                      | _ => None end |}.
(** src/damage.cxx:888-938; the constructor checks the lengths *)
Fixpoint sum_v (l : list (estress * R)) (s : vec) : option R :=
  match l with
  | [] => Some 0
  | (m, w) :: r => match es_v m s, sum_v r s with Some v, Some x => Some (w * v + x) | _, _ => None end
  end.
(** src/damage.cxx:928-938 (deffective) *)
Fixpoint sum_d (l : list (estress * R)) (s : vec) : option vec :=
  match l with
  | [] => Some (fun _ => 0)
  | (m, w) :: r => match es_d m s, sum_d r s with Some v, Some x => Some (fun i => w * v i + x i) | _, _ => None end
  end.
(** src/damage.cxx:888-938 *)
Definition SumSeveralES (ms : list estress) (ws : list R) : option estress :=
  if Nat.eqb (length ms) (length ws) then
    Some {| es_v := sum_v (combine ms ws); es_d := sum_d (combine ms ws) |}
  else None.

(** ** ScalarDamage, include/damage.h:132-183: the new damage and its derivatives, arguments
    (d_np1, d_n, e_np1, e_n, s_np1, s_n, T_np1, T_n, t_np1, t_n) *)
Record dargs := { ad : R; adn : R; ae : vec; aen : vec; as_ : vec; asn : vec; aT : R; aTn : R; at_ : R; atn : R }.
(** src/damage.cxx:327-332: the virtual functions of ScalarDamage, include/damage.h *)
Record damage := { dm : dargs -> R; dm_d : dargs -> R; dm_e : dargs -> vec; dm_s : dargs -> vec; dm_init : R }.
(** ScalarDamageRate, src/damage.cxx:340-394: rate(d, e, s, T, t) *)
Record drate := { dr : R -> vec -> vec -> R -> R -> R; dr_d : R -> vec -> vec -> R -> R -> R;
                  dr_e : R -> vec -> vec -> R -> R -> vec; dr_s : R -> vec -> vec -> R -> R -> vec }.
(** src/damage.cxx:334-394 *)
Definition RateDamage (r : drate) : damage :=
  let at5 {A} (f : R -> vec -> vec -> R -> R -> A) (a : dargs) : A := f (ad a) (ae a) (as_ a) (aT a) (at_ a) in
  {| dm := fun a => at5 (dr r) a * (at_ a - atn a) + adn a;
     dm_d := fun a => at5 (dr_d r) a * (at_ a - atn a);
     dm_e := fun a i => at5 (dr_e r) a i * (at_ a - atn a);
     dm_s := fun a i => at5 (dr_s r) a i * (at_ a - atn a);
     dm_init := 0 |}.
(** CombinedDamage, src/damage.cxx:422-488 *)
Definition CombinedDamage (l : list damage) : damage :=
  {| dm := fun a => fold_left (fun d m => d + (dm m a - adn a)) l (adn a);
     dm_d := fun a => fold_left (fun d m => d + dm_d m a) l 0;
     dm_e := fun a i => fold_left (fun d m => d + dm_e m a i) l 0;
     dm_s := fun a i => fold_left (fun d m => d + dm_s m a i) l 0;
     dm_init := 0 |}.
(** ClassicalCreepDamage, src/damage.cxx:522-588 *)
Definition ClassicalCreepDamage (A xi phi : R -> R) : drate :=
  {| dr := fun d e s T t => cpow (vm s / A T) (xi T) * cpow (1 - d) (- phi T);
     dr_d := fun d e s T t => cpow (vm s / A T) (xi T) * phi T * cpow (1 - d) (- (phi T + 1));
     dr_e := fun d e s T t _ => 0;
     dr_s := fun d e s T t i =>
       if Req_EM_T (vm s) 0 then 0
       else dev_vec s i * (3 * xi T / (2 * A T * vm s) * cpow (vm s / A T) (xi T - 1) * cpow (1 - d) (- phi T)) |}.
(** the effective stress object as used by the rates below; an exception in it (a failed
    eigenvalue solve, an empty list of measures) is 0 here *)
(** src/damage.cxx:590-594 (EffectiveStress): effective, as called in damage_rate (973-987) *)
Definition ev_of (E : estress) (s : vec) : R := match es_v E s with Some v => v | None => 0 end.
(** src/damage.cxx:590-594 (EffectiveStress): deffective, as called in ddamage_rate_ds (1014-1036) *)
Definition ed_of (E : estress) (s : vec) : vec := match es_d E s with Some v => v | None => fun _ => 0 end.
(** ModularCreepDamage, src/damage.cxx:973-1036 *)
Definition ModularCreepDamage (A xi phi : R -> R) (E : estress) : drate :=
  let ev := ev_of E in let ed := ed_of E in
  {| dr := fun d e s T t => cpow (ev s / A T) (xi T) * cpow (1 - d) (xi T - phi T);
     dr_d := fun d e s T t => cpow (ev s / A T) (xi T) * (phi T - xi T) * cpow (1 - d) (xi T - phi T - 1);
     dr_e := fun d e s T t _ => 0;
     dr_s := fun d e s T t i =>
       if Req_EM_T (ev s) 0 then 0
       else ed s i * (cpow (ev s / A T) (xi T - 1) * xi T / A T * cpow (1 - d) (xi T - phi T)) |}.
(** LarsonMillerCreepDamage, src/damage.cxx:1066-1145; tR, dtR: rupture time and its stress derivative *)
Definition LarsonMillerDamage (tR dtR : R -> R -> R) (E : estress) : drate :=
  let ev := ev_of E in let ed := ed_of E in
  {| dr := fun d e s T t => if Req_EM_T (ev s) 0 then 0 else 1 / tR (ev s * (1 - d)) T;
     dr_d := fun d e s T t =>
       if Req_EM_T (ev s) 0 then 0
       else dtR (ev s * (1 - d)) T * ev s / (tR (ev s * (1 - d)) T * tR (ev s * (1 - d)) T);
     dr_e := fun d e s T t _ => 0;
     dr_s := fun d e s T t i =>
       if Req_EM_T (ev s) 0 then 0
       else ed s i * (- dtR (ev s * (1 - d)) T * (1 - d) / (tR (ev s * (1 - d)) T * tR (ev s * (1 - d)) T)) |}.

(** StandardScalarDamage, src/damage.cxx:1153-1289: f(s, d, T) times the plastic strain increment *)
Record sdfun := { sf_f : vec -> R -> R -> R; sf_s : vec -> R -> R -> vec; sf_d : vec -> R -> R -> R }.
(** dep 1262-1289 *)
Definition dep_ds (a : dargs) : vec := vsub (as_ a) (asn a).
(** src/damage.cxx:1262-1289 (dep) *)
Definition dep_de (a : dargs) : vec := vsub (ae a) (aen a).
(** src/damage.cxx:1262-1289 (dep) *)
Definition dep_dee (S : R -> mat) (a : dargs) : vec := mv 6 (S (aT a)) (dep_ds a).
(** src/damage.cxx:1262-1289 (dep) *)
Definition dep_sq (S : R -> mat) (a : dargs) : R :=
  2 / 3 * (dot 6 (dep_de a) (dep_de a) + dot 6 (dep_dee S a) (dep_dee S a) - 2 * dot 6 (dep_de a) (dep_dee S a)).
(** src/damage.cxx:1262-1289 (dep) *)
Definition dep (S : R -> mat) (a : dargs) : R := if Rlt_dec (dep_sq S a) 0 then 0 else sqrt (dep_sq S a).
(** src/damage.cxx:1147-1289 *)
Definition StandardDamage (S : R -> mat) (q : sdfun) : damage :=
  {| dm := fun a => adn a + sf_f q (as_ a) (ad a) (aT a) * dep S a;
     dm_d := fun a => sf_d q (as_ a) (ad a) (aT a) * dep S a;
     dm_e := fun a i =>
       if Req_EM_T (dep S a) 0 then 0
       else 2 * sf_f q (as_ a) (ad a) (aT a) / (3 * dep S a) * (dep_de a i - dep_dee S a i);
     dm_s := fun a i =>
       if Req_EM_T (dep S a) 0 then 0
       else sf_s q (as_ a) (ad a) (aT a) i * dep S a
            + mv 6 (S (aT a)) (fun k => 2 * sf_f q (as_ a) (ad a) (aT a) / (3 * dep S a) * (dep_dee S a k - dep_de a k)) i;
     dm_init := 0 |}.
(** PowerLawDamage, src/damage.cxx:1537-1576 *)
Definition PowerLawDamage (A a : R -> R) : sdfun :=
  {| sf_f := fun s d T => A T * cpow (vm s) (a T);
     sf_s := fun s d T i => if Req_EM_T (vm s) 0 then 0 else dev_vec s i * (3 * A T * a T / 2 * cpow (vm s) (a T - 2));
     sf_d := fun s d T => 0 |}.
(** ExponentialWorkDamage, src/damage.cxx:1610-1672 *)
Definition ExponentialWorkDamage (W0 k0 af : R -> R) : sdfun :=
  {| sf_f := fun s d T => if Rlt_dec (d + k0 T) 0 then 0 else cpow (d + k0 T) (af T) / W0 T * vm s;
     sf_s := fun s d T i =>
       if Req_EM_T (vm s) 0 then 0 else if Rlt_dec (d + k0 T) 0 then 0
       else dev_vec s i * (3 * cpow (d + k0 T) (af T) / (2 * vm s * W0 T));
     sf_d := fun s d T => if Rlt_dec (d + k0 T) 0 then 0 else af T * cpow (d + k0 T) (af T - 1) * vm s / W0 T |}.

(** WorkDamage, src/damage.cxx:1325-1506; W, W': value and derivative of the table Wcrit *)
Definition wk_dp (S : R -> mat) (a : dargs) (d : R) : vec :=
  vsub (vsub (ae a) (aen a)) (mv 6 (S (aT a)) (fun i => as_ a i * (1 - d) - asn a i * (1 - adn a))).
(** workrate 1459-1489, called with |d_np1| *)
Definition workrate (S : R -> mat) (ws : R) (a : dargs) (d : R) : R :=
  if Rle_dec (at_ a - atn a) 0 then 0
  else Rabs (dot 6 (as_ a) (wk_dp S a d) / (at_ a - atn a) * (1 - d)) * ws.
(** 1491-1506 *)
Definition wcrit (log : bool) (W : R -> R) (x : R) : R := if log then cpow 10 (W (log10 x)) else W x.
(** src/damage.cxx:1499-1506 (dWcrit) *)
Definition dwcrit (log : bool) (W W' : R -> R) (x : R) : R := if log then cpow 10 (W (log10 x)) * W' (log10 x) / x else W' x.
Definition WorkDamage (S : R -> mat) (W W' : R -> R) (n eps0 ws : R) (log : bool) : damage :=
  let wr a := workrate S ws a (Rabs (ad a)) in
  let dt a := at_ a - atn a in
  {| dm := fun a => (* 1325-1350 *)
       if Req_EM_T (ad a) 0 then adn a else if Req_EM_T (wr a) 0 then adn a
       else adn a + n * cpow (Rabs (ad a)) ((n - 1) / n) * wr a * dt a / wcrit log W (wr a / ws) / ws;
     dm_d := fun a => (* 1352-1387 *)
       if Req_EM_T (ad a) 0 then adn a else if Req_EM_T (wr a) 0 then adn a
       else let val := wcrit log W (wr a / ws) in let deriv := dwcrit log W W' (wr a / ws) in
            let f := dot 6 (as_ a) (mv 6 (S (aT a)) (as_ a)) in
            let x := - wr a / (1 - Rabs (ad a)) / ws + (1 - Rabs (ad a)) * f / dt a in
            (n - 1) * cpow (Rabs (ad a)) (-1 / n) * wr a * dt a / val / ws
            + n * cpow (Rabs (ad a)) ((n - 1) / n) * dt a / val * (1 - wr a / val * deriv / ws) * x;
     dm_e := fun a i => (* 1389-1416 *)
       if Rle_dec (ad a) 0 then 0 else if Req_EM_T (wr a) 0 then 0
       else let val := wcrit log W (wr a / ws) in let deriv := dwcrit log W W' (wr a / ws) in
            n * cpow (Rabs (ad a)) ((n - 1) / n) / val * (1 - wr a / val * deriv / ws) * (1 - Rabs (ad a)) * as_ a i;
     dm_s := fun a i => (* 1418-1457 *)
       if Rle_dec (ad a) 0 then 0 else if Req_EM_T (wr a) 0 then 0
       else let val := wcrit log W (wr a / ws) in let deriv := dwcrit log W W' (wr a / ws) in
            n * cpow (Rabs (ad a)) ((n - 1) / n) / val * (1 - wr a / val * deriv / ws) * (1 - Rabs (ad a))
            * (wk_dp S a (ad a) i - (1 - Rabs (ad a)) * mv 6 (S (aT a)) (as_ a) i);
     dm_init := eps0 |}.

(** ** NEMLScalarDamagedModel_sd, src/damage.cxx:86-309.  History: damage first, then the base
    model's variables (NEMLDamagedModel_sd::populate_state, 17-22). *)
Definition eff_s (s : vec) (w : R) : vec := fun i => s i / (1 - w).
(** src/damage.cxx:172-226: the arguments of the calls of the damage model in RJ *)
Definition dargs_of (next past : load) (w wn : R) (s' sn' : vec) : dargs :=
  {| ad := w; adn := wn; ae := ld_e next; aen := ld_e past; as_ := s'; asn := sn'; aT := ld_T next; aTn := ld_T past; at_ := ld_t next; atn := ld_t past |}.
(** init_x 157-170 *)
Definition dmg_init (D : damage) (sn : vec) (wn : R) : vec :=
  fun i => if Nat.eqb i 6 then (if Req_EM_T wn 0 then dm_init D else wn) else sn i.
(** RJ 172-226 *)
Definition dmg_RJ (B : base) (D : damage) (next past : load) (sn hn : vec) (un pn : R) (x : vec) : option (vec * mat) :=
  let wn := hn 0%nat in let w := x 6%nat in
  match ba_update B next past (eff_s sn wn) (fun i => hn (S i)) un pn with
  | None => None
  | Some r =>
    let a := dargs_of next past w wn (eff_s x w) (eff_s sn wn) in
    let ws := dm_s D a in
    Some (fun i => if Nat.ltb i 6 then x i - (1 - w) * pr_s r i else w - dm D a,
          fun i j =>
            if Nat.ltb i 6 then (if Nat.eqb j 6 then pr_s r i else delta i j)
            else (if Nat.eqb j 6 then 1 - dm_d D a - dot 6 ws x / ((1 - w) * (1 - w)) else - ws j / (1 - w)))
  end.
(** tangent_ 249-285 *)
Definition dmg_tangent (inv : nat -> mat -> option mat) (D : damage) (a : dargs) (Ap : mat) : option mat :=
  let w := ad a in let s' := as_ a in
  let k1 := 1 - 1 / (1 - w) * dot 6 (dm_s D a) s' - dm_d D a in
  match inv 6%nat (fun i j => delta i j + s' i * (dm_s D a j / (k1 * (1 - w)))) with
  | None => None
  | Some K => Some (mm 6 K (fun i j => Ap i j * (1 - w) - s' i * (dm_e D a j / k1)))
  end.
(** ekill_update_ 287-309 *)
Definition ekill_update (C : R -> mat) (sfact : R) (next : load) (hn : vec) (un pn : R) : pres :=
  let A i j := C (ld_T next) i j / sfact in
  {| pr_s := mv 6 A (ld_e next); pr_h := fun i => if Nat.eqb i 0 then 1 else hn i; pr_A := A;
     pr_u := if Rlt_dec 0 un then 0 else un; pr_p := if Rlt_dec 0 un then pn + un else pn |}.
(** src/damage.cxx:37-50 (NEMLScalarDamagedModel_sd) *)
Record dsettings := { kd_ekill : bool; kd_dkill : R; kd_sfact : R }.
(** update_sd_actual 86-135 *)
Definition dmg_update (lsolve : mat -> vec -> option vec) (inv : nat -> mat -> option mat) (prm : sparams) (k : dsettings)
    (C : R -> mat) (B : base) (D : damage) (next past : load) (sn hn : vec) (un pn : R) : option pres :=
  let killed := fun w => andb (kd_ekill k) (if Rle_dec (kd_dkill k) w then true else false) in
  if killed (hn 0%nat) then Some (ekill_update C (kd_sfact k) next hn un pn)
  else match newton (vec_sys 7 (dmg_init D sn (hn 0%nat)) (dmg_RJ B D next past sn hn un pn) lsolve) prm with
  | Throw _ => None
  | Ok (x, _, _) =>
    match ba_update B next past (eff_s sn (hn 0%nat)) (fun i => hn (S i)) un pn with
    | None => None
    | Some r =>
      let w := x 6%nat in
      if killed w then Some (ekill_update C (kd_sfact k) next hn un pn)
      else let s i := (1 - w) * pr_s r i in
           match dmg_tangent inv D (dargs_of next past w (hn 0%nat) (eff_s s w) (eff_s sn (hn 0%nat))) (pr_A r) with
           | None => None
           | Some A => Some {| pr_s := s; pr_h := fun i => match i with O => w | S j => pr_h r j end; pr_A := A; pr_u := pr_u r; pr_p := pr_p r |}
           end
    end
  end.
(** get_damage 311-315, should_del_element 317-320 *)
Definition dmg_get (h : vec) : R := h 0%nat.
(** src/damage.cxx:317-320 (should_del_element) *)
Definition dmg_del (k : dsettings) (h : vec) : bool := if Rlt_dec (kd_dkill k) (dmg_get h) then true else false.

(** ** LarsonMillerRelation, src/larsonmiller.cxx:46-94; f, f': value and derivative of the table *)
Definition lm_sR (f : R -> R) (C t T : R) : R := cpow 10 (f (T * (C + log10 t))).
(** src/larsonmiller.cxx:46-94 *)
Definition lm_RJ (f f' : R -> R) (s : R) (x : vec) : option (vec * mat) :=
  Some (fun _ => log10 s - f (x 0%nat), fun _ _ => - f' (x 0%nat)).
(** src/larsonmiller.cxx:46-94 *)
Definition lm_solve (lsolve : mat -> vec -> option vec) (prm : sparams) (f f' : R -> R) (s : R) : option R :=
  match newton (vec_sys 1 (fun _ => 50000) (lm_RJ f f' s) lsolve) prm with Ok (x, _, _) => Some (x 0%nat) | Throw _ => None end.
(** src/larsonmiller.cxx:46-94 *)
Definition lm_tR (lsolve : mat -> vec -> option vec) (prm : sparams) (f f' : R -> R) (C s T : R) : option R :=
  match lm_solve lsolve prm f f' s with Some x => Some (cpow 10 (x / T - C)) | None => None end.
(** src/larsonmiller.cxx:46-94 *)
Definition lm_dtR (lsolve : mat -> vec -> option vec) (prm : sparams) (f f' : R -> R) (C s T : R) : option R :=
  match lm_solve lsolve prm f f' s with Some x => Some (cpow 10 (x / T - C) / (T * s * f' x)) | None => None end.
