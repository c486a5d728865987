(** Independent specification for interpolates. *)
From Verif Require Import Base.
From Verif Require Import Diff InterpModel.

(** The polynomial with the given coefficients, highest power first, as a sum
    of powers. *)
Fixpoint poly_spec (coefs : list R) (x : R) : R :=
  match coefs with
  | [] => 0
  | a :: rest => a * x ^ length rest + poly_spec rest x
  end.

Fixpoint increasing (l : list R) : Prop :=
  match l with
  | a :: ((b :: _) as rest) => a < b /\ increasing rest
  | _ => True
  end.

(** Smooth points of an interpolate: where its derivative is claimed.  For
    tables: strictly between or outside the knots. *)
Fixpoint smooth (i : interp) (x : R) : Prop :=
  match i with
  | IPoly coefs => coefs <> []
  | IPLin pts vals => length pts = length vals /\ pts <> [] /\ increasing pts /\ ~ In x pts
  | IGen pts fs =>
    pts <> [] /\ increasing pts /\ ~ In x pts /\ length fs = S (length pts) /\
    (fix all (fs : list interp) : Prop :=
       match fs with [] => True | f :: r => smooth f x /\ all r end) fs
  | ILogLin pts vals =>
    length pts = length vals /\ pts <> [] /\ increasing pts /\ ~ In x pts /\
    List.Forall (fun v => 0 < v) vals
  | ISemiLogX pts vals =>
    length pts = length vals /\ pts <> [] /\ increasing pts /\ ~ In x pts /\
    List.Forall (fun v => 0 < v) pts
  | IConst _ => True
  | IExp _ _ => x <> 0
  | IPow _ _ => 0 < x
  | IMTSShear _ _ T0 => x <> 0 /\ T0 <> 0
  | IMTS tau0 g0 q p k b mu =>
    smooth mu x /\ x <> 0 /\ q <> 0 /\ p <> 0 /\ b <> 0 /\ g0 <> 0 /\
    exists m, ivalue mu x = Some m /\ m <> 0 /\
      0 < k * x / (m * (b * b * b) * g0) /\
      Rpower (k * x / (m * (b * b * b) * g0)) (1 / q) < 1
  end.

(** f is an everywhere-defined description of the interpolate near x *)
Definition describes (i : interp) (x : R) (f : R -> R) : Prop :=
  locally x (fun u => ivalue i u = Some (f u)).

(** The monic polynomial with the given roots, as a product. *)
Fixpoint prod_roots (roots : list R) (x : R) : R :=
  match roots with [] => 1 | r :: rest => (x - r) * prod_roots rest x end.

(** A table interpolate is one of the three good tables. *)
Definition is_table (i : interp) (pts vals : list R) : Prop :=
  length pts = length vals /\ pts <> [] /\ increasing pts /\
  (i = IPLin pts vals \/
   (i = ILogLin pts vals /\ List.Forall (fun v => 0 < v) vals) \/
   (i = ISemiLogX pts vals /\ List.Forall (fun x => 0 < x) pts)).

