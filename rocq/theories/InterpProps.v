(** C01, C02, C03, C49: interpolates and polynomial helpers. *)
From Verif Require Import Base.
From Verif Require Import Diff InterpModel InterpSpec InterpProofs.

(** C01: wherever an interpolate is smooth, derivative() is the derivative of
    value(). *)
Theorem C01_interpolate_derivative : forall i x, smooth i x ->
  exists f d, locally x (fun u => ivalue i u = Some (f u)) /\
    iderivative i x = Some d /\ is_derive f x d.
Proof. exact interp_deriv_ok. Qed.
Print Assumptions C01_interpolate_derivative.

(** A nested interpolate (MTS with a tabulated shear modulus, inside a generic
    piecewise interpolate) meets the hypotheses. *)
Example C01_example :
  smooth (IGen [50] [IPoly [1; 2; 3];
                     IMTS 10 1 1 2 1 1 (IPLin [0; 200] [400; 200])]) 100.
Proof.
  cbn. repeat split; try congruence; try lra;
    try (intros [H|[]]; lra); try (intros [H|[H|[]]]; lra).
  - exists 300. assert (E : 1 * 100 / (300 * (1 * 1 * 1) * 1) = / 3) by field. rewrite E.
    repeat split; try lra.
    + unfold piecewise. cbn. destruct (Rle_dec 100 0); [lra|]. destruct (Rle_dec 200 100); [lra|].
      destruct (Rle_dec 100 200); [|lra]. cbn. f_equal. field.
    + replace (1 / 1) with 1 by field. rewrite Rpower_1; lra.
Qed.

(** C02: a table interpolate reproduces its knots ... *)
Theorem C02_table_hits_knots : forall i pts vals k xk yk, is_table i pts vals ->
  nth_error pts k = Some xk -> nth_error vals k = Some yk -> ivalue i xk = Some yk.
Proof. exact table_knot. Qed.
Print Assumptions C02_table_hits_knots.

(** ... is constant outside its range ... *)
Theorem C02_table_clamps : forall i pts vals p0 v0 pN vN, is_table i pts vals ->
  hd_error pts = Some p0 -> hd_error vals = Some v0 ->
  hd_error (rev pts) = Some pN -> hd_error (rev vals) = Some vN ->
  (forall x, x <= p0 -> ivalue i x = Some v0) /\ (forall x, pN <= x -> ivalue i x = Some vN).
Proof. exact table_clamp. Qed.
Print Assumptions C02_table_clamps.

(** ... stays between neighbouring values (never overshoots) ... *)
Theorem C02_table_between : forall i pts vals k x1 x2 y1 y2 x, is_table i pts vals ->
  nth_error pts k = Some x1 -> nth_error pts (S k) = Some x2 ->
  nth_error vals k = Some y1 -> nth_error vals (S k) = Some y2 -> x1 <= x <= x2 ->
  exists v, ivalue i x = Some v /\ Rmin y1 y2 <= v <= Rmax y1 y2.
Proof. exact table_between. Qed.
Print Assumptions C02_table_between.

(** ... and is a continuous function of the whole real line. *)
Theorem C02_table_continuous : forall i pts vals, is_table i pts vals ->
  exists f, (forall x, ivalue i x = Some (f x)) /\ forall x, continuous f x.
Proof. exact table_cont. Qed.
Print Assumptions C02_table_continuous.

Example C02_example : is_table (ISemiLogX [1; 10; 100] [3; 5; 4]) [1; 10; 100] [3; 5; 4].
Proof.
  split; [reflexivity|]. split; [congruence|]. split; [cbn; lra|]. right. right.
  split; [reflexivity|]. repeat constructor; lra.
Qed.

(** C03: the validity flag of the three tables guarantees that no evaluation
    leaves the arrays ... *)
Theorem C03_valid_table_in_range : forall i x pts vals, pts <> [] -> ivalid i = true ->
  (i = IPLin pts vals \/ i = ILogLin pts vals \/ i = ISemiLogX pts vals) ->
  ivalue i x <> None /\ iderivative i x <> None.
Proof. exact valid_table_total. Qed.
Print Assumptions C03_valid_table_in_range.

(** ... but for the generic piecewise interpolate it does not: an object that
    reports itself valid reads past its function list. *)
Theorem C03_generic_piecewise_valid_refuted :
  exists pts fs x, ivalid (IGen pts fs) = true /\ ivalue (IGen pts fs) x = None /\
    (forall f, In f fs -> ivalue f x <> None).
Proof. exact gen_valid_out_of_range. Qed.
Print Assumptions C03_generic_piecewise_valid_refuted.

(** The size that does work is one more function than points (which the flag
    rejects). *)
Theorem C03_generic_piecewise_working_size : forall pts fs x,
  pts <> [] -> length fs = S (length pts) ->
  (forall f, In f fs -> ivalue f x <> None) -> ivalue (IGen pts fs) x <> None.
Proof. exact gen_total. Qed.
Print Assumptions C03_generic_piecewise_working_size.

Example C03_example : ivalid (IPLin [0; 1] [2; 3]) = true /\
  ivalid (IGen [0] [IConst 1; IConst 2]) = false.
Proof. unfold ivalid; simpl. destruct (Rlt_dec 1 0); [lra|]. split; reflexivity. Qed.

(** C49: polynomial evaluation, n-fold differentiation and construction from
    roots agree with their mathematical meaning. *)
Theorem C49_polyval : forall poly x, poly <> [] -> polyval poly x = Some (poly_spec poly x).
Proof. exact polyval_spec. Qed.
Print Assumptions C49_polyval.

Theorem C49_differentiate_poly : forall n coefs x, coefs <> [] ->
  exists d, differentiate_poly coefs n = Some d /\
    polyval d x = Some (Derive_n (poly_spec coefs) n x).
Proof. exact differentiate_poly_n. Qed.
Print Assumptions C49_differentiate_poly.

Theorem C49_poly_from_roots : forall roots x,
  polyval (poly_from_roots roots) x = Some (prod_roots roots x) /\
  length (poly_from_roots roots) = S (length roots) /\ hd 0 (poly_from_roots roots) = 1.
Proof. exact poly_from_roots_spec. Qed.
Print Assumptions C49_poly_from_roots.

Example C49_example : differentiate_poly [1; 2; 3; 4] 2 = Some [1 * INR 3 * INR 2; 2 * INR 2 * INR 1].
Proof. reflexivity. Qed.
