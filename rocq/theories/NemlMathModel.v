(** Model of src/math/nemlmath.cxx: Mandel and skew notation, the fourth order
    conversions, the Truesdell rate matrices, and the small helpers.

    Arrays are index functions (Base.v); a flat 3x3 array has entry (i,j) at 3i+j,
    a flat 3x3x3x3 array entry (i,j,k,l) at 27i+9j+3k+l.  The long tables are
    transcribed from the C text entry by entry; entries outside the array are 0. *)
From Coq Require Import String ZArith.
From Verif Require Import Base.

(** sqrt(2), written out in src/math/nemlmath.cxx:740-761 *)
Definition r2 : R := sqrt 2.

(** src/math/nemlmath.cxx:740-748 *)
Definition sym (A : vec) : vec := fun k =>
  match k with
  | 0 => (A 0%nat)
  | 1 => (A 4%nat)
  | 2 => (A 8%nat)
  | 3 => r2 * (A 5%nat)
  | 4 => r2 * (A 2%nat)
  | 5 => r2 * (A 1%nat)
  | _ => 0
  end.

(** src/math/nemlmath.cxx:750-761 *)
Definition usym (v : vec) : vec := fun k =>
  match k with
  | 0 => (v 0%nat)
  | 1 => (v 5%nat) / r2
  | 2 => (v 4%nat) / r2
  | 3 => (v 5%nat) / r2
  | 4 => (v 1%nat)
  | 5 => (v 3%nat) / r2
  | 6 => (v 4%nat) / r2
  | 7 => (v 3%nat) / r2
  | 8 => (v 2%nat)
  | _ => 0
  end.

(** src/math/nemlmath.cxx:763-768 *)
Definition skew (A : vec) : vec := fun k =>
  match k with
  | 0 => -(A 5%nat)
  | 1 => (A 2%nat)
  | 2 => -(A 1%nat)
  | _ => 0
  end.

(** src/math/nemlmath.cxx:770-781 *)
Definition uskew (v : vec) : vec := fun k =>
  match k with
  | 0 => 0
  | 1 => -(v 2%nat)
  | 2 => (v 1%nat)
  | 3 => (v 2%nat)
  | 4 => 0
  | 5 => -(v 0%nat)
  | 6 => -(v 1%nat)
  | 7 => (v 0%nat)
  | 8 => 0
  | _ => 0
  end.

(** src/math/nemlmath.cxx:498-536 *)
Definition full2mandel (A : vec) : vec := fun k =>
  match k with
  | 0 => (A 0%nat)
  | 1 => (A 4%nat)
  | 2 => (A 8%nat)
  | 3 => r2*(A 5%nat)
  | 4 => r2*(A 2%nat)
  | 5 => r2*(A 1%nat)
  | 6 => (A 36%nat)
  | 7 => (A 40%nat)
  | 8 => (A 44%nat)
  | 9 => r2*(A 41%nat)
  | 10 => r2*(A 38%nat)
  | 11 => r2*(A 37%nat)
  | 12 => (A 72%nat)
  | 13 => (A 76%nat)
  | 14 => (A 80%nat)
  | 15 => r2*(A 77%nat)
  | 16 => r2*(A 74%nat)
  | 17 => r2*(A 73%nat)
  | 18 => r2*(A 45%nat)
  | 19 => r2*(A 49%nat)
  | 20 => r2*(A 53%nat)
  | 21 => 2*(A 50%nat)
  | 22 => 2*(A 47%nat)
  | 23 => 2*(A 46%nat)
  | 24 => r2*(A 18%nat)
  | 25 => r2*(A 22%nat)
  | 26 => r2*(A 26%nat)
  | 27 => 2*(A 23%nat)
  | 28 => 2*(A 20%nat)
  | 29 => 2*(A 19%nat)
  | 30 => r2*(A 9%nat)
  | 31 => r2*(A 13%nat)
  | 32 => r2*(A 17%nat)
  | 33 => 2*(A 14%nat)
  | 34 => 2*(A 11%nat)
  | 35 => 2*(A 10%nat)
  | _ => 0
  end.

(** src/math/nemlmath.cxx:538-621 *)
Definition mandel2full (M : vec) : vec := fun k =>
  match k with
  | 0 => (M 0%nat)
  | 1 => r2*(M 5%nat)/2
  | 2 => r2*(M 4%nat)/2
  | 3 => r2*(M 5%nat)/2
  | 4 => (M 1%nat)
  | 5 => r2*(M 3%nat)/2
  | 6 => r2*(M 4%nat)/2
  | 7 => r2*(M 3%nat)/2
  | 8 => (M 2%nat)
  | 9 => r2*(M 30%nat)/2
  | 10 => (M 35%nat)/2
  | 11 => (M 34%nat)/2
  | 12 => (M 35%nat)/2
  | 13 => r2*(M 31%nat)/2
  | 14 => (M 33%nat)/2
  | 15 => (M 34%nat)/2
  | 16 => (M 33%nat)/2
  | 17 => r2*(M 32%nat)/2
  | 18 => r2*(M 24%nat)/2
  | 19 => (M 29%nat)/2
  | 20 => (M 28%nat)/2
  | 21 => (M 29%nat)/2
  | 22 => r2*(M 25%nat)/2
  | 23 => (M 27%nat)/2
  | 24 => (M 28%nat)/2
  | 25 => (M 27%nat)/2
  | 26 => r2*(M 26%nat)/2
  | 27 => r2*(M 30%nat)/2
  | 28 => (M 35%nat)/2
  | 29 => (M 34%nat)/2
  | 30 => (M 35%nat)/2
  | 31 => r2*(M 31%nat)/2
  | 32 => (M 33%nat)/2
  | 33 => (M 34%nat)/2
  | 34 => (M 33%nat)/2
  | 35 => r2*(M 32%nat)/2
  | 36 => (M 6%nat)
  | 37 => r2*(M 11%nat)/2
  | 38 => r2*(M 10%nat)/2
  | 39 => r2*(M 11%nat)/2
  | 40 => (M 7%nat)
  | 41 => r2*(M 9%nat)/2
  | 42 => r2*(M 10%nat)/2
  | 43 => r2*(M 9%nat)/2
  | 44 => (M 8%nat)
  | 45 => r2*(M 18%nat)/2
  | 46 => (M 23%nat)/2
  | 47 => (M 22%nat)/2
  | 48 => (M 23%nat)/2
  | 49 => r2*(M 19%nat)/2
  | 50 => (M 21%nat)/2
  | 51 => (M 22%nat)/2
  | 52 => (M 21%nat)/2
  | 53 => r2*(M 20%nat)/2
  | 54 => r2*(M 24%nat)/2
  | 55 => (M 29%nat)/2
  | 56 => (M 28%nat)/2
  | 57 => (M 29%nat)/2
  | 58 => r2*(M 25%nat)/2
  | 59 => (M 27%nat)/2
  | 60 => (M 28%nat)/2
  | 61 => (M 27%nat)/2
  | 62 => r2*(M 26%nat)/2
  | 63 => r2*(M 18%nat)/2
  | 64 => (M 23%nat)/2
  | 65 => (M 22%nat)/2
  | 66 => (M 23%nat)/2
  | 67 => r2*(M 19%nat)/2
  | 68 => (M 21%nat)/2
  | 69 => (M 22%nat)/2
  | 70 => (M 21%nat)/2
  | 71 => r2*(M 20%nat)/2
  | 72 => (M 12%nat)
  | 73 => r2*(M 17%nat)/2
  | 74 => r2*(M 16%nat)/2
  | 75 => r2*(M 17%nat)/2
  | 76 => (M 13%nat)
  | 77 => r2*(M 15%nat)/2
  | 78 => r2*(M 16%nat)/2
  | 79 => r2*(M 15%nat)/2
  | 80 => (M 14%nat)
  | _ => 0
  end.

(** src/math/nemlmath.cxx:284-304 *)
Definition full2skew (A : vec) : vec := fun k =>
  match k with
  | 0 => -(A 5%nat)
  | 1 => (A 2%nat)
  | 2 => -(A 1%nat)
  | 3 => -(A 41%nat)
  | 4 => (A 38%nat)
  | 5 => -(A 37%nat)
  | 6 => -(A 77%nat)
  | 7 => (A 74%nat)
  | 8 => -(A 73%nat)
  | 9 => -r2*(A 50%nat)
  | 10 => r2*(A 47%nat)
  | 11 => -r2*(A 46%nat)
  | 12 => -r2*(A 23%nat)
  | 13 => r2*(A 20%nat)
  | 14 => -r2*(A 19%nat)
  | 15 => -r2*(A 14%nat)
  | 16 => r2*(A 11%nat)
  | 17 => -r2*(A 10%nat)
  | _ => 0
  end.

(** src/math/nemlmath.cxx:306-389 *)
Definition skew2full (M : vec) : vec := fun k =>
  match k with
  | 0 => 0
  | 1 => -(M 2%nat)
  | 2 => (M 1%nat)
  | 3 => (M 2%nat)
  | 4 => 0
  | 5 => -(M 0%nat)
  | 6 => -(M 1%nat)
  | 7 => (M 0%nat)
  | 8 => 0
  | 9 => 0
  | 10 => -r2*(M 17%nat)/2
  | 11 => r2*(M 16%nat)/2
  | 12 => r2*(M 17%nat)/2
  | 13 => 0
  | 14 => -r2*(M 15%nat)/2
  | 15 => -r2*(M 16%nat)/2
  | 16 => r2*(M 15%nat)/2
  | 17 => 0
  | 18 => 0
  | 19 => -r2*(M 14%nat)/2
  | 20 => r2*(M 13%nat)/2
  | 21 => r2*(M 14%nat)/2
  | 22 => 0
  | 23 => -r2*(M 12%nat)/2
  | 24 => -r2*(M 13%nat)/2
  | 25 => r2*(M 12%nat)/2
  | 26 => 0
  | 27 => 0
  | 28 => -r2*(M 17%nat)/2
  | 29 => r2*(M 16%nat)/2
  | 30 => r2*(M 17%nat)/2
  | 31 => 0
  | 32 => -r2*(M 15%nat)/2
  | 33 => -r2*(M 16%nat)/2
  | 34 => r2*(M 15%nat)/2
  | 35 => 0
  | 36 => 0
  | 37 => -(M 5%nat)
  | 38 => (M 4%nat)
  | 39 => (M 5%nat)
  | 40 => 0
  | 41 => -(M 3%nat)
  | 42 => -(M 4%nat)
  | 43 => (M 3%nat)
  | 44 => 0
  | 45 => 0
  | 46 => -r2*(M 11%nat)/2
  | 47 => r2*(M 10%nat)/2
  | 48 => r2*(M 11%nat)/2
  | 49 => 0
  | 50 => -r2*(M 9%nat)/2
  | 51 => -r2*(M 10%nat)/2
  | 52 => r2*(M 9%nat)/2
  | 53 => 0
  | 54 => 0
  | 55 => -r2*(M 14%nat)/2
  | 56 => r2*(M 13%nat)/2
  | 57 => r2*(M 14%nat)/2
  | 58 => 0
  | 59 => -r2*(M 12%nat)/2
  | 60 => -r2*(M 13%nat)/2
  | 61 => r2*(M 12%nat)/2
  | 62 => 0
  | 63 => 0
  | 64 => -r2*(M 11%nat)/2
  | 65 => r2*(M 10%nat)/2
  | 66 => r2*(M 11%nat)/2
  | 67 => 0
  | 68 => -r2*(M 9%nat)/2
  | 69 => -r2*(M 10%nat)/2
  | 70 => r2*(M 9%nat)/2
  | 71 => 0
  | 72 => 0
  | 73 => -(M 8%nat)
  | 74 => (M 7%nat)
  | 75 => (M 8%nat)
  | 76 => 0
  | 77 => -(M 6%nat)
  | 78 => -(M 7%nat)
  | 79 => (M 6%nat)
  | 80 => 0
  | _ => 0
  end.

(** src/math/nemlmath.cxx:391-411 *)
Definition full2wws (A : vec) : vec := fun k =>
  match k with
  | 0 => -(A 45%nat)
  | 1 => -(A 49%nat)
  | 2 => -(A 53%nat)
  | 3 => -r2*(A 50%nat)
  | 4 => -r2*(A 47%nat)
  | 5 => -r2*(A 46%nat)
  | 6 => (A 18%nat)
  | 7 => (A 22%nat)
  | 8 => (A 26%nat)
  | 9 => r2*(A 23%nat)
  | 10 => r2*(A 20%nat)
  | 11 => r2*(A 19%nat)
  | 12 => -(A 9%nat)
  | 13 => -(A 13%nat)
  | 14 => -(A 17%nat)
  | 15 => -r2*(A 14%nat)
  | 16 => -r2*(A 11%nat)
  | 17 => -r2*(A 10%nat)
  | _ => 0
  end.

(** src/math/nemlmath.cxx:413-496 *)
Definition wws2full (M : vec) : vec := fun k =>
  match k with
  | 0 => 0
  | 1 => 0
  | 2 => 0
  | 3 => 0
  | 4 => 0
  | 5 => 0
  | 6 => 0
  | 7 => 0
  | 8 => 0
  | 9 => -(M 12%nat)
  | 10 => -r2*(M 17%nat)/2
  | 11 => -r2*(M 16%nat)/2
  | 12 => -r2*(M 17%nat)/2
  | 13 => -(M 13%nat)
  | 14 => -r2*(M 15%nat)/2
  | 15 => -r2*(M 16%nat)/2
  | 16 => -r2*(M 15%nat)/2
  | 17 => -(M 14%nat)
  | 18 => (M 6%nat)
  | 19 => r2*(M 11%nat)/2
  | 20 => r2*(M 10%nat)/2
  | 21 => r2*(M 11%nat)/2
  | 22 => (M 7%nat)
  | 23 => r2*(M 9%nat)/2
  | 24 => r2*(M 10%nat)/2
  | 25 => r2*(M 9%nat)/2
  | 26 => (M 8%nat)
  | 27 => (M 12%nat)
  | 28 => r2*(M 17%nat)/2
  | 29 => r2*(M 16%nat)/2
  | 30 => r2*(M 17%nat)/2
  | 31 => (M 13%nat)
  | 32 => r2*(M 15%nat)/2
  | 33 => r2*(M 16%nat)/2
  | 34 => r2*(M 15%nat)/2
  | 35 => (M 14%nat)
  | 36 => 0
  | 37 => 0
  | 38 => 0
  | 39 => 0
  | 40 => 0
  | 41 => 0
  | 42 => 0
  | 43 => 0
  | 44 => 0
  | 45 => -(M 0%nat)
  | 46 => -r2*(M 5%nat)/2
  | 47 => -r2*(M 4%nat)/2
  | 48 => -r2*(M 5%nat)/2
  | 49 => -(M 1%nat)
  | 50 => -r2*(M 3%nat)/2
  | 51 => -r2*(M 4%nat)/2
  | 52 => -r2*(M 3%nat)/2
  | 53 => -(M 2%nat)
  | 54 => -(M 6%nat)
  | 55 => -r2*(M 11%nat)/2
  | 56 => -r2*(M 10%nat)/2
  | 57 => -r2*(M 11%nat)/2
  | 58 => -(M 7%nat)
  | 59 => -r2*(M 9%nat)/2
  | 60 => -r2*(M 10%nat)/2
  | 61 => -r2*(M 9%nat)/2
  | 62 => -(M 8%nat)
  | 63 => (M 0%nat)
  | 64 => r2*(M 5%nat)/2
  | 65 => r2*(M 4%nat)/2
  | 66 => r2*(M 5%nat)/2
  | 67 => (M 1%nat)
  | 68 => r2*(M 3%nat)/2
  | 69 => r2*(M 4%nat)/2
  | 70 => r2*(M 3%nat)/2
  | 71 => (M 2%nat)
  | 72 => 0
  | 73 => 0
  | 74 => 0
  | 75 => 0
  | 76 => 0
  | 77 => 0
  | 78 => 0
  | 79 => 0
  | 80 => 0
  | _ => 0
  end.

(** src/math/nemlmath.cxx:12-50 *)
Definition SymSymR4SkewmSkewSymR4SymR4 (M W : vec) : vec := fun k =>
  match k with
  | 0 => r2*(-(M 24%nat)*(W 1%nat) + (M 30%nat)*(W 2%nat))
  | 1 => r2*(-(M 25%nat)*(W 1%nat) + (M 31%nat)*(W 2%nat))
  | 2 => r2*(-(M 26%nat)*(W 1%nat) + (M 32%nat)*(W 2%nat))
  | 3 => r2*(-(M 27%nat)*(W 1%nat) + (M 33%nat)*(W 2%nat))
  | 4 => r2*(-(M 28%nat)*(W 1%nat) + (M 34%nat)*(W 2%nat))
  | 5 => r2*(-(M 29%nat)*(W 1%nat) + (M 35%nat)*(W 2%nat))
  | 6 => r2*((M 18%nat)*(W 0%nat) - (M 30%nat)*(W 2%nat))
  | 7 => r2*((M 19%nat)*(W 0%nat) - (M 31%nat)*(W 2%nat))
  | 8 => r2*((M 20%nat)*(W 0%nat) - (M 32%nat)*(W 2%nat))
  | 9 => r2*((M 21%nat)*(W 0%nat) - (M 33%nat)*(W 2%nat))
  | 10 => r2*((M 22%nat)*(W 0%nat) - (M 34%nat)*(W 2%nat))
  | 11 => r2*((M 23%nat)*(W 0%nat) - (M 35%nat)*(W 2%nat))
  | 12 => r2*(-(M 18%nat)*(W 0%nat) + (M 24%nat)*(W 1%nat))
  | 13 => r2*(-(M 19%nat)*(W 0%nat) + (M 25%nat)*(W 1%nat))
  | 14 => r2*(-(M 20%nat)*(W 0%nat) + (M 26%nat)*(W 1%nat))
  | 15 => r2*(-(M 21%nat)*(W 0%nat) + (M 27%nat)*(W 1%nat))
  | 16 => r2*(-(M 22%nat)*(W 0%nat) + (M 28%nat)*(W 1%nat))
  | 17 => r2*(-(M 23%nat)*(W 0%nat) + (M 29%nat)*(W 1%nat))
  | 18 => r2*(M 12%nat)*(W 0%nat) - (M 24%nat)*(W 2%nat) + (M 30%nat)*(W 1%nat) - r2*(M 6%nat)*(W 0%nat)
  | 19 => r2*(M 13%nat)*(W 0%nat) - (M 25%nat)*(W 2%nat) + (M 31%nat)*(W 1%nat) - r2*(M 7%nat)*(W 0%nat)
  | 20 => r2*(M 14%nat)*(W 0%nat) - (M 26%nat)*(W 2%nat) + (M 32%nat)*(W 1%nat) - r2*(M 8%nat)*(W 0%nat)
  | 21 => r2*(M 15%nat)*(W 0%nat) - (M 27%nat)*(W 2%nat) + (M 33%nat)*(W 1%nat) - r2*(M 9%nat)*(W 0%nat)
  | 22 => -r2*(M 10%nat)*(W 0%nat) + r2*(M 16%nat)*(W 0%nat) - (M 28%nat)*(W 2%nat) + (M 34%nat)*(W 1%nat)
  | 23 => -r2*(M 11%nat)*(W 0%nat) + r2*(M 17%nat)*(W 0%nat) - (M 29%nat)*(W 2%nat) + (M 35%nat)*(W 1%nat)
  | 24 => r2*(M 0%nat)*(W 1%nat) - r2*(M 12%nat)*(W 1%nat) + (M 18%nat)*(W 2%nat) - (M 30%nat)*(W 0%nat)
  | 25 => -r2*(M 13%nat)*(W 1%nat) + (M 19%nat)*(W 2%nat) + r2*(M 1%nat)*(W 1%nat) - (M 31%nat)*(W 0%nat)
  | 26 => -r2*(M 14%nat)*(W 1%nat) + (M 20%nat)*(W 2%nat) + r2*(M 2%nat)*(W 1%nat) - (M 32%nat)*(W 0%nat)
  | 27 => -r2*(M 15%nat)*(W 1%nat) + (M 21%nat)*(W 2%nat) - (M 33%nat)*(W 0%nat) + r2*(M 3%nat)*(W 1%nat)
  | 28 => -r2*(M 16%nat)*(W 1%nat) + (M 22%nat)*(W 2%nat) - (M 34%nat)*(W 0%nat) + r2*(M 4%nat)*(W 1%nat)
  | 29 => -r2*(M 17%nat)*(W 1%nat) + (M 23%nat)*(W 2%nat) - (M 35%nat)*(W 0%nat) + r2*(M 5%nat)*(W 1%nat)
  | 30 => -r2*(M 0%nat)*(W 2%nat) - (M 18%nat)*(W 1%nat) + (M 24%nat)*(W 0%nat) + r2*(M 6%nat)*(W 2%nat)
  | 31 => -(M 19%nat)*(W 1%nat) - r2*(M 1%nat)*(W 2%nat) + (M 25%nat)*(W 0%nat) + r2*(M 7%nat)*(W 2%nat)
  | 32 => -(M 20%nat)*(W 1%nat) + (M 26%nat)*(W 0%nat) - r2*(M 2%nat)*(W 2%nat) + r2*(M 8%nat)*(W 2%nat)
  | 33 => -(M 21%nat)*(W 1%nat) + (M 27%nat)*(W 0%nat) - r2*(M 3%nat)*(W 2%nat) + r2*(M 9%nat)*(W 2%nat)
  | 34 => r2*(M 10%nat)*(W 2%nat) - (M 22%nat)*(W 1%nat) + (M 28%nat)*(W 0%nat) - r2*(M 4%nat)*(W 2%nat)
  | 35 => r2*(M 11%nat)*(W 2%nat) - (M 23%nat)*(W 1%nat) + (M 29%nat)*(W 0%nat) - r2*(M 5%nat)*(W 2%nat)
  | _ => 0
  end.

(** src/math/nemlmath.cxx:52-90 *)
Definition SymSkewR4SymmSkewSymR4SymR4 (D M : vec) : vec := fun k =>
  match k with
  | 0 => r2*(-(D 4%nat)*(M 6%nat) + (D 5%nat)*(M 12%nat))
  | 1 => r2*(-(D 4%nat)*(M 7%nat) + (D 5%nat)*(M 13%nat))
  | 2 => r2*(-(D 4%nat)*(M 8%nat) + (D 5%nat)*(M 14%nat))
  | 3 => r2*(-(D 4%nat)*(M 9%nat) + (D 5%nat)*(M 15%nat))
  | 4 => r2*(-(D 4%nat)*(M 10%nat) + (D 5%nat)*(M 16%nat))
  | 5 => r2*(-(D 4%nat)*(M 11%nat) + (D 5%nat)*(M 17%nat))
  | 6 => r2*((D 3%nat)*(M 0%nat) - (D 5%nat)*(M 12%nat))
  | 7 => r2*((D 3%nat)*(M 1%nat) - (D 5%nat)*(M 13%nat))
  | 8 => r2*((D 3%nat)*(M 2%nat) - (D 5%nat)*(M 14%nat))
  | 9 => r2*((D 3%nat)*(M 3%nat) - (D 5%nat)*(M 15%nat))
  | 10 => r2*((D 3%nat)*(M 4%nat) - (D 5%nat)*(M 16%nat))
  | 11 => r2*((D 3%nat)*(M 5%nat) - (D 5%nat)*(M 17%nat))
  | 12 => r2*(-(D 3%nat)*(M 0%nat) + (D 4%nat)*(M 6%nat))
  | 13 => r2*(-(D 3%nat)*(M 1%nat) + (D 4%nat)*(M 7%nat))
  | 14 => r2*(-(D 3%nat)*(M 2%nat) + (D 4%nat)*(M 8%nat))
  | 15 => r2*(-(D 3%nat)*(M 3%nat) + (D 4%nat)*(M 9%nat))
  | 16 => r2*(-(D 3%nat)*(M 4%nat) + (D 4%nat)*(M 10%nat))
  | 17 => r2*(-(D 3%nat)*(M 5%nat) + (D 4%nat)*(M 11%nat))
  | 18 => -r2*(D 1%nat)*(M 0%nat) + r2*(D 2%nat)*(M 0%nat) - (D 4%nat)*(M 12%nat) + (D 5%nat)*(M 6%nat)
  | 19 => -r2*(D 1%nat)*(M 1%nat) + r2*(D 2%nat)*(M 1%nat) - (D 4%nat)*(M 13%nat) + (D 5%nat)*(M 7%nat)
  | 20 => -r2*(D 1%nat)*(M 2%nat) + r2*(D 2%nat)*(M 2%nat) - (D 4%nat)*(M 14%nat) + (D 5%nat)*(M 8%nat)
  | 21 => -r2*(D 1%nat)*(M 3%nat) + r2*(D 2%nat)*(M 3%nat) - (D 4%nat)*(M 15%nat) + (D 5%nat)*(M 9%nat)
  | 22 => -r2*(D 1%nat)*(M 4%nat) + r2*(D 2%nat)*(M 4%nat) - (D 4%nat)*(M 16%nat) + (D 5%nat)*(M 10%nat)
  | 23 => -r2*(D 1%nat)*(M 5%nat) + r2*(D 2%nat)*(M 5%nat) - (D 4%nat)*(M 17%nat) + (D 5%nat)*(M 11%nat)
  | 24 => r2*(D 0%nat)*(M 6%nat) - r2*(D 2%nat)*(M 6%nat) + (D 3%nat)*(M 12%nat) - (D 5%nat)*(M 0%nat)
  | 25 => r2*(D 0%nat)*(M 7%nat) - r2*(D 2%nat)*(M 7%nat) + (D 3%nat)*(M 13%nat) - (D 5%nat)*(M 1%nat)
  | 26 => r2*(D 0%nat)*(M 8%nat) - r2*(D 2%nat)*(M 8%nat) + (D 3%nat)*(M 14%nat) - (D 5%nat)*(M 2%nat)
  | 27 => r2*(D 0%nat)*(M 9%nat) - r2*(D 2%nat)*(M 9%nat) + (D 3%nat)*(M 15%nat) - (D 5%nat)*(M 3%nat)
  | 28 => r2*(D 0%nat)*(M 10%nat) - r2*(D 2%nat)*(M 10%nat) + (D 3%nat)*(M 16%nat) - (D 5%nat)*(M 4%nat)
  | 29 => r2*(D 0%nat)*(M 11%nat) - r2*(D 2%nat)*(M 11%nat) + (D 3%nat)*(M 17%nat) - (D 5%nat)*(M 5%nat)
  | 30 => -r2*(D 0%nat)*(M 12%nat) + r2*(D 1%nat)*(M 12%nat) - (D 3%nat)*(M 6%nat) + (D 4%nat)*(M 0%nat)
  | 31 => -r2*(D 0%nat)*(M 13%nat) + r2*(D 1%nat)*(M 13%nat) - (D 3%nat)*(M 7%nat) + (D 4%nat)*(M 1%nat)
  | 32 => -r2*(D 0%nat)*(M 14%nat) + r2*(D 1%nat)*(M 14%nat) - (D 3%nat)*(M 8%nat) + (D 4%nat)*(M 2%nat)
  | 33 => -r2*(D 0%nat)*(M 15%nat) + r2*(D 1%nat)*(M 15%nat) - (D 3%nat)*(M 9%nat) + (D 4%nat)*(M 3%nat)
  | 34 => -r2*(D 0%nat)*(M 16%nat) + r2*(D 1%nat)*(M 16%nat) - (D 3%nat)*(M 10%nat) + (D 4%nat)*(M 4%nat)
  | 35 => -r2*(D 0%nat)*(M 17%nat) + r2*(D 1%nat)*(M 17%nat) - (D 3%nat)*(M 11%nat) + (D 4%nat)*(M 5%nat)
  | _ => 0
  end.

(** src/math/nemlmath.cxx:92-112 *)
Definition SpecialSymSymR4Sym (D M : vec) : vec := fun k =>
  match k with
  | 0 => -r2*(D 1%nat)*(M 3%nat)/2 + r2*(D 2%nat)*(M 3%nat)/2 + r2*(D 3%nat)*(M 1%nat)/2 - r2*(D 3%nat)*(M 2%nat)/2 + (D 4%nat)*(M 5%nat)/2 - (D 5%nat)*(M 4%nat)/2
  | 1 => r2*(D 0%nat)*(M 4%nat)/2 - r2*(D 2%nat)*(M 4%nat)/2 - (D 3%nat)*(M 5%nat)/2 - r2*(D 4%nat)*(M 0%nat)/2 + r2*(D 4%nat)*(M 2%nat)/2 + (D 5%nat)*(M 3%nat)/2
  | 2 => -r2*(D 0%nat)*(M 5%nat)/2 + r2*(D 1%nat)*(M 5%nat)/2 + (D 3%nat)*(M 4%nat)/2 - (D 4%nat)*(M 3%nat)/2 + r2*(D 5%nat)*(M 0%nat)/2 - r2*(D 5%nat)*(M 1%nat)/2
  | 3 => -r2*(D 1%nat)*(M 9%nat)/2 + r2*(D 2%nat)*(M 9%nat)/2 + r2*(D 3%nat)*(M 7%nat)/2 - r2*(D 3%nat)*(M 8%nat)/2 + (D 4%nat)*(M 11%nat)/2 - (D 5%nat)*(M 10%nat)/2
  | 4 => r2*(D 0%nat)*(M 10%nat)/2 - r2*(D 2%nat)*(M 10%nat)/2 - (D 3%nat)*(M 11%nat)/2 - r2*(D 4%nat)*(M 6%nat)/2 + r2*(D 4%nat)*(M 8%nat)/2 + (D 5%nat)*(M 9%nat)/2
  | 5 => -r2*(D 0%nat)*(M 11%nat)/2 + r2*(D 1%nat)*(M 11%nat)/2 + (D 3%nat)*(M 10%nat)/2 - (D 4%nat)*(M 9%nat)/2 + r2*(D 5%nat)*(M 6%nat)/2 - r2*(D 5%nat)*(M 7%nat)/2
  | 6 => -r2*(D 1%nat)*(M 15%nat)/2 + r2*(D 2%nat)*(M 15%nat)/2 + r2*(D 3%nat)*(M 13%nat)/2 - r2*(D 3%nat)*(M 14%nat)/2 + (D 4%nat)*(M 17%nat)/2 - (D 5%nat)*(M 16%nat)/2
  | 7 => r2*(D 0%nat)*(M 16%nat)/2 - r2*(D 2%nat)*(M 16%nat)/2 - (D 3%nat)*(M 17%nat)/2 - r2*(D 4%nat)*(M 12%nat)/2 + r2*(D 4%nat)*(M 14%nat)/2 + (D 5%nat)*(M 15%nat)/2
  | 8 => -r2*(D 0%nat)*(M 17%nat)/2 + r2*(D 1%nat)*(M 17%nat)/2 + (D 3%nat)*(M 16%nat)/2 - (D 4%nat)*(M 15%nat)/2 + r2*(D 5%nat)*(M 12%nat)/2 - r2*(D 5%nat)*(M 13%nat)/2
  | 9 => -r2*(D 1%nat)*(M 21%nat)/2 + r2*(D 2%nat)*(M 21%nat)/2 + r2*(D 3%nat)*(M 19%nat)/2 - r2*(D 3%nat)*(M 20%nat)/2 + (D 4%nat)*(M 23%nat)/2 - (D 5%nat)*(M 22%nat)/2
  | 10 => r2*(D 0%nat)*(M 22%nat)/2 - r2*(D 2%nat)*(M 22%nat)/2 - (D 3%nat)*(M 23%nat)/2 - r2*(D 4%nat)*(M 18%nat)/2 + r2*(D 4%nat)*(M 20%nat)/2 + (D 5%nat)*(M 21%nat)/2
  | 11 => -r2*(D 0%nat)*(M 23%nat)/2 + r2*(D 1%nat)*(M 23%nat)/2 + (D 3%nat)*(M 22%nat)/2 - (D 4%nat)*(M 21%nat)/2 + r2*(D 5%nat)*(M 18%nat)/2 - r2*(D 5%nat)*(M 19%nat)/2
  | 12 => -r2*(D 1%nat)*(M 27%nat)/2 + r2*(D 2%nat)*(M 27%nat)/2 + r2*(D 3%nat)*(M 25%nat)/2 - r2*(D 3%nat)*(M 26%nat)/2 + (D 4%nat)*(M 29%nat)/2 - (D 5%nat)*(M 28%nat)/2
  | 13 => r2*(D 0%nat)*(M 28%nat)/2 - r2*(D 2%nat)*(M 28%nat)/2 - (D 3%nat)*(M 29%nat)/2 - r2*(D 4%nat)*(M 24%nat)/2 + r2*(D 4%nat)*(M 26%nat)/2 + (D 5%nat)*(M 27%nat)/2
  | 14 => -r2*(D 0%nat)*(M 29%nat)/2 + r2*(D 1%nat)*(M 29%nat)/2 + (D 3%nat)*(M 28%nat)/2 - (D 4%nat)*(M 27%nat)/2 + r2*(D 5%nat)*(M 24%nat)/2 - r2*(D 5%nat)*(M 25%nat)/2
  | 15 => -r2*(D 1%nat)*(M 33%nat)/2 + r2*(D 2%nat)*(M 33%nat)/2 + r2*(D 3%nat)*(M 31%nat)/2 - r2*(D 3%nat)*(M 32%nat)/2 + (D 4%nat)*(M 35%nat)/2 - (D 5%nat)*(M 34%nat)/2
  | 16 => r2*(D 0%nat)*(M 34%nat)/2 - r2*(D 2%nat)*(M 34%nat)/2 - (D 3%nat)*(M 35%nat)/2 - r2*(D 4%nat)*(M 30%nat)/2 + r2*(D 4%nat)*(M 32%nat)/2 + (D 5%nat)*(M 33%nat)/2
  | 17 => -r2*(D 0%nat)*(M 35%nat)/2 + r2*(D 1%nat)*(M 35%nat)/2 + (D 3%nat)*(M 34%nat)/2 - (D 4%nat)*(M 33%nat)/2 + r2*(D 5%nat)*(M 30%nat)/2 - r2*(D 5%nat)*(M 31%nat)/2
  | _ => 0
  end.

(** src/math/nemlmath.cxx:114-197 *)
Definition transform_fourth (D W : vec) : vec := fun k =>
  match k with
  | 0 => (D 0%nat)
  | 1 => r2*(D 5%nat)/2 - (W 2%nat)/2
  | 2 => r2*(D 4%nat)/2 + (W 1%nat)/2
  | 3 => r2*(D 5%nat)/2 + (W 2%nat)/2
  | 4 => (D 1%nat)
  | 5 => r2*(D 3%nat)/2 - (W 0%nat)/2
  | 6 => r2*(D 4%nat)/2 - (W 1%nat)/2
  | 7 => r2*(D 3%nat)/2 + (W 0%nat)/2
  | 8 => (D 2%nat)
  | 9 => r2*(D 30%nat)/2
  | 10 => (D 35%nat)/2 - r2*(W 17%nat)/4
  | 11 => (D 34%nat)/2 + r2*(W 16%nat)/4
  | 12 => (D 35%nat)/2 + r2*(W 17%nat)/4
  | 13 => r2*(D 31%nat)/2
  | 14 => (D 33%nat)/2 - r2*(W 15%nat)/4
  | 15 => (D 34%nat)/2 - r2*(W 16%nat)/4
  | 16 => (D 33%nat)/2 + r2*(W 15%nat)/4
  | 17 => r2*(D 32%nat)/2
  | 18 => r2*(D 24%nat)/2
  | 19 => (D 29%nat)/2 - r2*(W 14%nat)/4
  | 20 => (D 28%nat)/2 + r2*(W 13%nat)/4
  | 21 => (D 29%nat)/2 + r2*(W 14%nat)/4
  | 22 => r2*(D 25%nat)/2
  | 23 => (D 27%nat)/2 - r2*(W 12%nat)/4
  | 24 => (D 28%nat)/2 - r2*(W 13%nat)/4
  | 25 => (D 27%nat)/2 + r2*(W 12%nat)/4
  | 26 => r2*(D 26%nat)/2
  | 27 => r2*(D 30%nat)/2
  | 28 => (D 35%nat)/2 - r2*(W 17%nat)/4
  | 29 => (D 34%nat)/2 + r2*(W 16%nat)/4
  | 30 => (D 35%nat)/2 + r2*(W 17%nat)/4
  | 31 => r2*(D 31%nat)/2
  | 32 => (D 33%nat)/2 - r2*(W 15%nat)/4
  | 33 => (D 34%nat)/2 - r2*(W 16%nat)/4
  | 34 => (D 33%nat)/2 + r2*(W 15%nat)/4
  | 35 => r2*(D 32%nat)/2
  | 36 => (D 6%nat)
  | 37 => r2*(D 11%nat)/2 - (W 5%nat)/2
  | 38 => r2*(D 10%nat)/2 + (W 4%nat)/2
  | 39 => r2*(D 11%nat)/2 + (W 5%nat)/2
  | 40 => (D 7%nat)
  | 41 => r2*(D 9%nat)/2 - (W 3%nat)/2
  | 42 => r2*(D 10%nat)/2 - (W 4%nat)/2
  | 43 => r2*(D 9%nat)/2 + (W 3%nat)/2
  | 44 => (D 8%nat)
  | 45 => r2*(D 18%nat)/2
  | 46 => (D 23%nat)/2 - r2*(W 11%nat)/4
  | 47 => (D 22%nat)/2 + r2*(W 10%nat)/4
  | 48 => (D 23%nat)/2 + r2*(W 11%nat)/4
  | 49 => r2*(D 19%nat)/2
  | 50 => (D 21%nat)/2 - r2*(W 9%nat)/4
  | 51 => (D 22%nat)/2 - r2*(W 10%nat)/4
  | 52 => (D 21%nat)/2 + r2*(W 9%nat)/4
  | 53 => r2*(D 20%nat)/2
  | 54 => r2*(D 24%nat)/2
  | 55 => (D 29%nat)/2 - r2*(W 14%nat)/4
  | 56 => (D 28%nat)/2 + r2*(W 13%nat)/4
  | 57 => (D 29%nat)/2 + r2*(W 14%nat)/4
  | 58 => r2*(D 25%nat)/2
  | 59 => (D 27%nat)/2 - r2*(W 12%nat)/4
  | 60 => (D 28%nat)/2 - r2*(W 13%nat)/4
  | 61 => (D 27%nat)/2 + r2*(W 12%nat)/4
  | 62 => r2*(D 26%nat)/2
  | 63 => r2*(D 18%nat)/2
  | 64 => (D 23%nat)/2 - r2*(W 11%nat)/4
  | 65 => (D 22%nat)/2 + r2*(W 10%nat)/4
  | 66 => (D 23%nat)/2 + r2*(W 11%nat)/4
  | 67 => r2*(D 19%nat)/2
  | 68 => (D 21%nat)/2 - r2*(W 9%nat)/4
  | 69 => (D 22%nat)/2 - r2*(W 10%nat)/4
  | 70 => (D 21%nat)/2 + r2*(W 9%nat)/4
  | 71 => r2*(D 20%nat)/2
  | 72 => (D 12%nat)
  | 73 => r2*(D 17%nat)/2 - (W 8%nat)/2
  | 74 => r2*(D 16%nat)/2 + (W 7%nat)/2
  | 75 => r2*(D 17%nat)/2 + (W 8%nat)/2
  | 76 => (D 13%nat)
  | 77 => r2*(D 15%nat)/2 - (W 6%nat)/2
  | 78 => r2*(D 16%nat)/2 - (W 7%nat)/2
  | 79 => r2*(D 15%nat)/2 + (W 6%nat)/2
  | 80 => (D 14%nat)
  | _ => 0
  end.

(** src/math/nemlmath.cxx:199-282 *)
Definition truesdell_tangent_outer (S : vec) : vec := fun k =>
  match k with
  | 0 => (S 0%nat)
  | 1 => r2*(S 5%nat)
  | 2 => r2*(S 4%nat)
  | 3 => 0
  | 4 => -(S 0%nat)
  | 5 => 0
  | 6 => 0
  | 7 => 0
  | 8 => -(S 0%nat)
  | 9 => 0
  | 10 => (S 1%nat)
  | 11 => r2*(S 3%nat)/2
  | 12 => (S 0%nat)
  | 13 => 0
  | 14 => r2*(S 4%nat)/2
  | 15 => 0
  | 16 => 0
  | 17 => -r2*(S 5%nat)/2
  | 18 => 0
  | 19 => r2*(S 3%nat)/2
  | 20 => (S 2%nat)
  | 21 => 0
  | 22 => -r2*(S 4%nat)/2
  | 23 => 0
  | 24 => (S 0%nat)
  | 25 => r2*(S 5%nat)/2
  | 26 => 0
  | 27 => 0
  | 28 => (S 1%nat)
  | 29 => r2*(S 3%nat)/2
  | 30 => (S 0%nat)
  | 31 => 0
  | 32 => r2*(S 4%nat)/2
  | 33 => 0
  | 34 => 0
  | 35 => -r2*(S 5%nat)/2
  | 36 => -(S 1%nat)
  | 37 => 0
  | 38 => 0
  | 39 => r2*(S 5%nat)
  | 40 => (S 1%nat)
  | 41 => r2*(S 3%nat)
  | 42 => 0
  | 43 => 0
  | 44 => -(S 1%nat)
  | 45 => -r2*(S 3%nat)/2
  | 46 => 0
  | 47 => 0
  | 48 => r2*(S 4%nat)/2
  | 49 => 0
  | 50 => (S 2%nat)
  | 51 => r2*(S 5%nat)/2
  | 52 => (S 1%nat)
  | 53 => 0
  | 54 => 0
  | 55 => r2*(S 3%nat)/2
  | 56 => (S 2%nat)
  | 57 => 0
  | 58 => -r2*(S 4%nat)/2
  | 59 => 0
  | 60 => (S 0%nat)
  | 61 => r2*(S 5%nat)/2
  | 62 => 0
  | 63 => -r2*(S 3%nat)/2
  | 64 => 0
  | 65 => 0
  | 66 => r2*(S 4%nat)/2
  | 67 => 0
  | 68 => (S 2%nat)
  | 69 => r2*(S 5%nat)/2
  | 70 => (S 1%nat)
  | 71 => 0
  | 72 => -(S 2%nat)
  | 73 => 0
  | 74 => 0
  | 75 => 0
  | 76 => -(S 2%nat)
  | 77 => 0
  | 78 => r2*(S 4%nat)
  | 79 => r2*(S 3%nat)
  | 80 => (S 2%nat)
  | _ => 0
  end.

(** src/math/nemlmath.cxx:642-726 *)
Definition truesdell_mat (D W : vec) : vec := fun k =>
  match k with
  | 0 => -(D 0%nat) + (D 1%nat) + (D 2%nat) + 1
  | 1 => -r2*(D 5%nat)/2 + (W 2%nat)
  | 2 => -r2*(D 4%nat)/2 - (W 1%nat)
  | 3 => -r2*(D 5%nat)/2 + (W 2%nat)
  | 4 => 0
  | 5 => 0
  | 6 => -r2*(D 4%nat)/2 - (W 1%nat)
  | 7 => 0
  | 8 => 0
  | 9 => -r2*(D 5%nat)/2 - (W 2%nat)
  | 10 => (D 2%nat) + 1
  | 11 => -r2*(D 3%nat)/2 + (W 0%nat)
  | 12 => 0
  | 13 => -r2*(D 5%nat)/2 + (W 2%nat)
  | 14 => 0
  | 15 => 0
  | 16 => -r2*(D 4%nat)/2 - (W 1%nat)
  | 17 => 0
  | 18 => -r2*(D 4%nat)/2 + (W 1%nat)
  | 19 => -r2*(D 3%nat)/2 - (W 0%nat)
  | 20 => (D 1%nat) + 1
  | 21 => 0
  | 22 => 0
  | 23 => -r2*(D 5%nat)/2 + (W 2%nat)
  | 24 => 0
  | 25 => 0
  | 26 => -r2*(D 4%nat)/2 - (W 1%nat)
  | 27 => -r2*(D 5%nat)/2 - (W 2%nat)
  | 28 => 0
  | 29 => 0
  | 30 => (D 2%nat) + 1
  | 31 => -r2*(D 5%nat)/2 + (W 2%nat)
  | 32 => -r2*(D 4%nat)/2 - (W 1%nat)
  | 33 => -r2*(D 3%nat)/2 + (W 0%nat)
  | 34 => 0
  | 35 => 0
  | 36 => 0
  | 37 => -r2*(D 5%nat)/2 - (W 2%nat)
  | 38 => 0
  | 39 => -r2*(D 5%nat)/2 - (W 2%nat)
  | 40 => (D 0%nat) - (D 1%nat) + (D 2%nat) + 1
  | 41 => -r2*(D 3%nat)/2 + (W 0%nat)
  | 42 => 0
  | 43 => -r2*(D 3%nat)/2 + (W 0%nat)
  | 44 => 0
  | 45 => 0
  | 46 => 0
  | 47 => -r2*(D 5%nat)/2 - (W 2%nat)
  | 48 => -r2*(D 4%nat)/2 + (W 1%nat)
  | 49 => -r2*(D 3%nat)/2 - (W 0%nat)
  | 50 => (D 0%nat) + 1
  | 51 => 0
  | 52 => 0
  | 53 => -r2*(D 3%nat)/2 + (W 0%nat)
  | 54 => -r2*(D 4%nat)/2 + (W 1%nat)
  | 55 => 0
  | 56 => 0
  | 57 => -r2*(D 3%nat)/2 - (W 0%nat)
  | 58 => 0
  | 59 => 0
  | 60 => (D 1%nat) + 1
  | 61 => -r2*(D 5%nat)/2 + (W 2%nat)
  | 62 => -r2*(D 4%nat)/2 - (W 1%nat)
  | 63 => 0
  | 64 => -r2*(D 4%nat)/2 + (W 1%nat)
  | 65 => 0
  | 66 => 0
  | 67 => -r2*(D 3%nat)/2 - (W 0%nat)
  | 68 => 0
  | 69 => -r2*(D 5%nat)/2 - (W 2%nat)
  | 70 => (D 0%nat) + 1
  | 71 => -r2*(D 3%nat)/2 + (W 0%nat)
  | 72 => 0
  | 73 => 0
  | 74 => -r2*(D 4%nat)/2 + (W 1%nat)
  | 75 => 0
  | 76 => 0
  | 77 => -r2*(D 3%nat)/2 - (W 0%nat)
  | 78 => -r2*(D 4%nat)/2 + (W 1%nat)
  | 79 => -r2*(D 3%nat)/2 - (W 0%nat)
  | 80 => (D 0%nat) + (D 1%nat) - (D 2%nat) + 1
  | _ => 0
  end.

(** src/math/nemlmath.cxx:728-738 *)
Definition truesdell_rhs (D W Sn So : vec) : vec := fun k =>
  match k with
  | 0 => (D 0%nat)*(Sn 0%nat) - (D 1%nat)*(Sn 0%nat) - (D 2%nat)*(Sn 0%nat) + (D 4%nat)*(Sn 4%nat) + (D 5%nat)*(Sn 5%nat) + r2*(Sn 4%nat)*(W 1%nat) - r2*(Sn 5%nat)*(W 2%nat) + (So 0%nat)
  | 1 => -(D 0%nat)*(Sn 1%nat) + (D 1%nat)*(Sn 1%nat) - (D 2%nat)*(Sn 1%nat) + (D 3%nat)*(Sn 3%nat) + (D 5%nat)*(Sn 5%nat) - r2*(Sn 3%nat)*(W 0%nat) + r2*(Sn 5%nat)*(W 2%nat) + (So 1%nat)
  | 2 => -(D 0%nat)*(Sn 2%nat) - (D 1%nat)*(Sn 2%nat) + (D 2%nat)*(Sn 2%nat) + (D 3%nat)*(Sn 3%nat) + (D 4%nat)*(Sn 4%nat) + r2*(Sn 3%nat)*(W 0%nat) - r2*(Sn 4%nat)*(W 1%nat) + (So 2%nat)
  | 3 => r2*(-r2*(D 0%nat)*(Sn 3%nat)/2 + r2*(D 3%nat)*(Sn 1%nat)/2 + r2*(D 3%nat)*(Sn 2%nat)/2 + (D 4%nat)*(Sn 5%nat)/2 + (D 5%nat)*(Sn 4%nat)/2 + (Sn 1%nat)*(W 0%nat) - (Sn 2%nat)*(W 0%nat) + r2*(Sn 4%nat)*(W 2%nat)/2 - r2*(Sn 5%nat)*(W 1%nat)/2 + r2*(So 3%nat)/2)
  | 4 => r2*(-r2*(D 1%nat)*(Sn 4%nat)/2 + (D 3%nat)*(Sn 5%nat)/2 + r2*(D 4%nat)*(Sn 0%nat)/2 + r2*(D 4%nat)*(Sn 2%nat)/2 + (D 5%nat)*(Sn 3%nat)/2 - (Sn 0%nat)*(W 1%nat) + (Sn 2%nat)*(W 1%nat) - r2*(Sn 3%nat)*(W 2%nat)/2 + r2*(Sn 5%nat)*(W 0%nat)/2 + r2*(So 4%nat)/2)
  | 5 => r2*(-r2*(D 2%nat)*(Sn 5%nat)/2 + (D 3%nat)*(Sn 4%nat)/2 + (D 4%nat)*(Sn 3%nat)/2 + r2*(D 5%nat)*(Sn 0%nat)/2 + r2*(D 5%nat)*(Sn 1%nat)/2 + (Sn 0%nat)*(W 2%nat) - (Sn 1%nat)*(W 2%nat) + r2*(Sn 3%nat)*(W 1%nat)/2 - r2*(Sn 4%nat)*(W 0%nat)/2 + r2*(So 5%nat)/2)
  | _ => 0
  end.

(** src/math/nemlmath.cxx:818-828, eps = std::numeric_limits<double>::epsilon() *)
Definition eps : R := / 2 ^ 52.
(** src/math/nemlmath.cxx:818-828 (normalize_vec) *)
Definition normalize_vec (n : nat) (a : vec) : vec :=
  let nv := norm2 n a in
  if Rlt_dec (Rabs nv) eps then vzero else fun i => a i / nv.
(** src/math/nemlmath.cxx:830-836 *)
Definition dev_vec (a : vec) : vec := fun i => if Nat.ltb i 3 then a i - (a 0%nat + a 1%nat + a 2%nat) / 3 else a i.
(** src/math/nemlmath.cxx:1165-1168 *)
Definition I1 (s : vec) : R := s 0%nat + s 1%nat + s 2%nat.
(** src/math/nemlmath.cxx:1170-1182; F2 = F F *)
Definition I2 (s : vec) : R :=
  let F := usym s in
  let tr1 := F 0%nat + F 4%nat + F 8%nat in
  let F2 := fun i j => rsum 3 (fun k => F (3 * i + k)%nat * F (3 * k + j)%nat) in
  1 / 2 * (tr1 * tr1 - (F2 0%nat 0%nat + F2 1%nat 1%nat + F2 2%nat 2%nat)).

(** src/math/nemlmath.cxx:1027-1031; C's % is Z.rem.  [fuel] bounds the recursion
    depth; running out is reported as None. *)
Fixpoint gcd_rec (fuel : nat) (a b : Z) : option Z :=
  match fuel with
  | O => None
  | S f => if Z.eqb a 0 then Some b else gcd_rec f (Z.rem b a) a
  end.
(** src/math/nemlmath.cxx:1027-1031 (gcd) *)
Definition gcd (a b : Z) : option Z := gcd_rec (S (Z.abs_nat a)) a b.
(** src/math/nemlmath.cxx:1033-1040; an empty vector is read out of bounds *)
Definition common_gcd (l : list Z) : option Z :=
  match l with
  | [] => None
  | c :: r => fold_left (fun c x => match c with Some c => gcd c x | None => None end) r (Some c)
  end.
(** src/math/nemlmath.cxx:1042-1051; C's / is Z.quot, dividing by zero traps (None) *)
Definition reduce_gcd (l : list Z) : option (list Z) :=
  match common_gcd l with
  | None => None
  | Some f => if Z.eqb f 0 then None else Some (map (fun x => Z.quot x (Z.abs f)) l)
  end.
(** src/math/nemlmath.cxx:1053-1077; None: std::invalid_argument *)
Definition convert_angle (a : R) (angles : string) : option R :=
  if String.eqb "radians" angles then Some a
  else if String.eqb "degrees" angles then Some (a / 360 * 2 * PI)
  else None.
(** src/math/nemlmath.cxx:1066-1077 (cast_angle) *)
Definition cast_angle (a : R) (angles : string) : option R :=
  if String.eqb "radians" angles then Some a
  else if String.eqb "degrees" angles then Some (a / (2 * PI) * 360)
  else None.
(** src/math/nemlmath.cxx:1106-1109, include/math/nemlmath.h ATOL, RTOL *)
Definition isclose (atol rtol a b : R) : bool := if Rle_dec (Rabs (a - b)) (atol + rtol * Rabs b) then true else false.
(** src/math/nemlmath.cxx:1111-1125: C = A B A^T *)
Definition rotate_matrix (n : nat) (A B : mat) : mat := fun i j =>
  rsum n (fun k => A i k * rsum n (fun l => B k l * A j l)).
(** src/math/nemlmath.cxx:1127-1135, for n >= 0 and without overflow *)
Fixpoint fact (n : nat) : Z := match n with O => 1%Z | S k => (fact k * Z.of_nat (S k))%Z end.
(** src/math/nemlmath.cxx:623-640 with the exact solution x of the 9x9 system *)
Definition truesdell_system (D W Sn So x : vec) : Prop :=
  forall p, (p < 9)%nat -> rsum 9 (fun q => truesdell_mat D W (9 * p + q)%nat * x q) = usym (truesdell_rhs D W Sn So) p.
(** src/math/nemlmath.cxx:623-640 (truesdell_update_sym) *)
Definition truesdell_update_sym (x Sn : vec) : vec := fun i => Sn i + sym x i.
