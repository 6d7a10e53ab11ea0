(** IEEE-754 binary32 and binary64 by the standard library's SpecFloat
    (round to nearest, ties to even), free of axioms and executable.
    sin, cos, atan2 are arguments: nothing is assumed about them. *)
Require Import ZArith NArith Bool List.
From Coq Require Import Floats.SpecFloat.
From Verif Require Import Num.
Import ListNotations.
Open Scope Z_scope.

Definition sf := spec_float.

Definition sf_ofZ (prec emax : Z) (z : Z) : sf :=
  match z with
  | Z0 => S754_zero false
  | _ => binary_normalize prec emax z 0 false
  end.

(** Round half away from zero to an integer, as roundf does (C17 7.12.9.6). *)
Definition sf_round (prec emax : Z) (x : sf) : sf :=
  match x with
  | S754_finite s m e =>
      if 0 <=? e then x
      else let d := 2 ^ (- e) in
           let n := (2 * Zpos m + d) / (2 * d) in
           match n with
           | Z0 => S754_zero s
           | _ => binary_normalize prec emax (if s then - n else n) 0 false
           end
  | _ => x
  end.

Definition sf_toZ (x : sf) : option Z :=
  match x with
  | S754_zero _ => Some 0
  | S754_finite s m e =>
      let a := if 0 <=? e then Zpos m * 2 ^ e else Zpos m / 2 ^ (- e) in
      Some (if s then - a else a)
  | _ => None
  end.

(** Conversion between formats: exact value, rounded once. *)
Definition sf_cvt (prec emax : Z) (x : sf) : sf :=
  match x with
  | S754_finite s m e => binary_normalize prec emax (if s then Zneg m else Zpos m) e s
  | _ => x
  end.

(** m / 10^k; correctly rounded when m and 10^k are representable. *)
Definition sf_dec (prec emax : Z) (m : Z) (k : N) : sf :=
  SFdiv prec emax (sf_ofZ prec emax m) (sf_ofZ prec emax (10 ^ Z.of_N k)).

Definition sf_num (prec emax : Z) (fcos fsin : sf -> sf) (fatan2 : sf -> sf -> sf) : num sf :=
  mkNum sf (SFadd prec emax) (SFsub prec emax) (SFmul prec emax) (SFdiv prec emax)
        SFopp SFabs (SFsqrt prec emax) (sf_round prec emax) fcos fsin fatan2
        SFltb SFleb SFeqb (sf_ofZ prec emax) (sf_dec prec emax) (S754_infinity false) sf_toZ.

Record sf_funs := mkFuns { fcosf : sf -> sf; fsinf : sf -> sf; fatan2f : sf -> sf -> sf;
                           fcos : sf -> sf; fsin : sf -> sf; fatan2 : sf -> sf -> sf }.

(** binary64 / binary32 pair. *)
Definition sf_arith (X : sf_funs) : arith sf sf :=
  mkArith sf sf (sf_num 53 1024 (fcos X) (fsin X) (fatan2 X))
                (sf_num 24 128 (fcosf X) (fsinf X) (fatan2f X))
                (sf_cvt 24 128) (sf_cvt 53 1024).
