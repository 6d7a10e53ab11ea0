(** Exact arithmetic: the reals with +infinity, -infinity and NaN.  Division by
    zero gives an infinity with the sign of the numerator (IEEE with positive
    zero only) and 0/0, inf-inf, 0*inf, inf/inf, sqrt of a negative give NaN. *)
Require Import Reals ZArith NArith Bool List Lra.
From Verif Require Import Num.
Open Scope R_scope.

Inductive xr := XF (r : R) | XP | XM | XN.

Definition rltb (a b : R) : bool := if Rlt_dec a b then true else false.
Definition rleb (a b : R) : bool := if Rle_dec a b then true else false.
Definition reqb (a b : R) : bool := if Req_EM_T a b then true else false.

Definition xopp (a : xr) : xr := match a with XF r => XF (- r) | XP => XM | XM => XP | XN => XN end.
Definition xabs (a : xr) : xr := match a with XF r => XF (Rabs r) | XP | XM => XP | XN => XN end.

Definition xadd (a b : xr) : xr :=
  match a, b with
  | XF x, XF y => XF (x + y)
  | XN, _ | _, XN => XN
  | XP, XM | XM, XP => XN
  | XP, _ | _, XP => XP
  | XM, _ | _, XM => XM
  end.
Definition xsub (a b : xr) : xr :=
  match a, b with
  | XF x, XF y => XF (x - y)
  | _, _ => xadd a (xopp b)
  end.

(** infinity with the sign of [r], NaN for 0. *)
Definition xsgn (r : R) : xr := if Rlt_dec 0 r then XP else if Rlt_dec r 0 then XM else XN.

Definition xmul (a b : xr) : xr :=
  match a, b with
  | XF x, XF y => XF (x * y)
  | XN, _ | _, XN => XN
  | XF x, XP | XP, XF x => xsgn x
  | XF x, XM | XM, XF x => xopp (xsgn x)
  | XP, XP | XM, XM => XP
  | XP, XM | XM, XP => XM
  end.
Definition xdiv (a b : xr) : xr :=
  match a, b with
  | XF x, XF y => if Req_EM_T y 0 then xsgn x else XF (x / y)
  | XN, _ | _, XN => XN
  | XF x, _ => XF 0
  | XP, XF y => if Rlt_dec y 0 then XM else XP
  | XM, XF y => if Rlt_dec y 0 then XP else XM
  | _, _ => XN
  end.
Definition xsqrt (a : xr) : xr :=
  match a with
  | XF x => if Rlt_dec x 0 then XN else XF (sqrt x)
  | XP => XP
  | _ => XN
  end.

(** nearest integer, ties away from zero *)
Definition rhaz (x : R) : Z :=
  if Rle_dec 0 x then Int_part (x + 1 / 2) else Z.opp (Int_part (- x + 1 / 2)).

(** truncation toward zero *)
Definition rtrunc (x : R) : Z :=
  if Rle_dec 0 x then Int_part x else Z.opp (Int_part (- x)).

Definition xround (a : xr) : xr := match a with XF x => XF (IZR (rhaz x)) | _ => a end.

Definition xltb (a b : xr) : bool :=
  match a, b with
  | XF x, XF y => rltb x y
  | XN, _ | _, XN => false
  | XM, XM => false | XM, _ => true
  | _, XM => false
  | XP, _ => false
  | XF _, XP => true
  end.
Definition xeqb (a b : xr) : bool :=
  match a, b with
  | XF x, XF y => reqb x y
  | XP, XP | XM, XM => true
  | _, _ => false
  end.
Definition xleb (a b : xr) : bool := xltb a b || xeqb a b.

Definition xcos (a : xr) : xr := match a with XF x => XF (cos x) | _ => XN end.
Definition xsin (a : xr) : xr := match a with XF x => XF (sin x) | _ => XN end.

(** atan2(y,x) in (-pi, pi]; atan2(0,0) = 0 as in C. *)
Definition ratan2 (y x : R) : R :=
  if Rlt_dec 0 x then atan (y / x)
  else if Rlt_dec x 0 then (if Rle_dec 0 y then atan (y / x) + PI else atan (y / x) - PI)
  else if Rlt_dec 0 y then PI / 2 else if Rlt_dec y 0 then - (PI / 2) else 0.
Definition xatan2 (a b : xr) : xr := match a, b with XF y, XF x => XF (ratan2 y x) | _, _ => XN end.

Definition xtoZ (a : xr) : option Z := match a with XF x => Some (rtrunc x) | _ => None end.

Definition x_num : num xr :=
  mkNum xr xadd xsub xmul xdiv xopp xabs xsqrt xround xcos xsin xatan2 xltb xleb xeqb
        (fun z => XF (IZR z)) (fun m k => XF (IZR m / 10 ^ N.to_nat k)) XP xtoZ.

Definition x_arith : arith xr xr := mkArith xr xr x_num x_num (fun x => x) (fun x => x).
