(** The arithmetic used by the numeric code, as a record of operations.  Model
    functions take it as an argument: theorems quantified over the record hold
    for every arithmetic, theorems about a particular instance (NumSF.v: IEEE-754
    floats; NumR.v: exact reals) say so. *)
Require Import ZArith NArith.

Record num (T : Type) := mkNum {
  nadd : T -> T -> T;
  nsub : T -> T -> T;
  nmul : T -> T -> T;
  ndiv : T -> T -> T;
  nopp : T -> T;
  nabs : T -> T;
  nsqrt : T -> T;
  nround : T -> T;            (* roundf: nearest integer, halfway cases away from zero *)
  ncos : T -> T;
  nsin : T -> T;
  natan2 : T -> T -> T;
  nltb : T -> T -> bool;
  nleb : T -> T -> bool;
  neqb : T -> T -> bool;
  nofZ : Z -> T;              (* conversion from an integer *)
  ndec : Z -> N -> T;         (* the literal m / 10^k, correctly rounded *)
  ninf : T;
  ntoZ : T -> option Z        (* truncation; None for NaN and infinities *)
}.
Arguments nadd {T}. Arguments nsub {T}. Arguments nmul {T}. Arguments ndiv {T}.
Arguments nopp {T}. Arguments nabs {T}. Arguments nsqrt {T}. Arguments nround {T}.
Arguments ncos {T}. Arguments nsin {T}. Arguments natan2 {T}. Arguments nltb {T}. Arguments nleb {T}. Arguments neqb {T}.
Arguments nofZ {T}. Arguments ndec {T}. Arguments ninf {T}. Arguments ntoZ {T}.

(** double ([D]) and float ([F]) with the conversions between them. *)
Record arith (D F : Type) := mkArith {
  aD : num D;
  aF : num F;
  d2f : D -> F;
  f2d : F -> D
}.
Arguments aD {D F}. Arguments aF {D F}. Arguments d2f {D F}. Arguments f2d {D F}.

(** int32_t range. *)
Definition int32_ok (z : Z) : bool := ((-2147483648 <=? z) && (z <=? 2147483647))%bool%Z.
