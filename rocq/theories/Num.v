(** The numeric interface used by the model of floating-point code, and its
    instances: exact reals, IEEE-754 binary64 ([f64]) and binary32 ([f32]). *)
From Coq Require Import Reals ZArith SpecFloat Bool.
Open Scope Z_scope.

(** Operations on a Rust float type that the code base uses.  [signneg] is
    [is_sign_negative], [isnan] is [is_nan], [isfin] is [is_finite]. *)
Record Num : Type := mkNum {
  carrier :> Type;
  zero : carrier;
  one : carrier;
  add : carrier -> carrier -> carrier;
  sub : carrier -> carrier -> carrier;
  mul : carrier -> carrier -> carrier;
  div : carrier -> carrier -> carrier;
  opp : carrier -> carrier;
  sqrt_ : carrier -> carrier;
  abs_ : carrier -> carrier;
  ltb : carrier -> carrier -> bool;
  leb : carrier -> carrier -> bool;
  eqb : carrier -> carrier -> bool;
  signneg : carrier -> bool;
  isnan : carrier -> bool;
  isfin : carrier -> bool;
  ofZ : Z -> carrier
}.
Arguments zero {_}.
Arguments one {_}.
Arguments add {_} _ _.
Arguments sub {_} _ _.
Arguments mul {_} _ _.
Arguments div {_} _ _.
Arguments opp {_} _.
Arguments sqrt_ {_} _.
Arguments abs_ {_} _.
Arguments ltb {_} _ _.
Arguments leb {_} _ _.
Arguments eqb {_} _ _.
Arguments signneg {_} _.
Arguments isnan {_} _.
Arguments isfin {_} _.
Arguments ofZ {_} _.

Declare Scope num_scope.
Delimit Scope num_scope with num.
Infix "+" := add : num_scope.
Infix "-" := sub : num_scope.
Infix "*" := mul : num_scope.
Infix "/" := div : num_scope.
Notation "- x" := (opp x) : num_scope.
Infix "<?" := ltb : num_scope.
Infix "<=?" := leb : num_scope.
Infix "=?" := eqb : num_scope.

(** ** Exact reals.  There is no NaN, no infinity and no negative zero. *)
Definition Rltb (x y : R) : bool := if Rlt_dec x y then true else false.
Definition Rleb (x y : R) : bool := if Rle_dec x y then true else false.
Definition Reqb (x y : R) : bool := if Req_EM_T x y then true else false.

Definition RNum : Num := {|
  carrier := R;
  zero := 0%R; one := 1%R;
  add := Rplus; sub := Rminus; mul := Rmult; div := Rdiv; opp := Ropp;
  sqrt_ := R_sqrt.sqrt; abs_ := Rabs;
  ltb := Rltb; leb := Rleb; eqb := Reqb;
  signneg := fun x => Rltb x 0;
  isnan := fun _ => false;
  isfin := fun _ => true;
  ofZ := IZR |}.

(** ** IEEE-754 binary formats, round to nearest even. *)
Section Ieee.
  Variables prec emax : Z.
  Definition sf_ofZ (z : Z) : spec_float :=
    binary_normalize prec emax z 0 false.
  Definition sf_signneg (x : spec_float) : bool :=
    match x with
    | S754_zero s => s
    | S754_infinity s => s
    | S754_nan => false   (* sign of NaN is not tracked: treated as positive *)
    | S754_finite s _ _ => s
    end.
  Definition sf_isnan (x : spec_float) : bool :=
    match x with S754_nan => true | _ => false end.
  Definition sf_isfin (x : spec_float) : bool :=
    match x with S754_zero _ | S754_finite _ _ _ => true | _ => false end.
  Definition ieee : Num := {|
    carrier := spec_float;
    zero := S754_zero false;
    one := sf_ofZ 1;
    add := SFadd prec emax; sub := SFsub prec emax; mul := SFmul prec emax;
    div := SFdiv prec emax; opp := SFopp; sqrt_ := SFsqrt prec emax;
    abs_ := SFabs;
    ltb := SFltb; leb := SFleb; eqb := SFeqb;
    signneg := sf_signneg; isnan := sf_isnan; isfin := sf_isfin;
    ofZ := sf_ofZ |}.
End Ieee.

Definition F64 : Num := ieee 53 1024.
Definition F32 : Num := ieee 24 128.

(** The decimal fraction [n / d] in a number type (a rounded literal). *)
Definition lit {N : Num} (n d : Z) : N := (ofZ n / ofZ d)%num.
Definition two {N : Num} : N := ofZ 2.
Definition half {N : Num} : N := lit 1 2.

(** Reduction of the real instance to plain real arithmetic in proofs. *)
Ltac rnum :=
  cbn [RNum carrier zero one add sub mul div opp sqrt_ abs_ ltb leb eqb signneg
       isnan isfin ofZ] in *.
