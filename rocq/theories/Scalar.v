(** Floating point arithmetic as a parameter.

    The C++ code computes with [boozfloat] = [double] (vector_matrix.hpp:8).  Every
    definition of the model takes a [Scalar] and performs the same operations, in the
    same order and association, as the C++ source.  A theorem about all [Scalar]s holds
    in particular for IEEE binary64 with whatever libm computes cos and sin; theorems
    about mathematics are stated for the real numbers, [RS] below. *)
From Coq Require Import ZArith QArith Reals Qreals.
From Coq Require Import R_sqrt Rtrigo_def.

Record Scalar : Type := mkScalar {
  F    : Type;
  fadd : F -> F -> F;
  fsub : F -> F -> F;
  fmul : F -> F -> F;
  fdiv : F -> F -> F;
  fneg : F -> F;
  fofZ : Z -> F;            (* int -> double conversion *)
  flit : Q -> F;            (* decimal literals such as 0.5, 1.5, 2.0 *)
  fpi  : F;                 (* the constant [pi] of booz_xform.hpp:10 *)
  fsqrt : F -> F;
  fcos : F -> F;
  fsin : F -> F;
  fabs : F -> F;
  flt  : F -> F -> bool;    (* operator < *)
  ftoZ : F -> option Z      (* NetCDF's double -> int conversion; None = NC_ERANGE *)
}.

Declare Scope sc_scope.
Delimit Scope sc_scope with sc.

Notation "x + y" := (fadd _ x y) : sc_scope.
Notation "x - y" := (fsub _ x y) : sc_scope.
Notation "x * y" := (fmul _ x y) : sc_scope.
Notation "x / y" := (fdiv _ x y) : sc_scope.
Notation "- x" := (fneg _ x) : sc_scope.

(** 0.0 (what Eigen's setZero stores), 1.0, and 2 pi (booz_xform.hpp:11). *)
Definition f0 (S : Scalar) : F S := fofZ S 0.
Definition f1 (S : Scalar) : F S := flit S (1 # 1).
Definition ftwopi (S : Scalar) : F S := fmul S (flit S (2 # 1)) (fpi S).

(** [std::max(a,b)] = (a < b) ? b : a. *)
Definition fmax (S : Scalar) (a b : F S) : F S := if flt S a b then b else a.

(** The real instance.  Simplification: the constant [pi], a double, is the real number
    PI, and conversions to int truncate towards zero (range ignored). *)
Definition Rtrunc (x : R) : Z :=
  if Rle_dec 0 x then Int_part x else (- Int_part (- x))%Z.

Definition RS : Scalar := {|
  F := R;
  fadd := Rplus; fsub := Rminus; fmul := Rmult; fdiv := Rdiv; fneg := Ropp;
  fofZ := IZR; flit := Q2R; fpi := PI; fsqrt := sqrt; fcos := cos; fsin := sin;
  fabs := Rabs;
  flt := fun x y => if Rlt_dec x y then true else false;
  ftoZ := fun x => Some (Rtrunc x)
|}.
