(** IEEE 754 binary floating point as an arithmetic of the model: the vocabulary of C76.

    The operations are those of Coq.Floats.SpecFloat, the specification of Coq's own
    floating point numbers: prec significant bits, exponents below emax, subnormal numbers,
    signed zeros, infinities, NaN (one, without payload), rounding to nearest even.  C++'s
    double is prec = 53, emax = 1024 (vector_matrix.hpp:8).  Additions and multiplications
    are rounded one by one (no fused multiply-add, no extended precision).

    cos, sin and the constant pi are parameters: IEEE 754 does not fix what libm computes.
    [libm_ok] says that they are accurate to e. *)
From Coq Require Import ZArith QArith Reals Floats.SpecFloat.
From Verif Require Import Scalar.
Local Open Scope Z_scope.

Section IEEE.
Variables (prec emax : Z) (pi : spec_float) (cos_ sin_ : spec_float -> spec_float).

(** The quotient of two integers, rounded once: a decimal literal *)
Definition sf_lit (q : Q) : spec_float :=
  let quo s n := let '(m, e, l) := SFdiv_core_binary prec emax (Zpos n) 0 (Zpos (Qden q)) 0 in
                 binary_round_aux prec emax s m e l in
  match Qnum q with
  | Z0 => S754_zero false
  | Zpos n => quo false n
  | Zneg n => quo true n
  end.
Definition sf_ofZ (z : Z) : spec_float := binary_normalize prec emax z 0 false.
(** double to int as NetCDF does: an error outside the range, otherwise towards zero.
    Simplification: NaN is an error. *)
Definition sf_toZ (x : spec_float) : option Z :=
  if SFltb (sf_ofZ 2147483647) x || SFltb x (sf_ofZ (-2147483648)) then None else
  match x with
  | S754_zero _ => Some 0
  | S754_finite s m e => Some (cond_Zopp s (Z.shiftl (Zpos m) e))
  | _ => None
  end.

Definition IEEE : Scalar := {|
  F := spec_float;
  fadd := SFadd prec emax; fsub := SFsub prec emax; fmul := SFmul prec emax; fdiv := SFdiv prec emax;
  fneg := SFopp; fofZ := sf_ofZ; flit := sf_lit; fpi := pi;
  fsqrt := SFsqrt prec emax; fcos := cos_; fsin := sin_; fabs := SFabs;
  flt := SFltb; ftoZ := sf_toZ
|}.

Local Open Scope R_scope.
(** x is one of the finite numbers of the format, and its value is a *)
Definition sf_is (x : spec_float) (a : R) : Prop :=
  valid_binary prec emax x = true /\
  match x with
  | S754_zero _ => a = 0
  | S754_finite s m e => a = (if s then -1 else 1) * IZR (Zpos m) * powerRZ 2 e
  | _ => False
  end.
(** the spacing of the numbers in [1, 2) *)
Definition sf_eps : R := powerRZ 2 (1 - prec).

Record libm_ok (e : R) : Prop := mkLibm {
  lm_pi : exists c, sf_is pi c /\ Rabs (c - PI) <= e * (1 + PI);
  lm_cos : forall x a, sf_is x a -> exists c, sf_is (cos_ x) c /\ Rabs (c - cos a) <= e * (1 + Rabs (cos a));
  lm_sin : forall x a, sf_is x a -> exists c, sf_is (sin_ x) c /\ Rabs (c - sin a) <= e * (1 + Rabs (sin a))
}.
End IEEE.
