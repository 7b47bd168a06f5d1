(** Arithmetic with rounding errors: the vocabulary of property C68.

    [accurate S v e M]: S is an arithmetic in which some values are finite ([v x a]: x is
    finite and stands for the real number a), and every operation on finite values whose
    exact result is at most M in absolute value has a finite result, off by at most
    e (1 + |exact result|).  IEEE binary64 with a libm that is accurate to an ulp is of this
    kind (e = 2^-52, M = 2^1023; the 1 covers results in the subnormal range).
    [rounded v e i' i]: the inputs i' of that arithmetic are the real inputs i, converted
    with the same accuracy. *)
From Coq Require Import ZArith QArith Reals Qreals.
From Verif Require Import Scalar Prog Func.
Local Open Scope Z_scope.
Local Open Scope R_scope.

Record accurate (S : Scalar) (v : F S -> R -> Prop) (e M : R) : Prop := mkAcc {
  ac_pos : 0 <= e;
  ac_add : forall x y a b, v x a -> v y b -> Rabs (a + b) <= M ->
    exists c, v (fadd S x y) c /\ Rabs (c - (a + b)) <= e * (1 + Rabs (a + b));
  ac_sub : forall x y a b, v x a -> v y b -> Rabs (a - b) <= M ->
    exists c, v (fsub S x y) c /\ Rabs (c - (a - b)) <= e * (1 + Rabs (a - b));
  ac_mul : forall x y a b, v x a -> v y b -> Rabs (a * b) <= M ->
    exists c, v (fmul S x y) c /\ Rabs (c - a * b) <= e * (1 + Rabs (a * b));
  ac_div : forall x y a b, v x a -> v y b -> b <> 0 -> Rabs (a / b) <= M ->
    exists c, v (fdiv S x y) c /\ Rabs (c - a / b) <= e * (1 + Rabs (a / b));
  ac_neg : forall x a, v x a -> v (fneg S x) (- a);
  ac_ofZ : forall z, Rabs (IZR z) <= M ->
    exists c, v (fofZ S z) c /\ Rabs (c - IZR z) <= e * (1 + Rabs (IZR z));
  ac_lit : forall q, Rabs (Q2R q) <= M ->
    exists c, v (flit S q) c /\ Rabs (c - Q2R q) <= e * (1 + Rabs (Q2R q));
  ac_pi : exists c, v (fpi S) c /\ Rabs (c - PI) <= e * (1 + PI);
  ac_cos : forall x a, v x a -> exists c, v (fcos S x) c /\ Rabs (c - cos a) <= e * (1 + Rabs (cos a));
  ac_sin : forall x a, v x a -> exists c, v (fsin S x) c /\ Rabs (c - sin a) <= e * (1 + Rabs (sin a))
}.

Section Rounded.
Context {S : Scalar}.
Variable v : F S -> R -> Prop.
Variable e : R.

Definition conv1 (x : F S) (a : R) : Prop := exists c, v x c /\ Rabs (c - a) <= e * (1 + Rabs a).
Definition conv (n m : Z) (x : Z -> Z -> F S) (a : Z -> Z -> R) : Prop :=
  forall k j, (0 <= k < n)%Z -> (0 <= j < m)%Z -> conv1 (x k j) (a k j).

Record rounded (i' : Inp S) (i : Inp RS) : Prop := mkRnd {
  rd_asym : asym i' = asym i; rd_nfp : nfp i' = nfp i; rd_mpol : mpol i' = mpol i; rd_ntor : ntor i' = ntor i;
  rd_mnmax : mnmax i' = mnmax i; rd_mpolq : mpolq i' = mpolq i; rd_ntorq : ntorq i' = ntorq i;
  rd_mnmaxq : mnmaxq i' = mnmaxq i; rd_nsin : nsin i' = nsin i; rd_mboz : mboz i' = mboz i; rd_nboz : nboz i' = nboz i;
  rd_nsurf : nsurf i' = nsurf i;
  rd_xm : forall k, (0 <= k < mnmax i)%Z -> xm i' k = xm i k;
  rd_xn : forall k, (0 <= k < mnmax i)%Z -> xn i' k = xn i k;
  rd_xmq : forall k, (0 <= k < mnmaxq i)%Z -> xmq i' k = xmq i k;
  rd_xnq : forall k, (0 <= k < mnmaxq i)%Z -> xnq i' k = xnq i k;
  rd_surf : forall b, (0 <= b < nsurf i)%Z -> surf i' b = surf i b;
  rd_iota : forall j, (0 <= j < nsin i)%Z -> conv1 (iota i' j) (iota i j);
  rd_rmnc : conv (mnmax i) (nsin i) (rmnc i') (rmnc i);
  rd_zmns : conv (mnmax i) (nsin i) (zmns i') (zmns i);
  rd_lmns : conv (mnmax i) (nsin i) (lmns i') (lmns i);
  rd_bmnc : conv (mnmaxq i) (nsin i) (bmnc i') (bmnc i);
  rd_bsubumnc : conv (mnmaxq i) (nsin i) (bsubumnc i') (bsubumnc i);
  rd_bsubvmnc : conv (mnmaxq i) (nsin i) (bsubvmnc i') (bsubvmnc i);
  rd_rmns : asym i = true -> conv (mnmax i) (nsin i) (rmns i') (rmns i);
  rd_zmnc : asym i = true -> conv (mnmax i) (nsin i) (zmnc i') (zmnc i);
  rd_lmnc : asym i = true -> conv (mnmax i) (nsin i) (lmnc i') (lmnc i);
  rd_bmns : asym i = true -> conv (mnmaxq i) (nsin i) (bmns i') (bmns i);
  rd_bsubumns : asym i = true -> conv (mnmaxq i) (nsin i) (bsubumns i') (bsubumns i);
  rd_bsubvmns : asym i = true -> conv (mnmaxq i) (nsin i) (bsubvmns i') (bsubvmns i)
}.
End Rounded.
