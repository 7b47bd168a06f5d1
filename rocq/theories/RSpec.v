(** The mathematics of the transformation, in real numbers, written from the documentation
    (docs/source/theory.rst) and not from the code: Fourier series on a flux surface, the
    function w with dw/dtheta = B_theta - I and dw/dzeta = B_zeta - G, nu, the Boozer
    angles, the Jacobian of the angle map and the quadrature for one coefficient. *)
From Coq Require Import ZArith List Bool Reals.
From Verif Require Import Scalar Prog Func RSum.
Import ListNotations.
Local Open Scope Z_scope.
Local Open Scope R_scope.

Definition phase (m n : Z) (t z : R) : R := IZR m * t - IZR n * z.

(** sum over k of c_k cos(m_k t - n_k z) + s_k sin(m_k t - n_k z) *)
Definition series (n : Z) (ms ns : Z -> Z) (c s : Z -> R) (t z : R) : R :=
  rsum n (fun k => c k * cos (phase (ms k) (ns k) t z) + s k * sin (phase (ms k) (ns k) t z)).

(** [onA a g] = g for non-stellarator-symmetric input, 0 otherwise. *)
Definition onA (a : bool) (g : Z -> R) : Z -> R := fun k => if a then g k else 0.

Section Surface.
Variable i : Inp RS.
Variable js : Z.                       (* the surface: a column of the input arrays *)

Definition mR : R -> R -> R := series (mnmax i) (xm i) (xn i) (fun k => rmnc i k js) (onA (asym i) (fun k => rmns i k js)).
Definition mZ : R -> R -> R := series (mnmax i) (xm i) (xn i) (onA (asym i) (fun k => zmnc i k js)) (fun k => zmns i k js).
Definition mL : R -> R -> R := series (mnmax i) (xm i) (xn i) (onA (asym i) (fun k => lmnc i k js)) (fun k => lmns i k js).
Definition mB : R -> R -> R := series (mnmaxq i) (xmq i) (xnq i) (fun k => bmnc i k js) (onA (asym i) (fun k => bmns i k js)).
Definition mBt : R -> R -> R := series (mnmaxq i) (xmq i) (xnq i) (fun k => bsubumnc i k js) (onA (asym i) (fun k => bsubumns i k js)).
Definition mBz : R -> R -> R := series (mnmaxq i) (xmq i) (xnq i) (fun k => bsubvmnc i k js) (onA (asym i) (fun k => bsubvmns i k js)).

(** Harmonics of w: from B_theta if m is not 0, otherwise from B_zeta. *)
Definition w_sin (k : Z) : R :=
  if Z.eqb (xmq i k) 0 then (if Z.eqb (xnq i k) 0 then 0 else - bsubvmnc i k js / IZR (xnq i k))
  else bsubumnc i k js / IZR (xmq i k).
Definition w_cos (k : Z) : R :=
  if Z.eqb (xmq i k) 0 then (if Z.eqb (xnq i k) 0 then 0 else bsubvmns i k js / IZR (xnq i k))
  else - bsubumns i k js / IZR (xmq i k).
Definition mW : R -> R -> R := series (mnmaxq i) (xmq i) (xnq i) (onA (asym i) w_cos) w_sin.

Variables I G : R.                     (* the surface functions *)
Definition io : R := iota i js.
Definition mNu (t z : R) : R := (mW t z - I * mL t z) / (G + io * I).
Definition mTh (t z : R) : R := t + mL t z + io * mNu t z.
Definition mZe (t z : R) : R := z + mNu t z.
Definition mSqrtg (t z : R) : R := (G + io * I) / (mB t z)².

(** J is the determinant of d(theta_B, zeta_B)/d(theta, zeta). *)
Definition is_jacobian (J : R -> R -> R) : Prop :=
  forall t z, exists tt tz zt zz,
    derivable_pt_lim (fun x => mTh x z) t tt /\ derivable_pt_lim (fun x => mTh t x) z tz /\
    derivable_pt_lim (fun x => mZe x z) t zt /\ derivable_pt_lim (fun x => mZe t x) z zz /\
    J t z = tt * zz - tz * zt.

(** The grid of the documentation: nt points in [0, 2 pi), nz points in [0, 2 pi / nfp). *)
Definition nt : Z := (4 * mboz i + 2)%Z.
Definition nz : Z := (if Z.eqb (nboz i) 0 then 1 else 4 * nboz i + 2)%Z.
Definition gth (a : Z) : R := 2 * PI * IZR a / IZR nt.
Definition gze (b : Z) : R := 2 * PI * IZR b / (IZR (nfp i) * IZR nz).

(** The coefficient of trig(m theta_B - n zeta_B) in the quantity Q, by the trapezoidal rule
    on the full grid. *)
Definition quad (J Q : R -> R -> R) (trig : R -> R) (m n : Z) : R :=
  (if (Z.eqb m 0 && Z.eqb n 0)%bool then 1 else 2) / (IZR nt * IZR nz) *
  rsum nt (fun a => rsum nz (fun b =>
    let t := gth a in let z := gze b in Q t z * trig (phase m n (mTh t z) (mZe t z)) * J t z)).

End Surface.

(** n is a multiple of nfp for every input mode. *)
Definition nfp_divides (i : Inp RS) : Prop :=
  (forall k, (0 <= k < mnmax i)%Z -> (nfp i | xn i k)%Z) /\
  (forall k, (0 <= k < mnmaxq i)%Z -> (nfp i | xnq i k)%Z).
