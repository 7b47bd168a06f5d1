(** Property C58: run() in real arithmetic converges as mboz and nboz grow. *)
From Coq Require Import ZArith List Bool Lia Reals.
From Verif Require Import Scalar Prog Model Wp Func RunProof FuncExt Spec RSum RSpec RThms RThms3 RExamples ConvMain ConvEx.
Import ListNotations.
Local Open Scope Z_scope.
Local Open Scope R_scope.

(** ** C58
    [quad] is the trapezoidal rule of C15; the bound holds for all resolutions, also those whose
    grid does not fit in an int, and each run at a resolution that fits returns [quad]. *)
Theorem C58_converges : forall (i : Inp RS) js I G J f Q c m n,
  (0 < nfp i)%Z -> nfp_divides i -> (nfp i | n)%Z ->
  G + iota i js * I <> 0 -> is_jacobian i js I G J ->
  documented i js I G f Q c -> B_nonzero i js f ->
  exists l,
  (** l is the coefficient in the spectrum of Q in the Boozer angles *)
  (forall N ms ns co si eps, (forall k, (0 <= k < N)%Z -> (nfp i | ns k)%Z) ->
    (forall t z, Rabs (Q t z - series N ms ns co si (mTh i js I G t z) (mZe i js I G t z)) <= eps) ->
    (forall B, (forall t z, Rabs (J t z) <= B) -> Rabs (l - amp c N ms ns co si m n) <= 2 * B * eps) /\
    ((forall t z, 0 <= J t z) -> Rabs (l - amp c N ms ns co si m n) <= 2 * eps)) /\
  (** the output is within C (1 / ntheta^p + 1 / nzeta^p) of l, for every p *)
  forall p, exists C, 0 <= C /\ forall mb nb, (1 <= mb)%Z -> (0 <= nb)%Z ->
    let i' := at_res i mb nb in
    let v := quad i' js I G J Q (trig c) m n in
    Rabs (v - l) <= C * (/ IZR (nt i') ^ p + / IZR (nz i') ^ p) /\
    (axisymmetric i -> n = 0%Z -> Rabs (v - l) <= C * / IZR (nt i') ^ p) /\
    forall o, valid o i' -> exists o' ev, run_ok o o' ev /\
      forall b k, elemN o N_compute_surfs b = Some (Some js) ->
        elem o' A_Boozer_I b = Some (Some I) -> elem o' A_Boozer_G b = Some (Some G) ->
        elemN o' N_xm_b k = Some (Some m) -> elemN o' N_xn_b k = Some (Some n) ->
        elem2 o' f k b = Some (Some v).
Proof. exact converges. Qed.
(** a transformation that is not the identity, with J > 0, |B| >= 2 and R a finite series in the
    Boozer angles; valid at resolutions up to 20 *)
Example C58_case : forall js,
  nfp_divides ex_helical /\ bI ex_helical js = 0 /\ bG ex_helical js = 40 /\ 40 + iota ex_helical js * 0 <> 0 /\
  is_jacobian ex_helical js 0 40 ex_helical_J /\ (forall t z, 0 <= ex_helical_J t z) /\
  (forall f, B_nonzero ex_helical js f) /\
  documented ex_helical js 0 40 A_rmnc_b (mR ex_helical js) true /\
  documented ex_helical js 0 40 A_gmns_b (mSqrtg ex_helical js 0 40) false /\
  (forall t z, mR ex_helical js t z =
    series 2 (xm ex_helical) (xn ex_helical) (fun k => rmnc ex_helical k js) (fun k => rmns ex_helical k js)
      (mTh ex_helical js 0 40 t z) (mZe ex_helical js 0 40 t z)) /\
  (mTh ex_helical 0 0 40 (PI / 2) 0 <> PI / 2 /\ mZe ex_helical 0 0 40 (PI / 2) 0 <> 0) /\
  (forall mb nb, (1 <= mb <= 20)%Z -> (0 <= nb <= 20)%Z -> valid (obj_of (at_res ex_helical mb nb)) (at_res ex_helical mb nb)).
Proof. exact ex_helical_case. Qed.
Example C58_axisymmetric_case : axisymmetric ex_axi /\ nfp_divides ex_axi /\ valid (obj_of ex_axi) ex_axi.
Proof. exact (conj ex_axi_sym (conj ex_axi_div (ok_valid RS ex_axi ex_axi_ok))). Qed.

Theorem C58_currents : forall (i : Inp RS) mb nb mb' nb' o1 o2, valid o1 (at_res i mb nb) -> valid o2 (at_res i mb' nb') ->
  exists o1' o2' ev1 ev2, run_ok o1 o1' ev1 /\ run_ok o2 o2' ev2 /\
  forall b, (0 <= b < nsurf i)%Z -> elem o1' A_Boozer_I b = elem o2' A_Boozer_I b /\ elem o1' A_Boozer_G b = elem o2' A_Boozer_G b.
Proof. exact currents_any_resolution. Qed.

Print Assumptions C58_converges.
Print Assumptions C58_currents.
