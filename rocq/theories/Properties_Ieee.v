(** Property C76: the statements. *)
From Coq Require Import ZArith QArith List String Bool Reals Floats.SpecFloat.
From Verif Require Import Scalar Prog Model Wp Func FuncExt Spec RSpec RThms2 RExamples RoundSpec RoundThm RoundEx
  Nc NcModel NcSpec NcVoc NcThms Ieee IeeeProof IeeeThm.
Import ListNotations.
Local Open Scope Z_scope.
Local Open Scope R_scope.

(** ** C76 *)
Theorem C76_accurate : forall prec emax, (2 <= prec)%Z -> (prec < emax)%Z ->
  forall pi cos_ sin' e, sf_eps prec <= e -> libm_ok prec emax pi cos_ sin' e ->
  accurate (IEEE prec emax pi cos_ sin') (sf_is prec emax) e (powerRZ 2 (emax - 1)).
Proof. exact IEEE_accurate. Qed.

Theorem C76_errors : forall (o : obj RS) i l, valid o i -> nfp_divides i -> incl l (outs (asym i)) ->
  exists r ev, run_ok o r ev /\
  ((forall j I G, (0 <= j < nsurf i)%Z -> elem r A_Boozer_I j = Some (Some I) -> elem r A_Boozer_G j = Some (Some G) ->
      G + iota i (surf i j) * I <> 0) ->
   (In A_gmnc_b l \/ In A_gmns_b l -> forall j a b, (0 <= j < nsurf i)%Z -> (0 <= a < nt i)%Z -> (0 <= b < nz i)%Z ->
      mB i (surf i j) (gth i a) (gze i b) <> 0) ->
   exists C e0 E0, 0 < e0 /\
   forall prec emax pi cos_ sin' e, (2 <= prec)%Z -> (prec < emax)%Z -> (E0 <= emax)%Z ->
   sf_eps prec <= e -> e <= e0 -> libm_ok prec emax pi cos_ sin' e ->
   forall (i' : Inp (IEEE prec emax pi cos_ sin')) o', rounded (S := IEEE prec emax pi cos_ sin') (sf_is prec emax) e i' i -> valid o' i' ->
   exists r' ev', run_ok o' r' ev' /\
     (forall f j, In f [A_Boozer_I; A_Boozer_G] -> (0 <= j < nsurf i)%Z -> exists x y c,
        elem r f j = Some (Some y) /\ elem r' f j = Some (Some x) /\ sf_is prec emax x c /\ Rabs (c - y) <= C * e) /\
     (forall f k j, In f l -> (0 <= k < mnboz i)%Z -> (0 <= j < nsurf i)%Z -> exists x y c,
        elem2 r f k j = Some (Some y) /\ elem2 r' f k j = Some (Some x) /\ sf_is prec emax x c /\ Rabs (c - y) <= C * e)).
Proof. exact ieee_errors. Qed.
Example C76_case : valid (obj_of ex_rnd) ex_rnd /\ nfp_divides ex_rnd /\ asym ex_rnd = true /\
  (forall j, (0 <= j < nsurf ex_rnd)%Z -> bG ex_rnd (surf ex_rnd j) + iota ex_rnd (surf ex_rnd j) * bI ex_rnd (surf ex_rnd j) <> 0) /\
  (forall js t z, mB ex_rnd js t z <> 0) /\
  forall prec emax, (2 <= prec)%Z -> (prec < emax)%Z -> (12 <= emax)%Z ->
  exists pi cos_ sin', libm_ok prec emax pi cos_ sin' (2 * sf_eps prec) /\
    exists i', rounded (S := IEEE prec emax pi cos_ sin') (sf_is prec emax) (2 * sf_eps prec) i' ex_rnd /\ valid (obj_of i') i'.
Proof. exact ieee_case. Qed.

Theorem C76_comparison : forall prec emax x y a b, sf_is prec emax x a -> sf_is prec emax y b -> (SFltb x y = true <-> a < b).
Proof. exact ltb_ok. Qed.
Theorem C76_integers : forall prec emax, (32 <= prec)%Z -> (prec < emax)%Z -> forall z, (-2147483648 <= z <= 2147483647)%Z ->
  sf_is prec emax (sf_ofZ prec emax z) (IZR z) /\ sf_toZ prec emax (sf_ofZ prec emax z) = Some z.
Proof. exact int_exact. Qed.
Theorem C76_round_trip : forall prec emax pi cos_ sin' version x (w : world (IEEE prec emax pi cos_ sin')) i o2,
  writable version (wO w) i -> open_ok w -> lucky _ w -> usable o2 ->
  exists w1 w2, write_boozmn _ version x w = IOk tt w1 /\ read_boozmn _ x (setO w1 o2) = IOk tt w2 /\ restored (wO w) i (wO w2).
Proof. exact ieee_round_trip. Qed.
Example C76_file_case : forall prec emax pi cos_ sin', exists o : obj (IEEE prec emax pi cos_ sin'), writable "0.0.8" o (ex_inp _ true) /\ usable (obj_new (IEEE prec emax pi cos_ sin')).
Proof. exact ieee_file_case. Qed.

Theorem C76_finite_refuted : exists i : Inp RS, valid (obj_of i) i /\ nfp_divides i /\
  forall pi cos_ sin', exists i' : Inp (IEEE 53 1024 pi cos_ sin'),
    rounded (S := IEEE 53 1024 pi cos_ sin') (sf_is 53 1024) (sf_eps 53) i' i /\ valid (obj_of i') i' /\
    exists r ev, run_ok (obj_of i') r ev /\
      forall f k j, In f (outs (asym i)) -> (0 <= k < mnboz i)%Z -> (0 <= j < nsurf i)%Z ->
        elem2 r f k j = Some (Some S754_nan).
Proof. exact no_check_refuted. Qed.

Print Assumptions C76_accurate.
Print Assumptions C76_errors.
Print Assumptions C76_comparison.
Print Assumptions C76_integers.
Print Assumptions C76_round_trip.
Print Assumptions C76_finite_refuted.
