(** C71: discretisation and rounding errors together. *)
From Coq Require Import ZArith QArith List String Bool Reals.
From Verif Require Import Scalar Prog Model Wp Func FuncExt Spec RSum RSpec RPoint RThms RThms3 RExamples ConvMain ConvEx RoundSpec RoundEx Total.
Import ListNotations.
Local Open Scope Z_scope.
Local Open Scope R_scope.

(** ** C71
    l is the coefficient in the spectrum of the documented quantity Q in the Boozer angles (as in C58); [FL p emin M] are the
    floating point numbers of C68. *)
Theorem C71_total_error : forall (i : Inp RS) js I G J f Q c m n,
  (0 < nfp i)%Z -> nfp_divides i -> (nfp i | n)%Z ->
  G + iota i js * I <> 0 -> is_jacobian i js I G J ->
  documented i js I G f Q c -> B_nonzero i js f ->
  exists l,
  (forall N ms ns co si eps, (forall k, (0 <= k < N)%Z -> (nfp i | ns k)%Z) ->
    (forall t z, Rabs (Q t z - series N ms ns co si (mTh i js I G t z) (mZe i js I G t z)) <= eps) ->
    (forall t z, 0 <= J t z) -> Rabs (l - amp c N ms ns co si m n) <= 2 * eps) /\
  forall q, exists C, 0 <= C /\ forall mb nb o,
    let i' := at_res i mb nb in
    valid o i' -> exists r ev, run_ok o r ev /\
    ((forall j I' G', (0 <= j < nsurf i)%Z -> elem r A_Boozer_I j = Some (Some I') -> elem r A_Boozer_G j = Some (Some G') ->
        G' + iota i (surf i j) * I' <> 0 /\ forall t z, mB i (surf i j) t z <> 0) ->
     exists D p0 M0, forall p emin M, (p0 <= p)%nat -> (emin <= 0)%Z -> M0 <= M ->
     exists r' ev', run_ok (obj_of (fl_inp p emin M i')) r' ev' /\
     forall b k, (0 <= b < nsurf i)%Z -> surf i b = js -> 
        elem r A_Boozer_I b = Some (Some I) -> elem r A_Boozer_G b = Some (Some G) ->
        elemN r N_xm_b k = Some (Some m) -> elemN r N_xn_b k = Some (Some n) ->
        exists x, elem2 r' f k b = Some (Some (Some x)) /\
          Rabs (x - l) <= C * (/ IZR (nt i') ^ q + / IZR (nz i') ^ q) + D / 2 ^ p).
Proof. exact total_error. Qed.
Example C71_case : forall js,
  (0 < nfp ex_helical)%Z /\ nfp_divides ex_helical /\ 40 + iota ex_helical js * 0 <> 0 /\
  is_jacobian ex_helical js 0 40 ex_helical_J /\ (forall t z, 0 <= ex_helical_J t z) /\
  documented ex_helical js 0 40 A_gmns_b (mSqrtg ex_helical js 0 40) false /\ B_nonzero ex_helical js A_gmns_b /\
  forall mb nb, (1 <= mb <= 20)%Z -> (0 <= nb <= 20)%Z -> let i' := at_res ex_helical mb nb in valid (obj_of i') i' /\
  forall r ev, run_ok (obj_of i') r ev ->
    (forall j, (0 <= j < nsurf ex_helical)%Z -> elem r A_Boozer_I j = Some (Some 0) /\ elem r A_Boozer_G j = Some (Some 40)) /\
    (forall j I' G', (0 <= j < nsurf ex_helical)%Z -> elem r A_Boozer_I j = Some (Some I') -> elem r A_Boozer_G j = Some (Some G') ->
        G' + iota ex_helical (surf ex_helical j) * I' <> 0 /\ forall t z, mB ex_helical (surf ex_helical j) t z <> 0).
Proof. exact total_case. Qed.

Print Assumptions C71_total_error.
