(** C74: the results depend continuously on the inputs. *)
From Coq Require Import ZArith QArith List String Bool Reals.
From Verif Require Import Scalar Prog Model Wp Func FuncExt Spec RSpec RThms2 RExamples RoundEx Stable.
Import ListNotations.
Local Open Scope Z_scope.
Local Open Scope R_scope.

Theorem C74_continuous : forall (o : obj RS) i l, valid o i -> nfp_divides i -> incl l (outs (asym i)) ->
  exists r ev, run_ok o r ev /\
  ((forall j I G, (0 <= j < nsurf i)%Z -> elem r A_Boozer_I j = Some (Some I) -> elem r A_Boozer_G j = Some (Some G) ->
      G + iota i (surf i j) * I <> 0) ->
   (In A_gmnc_b l \/ In A_gmns_b l -> forall j a b, (0 <= j < nsurf i)%Z -> (0 <= a < nt i)%Z -> (0 <= b < nz i)%Z ->
      mB i (surf i j) (gth i a) (gze i b) <> 0) ->
   exists C e0, 0 < e0 /\
   forall e (i' : Inp RS) (o' : obj RS), 0 <= e <= e0 -> within e i' i -> valid o' i' ->
   exists r' ev', run_ok o' r' ev' /\
     (forall f j, In f [A_Boozer_I; A_Boozer_G] -> (0 <= j < nsurf i)%Z -> exists x y : R,
        elem r f j = Some (Some y) /\ elem r' f j = Some (Some x) /\ Rabs (x - y) <= C * e) /\
     (forall f k j, In f l -> (0 <= k < mnboz i)%Z -> (0 <= j < nsurf i)%Z -> exists x y : R,
        elem2 r f k j = Some (Some y) /\ elem2 r' f k j = Some (Some x) /\ Rabs (x - y) <= C * e)).
Proof. exact stable. Qed.
Example C74_case : valid (obj_of ex_rnd) ex_rnd /\ nfp_divides ex_rnd /\
  (forall j, (0 <= j < nsurf ex_rnd)%Z -> bG ex_rnd (surf ex_rnd j) + iota ex_rnd (surf ex_rnd j) * bI ex_rnd (surf ex_rnd j) <> 0) /\
  (forall js t z, mB ex_rnd js t z <> 0) /\
  forall e, 0 <= e -> within e (bumped e) ex_rnd /\ valid (obj_of (bumped e)) (bumped e).
Proof. exact stable_case. Qed.

Print Assumptions C74_continuous.
