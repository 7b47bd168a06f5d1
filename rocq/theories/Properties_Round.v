(** Property C68: the statements. *)
From Coq Require Import ZArith QArith List String Bool Reals.
From Verif Require Import Scalar Prog Model Wp Func FuncExt Spec RSpec RThms2 RExamples RoundSpec RoundThm RoundEx.
Import ListNotations.
Local Open Scope Z_scope.
Local Open Scope R_scope.

(** ** C68 *)
Theorem C68_rounding : forall (o : obj RS) i l, valid o i -> nfp_divides i -> incl l (outs (asym i)) ->
  exists r ev, run_ok o r ev /\
  ((forall j I G, (0 <= j < nsurf i)%Z -> elem r A_Boozer_I j = Some (Some I) -> elem r A_Boozer_G j = Some (Some G) ->
      G + iota i (surf i j) * I <> 0) ->
   (In A_gmnc_b l \/ In A_gmns_b l -> forall j a b, (0 <= j < nsurf i)%Z -> (0 <= a < nt i)%Z -> (0 <= b < nz i)%Z ->
      mB i (surf i j) (gth i a) (gze i b) <> 0) ->
   exists C e0 M0, 0 < e0 /\
   forall S v e M (i' : Inp S) (o' : obj S), accurate S v e M -> e <= e0 -> M0 <= M -> rounded v e i' i -> valid o' i' ->
   exists r' ev', run_ok o' r' ev' /\
     (forall f j, In f [A_Boozer_I; A_Boozer_G] -> (0 <= j < nsurf i)%Z -> exists x y c,
        elem r f j = Some (Some y) /\ elem r' f j = Some (Some x) /\ v x c /\ Rabs (c - y) <= C * e) /\
     (forall f k j, In f l -> (0 <= k < mnboz i)%Z -> (0 <= j < nsurf i)%Z -> exists x y c,
        elem2 r f k j = Some (Some y) /\ elem2 r' f k j = Some (Some x) /\ v x c /\ Rabs (c - y) <= C * e)).
Proof. exact rounding_errors. Qed.

Theorem C68_floating_point : forall (o : obj RS) i l, valid o i -> nfp_divides i -> incl l (outs (asym i)) ->
  exists r ev, run_ok o r ev /\
  ((forall j I G, (0 <= j < nsurf i)%Z -> elem r A_Boozer_I j = Some (Some I) -> elem r A_Boozer_G j = Some (Some G) ->
      G + iota i (surf i j) * I <> 0) ->
   (In A_gmnc_b l \/ In A_gmns_b l -> forall j a b, (0 <= j < nsurf i)%Z -> (0 <= a < nt i)%Z -> (0 <= b < nz i)%Z ->
      mB i (surf i j) (gth i a) (gze i b) <> 0) ->
   exists C p0 M0, forall p emin M, (p0 <= p)%nat -> (emin <= 0)%Z -> M0 <= M ->
   exists r' ev', run_ok (obj_of (fl_inp p emin M i)) r' ev' /\
     (forall f j, In f [A_Boozer_I; A_Boozer_G] -> (0 <= j < nsurf i)%Z -> exists y c,
        elem r f j = Some (Some y) /\ elem r' f j = Some (Some (Some c)) /\ Rabs (c - y) <= C / 2 ^ p) /\
     (forall f k j, In f l -> (0 <= k < mnboz i)%Z -> (0 <= j < nsurf i)%Z -> exists y c,
        elem2 r f k j = Some (Some y) /\ elem2 r' f k j = Some (Some (Some c)) /\ Rabs (c - y) <= C / 2 ^ p)).
Proof. exact floating_point. Qed.
Example C68_case : valid (obj_of ex_rnd) ex_rnd /\ nfp_divides ex_rnd /\ asym ex_rnd = true /\
  (forall j, (0 <= j < nsurf ex_rnd)%Z -> bG ex_rnd (surf ex_rnd j) + iota ex_rnd (surf ex_rnd j) * bI ex_rnd (surf ex_rnd j) <> 0) /\
  (forall js t z, mB ex_rnd js t z <> 0) /\
  forall p emin M, (emin <= 0)%Z -> 4 <= M -> accurate (FL p emin M) fl_v (fl_e p) M /\
    rounded (S := FL p emin M) fl_v (fl_e p) (fl_inp p emin M ex_rnd) ex_rnd /\ valid (obj_of (fl_inp p emin M ex_rnd)) (fl_inp p emin M ex_rnd).
Proof. exact ex_rnd_case. Qed.

Print Assumptions C68_rounding.
Print Assumptions C68_floating_point.
