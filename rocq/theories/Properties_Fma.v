(** Property C78: the statements. *)
From Coq Require Import ZArith QArith List String Bool Reals Floats.SpecFloat.
From Verif Require Import Scalar Prog Model Wp Func FuncExt Spec RSpec RThms2 RExamples RoundSpec RoundEx Sim Cert CertThm CertEx Ieee
  Fma LooseProof FmaProof FmaThm FmaEx LooseCert.
Import ListNotations.
Local Open Scope Z_scope.
Local Open Scope R_scope.

(** ** C78 *)
Theorem C78_fused : forall prec emax, (2 <= prec)%Z -> (prec < emax)%Z ->
  forall x y z a c d, sf_is prec emax x a -> sf_is prec emax y c -> sf_is prec emax z d -> Rabs (a * c + d) <= powerRZ 2 (emax - 1) ->
  exists r, sf_is prec emax (sf_fma prec emax x y z) r /\ Rabs (r - (a * c + d)) <= sf_eps prec * (1 + Rabs (a * c + d)).
Proof. exact fma_ok. Qed.
Example C78_choice_case : valid_binary 53 1024 ch_x = true /\ valid_binary 53 1024 ch_y = true /\
  diffs 53 1024 (times 53 1024 (plain ch_x) (plain ch_x)) (plain ch_y) (plain (S754_zero false)) /\
  diffs 53 1024 (times 53 1024 (plain ch_x) (plain ch_x)) (plain ch_y) (plain (S754_finite false 4503599627370496 (-156))).
Proof. exact fma_differs. Qed.
Theorem C78_loose : forall prec emax, (2 <= prec)%Z -> (prec < emax)%Z ->
  forall pi cos_ sin' e, sf_eps prec <= e -> libm_ok prec emax pi cos_ sin' e ->
  loose (FMA prec emax pi cos_ sin') (uses prec emax) e (powerRZ 2 (emax - 1)).
Proof. exact FMA_loose. Qed.

Theorem C78_any : forall (o : obj RS) i l, valid o i -> nfp_divides i -> incl l (outs (asym i)) ->
  exists r ev, run_ok o r ev /\
  ((forall j I G, (0 <= j < nsurf i)%Z -> elem r A_Boozer_I j = Some (Some I) -> elem r A_Boozer_G j = Some (Some G) ->
      G + iota i (surf i j) * I <> 0) ->
   (In A_gmnc_b l \/ In A_gmns_b l -> forall j a b, (0 <= j < nsurf i)%Z -> (0 <= a < nt i)%Z -> (0 <= b < nz i)%Z ->
      mB i (surf i j) (gth i a) (gze i b) <> 0) ->
   exists C e0 M0, 0 < e0 /\
   forall S v e M (i' : Inp S) (o' : obj S), loose S v e M -> e <= e0 -> M0 <= M -> alike S RS (input S v e) i' i -> valid o' i' ->
   exists r' ev', run_ok o' r' ev' /\
     (forall f j, In f [A_Boozer_I; A_Boozer_G] -> (0 <= j < nsurf i)%Z -> exists x y,
        elem r f j = Some (Some y) /\ elem r' f j = Some (Some x) /\ some S v x /\ forall w, v x w -> exists c, w = Some c /\ Rabs (c - y) <= C * e) /\
     (forall f k j, In f l -> (0 <= k < mnboz i)%Z -> (0 <= j < nsurf i)%Z -> exists x y,
        elem2 r f k j = Some (Some y) /\ elem2 r' f k j = Some (Some x) /\ some S v x /\ forall w, v x w -> exists c, w = Some c /\ Rabs (c - y) <= C * e)).
Proof. exact loose_errors. Qed.
Theorem C78_errors : forall (o : obj RS) i l, valid o i -> nfp_divides i -> incl l (outs (asym i)) ->
  exists r ev, run_ok o r ev /\
  ((forall j I G, (0 <= j < nsurf i)%Z -> elem r A_Boozer_I j = Some (Some I) -> elem r A_Boozer_G j = Some (Some G) ->
      G + iota i (surf i j) * I <> 0) ->
   (In A_gmnc_b l \/ In A_gmns_b l -> forall j a b, (0 <= j < nsurf i)%Z -> (0 <= a < nt i)%Z -> (0 <= b < nz i)%Z ->
      mB i (surf i j) (gth i a) (gze i b) <> 0) ->
   exists C e0 E0, 0 < e0 /\
   forall prec emax pi cos_ sin' e, (2 <= prec)%Z -> (prec < emax)%Z -> (E0 <= emax)%Z ->
   sf_eps prec <= e -> e <= e0 -> libm_ok prec emax pi cos_ sin' e ->
   forall (i0 : Inp (IEEE prec emax pi cos_ sin')) (i' : Inp (FMA prec emax pi cos_ sin')) o',
   rounded (S := IEEE prec emax pi cos_ sin') (sf_is prec emax) e i0 i ->
   alike (FMA prec emax pi cos_ sin') (IEEE prec emax pi cos_ sin') (fun X x => X = only x) i' i0 -> valid o' i' ->
   exists r' ev', run_ok o' r' ev' /\
     (forall f j, In f [A_Boozer_I; A_Boozer_G] -> (0 <= j < nsurf i)%Z -> exists X y,
        elem r f j = Some (Some y) /\ elem r' f j = Some (Some X) /\ (exists x, X x) /\
        forall x, X x -> exists c, sf_is prec emax (fst x) c /\ Rabs (c - y) <= C * e) /\
     (forall f k j, In f l -> (0 <= k < mnboz i)%Z -> (0 <= j < nsurf i)%Z -> exists X y,
        elem2 r f k j = Some (Some y) /\ elem2 r' f k j = Some (Some X) /\ (exists x, X x) /\
        forall x, X x -> exists c, sf_is prec emax (fst x) c /\ Rabs (c - y) <= C * e)).
Proof. exact fma_errors. Qed.
Theorem C78_contracted : forall (o : obj RS) i l, valid o i -> nfp_divides i -> incl l (outs (asym i)) ->
  exists r ev, run_ok o r ev /\
  ((forall j I G, (0 <= j < nsurf i)%Z -> elem r A_Boozer_I j = Some (Some I) -> elem r A_Boozer_G j = Some (Some G) ->
      G + iota i (surf i j) * I <> 0) ->
   (In A_gmnc_b l \/ In A_gmns_b l -> forall j a b, (0 <= j < nsurf i)%Z -> (0 <= a < nt i)%Z -> (0 <= b < nz i)%Z ->
      mB i (surf i j) (gth i a) (gze i b) <> 0) ->
   exists C e0 E0, 0 < e0 /\
   forall prec emax pi cos_ sin' e, (2 <= prec)%Z -> (prec < emax)%Z -> (E0 <= emax)%Z ->
   sf_eps prec <= e -> e <= e0 -> libm_ok prec emax pi cos_ sin' e ->
   forall add sub, contracts prec emax add sub ->
   forall (i0 : Inp (IEEE prec emax pi cos_ sin')) (i' : Inp (CONTRACT prec emax pi cos_ sin' add sub)) o',
   rounded (S := IEEE prec emax pi cos_ sin') (sf_is prec emax) e i0 i ->
   alike (CONTRACT prec emax pi cos_ sin' add sub) (IEEE prec emax pi cos_ sin') (fun c x => c = plain x) i' i0 -> valid o' i' ->
   exists r' ev', run_ok o' r' ev' /\
     (forall f j, In f [A_Boozer_I; A_Boozer_G] -> (0 <= j < nsurf i)%Z -> exists x y c,
        elem r f j = Some (Some y) /\ elem r' f j = Some (Some x) /\ sf_is prec emax (fst x) c /\ Rabs (c - y) <= C * e) /\
     (forall f k j, In f l -> (0 <= k < mnboz i)%Z -> (0 <= j < nsurf i)%Z -> exists x y c,
        elem2 r f k j = Some (Some y) /\ elem2 r' f k j = Some (Some x) /\ sf_is prec emax (fst x) c /\ Rabs (c - y) <= C * e)).
Proof. exact contracted. Qed.
Example C78_case : valid (obj_of ex_rnd) ex_rnd /\ nfp_divides ex_rnd /\ asym ex_rnd = true /\
  (forall j, (0 <= j < nsurf ex_rnd)%Z -> bG ex_rnd (surf ex_rnd j) + iota ex_rnd (surf ex_rnd j) * bI ex_rnd (surf ex_rnd j) <> 0) /\
  (forall js t z, mB ex_rnd js t z <> 0) /\
  forall prec emax, (2 <= prec)%Z -> (prec < emax)%Z -> (12 <= emax)%Z ->
  exists pi cos_ sin', libm_ok prec emax pi cos_ sin' (2 * sf_eps prec) /\
    exists i0, rounded (S := IEEE prec emax pi cos_ sin') (sf_is prec emax) (2 * sf_eps prec) i0 ex_rnd /\
    (exists i', alike (FMA prec emax pi cos_ sin') (IEEE prec emax pi cos_ sin') (fun X x => X = only x) i' i0 /\ valid (obj_of i') i') /\
    exists add sub, contracts prec emax add sub /\ (add, sub) = (fuse_add prec emax, fuse_sub prec emax) /\
    exists i', alike (CONTRACT prec emax pi cos_ sin' add sub) (IEEE prec emax pi cos_ sin') (fun c x => c = plain x) i' i0 /\ valid (obj_of i') i'.
Proof. exact fma_case. Qed.
Theorem C78_without : forall prec emax pi cos_ sin' (i0 : Inp (IEEE prec emax pi cos_ sin'))
    (i' : Inp (CONTRACT prec emax pi cos_ sin' (keep_add prec emax) (keep_sub prec emax))) o0 o',
  alike (CONTRACT prec emax pi cos_ sin' (keep_add prec emax) (keep_sub prec emax)) (IEEE prec emax pi cos_ sin') (fun c x => c = plain x) i' i0 ->
  valid o0 i0 -> valid o' i' ->
  exists r ev r' ev', run_ok o0 r ev /\ run_ok o' r' ev' /\
    forall f k j, In f (outs (asym i0)) -> (0 <= k < mnboz i0)%Z -> (0 <= j < nsurf i0)%Z ->
      exists x, elem2 r f k j = Some (Some (fst x)) /\ elem2 r' f k j = Some (Some x).
Proof. exact keep_is_ieee. Qed.

Theorem C78_certified : forall p e M pi n (S : Scalar) v er Mr (i : Inp RS) (i' : Inp S) (q : Inp (CERT p e M pi n)) o o' oq,
  (0 <= p)%Z -> loose S v er Mr -> 4 <= Mr -> er * IZR (2 ^ p) <= IZR e -> IZR M <= Mr * IZR (2 ^ p) ->
  alike S RS (input S v er) i' i -> covers p e M pi n er i q -> valid o i -> valid o' i' -> valid oq q ->
  exists r ev r' ev' rq evq, run_ok o r ev /\ run_ok o' r' ev' /\ run_ok oq rq evq /\
    (forall f j, In f [A_Boozer_I; A_Boozer_G] -> (0 <= j < nsurf i)%Z -> exists y x z,
       elem r f j = Some (Some y) /\ elem r' f j = Some (Some x) /\ elem rq f j = Some (Some z) /\
       forall m rad E, z = Some (m, rad, E) ->
         some S v x /\ forall w, v x w -> exists c, w = Some c /\ Rabs (c - y) * IZR (2 ^ p) <= IZR E) /\
    (forall f k j, In f (outs (asym i)) -> (0 <= k < mnboz i)%Z -> (0 <= j < nsurf i)%Z -> exists y x z,
       elem2 r f k j = Some (Some y) /\ elem2 r' f k j = Some (Some x) /\ elem2 rq f k j = Some (Some z) /\
       forall m rad E, z = Some (m, rad, E) ->
         some S v x /\ forall w, v x w -> exists c, w = Some c /\ Rabs (c - y) * IZR (2 ^ p) <= IZR E).
Proof. exact loose_certified. Qed.
Example C78_double_case : forall pi cos_ sin', libm_ok 53 1024 pi cos_ sin' (powerRZ 2 (-51)) ->
  forall (i0 : Inp (IEEE 53 1024 pi cos_ sin')) (i' : Inp (FMA 53 1024 pi cos_ sin')) o',
  rounded (S := IEEE 53 1024 pi cos_ sin') (sf_is 53 1024) (powerRZ 2 (-51)) i0 (ex_tok RS) ->
  alike (FMA 53 1024 pi cos_ sin') (IEEE 53 1024 pi cos_ sin') (fun X x => X = only x) i' i0 -> valid o' i' ->
  exists r ev r' ev', run_ok (obj_of (ex_tok RS)) r ev /\ run_ok o' r' ev' /\
    (forall f j, In f [A_Boozer_I; A_Boozer_G] -> (0 <= j < 2)%Z -> exists y X,
       elem r f j = Some (Some y) /\ elem r' f j = Some (Some X) /\ (exists x, X x) /\
       forall x, X x -> exists c, sf_is 53 1024 (fst x) c /\ Rabs (c - y) <= powerRZ 2 (-41)) /\
    (forall f k j, In f (outs false) -> (0 <= k < 2)%Z -> (0 <= j < 2)%Z -> exists y X,
       elem2 r f k j = Some (Some y) /\ elem2 r' f k j = Some (Some X) /\ (exists x, X x) /\
       forall x, X x -> exists c, sf_is 53 1024 (fst x) c /\ Rabs (c - y) <= powerRZ 2 (-41)).
Proof. exact tok_fma. Qed.
Example C78_input_case : (exists pi cos_ sin', libm_ok 53 1024 pi cos_ sin' (powerRZ 2 (-51))) /\
  forall pi cos_ sin', libm_ok 53 1024 pi cos_ sin' (powerRZ 2 (-51)) -> exists i0 i',
  rounded (S := IEEE 53 1024 pi cos_ sin') (sf_is 53 1024) (powerRZ 2 (-51)) i0 (ex_tok RS) /\
  alike (FMA 53 1024 pi cos_ sin') (IEEE 53 1024 pi cos_ sin') (fun X x => X = only x) i' i0 /\ valid (obj_of i') i'.
Proof. exact (conj tok_libm tok_only). Qed.

Print Assumptions C78_fused.
Print Assumptions C78_loose.
Print Assumptions C78_any.
Print Assumptions C78_errors.
Print Assumptions C78_contracted.
Print Assumptions C78_without.
Print Assumptions C78_certified.
Print Assumptions C78_double_case.
