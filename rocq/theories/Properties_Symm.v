(** C69: symmetries of the input are symmetries of the output. C70: the number of field periods
    and the toroidal resolution. C16: the accuracy check. Real arithmetic. *)
From Coq Require Import ZArith List String Bool Reals.
From Verif Require Import Scalar Prog Model Wp Func Step TrigProof InitProof SurfProof RunProof FuncExt Spec RunThms RSum RSpec RPoint RThms3 RExamples PlotReal2 REquiv RSymm RSymmEx.
Import ListNotations.
Local Open Scope Z_scope.
Local Open Scope R_scope.

(** ** C69 *)
Theorem C69_symmetry : forall (o : obj RS) i, valid o i -> nfp_divides i ->
  exists r e, run_ok o r e /\
  forall a b j k m n, (0 <= j < nsurf i)%Z -> invariant i (surf i j) a b ->
    elemN r N_xm_b k = Some (Some m) -> elemN r N_xn_b k = Some (Some n) -> ~ whole i a b m n ->
    forall f, In f (outs (asym i)) -> elem2 r f k j = Some (Some 0).
Proof. exact symmetry_kept. Qed.
Theorem C69_axisymmetric : forall (o : obj RS) i, valid o i -> nfp_divides i ->
  exists r e, run_ok o r e /\
  forall j k n, (0 <= j < nsurf i)%Z -> axisymmetric i (surf i j) ->
    elemN r N_xn_b k = Some (Some n) -> n <> 0%Z ->
    forall f, In f (outs (asym i)) -> elem2 r f k j = Some (Some 0).
Proof. exact axisymmetry_kept. Qed.
Theorem C69_helical : forall (o : obj RS) i M N, valid o i -> nfp_divides i -> (0 < nboz i)%Z -> nboz i = mboz i ->
  exists r e, run_ok o r e /\
  forall j k m n, (0 <= j < nsurf i)%Z -> helical i (surf i j) M N ->
    elemN r N_xm_b k = Some (Some m) -> elemN r N_xn_b k = Some (Some n) ->
    (0 < Z.abs (m * (N * nfp i) - n * M) < (4 * mboz i + 2) * nfp i)%Z ->
    forall f, In f (outs (asym i)) -> elem2 r f k j = Some (Some 0).
Proof. exact helicity_kept. Qed.
Example C69_axisymmetric_case : forall asy, exists i, asym i = asy /\ valid (obj_of i) i /\ nfp_divides i /\ (0 < nsurf i)%Z /\ (0 < nboz i)%Z /\
  (forall js, axisymmetric i js /\ lmns i 1 js <> 0 /\ bG i js + iota i js * bI i js <> 0) /\
  valid (obj_of (with_periods 1 5 0 0 i)) (with_periods 1 5 0 0 i) /\ nfp_divides (with_periods 1 5 0 0 i).
Proof. exact axi_case. Qed.
Example C69_helical_case : forall asy, exists i, asym i = asy /\ valid (obj_of i) i /\ nfp_divides i /\ (0 < nsurf i)%Z /\ (0 < nboz i)%Z /\ nboz i = mboz i /\
  (forall js, helical i js 1 1 /\ invariant i js 1 1 /\ ~ axisymmetric i js /\ lmns i 1 js <> 0 /\ bG i js + iota i js * bI i js <> 0) /\
  nfp i = (3 * 1)%Z /\ (2 * 10 + 1 = 3 * (2 * nboz i + 1))%Z /\
  let i' := with_periods 1 10 (3 * ntor i) (3 * ntorq i) i in valid (obj_of i') i'.
Proof. exact hel_case. Qed.

(** ** C70; the inputs of the two examples above meet the hypotheses *)
Theorem C70_axisymmetric_resolution : forall (o o' : obj RS) i nf nb nto ntoq, valid o i -> nfp_divides i ->
  let i' := with_periods nf nb nto ntoq i in valid o' i' -> nfp_divides i' ->
  exists r e r' e', run_ok o r e /\ run_ok o' r' e' /\
  forall j k k' m, (0 <= j < nsurf i)%Z -> axisymmetric i (surf i j) ->
    elemN r N_xm_b k = Some (Some m) -> elemN r N_xn_b k = Some (Some 0%Z) ->
    elemN r' N_xm_b k' = Some (Some m) -> elemN r' N_xn_b k' = Some (Some 0%Z) ->
    forall f, In f (outs (asym i)) -> elem2 r' f k' j = elem2 r f k j /\ elem2 r f k j <> None.
Proof. exact axisymmetric_resolution. Qed.
Theorem C70_fewer_periods : forall (o o' : obj RS) i N nf nb, valid o i -> nfp_divides i ->
  (0 < nboz i)%Z -> (nfp i = N * nf)%Z -> (2 * nb + 1 = N * (2 * nboz i + 1))%Z ->
  let i' := with_periods nf nb (N * ntor i) (N * ntorq i) i in valid o' i' ->
  exists r e r' e', run_ok o r e /\ run_ok o' r' e' /\
  forall j, (0 <= j < nsurf i)%Z ->
    (forall f, In f [A_Boozer_I; A_Boozer_G] -> elem r' f j = elem r f j /\ elem r f j <> None) /\
    forall k' m n, elemN r' N_xm_b k' = Some (Some m) -> elemN r' N_xn_b k' = Some (Some n) ->
    (~ (nfp i | n)%Z -> forall f, In f (outs (asym i)) -> elem2 r' f k' j = Some (Some 0)) /\
    (forall k, elemN r N_xm_b k = Some (Some m) -> elemN r N_xn_b k = Some (Some n) ->
       forall f, In f (outs (asym i)) -> elem2 r' f k' j = elem2 r f k j /\ elem2 r f k j <> None).
Proof. exact fewer_periods. Qed.

(** ** C16 *)
Theorem C16_no_error : forall (o : obj RS) i, valid o i ->
  resolved i (mnmax i) (xm i) (xn i) -> resolved i (mnmaxq i) (xmq i) (xnq i) -> (0 < verb i)%Z ->
  exists o' ev line, run_ok o o' ev /\ filter is_acc ev = map line (zseq 0 (Z.to_nat (nsurf i))) /\
  forall b, (0 <= b < nsurf i)%Z -> in_boozer i (surf i b) ->
    bG i (surf i b) + iota i (surf i b) * bI i (surf i b) <> 0 ->
    let bs := map (fun p => mB i (surf i b) (fst p) (snd p)) (sym_points i) in
    line b = @mkEv RS "accuracy" [b; surf i b] (bs ++ bs ++ [0; 0; 0; 0]).
Proof. exact no_error. Qed.
Example C16_no_error_case : forall asy, exists i, asym i = asy /\ valid (obj_of i) i /\
  resolved i (mnmax i) (xm i) (xn i) /\ resolved i (mnmaxq i) (xmq i) (xnq i) /\ (0 < verb i)%Z /\ (0 < nsurf i)%Z /\
  forall b, (0 <= b < nsurf i)%Z -> in_boozer i (surf i b) /\ bG i (surf i b) + iota i (surf i b) * bI i (surf i b) <> 0 /\
    mB i (surf i b) 0 0 <> mB i (surf i b) PI 0.
Proof. exact no_error_case. Qed.

Print Assumptions C69_symmetry.
Print Assumptions C69_axisymmetric.
Print Assumptions C69_helical.
Print Assumptions C70_axisymmetric_resolution.
Print Assumptions C70_fewer_periods.
Print Assumptions C16_no_error.
