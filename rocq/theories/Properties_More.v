(** C63: what the documentation of the inputs says is needed. C64-C67: other choices of the
    angles, in real arithmetic. *)
From Coq Require Import ZArith List String Bool Reals.
From Verif Require Import Scalar Prog Model Wp Func FuncExt Spec RunThms Vmec VmecSpec VmecThms Par Needed
  RSum RSpec RExamples REquiv REquivEx.
Import ListNotations.
Local Open Scope Z_scope.

(** ** C63 *)
Theorem C63_vmec_ignores : forall (S : Scalar) (o : obj S) v v',
  oB o B_asym = Some false -> same_sym_args S v v' -> run (init_from_vmec S v') o = run (init_from_vmec S v) o.
Proof. exact vmec_ignores. Qed.
Example C63_vmec_case : forall S : Scalar, exists (v v' : vargs S), same_sym_args S v v' /\
  v' <> v /\ oB (obj_of (vex S false 1 2 two_surfs)) B_asym = Some false /\
  exists o' ev, run (init_from_vmec S v) (obj_of (vex S false 1 2 two_surfs)) = ROk tt o' ev.
Proof. exact needed_case. Qed.
Theorem C63_s_in_only_s_b : forall (S : Scalar) (o : obj S) i a g, valid o i -> vec_is a (nsin i) g ->
  exists r r' ev s, run_ok o r ev /\ run_ok (updA o A_s_in a) r' ev /\
    obj_eq r' (updA (updA r A_s_in a) A_s_b s).
Proof. exact (@s_in_for_s_b). Qed.
Theorem C63_s_in_required : forall (S : Scalar) (o : obj S) i, valid o i -> 1 <= nsurf i ->
  exists why, run (bx_run S) (updA o A_s_in empty_vec) = RUB why.
Proof. exact (@s_in_missing). Qed.
Example C63_s_in_case : forall (S : Scalar) asy, valid (obj_of (ex_inp S asy)) (ex_inp S asy) /\ 1 <= nsurf (ex_inp S asy) /\
  vec_is (tab 3 (fun k => fofZ S (k + 7))) (nsin (ex_inp S asy)) (fun k => fofZ S (k + 7)).
Proof. exact s_in_case. Qed.
Theorem C63_s_in_refuted : forall S : Scalar, exists (o : obj S) i, valid o i /\
  exists why, run (bx_run S) (updA o A_s_in empty_vec) = RUB why.
Proof. exact s_in_refuted. Qed.
Theorem C63_lmns_size_refuted : forall S : Scalar, exists (o : obj S) i a g, valid o i /\ mat_is a (mnmaxq i) (nsin i) g /\
  exists why, run (bx_run S) (updA o A_lmns a) = RUB why.
Proof. exact (@lmns_size). Qed.

Local Open Scope R_scope.

(** ** C64 *)
Theorem C64_origin : forall (o o' : obj RS) i a b,
  valid o i -> nfp_divides i ->
  asym i = true \/ (nt i | 2 * a)%Z /\ (nz i | 2 * b)%Z -> valid o' (moved a b i) ->
  exists r e r' e', run_ok o r e /\ run_ok o' r' e' /\
  forall j, (0 <= j < nsurf i)%Z ->
    elem r' A_Boozer_I j = elem r A_Boozer_I j /\ elem r A_Boozer_I j <> None /\
    elem r' A_Boozer_G j = elem r A_Boozer_G j /\ elem r A_Boozer_G j <> None /\
    forall k m n, elemN r N_xm_b k = Some (Some m) -> elemN r N_xn_b k = Some (Some n) ->
      let p := phase m n (gth i a) (gze i b) in
      (asym i = true -> forall c s, In (c, s) pairs -> exists x y,
         elem2 r c k j = Some (Some x) /\ elem2 r s k j = Some (Some y) /\
         elem2 r' c k j = Some (Some (x * cos p + y * sin p)) /\ elem2 r' s k j = Some (Some (y * cos p - x * sin p))) /\
      (asym i = false -> forall f, In f sym_outs -> exists x,
         elem2 r f k j = Some (Some x) /\ elem2 r' f k j = Some (Some (x * cos p))).
Proof. exact origin_of_angles. Qed.
Example C64_case : valid (obj_of ex_phys) ex_phys /\ nfp_divides ex_phys /\ asym ex_phys = true /\
  (forall a b, valid (obj_of (moved a b ex_phys)) (moved a b ex_phys)) /\
  valid (obj_of (ex_inp RS false)) (ex_inp RS false) /\ nfp_divides (ex_inp RS false) /\ asym (ex_inp RS false) = false /\
  (nt (ex_inp RS false) | 2 * 5)%Z /\ (nz (ex_inp RS false) | 2 * 3)%Z /\
  valid (obj_of (moved 5 3 (ex_inp RS false))) (moved 5 3 (ex_inp RS false)).
Proof. exact moved_case. Qed.

(** ** C65 *)
Theorem C65_lambda : forall (o o' : obj RS) i k0 c,
  valid o i -> nfp_divides i -> asym i = true ->
  (0 <= k0 < mnmax i)%Z -> xm i k0 = 0%Z -> xn i k0 = 0%Z -> valid o' (add_lambda k0 c i) ->
  exists r e r' e', run_ok o r e /\ run_ok o' r' e' /\
  forall j, (0 <= j < nsurf i)%Z -> exists I G,
    elem r A_Boozer_I j = Some (Some I) /\ elem r' A_Boozer_I j = Some (Some I) /\
    elem r A_Boozer_G j = Some (Some G) /\ elem r' A_Boozer_G j = Some (Some G) /\
    (G + iota i (surf i j) * I <> 0 ->
     forall k m n, elemN r N_xm_b k = Some (Some m) -> elemN r N_xn_b k = Some (Some n) ->
      let d := c (surf i j) / (G + iota i (surf i j) * I) in
      let p := phase m n (d * G) (- d * I) in
      forall fc fs, In (fc, fs) [(A_bmnc_b, A_bmns_b); (A_rmnc_b, A_rmns_b); (A_zmnc_b, A_zmns_b); (A_gmnc_b, A_gmns_b)] ->
      exists x y,
         elem2 r fc k j = Some (Some x) /\ elem2 r fs k j = Some (Some y) /\
         elem2 r' fc k j = Some (Some (x * cos p - y * sin p)) /\ elem2 r' fs k j = Some (Some (y * cos p + x * sin p))).
Proof. exact constant_in_lambda. Qed.
Example C65_case : valid (obj_of ex_phys) ex_phys /\ nfp_divides ex_phys /\ asym ex_phys = true /\
  (0 <= 0 < mnmax ex_phys)%Z /\ xm ex_phys 0 = 0%Z /\ xn ex_phys 0 = 0%Z /\
  (forall c, valid (obj_of (add_lambda 0 c ex_phys)) (add_lambda 0 c ex_phys)) /\
  forall b, (0 <= b < nsurf ex_phys)%Z -> bG ex_phys (surf ex_phys b) + iota ex_phys (surf ex_phys b) * bI ex_phys (surf ex_phys b) <> 0.
Proof. exact lambda_case. Qed.

(** ** C66 *)
Theorem C66_reversed : forall (o o' : obj RS) i,
  valid o i -> nfp_divides i -> valid o' (reversed i) ->
  exists r e r' e', run_ok o r e /\ run_ok o' r' e' /\
  forall j k, (0 <= j < nsurf i)%Z -> (0 <= k < mnboz i)%Z ->
    (forall f, In f [A_Boozer_I; A_Boozer_G] -> elem r' f j = elem r f j /\ elem r f j <> None) /\
    (forall f, In f sym_outs -> elem2 r' f k j = elem2 r f k j /\ elem2 r f k j <> None) /\
    (asym i = true -> forall f, In f asym_outs -> exists x, elem2 r f k j = Some (Some x) /\ elem2 r' f k j = Some (Some (- x))).
Proof. exact reversed_angles. Qed.
Example C66_case : valid (obj_of ex_phys) ex_phys /\ nfp_divides ex_phys /\ asym ex_phys = true /\
  valid (obj_of (reversed ex_phys)) (reversed ex_phys).
Proof. exact reversed_case. Qed.

(** ** C67 *)
Theorem C67_mirror : forall (o o' : obj RS) i,
  valid o i -> nfp_divides i -> valid o' (mirrored i) ->
  exists r e r' e', run_ok o r e /\ run_ok o' r' e' /\
  forall j, (0 <= j < nsurf i)%Z ->
    elem r' A_Boozer_I j = elem r A_Boozer_I j /\ elem r A_Boozer_I j <> None /\
    (exists G, elem r A_Boozer_G j = Some (Some G) /\ elem r' A_Boozer_G j = Some (Some (- G))) /\
    forall k k' m m' n n', elemN r N_xm_b k = Some (Some m) -> elemN r N_xn_b k = Some (Some n) ->
      elemN r N_xm_b k' = Some (Some m') -> elemN r N_xn_b k' = Some (Some n') ->
      forall f s s0, In (f, s, s0) [(A_bmnc_b, 1, 1); (A_rmnc_b, 1, 1); (A_zmns_b, 1, -1); (A_numns_b, -1, 1); (A_gmnc_b, -1, -1)] \/
        asym i = true /\ In (f, s, s0) [(A_bmns_b, 1, -1); (A_rmns_b, 1, -1); (A_zmnc_b, 1, 1); (A_numnc_b, -1, -1); (A_gmns_b, -1, 1)] ->
      (m' = m -> n' = (- n)%Z -> exists x, elem2 r f k' j = Some (Some x) /\ elem2 r' f k j = Some (Some (s * x))) /\
      (m = 0%Z -> exists x, elem2 r f k j = Some (Some x) /\ elem2 r' f k j = Some (Some (s0 * x))).
Proof. exact mirror_image. Qed.
Example C67_case : forall asy, valid (obj_of (ex_inp RS asy)) (ex_inp RS asy) /\ nfp_divides (ex_inp RS asy) /\
  valid (obj_of (mirrored (ex_inp RS asy))) (mirrored (ex_inp RS asy)).
Proof. exact mirrored_case. Qed.

Print Assumptions C63_vmec_ignores.
Print Assumptions C63_s_in_only_s_b.
Print Assumptions C63_s_in_required.
Print Assumptions C63_s_in_refuted.
Print Assumptions C63_lmns_size_refuted.
Print Assumptions C64_origin.
Print Assumptions C65_lambda.
Print Assumptions C66_reversed.
Print Assumptions C67_mirror.
