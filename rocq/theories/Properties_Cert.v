(** Property C77: the statements. *)
From Coq Require Import ZArith QArith List String Bool Reals Floats.SpecFloat.
From Verif Require Import Scalar Prog Model Wp Func FuncExt Spec RSpec RThms RoundSpec Sim Cert CertThm CertEx Ieee.
Import ListNotations.
Local Open Scope Z_scope.
Local Open Scope R_scope.

(** ** C77 *)
Theorem C77_certified : forall p e M pi n (S : Scalar) v er Mr (i : Inp RS) (i' : Inp S) (q : Inp (CERT p e M pi n)) o o' oq,
  (0 <= p)%Z -> accurate S v er Mr -> er * IZR (2 ^ p) <= IZR e -> IZR M <= Mr * IZR (2 ^ p) ->
  rounded v er i' i -> covers p e M pi n er i q -> valid o i -> valid o' i' -> valid oq q ->
  exists r ev r' ev' rq evq, run_ok o r ev /\ run_ok o' r' ev' /\ run_ok oq rq evq /\
    (forall f j, In f [A_Boozer_I; A_Boozer_G] -> (0 <= j < nsurf i)%Z -> exists y x z,
       elem r f j = Some (Some y) /\ elem r' f j = Some (Some x) /\ elem rq f j = Some (Some z) /\
       forall m rad E, z = Some (m, rad, E) ->
         Rabs (y * IZR (2 ^ p) - IZR m) <= IZR rad /\ exists c, v x c /\ Rabs (c - y) * IZR (2 ^ p) <= IZR E) /\
    (forall f k j, In f (outs (asym i)) -> (0 <= k < mnboz i)%Z -> (0 <= j < nsurf i)%Z -> exists y x z,
       elem2 r f k j = Some (Some y) /\ elem2 r' f k j = Some (Some x) /\ elem2 rq f k j = Some (Some z) /\
       forall m rad E, z = Some (m, rad, E) ->
         Rabs (y * IZR (2 ^ p) - IZR m) <= IZR rad /\ exists c, v x c /\ Rabs (c - y) * IZR (2 ^ p) <= IZR E).
Proof. exact certified. Qed.

(** A case, with the bounds computed: a tokamak in double precision *)
Example C77_double_case : forall pi cos_ sin', libm_ok 53 1024 pi cos_ sin' (powerRZ 2 (-51)) ->
  forall (i' : Inp (IEEE 53 1024 pi cos_ sin')) o', rounded (S := IEEE 53 1024 pi cos_ sin') (sf_is 53 1024) (powerRZ 2 (-51)) i' (ex_tok RS) -> valid o' i' ->
  exists r ev r' ev', run_ok (obj_of (ex_tok RS)) r ev /\ run_ok o' r' ev' /\
    (forall f j, In f [A_Boozer_I; A_Boozer_G] -> (0 <= j < 2)%Z -> exists y x c,
       elem r f j = Some (Some y) /\ elem r' f j = Some (Some x) /\ sf_is 53 1024 x c /\ Rabs (c - y) <= powerRZ 2 (-41)) /\
    (forall f k j, In f (outs false) -> (0 <= k < 2)%Z -> (0 <= j < 2)%Z -> exists y x c,
       elem2 r f k j = Some (Some y) /\ elem2 r' f k j = Some (Some x) /\ sf_is 53 1024 x c /\ Rabs (c - y) <= powerRZ 2 (-41)).
Proof. exact tok_double. Qed.
Example C77_input_case : (exists pi cos_ sin', libm_ok 53 1024 pi cos_ sin' (powerRZ 2 (-51))) /\
  forall pi cos_ sin', libm_ok 53 1024 pi cos_ sin' (powerRZ 2 (-51)) ->
  rounded (S := IEEE 53 1024 pi cos_ sin') (sf_is 53 1024) (powerRZ 2 (-51)) (ex_tok (IEEE 53 1024 pi cos_ sin')) (ex_tok RS) /\
  valid (obj_of (ex_tok (IEEE 53 1024 pi cos_ sin'))) (ex_tok (IEEE 53 1024 pi cos_ sin')).
Proof. exact (conj tok_libm tok_rounded). Qed.

Print Assumptions C77_certified.
Print Assumptions C77_double_case.
