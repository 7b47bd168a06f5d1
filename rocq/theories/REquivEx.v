(** Cases for REquiv.v. *)
From Coq Require Import ZArith List String Bool Lia Reals Lra.
From Verif Require Import Scalar Prog Model Wp Func Step FuncExt Spec RunThms RSum RSpec RPoint RQuad RThms RThms2 RExamples REquiv.
Import ListNotations.
Local Open Scope Z_scope.
Local Open Scope R_scope.
Ltac splits := repeat match goal with |- _ /\ _ => split end.

Lemma moved_case : valid (obj_of ex_phys) ex_phys /\ nfp_divides ex_phys /\ asym ex_phys = true /\
  (forall a b, valid (obj_of (moved a b ex_phys)) (moved a b ex_phys)) /\
  valid (obj_of (ex_inp RS false)) (ex_inp RS false) /\ nfp_divides (ex_inp RS false) /\ asym (ex_inp RS false) = false /\
  (nt (ex_inp RS false) | 2 * 5)%Z /\ (nz (ex_inp RS false) | 2 * 3)%Z /\
  valid (obj_of (moved 5 3 (ex_inp RS false))) (moved 5 3 (ex_inp RS false)).
Proof.
  destruct ex_phys_ok as (V & _ & D & _).
  split; [exact V|]. split; [exact D|]. split; [reflexivity|].
  split; [intros a b; apply ok_valid; destruct (ex_ok RS true); constructor; assumption|].
  split; [apply ex_valid|]. split; [apply ex_div|]. split; [reflexivity|].
  split; [exists 1%Z; reflexivity|]. split; [exists 1%Z; reflexivity|].
  apply ok_valid. destruct (ex_ok RS false). constructor; assumption.
Qed.
Lemma lambda_case : valid (obj_of ex_phys) ex_phys /\ nfp_divides ex_phys /\ asym ex_phys = true /\
  (0 <= 0 < mnmax ex_phys)%Z /\ xm ex_phys 0 = 0%Z /\ xn ex_phys 0 = 0%Z /\
  (forall c, valid (obj_of (add_lambda 0 c ex_phys)) (add_lambda 0 c ex_phys)) /\
  forall b, (0 <= b < nsurf ex_phys)%Z -> bG ex_phys (surf ex_phys b) + iota ex_phys (surf ex_phys b) * bI ex_phys (surf ex_phys b) <> 0.
Proof.
  destruct ex_phys_ok as (V & _ & D & P).
  split; [exact V|]. split; [exact D|]. split; [reflexivity|].
  split; [change (mnmax ex_phys) with 2%Z; lia|]. split; [reflexivity|]. split; [reflexivity|].
  split; [intros c; apply ok_valid; destruct (ex_ok RS true); constructor; assumption|].
  intros b Hb. apply (P b Hb).
Qed.
Lemma reversed_case : valid (obj_of ex_phys) ex_phys /\ nfp_divides ex_phys /\ asym ex_phys = true /\
  valid (obj_of (reversed ex_phys)) (reversed ex_phys).
Proof.
  destruct ex_phys_ok as (V & _ & D & _). splits; auto.
  apply ok_valid. destruct (ex_ok RS true). constructor; assumption.
Qed.
Lemma mirrored_case asy : valid (obj_of (ex_inp RS asy)) (ex_inp RS asy) /\ nfp_divides (ex_inp RS asy) /\
  valid (obj_of (mirrored (ex_inp RS asy))) (mirrored (ex_inp RS asy)).
Proof.
  splits; [apply ex_valid|apply ex_div|]. apply ok_valid. destruct (ex_ok RS asy). constructor; try assumption.
  - intros k Hk. cbn [mirrored ex_inp xn nfp ntor mnmax] in *. pattern k; apply (ex_range2 k _ Hk); vm_compute; repeat split; discriminate.
  - intros k Hk. cbn [mirrored ex_inp xnq nfp ntorq mnmaxq] in *. pattern k; apply (ex_range3 k _ Hk); vm_compute; repeat split; discriminate.
Qed.
