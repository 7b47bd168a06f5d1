(** Cases of C78. *)
From Coq Require Import ZArith QArith List String Bool Lia Reals Lra Floats.SpecFloat.
From Verif Require Import Scalar Prog Model Wp Func FuncExt Spec RunThms RSpec RThms2 RExamples RoundSpec RoundEx Sim Ieee IeeeThm Fma LooseProof FmaProof FmaThm.
Import ListNotations.
Local Open Scope Z_scope.

(** A compiler that contracts whatever it can, and one that contracts nothing *)
Definition fuse_add prec emax (x y : cell) : cell :=
  match snd x with
  | Some (p, q) => (sf_fma prec emax p q (fst y), None)
  | None => match snd y with Some (p, q) => (sf_fma prec emax p q (fst x), None) | None => (SFadd prec emax (fst x) (fst y), None) end
  end.
Definition fuse_sub prec emax (x y : cell) : cell :=
  match snd x with
  | Some (p, q) => (sf_fma prec emax p q (SFopp (fst y)), None)
  | None => match snd y with Some (p, q) => (sf_fma prec emax (SFopp p) q (fst x), None) | None => (SFsub prec emax (fst x) (fst y), None) end
  end.
Definition keep_add prec emax (x y : cell) : cell := (SFadd prec emax (fst x) (fst y), None).
Definition keep_sub prec emax (x y : cell) : cell := (SFsub prec emax (fst x) (fst y), None).
Lemma fuse_contracts prec emax : contracts prec emax (fuse_add prec emax) (fuse_sub prec emax).
Proof.
  intros x y. unfold fuse_add, fuse_sub. destruct (snd x) as [(p, q)|] eqn:E.
  - split; [now apply sums_left|now apply diffs_left].
  - destruct (snd y) as [(p, q)|] eqn:E'; split; [now apply sums_right|now apply diffs_right|apply sums_plain|apply diffs_plain].
Qed.
Lemma keep_contracts prec emax : contracts prec emax (keep_add prec emax) (keep_sub prec emax).
Proof. intros x y. split; [apply sums_plain|apply diffs_plain]. Qed.

(** The second one is the arithmetic of C76 *)
Lemma sim_keep prec emax pi cos_ sin' :
  simul (CONTRACT prec emax pi cos_ sin' (keep_add prec emax) (keep_sub prec emax)) (IEEE prec emax pi cos_ sin') (fun c x => fst c = x) (fun _ => True).
Proof. constructor; cbn; intros; subst; auto. Qed.
Theorem keep_is_ieee : forall prec emax pi cos_ sin' (i0 : Inp (IEEE prec emax pi cos_ sin'))
    (i' : Inp (CONTRACT prec emax pi cos_ sin' (keep_add prec emax) (keep_sub prec emax))) o0 o',
  alike (CONTRACT prec emax pi cos_ sin' (keep_add prec emax) (keep_sub prec emax)) (IEEE prec emax pi cos_ sin') (fun c x => c = plain x) i' i0 ->
  valid o0 i0 -> valid o' i' ->
  exists r ev r' ev', run_ok o0 r ev /\ run_ok o' r' ev' /\
    forall f k j, In f (outs (asym i0)) -> 0 <= k < mnboz i0 -> 0 <= j < nsurf i0 ->
      exists x, elem2 r f k j = Some (Some (fst x)) /\ elem2 r' f k j = Some (Some x).
Proof.
  intros prec emax pi cos_ sin' i0 i' o0 o' Ha V V'.
  assert (Al : alike (CONTRACT prec emax pi cos_ sin' (keep_add prec emax) (keep_sub prec emax)) (IEEE prec emax pi cos_ sin') (fun c x => fst c = x) i' i0).
  { assert (Id : alike (IEEE prec emax pi cos_ sin') (IEEE prec emax pi cos_ sin') eq i0 i0)
      by (constructor; try reflexivity; try (intros; reflexivity); try (intros _); intros; try intros k j' Hk Hj; reflexivity).
    revert Id Ha. apply alike_trans. intros x a z -> <-. reflexivity. }
  destruct (sim_runs _ _ _ (sim_keep prec emax pi cos_ sin') i' i0 o' o0 Al V' V) as (r & ev & r' & ev' & R1 & R2 & _ & T).
  exists r, ev, r', ev'. split; [exact R1|]. split; [exact R2|]. intros f k j Hf Hk Hj.
  destruct (T f k j Hf Hk Hj) as (x & y & Ey & Ex & <-). exists x. auto.
Qed.

(** Doubles x and y with x x - y = 2^-104 contracted, 0 not contracted *)
Definition ch_x : spec_float := S754_finite false 4503599627370497 (-52).
Definition ch_y : spec_float := S754_finite false 4503599627370498 (-52).
Lemma fma_differs : valid_binary 53 1024 ch_x = true /\ valid_binary 53 1024 ch_y = true /\
  diffs 53 1024 (times 53 1024 (plain ch_x) (plain ch_x)) (plain ch_y) (plain (S754_zero false)) /\
  diffs 53 1024 (times 53 1024 (plain ch_x) (plain ch_x)) (plain ch_y) (plain (S754_finite false 4503599627370496 (-156))).
Proof.
  split; [vm_compute; reflexivity|]. split; [vm_compute; reflexivity|]. split.
  - pose proof (diffs_plain 53 1024 (times 53 1024 (plain ch_x) (plain ch_x)) (plain ch_y)) as H. vm_compute in H |- *. exact H.
  - pose proof (diffs_left 53 1024 (times 53 1024 (plain ch_x) (plain ch_x)) (plain ch_y) _ _ eq_refl) as H. vm_compute in H |- *. exact H.
Qed.

Definition cell_inp prec emax pi cos_ sin' add sub (i : Inp (IEEE prec emax pi cos_ sin')) : Inp (CONTRACT prec emax pi cos_ sin' add sub) :=
  let one (f : Z -> spec_float) : Z -> cell := fun j => plain (f j) in
  let two (f : Z -> Z -> spec_float) : Z -> Z -> cell := fun k j => plain (f k j) in
  mkInp (CONTRACT prec emax pi cos_ sin' add sub) (asym i) (nfp i) (mpol i) (ntor i) (mnmax i) (mpolq i) (ntorq i) (mnmaxq i) (nsin i) (mboz i) (nboz i) (verb i)
    (xm i) (xn i) (xmq i) (xnq i) (nsurf i) (surf i) (one (sin_ i)) (one (iota i))
    (two (rmnc i)) (two (zmns i)) (two (lmns i)) (two (bmnc i)) (two (bsubumnc i)) (two (bsubvmnc i))
    (two (rmns i)) (two (zmnc i)) (two (lmnc i)) (two (bmns i)) (two (bsubumns i)) (two (bsubvmns i)).
Lemma cell_ok prec emax pi cos_ sin' add sub i : ok_inp i -> ok_inp (cell_inp prec emax pi cos_ sin' add sub i).
Proof. intros []. constructor; assumption. Qed.
Lemma cell_self prec emax pi cos_ sin' add sub i :
  alike (CONTRACT prec emax pi cos_ sin' add sub) (IEEE prec emax pi cos_ sin') (fun c x => c = plain x) (cell_inp prec emax pi cos_ sin' add sub i) i.
Proof. constructor; try reflexivity; try (intros; reflexivity); try (intros _); intros; try intros k j' Hk Hj; reflexivity. Qed.

Local Open Scope R_scope.
Lemma fma_case : valid (obj_of ex_rnd) ex_rnd /\ nfp_divides ex_rnd /\ asym ex_rnd = true /\
  (forall j, (0 <= j < nsurf ex_rnd)%Z -> bG ex_rnd (surf ex_rnd j) + iota ex_rnd (surf ex_rnd j) * bI ex_rnd (surf ex_rnd j) <> 0) /\
  (forall js t z, mB ex_rnd js t z <> 0) /\
  forall prec emax, (2 <= prec)%Z -> (prec < emax)%Z -> (12 <= emax)%Z ->
  exists pi cos_ sin', libm_ok prec emax pi cos_ sin' (2 * sf_eps prec) /\
    exists i0, rounded (S := IEEE prec emax pi cos_ sin') (sf_is prec emax) (2 * sf_eps prec) i0 ex_rnd /\
    (exists i', alike (FMA prec emax pi cos_ sin') (IEEE prec emax pi cos_ sin') (fun X x => X = only x) i' i0 /\ valid (obj_of i') i') /\
    exists add sub, contracts prec emax add sub /\ (add, sub) = (fuse_add prec emax, fuse_sub prec emax) /\
    exists i', alike (CONTRACT prec emax pi cos_ sin' add sub) (IEEE prec emax pi cos_ sin') (fun c x => c = plain x) i' i0 /\ valid (obj_of i') i'.
Proof.
  destruct ieee_case as (H1 & H2 & H3 & H4 & H5 & H6). split; [exact H1|]. split; [exact H2|]. split; [exact H3|]. split; [exact H4|]. split; [exact H5|].
  intros prec emax Hp He H12. destruct (H6 prec emax Hp He H12) as (pi & cos_ & sin' & L & i0 & R0 & V0).
  exists pi, cos_, sin'. split; [exact L|]. exists i0. split; [exact R0|]. pose proof (proj1 V0) as Ok. split.
  - exists (only_inp prec emax pi cos_ sin' i0). split; [apply only_self|apply ok_valid, only_ok, Ok].
  - exists (fuse_add prec emax), (fuse_sub prec emax). split; [apply fuse_contracts|]. split; [reflexivity|].
    exists (cell_inp prec emax pi cos_ sin' _ _ i0). split; [apply cell_self|apply ok_valid, cell_ok, Ok].
Qed.
