(** Concrete inputs for the convergence theorem. *)
From Coq Require Import ZArith QArith List Bool Lia Reals Lra Psatz.
From Verif Require Import Scalar Prog Model Wp Func Step RunProof FuncExt Spec RunThms RSum RSpec RPoint RQuad RThms RThms2 RThms3 RExamples Conv ConvThms ConvMain.
Import ListNotations.
Local Open Scope Z_scope.
Local Open Scope R_scope.

(** iota = 2, lambda = 0, R and Z functions of theta - 2 zeta, |B| = 3 + cos(theta + 2 zeta),
    B_theta = cos(theta + 2 zeta), B_zeta = 40 + 2 cos(theta + 2 zeta).  The Boozer angles are not
    the original angles, but theta_B - 2 zeta_B = theta - 2 zeta. *)
Definition only (l : Z) (x : R) : Z -> Z -> R := fun k _ => if Z.eqb k l then x else 0.
Definition zero2 : Z -> Z -> R := fun _ _ => 0.
Definition ex_helical : Inp RS :=
  let i := ex_inp RS true in
  mkInp RS true (nfp i) (mpol i) (ntor i) (mnmax i) (mpolq i) (ntorq i) (mnmaxq i) (nsin i) (mboz i) (nboz i) (verb i)
    (xm i) (xn i) (xmq i) (xnq i) (nsurf i) (surf i) (sin_ i) (fun _ => 2)
    (rmnc i) (zmns i) zero2 (fun k j => only 0 3 k j + only 1 1 k j) (only 1 1) (fun k j => only 0 40 k j + only 1 2 k j)
    (rmns i) (zmnc i) zero2 zero2 zero2 zero2.
Lemma ex_helical_ok : ok_inp ex_helical.
Proof. destruct (ex_ok RS true). constructor; assumption. Qed.
Lemma ex_helical_res mb nb : (1 <= mb <= 20)%Z -> (0 <= nb <= 20)%Z -> ok_inp (at_res ex_helical mb nb).
Proof.
  intros Hm Hn. destruct ex_helical_ok. constructor; try assumption; cbn; try lia.
  - unfold ntheta, nzeta, INT_MAX. cbn. destruct (Z.eqb_spec nb 0); nia.
  - unfold nzeta, INT_MAX. cbn. destruct (Z.eqb_spec nb 0); lia.
Qed.
Lemma ex_helical_I js : bI ex_helical js = 0.
Proof. reflexivity. Qed.
Lemma ex_helical_G js : bG ex_helical js = 40.
Proof. change (40 + 0 = 40). lra. Qed.

Lemma rsum3 (f : Z -> R) : rsum 3 f = f 0%Z + f 1%Z + f 2%Z.
Proof. change 3%Z with (0 + 1 + 1 + 1)%Z. rewrite !rsum_succ, rsum_0 by lia. change (0 + 1 + 1)%Z with 2%Z. change (0 + 1)%Z with 1%Z. lra. Qed.
Lemma rsum2 (f : Z -> R) : rsum 2 f = f 0%Z + f 1%Z.
Proof. change 2%Z with (0 + 1 + 1)%Z. rewrite !rsum_succ, rsum_0 by lia. change (0 + 1 + 1)%Z with 2%Z. change (0 + 1)%Z with 1%Z. lra. Qed.

Lemma ex_helical_L js t z : mL ex_helical js t z = 0.
Proof.
  unfold mL, series. change (mnmax ex_helical) with 2%Z. rewrite rsum2. unfold onA. cbn [ex_helical asym lmnc lmns].
  unfold zero2. rs. match goal with |- @eq _ ?x ?y => change (@eq R x y) end. lra.
Qed.
Lemma ex_helical_W js t z : mW ex_helical js t z = sin (t + 2 * z).
Proof.
  unfold mW, series. change (mnmaxq ex_helical) with 3%Z. rewrite rsum3. unfold onA, w_cos, w_sin, phase.
  cbn [ex_helical asym xmq xnq bsubumnc bsubvmnc bsubumns bsubvmns ex_inp]. eqbs. unfold only, zero2. eqbs.
  replace (1 * t - -2 * z) with (t + 2 * z) by lra. rs.
  match goal with |- @eq _ ?x ?y => change (@eq R x y) end. lra.
Qed.
Lemma ex_helical_nu js t z : mNu ex_helical js 0 40 t z = sin (t + 2 * z) / 40.
Proof.
  unfold mNu. rewrite ex_helical_L, ex_helical_W. unfold io. cbn [ex_helical iota]. 
  match goal with |- @eq _ ?x ?y => change (@eq R x y) end. field.
Qed.
Lemma ex_helical_th js t z : mTh ex_helical js 0 40 t z = t + sin (t + 2 * z) / 20.
Proof.
  unfold mTh. rewrite ex_helical_L, ex_helical_nu. unfold io. cbn [ex_helical iota].
  match goal with |- @eq _ ?x ?y => change (@eq R x y) end. field.
Qed.
Lemma ex_helical_ze js t z : mZe ex_helical js 0 40 t z = z + sin (t + 2 * z) / 40.
Proof. unfold mZe. now rewrite ex_helical_nu. Qed.
Definition ex_helical_J (t z : R) : R := 1 + cos (t + 2 * z) / 10.
Lemma ex_lin_t (c : R) t z : derivable_pt_lim (fun x => sin (x + 2 * z) / c) t (cos (t + 2 * z) / c).
Proof.
  apply (derivable_ext (fun x => / c * sin (x + 2 * z))); [intros; unfold Rdiv; lra|].
  replace (cos (t + 2 * z) / c) with (/ c * (cos (t + 2 * z) * (1 + 0))) by (unfold Rdiv; lra).
  apply (derivable_pt_lim_scal (fun x => sin (x + 2 * z))).
  apply (derivable_pt_lim_comp (fun x => x + 2 * z) sin); [|apply derivable_pt_lim_sin].
  apply (derivable_pt_lim_plus id (fun _ => 2 * z)); [apply derivable_pt_lim_id|apply derivable_pt_lim_const].
Qed.
Lemma ex_lin_z (c : R) t z : derivable_pt_lim (fun y => sin (t + 2 * y) / c) z (2 * cos (t + 2 * z) / c).
Proof.
  apply (derivable_ext (fun x => / c * sin (t + 2 * x))); [intros; unfold Rdiv; lra|].
  replace (2 * cos (t + 2 * z) / c) with (/ c * (cos (t + 2 * z) * (0 + 2 * 1))) by (unfold Rdiv; lra).
  apply (derivable_pt_lim_scal (fun x => sin (t + 2 * x))).
  apply (derivable_pt_lim_comp (fun x => t + 2 * x) sin); [|apply derivable_pt_lim_sin].
  apply (derivable_pt_lim_plus (fun _ => t) (fun x => 2 * x)); [apply derivable_pt_lim_const|].
  apply (derivable_pt_lim_scal id), derivable_pt_lim_id.
Qed.
Lemma ex_helical_jac js : is_jacobian ex_helical js 0 40 ex_helical_J.
Proof.
  intros t z. exists (1 + cos (t + 2 * z) / 20), (0 + 2 * cos (t + 2 * z) / 20), (0 + cos (t + 2 * z) / 40), (1 + 2 * cos (t + 2 * z) / 40).
  split; [|split; [|split; [|split]]].
  - eapply derivable_ext; [intros; symmetry; apply ex_helical_th|].
    apply (derivable_pt_lim_plus id (fun x => sin (x + 2 * z) / 20)); [apply derivable_pt_lim_id|apply ex_lin_t].
  - eapply derivable_ext; [intros; symmetry; apply ex_helical_th|].
    apply (derivable_pt_lim_plus (fun _ => t) (fun y => sin (t + 2 * y) / 20)); [apply derivable_pt_lim_const|apply ex_lin_z].
  - eapply derivable_ext; [intros; symmetry; apply ex_helical_ze|].
    apply (derivable_pt_lim_plus (fun _ => z) (fun x => sin (x + 2 * z) / 40)); [apply derivable_pt_lim_const|apply ex_lin_t].
  - eapply derivable_ext; [intros; symmetry; apply ex_helical_ze|].
    apply (derivable_pt_lim_plus id (fun y => sin (t + 2 * y) / 40)); [apply derivable_pt_lim_id|apply ex_lin_z].
  - unfold ex_helical_J. field.
Qed.
Lemma ex_helical_pos t z : 0 <= ex_helical_J t z.
Proof. unfold ex_helical_J. pose proof (COS_bound (t + 2 * z)). lra. Qed.
Lemma ex_helical_B js t z : 2 <= Rabs (mB ex_helical js t z).
Proof.
  replace (mB ex_helical js t z) with (3 + cos (t + 2 * z)).
  - pose proof (COS_bound (t + 2 * z)). rewrite Rabs_right; lra.
  - unfold mB, series. change (mnmaxq ex_helical) with 3%Z. rewrite rsum3. unfold onA, phase.
    cbn [ex_helical asym xmq xnq bmnc bmns ex_inp]. unfold only, zero2. eqbs.
    replace (1 * t - -2 * z) with (t + 2 * z) by lra. rewrite !Rmult_0_l, Rminus_0_r, cos_0. rs.
    match goal with |- @eq _ ?x ?y => change (@eq R x y) end. lra.
Qed.
(** R, a series in the original angles, is the same series in the Boozer angles *)
Lemma ex_helical_R js t z : mR ex_helical js t z =
  series 2 (xm ex_helical) (xn ex_helical) (fun k => rmnc ex_helical k js) (fun k => rmns ex_helical k js)
    (mTh ex_helical js 0 40 t z) (mZe ex_helical js 0 40 t z).
Proof.
  rewrite ex_helical_th, ex_helical_ze. unfold mR, series, onA. change (mnmax ex_helical) with 2%Z. cbn [ex_helical asym xm xn ex_inp].
  apply rsum_ext. intros k _.
  replace (phase k (2 * k) (t + sin (t + 2 * z) / 20) (z + sin (t + 2 * z) / 40)) with (phase k (2 * k) t z); [reflexivity|].
  unfold phase. rewrite mult_IZR. field.
Qed.
Lemma ex_helical_moves : mTh ex_helical 0 0 40 (PI / 2) 0 <> PI / 2 /\ mZe ex_helical 0 0 40 (PI / 2) 0 <> 0.
Proof. rewrite ex_helical_th, ex_helical_ze, Rmult_0_r, Rplus_0_r, sin_PI2. lra. Qed.

(** the same with toroidal mode numbers 0 *)
Definition ex_axi : Inp RS :=
  let i := ex_helical in
  mkInp RS true (nfp i) (mpol i) (ntor i) (mnmax i) (mpolq i) (ntorq i) (mnmaxq i) (nsin i) (mboz i) 0 (verb i)
    (xm i) (fun _ => 0%Z) (xmq i) (fun _ => 0%Z) (nsurf i) (surf i) (sin_ i) (fun _ => 2)
    (rmnc i) (zmns i) zero2 (bmnc i) (only 1 1) (only 0 40) (rmns i) (zmnc i) zero2 zero2 zero2 zero2.
Lemma ex_axi_ok : ok_inp ex_axi.
Proof.
  destruct ex_helical_ok. constructor; try assumption; try (vm_compute; discriminate);
    intros; (split; [vm_compute; discriminate|vm_compute; discriminate]).
Qed.
Lemma ex_axi_sym : axisymmetric ex_axi. Proof. split; reflexivity. Qed.
Lemma ex_axi_div : nfp_divides ex_axi. Proof. split; intros; exists 0%Z; reflexivity. Qed.
Lemma ex_helical_case : forall js,
  nfp_divides ex_helical /\ bI ex_helical js = 0 /\ bG ex_helical js = 40 /\ 40 + iota ex_helical js * 0 <> 0 /\
  is_jacobian ex_helical js 0 40 ex_helical_J /\ (forall t z, 0 <= ex_helical_J t z) /\
  (forall f, B_nonzero ex_helical js f) /\
  documented ex_helical js 0 40 A_rmnc_b (mR ex_helical js) true /\
  documented ex_helical js 0 40 A_gmns_b (mSqrtg ex_helical js 0 40) false /\
  (forall t z, mR ex_helical js t z =
    series 2 (xm ex_helical) (xn ex_helical) (fun k => rmnc ex_helical k js) (fun k => rmns ex_helical k js)
      (mTh ex_helical js 0 40 t z) (mZe ex_helical js 0 40 t z)) /\
  (mTh ex_helical 0 0 40 (PI / 2) 0 <> PI / 2 /\ mZe ex_helical 0 0 40 (PI / 2) 0 <> 0) /\
  (forall mb nb, (1 <= mb <= 20)%Z -> (0 <= nb <= 20)%Z -> valid (obj_of (at_res ex_helical mb nb)) (at_res ex_helical mb nb)).
Proof.
  intros js. split; [exact (ex_div true)|]. split; [apply ex_helical_I|]. split; [apply ex_helical_G|].
  split; [cbn [ex_helical iota]; match goal with |- ?x <> _ => change (x <> 0%R) end; lra|].
  split; [apply ex_helical_jac|]. split; [apply ex_helical_pos|].
  split; [intros f; assert (exists beta, 0 < beta /\ forall t z, beta <= Rabs (mB ex_helical js t z)) by (exists 2; split; [lra|apply ex_helical_B]); destruct f; exact Logic.I || assumption|].
  split; [constructor|]. split; [constructor; reflexivity|]. split; [apply ex_helical_R|]. split; [apply ex_helical_moves|].
  intros mb nb Hm Hn. apply ok_valid, ex_helical_res; auto.
Qed.
