(** The functions computed at one point, in real arithmetic, are those of RSpec.v. *)
From Coq Require Import ZArith QArith List Bool Lia Reals Lra Psatz Qreals.
From Verif Require Import Scalar Prog Wp Func Step RunProof FuncExt RSum RSpec.
Import ListNotations.
Local Open Scope Z_scope.
Local Open Scope R_scope.

Ltac rs := cbn [F fadd fsub fmul fdiv fneg fofZ flit fpi fsqrt fcos fsin fabs flt RS] in *.

Lemma f0R : f0 RS = 0. Proof. reflexivity. Qed.
Lemma f1R : f1 RS = 1. Proof. unfold f1; rs. unfold Q2R; cbn. lra. Qed.
Lemma halfR : Q2R (1 # 2) = / 2. Proof. unfold Q2R; cbn. lra. Qed.
Lemma twoR : Q2R (2 # 1) = 2. Proof. unfold Q2R; cbn. lra. Qed.
Lemma twopiR : ftwopi RS = 2 * PI. Proof. unfold ftwopi; rs. rewrite twoR. reflexivity. Qed.

(** ** The recurrence of init_trig *)
Lemma tcs_exact (x : R) (k : nat) : tcs (S := RS) x k = (cos (INR k * x), sin (INR k * x)).
Proof.
  induction k as [|k IH].
  - cbn [tcs]. rewrite f1R, f0R. cbn. rewrite Rmult_0_l, cos_0, sin_0. reflexivity.
  - destruct k as [|k].
    + cbn [tcs]. rs. cbn. rewrite Rmult_1_l. reflexivity.
    + cbn [tcs]. cbn [tcs] in IH. rewrite IH. cbn [fst snd]. rs.
      rewrite (S_INR (S k)). replace ((INR (S k) + 1) * x) with (INR (S k) * x + x) by lra.
      rewrite cos_plus, sin_plus. f_equal; lra.
Qed.
Lemma TC_exact (x : R) k : (0 <= k)%Z -> TC (S := RS) x k = cos (IZR k * x).
Proof. intros H. unfold TC. rewrite tcs_exact. cbn [fst]. now rewrite INR_IZR_INZ, Z2Nat.id. Qed.
Lemma TS_exact (x : R) k : (0 <= k)%Z -> TS (S := RS) x k = sin (IZR k * x).
Proof. intros H. unfold TS. rewrite tcs_exact. cbn [snd]. now rewrite INR_IZR_INZ, Z2Nat.id. Qed.

(** ** cos(m theta - n zeta) from the tables *)
Lemma kn_mul nf q : (0 < nf)%Z -> kn nf (q * nf) = Z.abs q.
Proof. intros H. unfold kn. now rewrite Z.quot_mul by lia. Qed.
Lemma sgn_mul nf q : (0 < nf)%Z -> sgn (q * nf) = sgn q.
Proof. intros H. unfold sgn. destruct (Z.ltb_spec (q * nf) 0), (Z.ltb_spec q 0); auto; nia. Qed.
Lemma cos_absq q y : cos (IZR (Z.abs q) * y) = cos (IZR q * y).
Proof.
  destruct (Z.abs_spec q) as [(H & ->)|(H & ->)]; auto.
  rewrite opp_IZR. replace (- IZR q * y) with (- (IZR q * y)) by lra. apply cos_neg.
Qed.
Lemma sin_absq q y : sin (IZR (Z.abs q) * y) * IZR (sgn q) = sin (IZR q * y).
Proof.
  unfold sgn. destruct (Z.ltb_spec q 0).
  - rewrite Z.abs_neq, opp_IZR by lia. replace (- IZR q * y) with (- (IZR q * y)) by lra. rewrite sin_neg.
    change (IZR (-1)) with (-1). lra.
  - rewrite Z.abs_eq by lia. change (IZR 1) with 1. lra.
Qed.
(** with a common factor on the theta tables (the half weights of surface_solve) *)
Lemma pcos_exact nf m q a (t z : R) : (0 < nf)%Z -> (0 <= m)%Z ->
  let y := IZR nf * z in
  pcos (S := RS) (a * TC (S := RS) t m) (a * TS (S := RS) t m)
    (TC (S := RS) y (kn nf (q * nf))) (TS (S := RS) y (kn nf (q * nf))) (q * nf) = a * cos (phase m (q * nf) t z).
Proof.
  intros Hf Hm y. unfold pcos; rs. rewrite kn_mul, sgn_mul by auto.
  rewrite !TC_exact, !TS_exact by lia. unfold phase.
  rewrite cos_absq. rewrite (Rmult_assoc _ (sin (IZR (Z.abs q) * y)) (IZR (sgn q))), sin_absq.
  rewrite cos_minus, mult_IZR. unfold y. rewrite !Rmult_assoc. lra.
Qed.
Lemma psin_exact nf m q a (t z : R) : (0 < nf)%Z -> (0 <= m)%Z ->
  let y := IZR nf * z in
  psin (S := RS) (a * TC (S := RS) t m) (a * TS (S := RS) t m)
    (TC (S := RS) y (kn nf (q * nf))) (TS (S := RS) y (kn nf (q * nf))) (q * nf) = a * sin (phase m (q * nf) t z).
Proof.
  intros Hf Hm y. unfold psin; rs. rewrite kn_mul, sgn_mul by auto.
  rewrite !TC_exact, !TS_exact by lia. unfold phase.
  rewrite cos_absq. rewrite (Rmult_assoc _ (sin (IZR (Z.abs q) * y)) (IZR (sgn q))), sin_absq.
  rewrite sin_minus, mult_IZR. unfold y. rewrite !Rmult_assoc. lra.
Qed.
Lemma pcosA_exact nf m n (t z : R) : (0 < nf)%Z -> (0 <= m)%Z -> (nf | n)%Z ->
  pcosA (S := RS) nf t z m n = cos (phase m n t z).
Proof.
  intros Hf Hm (q & ->). unfold pcosA; rs. pose proof (pcos_exact nf m q 1 t z Hf Hm) as E. cbv zeta in E.
  rewrite !Rmult_1_l in E. exact E.
Qed.
Lemma psinA_exact nf m n (t z : R) : (0 < nf)%Z -> (0 <= m)%Z -> (nf | n)%Z ->
  psinA (S := RS) nf t z m n = sin (phase m n t z).
Proof.
  intros Hf Hm (q & ->). unfold psinA; rs. pose proof (psin_exact nf m q 1 t z Hf Hm) as E. cbv zeta in E.
  rewrite !Rmult_1_l in E. exact E.
Qed.

Lemma fsum_rsum (i : Inp RS) n (g h : Z -> R) :
  fsum i n g h = rsum n (fun k => g k + onA (asym i) h k).
Proof.
  unfold fsum, onA. rewrite f0R. destruct (asym i).
  - rewrite <- (Rplus_0_l (rsum _ _)), <- accum_rsum. unfold accum.
    induction (Z.to_nat n); cbn [nat_rect]; [reflexivity|]. rs. rewrite IHn0. lra.
  - rewrite <- (Rplus_0_l (rsum _ _)), <- accum_rsum. unfold accum.
    induction (Z.to_nat n); cbn [nat_rect]; [reflexivity|]. rs. rewrite IHn0. lra.
Qed.

(** Termwise derivatives of a series *)
Definition series_t (n : Z) (ms ns : Z -> Z) (c s : Z -> R) (t z : R) : R :=
  rsum n (fun k => (s k * cos (phase (ms k) (ns k) t z) - c k * sin (phase (ms k) (ns k) t z)) * IZR (ms k)).
Definition series_z (n : Z) (ms ns : Z -> Z) (c s : Z -> R) (t z : R) : R :=
  rsum n (fun k => (c k * sin (phase (ms k) (ns k) t z) - s k * cos (phase (ms k) (ns k) t z)) * IZR (ns k)).

Lemma derivable_rsum n (g : Z -> R -> R) (d : Z -> R) x :
  (forall k, (0 <= k < n)%Z -> derivable_pt_lim (g k) x (d k)) ->
  derivable_pt_lim (fun y => rsum n (fun k => g k y)) x (rsum n d).
Proof.
  destruct (Z.le_gt_cases 0 n) as [Hn|Hn].
  - revert n Hn. apply (rsum_ind (fun n => _ -> derivable_pt_lim (fun y => rsum n (fun k => g k y)) x (rsum n d))).
    + intros _. rewrite rsum_0. apply (derivable_pt_lim_const 0 x).
    + intros n Hn IH H. rewrite rsum_succ by auto.
      assert (D : derivable_pt_lim ((fun y => rsum n (fun k => g k y)) + g n)%F x (rsum n d + d n)).
      { apply derivable_pt_lim_plus; [apply IH; intros; apply H; lia|apply H; lia]. }
      intros e He. destruct (D e He) as (del & Hd). exists del. intros h Hh Hh'. specialize (Hd h Hh Hh').
      unfold plus_fct in Hd. rewrite !rsum_succ by auto. exact Hd.
  - intros _. rewrite rsum_neg by lia. intros e He. exists (mkposreal 1 Rlt_0_1). intros h Hh _.
    rewrite !rsum_neg by lia. replace ((0 - 0) / h - 0) with 0 by (field; auto). rewrite Rabs_R0. auto.
Qed.
Lemma derivable_ext (f g : R -> R) x d : (forall y, f y = g y) -> derivable_pt_lim f x d -> derivable_pt_lim g x d.
Proof. intros E D e He. destruct (D e He) as (del & Hd). exists del. intros. rewrite <- !E. now apply Hd. Qed.
Lemma derivable_trig_lin c s a b x :
  derivable_pt_lim (fun y => c * cos (a * y + b) + s * sin (a * y + b)) x
    ((s * cos (a * x + b) - c * sin (a * x + b)) * a).
Proof.
  assert (L : derivable_pt_lim (fun y => a * y + b) x a).
  { assert (D : derivable_pt_lim (mult_real_fct a id + fct_cte b)%F x (a * 1 + 0)).
    { apply derivable_pt_lim_plus; [apply derivable_pt_lim_scal, derivable_pt_lim_id|apply derivable_pt_lim_const]. }
    rewrite Rmult_1_r, Rplus_0_r in D. eapply derivable_ext; [|exact D]. intros y. reflexivity. }
  pose proof (derivable_pt_lim_comp _ _ _ _ _ L (derivable_pt_lim_cos (a * x + b))) as DC.
  pose proof (derivable_pt_lim_comp _ _ _ _ _ L (derivable_pt_lim_sin (a * x + b))) as DS.
  pose proof (derivable_pt_lim_plus _ _ _ _ _ (derivable_pt_lim_scal _ c _ _ DC) (derivable_pt_lim_scal _ s _ _ DS)) as D.
  replace ((s * cos (a * x + b) - c * sin (a * x + b)) * a)
    with (c * (- sin (a * x + b) * a) + s * (cos (a * x + b) * a)) by lra.
  eapply derivable_ext; [|exact D]. intros y. reflexivity.
Qed.
Lemma series_dt n ms ns c s t z : derivable_pt_lim (fun x => series n ms ns c s x z) t (series_t n ms ns c s t z).
Proof.
  unfold series, series_t. apply derivable_rsum. intros k _. unfold phase.
  pose proof (derivable_trig_lin (c k) (s k) (IZR (ms k)) (- (IZR (ns k) * z)) t) as D.
  exact D.
Qed.
Lemma series_dz n ms ns c s t z : derivable_pt_lim (fun x => series n ms ns c s t x) z (series_z n ms ns c s t z).
Proof.
  unfold series, series_z. apply derivable_rsum. intros k _. unfold phase.
  pose proof (derivable_trig_lin (c k) (s k) (- IZR (ns k)) (IZR (ms k) * t) z) as D.
  replace (- IZR (ns k) * z + IZR (ms k) * t) with (IZR (ms k) * t - IZR (ns k) * z) in D by lra.
  match type of D with derivable_pt_lim _ _ ?d => match goal with |- derivable_pt_lim _ _ ?e => replace e with d by lra end end.
  eapply derivable_ext; [|exact D]. intros y. cbv beta.
  replace (- IZR (ns k) * y + IZR (ms k) * t) with (IZR (ms k) * t - IZR (ns k) * y) by lra. reflexivity.
Qed.

Section Point.
Variable i : Inp RS.
Hypothesis Hok : ok_inp i.
Hypothesis Hdiv : nfp_divides i.
Variable js : Z.

Let Hf : (0 < nfp i)%Z. Proof. pose proof (ok_nfp _ _ Hok). lia. Qed.

Ltac pt0 := rewrite fsum_rsum; apply rsum_ext; intros k Hk; unfold onA;
  rewrite ?pcosA_exact, ?psinA_exact by
    (first [exact Hf | apply (ok_xm _ _ Hok); exact Hk | apply (ok_xmq _ _ Hok); exact Hk | apply Hdiv; exact Hk]);
  rs.
Ltac pt := pt0; destruct (asym i); lra.

Lemma p_r_ok t z : p_r i js t z = mR i js t z. Proof. unfold p_r, mR, series. pt. Qed.
Lemma p_z_ok t z : p_z i js t z = mZ i js t z. Proof. unfold p_z, mZ, series. pt. Qed.
Lemma p_b_ok t z : p_b i js t z = mB i js t z. Proof. unfold p_b, mB, series. pt. Qed.
Lemma p_lam_ok t z : p_lam i js t z = mL i js t z. Proof. unfold p_lam, mL, series. pt. Qed.

Lemma wmns_ok k : wmns i js k = w_sin i js k.
Proof. unfold wmns, w_sin. destruct (Z.eqb (xmq i k) 0), (Z.eqb (xnq i k) 0); reflexivity. Qed.
Lemma wmnc_ok k : wmnc i js k = w_cos i js k.
Proof. unfold wmnc, w_cos. destruct (Z.eqb (xmq i k) 0), (Z.eqb (xnq i k) 0); reflexivity. Qed.
Lemma p_w_ok t z : p_w i js t z = mW i js t z.
Proof. unfold p_w, mW, series. pt0. rewrite wmns_ok, wmnc_ok. destruct (asym i); lra. Qed.

Definition mLt := series_t (mnmax i) (xm i) (xn i) (onA (asym i) (fun k => lmnc i k js)) (fun k => lmns i k js).
Definition mLz := series_z (mnmax i) (xm i) (xn i) (onA (asym i) (fun k => lmnc i k js)) (fun k => lmns i k js).
Definition mWt := series_t (mnmaxq i) (xmq i) (xnq i) (onA (asym i) (w_cos i js)) (w_sin i js).
Definition mWz := series_z (mnmaxq i) (xmq i) (xnq i) (onA (asym i) (w_cos i js)) (w_sin i js).
Lemma p_lt_ok t z : p_lt i js t z = mLt t z. Proof. unfold p_lt, mLt, series_t. pt. Qed.
Lemma p_lz_ok t z : p_lz i js t z = mLz t z. Proof. unfold p_lz, mLz, series_z. pt. Qed.
Lemma p_wt_ok t z : p_wt i js t z = mWt t z.
Proof. unfold p_wt, mWt, series_t. pt0. rewrite wmns_ok, wmnc_ok. destruct (asym i); lra. Qed.
Lemma p_wz_ok t z : p_wz i js t z = mWz t z.
Proof. unfold p_wz, mWz, series_z. pt0. rewrite wmns_ok, wmnc_ok. destruct (asym i); lra. Qed.

Notation I := (bI i js).
Notation G := (bG i js).
Lemma oGI_ok : oGI i js = / (G + io i js * I).
Proof. unfold oGI, io; rs. rewrite f1R. unfold Rdiv. lra. Qed.
Lemma p_nu_ok t z : p_nu i js t z = mNu i js I G t z.
Proof. unfold p_nu, mNu; rs. rewrite oGI_ok, p_w_ok, p_lam_ok. unfold Rdiv. lra. Qed.
Lemma p_th_ok t z : p_th i js t z = mTh i js I G t z.
Proof. unfold p_th, mTh; rs. rewrite p_nu_ok, p_lam_ok. reflexivity. Qed.
Lemma p_ze_ok t z : p_ze i js t z = mZe i js I G t z.
Proof. unfold p_ze, mZe; rs. now rewrite p_nu_ok. Qed.
Lemma p_g_ok t z : p_g i js t z = mSqrtg i js I G t z.
Proof. unfold p_g, mSqrtg, Rsqr; rs. now rewrite !p_b_ok. Qed.

(** Derivatives of nu and of the angles *)
Definition mNut t z := (mWt t z - I * mLt t z) / (G + io i js * I).
Definition mNuz t z := (mWz t z - I * mLz t z) / (G + io i js * I).
Definition mJ t z := (1 + mLt t z) * (1 + mNuz t z) + (io i js - mLz t z) * mNut t z.
Lemma p_jac_ok t z : p_jac i js t z = mJ t z.
Proof.
  unfold p_jac, mJ, p_nuz, p_nut, mNut, mNuz, io; rs.
  rewrite f1R, oGI_ok, p_lt_ok, p_lz_ok, p_wt_ok, p_wz_ok. unfold Rdiv, io. lra.
Qed.
Lemma lin_comb (w l : R -> R) x dw dl a : derivable_pt_lim w x dw -> derivable_pt_lim l x dl ->
  derivable_pt_lim (fun y => (w y - I * l y) / a) x ((dw - I * dl) / a).
Proof.
  intros D1 D2.
  pose proof (derivable_pt_lim_scal _ (/ a) _ _ (derivable_pt_lim_minus _ _ _ _ _ D1 (derivable_pt_lim_scal _ I _ _ D2))) as D.
  replace ((dw - I * dl) / a) with (/ a * (dw - I * dl)) by (unfold Rdiv; lra).
  eapply derivable_ext; [|exact D]. intros y. unfold mult_real_fct, minus_fct, Rdiv. lra.
Qed.
Lemma mNu_dt t z : derivable_pt_lim (fun x => mNu i js I G x z) t (mNut t z).
Proof. apply lin_comb; apply series_dt. Qed.
Lemma mNu_dz t z : derivable_pt_lim (fun x => mNu i js I G t x) z (mNuz t z).
Proof. apply lin_comb; apply series_dz. Qed.
Lemma lin_th (l nu : R -> R) x dl dn e de : derivable_pt_lim l x dl -> derivable_pt_lim nu x dn -> derivable_pt_lim e x de ->
  derivable_pt_lim (fun y => e y + l y + io i js * nu y) x (de + dl + io i js * dn).
Proof.
  intros D1 D2 D3.
  pose proof (derivable_pt_lim_plus _ _ _ _ _ (derivable_pt_lim_plus _ _ _ _ _ D3 D1) (derivable_pt_lim_scal _ (io i js) _ _ D2)) as D.
  eapply derivable_ext; [|exact D]. intros y. reflexivity.
Qed.
Lemma mTh_dt t z : derivable_pt_lim (fun x => mTh i js I G x z) t (1 + mLt t z + io i js * mNut t z).
Proof. apply lin_th; [apply series_dt|apply mNu_dt|apply derivable_pt_lim_id]. Qed.
Lemma mTh_dz t z : derivable_pt_lim (fun x => mTh i js I G t x) z (mLz t z + io i js * mNuz t z).
Proof.
  replace (mLz t z) with (0 + mLz t z) by lra.
  apply (lin_th _ _ _ _ _ (fun _ => t)); [apply series_dz|apply mNu_dz|apply derivable_pt_lim_const].
Qed.
Lemma mZe_dt t z : derivable_pt_lim (fun x => mZe i js I G x z) t (mNut t z).
Proof.
  replace (mNut t z) with (0 + mNut t z) by lra.
  eapply derivable_ext; [|apply (derivable_pt_lim_plus _ _ _ _ _ (derivable_pt_lim_const z t) (mNu_dt t z))].
  reflexivity.
Qed.
Lemma mZe_dz t z : derivable_pt_lim (fun x => mZe i js I G t x) z (1 + mNuz t z).
Proof.
  eapply derivable_ext; [|apply (derivable_pt_lim_plus _ _ _ _ _ (derivable_pt_lim_id z) (mNu_dz t z))].
  reflexivity.
Qed.

(** The weight is the Jacobian determinant, and there is only one. *)
Lemma mJ_jacobian : is_jacobian i js I G mJ.
Proof.
  intros t z. exists (1 + mLt t z + io i js * mNut t z), (mLz t z + io i js * mNuz t z), (mNut t z), (1 + mNuz t z).
  repeat (split; [first [apply mTh_dt|apply mTh_dz|apply mZe_dt|apply mZe_dz]|]). unfold mJ. lra.
Qed.
Lemma jacobian_unique J J' : is_jacobian i js I G J -> is_jacobian i js I G J' -> forall t z, J t z = J' t z.
Proof.
  intros H H' t z. destruct (H t z) as (a & b & c & d & A & B & C & D & ->).
  destruct (H' t z) as (a' & b' & c' & d' & A' & B' & C' & D' & ->).
  rewrite (uniqueness_limite _ _ _ _ A A'), (uniqueness_limite _ _ _ _ B B'),
    (uniqueness_limite _ _ _ _ C C'), (uniqueness_limite _ _ _ _ D D'). reflexivity.
Qed.
End Point.
