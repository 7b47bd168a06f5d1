(** Each output coefficient is the quadrature of RSpec.v over the full grid, also when the
    code sums over half of it. *)
From Coq Require Import ZArith QArith List Bool Lia Reals Lra Psatz Qreals.
From Verif Require Import Scalar Prog Wp Func Step RunProof FuncExt RSum RSpec RPoint.
Import ListNotations.
Local Open Scope Z_scope.
Local Open Scope R_scope.

(** Periodicity and parity on the torus *)
Definition periodic (nf : Z) (f : R -> R -> R) : Prop :=
  forall t z, f (t + 2 * PI) z = f t z /\ f t (z + 2 * PI / IZR nf) = f t z.
Definition even2 (f : R -> R -> R) : Prop := forall t z, f (- t) (- z) = f t z.
Definition odd2 (f : R -> R -> R) : Prop := forall t z, f (- t) (- z) = - f t z.

Lemma phase_per_t m n t z : phase m n (t + 2 * PI) z = phase m n t z + IZR m * (2 * PI).
Proof. unfold phase. lra. Qed.
Lemma phase_per_z nf m q t z : (0 < nf)%Z ->
  phase m (q * nf) t (z + 2 * PI / IZR nf) = phase m (q * nf) t z + IZR (- q) * (2 * PI).
Proof. intros H. unfold phase. rewrite mult_IZR, opp_IZR. field. apply not_0_IZR. lia. Qed.
Lemma phase_neg m n t z : phase m n (- t) (- z) = - phase m n t z.
Proof. unfold phase. lra. Qed.

Lemma series_per nf n ms ns c s : (0 < nf)%Z -> (forall k, (0 <= k < n)%Z -> (nf | ns k)%Z) ->
  periodic nf (series n ms ns c s).
Proof.
  intros Hf Hd t z. unfold series. split; apply rsum_ext; intros k Hk.
  - now rewrite phase_per_t, cos_2PI_shift, sin_2PI_shift.
  - destruct (Hd k Hk) as (q & ->). now rewrite phase_per_z, cos_2PI_shift, sin_2PI_shift.
Qed.
Lemma series_t_per nf n ms ns c s : (0 < nf)%Z -> (forall k, (0 <= k < n)%Z -> (nf | ns k)%Z) ->
  periodic nf (series_t n ms ns c s).
Proof.
  intros Hf Hd t z. unfold series_t. split; apply rsum_ext; intros k Hk.
  - now rewrite phase_per_t, cos_2PI_shift, sin_2PI_shift.
  - destruct (Hd k Hk) as (q & ->). now rewrite phase_per_z, cos_2PI_shift, sin_2PI_shift.
Qed.
Lemma series_z_per nf n ms ns c s : (0 < nf)%Z -> (forall k, (0 <= k < n)%Z -> (nf | ns k)%Z) ->
  periodic nf (series_z n ms ns c s).
Proof.
  intros Hf Hd t z. unfold series_z. split; apply rsum_ext; intros k Hk.
  - now rewrite phase_per_t, cos_2PI_shift, sin_2PI_shift.
  - destruct (Hd k Hk) as (q & ->). now rewrite phase_per_z, cos_2PI_shift, sin_2PI_shift.
Qed.
Lemma series_even n ms ns c s : (forall k, (0 <= k < n)%Z -> s k = 0) -> even2 (series n ms ns c s).
Proof.
  intros H t z. unfold series. apply rsum_ext. intros k Hk. rewrite phase_neg, cos_neg, H by auto. lra.
Qed.
Lemma series_odd n ms ns c s : (forall k, (0 <= k < n)%Z -> c k = 0) -> odd2 (series n ms ns c s).
Proof.
  intros H t z. unfold series. rewrite <- rsum_opp. apply rsum_ext. intros k Hk. rewrite phase_neg, sin_neg, H by auto. lra.
Qed.
Lemma series_t_even n ms ns c s : (forall k, (0 <= k < n)%Z -> c k = 0) -> even2 (series_t n ms ns c s).
Proof.
  intros H t z. unfold series_t. apply rsum_ext. intros k Hk. rewrite phase_neg, cos_neg, H by auto. lra.
Qed.
Lemma series_z_even n ms ns c s : (forall k, (0 <= k < n)%Z -> c k = 0) -> even2 (series_z n ms ns c s).
Proof.
  intros H t z. unfold series_z. apply rsum_ext. intros k Hk. rewrite phase_neg, cos_neg, H by auto. lra.
Qed.

Section Quad.
Variable i : Inp RS.
Hypothesis Hok : ok_inp i.
Hypothesis Hdiv : nfp_divides i.

Let Hf : (0 < nfp i)%Z. Proof. pose proof (ok_nfp _ _ Hok). lia. Qed.
Let HfR : IZR (nfp i) <> 0. Proof. apply not_0_IZR. lia. Qed.

Lemma nt_ok : ntheta i = nt i. Proof. unfold ntheta, nt. lia. Qed.
Lemma nz_ok : nzeta i = nz i. Proof. unfold nzeta, nz. destruct (Z.eqb (nboz i) 0); lia. Qed.
Lemma nt_pos : (0 < nt i)%Z. Proof. pose proof (ok_mboz _ _ Hok). unfold nt. lia. Qed.
Lemma nz_pos : (0 < nz i)%Z. Proof. pose proof (ok_nboz _ _ Hok). unfold nz. destruct (Z.eqb (nboz i) 0); lia. Qed.
Lemma nu2_ok : nu2 i = (2 * mboz i + 2)%Z.
Proof. unfold nu2. rewrite nt_ok. unfold nt. replace (4 * mboz i + 2)%Z with ((2 * mboz i + 1) * 2)%Z by lia. rewrite Z.div_mul by lia. lia. Qed.
Let HtR : IZR (nt i) <> 0. Proof. apply not_0_IZR. pose proof nt_pos. lia. Qed.
Let HzR : IZR (nz i) <> 0. Proof. apply not_0_IZR. pose proof nz_pos. lia. Qed.

Lemma dtheta_ok : dtheta i = 2 * PI / IZR (nt i).
Proof.
  unfold dtheta, nu3. rewrite twopiR. rs. destruct (asym i); [now rewrite nt_ok|].
  rewrite nu2_ok. repeat f_equal. unfold nt. lia.
Qed.
Lemma dzeta_ok : dzeta i = 2 * PI / (IZR (nfp i) * IZR (nz i)).
Proof. unfold dzeta. rewrite twopiR. rs. now rewrite mult_IZR, nz_ok. Qed.
Lemma thg_ok j : thg i j = gth i (j / nz i)%Z.
Proof. unfold thg, gth; rs. rewrite dtheta_ok, nz_ok. unfold Rdiv. lra. Qed.
Lemma zeg_ok j : zeg i j = gze i (j mod nz i)%Z.
Proof. unfold zeg, gze; rs. rewrite dzeta_ok, nz_ok. unfold Rdiv. lra. Qed.

Lemma gth_refl a : gth i (nt i - a) = - gth i a + 2 * PI.
Proof. unfold gth. rewrite minus_IZR. field. auto. Qed.
Lemma gze_refl b : gze i (nz i - b) = - gze i b + 2 * PI / IZR (nfp i).
Proof. unfold gze. rewrite minus_IZR. field. auto. Qed.
Lemma gth_0 : gth i 0 = 0. Proof. unfold gth. unfold Rdiv. lra. Qed.
Lemma gze_0 : gze i 0 = 0. Proof. unfold gze. unfold Rdiv. lra. Qed.
Lemma gth_nt : gth i (nt i) = gth i 0 + 2 * PI. Proof. rewrite gth_0. unfold gth. field. auto. Qed.
Lemma gze_nz : gze i (nz i) = gze i 0 + 2 * PI / IZR (nfp i). Proof. rewrite gze_0. unfold gze. field. auto. Qed.

(** Sums over one row of the grid *)
Definition row (h : R -> R -> R) (a : Z) : R := rsum (nz i) (fun b => h (gth i a) (gze i b)).
Lemma row_reflect h (s : R) a : periodic (nfp i) h -> (forall t z, h (- t) (- z) = s * h t z) ->
  row h (nt i - a) = s * row h a.
Proof.
  intros P E. unfold row. pose proof nz_pos.
  rewrite <- (rsum_reflect (nz i) (fun b => h (gth i a) (gze i b))); [|lia|rewrite gze_nz; apply P].
  rewrite <- rsum_scal. apply rsum_ext. intros b Hb.
  rewrite gth_refl, gze_refl. rewrite (proj1 (P _ _)), (proj2 (P _ _)), <- E.
  rewrite Ropp_involutive. reflexivity.
Qed.
Lemma row_nt h : periodic (nfp i) h -> row h (nt i) = row h 0.
Proof. intros P. unfold row. apply rsum_ext. intros b Hb. rewrite gth_nt. apply P. Qed.

Lemma full_odd_zero h : periodic (nfp i) h -> odd2 h -> rsum (nt i) (row h) = 0.
Proof.
  intros P E. pose proof nt_pos.
  assert (X : rsum (nt i) (row h) = - rsum (nt i) (row h)).
  { rewrite <- (rsum_reflect (nt i) (row h)) at 1; [|lia|now apply row_nt].
    rewrite <- rsum_opp. apply rsum_ext. intros a Ha.
    rewrite (row_reflect h (-1)); auto; [lra|]. intros. rewrite E. lra. }
  lra.
Qed.

Definition wt (j : Z) : R := if half_pt i j then / 2 else 1.
Lemma wgt_ok j x : wgt i j x = wt j * x.
Proof. unfold wgt, wt; rs. rewrite halfR. destruct (half_pt i j); lra. Qed.

(** The weighted sum over the points the code visits, times its normalisation. *)
Lemma grid_sum h : periodic (nfp i) h -> (asym i = false -> even2 h) ->
  ff0 i * rsum (npts i) (fun j => wt j * h (thg i j) (zeg i j)) =
  2 / (IZR (nt i) * IZR (nz i)) * rsum (nt i) (row h).
Proof.
  intros P E. unfold ff0, npts, nu3, wt, half_pt; rs. rewrite twoR. pose proof nt_pos. pose proof nz_pos.
  destruct (asym i) eqn:Ea; cbn [negb andb].
  - rewrite nt_ok, nz_ok, mult_IZR. f_equal. unfold row.
    rewrite <- (rsum_flat _ _ (fun a b => h (gth i a) (gze i b))) by lia.
    apply rsum_ext. intros j Hj. rewrite thg_ok, zeg_ok. lra.
  - rewrite nz_ok, nu2_ok. set (M := (2 * mboz i + 1)%Z).
    assert (HM : (0 < M)%Z) by (pose proof (ok_mboz _ _ Hok); unfold M; lia).
    replace (2 * mboz i + 2)%Z with (M + 1)%Z by (unfold M; lia).
    replace (M + 1 - 1)%Z with M by lia.
    assert (EM : nt i = (M + M)%Z) by (unfold nt, M; lia).
    pose (wa a := if (Z.eqb a 0 || Z.eqb a M)%bool then / 2 else 1).
    assert (S1 : rsum ((M + 1) * nz i) (fun j => (if ((j <? nz i) || (nz i * M <=? j))%Z then / 2 else 1) * h (thg i j) (zeg i j))
      = rsum (M + 1) (fun a => wa a * row h a)).
    { rewrite (rsum_ext (M + 1) _ (fun a => rsum (nz i) (fun b => wa a * h (gth i a) (gze i b)))).
      2:{ intros. unfold row. now rewrite rsum_scal. }
      rewrite <- (rsum_flat _ _ (fun a b => wa a * h (gth i a) (gze i b))) by lia.
      apply rsum_ext. intros j Hj. rewrite thg_ok, zeg_ok. f_equal. unfold wa.
      assert (Hq : (0 <= j / nz i < M + 1)%Z).
      { split; [apply Z.div_pos; lia|apply Z.div_lt_upper_bound; lia]. }
      assert (E1 : (j <? nz i)%Z = Z.eqb (j / nz i) 0).
      { destruct (Z.ltb_spec j (nz i)), (Z.eqb_spec (j / nz i) 0); auto.
        - rewrite Z.div_small in *; lia.
        - apply Z.div_small_iff in e; lia. }
      assert (E2 : (nz i * M <=? j)%Z = Z.eqb (j / nz i) M).
      { destruct (Z.leb_spec (nz i * M) j) as [L|L], (Z.eqb_spec (j / nz i) M) as [e|e]; auto.
        - apply Z.div_le_lower_bound in L; lia.
        - exfalso. apply Z.div_lt_upper_bound in L; lia. }
      now rewrite E1, E2. }
    rewrite S1. clear S1.
    assert (Sy : forall a, row h (M + M - a) = row h a).
    { intros a. rewrite <- EM. rewrite (row_reflect h 1); auto; [lra|]. intros. rewrite E by auto. lra. }
    assert (S2 : rsum (nt i) (row h) = 2 * rsum (M + 1) (row h) - row h M - row h 0).
    { rewrite EM, rsum_split by lia.
      rewrite (rsum_ext M (fun k => row h (M + k)) (fun k => row h (M - k))).
      2:{ intros k Hk. rewrite <- (Sy (M + k)%Z). f_equal. lia. }
      rewrite (rsum_rev M (fun k => row h (M - k)%Z)) by lia.
      rewrite (rsum_ext M (fun k => row h (M - (M - 1 - k))) (fun k => row h (k + 1))).
      2:{ intros k Hk. f_equal. lia. }
      pose proof (rsum_first M (row h) ltac:(lia)). pose proof (rsum_succ M (row h) ltac:(lia)). lra. }
    assert (S3 : rsum (M + 1) (fun a => wa a * row h a) = rsum (M + 1) (row h) - / 2 * row h M - / 2 * row h 0).
    { assert (D : rsum (M + 1) (row h) - rsum (M + 1) (fun a => wa a * row h a) = / 2 * row h M + / 2 * row h 0).
      { rewrite <- rsum_sub. rewrite rsum_first by lia.
        replace M with (M - 1 + 1)%Z at 1 by lia. rewrite rsum_succ by lia.
        rewrite rsum_zero.
        - replace (M - 1 + 1)%Z with M by lia. unfold wa. rewrite !Z.eqb_refl, orb_true_r. cbn [orb]. lra.
        - intros k Hk. unfold wa. destruct (Z.eqb_spec (k + 1) 0), (Z.eqb_spec (k + 1) M); cbn [orb]; try lia. lra. }
      lra. }
    rewrite S3. replace (rsum (M + 1) (row h) - / 2 * row h M - / 2 * row h 0) with (/ 2 * rsum (nt i) (row h)) by lra.
    rewrite EM, mult_IZR, plus_IZR. assert (0 < IZR M) by (apply IZR_lt; lia).
    field. repeat split; auto; lra.
Qed.

(** ** The coefficients *)
Variable js : Z.
Notation I := (bI i js).
Notation G := (bG i js).
Notation J := (mJ i js).
Notation TH := (mTh i js I G).
Notation ZE := (mZe i js I G).

Lemma mode_m_nonneg k : (0 <= k)%Z -> (0 <= mode_m i k)%Z.
Proof.
  intros H. unfold mode_m. destruct (Z.leb_spec k (nboz i)); [lia|].
  pose proof (ok_nboz _ _ Hok).
  assert (0 <= (k - (nboz i + 1)) / (2 * nboz i + 1))%Z by (apply Z.div_pos; lia). lia.
Qed.
Lemma o_cos_ok k j : (0 <= k)%Z ->
  o_cos i js k j = wt j * cos (phase (xm_b i k) (xn_b i k) (TH (thg i j) (zeg i j)) (ZE (thg i j) (zeg i j)))
    * J (thg i j) (zeg i j) * ff i k.
Proof.
  intros Hk. unfold o_cos. cbv zeta. unfold bth, bze, xn_b, xm_b. rs. rewrite !wgt_ok.
  rewrite !p_th_ok, !p_ze_ok, p_jac_ok by auto.
  pose proof (pcos_exact (nfp i) (mode_m i k) (mode_n i k) (wt j) (TH (thg i j) (zeg i j)) (ZE (thg i j) (zeg i j))
    Hf (mode_m_nonneg k Hk)) as E. cbv zeta in E. rewrite E. reflexivity.
Qed.
Lemma o_sin_ok k j : (0 <= k)%Z ->
  o_sin i js k j = wt j * sin (phase (xm_b i k) (xn_b i k) (TH (thg i j) (zeg i j)) (ZE (thg i j) (zeg i j)))
    * J (thg i j) (zeg i j) * ff i k.
Proof.
  intros Hk. unfold o_sin. cbv zeta. unfold bth, bze, xn_b, xm_b. rs. rewrite !wgt_ok.
  rewrite !p_th_ok, !p_ze_ok, p_jac_ok by auto.
  pose proof (psin_exact (nfp i) (mode_m i k) (mode_n i k) (wt j) (TH (thg i j) (zeg i j)) (ZE (thg i j) (zeg i j))
    Hf (mode_m_nonneg k Hk)) as E. cbv zeta in E. rewrite E. reflexivity.
Qed.

(** periodicity and parity of everything *)
Lemma per_L : periodic (nfp i) (mL i js). Proof. apply series_per; auto. apply Hdiv. Qed.
Lemma per_W : periodic (nfp i) (mW i js). Proof. apply series_per; auto. apply Hdiv. Qed.
Lemma per_R : periodic (nfp i) (mR i js). Proof. apply series_per; auto. apply Hdiv. Qed.
Lemma per_Z : periodic (nfp i) (mZ i js). Proof. apply series_per; auto. apply Hdiv. Qed.
Lemma per_B : periodic (nfp i) (mB i js). Proof. apply series_per; auto. apply Hdiv. Qed.
Lemma per_Nu : periodic (nfp i) (mNu i js I G).
Proof.
  intros t z. unfold mNu. split.
  - now rewrite (proj1 (per_W t z)), (proj1 (per_L t z)).
  - now rewrite (proj2 (per_W t z)), (proj2 (per_L t z)).
Qed.
Lemma per_g : periodic (nfp i) (mSqrtg i js I G).
Proof. intros t z. unfold mSqrtg. split; [now rewrite (proj1 (per_B t z))|now rewrite (proj2 (per_B t z))]. Qed.
Lemma per_J : periodic (nfp i) J.
Proof.
  assert (A : periodic (nfp i) (mLt i js)) by (apply series_t_per; auto; apply Hdiv).
  assert (B : periodic (nfp i) (mLz i js)) by (apply series_z_per; auto; apply Hdiv).
  assert (C : periodic (nfp i) (mWt i js)) by (apply series_t_per; auto; apply Hdiv).
  assert (D : periodic (nfp i) (mWz i js)) by (apply series_z_per; auto; apply Hdiv).
  intros t z. unfold mJ, mNut, mNuz. split.
  - now rewrite (proj1 (A t z)), (proj1 (B t z)), (proj1 (C t z)), (proj1 (D t z)).
  - now rewrite (proj2 (A t z)), (proj2 (B t z)), (proj2 (C t z)), (proj2 (D t z)).
Qed.
Lemma TH_per t z : TH (t + 2 * PI) z = TH t z + 2 * PI /\ TH t (z + 2 * PI / IZR (nfp i)) = TH t z.
Proof.
  unfold mTh. split.
  - rewrite (proj1 (per_L t z)), (proj1 (per_Nu t z)). lra.
  - rewrite (proj2 (per_L t z)), (proj2 (per_Nu t z)). lra.
Qed.
Lemma ZE_per t z : ZE (t + 2 * PI) z = ZE t z /\ ZE t (z + 2 * PI / IZR (nfp i)) = ZE t z + 2 * PI / IZR (nfp i).
Proof.
  unfold mZe. split.
  - rewrite (proj1 (per_Nu t z)). lra.
  - rewrite (proj2 (per_Nu t z)). lra.
Qed.
Lemma per_trig (tr : R -> R) m q : (forall x k, tr (x + IZR k * (2 * PI)) = tr x) ->
  periodic (nfp i) (fun t z => tr (phase m (q * nfp i) (TH t z) (ZE t z))).
Proof.
  intros H t z. split.
  - rewrite (proj1 (TH_per t z)), (proj1 (ZE_per t z)), phase_per_t. apply H.
  - rewrite (proj2 (TH_per t z)), (proj2 (ZE_per t z)), phase_per_z by auto. apply H.
Qed.
Lemma per_int (Q : R -> R -> R) tr m q : periodic (nfp i) Q -> (forall x k, tr (x + IZR k * (2 * PI)) = tr x) ->
  periodic (nfp i) (fun t z => Q t z * tr (phase m (q * nfp i) (TH t z) (ZE t z)) * J t z).
Proof.
  intros HQ Ht t z. pose proof (per_trig tr m q Ht t z) as P. pose proof (per_J t z) as PJ. cbv beta in P.
  split; [rewrite (proj1 P), (proj1 (HQ t z)), (proj1 PJ)|rewrite (proj2 P), (proj2 (HQ t z)), (proj2 PJ)]; reflexivity.
Qed.

(** stellarator symmetry: no coefficient of the other parity *)
Definition symm : Prop :=
  asym i = true ->
  (forall k, (0 <= k < mnmax i)%Z -> rmns i k js = 0 /\ zmnc i k js = 0 /\ lmnc i k js = 0) /\
  (forall k, (0 <= k < mnmaxq i)%Z -> bmns i k js = 0 /\ bsubumns i k js = 0 /\ bsubvmns i k js = 0).

Section Sym.
Hypothesis Hs : symm.
Ltac off := intros k Hk; unfold onA; destruct (asym i) eqn:Ea; [|reflexivity]; destruct (Hs Ea) as (H1 & H2);
  first [ apply (proj1 (H1 k Hk)) | apply (proj1 (proj2 (H1 k Hk))) | apply (proj2 (proj2 (H1 k Hk)))
        | apply (proj1 (H2 k Hk)) | apply (proj1 (proj2 (H2 k Hk))) | apply (proj2 (proj2 (H2 k Hk))) ].
Lemma even_R : even2 (mR i js). Proof. apply series_even. off. Qed.
Lemma odd_Z : odd2 (mZ i js). Proof. apply series_odd. off. Qed.
Lemma even_B : even2 (mB i js). Proof. apply series_even. off. Qed.
Lemma offL : forall k, (0 <= k < mnmax i)%Z -> onA (asym i) (fun k => lmnc i k js) k = 0. Proof. off. Qed.
Lemma offW : forall k, (0 <= k < mnmaxq i)%Z -> onA (asym i) (w_cos i js) k = 0.
Proof.
  intros k Hk. unfold onA, w_cos. destruct (asym i) eqn:Ea; [|reflexivity]. destruct (Hs Ea) as (_ & H2).
  destruct (H2 k Hk) as (_ & -> & ->). destruct (Z.eqb (xmq i k) 0), (Z.eqb (xnq i k) 0); unfold Rdiv; lra.
Qed.
Lemma odd_L : odd2 (mL i js). Proof. apply series_odd. apply offL. Qed.
Lemma odd_W : odd2 (mW i js). Proof. apply series_odd. apply offW. Qed.
Lemma odd_Nu : odd2 (mNu i js I G).
Proof. intros t z. unfold mNu. rewrite odd_L, odd_W. unfold Rdiv. lra. Qed.
Lemma odd_TH : odd2 TH. Proof. intros t z. unfold mTh. rewrite odd_L, odd_Nu. lra. Qed.
Lemma odd_ZE : odd2 ZE. Proof. intros t z. unfold mZe. rewrite odd_Nu. lra. Qed.
Lemma even_g : even2 (mSqrtg i js I G). Proof. intros t z. unfold mSqrtg. now rewrite even_B. Qed.
Lemma even_J : even2 J.
Proof.
  assert (A : even2 (mLt i js)) by (apply series_t_even, offL).
  assert (B : even2 (mLz i js)) by (apply series_z_even, offL).
  assert (C : even2 (mWt i js)) by (apply series_t_even, offW).
  assert (D : even2 (mWz i js)) by (apply series_z_even, offW).
  intros t z. unfold mJ, mNut, mNuz. now rewrite A, B, C, D.
Qed.
Lemma cos_int (Q : R -> R -> R) (s : R) m n : (forall t z, Q (- t) (- z) = s * Q t z) ->
  forall t z, Q (- t) (- z) * cos (phase m n (TH (- t) (- z)) (ZE (- t) (- z))) * J (- t) (- z) =
    s * (Q t z * cos (phase m n (TH t z) (ZE t z)) * J t z).
Proof. intros H t z. rewrite odd_TH, odd_ZE, phase_neg, cos_neg, even_J, H. lra. Qed.
Lemma sin_int (Q : R -> R -> R) (s : R) m n : (forall t z, Q (- t) (- z) = s * Q t z) ->
  forall t z, Q (- t) (- z) * sin (phase m n (TH (- t) (- z)) (ZE (- t) (- z))) * J (- t) (- z) =
    - s * (Q t z * sin (phase m n (TH t z) (ZE t z)) * J t z).
Proof. intros H t z. rewrite odd_TH, odd_ZE, phase_neg, sin_neg, even_J, H. lra. Qed.
End Sym.

Lemma symm_false : asym i = false -> symm. Proof. intros E E'. congruence. Qed.

Lemma ff_ok k : (0 <= k < mnboz i)%Z ->
  ff i k = ff0 i * (if (Z.eqb (xm_b i k) 0 && Z.eqb (xn_b i k) 0)%bool then / 2 else 1).
Proof.
  intros Hk. unfold ff; rs. rewrite halfR. pose proof (ok_nboz _ _ Hok) as Hn.
  destruct (Z.eqb_spec k 0) as [->|Hk0].
  - assert (E : mode_m i 0 = 0%Z /\ mode_n i 0 = 0%Z).
    { unfold mode_m, mode_n. destruct (Z.leb_spec 0 (nboz i)); [auto|lia]. }
    unfold xm_b, xn_b. rewrite (proj1 E), (proj2 E). reflexivity.
  - assert (E : (Z.eqb (xm_b i k) 0 && Z.eqb (xn_b i k) 0)%bool = false).
    { unfold xm_b, xn_b, mode_m, mode_n. destruct (Z.leb_spec k (nboz i)).
      - cbn. apply Z.eqb_neq. nia.
      - assert (0 <= (k - (nboz i + 1)) / (2 * nboz i + 1))%Z by (apply Z.div_pos; lia).
        apply andb_false_iff. left. apply Z.eqb_neq. lia. }
    rewrite E. lra.
Qed.

(** The generic statement: quantity Q, computed at point j as q j. *)
Lemma coef_quad (Q : R -> R -> R) (tr : R -> R) (inc : Z -> R) k : (0 <= k < mnboz i)%Z ->
  periodic (nfp i) Q -> (forall x k, tr (x + IZR k * (2 * PI)) = tr x) ->
  (asym i = false -> even2 (fun t z => Q t z * tr (phase (xm_b i k) (xn_b i k) (TH t z) (ZE t z)) * J t z)) ->
  (forall j, inc j = wt j * tr (phase (xm_b i k) (xn_b i k) (TH (thg i j) (zeg i j)) (ZE (thg i j) (zeg i j)))
      * J (thg i j) (zeg i j) * ff i k * Q (thg i j) (zeg i j)) ->
  accum (npts i) (fun j acc => acc + inc j) 0 = quad i js I G J Q tr (xm_b i k) (xn_b i k).
Proof.
  intros Hk HQ Ht He Hi. rewrite accum_rsum, Rplus_0_l.
  set (h := fun t z => Q t z * tr (phase (xm_b i k) (xn_b i k) (TH t z) (ZE t z)) * J t z).
  assert (P : periodic (nfp i) h) by (apply per_int; auto).
  rewrite (rsum_ext _ inc (fun j => ff i k * (wt j * h (thg i j) (zeg i j)))).
  2:{ intros j _. rewrite Hi. unfold h. lra. }
  rewrite rsum_scal, ff_ok by auto. unfold quad.
  pose proof (grid_sum h P He) as GS. unfold row, h in GS.
  set (c := if (Z.eqb (xm_b i k) 0 && Z.eqb (xn_b i k) 0)%bool then / 2 else 1).
  rewrite (Rmult_comm (ff0 i) c), Rmult_assoc. unfold h. rewrite GS. unfold c.
  destruct (Z.eqb (xm_b i k) 0 && Z.eqb (xn_b i k) 0)%bool; cbv zeta; field; auto.
Qed.

(** The quantity and the trigonometric function behind each output. *)
Definition out_Q (f : afield) : R -> R -> R :=
  match f with
  | A_bmnc_b | A_bmns_b => mB i js
  | A_rmnc_b | A_rmns_b => mR i js
  | A_zmns_b | A_zmnc_b => mZ i js
  | A_numns_b | A_numnc_b => mNu i js I G
  | _ => mSqrtg i js I G
  end.
Definition out_trig (f : afield) : R -> R :=
  match f with
  | A_bmnc_b | A_rmnc_b | A_gmnc_b | A_zmnc_b | A_numnc_b => cos
  | _ => sin
  end.

Lemma out_per f : periodic (nfp i) (out_Q f).
Proof. destruct f; cbn; auto using per_B, per_R, per_Z, per_Nu, per_g. Qed.
Lemma out_trig_per f x k : out_trig f (x + IZR k * (2 * PI)) = out_trig f x.
Proof. destruct f; cbn; auto using cos_2PI_shift, sin_2PI_shift. Qed.

Lemma sym_even f m n : symm -> In f sym_outs ->
  even2 (fun t z => out_Q f t z * out_trig f (phase m n (TH t z) (ZE t z)) * J t z).
Proof.
  intros Hs Hf' t z. cbn in Hf'.
  destruct Hf' as [<-|[<-|[<-|[<-|[<-|[]]]]]]; cbn [out_Q out_trig].
  - rewrite (cos_int Hs _ 1); [lra|]. intros. rewrite even_B; auto. lra.
  - rewrite (cos_int Hs _ 1); [lra|]. intros. rewrite even_R; auto. lra.
  - rewrite (sin_int Hs _ (-1)); [lra|]. intros. rewrite odd_Z; auto. lra.
  - rewrite (sin_int Hs _ (-1)); [lra|]. intros. rewrite odd_Nu; auto. lra.
  - rewrite (cos_int Hs _ 1); [lra|]. intros. rewrite even_g; auto. lra.
Qed.
Lemma asym_odd f m n : symm -> In f asym_outs ->
  odd2 (fun t z => out_Q f t z * out_trig f (phase m n (TH t z) (ZE t z)) * J t z).
Proof.
  intros Hs Hf' t z. cbn in Hf'.
  destruct Hf' as [<-|[<-|[<-|[<-|[<-|[]]]]]]; cbn [out_Q out_trig].
  - rewrite (sin_int Hs _ 1); [lra|]. intros. rewrite even_B; auto. lra.
  - rewrite (sin_int Hs _ 1); [lra|]. intros. rewrite even_R; auto. lra.
  - rewrite (cos_int Hs _ (-1)); [lra|]. intros. rewrite odd_Z; auto. lra.
  - rewrite (cos_int Hs _ (-1)); [lra|]. intros. rewrite odd_Nu; auto. lra.
  - rewrite (sin_int Hs _ 1); [lra|]. intros. rewrite even_g; auto. lra.
Qed.

Lemma o_coef_quad f k : In f (outs (asym i)) -> (0 <= k < mnboz i)%Z ->
  o_coef i js f k = quad i js I G J (out_Q f) (out_trig f) (xm_b i k) (xn_b i k).
Proof.
  intros Hin Hk. unfold o_coef. rewrite f0R. rs. apply coef_quad; auto using out_per, out_trig_per.
  - intros Ea. apply sym_even; [now apply symm_false|]. now rewrite Ea in Hin.
  - intros j. assert (Hall : In f (sym_outs ++ asym_outs)).
    { unfold outs in Hin. destruct (asym i); [exact Hin|apply in_or_app; now left]. }
    cbn in Hall. repeat (destruct Hall as [<-|Hall]; [cbn [o_inc out_Q out_trig]; rs;
      rewrite ?o_cos_ok, ?o_sin_ok by lia;
      rewrite ?p_b_ok, ?p_r_ok, ?p_z_ok, ?p_nu_ok, ?p_g_ok by auto; reflexivity|]). contradiction.
Qed.

(** With any Jacobian *)
Lemma quad_ext J1 J2 Q1 Q2 tr m n :
  (forall t z, J1 t z = J2 t z) -> (forall t z, Q1 t z = Q2 t z) ->
  quad i js I G J1 Q1 tr m n = quad i js I G J2 Q2 tr m n.
Proof.
  intros HJ HQ. unfold quad. f_equal. apply rsum_ext. intros a _. apply rsum_ext. intros b _. cbv zeta.
  now rewrite HJ, HQ.
Qed.
End Quad.
