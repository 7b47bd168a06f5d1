(** The output coefficients converge, faster than any power of the resolution, to the
    spectrum in the Boozer angles. *)
From Coq Require Import ZArith List Bool Lia Reals Lra Psatz.
From Verif Require Import Scalar Prog Wp Func Step RunProof FuncExt Spec RSum RSpec RPoint RQuad RThms RThms3 Conv.
Import ListNotations.
Local Open Scope Z_scope.
Local Open Scope R_scope.

(** the mixed second derivatives of a series agree *)
Definition series_tz (n : Z) (ms ns : Z -> Z) (c s : Z -> R) (t z : R) : R :=
  rsum n (fun k => (s k * sin (phase (ms k) (ns k) t z) + c k * cos (phase (ms k) (ns k) t z)) * IZR (ms k) * IZR (ns k)).
Lemma series_dtz n ms ns c s t z : derivable_pt_lim (fun y => series_t n ms ns c s t y) z (series_tz n ms ns c s t z).
Proof.
  pose proof (series_dz n ms ns (fun k => s k * IZR (ms k)) (fun k => - c k * IZR (ms k)) t z) as D.
  replace (series_tz n ms ns c s t z) with (series_z n ms ns (fun k => s k * IZR (ms k)) (fun k => - c k * IZR (ms k)) t z)
    by (unfold series_z, series_tz; apply rsum_ext; intros; lra).
  eapply derivable_ext; [|exact D]. intros y. unfold series, series_t. apply rsum_ext. intros. lra.
Qed.
Lemma series_dzt n ms ns c s t z : derivable_pt_lim (fun x => series_z n ms ns c s x z) t (series_tz n ms ns c s t z).
Proof.
  pose proof (series_dt n ms ns (fun k => - s k * IZR (ns k)) (fun k => c k * IZR (ns k)) t z) as D.
  replace (series_tz n ms ns c s t z) with (series_t n ms ns (fun k => - s k * IZR (ns k)) (fun k => c k * IZR (ns k)) t z)
    by (unfold series_t, series_tz; apply rsum_ext; intros; lra).
  eapply derivable_ext; [|exact D]. intros y. unfold series, series_z. apply rsum_ext. intros. lra.
Qed.

Lemma d_lin (f g : R -> R) x df dg a b : derivable_pt_lim f x df -> derivable_pt_lim g x dg ->
  derivable_pt_lim (fun y => a * f y + b * g y) x (a * df + b * dg).
Proof.
  intros D1 D2. apply (derivable_pt_lim_plus (mult_real_fct a f) (mult_real_fct b g)); apply derivable_pt_lim_scal; auto.
Qed.

(** x N M is within C (N^-p + M^-p) of l *)
Definition near (p : nat) (x : Z -> Z -> R) (l : R) : Prop :=
  exists C, 0 <= C /\ forall N M, (0 < N)%Z -> (0 < M)%Z -> Rabs (x N M - l) <= C * (/ IZR N ^ p + / IZR M ^ p).
Lemma near_add p x y a b : near p x a -> near p y b -> near p (fun N M => x N M + y N M) (a + b).
Proof.
  intros (C & HC & X) (D & HD & Y). exists (C + D). split; [lra|]. intros N M HN HM.
  replace (x N M + y N M - (a + b)) with ((x N M - a) + (y N M - b)) by lra.
  eapply Rle_trans; [apply Rabs_triang|]. pose proof (X N M HN HM). pose proof (Y N M HN HM). lra.
Qed.
Lemma near_scal p x a c : near p x a -> near p (fun N M => c * x N M) (c * a).
Proof.
  intros (C & HC & X). exists (Rabs c * C). split; [apply Rmult_le_pos; auto; apply Rabs_pos|]. intros N M HN HM.
  rewrite <- Rmult_minus_distr_l, Rabs_mult, Rmult_assoc. apply Rmult_le_compat_l; [apply Rabs_pos|auto].
Qed.
Lemma near_ext p x y a b : (forall N M, (0 < N)%Z -> (0 < M)%Z -> x N M = y N M) -> a = b -> near p x a -> near p y b.
Proof. intros E <- (C & HC & X). exists C. split; auto. intros N M HN HM. rewrite <- E by auto. auto. Qed.
Lemma near_rsum p n (x : Z -> Z -> Z -> R) (a : Z -> R) : (forall k, (0 <= k < n)%Z -> near p (x k) (a k)) ->
  near p (fun N M => rsum n (fun k => x k N M)) (rsum n a).
Proof.
  destruct (Z.le_gt_cases 0 n) as [Hn|Hn].
  - revert n Hn. apply (rsum_ind (fun n => _ -> near p (fun N M => rsum n (fun k => x k N M)) (rsum n a))).
    + intros _. exists 0. split; [lra|]. intros. rewrite !rsum_0. rewrite Rminus_0_r, Rabs_R0. lra.
    + intros n Hn IH H. eapply near_ext; [| |apply near_add; [apply IH; intros; apply H; lia|apply (H n); lia]].
      * intros. cbv beta. now rewrite rsum_succ.
      * now rewrite rsum_succ.
  - intros _. exists 0. split; [lra|]. intros. rewrite !rsum_neg by lia. rewrite Rminus_0_r, Rabs_R0. lra.
Qed.

Section Surface.
Variable i : Inp RS.
Hypothesis Hnf : (0 < nfp i)%Z.
Hypothesis Hdiv : nfp_divides i.
Variable js : Z.
Variables I G : R.
Notation TH := (mTh i js I G).
Notation ZE := (mZe i js I G).
Notation NU := (mNu i js I G).
Notation sm := (smooth (nfp i)).
Let e := io i js.
Let d := G + e * I.
Let Lt := series_t (mnmax i) (xm i) (xn i) (onA (asym i) (fun k => lmnc i k js)) (fun k => lmns i k js).
Let Lz := series_z (mnmax i) (xm i) (xn i) (onA (asym i) (fun k => lmnc i k js)) (fun k => lmns i k js).
Let Ltz := series_tz (mnmax i) (xm i) (xn i) (onA (asym i) (fun k => lmnc i k js)) (fun k => lmns i k js).
Let Wt := series_t (mnmaxq i) (xmq i) (xnq i) (onA (asym i) (w_cos i js)) (w_sin i js).
Let Wz := series_z (mnmaxq i) (xmq i) (xnq i) (onA (asym i) (w_cos i js)) (w_sin i js).
Let Wtz := series_tz (mnmaxq i) (xmq i) (xnq i) (onA (asym i) (w_cos i js)) (w_sin i js).
Let Nt t z := / d * Wt t z + (- I / d) * Lt t z.
Let Nz t z := / d * Wz t z + (- I / d) * Lz t z.
Let Ntz t z := / d * Wtz t z + (- I / d) * Ltz t z.
(** theta_B - theta *)
Let P t z := 1 * mL i js t z + e * NU t z.
Let Pt t z := 1 * Lt t z + e * Nt t z.
Let Pz t z := 1 * Lz t z + e * Nz t z.
Let Ptz t z := 1 * Ltz t z + e * Ntz t z.

Lemma sm_L : sm (mL i js). Proof. apply series_smooth; auto. apply Hdiv. Qed.
Lemma sm_W : sm (mW i js). Proof. apply series_smooth; auto. apply Hdiv. Qed.
Lemma sm_R : sm (mR i js). Proof. apply series_smooth; auto. apply Hdiv. Qed.
Lemma sm_Z : sm (mZ i js). Proof. apply series_smooth; auto. apply Hdiv. Qed.
Lemma sm_B : sm (mB i js). Proof. apply series_smooth; auto. apply Hdiv. Qed.
Lemma nu_lin t z : NU t z = / d * mW i js t z + (- I / d) * mL i js t z.
Proof. unfold mNu. fold e. fold d. unfold Rdiv. lra. Qed.
Lemma sm_Nu : sm NU.
Proof.
  apply (smooth_ext _ (fun t z => / d * mW i js t z + (- I / d) * mL i js t z)); [intros; now rewrite nu_lin|].
  apply smooth_add; apply smooth_scal; [apply sm_W|apply sm_L].
Qed.
Lemma nu_dt t z : derivable_pt_lim (fun x => NU x z) t (Nt t z).
Proof. eapply derivable_ext; [intros y; symmetry; apply nu_lin|]. apply d_lin; apply series_dt. Qed.
Lemma nu_dz t z : derivable_pt_lim (fun y => NU t y) z (Nz t z).
Proof. eapply derivable_ext; [intros y; symmetry; apply nu_lin|]. apply d_lin; apply series_dz. Qed.
Lemma nu_dtz t z : derivable_pt_lim (fun y => Nt t y) z (Ntz t z).
Proof. apply d_lin; apply series_dtz. Qed.
Lemma nu_dzt t z : derivable_pt_lim (fun x => Nz x z) t (Ntz t z).
Proof. apply d_lin; apply series_dzt. Qed.
Lemma P_dt t z : derivable_pt_lim (fun x => P x z) t (Pt t z).
Proof. apply d_lin; [apply series_dt|apply nu_dt]. Qed.
Lemma P_dz t z : derivable_pt_lim (fun y => P t y) z (Pz t z).
Proof. apply d_lin; [apply series_dz|apply nu_dz]. Qed.
Lemma P_dtz t z : derivable_pt_lim (fun y => Pt t y) z (Ptz t z).
Proof. apply d_lin; [apply series_dtz|apply nu_dtz]. Qed.
Lemma P_dzt t z : derivable_pt_lim (fun x => Pz x z) t (Ptz t z).
Proof. apply d_lin; [apply series_dzt|apply nu_dzt]. Qed.
Lemma sm_P : sm P.
Proof. apply smooth_add; apply smooth_scal; [apply sm_L|apply sm_Nu]. Qed.
Lemma sm_Pt : sm Pt. Proof. apply (smooth_dt _ P); [apply sm_P|apply P_dt]. Qed.
Lemma sm_Pz : sm Pz. Proof. apply (smooth_dz _ P); [apply sm_P|apply P_dz]. Qed.
Lemma sm_Nt : sm Nt. Proof. apply (smooth_dt _ NU); [apply sm_Nu|apply nu_dt]. Qed.
Lemma sm_Nz : sm Nz. Proof. apply (smooth_dz _ NU); [apply sm_Nu|apply nu_dz]. Qed.
Let TtE t z := 1 + Pt t z.
Let ZzE t z := 1 + Nz t z.
Lemma sm_Tt : sm TtE. Proof. apply smooth_add; [apply smooth_const|apply sm_Pt]. Qed.
Lemma sm_Zz : sm ZzE. Proof. apply smooth_add; [apply smooth_const|apply sm_Nz]. Qed.

Lemma th_P t z : TH t z = t + P t z. Proof. unfold mTh, P. fold e. lra. Qed.
Lemma th_dt t z : derivable_pt_lim (fun x => TH x z) t (TtE t z).
Proof.
  eapply derivable_ext; [intros y; symmetry; apply th_P|].
  apply (derivable_pt_lim_plus id (fun x => P x z)); [apply derivable_pt_lim_id|apply P_dt].
Qed.
Lemma th_dz t z : derivable_pt_lim (fun y => TH t y) z (Pz t z).
Proof.
  eapply derivable_ext; [intros y; symmetry; apply th_P|]. rewrite <- (Rplus_0_l (Pz t z)).
  apply (derivable_pt_lim_plus (fun _ => t) (fun y => P t y)); [apply derivable_pt_lim_const|apply P_dz].
Qed.
Lemma ze_dt t z : derivable_pt_lim (fun x => ZE x z) t (Nt t z).
Proof.
  rewrite <- (Rplus_0_l (Nt t z)).
  apply (derivable_pt_lim_plus (fun _ => z) (fun x => NU x z)); [apply derivable_pt_lim_const|apply nu_dt].
Qed.
Lemma ze_dz t z : derivable_pt_lim (fun y => ZE t y) z (ZzE t z).
Proof. apply (derivable_pt_lim_plus id (fun y => NU t y)); [apply derivable_pt_lim_id|apply nu_dz]. Qed.

Let J0 t z := TtE t z * ZzE t z - Pz t z * Nt t z.
Lemma sm_J0 : sm J0.
Proof. apply smooth_sub; apply smooth_mul; auto using sm_Tt, sm_Zz, sm_Pz, sm_Nt. Qed.
Lemma J_is J : is_jacobian i js I G J -> forall t z, J t z = J0 t z.
Proof.
  intros H t z. destruct (H t z) as (a & b & c & f & A & B & C & D & ->).
  rewrite (uniqueness_limite _ _ _ _ A (th_dt t z)), (uniqueness_limite _ _ _ _ B (th_dz t z)),
    (uniqueness_limite _ _ _ _ C (ze_dt t z)), (uniqueness_limite _ _ _ _ D (ze_dz t z)). reflexivity.
Qed.

(** the phase in the Boozer angles *)
Section Mode.
Variables a b : Z.
Hypothesis Hb : (nfp i | b)%Z.
Let ph t z := phase a b (TH t z) (ZE t z).
Let pt t z := IZR a * TtE t z + (- IZR b) * Nt t z.
Let pz t z := IZR a * Pz t z + (- IZR b) * ZzE t z.
Lemma ph_dt t z : derivable_pt_lim (fun x => ph x z) t (pt t z).
Proof.
  apply (derivable_ext (fun x => IZR a * TH x z + (- IZR b) * ZE x z)); [intros; unfold ph, phase; lra|].
  apply d_lin; [apply th_dt|apply ze_dt].
Qed.
Lemma ph_dz t z : derivable_pt_lim (fun y => ph t y) z (pz t z).
Proof.
  apply (derivable_ext (fun y => IZR a * TH t y + (- IZR b) * ZE t y)); [intros; unfold ph, phase; lra|].
  apply d_lin; [apply th_dz|apply ze_dz].
Qed.
Lemma sm_pt : sm pt. Proof. apply smooth_add; apply smooth_scal; [apply sm_Tt|apply sm_Nt]. Qed.
Lemma sm_pz : sm pz. Proof. apply smooth_add; apply smooth_scal; [apply sm_Pz|apply sm_Zz]. Qed.
Lemma ph_per (tr : R -> R) : (forall x k, tr (x + IZR k * (2 * PI)) = tr x) -> periodic (nfp i) (fun t z => tr (ph t z)).
Proof.
  intros Htr t z. destruct (sm_P O) as (PP & _). destruct (sm_Nu O) as (PN & _). unfold ph. rewrite !th_P. unfold mZe.
  destruct (PP t z) as (E1 & E2). destruct (PN t z) as (E3 & E4). rewrite E1, E2, E3, E4. split.
  - etransitivity; [|apply (Htr _ a)]. f_equal. unfold phase. lra.
  - destruct Hb as (q & Eq). etransitivity; [|apply (Htr _ (- q)%Z)]. f_equal. unfold phase. rewrite Eq, mult_IZR, opp_IZR. field.
    apply not_0_IZR. lia.
Qed.
Lemma sm_trig : sm (fun t z => cos (ph t z)) /\ sm (fun t z => sin (ph t z)).
Proof.
  apply (trig_smooth (nfp i) ph pt pz); auto using sm_pt, sm_pz, ph_dt, ph_dz.
  - apply ph_per. apply cos_2PI_shift.
  - apply ph_per. apply sin_2PI_shift.
Qed.

(** u (phase) J is a divergence, with an antiderivative U of u *)
Section Primitive.
Variables u U : R -> R.
Hypothesis DU : forall x, derivable_pt_lim U x (u x).
Hypothesis SU : sm (fun t z => U (ph t z)).
Hypothesis Su : sm (fun t z => u (ph t z)).
Lemma U_dt t z : derivable_pt_lim (fun x => U (ph x z)) t (u (ph t z) * pt t z).
Proof. apply (derivable_pt_lim_comp (fun x => ph x z) U); auto. apply ph_dt. Qed.
Lemma U_dz t z : derivable_pt_lim (fun y => U (ph t y)) z (u (ph t z) * pz t z).
Proof. apply (derivable_pt_lim_comp (fun y => ph t y) U); auto. apply ph_dz. Qed.

Lemma Zz_dt t z : derivable_pt_lim (fun x => ZzE x z) t (Ntz t z).
Proof.
  rewrite <- (Rplus_0_l (Ntz t z)). apply (derivable_pt_lim_plus (fun _ => 1) (fun x => Nz x z)); [apply derivable_pt_lim_const|apply nu_dzt].
Qed.
Lemma Tt_dz t z : derivable_pt_lim (fun y => TtE t y) z (Ptz t z).
Proof.
  rewrite <- (Rplus_0_l (Ptz t z)). apply (derivable_pt_lim_plus (fun _ => 1) (fun y => Pt t y)); [apply derivable_pt_lim_const|apply P_dtz].
Qed.

Lemma mode_small p : (a <> 0 \/ b <> 0)%Z -> near p (fun N M => avg2 (nfp i) N M (fun t z => u (ph t z) * J0 t z)) 0.
Proof.
  intros Hab. destruct (Z.eq_dec a 0) as [Ea|Ea].
  - destruct Hab as [Hab|Hab]; [lia|]. assert (Hb0 : IZR b <> 0) by now apply not_0_IZR.
    destruct (avg2_div (nfp i) Hnf (fun t z => / IZR b * (U (ph t z) * Pz t z)) (fun t z => (- / IZR b) * (U (ph t z) * TtE t z))
      (fun t z => / IZR b * (u (ph t z) * pt t z * Pz t z + U (ph t z) * Ptz t z))
      (fun t z => (- / IZR b) * (u (ph t z) * pz t z * TtE t z + U (ph t z) * Ptz t z)) p) as (C & HC & X).
    + apply smooth_scal, smooth_mul; auto using sm_Pz.
    + apply smooth_scal, smooth_mul; auto using sm_Tt.
    + intros t z. apply (derivable_pt_lim_scal (fun x => U (ph x z) * Pz x z)).
      apply (derivable_pt_lim_mult (fun x => U (ph x z)) (fun x => Pz x z)); [apply U_dt|apply P_dzt].
    + intros t z. apply (derivable_pt_lim_scal (fun y => U (ph t y) * TtE t y)).
      apply (derivable_pt_lim_mult (fun y => U (ph t y)) (fun y => TtE t y)); [apply U_dz|apply Tt_dz].
    + exists C. split; auto. intros N M HN HM. rewrite Rminus_0_r.
      erewrite avg2_ext; [apply (X N M HN HM)|]. intros t z. cbv beta. unfold J0, pt, pz. rewrite Ea. field. auto.
  - assert (Ha0 : IZR a <> 0) by now apply not_0_IZR.
    destruct (avg2_div (nfp i) Hnf (fun t z => / IZR a * (U (ph t z) * ZzE t z)) (fun t z => (- / IZR a) * (U (ph t z) * Nt t z))
      (fun t z => / IZR a * (u (ph t z) * pt t z * ZzE t z + U (ph t z) * Ntz t z))
      (fun t z => (- / IZR a) * (u (ph t z) * pz t z * Nt t z + U (ph t z) * Ntz t z)) p) as (C & HC & X).
    + apply smooth_scal, smooth_mul; auto using sm_Zz.
    + apply smooth_scal, smooth_mul; auto using sm_Nt.
    + intros t z. apply (derivable_pt_lim_scal (fun x => U (ph x z) * ZzE x z)).
      apply (derivable_pt_lim_mult (fun x => U (ph x z)) (fun x => ZzE x z)); [apply U_dt|apply Zz_dt].
    + intros t z. apply (derivable_pt_lim_scal (fun y => U (ph t y) * Nt t y)).
      apply (derivable_pt_lim_mult (fun y => U (ph t y)) (fun y => Nt t y)); [apply U_dz|apply nu_dtz].
    + exists C. split; auto. intros N M HN HM. rewrite Rminus_0_r.
      erewrite avg2_ext; [apply (X N M HN HM)|]. intros t z. cbv beta. unfold J0, pt, pz. field. auto.
Qed.
End Primitive.
End Mode.

(** the mean of the Jacobian *)
Lemma mean_J p : near p (fun N M => avg2 (nfp i) N M J0) 1.
Proof.
  destruct (avg2_div (nfp i) Hnf (fun t z => P t z * ZzE t z) (fun t z => NU t z - P t z * Nt t z)
    (fun t z => Pt t z * ZzE t z + P t z * Ntz t z)
    (fun t z => Nz t z - (Pz t z * Nt t z + P t z * Ntz t z)) p) as (C & HC & X).
  - apply smooth_mul; [apply sm_P|apply sm_Zz].
  - apply smooth_sub; [apply sm_Nu|apply smooth_mul; [apply sm_P|apply sm_Nt]].
  - intros t z. apply (derivable_pt_lim_mult (fun x => P x z) (fun x => ZzE x z)); [apply P_dt|apply Zz_dt].
  - intros t z. apply (derivable_pt_lim_minus (fun y => NU t y) (fun y => P t y * Nt t y)); [apply nu_dz|].
    apply (derivable_pt_lim_mult (fun y => P t y) (fun y => Nt t y)); [apply P_dz|apply nu_dtz].
  - exists C. split; auto. intros N M HN HM.
    rewrite (avg2_ext _ N M J0 (fun t z => 1 + ((Pt t z * ZzE t z + P t z * Ntz t z) + (Nz t z - (Pz t z * Nt t z + P t z * Ntz t z)))))
      by (intros; unfold J0, TtE, ZzE; lra).
    rewrite avg2_add, avg2_const by auto.
    match goal with |- Rabs (1 + ?x - 1) <= _ => replace (1 + x - 1) with x by lra end. now apply X.
Qed.

Notation av F := (fun N M => avg2 (nfp i) N M F).
Lemma mode_cos p a b : (nfp i | b)%Z -> near p (av (fun t z => cos (phase a b (TH t z) (ZE t z)) * J0 t z)) (ind a b).
Proof.
  intros Hb. unfold ind. destruct (Z.eqb_spec a 0) as [Ea|Ea], (Z.eqb_spec b 0) as [Eb|Eb]; cbn [andb].
  2,3,4: destruct (sm_trig a b Hb) as (Sc & Ss); apply (mode_small a b cos sin); auto using derivable_pt_lim_sin.
  eapply near_ext; [| |apply mean_J]; [|reflexivity]. intros N M _ _. apply avg2_ext. intros t z.
  rewrite Ea, Eb. unfold phase. rewrite !Rmult_0_l, Rminus_0_r, cos_0. lra.
Qed.
Lemma mode_sin p a b : (nfp i | b)%Z -> near p (av (fun t z => sin (phase a b (TH t z) (ZE t z)) * J0 t z)) 0.
Proof.
  intros Hb. destruct (sm_trig a b Hb) as (Sc & Ss).
  destruct (Z.eq_dec a 0) as [Ea|Ea], (Z.eq_dec b 0) as [Eb|Eb].
  2,3,4: apply (mode_small a b sin (fun x => (-1) * cos x)); auto; try (now apply smooth_scal);
    intros x; replace (sin x) with ((-1) * - sin x) by lra; apply (derivable_pt_lim_scal cos), derivable_pt_lim_cos.
  exists 0. split; [lra|]. intros N M HN HM.
  rewrite (avg2_ext _ N M _ (fun _ _ => 0)), avg2_const by
    (auto; intros; rewrite Ea, Eb; unfold phase; rewrite !Rmult_0_l, Rminus_0_r, sin_0; lra).
  rewrite Rminus_0_r, Rabs_R0. lra.
Qed.

(** products of two modes *)
Section Pair.
Variables x v m n : Z.
Hypothesis Dv : (nfp i | v)%Z.
Hypothesis Dn : (nfp i | n)%Z.
Variable p : nat.
Let D1 : (nfp i | v - n)%Z. Proof. now apply Z.divide_sub_r. Qed.
Let D2 : (nfp i | v + n)%Z. Proof. now apply Z.divide_add_r. Qed.
Notation A t z := (phase x v (TH t z) (ZE t z)).
Notation B t z := (phase m n (TH t z) (ZE t z)).
Notation dif := (fun t z => cos (phase (x - m) (v - n) (TH t z) (ZE t z)) * J0 t z).
Notation sum := (fun t z => cos (phase (x + m) (v + n) (TH t z) (ZE t z)) * J0 t z).
Notation sdif := (fun t z => sin (phase (x - m) (v - n) (TH t z) (ZE t z)) * J0 t z).
Notation ssum := (fun t z => sin (phase (x + m) (v + n) (TH t z) (ZE t z)) * J0 t z).
Lemma two (F f g : R -> R -> R) (c l l' : R) : (forall t z, F t z = / 2 * (f t z + c * g t z)) ->
  near p (av f) l -> near p (av g) l' -> near p (av F) (/ 2 * (l + c * l')).
Proof.
  intros E Hf Hg. eapply near_ext; [| |apply near_scal, near_add; [exact Hf|apply near_scal, Hg]]; [|reflexivity].
  intros N M _ _. cbv beta. rewrite <- avg2_scal, <- avg2_add, <- avg2_scal. apply avg2_ext. intros. now rewrite E.
Qed.
Ltac go := intros; rewrite ?phase_add, ?phase_sub, ?cos_plus, ?cos_minus, ?sin_plus, ?sin_minus; lra.
Lemma n_cc : near p (av (fun t z => cos (A t z) * cos (B t z) * J0 t z)) (/ 2 * (ind (x - m) (v - n) + 1 * ind (x + m) (v + n))).
Proof. apply (two _ dif sum); [go| |]; apply mode_cos; auto. Qed.
Lemma n_ss : near p (av (fun t z => sin (A t z) * sin (B t z) * J0 t z)) (/ 2 * (ind (x - m) (v - n) + (-1) * ind (x + m) (v + n))).
Proof. apply (two _ dif sum); [go| |]; apply mode_cos; auto. Qed.
Lemma n_sc : near p (av (fun t z => sin (A t z) * cos (B t z) * J0 t z)) (/ 2 * (0 + 1 * 0)).
Proof. apply (two _ sdif ssum); [go| |]; apply mode_sin; auto. Qed.
Lemma n_cs : near p (av (fun t z => cos (A t z) * sin (B t z) * J0 t z)) (/ 2 * (0 + (-1) * 0)).
Proof. apply (two _ ssum sdif); [go| |]; apply mode_sin; auto. Qed.
End Pair.

Section OneSeries.
Variables (N0 : Z) (ms ns : Z -> Z) (c s : Z -> R) (m n : Z).
Hypothesis Hd : forall k, (0 <= k < N0)%Z -> (nfp i | ns k)%Z.
Hypothesis Hn : (nfp i | n)%Z.
Variable p : nat.
Definition fac : R := if (Z.eqb m 0 && Z.eqb n 0)%bool then 1 else 2.
Notation ser t z := (series N0 ms ns c s (TH t z) (ZE t z)).
Lemma gen_proj (tr : R -> R) (lc ls : Z -> R) :
  (forall k, (0 <= k < N0)%Z -> near p (av (fun t z => cos (phase (ms k) (ns k) (TH t z) (ZE t z)) * tr (phase m n (TH t z) (ZE t z)) * J0 t z)) (lc k)) ->
  (forall k, (0 <= k < N0)%Z -> near p (av (fun t z => sin (phase (ms k) (ns k) (TH t z) (ZE t z)) * tr (phase m n (TH t z) (ZE t z)) * J0 t z)) (ls k)) ->
  near p (fun N M => fac * avg2 (nfp i) N M (fun t z => ser t z * tr (phase m n (TH t z) (ZE t z)) * J0 t z))
    (fac * rsum N0 (fun k => c k * lc k + s k * ls k)).
Proof.
  intros Hc Hs. apply near_scal. eapply near_ext; [| |apply (near_rsum p N0
    (fun k N M => c k * avg2 (nfp i) N M (fun t z => cos (phase (ms k) (ns k) (TH t z) (ZE t z)) * tr (phase m n (TH t z) (ZE t z)) * J0 t z)
      + s k * avg2 (nfp i) N M (fun t z => sin (phase (ms k) (ns k) (TH t z) (ZE t z)) * tr (phase m n (TH t z) (ZE t z)) * J0 t z)))]; [|reflexivity|].
  - intros N M _ _. cbv beta.
    rewrite (avg2_ext _ N M _ (fun t z => rsum N0 (fun k =>
      c k * (cos (phase (ms k) (ns k) (TH t z) (ZE t z)) * tr (phase m n (TH t z) (ZE t z)) * J0 t z)
      + s k * (sin (phase (ms k) (ns k) (TH t z) (ZE t z)) * tr (phase m n (TH t z) (ZE t z)) * J0 t z)))).
    2:{ intros t z. unfold series. rewrite <- !rsum_scal_r. apply rsum_ext. intros. lra. }
    rewrite avg2_rsum. apply rsum_ext. intros k _. rewrite avg2_add, !avg2_scal. reflexivity.
  - intros k Hk. apply near_add; apply near_scal; auto.
Qed.
Ltac modes k := unfold fac, ind, is_mode;
  destruct (Z.eqb_spec (ms k) m), (Z.eqb_spec (ns k) n), (Z.eqb_spec (ms k) (- m)), (Z.eqb_spec (ns k) (- n)),
    (Z.eqb_spec m 0), (Z.eqb_spec n 0), (Z.eqb_spec (ms k - m) 0), (Z.eqb_spec (ns k - n) 0),
    (Z.eqb_spec (ms k + m) 0), (Z.eqb_spec (ns k + n) 0); try (exfalso; lia); cbn [andb orb]; lra.
Lemma spec_cos : near p (fun N M => fac * avg2 (nfp i) N M (fun t z => ser t z * cos (phase m n (TH t z) (ZE t z)) * J0 t z)) (amp_c N0 ms ns c m n).
Proof.
  eapply near_ext; [| |apply gen_proj; intros k Hk; [apply n_cc|apply n_sc]; auto]; [reflexivity|].
  unfold amp_c. rewrite <- rsum_scal. apply rsum_ext. intros k _. modes k.
Qed.
Lemma spec_sin : near p (fun N M => fac * avg2 (nfp i) N M (fun t z => ser t z * sin (phase m n (TH t z) (ZE t z)) * J0 t z)) (amp_s N0 ms ns s m n).
Proof.
  eapply near_ext; [| |apply gen_proj; intros k Hk; [apply n_cs|apply n_ss]; auto]; [reflexivity|].
  unfold amp_s. rewrite <- rsum_scal. apply rsum_ext. intros k _. modes k.
Qed.
End OneSeries.

(** a quantity that is such a series up to eps *)
Lemma J0_bound : exists B, 0 <= B /\ forall t z, Rabs (J0 t z) <= B.
Proof. destruct (sm_J0 O) as (_ & (B & HB) & _). exists B. split; auto. eapply Rle_trans; [apply Rabs_pos|apply (HB 0 0)]. Qed.
Lemma perturb (Q Q' : R -> R -> R) (tr : R -> R) m n B eps N M : (0 < N)%Z -> (0 < M)%Z ->
  (forall x, Rabs (tr x) <= 1) -> 0 <= B -> (forall t z, Rabs (J0 t z) <= B) -> (forall t z, Rabs (Q t z - Q' t z) <= eps) ->
  Rabs (fac m n * avg2 (nfp i) N M (fun t z => Q t z * tr (phase m n (TH t z) (ZE t z)) * J0 t z) -
        fac m n * avg2 (nfp i) N M (fun t z => Q' t z * tr (phase m n (TH t z) (ZE t z)) * J0 t z)) <= 2 * B * eps.
Proof.
  intros HN HM Htr HB HJ HQ.
  assert (He : 0 <= eps) by (eapply Rle_trans; [apply Rabs_pos|apply (HQ 0 0)]).
  assert (X : Rabs (avg2 (nfp i) N M (fun t z => (Q t z - Q' t z) * tr (phase m n (TH t z) (ZE t z)) * J0 t z)) <= eps * 1 * B).
  { apply avg2_abs; auto. intros t z. rewrite !Rabs_mult.
    apply Rmult_le_compat; auto using Rabs_pos; [apply Rmult_le_pos; apply Rabs_pos|].
    apply Rmult_le_compat; auto using Rabs_pos. }
  rewrite <- Rmult_minus_distr_l, Rabs_mult.
  replace (avg2 _ N M _ - avg2 _ N M _) with (avg2 (nfp i) N M (fun t z => (Q t z - Q' t z) * tr (phase m n (TH t z) (ZE t z)) * J0 t z)).
  2:{ rewrite (avg2_ext _ N M (fun t z => (Q t z - Q' t z) * tr (phase m n (TH t z) (ZE t z)) * J0 t z)
        (fun t z => Q t z * tr (phase m n (TH t z) (ZE t z)) * J0 t z + (-1) * (Q' t z * tr (phase m n (TH t z) (ZE t z)) * J0 t z)))
        by (intros; lra). rewrite avg2_add, avg2_scal. lra. }
  assert (Rabs (fac m n) <= 2) by (unfold fac; destruct (_ && _)%bool; rewrite Rabs_right; lra).
  replace (2 * B * eps) with (2 * (eps * 1 * B)) by lra. apply Rmult_le_compat; auto using Rabs_pos.
Qed.
End Surface.
