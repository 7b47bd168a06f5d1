(** Convergence of the output of run() as mboz and nboz grow. *)
From Coq Require Import ZArith List Bool Lia Reals Lra Psatz.
From Verif Require Import Scalar Prog Model Wp Func Step RunProof FuncExt Spec RunThms RSum RSpec RPoint RQuad RThms RThms2 RThms3 RExamples Conv ConvThms.
Import ListNotations.
Local Open Scope Z_scope.
Local Open Scope R_scope.

(** the same input at another resolution *)
Definition at_res (i : Inp RS) (mb nb : Z) : Inp RS :=
  mkInp RS (asym i) (nfp i) (mpol i) (ntor i) (mnmax i) (mpolq i) (ntorq i) (mnmaxq i) (nsin i) mb nb (verb i)
    (xm i) (xn i) (xmq i) (xnq i) (nsurf i) (surf i) (sin_ i) (iota i)
    (rmnc i) (zmns i) (lmns i) (bmnc i) (bsubumnc i) (bsubvmnc i)
    (rmns i) (zmnc i) (lmnc i) (bmns i) (bsubumns i) (bsubvmns i).

(** what each output array is the spectrum of, and whether of cosines ([true]) or sines *)
Inductive documented (i : Inp RS) (js : Z) (I G : R) : afield -> (R -> R -> R) -> bool -> Prop :=
| doc_bc : documented i js I G A_bmnc_b (mB i js) true
| doc_rc : documented i js I G A_rmnc_b (mR i js) true
| doc_zs : documented i js I G A_zmns_b (mZ i js) false
| doc_nus : documented i js I G A_numns_b (mNu i js I G) false
| doc_gc : documented i js I G A_gmnc_b (mSqrtg i js I G) true
| doc_bs : asym i = true -> documented i js I G A_bmns_b (mB i js) false
| doc_rs : asym i = true -> documented i js I G A_rmns_b (mR i js) false
| doc_zc : asym i = true -> documented i js I G A_zmnc_b (mZ i js) true
| doc_nuc : asym i = true -> documented i js I G A_numnc_b (mNu i js I G) true
| doc_gs : asym i = true -> documented i js I G A_gmns_b (mSqrtg i js I G) false.

Definition trig (c : bool) : R -> R := if c then cos else sin.
(** the coefficient of cos (or sin) (m t - n z) in a finite series *)
Definition amp (c : bool) (N : Z) (ms ns : Z -> Z) (co si : Z -> R) (m n : Z) : R :=
  if c then amp_c N ms ns co m n else amp_s N ms ns si m n.

Lemma trig_1 c x : Rabs (trig c x) <= 1.
Proof. destruct c; cbn; apply Rabs_le; [apply COS_bound|apply SIN_bound]. Qed.

Lemma quad_avg2 i js I G J Q tr m n : (0 < nfp i)%Z -> (1 <= mboz i)%Z -> (0 <= nboz i)%Z ->
  quad i js I G J Q tr m n =
  fac m n * avg2 (nfp i) (nt i) (nz i) (fun t z => Q t z * tr (phase m n (mTh i js I G t z) (mZe i js I G t z)) * J t z).
Proof.
  intros Hf Hm Hn. unfold quad, avg2, fac. unfold Rdiv at 1. rewrite Rmult_assoc. f_equal. f_equal.
  assert (0 < nt i)%Z by (unfold nt; lia).
  assert (0 < nz i)%Z by (unfold nz; destruct (Z.eqb_spec (nboz i) 0); lia).
  apply rsum_ext. intros a _. apply rsum_ext. intros b _. cbv zeta.
  replace (gth i a) with (TT * IZR a / IZR (nt i)) by (unfold gth, TT; reflexivity).
  replace (gze i b) with (ZT (nfp i) * IZR b / IZR (nz i)); [reflexivity|].
  unfold gze, ZT. field. split; apply not_0_IZR; lia.
Qed.

Lemma Rabs_le_inv a b : Rabs a <= b -> - b <= a <= b.
Proof. intros H. unfold Rabs in H. destruct (Rcase_abs a); lra. Qed.
Lemma near_const p a : near p (fun _ _ => a) a.
Proof. exists 0. split; [lra|]. intros. rewrite Rminus_diag_eq, Rabs_R0 by reflexivity. lra. Qed.
Lemma near_le p x y a b : near (S p) x a -> near (S p) y b ->
  (forall N M, (0 < N)%Z -> (0 < M)%Z -> x N M <= y N M) -> a <= b.
Proof.
  intros (C & HC & X) (D & HD & Y) H. apply Rnot_lt_le. intros L. set (d := a - b). assert (0 < d) by (unfold d; lra).
  set (K := 2 * (C + D)). assert (0 <= K) by (unfold K; lra).
  destruct (archimed (K / d)) as (A & _). set (N := up (K / d)) in *.
  assert (0 <= K / d) by (apply Rmult_le_pos; [lra|left; now apply Rinv_0_lt_compat]).
  assert (N0 : (0 < N)%Z) by (apply lt_IZR; lra).
  assert (N1 : 1 <= IZR N) by (apply IZR_le; lia).
  pose proof (X N N N0 N0) as X1. pose proof (Y N N N0 N0) as Y1. pose proof (H N N N0 N0) as HN.
  apply Rabs_le_inv in X1, Y1.
  assert (P : / IZR N ^ S p <= / IZR N).
  { apply Rinv_le_contravar; [lra|]. cbn [pow]. rewrite <- (Rmult_1_r (IZR N)) at 1. apply Rmult_le_compat_l; [lra|]. apply pow_R1_Rle, N1. }
  assert (Q : (C + D) * (/ IZR N ^ S p + / IZR N ^ S p) <= K * / IZR N).
  { unfold K. replace (2 * (C + D) * / IZR N) with ((C + D) * (/ IZR N + / IZR N)) by lra. apply Rmult_le_compat_l; lra. }
  assert (K * / IZR N < d).
  { apply (Rmult_lt_reg_r (IZR N)); [lra|]. rewrite Rmult_assoc, Rinv_l, Rmult_1_r by lra.
    apply (Rmult_lt_compat_l d) in A; [|lra]. replace (d * (K / d)) with K in A by (field; lra). lra. }
  unfold d in *. lra.
Qed.
Lemma near_sub p x y a b : near p x a -> near p y b -> near p (fun N M => x N M - y N M) (a - b).
Proof.
  intros X Y. eapply near_ext; [| |apply near_add; [exact X|apply (near_scal p y b (-1)), Y]]; [intros; cbv beta|]; lra.
Qed.
Lemma near_abs p x a y b : near (S p) x a -> near (S p) y b ->
  (forall N M, (0 < N)%Z -> (0 < M)%Z -> Rabs (x N M) <= y N M) -> Rabs a <= b.
Proof.
  intros X Y H. apply Rabs_le. split.
  - cut (0 <= b + a); [lra|]. apply (near_le p (fun _ _ => 0) (fun N M => y N M + x N M)); [apply near_const|now apply near_add|].
    intros N M HN HM. specialize (H N M HN HM). apply Rabs_le_inv in H. lra.
  - apply (near_le p x y); auto. intros N M HN HM. specialize (H N M HN HM). apply Rabs_le_inv in H. lra.
Qed.

Lemma rsum_le n f g : (forall k, f k <= g k) -> rsum n f <= rsum n g.
Proof.
  intros H. destruct (Z.le_gt_cases 0 n) as [Hn|Hn].
  - revert n Hn. apply rsum_ind; [rewrite !rsum_0; lra|]. intros n Hn IH. rewrite !rsum_succ by auto. specialize (H n). lra.
  - rewrite !rsum_neg by lia. lra.
Qed.
Lemma avg2_mono nf N M f g : (0 < N)%Z -> (0 < M)%Z -> (forall t z, f t z <= g t z) -> avg2 nf N M f <= avg2 nf N M g.
Proof.
  intros HN HM H. unfold avg2. apply Rmult_le_compat_l.
  - left. apply Rinv_0_lt_compat, Rmult_lt_0_compat; now apply IZR_lt.
  - apply rsum_le. intros. apply rsum_le. intros. apply H.
Qed.

Section One.
Variable i : Inp RS.
Hypothesis Hnf : (0 < nfp i)%Z.
Hypothesis Hdiv : nfp_divides i.
Variable js : Z.
Variables I G : R.
Variable J : R -> R -> R.
Hypothesis HJ : is_jacobian i js I G J.
Notation TH := (mTh i js I G).
Notation ZE := (mZe i js I G).
Variable Q : R -> R -> R.
Hypothesis SQ : smooth (nfp i) Q.
Variables (c : bool) (m n : Z).
Hypothesis Hn : (nfp i | n)%Z.
Notation Fn Q := (fun t z => Q t z * trig c (phase m n (TH t z) (ZE t z)) * J t z).
Notation val Q := (fun N M => fac m n * avg2 (nfp i) N M (Fn Q)).

Lemma sm_J : smooth (nfp i) J.
Proof. eapply smooth_ext; [|apply (sm_J0 i Hnf Hdiv js I G)]. intros. symmetry. now apply J_is. Qed.
Lemma sm_F : smooth (nfp i) (Fn Q).
Proof.
  destruct (sm_trig i Hnf Hdiv js I G m n Hn) as (Sc & Ss).
  apply smooth_mul; [apply smooth_mul; [exact SQ|]|apply sm_J]. destruct c; assumption.
Qed.
Lemma limit : exists l, forall p, near p (val Q) l.
Proof.
  destruct (avg2_limit (nfp i) Hnf (Fn Q) sm_F) as (l & H). exists (fac m n * l). intros p. apply near_scal. exact (H p).
Qed.
Lemma near_series N0 ms ns co si p : (forall k, (0 <= k < N0)%Z -> (nfp i | ns k)%Z) ->
  near p (val (fun t z => series N0 ms ns co si (TH t z) (ZE t z))) (amp c N0 ms ns co si m n).
Proof.
  intros Hd.
  destruct c; unfold amp, trig.
  - eapply near_ext; [| |apply (spec_cos i Hnf Hdiv js I G N0 ms ns co si m n Hd Hn p)]; [|reflexivity].
    intros N M _ _. cbv beta. f_equal. apply avg2_ext. intros t z. rewrite (J_is i js I G J HJ). reflexivity.
  - eapply near_ext; [| |apply (spec_sin i Hnf Hdiv js I G N0 ms ns co si m n Hd Hn p)]; [|reflexivity].
    intros N M _ _. cbv beta. f_equal. apply avg2_ext. intros t z. rewrite (J_is i js I G J HJ). reflexivity.
Qed.
Lemma diff_val (Q' : R -> R -> R) N M :
  val Q N M - val Q' N M = fac m n * avg2 (nfp i) N M (fun t z => (Q t z - Q' t z) * trig c (phase m n (TH t z) (ZE t z)) * J t z).
Proof.
  rewrite (avg2_ext _ N M (fun t z => (Q t z - Q' t z) * _ * J t z) (fun t z => Fn Q t z + (-1) * Fn Q' t z)) by (intros; lra).
  rewrite avg2_add, avg2_scal. lra.
Qed.
Lemma fac_abs : Rabs (fac m n) <= 2.
Proof. unfold fac. destruct (_ && _)%bool; rewrite Rabs_right; lra. Qed.
Lemma near_bound (Q' : R -> R -> R) l a B eps : (forall p, near p (val Q) l) -> (forall p, near p (val Q') a) ->
  0 <= B -> (forall t z, Rabs (J t z) <= B) -> (forall t z, Rabs (Q t z - Q' t z) <= eps) -> Rabs (l - a) <= 2 * B * eps.
Proof.
  intros Hl Ha HB HJB He. apply (near_abs 0 _ _ _ _ (near_sub _ _ _ _ _ (Hl 1%nat) (Ha 1%nat)) (near_const 1 _)). intros N M HN HM.
  rewrite diff_val, Rabs_mult. replace (2 * B * eps) with (2 * (eps * 1 * B)) by lra.
  apply Rmult_le_compat; auto using Rabs_pos, fac_abs. apply avg2_abs; auto. intros t z. rewrite !Rabs_mult.
  apply Rmult_le_compat; auto using Rabs_pos; [apply Rmult_le_pos; apply Rabs_pos|].
  apply Rmult_le_compat; auto using Rabs_pos, trig_1.
Qed.
Lemma near_bound_pos (Q' : R -> R -> R) l a eps : (forall p, near p (val Q) l) -> (forall p, near p (val Q') a) ->
  (forall t z, 0 <= J t z) -> (forall t z, Rabs (Q t z - Q' t z) <= eps) -> Rabs (l - a) <= 2 * eps.
Proof.
  intros Hl Ha HJ0 He.
  assert (E0 : 0 <= eps) by (eapply Rle_trans; [apply Rabs_pos|apply (He 0 0)]).
  assert (MJ : near 1 (fun N M => 2 * eps * avg2 (nfp i) N M J) (2 * eps * 1)).
  { apply near_scal. eapply near_ext; [| |apply (mean_J i Hnf Hdiv js I G 1)]; [|reflexivity].
    intros N M _ _. apply avg2_ext. intros. symmetry. now apply J_is. }
  pose proof (near_sub _ _ _ _ _ (Hl 1%nat) (Ha 1%nat)) as MD.
  assert (X : forall N M, (0 < N)%Z -> (0 < M)%Z -> Rabs (val Q N M - val Q' N M) <= 2 * eps * avg2 (nfp i) N M J).
  { intros N M HN HM. rewrite diff_val, Rabs_mult, Rmult_assoc. apply Rmult_le_compat; auto using Rabs_pos, fac_abs.
    rewrite <- avg2_scal. apply Rabs_le. split.
    - replace (- avg2 (nfp i) N M (fun t z => eps * J t z)) with ((-1) * avg2 (nfp i) N M (fun t z => eps * J t z)) by lra. rewrite <- avg2_scal. apply avg2_mono; auto.
      intros t z. cut (0 <= (eps + (Q t z - Q' t z) * trig c (phase m n (TH t z) (ZE t z))) * J t z); [lra|].
      apply Rmult_le_pos; auto.
      assert (Rabs ((Q t z - Q' t z) * trig c (phase m n (TH t z) (ZE t z))) <= eps * 1)
        by (rewrite Rabs_mult; apply Rmult_le_compat; auto using Rabs_pos, trig_1).
      apply Rabs_le_inv in H. lra.
    - apply avg2_mono; auto.
      intros t z. cut (0 <= (eps - (Q t z - Q' t z) * trig c (phase m n (TH t z) (ZE t z))) * J t z); [lra|].
      apply Rmult_le_pos; auto.
      assert (Rabs ((Q t z - Q' t z) * trig c (phase m n (TH t z) (ZE t z))) <= eps * 1)
        by (rewrite Rabs_mult; apply Rmult_le_compat; auto using Rabs_pos, trig_1).
      apply Rabs_le_inv in H. lra. }
  replace (2 * eps) with (2 * eps * 1) by lra. exact (near_abs 0 _ _ _ _ MD MJ X).
Qed.

(** nothing depends on zeta *)
Lemma axi_val : (forall t z, Fn Q t z = Fn Q t 0) -> forall N M, (0 < N)%Z -> (0 < M)%Z -> val Q N M = val Q N N.
Proof.
  intros E N M HN HM. cbv beta. f_equal.
  rewrite (avg2_ext _ N M _ (fun t _ => Fn Q t 0)), (avg2_ext _ N N _ (fun t _ => Fn Q t 0)) by exact E.
  assert (X : forall K, (0 < K)%Z -> avg2 (nfp i) N K (fun t _ => Fn Q t 0) = / IZR N * rsum N (fun a => Fn Q (TT * IZR a / IZR N) 0)).
  { intros K HK. unfold avg2. rewrite (rsum_ext N _ (fun a => IZR K * Fn Q (TT * IZR a / IZR N) 0)) by (intros; apply rsum_const; lia).
    rewrite rsum_scal. field. split; apply not_0_IZR; lia. }
  rewrite !X by auto. reflexivity.
Qed.
End One.

(** no dependence of the input on zeta *)
Definition axisymmetric (i : Inp RS) : Prop :=
  (forall k, (0 <= k < mnmax i)%Z -> xn i k = 0%Z) /\ (forall k, (0 <= k < mnmaxq i)%Z -> xnq i k = 0%Z).
Lemma axi_series N ms ns co si t z : (forall k, (0 <= k < N)%Z -> ns k = 0%Z) -> series N ms ns co si t z = series N ms ns co si t 0.
Proof. intros H. unfold series. apply rsum_ext. intros k Hk. rewrite (H k Hk). unfold phase. rewrite !Rmult_0_l. reflexivity. Qed.

(** |B| is nowhere small, needed for sqrt g = (G + iota I) / B^2 only *)
Definition B_nonzero (i : Inp RS) (js : Z) (f : afield) : Prop :=
  match f with
  | A_gmnc_b | A_gmns_b => exists beta, 0 < beta /\ forall t z, beta <= Rabs (mB i js t z)
  | _ => True
  end.

Lemma documented_smooth i js I G f Q c : (0 < nfp i)%Z -> nfp_divides i -> documented i js I G f Q c -> B_nonzero i js f -> smooth (nfp i) Q.
Proof.
  intros Hnf Hd D HB. assert (SG : (exists beta, 0 < beta /\ forall t z, beta <= Rabs (mB i js t z)) -> smooth (nfp i) (mSqrtg i js I G)).
  { intros (b & Hb & H). apply (smooth_ext _ (fun t z => (G + io i js * I) * / (mB i js t z * mB i js t z))); [intros; reflexivity|].
    apply smooth_scal. apply (inv_smooth _ _ (b * b)).
    - now apply Rmult_lt_0_compat.
    - intros t z. rewrite Rabs_mult. apply Rmult_le_compat; auto; lra.
    - apply smooth_mul; apply sm_B; auto. }
  destruct D; auto using sm_B, sm_R, sm_Z, sm_Nu.
Qed.

Lemma axi_documented i js I G f Q c : axisymmetric i -> documented i js I G f Q c -> forall t z, Q t z = Q t 0.
Proof.
  intros (A & B) D t z.
  assert (N0 : mNu i js I G t z = mNu i js I G t 0) by (unfold mNu, mW, mL; rewrite (axi_series _ _ _ _ _ t z B), (axi_series _ _ _ _ _ t z A); reflexivity).
  assert (S0 : mSqrtg i js I G t z = mSqrtg i js I G t 0) by (unfold mSqrtg, mB; rewrite (axi_series _ _ _ _ _ t z B); reflexivity).
  destruct D; auto; unfold mB, mR, mZ; apply axi_series; auto.
Qed.
Lemma axi_J i js I G J : axisymmetric i -> is_jacobian i js I G J -> forall t z, J t z = J t 0.
Proof.
  intros (A & B) HJ t z.
  assert (L0 : forall y x, mL i js x y = mL i js x 0) by (intros; unfold mL; now apply axi_series).
  assert (N0 : forall y x, mNu i js I G x y = mNu i js I G x 0) by (intros; unfold mNu, mW; rewrite L0; rewrite (axi_series _ _ _ _ _ x y B); reflexivity).
  destruct (HJ t z) as (a & b & c & d & A1 & A2 & A3 & A4 & ->). destruct (HJ t 0) as (a' & b' & c' & d' & B1 & B2 & B3 & B4 & ->).
  replace a' with a. 2:{ eapply uniqueness_limite; [exact A1|]. eapply derivable_ext; [|exact B1]. intros x. unfold mTh. now rewrite (L0 z), (N0 z). }
  replace c' with c. 2:{ eapply uniqueness_limite; [exact A3|]. eapply (derivable_ext (fun x => z + mNu i js I G x 0)); [intros x; unfold mZe; now rewrite (N0 z)|].
    replace c' with (0 + (c' - 0)) by lra.
    apply (derivable_pt_lim_plus (fun _ => z) (fun x => mNu i js I G x 0)); [apply derivable_pt_lim_const|].
    apply (derivable_ext (fun x => mZe i js I G x 0 - 0)); [intros x; unfold mZe; lra|].
    apply (derivable_pt_lim_minus (fun x => mZe i js I G x 0) (fun _ => 0)); [exact B3|apply derivable_pt_lim_const]. }
  assert (Eb : b = 0). { eapply uniqueness_limite; [exact A2|]. apply (derivable_ext (fun _ => mTh i js I G t 0)); [|apply derivable_pt_lim_const].
    intros y. unfold mTh. now rewrite (L0 y), (N0 y). }
  assert (Eb' : b' = 0). { eapply uniqueness_limite; [exact B2|]. apply (derivable_ext (fun _ => mTh i js I G t 0)); [|apply derivable_pt_lim_const].
    intros y. unfold mTh. now rewrite (L0 y), (N0 y). }
  assert (Ed : forall w y, derivable_pt_lim (fun x => mZe i js I G t x) y w -> w = 1).
  { intros w y D. eapply uniqueness_limite; [exact D|]. replace 1 with (1 + 0) by lra.
    apply (derivable_ext (fun x => x + mNu i js I G t 0)); [intros x; unfold mZe; now rewrite (N0 x)|].
    apply (derivable_pt_lim_plus id (fun _ => mNu i js I G t 0)); [apply derivable_pt_lim_id|apply derivable_pt_lim_const]. }
  rewrite (Ed _ _ A4), (Ed _ _ B4), Eb, Eb'. lra.
Qed.

Theorem converges : forall (i : Inp RS) js I G J f Q c m n,
  (0 < nfp i)%Z -> nfp_divides i -> (nfp i | n)%Z ->
  G + iota i js * I <> 0 -> is_jacobian i js I G J ->
  documented i js I G f Q c -> B_nonzero i js f ->
  exists l,
  (forall N ms ns co si eps, (forall k, (0 <= k < N)%Z -> (nfp i | ns k)%Z) ->
    (forall t z, Rabs (Q t z - series N ms ns co si (mTh i js I G t z) (mZe i js I G t z)) <= eps) ->
    (forall B, (forall t z, Rabs (J t z) <= B) -> Rabs (l - amp c N ms ns co si m n) <= 2 * B * eps) /\
    ((forall t z, 0 <= J t z) -> Rabs (l - amp c N ms ns co si m n) <= 2 * eps)) /\
  forall p, exists C, 0 <= C /\ forall mb nb, (1 <= mb)%Z -> (0 <= nb)%Z ->
    let i' := at_res i mb nb in
    let v := quad i' js I G J Q (trig c) m n in
    Rabs (v - l) <= C * (/ IZR (nt i') ^ p + / IZR (nz i') ^ p) /\
    (axisymmetric i -> n = 0%Z -> Rabs (v - l) <= C * / IZR (nt i') ^ p) /\
    forall o, valid o i' -> exists o' ev, run_ok o o' ev /\
      forall b k, elemN o N_compute_surfs b = Some (Some js) ->
        elem o' A_Boozer_I b = Some (Some I) -> elem o' A_Boozer_G b = Some (Some G) ->
        elemN o' N_xm_b k = Some (Some m) -> elemN o' N_xn_b k = Some (Some n) ->
        elem2 o' f k b = Some (Some v).
Proof.
  intros i js I G J f Q c m n Hnf Hdiv Hn _ HJ HD HB.
  pose proof (documented_smooth i js I G f Q c Hnf Hdiv HD HB) as SQ.
  destruct (limit i Hnf Hdiv js I G J HJ Q SQ c m n Hn) as (l & Hl). exists l. split.
  - intros N ms ns co si eps Hd He.
    pose proof (fun p => near_series i Hnf Hdiv js I G J HJ c m n Hn N ms ns co si p Hd) as Hs. split.
    + intros B HBd. eapply (near_bound i js I G J Q c m n (fun t z => series N ms ns co si (mTh i js I G t z) (mZe i js I G t z))); eauto.
      eapply Rle_trans; [apply Rabs_pos|apply (HBd 0 0)].
    + intros HJp. eapply (near_bound_pos i Hnf Hdiv js I G J HJ Q c m n (fun t z => series N ms ns co si (mTh i js I G t z) (mZe i js I G t z))); eauto.
  - intros p. destruct (Hl p) as (C & HC & X). exists (2 * C). split; [lra|]. intros mb nb Hmb Hnb i' v.
    assert (Hnt : (0 < nt i')%Z) by (unfold nt; cbn; lia).
    assert (Hnz : (0 < nz i')%Z) by (unfold nz; cbn; destruct (Z.eqb_spec nb 0); lia).
    assert (Ev : v = fac m n * avg2 (nfp i) (nt i') (nz i') (fun t z => Q t z * trig c (phase m n (mTh i js I G t z) (mZe i js I G t z)) * J t z))
      by (unfold v; rewrite quad_avg2 by assumption; reflexivity).
    assert (Pp : forall N, (0 < N)%Z -> 0 <= / IZR N ^ p) by (intros; left; apply Rinv_0_lt_compat, pow_lt, IZR_lt; lia).
    split; [|split].
    + rewrite Ev. eapply Rle_trans; [apply X; auto|]. apply Rmult_le_compat_r; [|lra].
      pose proof (Pp _ Hnt). pose proof (Pp _ Hnz). lra.
    + intros Hax E0. rewrite Ev.
      pose proof (axi_val i js I G J Q c m n) as Y. rewrite Y; auto.
      * replace (2 * C * / IZR (nt i') ^ p) with (C * (/ IZR (nt i') ^ p + / IZR (nt i') ^ p)) by lra. now apply X.
      * intros t z. rewrite (axi_documented i js I G f Q c Hax HD t z), (axi_J i js I G J Hax HJ t z). f_equal. f_equal. f_equal.
        subst n. destruct Hax as (A & B). unfold phase. rewrite !Rmult_0_l. f_equal. f_equal. unfold mTh, mNu, mW, mL.
        rewrite (axi_series _ _ _ _ _ t z B), (axi_series _ _ _ _ _ t z A). reflexivity.
    + intros o V. destruct (coefficients o i' V Hdiv) as (o' & ev & R0 & H). exists o', ev. split; auto.
      intros b k Eb EI EG Em En. specialize (H b js I G k m n J Eb EI EG Em En HJ). cbv zeta in H.
      destruct H as (H1 & H2 & H3 & H4 & H5 & H6). unfold v. destruct HD; auto; destruct (H6 H) as (Z1 & Z2 & Z3 & Z4 & Z5); auto.
Qed.

(** I and G do not depend on the resolution *)
Theorem currents_any_resolution : forall (i : Inp RS) mb nb mb' nb' o1 o2, valid o1 (at_res i mb nb) -> valid o2 (at_res i mb' nb') ->
  exists o1' o2' ev1 ev2, run_ok o1 o1' ev1 /\ run_ok o2 o2' ev2 /\
  forall b, (0 <= b < nsurf i)%Z -> elem o1' A_Boozer_I b = elem o2' A_Boozer_I b /\ elem o1' A_Boozer_G b = elem o2' A_Boozer_G b.
Proof.
  intros i mb nb mb' nb' o1 o2 V1 V2.
  destruct (run_total _ _ V1) as (r1 & E1 & _ & _ & _ & Q1 & _). destruct (run_total _ _ V2) as (r2 & E2 & _ & _ & _ & Q2 & _).
  exists r1, r2. do 2 eexists. split; [exact E1|]. split; [exact E2|]. intros b Hb.
  rewrite (elem_vec _ _ _ _ _ (q_I _ _ _ Q1) Hb), (elem_vec _ _ _ _ _ (q_I _ _ _ Q2) Hb).
  rewrite (elem_vec _ _ _ _ _ (q_G _ _ _ Q1) Hb), (elem_vec _ _ _ _ _ (q_G _ _ _ Q2) Hb). split; reflexivity.
Qed.
