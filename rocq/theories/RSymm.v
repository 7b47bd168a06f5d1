(** Symmetries of the input are symmetries of the output; the number of field periods is a
    matter of representation.  Real arithmetic. *)
From Coq Require Import ZArith QArith List String Bool Lia Reals Lra Psatz.
From Verif Require Import Scalar Prog Model Wp Func Step TrigProof InitProof SurfProof RunProof Par FuncExt Spec RunThms
  RSum RSpec RPoint RQuad RThms RThms2 REquiv.
Import ListNotations.
Local Open Scope Z_scope.
Local Open Scope R_scope.

(** ** C69: symmetries *)
(** The angles move by a and b steps of the grid: a mode (m, n) turns by whole turns. *)
Definition whole (i : Inp RS) (a b m n : Z) : Prop := exists q : Z, phase m n (gth i a) (gze i b) = IZR q * (2 * PI).
(** Nothing on surface js changes when the angles move: all modes turn by whole turns or
    have zero coefficients. *)
Definition invariant (i : Inp RS) (js a b : Z) : Prop :=
  (forall k, (0 <= k < mnmax i)%Z -> whole i a b (xm i k) (xn i k) \/
     rmnc i k js = 0 /\ zmns i k js = 0 /\ lmns i k js = 0 /\
     (asym i = true -> rmns i k js = 0 /\ zmnc i k js = 0 /\ lmnc i k js = 0)) /\
  (forall k, (0 <= k < mnmaxq i)%Z -> whole i a b (xmq i k) (xnq i k) \/
     bmnc i k js = 0 /\ bsubumnc i k js = 0 /\ bsubvmnc i k js = 0 /\
     (asym i = true -> bmns i k js = 0 /\ bsubumns i k js = 0 /\ bsubvmns i k js = 0)).

Lemma series_keep n ms ns c s dt dz t z :
  (forall k, (0 <= k < n)%Z -> (exists q : Z, phase (ms k) (ns k) dt dz = IZR q * (2 * PI)) \/ c k = 0 /\ s k = 0) ->
  series n ms ns c s (IZR 1 * t + dt) (IZR 1 * z + dz) = series n ms ns c s t z.
Proof.
  intros H. unfold series. apply rsum_ext. intros k Hk. destruct (H k Hk) as [(q & E)|(-> & ->)]; [|ring].
  rewrite phase_add, E, cos_2PI_shift, sin_2PI_shift. reflexivity.
Qed.
Lemma cos_1_whole p : cos p = 1 -> exists q : Z, p = IZR q * (2 * PI).
Proof.
  intros H. assert (S : sin (p / 2) = 0).
  { replace p with (2 * (p / 2)) in H by lra. rewrite cos_2a_sin in H. nra. }
  destruct (sin_eq_0_0 _ S) as (q & E). exists q. lra.
Qed.
Lemma turn_fixed p c s : cos p <> 1 -> c = c * cos p - s * sin p -> s = s * cos p + c * sin p -> c = 0 /\ s = 0.
Proof.
  intros Hp H1 H2. pose proof (sin2_cos2 p) as T. unfold Rsqr in T.
  set (u := cos p) in *. set (v := sin p) in *.
  assert (E1 : (1 - u) * c = - (s * v)) by lra. assert (E2 : (1 - u) * s = c * v) by lra.
  assert (E3 : (1 - u) * (2 * c) = 0).
  { replace ((1 - u) * (2 * c)) with ((1 - u) * ((1 - u) * c) + v * (c * v) + c * (1 - (v * v + u * u))) by ring.
    rewrite E1, <- E2, T. ring. }
  apply Rmult_integral in E3. destruct E3 as [E3|E3]; [exfalso; apply Hp; lra|]. assert (C0 : c = 0) by lra.
  split; [exact C0|]. rewrite C0 in E2. assert (E4 : (1 - u) * s = 0) by lra.
  apply Rmult_integral in E4. destruct E4 as [E4|E4]; [exfalso; apply Hp; lra|exact E4].
Qed.

Section Invariant.
Variables (i : Inp RS) (js a b : Z).
Hypothesis Hok : ok_inp i.
Hypothesis Hd : nfp_divides i.
Hypothesis Hi : invariant i js a b.
Notation pt := (fun t : R => IZR 1 * t + gth i a).
Notation pz := (fun z : R => IZR 1 * z + gze i b).
Ltac one := intros; apply series_keep; let k := fresh in let Hk := fresh in intros k Hk; unfold onA;
  let X := fresh "X" in let X4 := fresh "XA" in let Ea := fresh "Ea" in
  first [destruct (proj1 Hi k Hk) as [X|(? & ? & ? & X4)] | destruct (proj2 Hi k Hk) as [X|(? & ? & ? & X4)]];
  [left; exact X|right; destruct (asym i) eqn:Ea; [destruct (X4 eq_refl) as (? & ? & ?)|]; auto].
Lemma inv_R t z : mR i js (pt t) (pz z) = mR i js t z. Proof. one. Qed.
Lemma inv_Z t z : mZ i js (pt t) (pz z) = mZ i js t z. Proof. one. Qed.
Lemma inv_L t z : mL i js (pt t) (pz z) = mL i js t z. Proof. one. Qed.
Lemma inv_B t z : mB i js (pt t) (pz z) = mB i js t z. Proof. one. Qed.
Lemma inv_W t z : mW i js (pt t) (pz z) = mW i js t z.
Proof.
  apply series_keep. intros k Hk. destruct (proj2 Hi k Hk) as [X|(X1 & X2 & X3 & X4)]; [left; exact X|right].
  unfold onA, w_cos, w_sin. rewrite X2, X3. assert (Z0 : forall d, 0 / d = 0) by (intros; unfold Rdiv; ring).
  assert (Z1 : forall d, - 0 / d = 0) by (intros; unfold Rdiv; ring).
  destruct (asym i); [destruct (X4 eq_refl) as (Y1 & Y2 & Y3); rewrite Y2, Y3|];
    split; auto; destruct (Z.eqb (xmq i k) 0), (Z.eqb (xnq i k) 0); auto.
Qed.
Lemma inv_Nu I G t z : mNu i js I G (pt t) (pz z) = mNu i js I G t z.
Proof. unfold mNu. now rewrite inv_W, inv_L. Qed.
Lemma inv_Th I G t z : mTh i js I G t z = IZR 1 * mTh i js I G (pt t) (pz z) + - gth i a.
Proof. unfold mTh. rewrite inv_L, inv_Nu. ring. Qed.
Lemma inv_Ze I G t z : mZe i js I G t z = IZR 1 * mZe i js I G (pt t) (pz z) + - gze i b.
Proof. unfold mZe. rewrite inv_Nu. ring. Qed.
Lemma inv_Q f t z : out_Q i js f t z = out_Q i js f (pt t) (pz z).
Proof.
  destruct f; cbn [out_Q]; first [now rewrite inv_R|now rewrite inv_Z|now rewrite inv_B|now rewrite inv_Nu|unfold mSqrtg; now rewrite inv_B].
Qed.
Lemma inv_J t z : mJ i js t z = mJ i js (pt t) (pz z).
Proof.
  exact (jac_move i i js js 1 1 a b (- gth i a) (- gze i b) (or_introl eq_refl) (or_introl eq_refl)
    (inv_Th (bI i js) (bG i js)) (inv_Ze (bI i js) (bG i js)) t z).
Qed.
Lemma inv_coef f k : In f (outs (asym i)) -> (0 <= k < mnboz i)%Z -> ~ whole i a b (xm_b i k) (xn_b i k) -> o_coef i js f k = 0.
Proof.
  intros Hf Hk Hw. rewrite o_coef_quad by auto.
  destruct (move_quad i i js Hok Hd eq_refl eq_refl eq_refl a b _ _ (inv_Th (bI i js) (bG i js)) (inv_Ze (bI i js) (bG i js)) f k (inv_Q f)) as (M1 & M2).
  assert (Hp : cos (phase (xm_b i k) (xn_b i k) (- gth i a) (- gze i b)) <> 1).
  { rewrite phase_neg, cos_neg. intros E. apply Hw. exact (cos_1_whole _ E). }
  destruct (turn_fixed _ _ _ Hp M1 M2) as (Z1 & Z2).
  assert (T : out_trig f = cos \/ out_trig f = sin) by (destruct f; cbn; auto).
  destruct T as [-> | ->]; assumption.
Qed.
End Invariant.

Theorem symmetry_kept : forall (o : obj RS) i, valid o i -> nfp_divides i ->
  exists r e, run_ok o r e /\
  forall a b j k m n, (0 <= j < nsurf i)%Z -> invariant i (surf i j) a b ->
    elemN r N_xm_b k = Some (Some m) -> elemN r N_xn_b k = Some (Some n) -> ~ whole i a b m n ->
    forall f, In f (outs (asym i)) -> elem2 r f k j = Some (Some 0).
Proof.
  intros o i V Hd. pose proof V as (Hok & _). destruct (run_total o i V) as (r & E & _ & _ & _ & Q & _).
  exists r, (run_events RS i). split; [exact E|]. intros a b j k m n Hj Hi Hm Hn Hw f Hf.
  destruct (mode_elem r i k m Q Hm) as (Hk & ->).
  rewrite (elemN_vec _ _ _ _ _ (q_xn_b _ _ _ Q) Hk) in Hn. injection Hn as <-.
  rewrite (elem2_mat _ _ _ _ _ _ _ (q_out _ _ _ Q f Hf) Hk Hj). do 2 f_equal. now apply (inv_coef i (surf i j) a b).
Qed.

(** which modes turn by whole turns *)
Lemma whole_div (i : Inp RS) a b m q : ok_inp i -> whole i a b m (q * nfp i) <-> (nt i * nz i | m * a * nz i - q * b * nt i)%Z.
Proof.
  intros Hok. pose proof (nt_pos i Hok). pose proof (nz_pos i Hok). pose proof (ok_nfp _ _ Hok).
  assert (Ht : IZR (nt i) <> 0) by (apply not_0_IZR; lia).
  assert (Hz : IZR (nz i) <> 0) by (apply not_0_IZR; lia).
  assert (Hn : IZR (nfp i) <> 0) by (apply not_0_IZR; lia).
  assert (E : phase m (q * nfp i) (gth i a) (gze i b) * (IZR (nt i) * IZR (nz i)) = IZR (m * a * nz i - q * b * nt i) * (2 * PI)).
  { unfold phase, gth, gze. rewrite minus_IZR, !mult_IZR. field. auto. }
  pose proof PI_RGT_0. split.
  - intros (u & U). exists u. rewrite U in E. apply eq_IZR. rewrite !mult_IZR.
    apply (Rmult_eq_reg_r (2 * PI)); [|lra]. rewrite <- E. ring.
  - intros (u & U). exists u. rewrite U in E. apply (Rmult_eq_reg_r (IZR (nt i) * IZR (nz i))).
    + rewrite E, !mult_IZR. ring.
    + apply Rmult_integral_contrapositive_currified; assumption.
Qed.

(** Axisymmetry *)
Definition axisymmetric (i : Inp RS) (js : Z) : Prop :=
  (forall k, (0 <= k < mnmax i)%Z -> xn i k = 0%Z \/
     rmnc i k js = 0 /\ zmns i k js = 0 /\ lmns i k js = 0 /\
     (asym i = true -> rmns i k js = 0 /\ zmnc i k js = 0 /\ lmnc i k js = 0)) /\
  (forall k, (0 <= k < mnmaxq i)%Z -> xnq i k = 0%Z \/
     bmnc i k js = 0 /\ bsubumnc i k js = 0 /\ bsubvmnc i k js = 0 /\
     (asym i = true -> bmns i k js = 0 /\ bsubumns i k js = 0 /\ bsubvmns i k js = 0)).
Lemma axi_whole i b m : whole i 0 b m 0.
Proof. exists 0%Z. unfold phase, gth. rewrite Rmult_0_r. unfold Rdiv. rewrite !Rmult_0_l. ring. Qed.
Lemma axi_inv i js b : axisymmetric i js -> invariant i js 0 b.
Proof.
  intros (H1 & H2). split; intros k Hk.
  - destruct (H1 k Hk) as [-> |X]; [left; apply axi_whole|right; exact X].
  - destruct (H2 k Hk) as [-> |X]; [left; apply axi_whole|right; exact X].
Qed.
Lemma mode_n_bound (i : Inp RS) k : ok_inp i -> (0 <= k < mnboz i)%Z -> (Z.abs (mode_n i k) <= nboz i)%Z.
Proof.
  intros Hok Hk. unfold mode_n. pose proof (ok_nboz _ _ Hok). destruct (Z.leb_spec k (nboz i)); [lia|].
  pose proof (Z.mod_pos_bound (k - (nboz i + 1)) (2 * nboz i + 1)). lia.
Qed.
Theorem axisymmetry_kept : forall (o : obj RS) i, valid o i -> nfp_divides i ->
  exists r e, run_ok o r e /\
  forall j k n, (0 <= j < nsurf i)%Z -> axisymmetric i (surf i j) ->
    elemN r N_xn_b k = Some (Some n) -> n <> 0%Z ->
    forall f, In f (outs (asym i)) -> elem2 r f k j = Some (Some 0).
Proof.
  intros o i V Hd. pose proof V as (Hok & _). destruct (run_total o i V) as (r & E & _ & _ & _ & Q & _).
  exists r, (run_events RS i). split; [exact E|]. intros j k n Hj Ha Hn Hnz f Hf.
  assert (Hk : (0 <= k < mnboz i)%Z).
  { destruct (q_xn_b _ _ _ Q) as (Sz & _). unfold elemN in Hn. rewrite (vec_is_asize _ _ _ (q_xn_b _ _ _ Q)) in Hn.
    destruct (Z.leb_spec 0 k), (Z.ltb_spec k (mnboz i)); cbn in Hn; try discriminate. lia. }
  rewrite (elemN_vec _ _ _ _ _ (q_xn_b _ _ _ Q) Hk) in Hn. injection Hn as <-.
  rewrite (elem2_mat _ _ _ _ _ _ _ (q_out _ _ _ Q f Hf) Hk Hj). do 2 f_equal.
  apply (inv_coef i (surf i j) 0 1); auto; [now apply axi_inv|].
  intros W. unfold xn_b in W. apply whole_div in W; auto. pose proof (mode_n_bound i k Hok Hk) as Bn.
  pose proof (nt_pos i Hok). pose proof (nz_pos i Hok).
  assert (D : (nz i | mode_n i k)%Z).
  { destruct W as (u & U). exists (- u)%Z. nia. }
  assert (mode_n i k <> 0)%Z by (intros X; apply Hnz; unfold xn_b; rewrite X; lia).
  assert (nz i <= Z.abs (mode_n i k))%Z by (apply Z.divide_pos_le; [lia|now apply Z.divide_abs_r]).
  unfold nz in *. destruct (Z.eqb_spec (nboz i) 0); lia.
Qed.

(** Helical symmetry: on the surface all modes are multiples of (M, N nfp). *)
Definition helical (i : Inp RS) (js M N : Z) : Prop :=
  (forall k, (0 <= k < mnmax i)%Z -> (xm i k * (N * nfp i) = xn i k * M)%Z \/
     rmnc i k js = 0 /\ zmns i k js = 0 /\ lmns i k js = 0 /\
     (asym i = true -> rmns i k js = 0 /\ zmnc i k js = 0 /\ lmnc i k js = 0)) /\
  (forall k, (0 <= k < mnmaxq i)%Z -> (xmq i k * (N * nfp i) = xnq i k * M)%Z \/
     bmnc i k js = 0 /\ bsubumnc i k js = 0 /\ bsubvmnc i k js = 0 /\
     (asym i = true -> bmns i k js = 0 /\ bsubumns i k js = 0 /\ bsubvmns i k js = 0)).
Lemma hel_whole (i : Inp RS) M N m n : ok_inp i -> (nfp i | n)%Z -> nt i = nz i ->
  whole i N M m n <-> (nt i * nfp i | m * (N * nfp i) - n * M)%Z.
Proof.
  intros Hok (q & ->) Ez. rewrite whole_div by auto. rewrite <- Ez. pose proof (nt_pos i Hok). pose proof (ok_nfp _ _ Hok).
  replace (m * N * nt i - q * M * nt i)%Z with ((m * N - q * M) * nt i)%Z by ring.
  replace (m * (N * nfp i) - q * nfp i * M)%Z with ((m * N - q * M) * nfp i)%Z by ring.
  rewrite !Z.mul_divide_cancel_r by lia. reflexivity.
Qed.
Theorem helicity_kept : forall (o : obj RS) i M N, valid o i -> nfp_divides i -> (0 < nboz i)%Z -> nboz i = mboz i ->
  exists r e, run_ok o r e /\
  forall j k m n, (0 <= j < nsurf i)%Z -> helical i (surf i j) M N ->
    elemN r N_xm_b k = Some (Some m) -> elemN r N_xn_b k = Some (Some n) ->
    (0 < Z.abs (m * (N * nfp i) - n * M) < (4 * mboz i + 2) * nfp i)%Z ->
    forall f, In f (outs (asym i)) -> elem2 r f k j = Some (Some 0).
Proof.
  intros o i M N V Hd Hp Eb. pose proof V as (Hok & _). destruct (run_total o i V) as (r & E & _ & _ & _ & Q & _).
  exists r, (run_events RS i). split; [exact E|]. intros j k m n Hj (H1 & H2) Hm Hn Hmn f Hf.
  destruct (mode_elem r i k m Q Hm) as (Hk & ->).
  rewrite (elemN_vec _ _ _ _ _ (q_xn_b _ _ _ Q) Hk) in Hn. injection Hn as <-.
  rewrite (elem2_mat _ _ _ _ _ _ _ (q_out _ _ _ Q f Hf) Hk Hj). do 2 f_equal.
  assert (Ez : nt i = nz i). { unfold nt, nz. destruct (Z.eqb_spec (nboz i) 0); lia. }
  apply (inv_coef i (surf i j) N M); auto.
  - split; intros l Hl.
    + destruct (H1 l Hl) as [X|X]; [left|right; exact X]. apply hel_whole; auto; [now apply Hd|].
      rewrite X, Z.sub_diag. apply Z.divide_0_r.
    + destruct (H2 l Hl) as [X|X]; [left|right; exact X]. apply hel_whole; auto; [now apply Hd|].
      rewrite X, Z.sub_diag. apply Z.divide_0_r.
  - intros W. apply hel_whole in W; auto; [|exists (mode_n i k); reflexivity].
    apply Z.divide_abs_r in W. apply Z.divide_pos_le in W; [|lia]. unfold nt in W. lia.
Qed.

(** ** C70: the toroidal resolution and the number of field periods *)
(** the inputs with another nfp and nboz *)
Definition with_periods (nf nb nto ntoq : Z) (i : Inp RS) : Inp RS :=
  mkInp RS (asym i) nf (mpol i) nto (mnmax i) (mpolq i) ntoq (mnmaxq i) (nsin i) (mboz i) nb (verb i)
    (xm i) (xn i) (xmq i) (xnq i) (nsurf i) (surf i) (sin_ i) (iota i)
    (rmnc i) (zmns i) (lmns i) (bmnc i) (bsubumnc i) (bsubvmnc i)
    (rmns i) (zmnc i) (lmnc i) (bmns i) (bsubumns i) (bsubvmns i).

Lemma gth_0 i : gth i 0 = 0. Proof. unfold gth. rewrite Rmult_0_r. unfold Rdiv. ring. Qed.
Lemma gze_0 i : gze i 0 = 0. Proof. unfold gze. rewrite Rmult_0_r. unfold Rdiv. ring. Qed.
(** for an axisymmetric surface and n = 0 only zeta = 0 matters *)
Lemma axi_quad i js f m tr : ok_inp i -> axisymmetric i js ->
  quad i js (bI i js) (bG i js) (mJ i js) (out_Q i js f) tr m 0 =
  (if Z.eqb m 0 then 1 else 2) / IZR (nt i) *
  rsum (nt i) (fun a => out_Q i js f (gth i a) 0 * tr (IZR m * mTh i js (bI i js) (bG i js) (gth i a) 0) * mJ i js (gth i a) 0).
Proof.
  intros Hok Ha. pose proof (nt_pos i Hok). pose proof (nz_pos i Hok).
  assert (Ht : IZR (nt i) <> 0) by (apply not_0_IZR; lia).
  assert (Hz : IZR (nz i) <> 0) by (apply not_0_IZR; lia).
  unfold quad. rewrite andb_true_r.
  set (h a := out_Q i js f (gth i a) 0 * tr (IZR m * mTh i js (bI i js) (bG i js) (gth i a) 0) * mJ i js (gth i a) 0).
  rewrite (rsum_ext (nt i) _ (fun a => IZR (nz i) * h a)).
  - rewrite rsum_scal. unfold Rdiv. field. auto.
  - intros a Hk. rewrite (rsum_ext (nz i) _ (fun _ => h a)).
    + rewrite rsum_const by lia. reflexivity.
    + intros b Hb. cbv zeta. pose proof (axi_inv i js b Ha) as Hi.
      pose proof (inv_Q i js 0 b Hi f (gth i a) 0) as EQ. pose proof (inv_J i js 0 b Hi (gth i a) 0) as EJ.
      pose proof (inv_Th i js 0 b Hi (bI i js) (bG i js) (gth i a) 0) as ET. cbv beta in *.
      replace (IZR 1 * gth i a + gth i 0) with (gth i a) in * by (rewrite gth_0; ring).
      replace (IZR 1 * 0 + gze i b) with (gze i b) in * by ring.
      unfold h. rewrite EQ, EJ, ET, gth_0. unfold phase.
      replace (IZR m * (IZR 1 * mTh i js (bI i js) (bG i js) (gth i a) (gze i b) + - 0))
        with (IZR m * mTh i js (bI i js) (bG i js) (gth i a) (gze i b)) by ring.
      rewrite Rmult_0_l, Rminus_0_r. reflexivity.
Qed.
Theorem axisymmetric_resolution : forall (o o' : obj RS) i nf nb nto ntoq, valid o i -> nfp_divides i ->
  let i' := with_periods nf nb nto ntoq i in valid o' i' -> nfp_divides i' ->
  exists r e r' e', run_ok o r e /\ run_ok o' r' e' /\
  forall j k k' m, (0 <= j < nsurf i)%Z -> axisymmetric i (surf i j) ->
    elemN r N_xm_b k = Some (Some m) -> elemN r N_xn_b k = Some (Some 0%Z) ->
    elemN r' N_xm_b k' = Some (Some m) -> elemN r' N_xn_b k' = Some (Some 0%Z) ->
    forall f, In f (outs (asym i)) -> elem2 r' f k' j = elem2 r f k j /\ elem2 r f k j <> None.
Proof.
  intros o o' i nf nb nto ntoq V Hd i' V' Hd'. pose proof V as (Hok & _). pose proof V' as (Hok' & _).
  destruct (run_total o i V) as (r & E & _ & _ & _ & Q & _).
  destruct (run_total o' i' V') as (r' & E' & _ & _ & _ & Q' & _).
  exists r, (run_events RS i), r', (run_events RS i'). split; [exact E|]. split; [exact E'|].
  intros j k k' m Hj Ha Hm Hn Hm' Hn' f Hf.
  destruct (mode_elem r i k m Q Hm) as (Hk & Em). destruct (mode_elem r' i' k' m Q' Hm') as (Hk' & Em').
  rewrite (elemN_vec _ _ _ _ _ (q_xn_b _ _ _ Q) Hk) in Hn. injection Hn as En.
  rewrite (elemN_vec _ _ _ _ _ (q_xn_b _ _ _ Q') Hk') in Hn'. injection Hn' as En'.
  rewrite (elem2_mat _ _ _ _ _ _ _ (q_out _ _ _ Q f Hf) Hk Hj), (elem2_mat _ _ _ _ _ _ _ (q_out _ _ _ Q' f Hf) Hk' Hj).
  split; [|discriminate]. do 2 f_equal. change (surf i' j) with (surf i j).
  rewrite (o_coef_quad i Hok Hd), (o_coef_quad i' Hok' Hd') by auto. rewrite En, En', <- Em, <- Em'.
  rewrite (axi_quad i' _ _ _ _ Hok' Ha), (axi_quad i _ _ _ _ Hok Ha). reflexivity.
Qed.

(** sums over several periods *)
Lemma rsum_periods N n (g : Z -> R) : (0 <= N)%Z -> (0 <= n)%Z -> (forall k, g (k + n)%Z = g k) ->
  rsum (N * n) g = IZR N * rsum n g.
Proof.
  intros HN Hn P. revert N HN. apply (rsum_ind (fun N => rsum (N * n) g = IZR N * rsum n g)).
  - rewrite Z.mul_0_l, rsum_0. ring.
  - intros N HN IH. replace ((N + 1) * n)%Z with (N * n + n)%Z by ring.
    rewrite rsum_split by nia. rewrite IH, plus_IZR.
    replace (rsum n (fun k => g (N * n + k)%Z)) with (rsum n g); [ring|]. apply rsum_ext. intros k _.
    clear IH. revert N HN. apply (rsum_ind (fun N => g k = g (N * n + k)%Z)).
    + f_equal; lia.
    + intros N HN IH. rewrite IH, <- P. f_equal. lia.
Qed.

(** nfp = N nf periods described as nf periods, on the same grid *)
Theorem fewer_periods : forall (o o' : obj RS) i N nf nb, valid o i -> nfp_divides i ->
  (0 < nboz i)%Z -> (nfp i = N * nf)%Z -> (2 * nb + 1 = N * (2 * nboz i + 1))%Z ->
  let i' := with_periods nf nb (N * ntor i) (N * ntorq i) i in valid o' i' ->
  exists r e r' e', run_ok o r e /\ run_ok o' r' e' /\
  forall j, (0 <= j < nsurf i)%Z ->
    (forall f, In f [A_Boozer_I; A_Boozer_G] -> elem r' f j = elem r f j /\ elem r f j <> None) /\
    forall k' m n, elemN r' N_xm_b k' = Some (Some m) -> elemN r' N_xn_b k' = Some (Some n) ->
    (~ (nfp i | n)%Z -> forall f, In f (outs (asym i)) -> elem2 r' f k' j = Some (Some 0)) /\
    (forall k, elemN r N_xm_b k = Some (Some m) -> elemN r N_xn_b k = Some (Some n) ->
       forall f, In f (outs (asym i)) -> elem2 r' f k' j = elem2 r f k j /\ elem2 r f k j <> None).
Proof.
  intros o o' i N nf nb V Hd Hb En Eb i' V'. pose proof V as (Hok & _). pose proof V' as (Hok' & _).
  destruct (run_total o i V) as (r & E & _ & _ & _ & Q & _).
  destruct (run_total o' i' V') as (r' & E' & _ & _ & _ & Q' & _).
  exists r, (run_events RS i), r', (run_events RS i'). split; [exact E|]. split; [exact E'|].
  intros j Hj. pose proof (ok_nfp _ _ Hok) as Pn. pose proof (ok_nfp _ _ Hok') as Pn'. change (nfp i') with nf in Pn'.
  assert (PN : (0 < N)%Z) by nia.
  assert (Hd' : nfp_divides i').
  { destruct Hd as (D1 & D2). change (nfp i') with nf.
    split; intros k Hk; [apply (Z.divide_trans _ (nfp i)); [exists N; exact En|exact (D1 k Hk)]
                        |apply (Z.divide_trans _ (nfp i)); [exists N; exact En|exact (D2 k Hk)]]. }
  pose proof (nt_pos i Hok) as Pt. pose proof (nz_pos i Hok) as Pz.
  assert (Ez : (nz i' = N * nz i)%Z).
  { unfold nz. change (nboz i') with nb. destruct (Z.eqb_spec (nboz i) 0), (Z.eqb_spec nb 0); nia. }
  assert (Ht : IZR (nt i) <> 0) by (apply not_0_IZR; lia).
  assert (Hz : IZR (nz i) <> 0) by (apply not_0_IZR; lia).
  assert (HN : IZR N <> 0) by (apply not_0_IZR; lia).
  assert (Hnf : IZR nf <> 0) by (apply not_0_IZR; lia).
  assert (Egz : forall b, gze i' b = gze i b).
  { intros b. unfold gze. change (nfp i') with nf. rewrite Ez, En, !mult_IZR. field. auto. }
  split.
  { intros f Hf. cbn in Hf. destruct Hf as [<-|[<-|[]]].
    - rewrite (elem_vec _ _ _ _ _ (q_I _ _ _ Q) Hj), (elem_vec _ _ _ _ _ (q_I _ _ _ Q') Hj). split; [reflexivity|discriminate].
    - rewrite (elem_vec _ _ _ _ _ (q_G _ _ _ Q) Hj), (elem_vec _ _ _ _ _ (q_G _ _ _ Q') Hj). split; [reflexivity|discriminate]. }
  intros k' m n Hm' Hn'. destruct (mode_elem r' i' k' m Q' Hm') as (Hk' & Em').
  rewrite (elemN_vec _ _ _ _ _ (q_xn_b _ _ _ Q') Hk') in Hn'. injection Hn' as En'. split.
  - intros Hnd f Hf. rewrite (elem2_mat _ _ _ _ _ _ _ (q_out _ _ _ Q' f Hf) Hk' Hj). do 2 f_equal.
    assert (W : forall m n, (nf | n)%Z -> whole i' 0 (nz i) m n <-> (nfp i | n)%Z).
    { intros m0 n0 (q & ->). change nf with (nfp i') at 1. rewrite (whole_div i' 0 (nz i) m0 q Hok'). rewrite Ez.
      change (nt i') with (nt i). replace (m0 * 0 * (N * nz i) - q * nz i * nt i)%Z with (- q * (nt i * nz i))%Z by ring.
      replace (nt i * (N * nz i))%Z with (N * (nt i * nz i))%Z by ring. rewrite Z.mul_divide_cancel_r by nia.
      rewrite En, Z.mul_divide_cancel_r by lia. rewrite Z.divide_opp_r. reflexivity. }
    apply (inv_coef i' (surf i j) 0 (nz i)); auto.
    + split; intros l Hl; left; apply W.
      * exact (proj1 Hd' l Hl).
      * exact (proj1 Hd l Hl).
      * exact (proj2 Hd' l Hl).
      * exact (proj2 Hd l Hl).
    + rewrite W, En'; [exact Hnd|]. exists (mode_n i' k'). reflexivity.
  - intros k Hm Hn f Hf. destruct (mode_elem r i k m Q Hm) as (Hk & Em).
    rewrite (elemN_vec _ _ _ _ _ (q_xn_b _ _ _ Q) Hk) in Hn. injection Hn as Enn.
    rewrite (elem2_mat _ _ _ _ _ _ _ (q_out _ _ _ Q f Hf) Hk Hj), (elem2_mat _ _ _ _ _ _ _ (q_out _ _ _ Q' f Hf) Hk' Hj).
    split; [|discriminate]. do 2 f_equal. change (surf i' j) with (surf i j). set (js := surf i j).
    rewrite (o_coef_quad i Hok Hd), (o_coef_quad i' Hok' Hd') by auto. rewrite Enn, En', <- Em, <- Em'.
    unfold quad. change (nt i') with (nt i). rewrite Ez, mult_IZR.
    pose (h := fun t z => out_Q i js f t z * out_trig f (phase m n (mTh i js (bI i js) (bG i js) t z) (mZe i js (bI i js) (bG i js) t z)) * mJ i js t z).
    assert (Ph : periodic (nfp i) h).
    { unfold h. rewrite <- Enn. unfold xn_b. apply per_int; auto using out_per, out_trig_per. }
    rewrite (rsum_ext (nt i) _ (fun a => IZR N * rsum (nz i) (fun b => h (gth i a) (gze i b)))).
    2:{ intros a Hk0. rewrite <- (rsum_periods N (nz i) (fun b => h (gth i a) (gze i b))).
        - apply rsum_ext. intros b Hb0. cbv zeta. rewrite Egz. reflexivity.
        - lia.
        - lia.
        - intros b. rewrite <- (proj2 (Ph (gth i a) (gze i b))). f_equal. unfold gze. rewrite plus_IZR. rewrite En, mult_IZR. field. auto. }
    rewrite rsum_scal. unfold h. match goal with |- @eq _ ?x ?y => change (@eq R x y) end. field. auto.
Qed.
