(** Invariances of the transformation in real arithmetic. *)
From Coq Require Import ZArith QArith List String Bool Lia Reals Lra Psatz Permutation.
From Verif Require Import Scalar Prog Model Wp Func Step TrigProof InitProof SurfProof RunProof Par FuncExt Spec RunThms
  RSum RSpec RPoint RQuad RThms.
Import ListNotations.
Local Open Scope Z_scope.
Local Open Scope R_scope.

(** ** Two inputs with the same Boozer angles *)
Section Transfer.
Variables (i i' : Inp RS) (js js' : Z) (I G I' G' : R).
Hypothesis Enf : nfp i' = nfp i.
Hypothesis Emb : mboz i' = mboz i.
Hypothesis Enb : nboz i' = nboz i.
Hypothesis Eth : forall t z, mTh i' js' I' G' t z = mTh i js I G t z.
Hypothesis Eze : forall t z, mZe i' js' I' G' t z = mZe i js I G t z.

Lemma jac_same J J' : is_jacobian i js I G J -> is_jacobian i' js' I' G' J' -> forall t z, J' t z = J t z.
Proof.
  intros H H' t z. destruct (H t z) as (a & b & c & d & A & B & C & D & ->).
  destruct (H' t z) as (a' & b' & c' & d' & A' & B' & C' & D' & ->).
  rewrite (uniqueness_limite _ _ _ _ (derivable_ext _ _ _ _ (fun x => Eth x z) A') A).
  rewrite (uniqueness_limite _ _ _ _ (derivable_ext _ _ _ _ (fun x => Eth t x) B') B).
  rewrite (uniqueness_limite _ _ _ _ (derivable_ext _ _ _ _ (fun x => Eze x z) C') C).
  rewrite (uniqueness_limite _ _ _ _ (derivable_ext _ _ _ _ (fun x => Eze t x) D') D). reflexivity.
Qed.
Lemma nt_same : nt i' = nt i. Proof. unfold nt. now rewrite Emb. Qed.
Lemma nz_same : nz i' = nz i. Proof. unfold nz. now rewrite Enb. Qed.
Lemma gth_same a : gth i' a = gth i a. Proof. unfold gth. now rewrite nt_same. Qed.
Lemma gze_same a : gze i' a = gze i a. Proof. unfold gze. now rewrite nz_same, Enf. Qed.

Lemma quad_transfer J J' Q Q' c tr m n :
  is_jacobian i js I G J -> is_jacobian i' js' I' G' J' ->
  (forall a b, (0 <= a < nt i)%Z -> (0 <= b < nz i)%Z -> Q' (gth i a) (gze i b) = c * Q (gth i a) (gze i b)) ->
  quad i' js' I' G' J' Q' tr m n = c * quad i js I G J Q tr m n.
Proof.
  intros HJ HJ' HQ. unfold quad. rewrite nt_same, nz_same.
  rewrite <- (Rmult_assoc c), (Rmult_comm c), Rmult_assoc. f_equal.
  rewrite <- rsum_scal. apply rsum_ext. intros a Ha. rewrite <- rsum_scal. apply rsum_ext. intros b Hb.
  cbv zeta. rewrite gth_same, gze_same, Eth, Eze, (jac_same J J' HJ HJ'), HQ by auto. lra.
Qed.
End Transfer.

(** The angles follow from lambda, w, iota, I and G. *)
Lemma angles_same i i' js js' I G I' G' :
  io i' js' = io i js -> (forall t z, mL i' js' t z = mL i js t z) ->
  (forall t z, mNu i' js' I' G' t z = mNu i js I G t z) ->
  (forall t z, mTh i' js' I' G' t z = mTh i js I G t z) /\ (forall t z, mZe i' js' I' G' t z = mZe i js I G t z).
Proof.
  intros E1 E2 E3. split; intros t z.
  - unfold mTh. now rewrite E1, E2, E3.
  - unfold mZe. now rewrite E3.
Qed.

Lemma xm_b_same (i i' : Inp RS) k : nboz i' = nboz i -> xm_b i' k = xm_b i k.
Proof. intros E. unfold xm_b, mode_m. now rewrite E. Qed.
Lemma xn_b_same (i i' : Inp RS) k : nboz i' = nboz i -> nfp i' = nfp i -> xn_b i' k = xn_b i k.
Proof. intros E E'. unfold xn_b, mode_n. now rewrite E, E'. Qed.
Lemma mnboz_same (i i' : Inp RS) : nboz i' = nboz i -> mboz i' = mboz i -> mnboz i' = mnboz i.
Proof. intros E E'. unfold mnboz. now rewrite E, E'. Qed.

(** Coefficients of two inputs related by a factor *)
Lemma coef_transfer i i' js js' f k c :
  ok_inp i -> ok_inp i' -> nfp_divides i -> nfp_divides i' ->
  nfp i' = nfp i -> mboz i' = mboz i -> nboz i' = nboz i ->
  (forall t z, mTh i' js' (bI i' js') (bG i' js') t z = mTh i js (bI i js) (bG i js) t z) ->
  (forall t z, mZe i' js' (bI i' js') (bG i' js') t z = mZe i js (bI i js) (bG i js) t z) ->
  (forall a b, (0 <= a < nt i)%Z -> (0 <= b < nz i)%Z ->
     out_Q i' js' f (gth i a) (gze i b) = c * out_Q i js f (gth i a) (gze i b)) ->
  In f (outs (asym i)) -> In f (outs (asym i')) -> (0 <= k < mnboz i)%Z ->
  o_coef i' js' f k = c * o_coef i js f k.
Proof.
  intros Hok Hok' Hd Hd' E1 E2 E3 Et Ez HQ Hf Hf' Hk.
  rewrite (o_coef_quad i' Hok' Hd' js' f k Hf') by (rewrite (mnboz_same i i'); auto).
  rewrite (o_coef_quad i Hok Hd js f k Hf Hk).
  rewrite (xm_b_same i i'), (xn_b_same i i') by auto.
  apply quad_transfer; auto using mJ_jacobian.
Qed.

Lemma results_conv o (i i' : Inp RS) :
  asym i' = asym i -> nfp i' = nfp i -> mboz i' = mboz i -> nboz i' = nboz i ->
  nsurf i' = nsurf i -> nsin i' = nsin i ->
  (forall b, (0 <= b < nsurf i)%Z -> surf i' b = surf i b) ->
  (forall b, (0 <= b < nsurf i)%Z -> sin_ i' (surf i b) = sin_ i (surf i b)) ->
  (forall j, (0 <= j < nsin i)%Z -> bsubumnc i' 0 j = bsubumnc i 0 j /\ bsubvmnc i' 0 j = bsubvmnc i 0 j) ->
  (forall b, (0 <= b < nsurf i)%Z -> bI i' (surf i b) = bI i (surf i b) /\ bG i' (surf i b) = bG i (surf i b)) ->
  (forall b f k, (0 <= b < nsurf i)%Z -> (0 <= k < mnboz i)%Z -> In f (outs (asym i)) ->
     o_coef i' (surf i b) f k = o_coef i (surf i b) f k) ->
  results o i' -> results o i.
Proof.
  intros Ea Ef Em En Es Ei Hs Hsi H0 HIG HO [Q1 Q2 Q3 Q4 Q5 Q6 Q7 Q8 Q9 Q10].
  pose proof (mnboz_same i i' En Em) as Emn.
  rewrite Es in *. rewrite Ei in *. rewrite Emn in *. rewrite Ea in *.
  constructor; auto.
  - eapply vec_ext; [|exact Q3]. intros k Hk. now apply xm_b_same.
  - eapply vec_ext; [|exact Q4]. intros k Hk. now apply xn_b_same.
  - eapply vec_ext; [|exact Q5]. intros k Hk. cbv beta. now rewrite Hs, Hsi by auto.
  - eapply vec_ext; [|exact Q6]. intros k Hk. cbv beta. rewrite Hs by auto. now apply HIG.
  - eapply vec_ext; [|exact Q7]. intros k Hk. cbv beta. rewrite Hs by auto. now apply HIG.
  - eapply vec_ext; [|exact Q8]. intros k Hk. cbv beta. now apply H0.
  - eapply vec_ext; [|exact Q9]. intros k Hk. cbv beta. now apply H0.
  - intros f Hf. eapply mat_ext; [|exact (Q10 f Hf)]. intros k b Hk Hb. cbv beta. rewrite Hs by auto. now apply HO.
Qed.

(** ** C17 *)
Definition as_asym (i : Inp RS) : Inp RS :=
  mkInp RS true (nfp i) (mpol i) (ntor i) (mnmax i) (mpolq i) (ntorq i) (mnmaxq i) (nsin i) (mboz i) (nboz i) (verb i)
    (xm i) (xn i) (xmq i) (xnq i) (nsurf i) (surf i) (sin_ i) (iota i)
    (rmnc i) (zmns i) (lmns i) (bmnc i) (bsubumnc i) (bsubvmnc i)
    (fun _ _ => 0) (fun _ _ => 0) (fun _ _ => 0) (fun _ _ => 0) (fun _ _ => 0) (fun _ _ => 0).

Lemma series_ext n ms ns c s c' s' t z :
  (forall k, (0 <= k < n)%Z -> c k = c' k /\ s k = s' k) -> series n ms ns c s t z = series n ms ns c' s' t z.
Proof. intros H. unfold series. apply rsum_ext. intros k Hk. now destruct (H k Hk) as (-> & ->). Qed.

Lemma div0 x : 0 / x = 0. Proof. unfold Rdiv. lra. Qed.
Lemma ndiv0 x : - 0 / x = 0. Proof. unfold Rdiv. lra. Qed.

Theorem sym_asym_agree (o o' : obj RS) i : valid o i -> nfp_divides i -> asym i = false ->
  valid o' (as_asym i) ->
  exists r e r' e', run_ok o r e /\ run_ok o' r' e' /\
  forall b k, (0 <= b < nsurf i)%Z -> (0 <= k < mnboz i)%Z ->
    (forall f, In f sym_outs -> elem2 r' f k b = elem2 r f k b /\ elem2 r f k b <> None) /\
    (forall f, In f asym_outs -> elem2 r' f k b = Some (Some 0)).
Proof.
  intros V Hd Ea V'. pose proof V as (Hok & _). pose proof V' as (Hok' & _).
  destruct (run_total o i V) as (r & E & _ & _ & _ & Q & _).
  destruct (run_total o' _ V') as (r' & E' & _ & _ & _ & Q' & _).
  exists r, (run_events RS i), r', (run_events RS (as_asym i)). splits; auto. intros b k Hb Hk.
  assert (Hd' : nfp_divides (as_asym i)) by exact Hd.
  set (js := surf i b).
  assert (EL : forall t z, mL (as_asym i) js t z = mL i js t z).
  { intros t z. apply series_ext. intros l Hl. unfold onA. rewrite Ea. auto. }
  assert (EW : forall t z, mW (as_asym i) js t z = mW i js t z).
  { intros t z. apply series_ext. intros l Hl. unfold onA. rewrite Ea. split; [|reflexivity].
    unfold w_cos. cbn [as_asym asym xmq xnq bsubumns bsubvmns]. rewrite div0, ndiv0.
    destruct (Z.eqb (xmq i l) 0), (Z.eqb (xnq i l) 0); reflexivity. }
  assert (EB : forall t z, mB (as_asym i) js t z = mB i js t z).
  { intros t z. apply series_ext. intros l Hl. unfold onA. rewrite Ea. auto. }
  assert (ER : forall t z, mR (as_asym i) js t z = mR i js t z).
  { intros t z. apply series_ext. intros l Hl. unfold onA. rewrite Ea. auto. }
  assert (EZ : forall t z, mZ (as_asym i) js t z = mZ i js t z).
  { intros t z. apply series_ext. intros l Hl. unfold onA. rewrite Ea. auto. }
  assert (EN : forall t z, mNu (as_asym i) js (bI i js) (bG i js) t z = mNu i js (bI i js) (bG i js) t z).
  { intros t z. unfold mNu. rewrite EL, EW. reflexivity. }
  destruct (angles_same i (as_asym i) js js (bI i js) (bG i js) (bI i js) (bG i js) eq_refl EL EN) as (Et & Ez).
  split.
  - intros f Hf. assert (In f (outs (asym i))) by (unfold outs; rewrite Ea; auto).
    assert (In f (outs (asym (as_asym i)))) by (cbn; cbn in Hf; tauto).
    rewrite (elem2_mat _ _ _ _ _ _ _ (q_out _ _ _ Q f H) Hk Hb).
    rewrite (elem2_mat _ _ _ _ _ _ _ (q_out _ _ _ Q' f H0) Hk Hb). split; [|discriminate]. do 2 f_equal.
    change (surf (as_asym i) b) with js. fold js.
    rewrite (coef_transfer i (as_asym i) js js f k 1); auto; [apply Rmult_1_l|].
    intros a c _ _. rewrite Rmult_1_l. cbn in Hf.
    destruct Hf as [<-|[<-|[<-|[<-|[<-|[]]]]]]; cbn [out_Q]; auto.
    unfold mSqrtg. rewrite EB. reflexivity.
  - intros f Hf.
    assert (In f (outs (asym (as_asym i)))) by (cbn; cbn in Hf; tauto).
    rewrite (elem2_mat _ _ _ _ _ _ _ (q_out _ _ _ Q' f H) Hk Hb). do 2 f_equal.
    change (surf (as_asym i) b) with js.
    rewrite o_coef_quad by auto. unfold quad.
    assert (Hs : symm (as_asym i) js) by (intros _; split; intros; repeat split; reflexivity).
    pose proof (full_odd_zero (as_asym i) Hok' _
      (per_int (as_asym i) Hok' Hd' js (out_Q (as_asym i) js f) (out_trig f) (xm_b (as_asym i) k) (mode_n (as_asym i) k)
         (out_per (as_asym i) Hok' Hd' js f) (out_trig_per f))
      (asym_odd (as_asym i) js f _ _ Hs Hf)) as Z0.
    unfold row in Z0. unfold xn_b at 1. cbv zeta.
    change (xn_b (as_asym i) k) with (mode_n (as_asym i) k * nfp (as_asym i))%Z. rewrite Z0. apply Rmult_0_r.
Qed.

(** ** C18 *)
Definition scale_field (c : R) (i : Inp RS) : Inp RS :=
  mkInp RS (asym i) (nfp i) (mpol i) (ntor i) (mnmax i) (mpolq i) (ntorq i) (mnmaxq i) (nsin i) (mboz i) (nboz i) (verb i)
    (xm i) (xn i) (xmq i) (xnq i) (nsurf i) (surf i) (sin_ i) (iota i)
    (rmnc i) (zmns i) (lmns i)
    (fun k j => c * bmnc i k j) (fun k j => c * bsubumnc i k j) (fun k j => c * bsubvmnc i k j)
    (rmns i) (zmnc i) (lmnc i)
    (fun k j => c * bmns i k j) (fun k j => c * bsubumns i k j) (fun k j => c * bsubvmns i k j).

Lemma series_scal n ms ns a s a' s' c t z :
  (forall k, (0 <= k < n)%Z -> a' k = c * a k /\ s' k = c * s k) ->
  series n ms ns a' s' t z = c * series n ms ns a s t z.
Proof.
  intros H. unfold series. rewrite <- rsum_scal. apply rsum_ext. intros k Hk. destruct (H k Hk) as (-> & ->). lra.
Qed.
Lemma accum_pick_scal n (p : Z -> bool) (g : Z -> R) c :
  accum n (fun k acc => if p k then c * g k else acc) 0 = c * accum n (fun k acc => if p k then g k else acc) 0.
Proof.
  unfold accum. induction (Z.to_nat n) as [|m IH]; cbn [nat_rect]; [lra|]. rewrite IH. destruct (p _); lra.
Qed.

Theorem field_scaling (o o' : obj RS) i c : valid o i -> nfp_divides i -> c <> 0 -> valid o' (scale_field c i) ->
  exists r e r' e', run_ok o r e /\ run_ok o' r' e' /\
  forall b, (0 <= b < nsurf i)%Z -> exists I G,
    elem r A_Boozer_I b = Some (Some I) /\ elem r' A_Boozer_I b = Some (Some (c * I)) /\
    elem r A_Boozer_G b = Some (Some G) /\ elem r' A_Boozer_G b = Some (Some (c * G)) /\
    (G + iota i (surf i b) * I <> 0 -> forall k, (0 <= k < mnboz i)%Z ->
      (forall f, In f [A_rmnc_b; A_zmns_b; A_numns_b] \/ (asym i = true /\ In f [A_rmns_b; A_zmnc_b; A_numnc_b]) ->
         elem2 r' f k b = elem2 r f k b /\ elem2 r f k b <> None) /\
      (forall f, f = A_bmnc_b \/ (asym i = true /\ f = A_bmns_b) ->
         exists x, elem2 r f k b = Some (Some x) /\ elem2 r' f k b = Some (Some (c * x))) /\
      ((forall t z, mB i (surf i b) t z <> 0) ->
       forall f, f = A_gmnc_b \/ (asym i = true /\ f = A_gmns_b) ->
         exists x, elem2 r f k b = Some (Some x) /\ elem2 r' f k b = Some (Some (x / c)))).
Proof.
  intros V Hd Hc V'. pose proof V as (Hok & _). pose proof V' as (Hok' & _).
  destruct (run_total o i V) as (r & E & _ & _ & _ & Q & _).
  destruct (run_total o' _ V') as (r' & E' & _ & _ & _ & Q' & _).
  exists r, (run_events RS i), r', (run_events RS (scale_field c i)). splits; auto. intros b Hb.
  set (i' := scale_field c i) in *. set (js := surf i b).
  assert (Hd' : nfp_divides i') by exact Hd.
  assert (EI : bI i' js = c * bI i js) by apply (accum_pick_scal (mnmaxq i) (is00 i) (fun k => bsubumnc i k js) c).
  assert (EG : bG i' js = c * bG i js) by apply (accum_pick_scal (mnmaxq i) (is00 i) (fun k => bsubvmnc i k js) c).
  exists (bI i js), (bG i js). splits.
  - apply (elem_vec _ _ _ _ _ (q_I _ _ _ Q) Hb).
  - rewrite <- EI. apply (elem_vec _ _ _ _ _ (q_I _ _ _ Q') Hb).
  - apply (elem_vec _ _ _ _ _ (q_G _ _ _ Q) Hb).
  - rewrite <- EG. apply (elem_vec _ _ _ _ _ (q_G _ _ _ Q') Hb).
  - intros Hne k Hk.
    assert (EL : forall t z, mL i' js t z = mL i js t z) by reflexivity.
    assert (EW : forall t z, mW i' js t z = c * mW i js t z).
    { intros t z. apply series_scal. intros l Hl. unfold onA, w_cos, w_sin, i'.
      cbn [scale_field asym xmq xnq bsubumnc bsubvmnc bsubumns bsubvmns].
      split; [destruct (asym i); [|lra]|]; destruct (Z.eqb (xmq i l) 0), (Z.eqb (xnq i l) 0); unfold Rdiv; rs; lra. }
    assert (EB : forall t z, mB i' js t z = c * mB i js t z).
    { intros t z. apply series_scal. intros l Hl. unfold onA, i'. cbn [scale_field asym bmnc bmns].
      split; [reflexivity|]. destruct (asym i); [reflexivity|lra]. }
    assert (EN : forall t z, mNu i' js (bI i' js) (bG i' js) t z = mNu i js (bI i js) (bG i js) t z).
    { intros t z. unfold mNu. rewrite EL, EW, EI, EG. change (io i' js) with (io i js).
      replace (c * bG i js + io i js * (c * bI i js)) with (c * (bG i js + io i js * bI i js)) by lra.
      field. split; auto. }
    destruct (angles_same i i' js js (bI i js) (bG i js) (bI i' js) (bG i' js) eq_refl EL EN) as (Et & Ez).
    assert (X : forall f d, In f (outs (asym i)) ->
      (forall a b, (0 <= a < nt i)%Z -> (0 <= b < nz i)%Z ->
        out_Q i' js f (gth i a) (gze i b) = d * out_Q i js f (gth i a) (gze i b)) ->
      exists x, elem2 r f k b = Some (Some x) /\ elem2 r' f k b = Some (Some (d * x))).
    { intros f d Hf HQ. exists (o_coef i js f k).
      rewrite (elem2_mat _ _ _ _ _ _ _ (q_out _ _ _ Q f Hf) Hk Hb).
      rewrite (elem2_mat _ _ _ _ _ _ _ (q_out _ _ _ Q' f Hf) Hk Hb). split; [reflexivity|]. do 2 f_equal.
      apply (coef_transfer i i' js js f k d); auto. }
    assert (S5 : forall f, In f sym_outs \/ (asym i = true /\ In f asym_outs) -> In f (outs (asym i))).
    { intros f Hf. unfold outs. destruct (asym i), Hf as [H|[H H']]; try discriminate; auto; apply in_or_app; auto. }
    splits.
    + intros f Hf. destruct (X f 1) as (x & -> & ->).
      * apply S5. destruct Hf as [H|[H1 H]]; [left|right; split; auto]; cbn in *; tauto.
      * intros a d _ _. rewrite Rmult_1_l. destruct Hf as [H|[H1 H]]; cbn in H;
          destruct H as [<-|[<-|[<-|[]]]]; cbn [out_Q]; auto.
      * split; [|discriminate]. now rewrite Rmult_1_l.
    + intros f Hf. apply X.
      * apply S5. destruct Hf as [->|[H1 ->]]; [left|right; split; auto]; cbn; tauto.
      * intros a d _ _. destruct Hf as [->|[H1 ->]]; cbn [out_Q]; apply EB.
    + intros Hnz f Hf. destruct (X f (/ c)) as (x & -> & ->).
      * apply S5. destruct Hf as [->|[H1 ->]]; [left|right; split; auto]; cbn; tauto.
      * intros a d _ _. destruct Hf as [->|[H1 ->]]; cbn [out_Q]; unfold mSqrtg; rewrite EB, EI, EG;
          change (io i' js) with (io i js); unfold Rsqr; field; split; auto; apply Hnz.
      * exists x. split; auto. do 2 f_equal. unfold Rdiv. lra.
Qed.

(** ** C19 *)
Record rzb : Type := mkRzb {
  x_rmnc : Z -> Z -> R; x_rmns : Z -> Z -> R; x_zmns : Z -> Z -> R; x_zmnc : Z -> Z -> R;
  x_bmnc : Z -> Z -> R; x_bmns : Z -> Z -> R }.
Definition comb (a b : R) (f g : Z -> Z -> R) : Z -> Z -> R := fun k j => a * f k j + b * g k j.
Definition rzb_comb (a b : R) (x y : rzb) : rzb :=
  mkRzb (comb a b (x_rmnc x) (x_rmnc y)) (comb a b (x_rmns x) (x_rmns y)) (comb a b (x_zmns x) (x_zmns y))
        (comb a b (x_zmnc x) (x_zmnc y)) (comb a b (x_bmnc x) (x_bmnc y)) (comb a b (x_bmns x) (x_bmns y)).
(** the inputs [i] with R, Z and |B| replaced *)
Definition with_rzb (i : Inp RS) (x : rzb) : Inp RS :=
  mkInp RS (asym i) (nfp i) (mpol i) (ntor i) (mnmax i) (mpolq i) (ntorq i) (mnmaxq i) (nsin i) (mboz i) (nboz i) (verb i)
    (xm i) (xn i) (xmq i) (xnq i) (nsurf i) (surf i) (sin_ i) (iota i)
    (x_rmnc x) (x_zmns x) (lmns i) (x_bmnc x) (bsubumnc i) (bsubvmnc i)
    (x_rmns x) (x_zmnc x) (lmnc i) (x_bmns x) (bsubumns i) (bsubvmns i).

Lemma series_lin n ms ns c1 s1 c2 s2 c s a b t z :
  (forall k, (0 <= k < n)%Z -> c k = a * c1 k + b * c2 k /\ s k = a * s1 k + b * s2 k) ->
  series n ms ns c s t z = a * series n ms ns c1 s1 t z + b * series n ms ns c2 s2 t z.
Proof.
  intros H. unfold series. rewrite <- !rsum_scal, <- rsum_add. apply rsum_ext. intros k Hk.
  destruct (H k Hk) as (-> & ->). lra.
Qed.

Lemma quad_lin i js I G J Q1 Q2 Q a b tr m n :
  (forall t z, Q t z = a * Q1 t z + b * Q2 t z) ->
  quad i js I G J Q tr m n = a * quad i js I G J Q1 tr m n + b * quad i js I G J Q2 tr m n.
Proof.
  intros H. unfold quad.
  match goal with |- ?c * ?S = a * (?c * ?S1) + b * (?c * ?S2) =>
    replace (a * (c * S1) + b * (c * S2)) with (c * (a * S1 + b * S2)) by ring end.
  f_equal. rewrite <- !rsum_scal, <- rsum_add. apply rsum_ext. intros x Hx.
  rewrite <- !rsum_scal, <- rsum_add. apply rsum_ext. intros y Hy. cbv zeta. rewrite H. lra.
Qed.

Theorem linearity i x1 x2 a b (o1 o2 o3 : obj RS) :
  nfp_divides i -> valid o1 (with_rzb i x1) -> valid o2 (with_rzb i x2) -> valid o3 (with_rzb i (rzb_comb a b x1 x2)) ->
  exists r1 e1 r2 e2 r3 e3, run_ok o1 r1 e1 /\ run_ok o2 r2 e2 /\ run_ok o3 r3 e3 /\
  forall f k j, (0 <= k < mnboz i)%Z -> (0 <= j < nsurf i)%Z ->
    In f [A_rmnc_b; A_zmns_b; A_bmnc_b] \/ (asym i = true /\ In f [A_rmns_b; A_zmnc_b; A_bmns_b]) ->
    exists v1 v2, elem2 r1 f k j = Some (Some v1) /\ elem2 r2 f k j = Some (Some v2) /\
      elem2 r3 f k j = Some (Some (a * v1 + b * v2)).
Proof.
  intros Hd V1 V2 V3.
  pose proof V1 as (K1 & _). pose proof V2 as (K2 & _). pose proof V3 as (K3 & _).
  destruct (run_total _ _ V1) as (r1 & E1 & _ & _ & _ & Q1 & _).
  destruct (run_total _ _ V2) as (r2 & E2 & _ & _ & _ & Q2 & _).
  destruct (run_total _ _ V3) as (r3 & E3 & _ & _ & _ & Q3 & _).
  do 6 eexists. splits; eauto. intros f k j Hk Hj Hf.
  assert (Hin : In f (outs (asym i))).
  { unfold outs. destruct (asym i), Hf as [H|[H' H]]; try discriminate; cbn in H |- *; tauto. }
  exists (o_coef (with_rzb i x1) (surf i j) f k), (o_coef (with_rzb i x2) (surf i j) f k). splits.
  - apply (elem2_mat _ _ _ _ _ _ _ (q_out _ _ _ Q1 f Hin) Hk Hj).
  - apply (elem2_mat _ _ _ _ _ _ _ (q_out _ _ _ Q2 f Hin) Hk Hj).
  - rewrite (elem2_mat _ _ _ _ _ _ _ (q_out _ _ _ Q3 f Hin) Hk Hj). do 2 f_equal.
    rewrite !o_coef_quad by auto.
    change (surf (with_rzb i (rzb_comb a b x1 x2)) j) with (surf i j). set (js := surf i j).
    apply (quad_lin (with_rzb i x1) js _ _ _ (out_Q (with_rzb i x1) js f) (out_Q (with_rzb i x2) js f)).
    intros t z.
    assert (HR : mR (with_rzb i (rzb_comb a b x1 x2)) js t z = a * mR (with_rzb i x1) js t z + b * mR (with_rzb i x2) js t z).
    { apply series_lin. intros l Hl. split; [reflexivity|]. unfold onA. cbn. unfold comb. destruct (asym i); lra. }
    assert (HZ : mZ (with_rzb i (rzb_comb a b x1 x2)) js t z = a * mZ (with_rzb i x1) js t z + b * mZ (with_rzb i x2) js t z).
    { apply series_lin. intros l Hl. split; [|reflexivity]. unfold onA. cbn. unfold comb. destruct (asym i); lra. }
    assert (HB : mB (with_rzb i (rzb_comb a b x1 x2)) js t z = a * mB (with_rzb i x1) js t z + b * mB (with_rzb i x2) js t z).
    { apply series_lin. intros l Hl. split; [reflexivity|]. unfold onA. cbn. unfold comb. destruct (asym i); lra. }
    destruct Hf as [H|[_ H]]; cbn in H; destruct H as [<-|[<-|[<-|[]]]]; cbn [out_Q]; auto.
Qed.

(** ** C22 *)
Definition permute (p q : Z -> Z) (i : Inp RS) : Inp RS :=
  mkInp RS (asym i) (nfp i) (mpol i) (ntor i) (mnmax i) (mpolq i) (ntorq i) (mnmaxq i) (nsin i) (mboz i) (nboz i) (verb i)
    (fun k => xm i (p k)) (fun k => xn i (p k)) (fun k => xmq i (q k)) (fun k => xnq i (q k))
    (nsurf i) (surf i) (sin_ i) (iota i)
    (fun k => rmnc i (p k)) (fun k => zmns i (p k)) (fun k => lmns i (p k))
    (fun k => bmnc i (q k)) (fun k => bsubumnc i (q k)) (fun k => bsubvmnc i (q k))
    (fun k => rmns i (p k)) (fun k => zmnc i (p k)) (fun k => lmnc i (p k))
    (fun k => bmns i (q k)) (fun k => bsubumns i (q k)) (fun k => bsubvmns i (q k)).
(** p permutes 0 .. n-1 *)
Definition perm_of (n : Z) (p : Z -> Z) : Prop :=
  (forall k, (0 <= k < n)%Z -> (0 <= p k < n)%Z) /\
  (forall k l, (0 <= k < n)%Z -> (0 <= l < n)%Z -> p k = p l -> k = l).

Lemma perm_of_list n p : perm_of n p -> Permutation (map p (zseq 0 (Z.to_nat n))) (zseq 0 (Z.to_nat n)).
Proof.
  intros (H1 & H2). apply NoDup_Permutation_bis.
  - assert (X : forall l, NoDup l -> (forall x, In x l -> (0 <= x < n)%Z) -> NoDup (map p l)).
    { induction l as [|x l IH]; intros ND Hl; cbn; constructor.
      - intros Hin. apply in_map_iff in Hin. destruct Hin as (y & Ey & Hy). apply NoDup_cons_iff in ND.
        apply ND. rewrite (H2 x y); auto; apply Hl; cbn; auto.
      - apply IH; [now apply NoDup_cons_iff in ND|]. intros y Hy. apply Hl. now right. }
    apply X; [apply nodup_zseq|]. intros x Hx. apply in_zseq in Hx. lia.
  - rewrite map_length. lia.
  - intros x Hx. apply in_map_iff in Hx. destruct Hx as (y & <- & Hy). apply in_zseq in Hy. apply in_zseq.
    specialize (H1 y ltac:(lia)). lia.
Qed.
Lemma rsum_perm' n p g : perm_of n p -> rsum n (fun k => g (p k)) = rsum n g.
Proof. intros H. apply rsum_perm. now apply perm_of_list. Qed.

Theorem mode_order_irrelevant (o o' : obj RS) i p q :
  valid o i -> nfp_divides i -> at_most_one_00 i ->
  perm_of (mnmax i) p -> perm_of (mnmaxq i) q -> q 0%Z = 0%Z -> valid o' (permute p q i) ->
  exists r e r' e', run_ok o r e /\ run_ok o' r' e' /\ same_outputs (asym i) r r'.
Proof.
  intros V Hd H1 Hp Hq Hq0 V'. pose proof V as (Hok & _). pose proof V' as (Hok' & _).
  destruct (run_total o i V) as (r & E & _ & _ & _ & Q & _).
  destruct (run_total o' _ V') as (r' & E' & _ & _ & _ & Q' & _).
  exists r, (run_events RS i), r', (run_events RS (permute p q i)). splits; auto.
  set (i' := permute p q i) in *.
  assert (Hd' : nfp_divides i').
  { split; intros k Hk; cbn; apply Hd; [apply Hp|apply Hq]; exact Hk. }
  assert (H1' : at_most_one_00 i').
  { intros k k' Hk Hk' A B C D. apply Hq; auto. apply H1; auto; apply Hq; auto. }
  assert (EIG : forall js, bI i' js = bI i js /\ bG i' js = bG i js).
  { intros js. rewrite !bI_sum, !bG_sum by auto. split.
    - apply (rsum_perm' (mnmaxq i) q (fun k => if is00 i k then bsubumnc i k js else 0) Hq).
    - apply (rsum_perm' (mnmaxq i) q (fun k => if is00 i k then bsubvmnc i k js else 0) Hq). }
  assert (SP : forall n s (ms ns : Z -> Z) c d t z, perm_of n s ->
     series n (fun k => ms (s k)) (fun k => ns (s k)) (fun k => c (s k)) (fun k => d (s k)) t z = series n ms ns c d t z).
  { intros n s ms ns c d t z Hs. unfold series.
    apply (rsum_perm' n s (fun k => c k * cos (phase (ms k) (ns k) t z) + d k * sin (phase (ms k) (ns k) t z)) Hs). }
  assert (EL : forall js t z, mL i' js t z = mL i js t z) by (intros; apply (SP (mnmax i) p (xm i) (xn i) (onA (asym i) (fun k => lmnc i k js)) (fun k => lmns i k js)); auto).
  assert (ER : forall js t z, mR i' js t z = mR i js t z) by (intros; apply (SP (mnmax i) p (xm i) (xn i) (fun k => rmnc i k js) (onA (asym i) (fun k => rmns i k js))); auto).
  assert (EZ : forall js t z, mZ i' js t z = mZ i js t z) by (intros; apply (SP (mnmax i) p (xm i) (xn i) (onA (asym i) (fun k => zmnc i k js)) (fun k => zmns i k js)); auto).
  assert (EB : forall js t z, mB i' js t z = mB i js t z) by (intros; apply (SP (mnmaxq i) q (xmq i) (xnq i) (fun k => bmnc i k js) (onA (asym i) (fun k => bmns i k js))); auto).
  assert (EW : forall js t z, mW i' js t z = mW i js t z) by (intros; apply (SP (mnmaxq i) q (xmq i) (xnq i) (onA (asym i) (w_cos i js)) (w_sin i js)); auto).
  assert (EN : forall js t z, mNu i' js (bI i' js) (bG i' js) t z = mNu i js (bI i js) (bG i js) t z).
  { intros js t z. unfold mNu. rewrite EL, EW, (proj1 (EIG js)), (proj2 (EIG js)). reflexivity. }
  apply results_same; auto. apply (results_conv r' i i'); auto.
  - intros j Hj. cbn. now rewrite Hq0.
  - intros b f k Hb Hk Hf. set (js := surf i b).
    destruct (angles_same i i' js js (bI i js) (bG i js) (bI i' js) (bG i' js) eq_refl (EL js) (EN js)) as (Et & Ez).
    rewrite (coef_transfer i i' js js f k 1); auto; [apply Rmult_1_l|].
    intros a c _ _. rewrite Rmult_1_l. destruct f; cbn [out_Q]; auto;
      unfold mSqrtg; rewrite EB, (proj1 (EIG js)), (proj2 (EIG js)); reflexivity.
Qed.

(** ** C23 *)
(** the inputs [i] with only the first n and nq modes *)
Definition cut (n nq : Z) (i : Inp RS) : Inp RS :=
  mkInp RS (asym i) (nfp i) (mpol i) (ntor i) n (mpolq i) (ntorq i) nq (nsin i) (mboz i) (nboz i) (verb i)
    (xm i) (xn i) (xmq i) (xnq i) (nsurf i) (surf i) (sin_ i) (iota i)
    (rmnc i) (zmns i) (lmns i) (bmnc i) (bsubumnc i) (bsubvmnc i)
    (rmns i) (zmnc i) (lmnc i) (bmns i) (bsubumns i) (bsubvmns i).
Definition zero_from (n nq : Z) (i : Inp RS) : Prop :=
  forall j, (0 <= j < nsin i)%Z ->
  (forall k, (n <= k < mnmax i)%Z -> rmnc i k j = 0 /\ zmns i k j = 0 /\ lmns i k j = 0 /\
     (asym i = true -> rmns i k j = 0 /\ zmnc i k j = 0 /\ lmnc i k j = 0)) /\
  (forall k, (nq <= k < mnmaxq i)%Z -> bmnc i k j = 0 /\ bsubumnc i k j = 0 /\ bsubvmnc i k j = 0 /\
     (asym i = true -> bmns i k j = 0 /\ bsubumns i k j = 0 /\ bsubvmns i k j = 0)).

Lemma rsum_cut n m g : (0 <= n <= m)%Z -> (forall k, (n <= k < m)%Z -> g k = 0) -> rsum m g = rsum n g.
Proof.
  intros H Z0. replace m with (n + (m - n))%Z by lia. rewrite rsum_split by lia.
  rewrite (rsum_zero (m - n)); [lra|]. intros k Hk. apply Z0. lia.
Qed.
Lemma accum_cut {A} n m (f : Z -> A -> A) a : (0 <= n <= m)%Z ->
  (forall k x, (n <= k < m)%Z -> f k x = x) -> accum m f a = accum n f a.
Proof.
  intros (Hn & Hm) H. assert (X : forall d, (0 <= d)%Z -> (n + d <= m)%Z -> accum (n + d) f a = accum n f a).
  { apply (rsum_ind (fun d => (n + d <= m)%Z -> accum (n + d) f a = accum n f a)).
    - intros _. now rewrite Z.add_0_r.
    - intros d Hd IH L. rewrite Z.add_assoc, accum_succ by lia. rewrite H by lia. apply IH. lia. }
  replace m with (n + (m - n))%Z by lia. apply X; lia.
Qed.

Theorem zero_modes_irrelevant (o o' : obj RS) i n nq :
  valid o i -> nfp_divides i -> (0 <= n <= mnmax i)%Z -> (1 <= nq <= mnmaxq i)%Z -> zero_from n nq i ->
  (forall k, (nq <= k < mnmaxq i)%Z -> xmq i k <> 0%Z \/ xnq i k <> 0%Z) ->
  valid o' (cut n nq i) ->
  exists r e r' e', run_ok o r e /\ run_ok o' r' e' /\ same_outputs (asym i) r r'.
Proof.
  intros V Hd Hn Hnq HZ H00 V'. pose proof V as (Hok & _). pose proof V' as (Hok' & _).
  destruct (run_total o i V) as (r & E & _ & _ & _ & Q & _).
  destruct (run_total o' _ V') as (r' & E' & _ & _ & _ & Q' & _).
  exists r, (run_events RS i), r', (run_events RS (cut n nq i)). splits; auto.
  set (i' := cut n nq i) in *.
  assert (Hd' : nfp_divides i').
  { destruct Hd as (D1 & D2). split; intros k Hk; cbn in Hk |- *; [apply D1|apply D2]; lia. }
  assert (EIG : forall js, bI i' js = bI i js /\ bG i' js = bG i js).
  { intros js. unfold bI, bG. split; symmetry; apply accum_cut; try (cbn; lia);
      intros k x Hk; cbn in Hk; specialize (H00 k Hk);
      assert (Z0 : is00 i k = false) by (unfold is00; destruct (Z.eqb_spec (xmq i k) 0), (Z.eqb_spec (xnq i k) 0); cbn; auto; destruct H00; contradiction);
      unfold is00 in *; cbn; now rewrite Z0. }
  assert (SC : forall n m ms ns c d t z, (0 <= n <= m)%Z -> (forall k, (n <= k < m)%Z -> c k = 0 /\ d k = 0) ->
     series n ms ns c d t z = series m ms ns c d t z).
  { intros u m ms ns c d t z Hum H. unfold series. symmetry. apply rsum_cut; auto.
    intros k Hk. destruct (H k Hk) as (-> & ->). lra. }
  assert (A1 : forall js, (0 <= js < nsin i)%Z -> forall t z, mL i' js t z = mL i js t z).
  { intros js Hj t z. apply (SC n (mnmax i)); auto. intros k Hk. destruct (proj1 (HZ js Hj) k Hk) as (_ & _ & X & Y).
    split; auto. cbn. unfold onA. destruct (asym i); auto. apply Y. auto. }
  assert (A2 : forall js, (0 <= js < nsin i)%Z -> forall t z, mR i' js t z = mR i js t z).
  { intros js Hj t z. apply (SC n (mnmax i)); auto. intros k Hk. destruct (proj1 (HZ js Hj) k Hk) as (X & _ & _ & Y).
    split; auto. cbn. unfold onA. destruct (asym i); auto. apply Y. auto. }
  assert (A3 : forall js, (0 <= js < nsin i)%Z -> forall t z, mZ i' js t z = mZ i js t z).
  { intros js Hj t z. apply (SC n (mnmax i)); auto. intros k Hk. destruct (proj1 (HZ js Hj) k Hk) as (_ & X & _ & Y).
    split; auto. cbn. unfold onA. destruct (asym i); auto. apply Y. auto. }
  assert (A4 : forall js, (0 <= js < nsin i)%Z -> forall t z, mB i' js t z = mB i js t z).
  { intros js Hj t z. apply (SC nq (mnmaxq i)); [lia|]. intros k Hk. destruct (proj2 (HZ js Hj) k Hk) as (X & _ & _ & Y).
    split; auto. cbn. unfold onA. destruct (asym i); auto. apply Y. auto. }
  assert (A5 : forall js, (0 <= js < nsin i)%Z -> forall t z, mW i' js t z = mW i js t z).
  { intros js Hj t z. apply (SC nq (mnmaxq i)); [lia|]. intros k Hk. destruct (proj2 (HZ js Hj) k Hk) as (_ & X1 & X2 & Y).
    unfold onA, w_cos, w_sin, i'. cbn [cut asym xmq xnq bsubumnc bsubvmnc bsubumns bsubvmns]. rewrite X1, X2. split.
    - destruct (asym i); auto. destruct (Y eq_refl) as (_ & -> & ->). rewrite div0, ndiv0.
      destruct (Z.eqb (xmq i k) 0), (Z.eqb (xnq i k) 0); auto.
    - rewrite div0, ndiv0. destruct (Z.eqb (xmq i k) 0), (Z.eqb (xnq i k) 0); auto. }
  assert (A6 : forall js, (0 <= js < nsin i)%Z -> forall t z,
    mNu i' js (bI i' js) (bG i' js) t z = mNu i js (bI i js) (bG i js) t z).
  { intros js Hj t z. unfold mNu. rewrite A1, A5, (proj1 (EIG js)), (proj2 (EIG js)) by auto. reflexivity. }
  apply results_same; auto. apply (results_conv r' i i'); auto.
  intros b f k Hb Hk Hf. set (js := surf i b). pose proof (ok_surf _ _ Hok b Hb) as Hj. fold js in Hj.
  destruct (angles_same i i' js js (bI i js) (bG i js) (bI i' js) (bG i' js) eq_refl (A1 js Hj) (A6 js Hj)) as (Et & Ez).
  rewrite (coef_transfer i i' js js f k 1); auto; [apply Rmult_1_l|].
  intros a c _ _. rewrite Rmult_1_l. destruct f; cbn [out_Q]; auto;
    unfold mSqrtg; rewrite A4, (proj1 (EIG js)), (proj2 (EIG js)) by auto; reflexivity.
Qed.
