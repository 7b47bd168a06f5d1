(** Moving the origin of the angles, reversing them, and the constant in lambda, in real
    arithmetic. *)
From Coq Require Import ZArith QArith List String Bool Lia Reals Lra Psatz.
From Verif Require Import Scalar Prog Model Wp Func Step TrigProof InitProof SurfProof RunProof Par FuncExt Spec RunThms
  RSum RSpec RPoint RQuad RThms RThms2.
Import ListNotations.
Local Open Scope Z_scope.
Local Open Scope R_scope.

(** ** Sums over a period *)
Lemma rsum_cyc_nat n (g : Z -> R) : (0 <= n)%Z -> (forall k, g (k + n)%Z = g k) ->
  forall a, (0 <= a)%Z -> rsum n (fun k => g (k + a)%Z) = rsum n g.
Proof.
  intros Hn P a Ha. revert a Ha. apply natlike_ind.
  - apply rsum_ext. intros. f_equal. lia.
  - intros a Ha IH. rewrite <- IH. rewrite <- (rsum_shift1 n (fun k => g (k + a)%Z)); auto.
    + apply rsum_ext. intros. f_equal. lia.
    + cbv beta. rewrite (Z.add_comm n), P. reflexivity.
Qed.
Lemma rsum_cyc n (g : Z -> R) a : (0 <= n)%Z -> (forall k, g (k + n)%Z = g k) -> rsum n (fun k => g (k + a)%Z) = rsum n g.
Proof.
  intros Hn P. destruct (Z.le_gt_cases 0 a) as [Ha|Ha]; [now apply rsum_cyc_nat|].
  rewrite <- (rsum_cyc_nat n (fun k => g (k + a)%Z) Hn) with (a := (- a)%Z); [| |lia].
  - apply rsum_ext. intros. f_equal. lia.
  - intros k. rewrite <- (P (k + a)%Z). f_equal. lia.
Qed.
Definition pm1 (s : Z) : Prop := s = 1%Z \/ s = (-1)%Z.
Lemma rsum_aff n (g : Z -> R) s a : pm1 s -> (0 <= n)%Z -> (forall k, g (k + n)%Z = g k) ->
  rsum n (fun k => g (s * k + a)%Z) = rsum n g.
Proof.
  intros [-> | ->] Hn P.
  - rewrite <- (rsum_cyc n g a Hn P). apply rsum_ext. intros. f_equal. lia.
  - rewrite (rsum_rev n g Hn).
    assert (P' : forall k, g (n - 1 - (k + n))%Z = g (n - 1 - k)%Z).
    { intros k. rewrite <- (P (n - 1 - (k + n))%Z). f_equal. lia. }
    rewrite <- (rsum_cyc n (fun k => g (n - 1 - k)%Z) (n - 1 - a) Hn P').
    apply rsum_ext. intros. f_equal. lia.
Qed.

(** ** The quadrature after the change of variables t, z -> s1 t + dt, s2 z + dz *)
Lemma deriv_aff (f : R -> R) s d e c t l : pm1 s -> derivable_pt_lim f (IZR s * t + d) l ->
  derivable_pt_lim (fun x => c * f (IZR s * x + d) + e) t (c * (IZR s * l)).
Proof.
  intros Hs H.
  assert (D1 : derivable_pt_lim (fun x => IZR s * x + d) t (IZR s * 1 + 0)).
  { apply (derivable_pt_lim_plus (fun x => IZR s * x) (fun _ => d)).
    - apply (derivable_pt_lim_scal id). apply derivable_pt_lim_id.
    - apply derivable_pt_lim_const. }
  pose proof (derivable_pt_lim_comp _ _ _ _ _ D1 H) as D2. unfold comp in D2.
  replace (c * (IZR s * l)) with (c * (l * (IZR s * 1 + 0)) + 0) by lra.
  apply (derivable_pt_lim_plus (fun x => c * f (IZR s * x + d)) (fun _ => e)).
  - apply (derivable_pt_lim_scal (fun x => f (IZR s * x + d))). exact D2.
  - apply derivable_pt_lim_const.
Qed.

Section Move.
Variables (i i' : Inp RS) (js js' : Z).
Hypothesis Hok : ok_inp i.
Hypothesis Hdiv : nfp_divides i.
Notation I := (bI i js).
Notation G := (bG i js).
Notation I' := (bI i' js').
Notation G' := (bG i' js').
Hypothesis Enf : nfp i' = nfp i.
Hypothesis Emb : mboz i' = mboz i.
Hypothesis Enb : nboz i' = nboz i.
Variables (s1 s2 a0 b0 : Z) (eT eZ : R).
Hypothesis Hs1 : pm1 s1.
Hypothesis Hs2 : pm1 s2.
Notation pt := (fun t : R => IZR s1 * t + gth i a0).
Notation pz := (fun z : R => IZR s2 * z + gze i b0).
Hypothesis Eth : forall t z, mTh i' js' I' G' t z = IZR s1 * mTh i js I G (pt t) (pz z) + eT.
Hypothesis Eze : forall t z, mZe i' js' I' G' t z = IZR s2 * mZe i js I G (pt t) (pz z) + eZ.

Lemma sq1 : IZR s1 * IZR s1 = 1. Proof. destruct Hs1; subst; lra. Qed.
Lemma sq2 : IZR s2 * IZR s2 = 1. Proof. destruct Hs2; subst; lra. Qed.

Lemma jac_move t z : mJ i' js' t z = mJ i js (pt t) (pz z).
Proof.
  pose proof (mJ_jacobian i js) as HJ. pose proof (mJ_jacobian i' js') as HJ'.
  destruct (HJ (pt t) (pz z)) as (a & b & c & d & A & B & C & D & E). cbv beta in *. rewrite E. clear E HJ.
  destruct (HJ' t z) as (a' & b' & c' & d' & A' & B' & C' & D' & ->). clear HJ'.
  pose proof (deriv_aff (fun x => mTh i js I G x (pz z)) s1 _ eT (IZR s1) t a Hs1 A) as A2.
  pose proof (deriv_aff (fun x => mTh i js I G (pt t) x) s2 _ eT (IZR s1) z b Hs2 B) as B2.
  pose proof (deriv_aff (fun x => mZe i js I G x (pz z)) s1 _ eZ (IZR s2) t c Hs1 C) as C2.
  pose proof (deriv_aff (fun x => mZe i js I G (pt t) x) s2 _ eZ (IZR s2) z d Hs2 D) as D2.
  cbv beta in *.
  rewrite (uniqueness_limite _ _ _ _ (derivable_ext _ _ _ _ (fun x => Eth x z) A') A2).
  rewrite (uniqueness_limite _ _ _ _ (derivable_ext _ _ _ _ (fun x => Eth t x) B') B2).
  rewrite (uniqueness_limite _ _ _ _ (derivable_ext _ _ _ _ (fun x => Eze x z) C') C2).
  rewrite (uniqueness_limite _ _ _ _ (derivable_ext _ _ _ _ (fun x => Eze t x) D') D2).
  pose proof sq1 as Q1. pose proof sq2 as Q2.
  replace (IZR s1 * (IZR s1 * a) * (IZR s2 * (IZR s2 * d)) - IZR s1 * (IZR s2 * b) * (IZR s2 * (IZR s1 * c)))
    with ((IZR s1 * IZR s1) * (IZR s2 * IZR s2) * (a * d - b * c)) by ring.
  rewrite Q1, Q2. ring.
Qed.

Lemma gth_aff a : IZR s1 * gth i a + gth i a0 = gth i (s1 * a + a0)%Z.
Proof. unfold gth. rewrite plus_IZR, mult_IZR. unfold Rdiv. ring. Qed.
Lemma gze_aff a : IZR s2 * gze i a + gze i b0 = gze i (s2 * a + b0)%Z.
Proof. unfold gze. rewrite plus_IZR, mult_IZR. unfold Rdiv. ring. Qed.

Lemma sum_move h : periodic (nfp i) h ->
  rsum (nt i) (fun a => rsum (nz i) (fun b => h (pt (gth i a)) (pz (gze i b)))) =
  rsum (nt i) (fun a => rsum (nz i) (fun b => h (gth i a) (gze i b))).
Proof.
  intros P. pose proof (nt_pos i Hok). pose proof (nz_pos i Hok).
  assert (Ht : IZR (nt i) <> 0) by (apply not_0_IZR; lia).
  assert (Hz : IZR (nz i) <> 0) by (apply not_0_IZR; lia).
  assert (Hn : IZR (nfp i) <> 0) by (apply not_0_IZR; pose proof (ok_nfp _ _ Hok); lia).
  rewrite (rsum_ext (nt i) _ (fun a => rsum (nz i) (fun b => h (gth i (s1 * a + a0)) (gze i b)))).
  2:{ intros a Ha. rewrite <- (rsum_aff (nz i) (fun b => h (gth i (s1 * a + a0)) (gze i b)) s2 b0); auto; [|lia|].
      - apply rsum_ext. intros b Hb. cbv beta. now rewrite gth_aff, gze_aff.
      - intros k. rewrite <- (proj2 (P _ (gze i k))). f_equal. unfold gze. rewrite plus_IZR. field. auto. }
  rewrite (rsum_aff (nt i) (fun a => rsum (nz i) (fun b => h (gth i a) (gze i b))) s1 a0); auto; [lia|].
  intros k. apply rsum_ext. intros b Hb. rewrite <- (proj1 (P (gth i k) _)). f_equal. unfold gth. rewrite plus_IZR. field. auto.
Qed.

Lemma phase_move m n t z : phase m n (mTh i' js' I' G' t z) (mZe i' js' I' G' t z) =
  phase (s1 * m) (s2 * n) (mTh i js I G (pt t) (pz z)) (mZe i js I G (pt t) (pz z)) + phase m n eT eZ.
Proof. unfold phase. rewrite Eth, Eze, !mult_IZR. ring. Qed.

Lemma zero_sgn s m : pm1 s -> Z.eqb (s * m) 0 = Z.eqb m 0.
Proof. intros [-> | ->]; destruct (Z.eqb_spec m 0); subst; auto; apply Z.eqb_neq; lia. Qed.

(** Q' is [sg] times Q at the moved point *)
Lemma quad_move Q Q' (sg : R) m q : periodic (nfp i) Q ->
  (forall t z, Q' t z = sg * Q (pt t) (pz z)) ->
  let n := (q * nfp i)%Z in
  let p := phase m n eT eZ in
  let old tr := quad i js I G (mJ i js) Q tr (s1 * m) (s2 * n) in
  quad i' js' I' G' (mJ i' js') Q' cos m n = sg * (old cos * cos p - old sin * sin p) /\
  quad i' js' I' G' (mJ i' js') Q' sin m n = sg * (old sin * cos p + old cos * sin p).
Proof.
  intros PQ HQ n p old.
  assert (En : (s2 * n = (s2 * q) * nfp i)%Z) by (unfold n; lia).
  pose (h tr := fun t z => Q t z * tr (phase (s1 * m) (s2 * n) (mTh i js I G t z) (mZe i js I G t z)) * mJ i js t z).
  assert (Ph : forall tr, (forall x k, tr (x + IZR k * (2 * PI)) = tr x) -> periodic (nfp i) (h tr)).
  { intros tr Htr. unfold h. rewrite En. apply per_int; auto. }
  pose proof (Ph cos cos_2PI_shift) as Pc. pose proof (Ph sin sin_2PI_shift) as Ps.
  assert (Old : forall tr, old tr = (if (Z.eqb m 0 && Z.eqb n 0)%bool then 1 else 2) / (IZR (nt i) * IZR (nz i)) *
      rsum (nt i) (fun a => rsum (nz i) (fun b => h tr (gth i a) (gze i b)))).
  { intros tr. unfold old, quad. now rewrite (zero_sgn s1 m Hs1), (zero_sgn s2 n Hs2). }
  assert (Snt : nt i' = nt i) by (unfold nt; now rewrite Emb).
  assert (Snz : nz i' = nz i) by (unfold nz; now rewrite Enb).
  assert (Sgt : forall a, gth i' a = gth i a) by (intros; unfold gth; now rewrite Snt).
  assert (Sgz : forall a, gze i' a = gze i a) by (intros; unfold gze; now rewrite Snz, Enf).
  assert (New : forall tr u v, (forall x, tr (x + p) = u * cos x + v * sin x) ->
    quad i' js' I' G' (mJ i' js') Q' tr m n = sg * (u * old cos + v * old sin)).
  { intros tr u v Htr. rewrite !Old, <- (sum_move _ Pc), <- (sum_move _ Ps).
    unfold quad. rewrite Snt, Snz.
    set (pf := (if (Z.eqb m 0 && Z.eqb n 0)%bool then 1 else 2) / (IZR (nt i) * IZR (nz i))).
    match goal with |- _ * ?X = sg * (u * (pf * ?Y) + v * (pf * ?Z)) =>
      assert (E : X = sg * (u * Y + v * Z)) end; [|rewrite E; ring].
    rewrite <- (rsum_scal _ u), <- (rsum_scal _ v), <- rsum_add, <- rsum_scal. apply rsum_ext. intros a Ha.
    rewrite <- (rsum_scal _ u), <- (rsum_scal _ v), <- rsum_add, <- rsum_scal. apply rsum_ext. intros b Hb.
    cbv zeta. rewrite Sgt, Sgz, HQ, phase_move, jac_move. fold p. rewrite Htr. unfold h. ring. }
  split.
  - rewrite (New cos (cos p) (- sin p)); [ring|]. intros x. rewrite cos_plus. ring.
  - rewrite (New sin (sin p) (cos p)); [ring|]. intros x. rewrite sin_plus. ring.
Qed.
End Move.

(** ** The outputs, as pairs of a cosine and a sine coefficient *)
Definition pairs : list (afield * afield) :=
  [(A_bmnc_b, A_bmns_b); (A_rmnc_b, A_rmns_b); (A_zmnc_b, A_zmns_b); (A_numnc_b, A_numns_b); (A_gmnc_b, A_gmns_b)].
Lemma pairs_ok i js c s : In (c, s) pairs ->
  out_Q i js c = out_Q i js s /\ out_trig c = cos /\ out_trig s = sin /\ In c (outs true) /\ In s (outs true).
Proof.
  cbn [pairs In]. intros H.
  repeat (destruct H as [E|H]; [injection E as <- <-; repeat split; cbn; tauto|]). contradiction.
Qed.
Lemma sym_trig f : In f sym_outs -> out_trig f = cos \/ out_trig f = sin.
Proof. cbn. intros H. repeat (destruct H as [<-|H]; [cbn; auto|]). contradiction. Qed.

(** Coefficients of two inputs whose angles and quantities differ by a move of the origin *)
Section MoveCoef.
Variables (i i' : Inp RS) (js : Z).
Hypothesis Hok : ok_inp i.
Hypothesis Hok' : ok_inp i'.
Hypothesis Hdiv : nfp_divides i.
Hypothesis Hdiv' : nfp_divides i'.
Hypothesis Ea : asym i' = asym i.
Hypothesis Enf : nfp i' = nfp i.
Hypothesis Emb : mboz i' = mboz i.
Hypothesis Enb : nboz i' = nboz i.
Variables (a0 b0 : Z) (eT eZ : R).
Notation pt := (fun t : R => IZR 1 * t + gth i a0).
Notation pz := (fun z : R => IZR 1 * z + gze i b0).
Hypothesis Eth : forall t z, mTh i' js (bI i' js) (bG i' js) t z = IZR 1 * mTh i js (bI i js) (bG i js) (pt t) (pz z) + eT.
Hypothesis Eze : forall t z, mZe i' js (bI i' js) (bG i' js) t z = IZR 1 * mZe i js (bI i js) (bG i js) (pt t) (pz z) + eZ.

Lemma move_quad f k : (forall t z, out_Q i' js f t z = out_Q i js f (pt t) (pz z)) ->
  let p := phase (xm_b i k) (xn_b i k) eT eZ in
  let new tr := quad i' js (bI i' js) (bG i' js) (mJ i' js) (out_Q i' js f) tr (xm_b i k) (xn_b i k) in
  let old tr := quad i js (bI i js) (bG i js) (mJ i js) (out_Q i js f) tr (xm_b i k) (xn_b i k) in
  new cos = old cos * cos p - old sin * sin p /\ new sin = old sin * cos p + old cos * sin p.
Proof.
  intros HQ p new old.
  pose proof (quad_move i i' js js Hok Hdiv Enf Emb Enb 1 1 a0 b0 eT eZ (or_introl eq_refl) (or_introl eq_refl) Eth Eze
    (out_Q i js f) (out_Q i' js f) 1 (xm_b i k) (mode_n i k) (out_per i Hok Hdiv js f)) as M.
  assert (HQ1 : forall t z, out_Q i' js f t z = 1 * out_Q i js f (pt t) (pz z)) by (intros; rewrite HQ; lra).
  specialize (M HQ1). cbv zeta in M.
  change (mode_n i k * nfp i)%Z with (xn_b i k) in M.
  rewrite !Z.mul_1_l, !Rmult_1_l in M. exact M.
Qed.

Lemma move_pair c s k : asym i = true -> In (c, s) pairs -> (0 <= k < mnboz i)%Z ->
  (forall t z, out_Q i' js c t z = out_Q i js c (pt t) (pz z)) ->
  let p := phase (xm_b i k) (xn_b i k) eT eZ in
  o_coef i' js c k = o_coef i js c k * cos p - o_coef i js s k * sin p /\
  o_coef i' js s k = o_coef i js s k * cos p + o_coef i js c k * sin p.
Proof.
  intros At Hin Hk HQ p. destruct (pairs_ok i js c s Hin) as (E1 & Tc & Ts & Oc & Os).
  destruct (pairs_ok i' js c s Hin) as (E1' & _).
  rewrite !o_coef_quad by (rewrite ?Ea, ?At, ?(mnboz_same i i'); auto).
  rewrite (xm_b_same i i'), (xn_b_same i i'), Tc, Ts, <- E1, <- E1' by auto.
  exact (move_quad c k HQ).
Qed.

Lemma move_sym f k : asym i = false -> In f sym_outs -> (0 <= k < mnboz i)%Z ->
  (forall t z, out_Q i' js f t z = out_Q i js f (pt t) (pz z)) ->
  let p := phase (xm_b i k) (xn_b i k) eT eZ in
  sin p = 0 -> o_coef i' js f k = o_coef i js f k * cos p.
Proof.
  intros Af Hin Hk HQ p Hp.
  assert (Hin2 : In f (outs (asym i))) by now rewrite Af.
  rewrite !o_coef_quad by (rewrite ?Ea, ?(mnboz_same i i'); auto).
  rewrite (xm_b_same i i'), (xn_b_same i i') by auto.
  pose proof (move_quad f k HQ) as M. cbv zeta in M. fold p in M. rewrite Hp in M.
  destruct (sym_trig f Hin) as [-> | ->]; [rewrite (proj1 M)|rewrite (proj2 M)]; rewrite Rmult_0_r, ?Rminus_0_r, ?Rplus_0_r; reflexivity.
Qed.
End MoveCoef.

(** ** C64: another origin of the angles *)
(** The same surfaces described with theta - dt and zeta - dz as the angles, where dt and dz
    are a and b steps of the grid: each pair of a cosine and a sine coefficient turns by the
    phase m dt - n dz. *)
Definition turn_c (asy : bool) (p : Z -> R) (c s : Z -> Z -> R) (k j : Z) : R :=
  c k j * cos (p k) + (if asy then s k j * sin (p k) else 0).
Definition turn_s (asy : bool) (p : Z -> R) (c s : Z -> Z -> R) (k j : Z) : R :=
  s k j * cos (p k) - (if asy then c k j * sin (p k) else 0).
Definition moved (a b : Z) (i : Inp RS) : Inp RS :=
  let p k := phase (xm i k) (xn i k) (gth i a) (gze i b) in
  let q k := phase (xmq i k) (xnq i k) (gth i a) (gze i b) in
  mkInp RS (asym i) (nfp i) (mpol i) (ntor i) (mnmax i) (mpolq i) (ntorq i) (mnmaxq i) (nsin i) (mboz i) (nboz i) (verb i)
    (xm i) (xn i) (xmq i) (xnq i) (nsurf i) (surf i) (sin_ i) (iota i)
    (turn_c (asym i) p (rmnc i) (rmns i)) (turn_s (asym i) p (zmnc i) (zmns i)) (turn_s (asym i) p (lmnc i) (lmns i))
    (turn_c (asym i) q (bmnc i) (bmns i)) (turn_c (asym i) q (bsubumnc i) (bsubumns i)) (turn_c (asym i) q (bsubvmnc i) (bsubvmns i))
    (turn_s (asym i) p (rmnc i) (rmns i)) (turn_c (asym i) p (zmnc i) (zmns i)) (turn_c (asym i) p (lmnc i) (lmns i))
    (turn_s (asym i) q (bmnc i) (bmns i)) (turn_s (asym i) q (bsubumnc i) (bsubumns i)) (turn_s (asym i) q (bsubvmnc i) (bsubvmns i)).

Lemma phase_add m n t z dt dz : phase m n (IZR 1 * t + dt) (IZR 1 * z + dz) = phase m n t z + phase m n dt dz.
Proof. unfold phase. ring. Qed.
Lemma series_turn n ms ns c s c' s' dt dz t z :
  (forall k, (0 <= k < n)%Z -> let p := phase (ms k) (ns k) dt dz in
     c' k = c k * cos p + s k * sin p /\ s' k = s k * cos p - c k * sin p) ->
  series n ms ns c' s' t z = series n ms ns c s (IZR 1 * t + dt) (IZR 1 * z + dz).
Proof.
  intros H. unfold series. apply rsum_ext. intros k Hk. destruct (H k Hk) as (-> & ->).
  rewrite phase_add, cos_plus, sin_plus. ring.
Qed.

Lemma half_turn (i : Inp RS) m n a b : ok_inp i -> (nfp i | n)%Z -> (nt i | 2 * a)%Z -> (nz i | 2 * b)%Z ->
  sin (phase m n (gth i a) (gze i b)) = 0.
Proof.
  intros Hok (q & ->) (u & Hu) (v & Hv). pose proof (nt_pos i Hok). pose proof (nz_pos i Hok). pose proof (ok_nfp _ _ Hok).
  assert (Ht : IZR (nt i) <> 0) by (apply not_0_IZR; lia).
  assert (Hz : IZR (nz i) <> 0) by (apply not_0_IZR; lia).
  assert (Hn : IZR (nfp i) <> 0) by (apply not_0_IZR; lia).
  apply (f_equal IZR) in Hu. apply (f_equal IZR) in Hv. rewrite !mult_IZR in Hu, Hv.
  replace (phase m (q * nfp i) (gth i a) (gze i b)) with (IZR (m * u - q * v) * PI); [apply sin_IZR_PI|].
  unfold phase, gth, gze. rewrite minus_IZR, !mult_IZR.
  replace (2 * PI * IZR a) with (PI * (IZR u * IZR (nt i))) by (rewrite <- Hu; ring).
  replace (2 * PI * IZR b) with (PI * (IZR v * IZR (nz i))) by (rewrite <- Hv; ring).
  field. auto.
Qed.

Section Moved.
Variables (i : Inp RS) (a b js : Z).
Hypothesis Hok : ok_inp i.
Hypothesis Hd : nfp_divides i.
Hypothesis Hc : asym i = true \/ (nt i | 2 * a)%Z /\ (nz i | 2 * b)%Z.
Notation i' := (moved a b i).
Notation pt := (fun t : R => IZR 1 * t + gth i a).
Notation pz := (fun z : R => IZR 1 * z + gze i b).

Lemma no_sin m n : (nfp i | n)%Z -> asym i = false -> sin (phase m n (gth i a) (gze i b)) = 0.
Proof. intros Hn Ea. destruct Hc as [X|(X & Y)]; [congruence|]. now apply half_turn. Qed.
Ltac one := let t := fresh "t" in let z := fresh "z" in let k := fresh "k" in let Hk := fresh "Hk" in let Hx := fresh "Hx" in
  intros t z; apply series_turn; intros k Hk; cbv zeta; unfold onA;
  cbn [moved asym rmnc rmns zmnc zmns lmnc lmns bmnc bmns xm xn xmq xnq mnmax mnmaxq] in Hk |- *; unfold turn_c, turn_s;
  first [pose proof (no_sin (xm i k) (xn i k) (proj1 Hd k Hk)) as Hx | pose proof (no_sin (xmq i k) (xnq i k) (proj2 Hd k Hk)) as Hx];
  destruct (asym i); try rewrite (Hx eq_refl); split; ring.
Lemma moved_R : forall t z, mR i' js t z = mR i js (pt t) (pz z). Proof. one. Qed.
Lemma moved_Z : forall t z, mZ i' js t z = mZ i js (pt t) (pz z). Proof. one. Qed.
Lemma moved_L : forall t z, mL i' js t z = mL i js (pt t) (pz z). Proof. one. Qed.
Lemma moved_B : forall t z, mB i' js t z = mB i js (pt t) (pz z). Proof. one. Qed.
Lemma moved_W : forall t z, mW i' js t z = mW i js (pt t) (pz z).
Proof.
  intros t z. apply series_turn. intros k Hk. cbv zeta. unfold onA, w_cos, w_sin.
  cbn [moved asym xmq xnq bsubumnc bsubvmnc bsubumns bsubvmns mnmaxq] in *. unfold turn_c, turn_s.
  assert (Hx : asym i = false -> sin (phase (xmq i k) (xnq i k) (gth i a) (gze i b)) = 0) by (apply no_sin, Hd, Hk).
  destruct (Z.eqb_spec (xmq i k) 0) as [E1|E1], (Z.eqb_spec (xnq i k) 0) as [E2|E2], (asym i); cbv iota;
    try rewrite (Hx eq_refl); split; unfold Rdiv; ring.
Qed.
Lemma accum_pick_ext n (p : Z -> bool) (g h : Z -> R) : (forall k, p k = true -> g k = h k) ->
  accum n (fun k acc => if p k then g k else acc) 0 = accum n (fun k acc => if p k then h k else acc) 0.
Proof.
  intros H. unfold accum. induction (Z.to_nat n) as [|m IH]; cbn [nat_rect]; [reflexivity|]. rewrite IH.
  destruct (p (Z.of_nat m)) eqn:E; [apply H, E|reflexivity].
Qed.
Lemma is00_phase k t z : is00 i k = true -> phase (xmq i k) (xnq i k) t z = 0.
Proof.
  unfold is00. intros H. apply andb_prop in H. destruct H as (H1 & H2). apply Z.eqb_eq in H1, H2.
  unfold phase. rewrite H1, H2. ring.
Qed.
Lemma moved_I : bI i' js = bI i js.
Proof.
  apply (accum_pick_ext (mnmaxq i) (is00 i)). intros k E. cbn [moved bsubumnc]. unfold turn_c.
  rewrite (is00_phase k _ _ E), cos_0, sin_0. destruct (asym i); ring.
Qed.
Lemma moved_G : bG i' js = bG i js.
Proof.
  apply (accum_pick_ext (mnmaxq i) (is00 i)). intros k E. cbn [moved bsubvmnc]. unfold turn_c.
  rewrite (is00_phase k _ _ E), cos_0, sin_0. destruct (asym i); ring.
Qed.
Lemma moved_Nu t z : mNu i' js (bI i' js) (bG i' js) t z = mNu i js (bI i js) (bG i js) (pt t) (pz z).
Proof. unfold mNu. now rewrite moved_W, moved_L, moved_I, moved_G. Qed.
Lemma moved_Th t z : mTh i' js (bI i' js) (bG i' js) t z = IZR 1 * mTh i js (bI i js) (bG i js) (pt t) (pz z) + - gth i a.
Proof. unfold mTh. rewrite moved_L, moved_Nu. change (io i' js) with (io i js). ring. Qed.
Lemma moved_Ze t z : mZe i' js (bI i' js) (bG i' js) t z = IZR 1 * mZe i js (bI i js) (bG i js) (pt t) (pz z) + - gze i b.
Proof. unfold mZe. rewrite moved_Nu. ring. Qed.
Lemma moved_Q f t z : out_Q i' js f t z = out_Q i js f (pt t) (pz z).
Proof.
  destruct f; cbn [out_Q]; auto using moved_R, moved_Z, moved_B, moved_Nu;
    unfold mSqrtg; rewrite moved_I, moved_G, moved_B; reflexivity.
Qed.
End Moved.

Ltac splits := repeat match goal with |- _ /\ _ => split end.

Theorem origin_of_angles (o o' : obj RS) i a b : valid o i -> nfp_divides i ->
  asym i = true \/ (nt i | 2 * a)%Z /\ (nz i | 2 * b)%Z -> valid o' (moved a b i) ->
  exists r e r' e', run_ok o r e /\ run_ok o' r' e' /\
  forall j, (0 <= j < nsurf i)%Z ->
    elem r' A_Boozer_I j = elem r A_Boozer_I j /\ elem r A_Boozer_I j <> None /\
    elem r' A_Boozer_G j = elem r A_Boozer_G j /\ elem r A_Boozer_G j <> None /\
    forall k m n, elemN r N_xm_b k = Some (Some m) -> elemN r N_xn_b k = Some (Some n) ->
      let p := phase m n (gth i a) (gze i b) in
      (asym i = true -> forall c s, In (c, s) pairs -> exists x y,
         elem2 r c k j = Some (Some x) /\ elem2 r s k j = Some (Some y) /\
         elem2 r' c k j = Some (Some (x * cos p + y * sin p)) /\ elem2 r' s k j = Some (Some (y * cos p - x * sin p))) /\
      (asym i = false -> forall f, In f sym_outs -> exists x,
         elem2 r f k j = Some (Some x) /\ elem2 r' f k j = Some (Some (x * cos p))).
Proof.
  intros V Hd Hc V'. pose proof V as (Hok & _). pose proof V' as (Hok' & _).
  destruct (run_total o i V) as (r & E & _ & _ & _ & Q & _).
  destruct (run_total o' _ V') as (r' & E' & _ & _ & _ & Q' & _).
  exists r, (run_events RS i), r', (run_events RS (moved a b i)). splits; auto. intros j Hj.
  set (i' := moved a b i) in *. set (js := surf i j).
  assert (Hd' : nfp_divides i') by exact Hd.
  rewrite (elem_vec _ _ _ _ _ (q_I _ _ _ Q) Hj), (elem_vec _ _ _ _ _ (q_I _ _ _ Q') Hj).
  rewrite (elem_vec _ _ _ _ _ (q_G _ _ _ Q) Hj), (elem_vec _ _ _ _ _ (q_G _ _ _ Q') Hj).
  change (surf i' j) with js. fold js.
  splits; try discriminate.
  - do 2 f_equal. apply moved_I; assumption.
  - do 2 f_equal. apply moved_G; assumption.
  - intros k m n Hm Hn. destruct (mode_elem r i k m Q Hm) as (Hk & ->).
    rewrite (elemN_vec _ _ _ _ _ (q_xn_b _ _ _ Q) Hk) in Hn. injection Hn as <-.
    assert (El : forall f, In f (outs (asym i)) -> elem2 r f k j = Some (Some (o_coef i js f k))).
    { intros f Hf. apply (elem2_mat _ _ _ _ _ _ _ (q_out _ _ _ Q f Hf) Hk Hj). }
    assert (El' : forall f, In f (outs (asym i)) -> elem2 r' f k j = Some (Some (o_coef i' js f k))).
    { intros f Hf. apply (elem2_mat _ _ _ _ _ _ _ (q_out _ _ _ Q' f Hf) Hk Hj). }
    assert (Ep : phase (xm_b i k) (xn_b i k) (- gth i a) (- gze i b) = - phase (xm_b i k) (xn_b i k) (gth i a) (gze i b)) by apply phase_neg.
    cbv zeta. split.
    + intros At c s Hcs. destruct (pairs_ok i js c s Hcs) as (_ & _ & _ & Oc & Os).
      rewrite !El, !El' by (rewrite At; auto). eexists. eexists. splits; try reflexivity.
      * destruct (move_pair i i' js Hok Hok' Hd Hd' eq_refl eq_refl eq_refl eq_refl a b _ _
          (moved_Th i a b js Hok Hd Hc) (moved_Ze i a b js Hok Hd Hc) c s k At Hcs Hk (moved_Q i a b js Hok Hd Hc c)) as (X & _).
        rewrite X, Ep, cos_neg, sin_neg. do 2 f_equal. ring.
      * destruct (move_pair i i' js Hok Hok' Hd Hd' eq_refl eq_refl eq_refl eq_refl a b _ _
          (moved_Th i a b js Hok Hd Hc) (moved_Ze i a b js Hok Hd Hc) c s k At Hcs Hk (moved_Q i a b js Hok Hd Hc c)) as (_ & X).
        rewrite X, Ep, cos_neg, sin_neg. do 2 f_equal. ring.
    + intros Af f Hf. rewrite El, El' by (rewrite Af; auto). eexists. split; [reflexivity|]. do 2 f_equal.
      rewrite (move_sym i i' js Hok Hok' Hd Hd' eq_refl eq_refl eq_refl eq_refl a b _ _
          (moved_Th i a b js Hok Hd Hc) (moved_Ze i a b js Hok Hd Hc) f k Af Hf Hk (moved_Q i a b js Hok Hd Hc f)).
      * rewrite Ep, cos_neg. reflexivity.
      * rewrite Ep, sin_neg, (no_sin i a b Hok Hc); [ring| |exact Af]. exists (mode_n i k). reflexivity.
Qed.

(** ** C65: the constant in lambda *)
Definition add_lambda (k0 : Z) (c : Z -> R) (i : Inp RS) : Inp RS :=
  mkInp RS (asym i) (nfp i) (mpol i) (ntor i) (mnmax i) (mpolq i) (ntorq i) (mnmaxq i) (nsin i) (mboz i) (nboz i) (verb i)
    (xm i) (xn i) (xmq i) (xnq i) (nsurf i) (surf i) (sin_ i) (iota i)
    (rmnc i) (zmns i) (lmns i) (bmnc i) (bsubumnc i) (bsubvmnc i)
    (rmns i) (zmnc i) (fun k j => if Z.eqb k k0 then lmnc i k j + c j else lmnc i k j) (bmns i) (bsubumns i) (bsubvmns i).

Section Lambda.
Variables (i : Inp RS) (k0 : Z) (c : Z -> R) (js : Z).
Hypothesis At : asym i = true.
Hypothesis Hk0 : (0 <= k0 < mnmax i)%Z.
Hypothesis H00 : xm i k0 = 0%Z /\ xn i k0 = 0%Z.
Notation i' := (add_lambda k0 c i).
Notation I := (bI i js).
Notation G := (bG i js).
Hypothesis Hne : G + iota i js * I <> 0.

Lemma lambda_L t z : mL i' js t z = mL i js t z + c js.
Proof.
  unfold mL, series. cbn [add_lambda mnmax xm xn asym lmnc lmns]. rewrite At. unfold onA.
  rewrite (rsum_ext _ _ (fun k => (lmnc i k js * cos (phase (xm i k) (xn i k) t z) + lmns i k js * sin (phase (xm i k) (xn i k) t z))
     + (if Z.eqb k k0 then c js else 0))).
  - rewrite rsum_add. f_equal. rewrite (rsum_single _ k0); auto; [now rewrite Z.eqb_refl|].
    intros k Hk Hn. apply Z.eqb_neq in Hn. now rewrite Hn.
  - intros k Hk. destruct (Z.eqb_spec k k0) as [->|Hn]; [|ring].
    assert (E : phase (xm i k0) (xn i k0) t z = 0) by (unfold phase; rewrite (proj1 H00), (proj2 H00); ring).
    rewrite E, cos_0, sin_0. ring.
Qed.
Definition dT : R := c js * G / (G + iota i js * I).
Definition dZ : R := - c js * I / (G + iota i js * I).
Notation pt := (fun t : R => IZR 1 * t + gth i 0).
Notation pz := (fun z : R => IZR 1 * z + gze i 0).
Lemma pt1 t : IZR 1 * t + gth i 0 = t. Proof. rewrite gth_0. ring. Qed.
Lemma pz1 z : IZR 1 * z + gze i 0 = z. Proof. rewrite gze_0. ring. Qed.
Lemma lambda_Nu t z : mNu i' js (bI i' js) (bG i' js) t z = mNu i js I G t z + dZ.
Proof.
  unfold mNu. rewrite lambda_L. change (mW i' js t z) with (mW i js t z). change (bI i' js) with I. change (bG i' js) with G.
  change (io i' js) with (io i js). unfold dZ. fold (io i js) in *. field. exact Hne.
Qed.
Lemma lambda_Th t z : mTh i' js (bI i' js) (bG i' js) t z = IZR 1 * mTh i js I G (pt t) (pz z) + dT.
Proof.
  cbv beta. rewrite pt1, pz1. unfold mTh. rewrite lambda_L, lambda_Nu. change (io i' js) with (io i js). unfold dT, dZ.
  fold (io i js) in *. field. exact Hne.
Qed.
Lemma lambda_Ze t z : mZe i' js (bI i' js) (bG i' js) t z = IZR 1 * mZe i js I G (pt t) (pz z) + dZ.
Proof. cbv beta. rewrite pt1, pz1. unfold mZe. rewrite lambda_Nu. ring. Qed.
End Lambda.

Theorem constant_in_lambda (o o' : obj RS) i k0 c : valid o i -> nfp_divides i -> asym i = true ->
  (0 <= k0 < mnmax i)%Z -> xm i k0 = 0%Z -> xn i k0 = 0%Z -> valid o' (add_lambda k0 c i) ->
  exists r e r' e', run_ok o r e /\ run_ok o' r' e' /\
  forall j, (0 <= j < nsurf i)%Z -> exists I G,
    elem r A_Boozer_I j = Some (Some I) /\ elem r' A_Boozer_I j = Some (Some I) /\
    elem r A_Boozer_G j = Some (Some G) /\ elem r' A_Boozer_G j = Some (Some G) /\
    (G + iota i (surf i j) * I <> 0 ->
     forall k m n, elemN r N_xm_b k = Some (Some m) -> elemN r N_xn_b k = Some (Some n) ->
      let d := c (surf i j) / (G + iota i (surf i j) * I) in
      let p := phase m n (d * G) (- d * I) in
      forall fc fs, In (fc, fs) [(A_bmnc_b, A_bmns_b); (A_rmnc_b, A_rmns_b); (A_zmnc_b, A_zmns_b); (A_gmnc_b, A_gmns_b)] ->
      exists x y,
         elem2 r fc k j = Some (Some x) /\ elem2 r fs k j = Some (Some y) /\
         elem2 r' fc k j = Some (Some (x * cos p - y * sin p)) /\ elem2 r' fs k j = Some (Some (y * cos p + x * sin p))).
Proof.
  intros V Hd At Hk0 H0 H0' V'. pose proof V as (Hok & _). pose proof V' as (Hok' & _).
  destruct (run_total o i V) as (r & E & _ & _ & _ & Q & _).
  destruct (run_total o' _ V') as (r' & E' & _ & _ & _ & Q' & _).
  exists r, (run_events RS i), r', (run_events RS (add_lambda k0 c i)). splits; auto. intros j Hj.
  set (i' := add_lambda k0 c i) in *. set (js := surf i j).
  assert (Hd' : nfp_divides i') by exact Hd.
  exists (bI i js), (bG i js).
  splits; [exact (elem_vec _ _ _ _ _ (q_I _ _ _ Q) Hj)|exact (elem_vec _ _ _ _ _ (q_I _ _ _ Q') Hj)
    |exact (elem_vec _ _ _ _ _ (q_G _ _ _ Q) Hj)|exact (elem_vec _ _ _ _ _ (q_G _ _ _ Q') Hj)|].
  intros Hne k m n Hm Hn. destruct (mode_elem r i k m Q Hm) as (Hk & ->).
  rewrite (elemN_vec _ _ _ _ _ (q_xn_b _ _ _ Q) Hk) in Hn. injection Hn as <-.
  cbv zeta. intros fc fs Hin.
  assert (Hp : In (fc, fs) pairs) by (cbn in Hin |- *; tauto).
  destruct (pairs_ok i js fc fs Hp) as (_ & _ & _ & Oc & Os). rewrite <- At in Oc, Os.
  assert (Ep : phase (xm_b i k) (xn_b i k) (c js / (bG i js + iota i js * bI i js) * bG i js) (- (c js / (bG i js + iota i js * bI i js)) * bI i js)
    = phase (xm_b i k) (xn_b i k) (dT i c js) (dZ i c js)).
  { unfold dT, dZ. f_equal; field; exact Hne. }
  rewrite Ep.
  rewrite (elem2_mat _ _ _ _ _ _ _ (q_out _ _ _ Q fc Oc) Hk Hj), (elem2_mat _ _ _ _ _ _ _ (q_out _ _ _ Q fs Os) Hk Hj).
  rewrite (elem2_mat _ _ _ _ _ _ _ (q_out _ _ _ Q' fc Oc) Hk Hj), (elem2_mat _ _ _ _ _ _ _ (q_out _ _ _ Q' fs Os) Hk Hj).
  eexists. eexists. do 2 (split; [reflexivity|]). change (surf i' j) with js.
  assert (HQ : forall t z, out_Q i' js fc t z = out_Q i js fc (IZR 1 * t + gth i 0) (IZR 1 * z + gze i 0)).
  { intros t z. rewrite pt1, pz1. cbn in Hin.
    destruct Hin as [X|[X|[X|[X|[]]]]]; injection X as <- <-; reflexivity. }
  destruct (move_pair i i' js Hok Hok' Hd Hd' eq_refl eq_refl eq_refl eq_refl 0 0 _ _
          (lambda_Th i k0 c js At Hk0 (conj H0 H0') Hne) (lambda_Ze i k0 c js At Hk0 (conj H0 H0') Hne) fc fs k At Hp Hk HQ) as (X & Y).
  fold js. split; do 2 f_equal; assumption.
Qed.

(** ** C66: both angles reversed *)
Definition reversed (i : Inp RS) : Inp RS :=
  mkInp RS (asym i) (nfp i) (mpol i) (ntor i) (mnmax i) (mpolq i) (ntorq i) (mnmaxq i) (nsin i) (mboz i) (nboz i) (verb i)
    (xm i) (xn i) (xmq i) (xnq i) (nsurf i) (surf i) (sin_ i) (iota i)
    (rmnc i) (zmns i) (lmns i) (bmnc i) (bsubumnc i) (bsubvmnc i)
    (fun k j => - rmns i k j) (fun k j => - zmnc i k j) (fun k j => - lmnc i k j)
    (fun k j => - bmns i k j) (fun k j => - bsubumns i k j) (fun k j => - bsubvmns i k j).

Lemma quad_neg i js I G J Q m n :
  quad i js I G J Q cos (-1 * m) (-1 * n) = quad i js I G J Q cos m n /\
  quad i js I G J Q sin (-1 * m) (-1 * n) = - quad i js I G J Q sin m n.
Proof.
  assert (P : forall x y, phase (-1 * m) (-1 * n) x y = - phase m n x y) by (intros; unfold phase; rewrite !mult_IZR; ring).
  unfold quad. rewrite !(zero_sgn (-1)) by (right; reflexivity). split.
  - f_equal. apply rsum_ext. intros a _. apply rsum_ext. intros b _. cbv zeta. now rewrite P, cos_neg.
  - rewrite Ropp_mult_distr_r, <- rsum_opp. f_equal. apply rsum_ext. intros a _. rewrite <- rsum_opp. apply rsum_ext. intros b _.
    cbv zeta. rewrite P, sin_neg. ring.
Qed.

Ltac rring := rs; lra.
Section Reversed.
Variables (i : Inp RS) (js : Z).
Notation i' := (reversed i).
Notation I := (bI i js).
Notation G := (bG i js).
Notation pt := (fun t : R => IZR (-1) * t + gth i 0).
Notation pz := (fun z : R => IZR (-1) * z + gze i 0).
Lemma pt_neg t : IZR (-1) * t + gth i 0 = - t. Proof. rewrite gth_0. ring. Qed.
Lemma pz_neg z : IZR (-1) * z + gze i 0 = - z. Proof. rewrite gze_0. ring. Qed.
Lemma series_rev n ms ns c s c' s' sg t z :
  (forall k, (0 <= k < n)%Z -> c' k = sg * c k /\ s' k = - sg * s k) ->
  series n ms ns c' s' t z = sg * series n ms ns c s (IZR (-1) * t + gth i 0) (IZR (-1) * z + gze i 0).
Proof.
  intros H. rewrite pt_neg, pz_neg. unfold series. rewrite <- rsum_scal. apply rsum_ext. intros k Hk.
  destruct (H k Hk) as (-> & ->). rewrite phase_neg, cos_neg, sin_neg. ring.
Qed.
Lemma rev_R t z : mR i' js t z = 1 * mR i js (pt t) (pz z).
Proof. apply series_rev. intros k _. unfold onA. cbn [reversed asym rmnc rmns]. destruct (asym i); split; rring. Qed.
Lemma rev_B t z : mB i' js t z = 1 * mB i js (pt t) (pz z).
Proof. apply series_rev. intros k _. unfold onA. cbn [reversed asym bmnc bmns]. destruct (asym i); split; rring. Qed.
Lemma rev_Z t z : mZ i' js t z = -1 * mZ i js (pt t) (pz z).
Proof. apply series_rev. intros k _. unfold onA. cbn [reversed asym zmnc zmns]. destruct (asym i); split; rring. Qed.
Lemma rev_L t z : mL i' js t z = -1 * mL i js (pt t) (pz z).
Proof. apply series_rev. intros k _. unfold onA. cbn [reversed asym lmnc lmns]. destruct (asym i); split; rring. Qed.
Lemma rev_W t z : mW i' js t z = -1 * mW i js (pt t) (pz z).
Proof.
  apply series_rev. intros k _. unfold onA, w_cos, w_sin. cbn [reversed asym xmq xnq bsubumnc bsubvmnc bsubumns bsubvmns].
  destruct (asym i), (Z.eqb (xmq i k) 0), (Z.eqb (xnq i k) 0); split; unfold Rdiv; rring.
Qed.
Lemma rev_Nu t z : mNu i' js (bI i' js) (bG i' js) t z = -1 * mNu i js I G (pt t) (pz z).
Proof.
  unfold mNu. rewrite rev_W, rev_L. change (bI i' js) with I. change (bG i' js) with G. change (io i' js) with (io i js).
  unfold Rdiv. ring.
Qed.
Lemma rev_Th t z : mTh i' js (bI i' js) (bG i' js) t z = IZR (-1) * mTh i js I G (pt t) (pz z) + 0.
Proof. unfold mTh. rewrite rev_L, rev_Nu. change (io i' js) with (io i js). rewrite gth_0. ring. Qed.
Lemma rev_Ze t z : mZe i' js (bI i' js) (bG i' js) t z = IZR (-1) * mZe i js I G (pt t) (pz z) + 0.
Proof. unfold mZe. rewrite rev_Nu, gze_0. ring. Qed.
Definition rev_sg (f : afield) : R :=
  match f with A_zmns_b | A_zmnc_b | A_numns_b | A_numnc_b => -1 | _ => 1 end.
Lemma rev_Q f t z : In f (outs true) -> out_Q i' js f t z = rev_sg f * out_Q i js f (pt t) (pz z).
Proof.
  intros Hf. cbn in Hf.
  repeat (destruct Hf as [<-|Hf]; [cbn [out_Q rev_sg]; first [apply rev_B|apply rev_R|apply rev_Z|apply rev_Nu|
    unfold mSqrtg; rewrite rev_B, !Rmult_1_l; reflexivity]|]). contradiction.
Qed.
Lemma rev_coef f k : ok_inp i -> nfp_divides i -> ok_inp i' -> In f (outs (asym i)) -> (0 <= k < mnboz i)%Z ->
  o_coef i' js f k = (if existsb (fun g => if afield_eq_dec f g then true else false) asym_outs then -1 else 1) * o_coef i js f k.
Proof.
  intros Hok Hd Hok' Hf Hk.
  assert (Hft : In f (outs true)) by (unfold outs in *; destruct (asym i); auto; apply in_or_app; auto).
  rewrite !o_coef_quad by (auto; exact Hd).
  change (xm_b i' k) with (xm_b i k). change (xn_b i' k) with (xn_b i k).
  pose proof (quad_move i i' js js Hok Hd eq_refl eq_refl eq_refl (-1) (-1) 0 0 0 0 (or_intror eq_refl) (or_intror eq_refl) rev_Th rev_Ze
    (out_Q i js f) (out_Q i' js f) (rev_sg f) (xm_b i k) (mode_n i k) (out_per i Hok Hd js f) (fun t z => rev_Q f t z Hft)) as M.
  cbv zeta in M. change (mode_n i k * nfp i)%Z with (xn_b i k) in M.
  assert (P : phase (xm_b i k) (xn_b i k) 0 0 = 0) by (unfold phase; ring).
  rewrite P, cos_0, sin_0 in M. rewrite (proj1 (quad_neg _ _ _ _ _ _ _ _)), (proj2 (quad_neg _ _ _ _ _ _ _ _)) in M.
  destruct M as (M1 & M2). cbn in Hft.
  repeat (destruct Hft as [<-|Hft]; [cbn [out_trig rev_sg] in *; first [rewrite M1|rewrite M2]; cbn -[quad Rmult Rplus Ropp IZR]; rring|]).
  contradiction.
Qed.
End Reversed.

Theorem reversed_angles (o o' : obj RS) i : valid o i -> nfp_divides i -> valid o' (reversed i) ->
  exists r e r' e', run_ok o r e /\ run_ok o' r' e' /\
  forall j k, (0 <= j < nsurf i)%Z -> (0 <= k < mnboz i)%Z ->
    (forall f, In f [A_Boozer_I; A_Boozer_G] -> elem r' f j = elem r f j /\ elem r f j <> None) /\
    (forall f, In f sym_outs -> elem2 r' f k j = elem2 r f k j /\ elem2 r f k j <> None) /\
    (asym i = true -> forall f, In f asym_outs -> exists x, elem2 r f k j = Some (Some x) /\ elem2 r' f k j = Some (Some (- x))).
Proof.
  intros V Hd V'. pose proof V as (Hok & _). pose proof V' as (Hok' & _).
  destruct (run_total o i V) as (r & E & _ & _ & _ & Q & _).
  destruct (run_total o' _ V') as (r' & E' & _ & _ & _ & Q' & _).
  exists r, (run_events RS i), r', (run_events RS (reversed i)). splits; auto. intros j k Hj Hk.
  set (i' := reversed i) in *. set (js := surf i j).
  assert (El : forall f, In f (outs (asym i)) -> elem2 r f k j = Some (Some (o_coef i js f k))).
  { intros f Hf. apply (elem2_mat _ _ _ _ _ _ _ (q_out _ _ _ Q f Hf) Hk Hj). }
  assert (El' : forall f, In f (outs (asym i)) -> elem2 r' f k j = Some (Some (o_coef i' js f k))).
  { intros f Hf. apply (elem2_mat _ _ _ _ _ _ _ (q_out _ _ _ Q' f Hf) Hk Hj). }
  splits.
  - intros f Hf. cbn in Hf. destruct Hf as [<-|[<-|[]]].
    + rewrite (elem_vec _ _ _ _ _ (q_I _ _ _ Q) Hj), (elem_vec _ _ _ _ _ (q_I _ _ _ Q') Hj). split; [reflexivity|discriminate].
    + rewrite (elem_vec _ _ _ _ _ (q_G _ _ _ Q) Hj), (elem_vec _ _ _ _ _ (q_G _ _ _ Q') Hj). split; [reflexivity|discriminate].
  - intros f Hf. assert (Ho : In f (outs (asym i))) by (unfold outs; destruct (asym i); auto; apply in_or_app; auto).
    rewrite El, El' by auto. split; [|discriminate]. do 2 f_equal. unfold i'. rewrite rev_coef by auto.
    cbn in Hf. repeat (destruct Hf as [<-|Hf]; [cbn [existsb asym_outs afield_eq_dec]; cbn -[o_coef Rmult IZR]; apply Rmult_1_l|]). contradiction.
  - intros At f Hf. assert (Ho : In f (outs (asym i))) by (unfold outs; rewrite At; apply in_or_app; auto).
    rewrite El, El' by auto. eexists. split; [reflexivity|]. do 2 f_equal. unfold i'. rewrite rev_coef by auto.
    cbn in Hf. repeat (destruct Hf as [<-|Hf]; [cbn -[o_coef Rmult IZR]; rs; lra|]). contradiction.
Qed.

(** ** C67: the toroidal angle reversed *)
Definition mirrored (i : Inp RS) : Inp RS :=
  mkInp RS (asym i) (nfp i) (mpol i) (ntor i) (mnmax i) (mpolq i) (ntorq i) (mnmaxq i) (nsin i) (mboz i) (nboz i) (verb i)
    (xm i) (fun k => (- xn i k)%Z) (xmq i) (fun k => (- xnq i k)%Z) (nsurf i) (surf i) (sin_ i) (fun j => - iota i j)
    (rmnc i) (zmns i) (lmns i) (bmnc i) (bsubumnc i) (fun k j => - bsubvmnc i k j)
    (rmns i) (zmnc i) (lmnc i) (bmns i) (bsubumns i) (fun k j => - bsubvmns i k j).

Section Mirror.
Variables (i : Inp RS) (js : Z).
Notation i' := (mirrored i).
Notation I := (bI i js).
Notation G := (bG i js).
Notation pt := (fun t : R => IZR 1 * t + gth i 0).
Notation pz := (fun z : R => IZR (-1) * z + gze i 0).
Lemma series_mir n ms ns c s c' s' t z :
  (forall k, (0 <= k < n)%Z -> c' k = c k /\ s' k = s k) ->
  series n ms (fun k => (- ns k)%Z) c' s' t z = 1 * series n ms ns c s (IZR 1 * t + gth i 0) (IZR (-1) * z + gze i 0).
Proof.
  intros H. rewrite pt1, pz_neg, Rmult_1_l. unfold series. apply rsum_ext. intros k Hk.
  destruct (H k Hk) as (-> & ->). assert (P : phase (ms k) (- ns k) t z = phase (ms k) (ns k) t (- z)) by (unfold phase; rewrite opp_IZR; ring).
  now rewrite P.
Qed.
Lemma mir_R t z : mR i' js t z = 1 * mR i js (pt t) (pz z). Proof. apply series_mir. auto. Qed.
Lemma mir_Z t z : mZ i' js t z = 1 * mZ i js (pt t) (pz z). Proof. apply series_mir. auto. Qed.
Lemma mir_L t z : mL i' js t z = 1 * mL i js (pt t) (pz z). Proof. apply series_mir. auto. Qed.
Lemma mir_B t z : mB i' js t z = 1 * mB i js (pt t) (pz z). Proof. apply series_mir. auto. Qed.
Lemma mir_W t z : mW i' js t z = 1 * mW i js (pt t) (pz z).
Proof.
  apply series_mir. intros k _. unfold onA, w_cos, w_sin. cbn [mirrored asym xmq xnq bsubumnc bsubvmnc bsubumns bsubvmns].
  destruct (Z.eqb_spec (xmq i k) 0) as [E1|E1]; [|split; reflexivity].
  assert (Ez : Z.eqb (- xnq i k) 0 = Z.eqb (xnq i k) 0) by (destruct (Z.eqb_spec (xnq i k) 0), (Z.eqb_spec (- xnq i k) 0); auto; lia).
  rewrite Ez. destruct (Z.eqb_spec (xnq i k) 0) as [E2|E2]; [split; reflexivity|].
  rewrite opp_IZR. assert (IZR (xnq i k) <> 0) by (now apply not_0_IZR).
  split; [destruct (asym i); [|reflexivity]|]; rs; field; auto.
Qed.
Lemma mir_is00 k : is00 i' k = is00 i k.
Proof.
  unfold is00. cbn [mirrored xmq xnq]. f_equal. destruct (Z.eqb_spec (xnq i k) 0), (Z.eqb_spec (- xnq i k) 0); auto; lia.
Qed.
Lemma accum_ext2 n (g h : Z -> R -> R) a : (forall k x, g k x = h k x) -> accum n g a = accum n h a.
Proof. intros H. unfold accum. induction (Z.to_nat n) as [|m IH]; cbn [nat_rect]; [reflexivity|]. now rewrite IH, H. Qed.
Lemma mir_I : bI i' js = I.
Proof. unfold bI. cbn [mirrored mnmaxq bsubumnc]. apply accum_ext2. intros k x. now rewrite mir_is00. Qed.
Lemma mir_G : bG i' js = - G.
Proof.
  replace (- G) with (-1 * G) by lra. unfold bG. cbn [mirrored mnmaxq bsubvmnc]. rs.
  pose proof (accum_pick_scal (mnmaxq i) (is00 i) (fun k => bsubvmnc i k js) (-1)) as X. cbv beta in X. rs.
  etransitivity; [|exact X]. apply accum_ext2. intros k x. rewrite mir_is00. destruct (is00 i k); [lra|reflexivity].
Qed.
Lemma mir_Nu t z : mNu i' js (bI i' js) (bG i' js) t z = -1 * mNu i js I G (pt t) (pz z).
Proof.
  unfold mNu. rewrite mir_W, mir_L, mir_I, mir_G. change (io i' js) with (- io i js).
  replace (- G + - io i js * I) with (- (G + io i js * I)) by lra. unfold Rdiv. rewrite Rinv_opp. ring.
Qed.
Lemma mir_Th t z : mTh i' js (bI i' js) (bG i' js) t z = IZR 1 * mTh i js I G (pt t) (pz z) + 0.
Proof. unfold mTh. rewrite mir_L, mir_Nu. change (io i' js) with (- io i js). rewrite gth_0. ring. Qed.
Lemma mir_Ze t z : mZe i' js (bI i' js) (bG i' js) t z = IZR (-1) * mZe i js I G (pt t) (pz z) + 0.
Proof. unfold mZe. rewrite mir_Nu, gze_0. ring. Qed.
Definition mir_sg (f : afield) : R :=
  match f with A_bmnc_b | A_bmns_b | A_rmnc_b | A_rmns_b | A_zmns_b | A_zmnc_b => 1 | _ => -1 end.
Lemma mir_Q f t z : In f (outs true) -> out_Q i' js f t z = mir_sg f * out_Q i js f (pt t) (pz z).
Proof.
  intros Hf. cbn in Hf.
  repeat (destruct Hf as [<-|Hf]; [cbn [out_Q mir_sg]; first [apply mir_B|apply mir_R|apply mir_Z|apply mir_Nu|
    unfold mSqrtg; rewrite mir_B, mir_I, mir_G, !Rmult_1_l; change (io i' js) with (- io i js);
    unfold Rdiv; ring]|]). contradiction.
Qed.
Lemma mir_quad f k : ok_inp i -> nfp_divides i -> ok_inp i' -> In f (outs (asym i)) -> (0 <= k < mnboz i)%Z ->
  o_coef i' js f k = mir_sg f * quad i js I G (mJ i js) (out_Q i js f) (out_trig f) (xm_b i k) (- xn_b i k).
Proof.
  intros Hok Hd Hok' Hf Hk.
  assert (Hd' : nfp_divides i').
  { split; intros l Hl; cbn [mirrored xn xnq nfp mnmax mnmaxq] in *; apply Z.divide_opp_r, Hd, Hl. }
  assert (Hft : In f (outs true)) by (unfold outs in *; destruct (asym i); auto; apply in_or_app; auto).
  rewrite o_coef_quad by auto.
  change (xm_b i' k) with (xm_b i k). change (xn_b i' k) with (xn_b i k).
  pose proof (quad_move i i' js js Hok Hd eq_refl eq_refl eq_refl 1 (-1) 0 0 0 0 (or_introl eq_refl) (or_intror eq_refl) mir_Th mir_Ze
    (out_Q i js f) (out_Q i' js f) (mir_sg f) (xm_b i k) (mode_n i k) (out_per i Hok Hd js f) (fun t z => mir_Q f t z Hft)) as M.
  cbv zeta in M. change (mode_n i k * nfp i)%Z with (xn_b i k) in M.
  assert (P : phase (xm_b i k) (xn_b i k) 0 0 = 0) by (unfold phase; ring).
  rewrite P, cos_0, sin_0, Z.mul_1_l in M. replace (-1 * xn_b i k)%Z with (- xn_b i k)%Z in M by lia.
  destruct M as (M1 & M2). cbn in Hft.
  repeat (destruct Hft as [<-|Hft]; [cbn [out_trig] in *; first [rewrite M1|rewrite M2]; rs; lra|]).
  contradiction.
Qed.
End Mirror.

Theorem mirror_image (o o' : obj RS) i : valid o i -> nfp_divides i -> valid o' (mirrored i) ->
  exists r e r' e', run_ok o r e /\ run_ok o' r' e' /\
  forall j, (0 <= j < nsurf i)%Z ->
    elem r' A_Boozer_I j = elem r A_Boozer_I j /\ elem r A_Boozer_I j <> None /\
    (exists G, elem r A_Boozer_G j = Some (Some G) /\ elem r' A_Boozer_G j = Some (Some (- G))) /\
    forall k k' m m' n n', elemN r N_xm_b k = Some (Some m) -> elemN r N_xn_b k = Some (Some n) ->
      elemN r N_xm_b k' = Some (Some m') -> elemN r N_xn_b k' = Some (Some n') ->
      forall f s s0, In (f, s, s0) [(A_bmnc_b, 1, 1); (A_rmnc_b, 1, 1); (A_zmns_b, 1, -1); (A_numns_b, -1, 1); (A_gmnc_b, -1, -1)] \/
        asym i = true /\ In (f, s, s0) [(A_bmns_b, 1, -1); (A_rmns_b, 1, -1); (A_zmnc_b, 1, 1); (A_numnc_b, -1, -1); (A_gmns_b, -1, 1)] ->
      (m' = m -> n' = (- n)%Z -> exists x, elem2 r f k' j = Some (Some x) /\ elem2 r' f k j = Some (Some (s * x))) /\
      (m = 0%Z -> exists x, elem2 r f k j = Some (Some x) /\ elem2 r' f k j = Some (Some (s0 * x))).
Proof.
  intros V Hd V'. pose proof V as (Hok & _). pose proof V' as (Hok' & _).
  destruct (run_total o i V) as (r & E & _ & _ & _ & Q & _).
  destruct (run_total o' _ V') as (r' & E' & _ & _ & _ & Q' & _).
  exists r, (run_events RS i), r', (run_events RS (mirrored i)). splits; auto. intros j Hj.
  set (i' := mirrored i) in *. set (js := surf i j).
  splits.
  - rewrite (elem_vec _ _ _ _ _ (q_I _ _ _ Q) Hj), (elem_vec _ _ _ _ _ (q_I _ _ _ Q') Hj). do 2 f_equal. apply mir_I.
  - rewrite (elem_vec _ _ _ _ _ (q_I _ _ _ Q) Hj). discriminate.
  - exists (bG i js). rewrite (elem_vec _ _ _ _ _ (q_G _ _ _ Q) Hj), (elem_vec _ _ _ _ _ (q_G _ _ _ Q') Hj).
    split; [reflexivity|]. do 2 f_equal. apply mir_G.
  - intros k k' m m' n n' Hm Hn Hm' Hn' f s s0 Hf.
    destruct (mode_elem r i k m Q Hm) as (Hk & ->). destruct (mode_elem r i k' m' Q Hm') as (Hk' & ->).
    rewrite (elemN_vec _ _ _ _ _ (q_xn_b _ _ _ Q) Hk) in Hn. injection Hn as <-.
    rewrite (elemN_vec _ _ _ _ _ (q_xn_b _ _ _ Q) Hk') in Hn'. injection Hn' as <-.
    assert (Ho : In f (outs (asym i)) /\ mir_sg f = s /\
      mir_sg f * quad i js (bI i js) (bG i js) (mJ i js) (out_Q i js f) (out_trig f) (-1 * 0) (-1 * xn_b i k) =
      s0 * quad i js (bI i js) (bG i js) (mJ i js) (out_Q i js f) (out_trig f) 0 (xn_b i k)).
    { pose proof (quad_neg i js (bI i js) (bG i js) (mJ i js) (out_Q i js f) 0 (xn_b i k)) as (N1 & N2).
      unfold outs. destruct Hf as [Hf|(At & Hf)].
      - cbn in Hf. repeat (destruct Hf as [X|Hf]; [injection X as <- <- <-; splits; [destruct (asym i); cbn; tauto|reflexivity|
          cbn [out_trig mir_sg]; first [rewrite N1|rewrite N2]; lra]|]). contradiction.
      - rewrite At. cbn in Hf. repeat (destruct Hf as [X|Hf]; [injection X as <- <- <-; splits; [cbn; tauto|reflexivity|
          cbn [out_trig mir_sg]; first [rewrite N1|rewrite N2]; lra]|]). contradiction. }
    destruct Ho as (Ho & Hsg & Hs0).
    assert (El' : elem2 r' f k j = Some (Some (o_coef i' js f k))).
    { apply (elem2_mat _ _ _ _ _ _ _ (q_out _ _ _ Q' f Ho) Hk Hj). }
    rewrite El'. split.
    + intros Em En. exists (o_coef i js f k'). split; [apply (elem2_mat _ _ _ _ _ _ _ (q_out _ _ _ Q f Ho) Hk' Hj)|].
      do 2 f_equal. unfold i'. rewrite mir_quad by auto. rewrite (o_coef_quad i Hok Hd js f k') by auto. now rewrite Hsg, Em, En.
    + intros Em. exists (o_coef i js f k). split; [apply (elem2_mat _ _ _ _ _ _ _ (q_out _ _ _ Q f Ho) Hk Hj)|].
      do 2 f_equal. unfold i'. rewrite mir_quad by auto. rewrite (o_coef_quad i Hok Hd js f k) by auto. rewrite Em.
      replace (- xn_b i k)%Z with (-1 * xn_b i k)%Z by lia. exact Hs0.
Qed.
