(** Two arithmetics side by side: if the operations of S and T preserve a relation between
    their numbers, related inputs give related results. *)
From Coq Require Import ZArith QArith List Bool Lia.
From Verif Require Import Scalar Prog Wp Func.
Import ListNotations.
Local Open Scope Z_scope.

Section Sim.
Variables (S T : Scalar) (rel : F S -> F T -> Prop) (okdiv : F T -> Prop).

(** [okdiv b]: dividing by [b] preserves the relation *)
Record simul : Prop := mkSim {
  s_add : forall x y a b, rel x a -> rel y b -> rel (fadd S x y) (fadd T a b);
  s_sub : forall x y a b, rel x a -> rel y b -> rel (fsub S x y) (fsub T a b);
  s_mul : forall x y a b, rel x a -> rel y b -> rel (fmul S x y) (fmul T a b);
  s_div : forall x y a b, rel x a -> rel y b -> okdiv b -> rel (fdiv S x y) (fdiv T a b);
  s_neg : forall x a, rel x a -> rel (fneg S x) (fneg T a);
  s_cos : forall x a, rel x a -> rel (fcos S x) (fcos T a);
  s_sin : forall x a, rel x a -> rel (fsin S x) (fsin T a);
  s_ofZ : forall z, rel (fofZ S z) (fofZ T z);
  s_lit : forall q, rel (flit S q) (flit T q);
  s_pi : rel (fpi S) (fpi T);
  s_int : forall z, z <> 0 -> okdiv (fofZ T z)
}.

Definition rel2 (n m : Z) (x : Z -> Z -> F S) (a : Z -> Z -> F T) : Prop :=
  forall k j, 0 <= k < n -> 0 <= j < m -> rel (x k j) (a k j).
Record alike (i' : Inp S) (i : Inp T) : Prop := mkAlike {
  al_asym : asym i' = asym i; al_nfp : nfp i' = nfp i;
  al_mnmax : mnmax i' = mnmax i; al_mnmaxq : mnmaxq i' = mnmaxq i; al_nsin : nsin i' = nsin i;
  al_mboz : mboz i' = mboz i; al_nboz : nboz i' = nboz i; al_nsurf : nsurf i' = nsurf i;
  al_xm : forall k, 0 <= k < mnmax i -> xm i' k = xm i k;
  al_xn : forall k, 0 <= k < mnmax i -> xn i' k = xn i k;
  al_xmq : forall k, 0 <= k < mnmaxq i -> xmq i' k = xmq i k;
  al_xnq : forall k, 0 <= k < mnmaxq i -> xnq i' k = xnq i k;
  al_surf : forall b, 0 <= b < nsurf i -> surf i' b = surf i b;
  al_iota : forall j, 0 <= j < nsin i -> rel (iota i' j) (iota i j);
  al_rmnc : rel2 (mnmax i) (nsin i) (rmnc i') (rmnc i);
  al_zmns : rel2 (mnmax i) (nsin i) (zmns i') (zmns i);
  al_lmns : rel2 (mnmax i) (nsin i) (lmns i') (lmns i);
  al_bmnc : rel2 (mnmaxq i) (nsin i) (bmnc i') (bmnc i);
  al_bsubumnc : rel2 (mnmaxq i) (nsin i) (bsubumnc i') (bsubumnc i);
  al_bsubvmnc : rel2 (mnmaxq i) (nsin i) (bsubvmnc i') (bsubvmnc i);
  al_rmns : asym i = true -> rel2 (mnmax i) (nsin i) (rmns i') (rmns i);
  al_zmnc : asym i = true -> rel2 (mnmax i) (nsin i) (zmnc i') (zmnc i);
  al_lmnc : asym i = true -> rel2 (mnmax i) (nsin i) (lmnc i') (lmnc i);
  al_bmns : asym i = true -> rel2 (mnmaxq i) (nsin i) (bmns i') (bmns i);
  al_bsubumns : asym i = true -> rel2 (mnmaxq i) (nsin i) (bsubumns i') (bsubumns i);
  al_bsubvmns : asym i = true -> rel2 (mnmaxq i) (nsin i) (bsubvmns i') (bsubvmns i)
}.

Hypothesis sim : simul.
Variables (i' : Inp S) (i : Inp T).
Hypothesis al : alike i' i.

Let sA := s_add sim. Let sS := s_sub sim. Let sM := s_mul sim. Let sN := s_neg sim.
Let sD := s_div sim. Let sZ := s_ofZ sim. Let sL := s_lit sim.
Lemma s0 : rel (f0 S) (f0 T). Proof. apply sZ. Qed.
Lemma s1 : rel (f1 S) (f1 T). Proof. apply sL. Qed.
Lemma sZ' z z0 : z = z0 -> rel (fofZ S z) (fofZ T z0). Proof. intros ->. apply sZ. Qed.
Lemma s_if (b b0 : bool) x y a a' : b = b0 -> (b0 = true -> rel x a) -> (b0 = false -> rel y a') ->
  rel (if b then x else y) (if b0 then a else a').
Proof. intros -> H1 H2. destruct b0; auto. Qed.
Lemma s_accum n N (f : Z -> F S -> F S) (g : Z -> F T -> F T) x a : N = n ->
  (forall k y b, 0 <= k < n -> rel y b -> rel (f k y) (g k b)) -> rel x a -> rel (accum N f x) (accum n g a).
Proof.
  intros -> Hs Hx. unfold accum.
  assert (X : forall m, Z.of_nat m <= n -> rel
    (nat_rect (fun _ => F S) x (fun k acc => f (Z.of_nat k) acc) m)
    (nat_rect (fun _ => F T) a (fun k acc => g (Z.of_nat k) acc) m)).
  { induction m as [|m IH]; intros Hm; cbn [nat_rect]; [exact Hx|]. apply (Hs (Z.of_nat m)); [lia|]. apply IH. lia. }
  destruct (Z.le_gt_cases 0 n) as [Hn|Hn]; [apply X; lia|]. replace (Z.to_nat n) with O by lia. exact Hx.
Qed.

Lemma s_tcs x a k : rel x a -> rel (fst (tcs x k)) (fst (tcs a k)) /\ rel (snd (tcs x k)) (snd (tcs a k)).
Proof.
  intros H. induction k as [|k (IC & IS)]; cbn [tcs].
  - split; cbn [fst snd]; [apply s1|apply s0].
  - pose proof (s_cos sim _ _ H) as C. pose proof (s_sin sim _ _ H) as S1. destruct k as [|k]; cbn [fst snd].
    + split; assumption.
    + split; [apply sS|apply sA]; apply sM; assumption.
Qed.
Lemma sTC x a k k0 : k = k0 -> rel x a -> rel (TC x k) (TC a k0). Proof. intros -> H. now apply s_tcs. Qed.
Lemma sTS x a k k0 : k = k0 -> rel x a -> rel (TS x k) (TS a k0). Proof. intros -> H. now apply s_tcs. Qed.
Lemma s_pcos cm sm cn sn a b c d n n0 : n = n0 -> rel cm a -> rel sm b -> rel cn c -> rel sn d ->
  rel (pcos cm sm cn sn n) (pcos a b c d n0).
Proof. intros -> Ha Hb Hc Hd. unfold pcos. apply sA; [now apply sM|]. apply sM; [now apply sM|apply sZ]. Qed.
Lemma s_psin cm sm cn sn a b c d n n0 : n = n0 -> rel cm a -> rel sm b -> rel cn c -> rel sn d ->
  rel (psin cm sm cn sn n) (psin a b c d n0).
Proof. intros -> Ha Hb Hc Hd. unfold psin. apply sS; [now apply sM|]. apply sM; [now apply sM|apply sZ]. Qed.
Lemma s_pcosA th ze a b nf m n nf0 m0 n0 : nf = nf0 -> m = m0 -> n = n0 -> rel th a -> rel ze b ->
  rel (pcosA nf th ze m n) (pcosA nf0 a b m0 n0).
Proof.
  intros -> -> -> Ha Hb. unfold pcosA. cbv zeta.
  assert (Y : rel (fmul S (fofZ S nf0) ze) (fmul T (fofZ T nf0) b)) by (apply sM; [apply sZ|assumption]).
  apply s_pcos; auto; (now apply sTC) || (now apply sTS).
Qed.
Lemma s_psinA th ze a b nf m n nf0 m0 n0 : nf = nf0 -> m = m0 -> n = n0 -> rel th a -> rel ze b ->
  rel (psinA nf th ze m n) (psinA nf0 a b m0 n0).
Proof.
  intros -> -> -> Ha Hb. unfold psinA. cbv zeta.
  assert (Y : rel (fmul S (fofZ S nf0) ze) (fmul T (fofZ T nf0) b)) by (apply sM; [apply sZ|assumption]).
  apply s_psin; auto; (now apply sTC) || (now apply sTS).
Qed.

(** integer quantities are the same *)
Lemma z_asym : asym i' = asym i. Proof. apply al. Qed.
Lemma z_nfp : nfp i' = nfp i. Proof. apply al. Qed.
Lemma z_mnmax : mnmax i' = mnmax i. Proof. apply al. Qed.
Lemma z_mnmaxq : mnmaxq i' = mnmaxq i. Proof. apply al. Qed.
Lemma z_mboz : mboz i' = mboz i. Proof. apply al. Qed.
Lemma z_nboz : nboz i' = nboz i. Proof. apply al. Qed.
Lemma z_xm k : 0 <= k < mnmax i -> xm i' k = xm i k. Proof. apply al. Qed.
Lemma z_xn k : 0 <= k < mnmax i -> xn i' k = xn i k. Proof. apply al. Qed.
Lemma z_xmq k : 0 <= k < mnmaxq i -> xmq i' k = xmq i k. Proof. apply al. Qed.
Lemma z_xnq k : 0 <= k < mnmaxq i -> xnq i' k = xnq i k. Proof. apply al. Qed.
Lemma z_ntheta : ntheta i' = ntheta i. Proof. unfold ntheta. now rewrite z_mboz. Qed.
Lemma z_nzeta : nzeta i' = nzeta i. Proof. unfold nzeta. now rewrite z_nboz. Qed.
Lemma z_nu2 : nu2 i' = nu2 i. Proof. unfold nu2. now rewrite z_ntheta. Qed.
Lemma z_nu3 : nu3 i' = nu3 i. Proof. unfold nu3. now rewrite z_ntheta, z_nu2, z_asym. Qed.
Lemma z_npts : npts i' = npts i. Proof. unfold npts. now rewrite z_nu3, z_nzeta. Qed.
Lemma z_mnboz : mnboz i' = mnboz i. Proof. unfold mnboz. now rewrite z_mboz, z_nboz. Qed.
Lemma z_xm_b k : xm_b i' k = xm_b i k. Proof. unfold xm_b, mode_m. now rewrite z_nboz. Qed.
Lemma z_xn_b k : xn_b i' k = xn_b i k. Proof. unfold xn_b, mode_n. now rewrite z_nboz, z_nfp. Qed.
Lemma z_half j : half_pt i' j = half_pt i j. Proof. unfold half_pt. now rewrite z_asym, z_nzeta, z_nu2. Qed.
Lemma z_is00 k : 0 <= k < mnmaxq i -> is00 i' k = is00 i k.
Proof. intros H. unfold is00. now rewrite z_xmq, z_xnq. Qed.

Hypothesis ok : ok_inp i.
Lemma q_ntheta : 4 <= ntheta i. Proof. unfold ntheta. pose proof (ok_mboz _ _ ok). lia. Qed.
Lemma q_nzeta : 1 <= nzeta i. Proof. unfold nzeta. pose proof (ok_nboz _ _ ok). destruct (nboz i =? 0); lia. Qed.
Lemma q_nu2 : 2 <= nu2 i.
Proof. unfold nu2. pose proof q_ntheta. assert (1 <= ntheta i / 2) by (apply Z.div_le_lower_bound; lia). lia. Qed.
Lemma q_nu3 : 2 <= nu3 i. Proof. unfold nu3. pose proof q_ntheta. pose proof q_nu2. destruct (asym i); lia. Qed.
Let sI := s_int sim.

Lemma s_twopi : rel (ftwopi S) (ftwopi T). Proof. unfold ftwopi. apply sM; [apply sL|apply (s_pi sim)]. Qed.
Lemma s_dtheta : rel (dtheta i') (dtheta i).
Proof.
  unfold dtheta. apply s_if; [apply z_asym| |]; intros Ha; (apply sD; [apply s_twopi| |apply sI; pose proof q_nu3; lia]);
    apply sZ'; now rewrite z_nu3.
Qed.
Lemma s_dzeta : rel (dzeta i') (dzeta i).
Proof.
  unfold dzeta. apply sD; [apply s_twopi| |apply sI; pose proof q_nzeta; pose proof (ok_nfp _ _ ok); nia].
  apply sZ'. now rewrite z_nfp, z_nzeta.
Qed.
Lemma s_thg j : rel (thg i' j) (thg i j).
Proof. unfold thg. apply sM; [|apply s_dtheta]. apply sZ'. now rewrite z_nzeta. Qed.
Lemma s_zeg j : rel (zeg i' j) (zeg i j).
Proof. unfold zeg. apply sM; [|apply s_dzeta]. apply sZ'. now rewrite z_nzeta. Qed.

Variable js : Z.
Hypothesis Hjs : 0 <= js < nsin i.
Section Inputs.
Variable k : Z.
Lemma j_iota : rel (iota i' js) (iota i js). Proof. now apply al. Qed.
Lemma j_rmnc : 0 <= k < mnmax i -> rel (rmnc i' k js) (rmnc i k js). Proof. intros; now apply al. Qed.
Lemma j_zmns : 0 <= k < mnmax i -> rel (zmns i' k js) (zmns i k js). Proof. intros; now apply al. Qed.
Lemma j_lmns : 0 <= k < mnmax i -> rel (lmns i' k js) (lmns i k js). Proof. intros; now apply al. Qed.
Lemma j_bmnc : 0 <= k < mnmaxq i -> rel (bmnc i' k js) (bmnc i k js). Proof. intros; now apply al. Qed.
Lemma j_bsubumnc : 0 <= k < mnmaxq i -> rel (bsubumnc i' k js) (bsubumnc i k js). Proof. intros; now apply al. Qed.
Lemma j_bsubvmnc : 0 <= k < mnmaxq i -> rel (bsubvmnc i' k js) (bsubvmnc i k js). Proof. intros; now apply al. Qed.
Lemma j_rmns : asym i = true -> 0 <= k < mnmax i -> rel (rmns i' k js) (rmns i k js). Proof. intros; now apply al. Qed.
Lemma j_zmnc : asym i = true -> 0 <= k < mnmax i -> rel (zmnc i' k js) (zmnc i k js). Proof. intros; now apply al. Qed.
Lemma j_lmnc : asym i = true -> 0 <= k < mnmax i -> rel (lmnc i' k js) (lmnc i k js). Proof. intros; now apply al. Qed.
Lemma j_bmns : asym i = true -> 0 <= k < mnmaxq i -> rel (bmns i' k js) (bmns i k js). Proof. intros; now apply al. Qed.
Lemma j_bsubumns : asym i = true -> 0 <= k < mnmaxq i -> rel (bsubumns i' k js) (bsubumns i k js). Proof. intros; now apply al. Qed.
Lemma j_bsubvmns : asym i = true -> 0 <= k < mnmaxq i -> rel (bsubvmns i' k js) (bsubvmns i k js). Proof. intros; now apply al. Qed.

Lemma s_wmns : 0 <= k < mnmaxq i -> rel (wmns i' js k) (wmns i js k).
Proof.
  intros H. unfold wmns. apply s_if; [now rewrite z_xmq| |]; intros Ha.
  - apply sD; [now apply j_bsubumnc|apply sZ'; now apply z_xmq|]. apply sI. intros X. rewrite X in Ha. discriminate.
  - apply s_if; [now rewrite z_xnq| |]; intros Hb; [|apply s0].
    apply sD; [apply sN; now apply j_bsubvmnc|apply sZ'; now apply z_xnq|]. apply sI. intros X. rewrite X in Hb. discriminate.
Qed.
Lemma s_wmnc : asym i = true -> 0 <= k < mnmaxq i -> rel (wmnc i' js k) (wmnc i js k).
Proof.
  intros As H. unfold wmnc. apply s_if; [now rewrite z_xmq| |]; intros Ha.
  - apply sD; [apply sN; now apply j_bsubumns|apply sZ'; now apply z_xmq|]. apply sI. intros X. rewrite X in Ha. discriminate.
  - apply s_if; [now rewrite z_xnq| |]; intros Hb; [|apply s0].
    apply sD; [now apply j_bsubvmns|apply sZ'; now apply z_xnq|]. apply sI. intros X. rewrite X in Hb. discriminate.
Qed.
End Inputs.

Lemma s_bI : rel (bI i' js) (bI i js).
Proof.
  unfold bI. apply s_accum; [apply z_mnmaxq| |apply s0]. intros k y b Hk Hy.
  apply s_if; [now apply z_is00| |]; intros _; [now apply j_bsubumnc|exact Hy].
Qed.
Lemma s_bG : rel (bG i' js) (bG i js).
Proof.
  unfold bG. apply s_accum; [apply z_mnmaxq| |apply s0]. intros k y b Hk Hy.
  apply s_if; [now apply z_is00| |]; intros _; [now apply j_bsubvmnc|exact Hy].
Qed.
Lemma s_fsum n n0 (sym anti : Z -> F S) (sym0 anti0 : Z -> F T) : n = n0 ->
  (forall k, 0 <= k < n0 -> rel (sym k) (sym0 k)) -> (asym i = true -> forall k, 0 <= k < n0 -> rel (anti k) (anti0 k)) ->
  rel (fsum i' n sym anti) (fsum i n0 sym0 anti0).
Proof.
  intros Hn Hs Ha. unfold fsum. apply s_accum; [exact Hn| |apply s0]. intros k y b Hk Hy.
  apply s_if; [apply z_asym| |]; intros As.
  - apply sA; [apply sA; auto|auto].
  - apply sA; auto.
Qed.

Section AtPoint.
Variables (th ze : F S) (a b : F T).
Hypothesis Hth : rel th a.
Hypothesis Hze : rel ze b.
Ltac pt := intros;
  repeat first [ apply sM | apply sN | apply s_pcosA | apply s_psinA | exact Hth | exact Hze | apply z_nfp
    | apply z_xm; assumption | apply z_xn; assumption | apply z_xmq; assumption | apply z_xnq; assumption
    | apply sZ' | apply j_rmnc; assumption | apply j_zmns; assumption | apply j_lmns; assumption | apply j_bmnc; assumption
    | apply j_rmns; assumption | apply j_zmnc; assumption | apply j_lmnc; assumption | apply j_bmns; assumption
    | apply s_wmns; assumption | apply s_wmnc; assumption ].
Lemma s_r : rel (p_r i' js th ze) (p_r i js a b). Proof. unfold p_r. apply s_fsum; [apply z_mnmax| |]; pt. Qed.
Lemma s_z : rel (p_z i' js th ze) (p_z i js a b). Proof. unfold p_z. apply s_fsum; [apply z_mnmax| |]; pt. Qed.
Lemma s_lam : rel (p_lam i' js th ze) (p_lam i js a b). Proof. unfold p_lam. apply s_fsum; [apply z_mnmax| |]; pt. Qed.
Lemma s_lt : rel (p_lt i' js th ze) (p_lt i js a b). Proof. unfold p_lt. apply s_fsum; [apply z_mnmax| |]; pt. Qed.
Lemma s_lz : rel (p_lz i' js th ze) (p_lz i js a b). Proof. unfold p_lz. apply s_fsum; [apply z_mnmax| |]; pt. Qed.
Lemma s_w : rel (p_w i' js th ze) (p_w i js a b). Proof. unfold p_w. apply s_fsum; [apply z_mnmaxq| |]; pt. Qed.
Lemma s_wt : rel (p_wt i' js th ze) (p_wt i js a b). Proof. unfold p_wt. apply s_fsum; [apply z_mnmaxq| |]; pt. Qed.
Lemma s_wz : rel (p_wz i' js th ze) (p_wz i js a b). Proof. unfold p_wz. apply s_fsum; [apply z_mnmaxq| |]; pt. Qed.
Lemma s_b : rel (p_b i' js th ze) (p_b i js a b). Proof. unfold p_b. apply s_fsum; [apply z_mnmaxq| |]; pt. Qed.

Lemma s_D : rel (fadd S (bG i' js) (fmul S (iota i' js) (bI i' js))) (fadd T (bG i js) (fmul T (iota i js) (bI i js))).
Proof. apply sA; [apply s_bG|]. apply sM; [apply j_iota|apply s_bI]. Qed.
Hypothesis HD : okdiv (fadd T (bG i js) (fmul T (iota i js) (bI i js))).
Lemma s_oGI : rel (oGI i' js) (oGI i js). Proof. unfold oGI. apply sD; [apply s1|apply s_D|exact HD]. Qed.
Lemma s_nu : rel (p_nu i' js th ze) (p_nu i js a b).
Proof. unfold p_nu. apply sM; [apply s_oGI|]. apply sS; [apply s_w|]. apply sM; [apply s_bI|apply s_lam]. Qed.
Lemma s_th : rel (p_th i' js th ze) (p_th i js a b).
Proof. unfold p_th. apply sA; [apply sA; [exact Hth|apply s_lam]|]. apply sM; [apply j_iota|apply s_nu]. Qed.
Lemma s_ze : rel (p_ze i' js th ze) (p_ze i js a b).
Proof. unfold p_ze. apply sA; [exact Hze|apply s_nu]. Qed.
Lemma s_nuz : rel (p_nuz i' js th ze) (p_nuz i js a b).
Proof. unfold p_nuz. apply sM; [apply s_oGI|]. apply sS; [apply s_wz|]. apply sM; [apply s_bI|apply s_lz]. Qed.
Lemma s_nut : rel (p_nut i' js th ze) (p_nut i js a b).
Proof. unfold p_nut. apply sM; [apply s_oGI|]. apply sS; [apply s_wt|]. apply sM; [apply s_bI|apply s_lt]. Qed.
Lemma s_jac : rel (p_jac i' js th ze) (p_jac i js a b).
Proof.
  unfold p_jac. apply sA; apply sM.
  - apply sA; [apply s1|apply s_lt].
  - apply sA; [apply s1|apply s_nuz].
  - apply sS; [apply j_iota|apply s_lz].
  - apply s_nut.
Qed.
Lemma s_g : okdiv (fmul T (p_b i js a b) (p_b i js a b)) -> rel (p_g i' js th ze) (p_g i js a b).
Proof. intros Hb. unfold p_g. apply sD; [apply s_D|apply sM; apply s_b|exact Hb]. Qed.
End AtPoint.

Hypothesis HD : okdiv (fadd T (bG i js) (fmul T (iota i js) (bI i js))).
Lemma s_wgt j x a : rel x a -> rel (wgt i' j x) (wgt i j a).
Proof. intros H. unfold wgt. apply s_if; [apply z_half| |]; intros _; [|exact H]. apply sM; [apply sL|exact H]. Qed.
Lemma s_ff0 : rel (ff0 i') (ff0 i).
Proof.
  unfold ff0. pose proof q_nzeta. pose proof q_ntheta. pose proof q_nu2.
  apply s_if; [apply z_asym| |]; intros _; (apply sD; [apply sL| |apply sI; nia]); apply sZ'.
  - now rewrite z_ntheta, z_nzeta.
  - now rewrite z_nu2, z_nzeta.
Qed.
Lemma s_ff k : rel (ff i' k) (ff i k).
Proof. unfold ff. apply s_if; [reflexivity| |]; intros _; [|apply s_ff0]. apply sM; [apply s_ff0|apply sL]. Qed.
Lemma s_bth j : rel (bth i' js j) (bth i js j). Proof. unfold bth. apply s_th; auto; [apply s_thg|apply s_zeg]. Qed.
Lemma s_bze j : rel (bze i' js j) (bze i js j). Proof. unfold bze. apply s_ze; auto; [apply s_thg|apply s_zeg]. Qed.
Lemma s_y j : rel (fmul S (fofZ S (nfp i')) (bze i' js j)) (fmul T (fofZ T (nfp i)) (bze i js j)).
Proof. apply sM; [apply sZ', z_nfp|apply s_bze]. Qed.
Lemma z_q k : kn (nfp i') (xn_b i' k) = kn (nfp i) (xn_b i k). Proof. now rewrite z_nfp, z_xn_b. Qed.
Lemma s_ocos k j : rel (o_cos i' js k j) (o_cos i js k j).
Proof.
  unfold o_cos. cbv zeta. apply sM; [apply sM|apply s_ff]; [|apply s_jac; auto; [apply s_thg|apply s_zeg]].
  apply s_pcos; [apply z_xn_b| | | |].
  - apply s_wgt. apply sTC; [apply z_xm_b|apply s_bth].
  - apply s_wgt. apply sTS; [apply z_xm_b|apply s_bth].
  - apply sTC; [apply z_q|apply s_y].
  - apply sTS; [apply z_q|apply s_y].
Qed.
Lemma s_osin k j : rel (o_sin i' js k j) (o_sin i js k j).
Proof.
  unfold o_sin. cbv zeta. apply sM; [apply sM|apply s_ff]; [|apply s_jac; auto; [apply s_thg|apply s_zeg]].
  apply s_psin; [apply z_xn_b| | | |].
  - apply s_wgt. apply sTC; [apply z_xm_b|apply s_bth].
  - apply s_wgt. apply sTS; [apply z_xm_b|apply s_bth].
  - apply sTC; [apply z_q|apply s_y].
  - apply sTS; [apply z_q|apply s_y].
Qed.
Theorem s_coef f k : In f (outs true) ->
  (f = A_gmnc_b \/ f = A_gmns_b -> forall j, 0 <= j < npts i ->
     okdiv (fmul T (p_b i js (thg i j) (zeg i j)) (p_b i js (thg i j) (zeg i j)))) ->
  rel (o_coef i' js f k) (o_coef i js f k).
Proof.
  intros Hf Hb. unfold o_coef. apply s_accum; [apply z_npts| |apply s0]. intros j y c Hj Hy. apply sA; [exact Hy|].
  pose proof (s_thg j) as Th. pose proof (s_zeg j) as Ze.
  cbn [outs sym_outs asym_outs app In] in Hf.
  repeat (destruct Hf as [<-|Hf]); [..|contradiction]; unfold o_inc.
  - apply sM; [apply s_ocos|]. exact (s_b _ _ _ _ Th Ze).
  - apply sM; [apply s_ocos|]. exact (s_r _ _ _ _ Th Ze).
  - apply sM; [apply s_osin|]. exact (s_z _ _ _ _ Th Ze).
  - apply sM; [apply s_osin|]. exact (s_nu _ _ _ _ Th Ze HD).
  - apply sM; [apply s_ocos|]. exact (s_g _ _ _ _ Th Ze (Hb (or_introl eq_refl) j Hj)).
  - apply sM; [apply s_osin|]. exact (s_b _ _ _ _ Th Ze).
  - apply sM; [apply s_osin|]. exact (s_r _ _ _ _ Th Ze).
  - apply sM; [apply s_ocos|]. exact (s_z _ _ _ _ Th Ze).
  - apply sM; [apply s_ocos|]. exact (s_nu _ _ _ _ Th Ze HD).
  - apply sM; [apply s_osin|]. exact (s_g _ _ _ _ Th Ze (Hb (or_intror eq_refl) j Hj)).
Qed.
End Sim.
