(** Theorems about run() in real arithmetic. *)
From Coq Require Import ZArith QArith List String Bool Lia Reals Lra Psatz Permutation.
From Verif Require Import Scalar Prog Model Wp Func Step TrigProof InitProof SurfProof RunProof Par FuncExt Spec RunThms
  RSum RSpec RPoint RQuad.
Import ListNotations.
Local Open Scope Z_scope.
Local Open Scope R_scope.

(** ** C11: the tables *)
Theorem tables_exact (o : obj RS) i : valid o i ->
  exists o' ev, run_ok o o' ev /\
  let n := ((if asym i then nt i else nt i / 2 + 1) * nz i)%Z in
  asize (oA o' A_theta_grid) = n /\ asize (oA o' A_zeta_grid) = n /\
  forall j, (0 <= j < n)%Z ->
    let t := gth i (j / nz i)%Z in let z := gze i (j mod nz i)%Z in
    elem o' A_theta_grid j = Some (Some t) /\ elem o' A_zeta_grid j = Some (Some z) /\
    (forall m, (0 <= m < mpol i)%Z ->
       elem2 o' A_cosm j m = Some (Some (cos (IZR m * t))) /\ elem2 o' A_sinm j m = Some (Some (sin (IZR m * t)))) /\
    (forall m, (0 <= m <= mpolq i)%Z ->
       elem2 o' A_cosm_nyq j m = Some (Some (cos (IZR m * t))) /\ elem2 o' A_sinm_nyq j m = Some (Some (sin (IZR m * t)))) /\
    (forall m, (0 <= m <= ntor i)%Z ->
       elem2 o' A_cosn j m = Some (Some (cos (IZR m * IZR (nfp i) * z))) /\
       elem2 o' A_sinn j m = Some (Some (sin (IZR m * IZR (nfp i) * z)))) /\
    (forall m, (0 <= m <= ntorq i)%Z ->
       elem2 o' A_cosn_nyq j m = Some (Some (cos (IZR m * IZR (nfp i) * z))) /\
       elem2 o' A_sinn_nyq j m = Some (Some (sin (IZR m * IZR (nfp i) * z)))).
Proof.
  intros V. destruct (run_total o i V) as (o' & E & _ & _ & G & _ & _). destruct V as (Hok & _ & _).
  exists o', (run_events RS i). split; auto. cbv zeta.
  assert (En : ((if asym i then nt i else nt i / 2 + 1) * nz i)%Z = npts i).
  { unfold npts, nu3, nu2. rewrite nt_ok, nz_ok. reflexivity. }
  rewrite En. split; [|split].
  - apply (vec_is_asize _ _ _ (g_thg _ _ _ G)).
  - apply (vec_is_asize _ _ _ (g_zeg _ _ _ G)).
  - intros j Hj. rewrite <- (thg_ok i j), <- (zeg_ok i j).
    split; [apply (elem_vec _ _ _ _ _ (g_thg _ _ _ G) Hj)|].
    split; [apply (elem_vec _ _ _ _ _ (g_zeg _ _ _ G) Hj)|].
    assert (X : forall f c g x m, mat_is (oA o' f) (npts i) c g -> (0 <= m < c)%Z -> g j m = x ->
      elem2 o' f j m = Some (Some x)).
    { intros f c g x m M Hm <-. apply (elem2_mat _ _ _ _ _ _ _ M Hj Hm). }
    splits; intros m Hm; split.
    all: first [eapply X; [exact (g_cosm _ _ _ G)|lia|apply TC_exact; lia]
      |eapply X; [exact (g_sinm _ _ _ G)|lia|apply TS_exact; lia]
      |eapply X; [exact (g_cosmq _ _ _ G)|lia|apply TC_exact; lia]
      |eapply X; [exact (g_sinmq _ _ _ G)|lia|apply TS_exact; lia]
      |eapply X; [exact (g_cosn _ _ _ G)|lia|cbv beta; rs; rewrite TC_exact by lia; f_equal; lra]
      |eapply X; [exact (g_sinn _ _ _ G)|lia|cbv beta; rs; rewrite TS_exact by lia; f_equal; lra]
      |eapply X; [exact (g_cosnq _ _ _ G)|lia|cbv beta; rs; rewrite TC_exact by lia; f_equal; lra]
      |eapply X; [exact (g_sinnq _ _ _ G)|lia|cbv beta; rs; rewrite TS_exact by lia; f_equal; lra]].
Qed.

(** init_trig on any tables whose sine columns 0 hold 0. *)
Theorem init_trig_exact (o : obj RS) R Cm Cn N mmax nmax nf t vth vze th ze gcm gsm gcn gsn :
  (0 <= N <= R)%Z -> (1 <= mmax < Cm)%Z -> (0 <= nmax < Cn)%Z ->
  vec_is vth N th -> vec_is vze N ze ->
  mat_is (tcosm RS t) R Cm gcm -> mat_is (tsinm RS t) R Cm gsm ->
  mat_is (tcosn RS t) R Cn gcn -> mat_is (tsinn RS t) R Cn gsn ->
  (forall j, gsm j 0%Z = 0) -> (forall j, gsn j 0%Z = 0) ->
  exists t', run (init_trig RS vth vze t mmax nmax nf) o = ROk t' o [] /\
  forall j, (0 <= j < N)%Z ->
    (forall m, (0 <= m <= mmax)%Z ->
       znth (adata (tcosm RS t')) (j + m * R) = Some (Some (cos (IZR m * th j))) /\
       znth (adata (tsinm RS t')) (j + m * R) = Some (Some (sin (IZR m * th j)))) /\
    (forall n, (0 <= n <= nmax)%Z ->
       znth (adata (tcosn RS t')) (j + n * R) = Some (Some (cos (IZR n * (IZR nf * ze j)))) /\
       znth (adata (tsinn RS t')) (j + n * R) = Some (Some (sin (IZR n * (IZR nf * ze j))))).
Proof.
  intros HN Hm Hn V1 V2 M1 M2 M3 M4 Z1 Z2.
  destruct (wp_run RS _ _ _ _ (init_trig_spec RS fp_any R Cm Cn N mmax nmax nf t vth vze th ze gcm gsm gcn gsn o
    HN Hm Hn V1 V2 M1 M2 M3 M4)) as (t' & o' & ev & E & -> & -> & [T1 T2 T3 T4]).
  exists t'. split; auto. intros j Hj. split; intros m Hm'; split.
  - destruct T1 as (_ & _ & _ & _ & _ & T). rewrite T by lia. zb. cbn. now rewrite TC_exact by lia.
  - destruct T2 as (_ & _ & _ & _ & _ & T). rewrite T by lia. destruct (Z.eq_dec m 0) as [->|].
    + zb. cbn. rewrite Z1, Rmult_0_l, sin_0. reflexivity.
    + zb. cbn. now rewrite TS_exact by lia.
  - destruct T3 as (_ & _ & _ & _ & _ & T). rewrite T by lia. zb. cbn. now rewrite TC_exact by lia.
  - destruct T4 as (_ & _ & _ & _ & _ & T). rewrite T by lia. destruct (Z.eq_dec m 0) as [->|].
    + zb. cbn. rewrite Z2, Rmult_0_l, sin_0. reflexivity.
    + zb. cbn. now rewrite TS_exact by lia.
Qed.

(** ** C12, C14: what surface_solve has at each grid point *)
Lemma angles_run (o : obj RS) i : valid o i ->
  exists o1, run (run_head RS) o = ROk tt o1 (head_events RS i) /\
  forall b, (0 <= b < nsurf i)%Z ->
  exists rz w h o2, run (surface_angles RS (asym i) (surf i b) b (npts i)) o1 = ROk (rz, w, h) o2 [] /\
    elem o2 A_Boozer_I b = Some (Some (bI i (surf i b))) /\ elem o2 A_Boozer_G b = Some (Some (bG i (surf i b))) /\
    forall j, (0 <= j < npts i)%Z ->
      let at4 (p : R -> R -> R) := Some (Some (p (thg i j) (zeg i j))) in
      znth (adata (vlam RS rz)) j = at4 (p_lam i (surf i b)) /\
      znth (adata (hnu RS h)) j = at4 (p_nu i (surf i b)) /\
      znth (adata (hth RS h)) j = at4 (p_th i (surf i b)) /\
      znth (adata (hze RS h)) j = at4 (p_ze i (surf i b)) /\
      znth (adata (hjac RS h)) j = at4 (p_jac i (surf i b)).
Proof.
  intros (Hok & Rp & W).
  destruct (wp_run RS _ _ _ _ (run_head_spec RS i Hok o Rp W)) as ([] & o1 & ev & E & _ & R1 & G1 & Z1 & ->).
  exists o1. split; auto. intros b Hb.
  pose proof (zero_pre RS i o1 b R1 G1 Z1 Hb) as [P1 P2 P3 P4 P5].
  destruct (wp_run RS _ _ _ _ (surface_angles_spec RS i Hok fp_any (fun _ _ _ => Logic.I) b Hb (ok_surf _ _ Hok b Hb) (fun _ _ _ => Logic.I)
    (fun _ _ _ => Logic.I) o1 P1 P2 P3 P4 P5)) as (((rz & w) & h) & o2 & ev & E2 & -> & U & _ & CI & CG & _ & _ & VL & _ & V1 & V2 & V3 & V4).
  cbn [fst snd] in *.
  exists rz, w, h, o2. split; auto.
  assert (SI : asize (oA o2 A_Boozer_I) = nsurf i /\ asize (oA o2 A_Boozer_G) = nsurf i).
  { destruct Z1 as [ZI ZG _]. unfold asize. rewrite !(u_rows _ _ _ U), !(u_cols _ _ _ U).
    split; [apply (vec_is_asize _ _ _ ZI)|apply (vec_is_asize _ _ _ ZG)]. }
  unfold elem. rewrite (proj1 SI), (proj2 SI). zb. cbn [andb]. splits; auto.
  intros j Hj. cbv zeta. splits; match goal with |- znth _ _ = Some (Some ?x) => idtac end.
  - apply VL. exact Hj.
  - apply V1. exact Hj.
  - apply V2. exact Hj.
  - apply V3. exact Hj.
  - apply V4. exact Hj.
Qed.

Theorem boozer_angles (o : obj RS) i : valid o i -> nfp_divides i ->
  exists o1 e1, run (run_head RS) o = ROk tt o1 e1 /\
  forall b js n, elemN o N_compute_surfs b = Some (Some js) -> oI o1 I_n_theta_zeta = Some n ->
  exists rz w h o2 I G, run (surface_angles RS (asym i) js b n) o1 = ROk (rz, w, h) o2 [] /\
    elem o2 A_Boozer_I b = Some (Some I) /\ elem o2 A_Boozer_G b = Some (Some G) /\
    forall j t z, elem o1 A_theta_grid j = Some (Some t) -> elem o1 A_zeta_grid j = Some (Some z) ->
      znth (adata (vlam RS rz)) j = Some (Some (mL i js t z)) /\
      znth (adata (hnu RS h)) j = Some (Some ((mW i js t z - I * mL i js t z) / (G + iota i js * I))) /\
      znth (adata (hth RS h)) j = Some (Some (t + mL i js t z + iota i js * mNu i js I G t z)) /\
      znth (adata (hze RS h)) j = Some (Some (z + mNu i js I G t z)) /\
      forall J, is_jacobian i js I G J -> znth (adata (hjac RS h)) j = Some (Some (J t z)).
Proof.
  intros V Hd. pose proof V as (Hok & Rp & W).
  destruct (angles_run o i V) as (o1 & E & H). exists o1, (head_events RS i). split; auto.
  intros b js n Hjs Hn.
  assert (Hb : (0 <= b < nsurf i)%Z /\ js = surf i b).
  { unfold elemN in Hjs. destruct (Z.leb_spec 0 b) as [L|L]; [|discriminate].
    rewrite (vec_is_asize _ _ _ (r_surf _ _ _ Rp)) in Hjs.
    destruct (Z.ltb_spec b (nsurf i)); [|discriminate]. cbn in Hjs. split; [lia|].
    destruct (r_surf _ _ _ Rp) as (_ & _ & _ & X). rewrite X in Hjs by lia. congruence. }
  destruct Hb as (Hb & ->).
  destruct (wp_run RS _ _ _ _ (run_head_spec RS i Hok o Rp W)) as ([] & o1' & ev & E' & _ & R1 & G1 & Z1 & ->).
  assert (o1' = o1) by congruence. subst o1'.
  assert (n = npts i) by (pose proof (g_npts _ _ _ G1); congruence). subst n.
  destruct (H b Hb) as (rz & w & h & o2 & E2 & CI & CG & P).
  exists rz, w, h, o2, (bI i (surf i b)), (bG i (surf i b)). splits; auto.
  intros j t z Ht Hz.
  assert (Hj : (0 <= j < npts i)%Z).
  { unfold elem in Ht. destruct (Z.leb_spec 0 j); [|discriminate].
    rewrite (vec_is_asize _ _ _ (g_thg _ _ _ G1)) in Ht. destruct (Z.ltb_spec j (npts i)); [|discriminate]. lia. }
  rewrite (elem_vec _ _ _ _ _ (g_thg _ _ _ G1) Hj) in Ht. rewrite (elem_vec _ _ _ _ _ (g_zeg _ _ _ G1) Hj) in Hz.
  injection Ht as <-. injection Hz as <-.
  destruct (P j Hj) as (P0 & P1 & P2 & P3 & P4). rewrite P0, P1, P2, P3, P4.
  rewrite p_lam_ok, p_nu_ok, p_th_ok, p_ze_ok, p_jac_ok by auto. splits; try reflexivity.
  intros J HJ. do 2 f_equal. eapply jacobian_unique; eauto using mJ_jacobian.
Qed.

(** ** C13 *)
Definition at_most_one_00 (i : Inp RS) : Prop :=
  forall k k', (0 <= k < mnmaxq i)%Z -> (0 <= k' < mnmaxq i)%Z ->
    xmq i k = 0%Z -> xnq i k = 0%Z -> xmq i k' = 0%Z -> xnq i k' = 0%Z -> k = k'.
Definition no_radial_current (i : Inp RS) (js : Z) : Prop :=
  forall k, (0 <= k < mnmaxq i)%Z ->
    IZR (xmq i k) * bsubvmnc i k js = - IZR (xnq i k) * bsubumnc i k js /\
    (asym i = true -> IZR (xmq i k) * bsubvmns i k js = - IZR (xnq i k) * bsubumns i k js).

Lemma last_is_sum (c : Z -> bool) (g : Z -> R) n :
  (forall k k', (0 <= k < n)%Z -> (0 <= k' < n)%Z -> c k = true -> c k' = true -> k = k') ->
  accum n (fun k acc => if c k then g k else acc) 0 = rsum n (fun k => if c k then g k else 0).
Proof.
  destruct (Z.le_gt_cases 0 n) as [Hn|Hn].
  2:{ intros _. rewrite rsum_neg by lia. unfold accum. replace (Z.to_nat n) with O by lia. reflexivity. }
  revert n Hn. apply (rsum_ind (fun n => _ -> accum n _ 0 = rsum n _)).
  - reflexivity.
  - intros n Hn IH H. rewrite accum_succ, rsum_succ, IH by (auto; intros; apply H; auto; lia).
    destruct (c n) eqn:En; [|lra]. rewrite rsum_zero; [lra|].
    intros k Hk. destruct (c k) eqn:Ek; auto. assert (k = n) by (apply H; auto; lia). lia.
Qed.

Section C13.
Variable i : Inp RS.
Variable js : Z.
Hypothesis H1 : at_most_one_00 i.
Hypothesis Hn : no_radial_current i js.
Lemma is00_spec k : is00 i k = true <-> xmq i k = 0%Z /\ xnq i k = 0%Z.
Proof. unfold is00. rewrite andb_true_iff, !Z.eqb_eq. reflexivity. Qed.
Lemma bI_sum : bI i js = rsum (mnmaxq i) (fun k => if is00 i k then bsubumnc i k js else 0).
Proof.
  unfold bI. apply (last_is_sum (is00 i) (fun k => bsubumnc i k js)). intros k k' A B C D.
  apply is00_spec in C, D. now apply H1.
Qed.
Lemma bG_sum : bG i js = rsum (mnmaxq i) (fun k => if is00 i k then bsubvmnc i k js else 0).
Proof.
  unfold bG. apply (last_is_sum (is00 i) (fun k => bsubvmnc i k js)). intros k k' A B C D.
  apply is00_spec in C, D. now apply H1.
Qed.
Lemma Bt_split t z : mBt i js t z = bI i js + mWt i js t z.
Proof.
  rewrite bI_sum. unfold mBt, mWt, series, series_t. rewrite <- rsum_add. apply rsum_ext. intros k Hk.
  destruct (Hn k Hk) as (A & B). unfold onA, w_cos, w_sin, is00.
  destruct (Z.eqb_spec (xmq i k) 0) as [Em|Em]; cbn [andb].
  - rewrite Em in *. destruct (Z.eqb_spec (xnq i k) 0) as [En|En].
    + rewrite En. unfold phase. rewrite !Rmult_0_l, Rminus_0_r, cos_0, sin_0. destruct (asym i); lra.
    + assert (IZR (xnq i k) <> 0) by (apply not_0_IZR; auto).
      assert (Bz : bsubumnc i k js = 0) by (apply (Rmult_eq_reg_l (IZR (xnq i k))); auto; lra).
      rewrite Bz. destruct (asym i); [|lra].
      assert (bsubumns i k js = 0) as -> by (apply (Rmult_eq_reg_l (IZR (xnq i k))); auto; specialize (B eq_refl); lra).
      lra.
  - assert (IZR (xmq i k) <> 0) by (apply not_0_IZR; auto). destruct (asym i); field; auto.
Qed.
Lemma Bz_split t z : mBz i js t z = bG i js + mWz i js t z.
Proof.
  rewrite bG_sum. unfold mBz, mWz, series, series_z. rewrite <- rsum_add. apply rsum_ext. intros k Hk.
  destruct (Hn k Hk) as (A & B). unfold onA, w_cos, w_sin, is00.
  destruct (Z.eqb_spec (xmq i k) 0) as [Em|Em]; cbn [andb].
  - rewrite Em in *. destruct (Z.eqb_spec (xnq i k) 0) as [En|En].
    + rewrite En. unfold phase. rewrite !Rmult_0_l, Rminus_0_r, cos_0, sin_0. destruct (asym i); lra.
    + assert (IZR (xnq i k) <> 0) by (apply not_0_IZR; auto). destruct (asym i); field; auto.
  - assert (IZR (xmq i k) <> 0) by (apply not_0_IZR; auto).
    assert (bsubvmnc i k js = - IZR (xnq i k) * bsubumnc i k js / IZR (xmq i k)) as ->
      by (apply (Rmult_eq_reg_l (IZR (xmq i k))); auto; rewrite A; field; auto).
    destruct (asym i); [|field; auto].
    assert (bsubvmns i k js = - IZR (xnq i k) * bsubumns i k js / IZR (xmq i k)) as ->
      by (apply (Rmult_eq_reg_l (IZR (xmq i k))); auto; rewrite (B eq_refl); field; auto). field; auto.
Qed.
End C13.

(** What surface_angles computes is the map (mTh, mZe) at the grid points, with the G and I that
    run() returns, and that map is a Boozer transformation everywhere. *)
Theorem really_boozer (o : obj RS) i : valid o i -> nfp_divides i -> at_most_one_00 i ->
  exists o1 e1 o' ev, run (run_head RS) o = ROk tt o1 e1 /\ run_ok o o' ev /\
  forall b js n, elemN o N_compute_surfs b = Some (Some js) -> oI o1 I_n_theta_zeta = Some n ->
  exists rz w h o2 I G, run (surface_angles RS (asym i) js b n) o1 = ROk (rz, w, h) o2 [] /\
    elem o' A_Boozer_I b = Some (Some I) /\ elem o' A_Boozer_G b = Some (Some G) /\
    (forall j t z, elem o1 A_theta_grid j = Some (Some t) -> elem o1 A_zeta_grid j = Some (Some z) ->
      znth (adata (hth RS h)) j = Some (Some (mTh i js I G t z)) /\
      znth (adata (hze RS h)) j = Some (Some (mZe i js I G t z))) /\
    (no_radial_current i js -> G + iota i js * I <> 0 ->
     forall t z, exists tt tz zt zz,
      derivable_pt_lim (fun x => mTh i js I G x z) t tt /\ derivable_pt_lim (fun x => mTh i js I G t x) z tz /\
      derivable_pt_lim (fun x => mZe i js I G x z) t zt /\ derivable_pt_lim (fun x => mZe i js I G t x) z zz /\
      mBt i js t z = I * tt + G * zt /\ mBz i js t z = I * tz + G * zz).
Proof.
  intros V Hd H1. pose proof V as (Hok & Rp & W).
  destruct (run_total o i V) as (o' & E & _ & _ & _ & Q & _).
  destruct (boozer_angles o i V Hd) as (o1 & e1 & E1 & A).
  exists o1, e1, o', (run_events RS i). split; auto. split; auto. intros b js n Hjs Hn.
  destruct (A b js n Hjs Hn) as (rz & w & h & o2 & I & G & E2 & HI & HG & P).
  assert (Hb : (0 <= b < nsurf i)%Z /\ js = surf i b).
  { unfold elemN in Hjs. destruct (Z.leb_spec 0 b) as [L|L]; [|discriminate].
    rewrite (vec_is_asize _ _ _ (r_surf _ _ _ Rp)) in Hjs.
    destruct (Z.ltb_spec b (nsurf i)); [|discriminate]. cbn in Hjs. split; [lia|].
    destruct (r_surf _ _ _ Rp) as (_ & _ & _ & X). rewrite X in Hjs by lia. congruence. }
  destruct Hb as (Hb & ->). set (js := surf i b) in *.
  assert (I = bI i js /\ G = bG i js) as (-> & ->).
  { destruct (angles_run o i V) as (o1' & E1' & A'). assert (o1' = o1) by congruence. subst o1'.
    destruct (A' b Hb) as (rz' & w' & h' & o2' & E2' & HI' & HG' & _). fold js in E2', HI', HG'.
    destruct (wp_run RS _ _ _ _ (run_head_spec RS i Hok o Rp W)) as ([] & o1' & ev & E' & _ & _ & G1 & _ & _).
    assert (o1' = o1) by congruence. subst o1'.
    assert (n = npts i) by (pose proof (g_npts _ _ _ G1); congruence). subst n.
    rewrite E2 in E2'. injection E2' as <- <- <- <-. rewrite HI in HI'. rewrite HG in HG'. split; congruence. }
  exists rz, w, h, o2, (bI i js), (bG i js). splits; auto.
  - exact (elem_vec _ _ _ _ _ (q_I _ _ _ Q) Hb).
  - exact (elem_vec _ _ _ _ _ (q_G _ _ _ Q) Hb).
  - intros j t z Ht Hz. destruct (P j t z Ht Hz) as (_ & _ & X & Y & _). split; assumption.
  - intros Hr Hne t z.
    exists (1 + mLt i js t z + io i js * mNut i js t z), (mLz i js t z + io i js * mNuz i js t z),
      (mNut i js t z), (1 + mNuz i js t z).
    splits; auto using mTh_dt, mTh_dz, mZe_dt, mZe_dz.
    + rewrite Bt_split by auto. unfold mNut. unfold io. field. exact Hne.
    + rewrite Bz_split by auto. unfold mNuz. unfold io. field. exact Hne.
Qed.

(** ** C15 *)
Lemma surf_elem (o : obj RS) i b js : valid o i -> elemN o N_compute_surfs b = Some (Some js) ->
  (0 <= b < nsurf i)%Z /\ js = surf i b.
Proof.
  intros (_ & Rp & _) Hjs. unfold elemN in Hjs. destruct (Z.leb_spec 0 b) as [L|L]; [|discriminate].
  rewrite (vec_is_asize _ _ _ (r_surf _ _ _ Rp)) in Hjs.
  destruct (Z.ltb_spec b (nsurf i)); [|discriminate]. cbn in Hjs. split; [lia|].
  destruct (r_surf _ _ _ Rp) as (_ & _ & _ & X). rewrite X in Hjs by lia. congruence.
Qed.
Lemma mode_elem (o : obj RS) i k m : results o i -> elemN o N_xm_b k = Some (Some m) ->
  (0 <= k < mnboz i)%Z /\ m = xm_b i k.
Proof.
  intros Q H. unfold elemN in H. destruct (Z.leb_spec 0 k) as [L|L]; [|discriminate].
  rewrite (vec_is_asize _ _ _ (q_xm_b _ _ _ Q)) in H.
  destruct (Z.ltb_spec k (mnboz i)); [|discriminate]. cbn in H. split; [lia|].
  destruct (q_xm_b _ _ _ Q) as (_ & _ & _ & X). rewrite X in H by lia. congruence.
Qed.

Lemma coef_elem (o' : obj RS) i b k f : ok_inp i -> nfp_divides i -> results o' i ->
  (0 <= b < nsurf i)%Z -> (0 <= k < mnboz i)%Z -> In f (outs (asym i)) ->
  elem2 o' f k b = Some (Some (quad i (surf i b) (bI i (surf i b)) (bG i (surf i b)) (mJ i (surf i b))
    (out_Q i (surf i b) f) (out_trig f) (xm_b i k) (xn_b i k))).
Proof.
  intros Hok Hd Q Hb Hk Hf. rewrite (elem2_mat _ _ _ _ _ _ _ (q_out _ _ _ Q f Hf) Hk Hb).
  now rewrite o_coef_quad.
Qed.

Theorem coefficients (o : obj RS) i : valid o i -> nfp_divides i ->
  exists o' ev, run_ok o o' ev /\
  forall b js I G k m n J, elemN o N_compute_surfs b = Some (Some js) ->
    elem o' A_Boozer_I b = Some (Some I) -> elem o' A_Boozer_G b = Some (Some G) ->
    elemN o' N_xm_b k = Some (Some m) -> elemN o' N_xn_b k = Some (Some n) ->
    is_jacobian i js I G J ->
    let q Q trig := Some (Some (quad i js I G J Q trig m n)) in
    elem2 o' A_bmnc_b k b = q (mB i js) cos /\
    elem2 o' A_rmnc_b k b = q (mR i js) cos /\
    elem2 o' A_zmns_b k b = q (mZ i js) sin /\
    elem2 o' A_numns_b k b = q (mNu i js I G) sin /\
    elem2 o' A_gmnc_b k b = q (mSqrtg i js I G) cos /\
    (asym i = true ->
      elem2 o' A_bmns_b k b = q (mB i js) sin /\
      elem2 o' A_rmns_b k b = q (mR i js) sin /\
      elem2 o' A_zmnc_b k b = q (mZ i js) cos /\
      elem2 o' A_numnc_b k b = q (mNu i js I G) cos /\
      elem2 o' A_gmns_b k b = q (mSqrtg i js I G) sin).
Proof.
  intros V Hd. pose proof V as (Hok & Rp & W). destruct (run_total o i V) as (o' & E & _ & _ & _ & Q & _).
  exists o', (run_events RS i). split; auto. intros b js I G k m n J Hjs HI HG Hm Hn HJ. cbv zeta.
  destruct (surf_elem o i b js V Hjs) as (Hb & ->). set (js := surf i b) in *.
  destruct (mode_elem o' i k m Q Hm) as (Hk & ->).
  rewrite (elem_vec _ _ _ _ _ (q_I _ _ _ Q) Hb) in HI. rewrite (elem_vec _ _ _ _ _ (q_G _ _ _ Q) Hb) in HG.
  rewrite (elemN_vec _ _ _ _ _ (q_xn_b _ _ _ Q) Hk) in Hn.
  injection HI as <-. injection HG as <-. injection Hn as <-.
  assert (X : forall f, In f (outs (asym i)) ->
    elem2 o' f k b = Some (Some (quad i js (bI i js) (bG i js) J (out_Q i js f) (out_trig f) (xm_b i k) (xn_b i k)))).
  { intros f Hf. rewrite (coef_elem o' i b k f) by auto. do 2 f_equal. apply quad_ext; auto.
    apply (jacobian_unique i js); auto using mJ_jacobian. }
  assert (S5 : forall f, In f sym_outs -> In f (outs (asym i))).
  { intros f Hf. unfold outs. destruct (asym i); auto. apply in_or_app; auto. }
  splits; try (apply X, S5; cbn; tauto).
  intros Ha. splits; apply X; rewrite Ha; cbn; tauto.
Qed.
