(** Input that is already in Boozer coordinates: the output series are the input functions. *)
From Coq Require Import ZArith QArith List String Bool Lia Reals Lra Psatz.
From Verif Require Import Scalar Prog Model Wp Func Step TrigProof InitProof SurfProof RunProof Par FuncExt Spec RunThms
  RSum RSpec RPoint RQuad RThms RThms2 RThms3 Vmec VmecSpec Nc NcModel NcSpec NcVoc NcThms NcThms2 NcThms3 NcThms4 Plots PlotSpec PlotProof PlotWire PlotThms PlotReal.
Import ListNotations.
Local Open Scope Z_scope.
Local Open Scope R_scope.

(** Every input mode is among the output modes. *)
Definition resolved (i : Inp RS) (N : Z) (ms ns : Z -> Z) : Prop :=
  forall l, (0 <= l < N)%Z -> (0 <= ms l < mboz i)%Z /\ (Z.abs (ns l) <= nfp i * nboz i)%Z /\ (nfp i | ns l)%Z.

Section Modes.
Variable i : Inp RS.
Hypothesis Hok : ok_inp i.
Lemma mode_inj k l : (0 <= k)%Z -> (0 <= l)%Z -> xm_b i k = xm_b i l -> xn_b i k = xn_b i l -> k = l.
Proof.
  intros Hk Hl. pose proof (ok_nfp _ _ Hok) as Hf. pose proof (ok_nboz _ _ Hok) as Hn. unfold xm_b, xn_b.
  intros Em En. assert (En' : mode_n i k = mode_n i l) by nia. clear En. revert Em En'. unfold mode_m, mode_n.
  destruct (Z.leb_spec k (nboz i)), (Z.leb_spec l (nboz i)).
  - lia.
  - assert (0 <= (l - (nboz i + 1)) / (2 * nboz i + 1))%Z by (apply Z.div_pos; lia). lia.
  - assert (0 <= (k - (nboz i + 1)) / (2 * nboz i + 1))%Z by (apply Z.div_pos; lia). lia.
  - intros E1 E2. pose proof (Z.div_mod (k - (nboz i + 1)) (2 * nboz i + 1)) as D1.
    pose proof (Z.div_mod (l - (nboz i + 1)) (2 * nboz i + 1)) as D2. nia.
Qed.
Lemma mode_ex m n : (0 < m \/ (m = 0 /\ 0 <= n))%Z -> (m < mboz i)%Z -> (Z.abs n <= nfp i * nboz i)%Z -> (nfp i | n)%Z ->
  exists k, (0 <= k < mnboz i)%Z /\ xm_b i k = m /\ xn_b i k = n.
Proof.
  intros Hm Hm' Hn (q & ->). pose proof (ok_nfp _ _ Hok) as Hf. pose proof (ok_nboz _ _ Hok) as Hb.
  assert (Hq : (- nboz i <= q <= nboz i)%Z) by nia. unfold xm_b, xn_b, mnboz.
  destruct Hm as [Hm|(-> & Hq0)].
  - exists (nboz i + 1 + (m - 1) * (2 * nboz i + 1) + (q + nboz i))%Z.
    destruct (InitProof.mode_at i m q ltac:(lia) Hq) as (-> & ->). split; [nia|auto].
  - assert (0 <= q)%Z by nia. exists q. destruct (InitProof.mode_at0 i q ltac:(lia)) as (-> & ->). split; [nia|auto].
Qed.
Lemma phase_opp m n t z : phase (- m) (- n) t z = - phase m n t z.
Proof. unfold phase. rewrite !opp_IZR. lra. Qed.

Variables (N : Z) (ms ns : Z -> Z).
Hypothesis Hr : resolved i N ms ns.
(** each input mode is one output mode, or its negative *)
Lemma mode_of l : (0 <= l < N)%Z -> exists k, (0 <= k < mnboz i)%Z /\
  (forall k', (0 <= k' < mnboz i)%Z -> k' <> k ->
     is_mode ms ns (xm_b i k') (xn_b i k') l = false /\ is_mode ms ns (- xm_b i k') (- xn_b i k') l = false) /\
  ((is_mode ms ns (xm_b i k) (xn_b i k) l = true /\ (is_mode ms ns (- xm_b i k) (- xn_b i k) l = true -> (xm_b i k = 0 /\ xn_b i k = 0)%Z)) \/
   (is_mode ms ns (xm_b i k) (xn_b i k) l = false /\ is_mode ms ns (- xm_b i k) (- xn_b i k) l = true)).
Proof.
  intros Hl. destruct (Hr l Hl) as (Hm & Hn & Hd).
  assert (X : (0 < ms l \/ (ms l = 0 /\ 0 <= ns l) \/ (ms l = 0 /\ ns l < 0))%Z) by lia.
  assert (C : forall k', (0 <= k' < mnboz i)%Z -> (0 < xm_b i k' \/ (xm_b i k' = 0 /\ 0 <= xn_b i k'))%Z) by (intros; now apply mode_canon).
  destruct X as [X|[X|X]].
  - destruct (mode_ex (ms l) (ns l)) as (k & Hk & Em & En); try tauto; try lia. exists k. split; [exact Hk|split].
    + intros k' Hk' Hne. specialize (C k' Hk'). unfold is_mode. split; apply andb_false_iff; rewrite !Z.eqb_neq.
      * destruct (Z.eq_dec (ms l) (xm_b i k')); [right; intros E|auto]. apply Hne. apply mode_inj; lia.
      * lia.
    + left. split; [apply is_mode_spec; lia|]. intros E. apply is_mode_spec in E. lia.
  - destruct (mode_ex (ms l) (ns l)) as (k & Hk & Em & En); try tauto; try lia. exists k. split; [exact Hk|split].
    + intros k' Hk' Hne. specialize (C k' Hk'). unfold is_mode. split; apply andb_false_iff; rewrite !Z.eqb_neq.
      * destruct (Z.eq_dec (ms l) (xm_b i k')); [right; intros E|auto]. apply Hne. apply mode_inj; lia.
      * destruct (Z.eq_dec (ms l) (- xm_b i k')); [right; intros E|auto]. apply Hne. apply mode_inj; lia.
    + left. split; [apply is_mode_spec; lia|]. intros E. apply is_mode_spec in E. lia.
  - destruct (mode_ex (- ms l) (- ns l)) as (k & Hk & Em & En); try lia.
    { destruct Hd as (q & ->). exists (- q)%Z. lia. }
    exists k. split; [exact Hk|split].
    + intros k' Hk' Hne. specialize (C k' Hk'). unfold is_mode. split; apply andb_false_iff; rewrite !Z.eqb_neq.
      * lia.
      * destruct (Z.eq_dec (ms l) (- xm_b i k')); [right; intros E|auto]. apply Hne. apply mode_inj; lia.
    + right. split; [apply andb_false_iff; rewrite !Z.eqb_neq; lia|apply is_mode_spec; lia].
Qed.
Lemma amp_series c s t z :
  series (mnboz i) (xm_b i) (xn_b i) (fun k => amp_c N ms ns c (xm_b i k) (xn_b i k)) (fun k => amp_s N ms ns s (xm_b i k) (xn_b i k)) t z =
  series N ms ns c s t z.
Proof.
  unfold series, amp_c, amp_s.
  transitivity (rsum (mnboz i) (fun k => rsum N (fun l =>
    (if (is_mode ms ns (xm_b i k) (xn_b i k) l || is_mode ms ns (- xm_b i k) (- xn_b i k) l)%bool then c l else 0) * cos (phase (xm_b i k) (xn_b i k) t z) +
    ((if is_mode ms ns (xm_b i k) (xn_b i k) l then s l else 0) - (if is_mode ms ns (- xm_b i k) (- xn_b i k) l then s l else 0)) *
      sin (phase (xm_b i k) (xn_b i k) t z)))).
  { apply rsum_ext. intros k _. now rewrite rsum_add, !rsum_scal_r. }
  rewrite rsum_swap. apply rsum_ext. intros l Hl. destruct (mode_of l Hl) as (k & Hk & Ho & Hh).
  rewrite (rsum_single (mnboz i) k); auto.
  - destruct Hh as [(E1 & E2)|(E1 & E2)].
    + rewrite E1. apply is_mode_spec in E1. destruct E1 as (-> & ->). cbn [orb].
      destruct (is_mode ms ns (- xm_b i k) (- xn_b i k) l) eqn:E3; [|lra].
      destruct (E2 eq_refl) as (-> & ->). unfold phase. replace (0 * t - 0 * z) with 0 by lra. rewrite sin_0. lra.
    + rewrite E1, E2. apply is_mode_spec in E2. destruct E2 as (-> & ->). cbn [orb].
      rewrite phase_opp, cos_neg, sin_neg. lra.
  - intros k' Hk' Hne. destruct (Ho k' Hk' Hne) as (-> & ->). cbn. lra.
Qed.
Lemma resolved_no_alias : no_alias i N ms ns.
Proof.
  intros l Hl. destruct (Hr l Hl) as (Hm & Hn & _). pose proof (ok_nfp _ _ Hok) as Hf. pose proof (ok_nboz _ _ Hok) as Hb.
  unfold nt, nz. split; [lia|]. destruct (Z.eqb_spec (nboz i) 0) as [E|E]; [rewrite E in *; lia|nia].
Qed.
End Modes.

Theorem identity_functions (o : obj RS) i : valid o i ->
  resolved i (mnmax i) (xm i) (xn i) -> resolved i (mnmaxq i) (xmq i) (xnq i) ->
  exists o' ev V, run_ok o o' ev /\ after_run o' i /\
  shows o' (asym i) (nfp i) (mnboz i) (nsurf i) (xm_b i) (xn_b i) (fun b => sin_ i (surf i b)) V /\
  forall b, (0 <= b < nsurf i)%Z -> in_boozer i (surf i b) ->
    bG i (surf i b) + iota i (surf i b) * bI i (surf i b) <> 0 ->
    let fn g := g (asym i) (mnboz i) (xm_b i) (xn_b i) (fun f k => V f k b) in
    forall t z, fn sB t z = mB i (surf i b) t z /\ fn sR t z = mR i (surf i b) t z /\ fn sZ t z = mZ i (surf i b) t z /\ fn sNu t z = 0.
Proof.
  intros Hv R1 R2. pose proof Hv as (Hok & Rp & W).
  assert (Hd : nfp_divides i) by (split; intros k Hk; [apply (R1 k Hk)|apply (R2 k Hk)]).
  destruct (identity_transform o i Hv Hd (resolved_no_alias _ Hok _ _ _ R1) (resolved_no_alias _ Hok _ _ _ R2)) as (o' & ev & E & H).
  assert (A : after_run o' i) by (eapply after_run_intro; eauto).
  exists o', ev, (fun f k b => o_coef i (surf i b) f k). split; [exact E|]. split; [exact A|]. split; [now apply shows_after_run|].
  intros b Hb HB Hne. cbv zeta. destruct (after_run_holds RS o' i A) as (_ & _ & Q & _).
  pose proof (shows_after_run o' i A) as Sh.
  assert (X : forall k, (0 <= k < mnboz i)%Z ->
    let cf f := o_coef i (surf i b) f k in
    let gc x := amp_c (mnmax i) (xm i) (xn i) (fun k => x i k (surf i b)) (xm_b i k) (xn_b i k) in
    let gs x := amp_s (mnmax i) (xm i) (xn i) (fun k => x i k (surf i b)) (xm_b i k) (xn_b i k) in
    cf A_rmnc_b = gc (@rmnc RS) /\ cf A_zmns_b = gs (@zmns RS) /\
    cf A_bmnc_b = amp_c (mnmaxq i) (xmq i) (xnq i) (fun k => bmnc i k (surf i b)) (xm_b i k) (xn_b i k) /\
    cf A_numns_b = 0 /\
    (asym i = true -> cf A_rmns_b = gs (@rmns RS) /\ cf A_zmnc_b = gc (@zmnc RS) /\
       cf A_bmns_b = amp_s (mnmaxq i) (xmq i) (xnq i) (fun k => bmns i k (surf i b)) (xm_b i k) (xn_b i k) /\ cf A_numnc_b = 0)).
  { intros k Hk. cbv zeta.
    specialize (H b (surf i b) _ _ k (xm_b i k) (xn_b i k)
      (elemN_vec _ _ _ _ b (r_surf _ _ _ Rp) Hb) (elem_vec _ _ _ _ b (q_I _ _ _ Q) Hb) (elem_vec _ _ _ _ b (q_G _ _ _ Q) Hb)).
    specialize (H Hne HB (elemN_vec _ _ _ _ k (q_xm_b _ _ _ Q) Hk) (elemN_vec _ _ _ _ k (q_xn_b _ _ _ Q) Hk)). cbv zeta in H.
    assert (Y : forall f v, In f (outs (asym i)) -> elem2 o' f k b = Some (Some v) -> o_coef i (surf i b) f k = v).
    { intros f v Hf Ev. rewrite (elem2_mat _ _ _ _ _ k b (sh_V _ _ _ _ _ _ _ _ _ Sh f Hf) Hk Hb) in Ev. now injection Ev. }
    assert (S5 : forall f, In f sym_outs -> In f (outs (asym i))).
    { intros f Hf. unfold outs. destruct (asym i); auto. apply in_or_app; auto. }
    destruct H as (H1 & H2 & H3 & H4 & H5).
    splits; try (apply Y; [apply S5; cbn; tauto|assumption]).
    intros Ha. destruct (H5 Ha) as (G1 & G2 & G3 & G4). splits; (apply Y; [rewrite Ha; cbn; tauto|assumption]). }
  intros t z. unfold sB, sR, sZ, sNu, mB, mR, mZ. splits.
  - rewrite <- (amp_series i Hok _ _ _ R2). apply rsum_ext. intros k Hk. destruct (X k Hk) as (X1 & X2 & X3 & X4 & X5).
    rewrite X3. unfold onA. destruct (asym i); [destruct (X5 eq_refl) as (Y1 & Y2 & Y3 & Y4); now rewrite Y3|].
    f_equal. f_equal. symmetry. unfold amp_s. apply rsum_zero. intros l _. destruct (is_mode _ _ _ _ _), (is_mode _ _ _ _ _); lra.
  - rewrite <- (amp_series i Hok _ _ _ R1). apply rsum_ext. intros k Hk. destruct (X k Hk) as (X1 & X2 & X3 & X4 & X5).
    rewrite X1. unfold onA. destruct (asym i); [destruct (X5 eq_refl) as (Y1 & Y2 & Y3 & Y4); now rewrite Y1|].
    f_equal. f_equal. symmetry. unfold amp_s. apply rsum_zero. intros l _. destruct (is_mode _ _ _ _ _), (is_mode _ _ _ _ _); lra.
  - rewrite <- (amp_series i Hok _ _ _ R1). apply rsum_ext. intros k Hk. destruct (X k Hk) as (X1 & X2 & X3 & X4 & X5).
    rewrite X2. unfold onA. destruct (asym i); [destruct (X5 eq_refl) as (Y1 & Y2 & Y3 & Y4); now rewrite Y2|].
    f_equal. f_equal. symmetry. unfold amp_c. apply rsum_zero. intros l _. destruct (_ || _)%bool; lra.
  - apply rsum_zero. intros k Hk. destruct (X k Hk) as (X1 & X2 & X3 & X4 & X5). rewrite X4. unfold onA.
    destruct (asym i); [destruct (X5 eq_refl) as (Y1 & Y2 & Y3 & Y4); rewrite Y4|]; lra.
Qed.
