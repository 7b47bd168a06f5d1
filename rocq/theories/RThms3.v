(** Input that is already in Boozer coordinates, and the accuracy check, in real arithmetic. *)
From Coq Require Import ZArith QArith List String Bool Lia Reals Lra Psatz.
From Verif Require Import Scalar Prog Model Wp Func Step TrigProof InitProof SurfProof RunProof Par FuncExt Spec RunThms
  RSum RSpec RPoint RQuad RThms RThms2.
Import ListNotations.
Local Open Scope Z_scope.
Local Open Scope R_scope.

(** ** C16 *)
(** The amplitude of cos(m t - n z) and of sin(m t - n z) in a Fourier series: the modes (m,n)
    and (-m,-n) are the same cosine and opposite sines. *)
Definition is_mode (ms ns : Z -> Z) (m n k : Z) : bool := (Z.eqb (ms k) m && Z.eqb (ns k) n)%bool.
Definition amp_c (N : Z) (ms ns : Z -> Z) (c : Z -> R) (m n : Z) : R :=
  rsum N (fun k => if (is_mode ms ns m n k || is_mode ms ns (- m) (- n) k)%bool then c k else 0).
Definition amp_s (N : Z) (ms ns : Z -> Z) (s : Z -> R) (m n : Z) : R :=
  rsum N (fun k => (if is_mode ms ns m n k then s k else 0) - (if is_mode ms ns (- m) (- n) k then s k else 0)).

(** lambda = 0 and B_theta, B_zeta constant on the surface *)
Definition in_boozer (i : Inp RS) (js : Z) : Prop :=
  (forall k, (0 <= k < mnmax i)%Z -> lmns i k js = 0 /\ (asym i = true -> lmnc i k js = 0)) /\
  (forall k, (0 <= k < mnmaxq i)%Z -> xmq i k <> 0%Z \/ xnq i k <> 0%Z ->
     bsubumnc i k js = 0 /\ bsubvmnc i k js = 0 /\ (asym i = true -> bsubumns i k js = 0 /\ bsubvmns i k js = 0)).
(** no input mode has the same values on the grid as another input or output mode *)
Definition no_alias (i : Inp RS) (N : Z) (ms ns : Z -> Z) : Prop :=
  forall k, (0 <= k < N)%Z -> (0 <= ms k /\ ms k + mboz i <= nt i)%Z /\ (Z.abs (ns k) < nfp i * (nz i - nboz i))%Z.

Section Grid.
Variable i : Inp RS.
Hypothesis Hok : ok_inp i.
Lemma grid_cos u v x : (nfp i | v)%Z -> (Z.abs u < nt i)%Z -> (Z.abs v < nfp i * nz i)%Z ->
  rsum (nt i) (fun a => rsum (nz i) (fun b => cos (x + phase u v (gth i a) (gze i b)))) =
  if (Z.eqb u 0 && Z.eqb v 0)%bool then IZR (nt i) * IZR (nz i) * cos x else 0.
Proof.
  intros (r & ->) Hu Hv. pose proof (nt_pos i Hok) as Ht. pose proof (nz_pos i Hok) as Hz.
  pose proof (ok_nfp _ _ Hok) as Hf.
  assert (IZR (nt i) <> 0) by (apply not_0_IZR; lia). assert (IZR (nz i) <> 0) by (apply not_0_IZR; lia).
  assert (IZR (nfp i) <> 0) by (apply not_0_IZR; lia).
  transitivity (rsum (nt i) (fun a => rsum (nz i) (fun b =>
    cos (x + IZR a * (2 * PI * IZR u / IZR (nt i)) + IZR b * (2 * PI * IZR (- r) / IZR (nz i)))))).
  { apply rsum_ext. intros a _. apply rsum_ext. intros b _. f_equal. unfold phase, gth, gze.
    rewrite mult_IZR, opp_IZR. field. auto. }
  rewrite sum_cos_grid by auto.
  assert (A : (u mod nt i = 0 <-> u = 0)%Z).
  { split; [|now intros ->]. intros E. apply Z.mod_divide in E; [|lia]. destruct E as (q & ->). assert (q = 0)%Z by nia. lia. }
  assert (Hr : (Z.abs r < nz i)%Z) by nia.
  assert (B : ((- r) mod nz i = 0 <-> r * nfp i = 0)%Z).
  { split.
    - intros E. apply Z.mod_divide in E; [|lia]. destruct E as (q & E). assert (q = 0)%Z by nia. nia.
    - intros E. assert (r = 0)%Z by nia. subst r. reflexivity. }
  destruct (Z.eqb_spec (u mod nt i) 0), (Z.eqb_spec u 0); try tauto; cbn [andb]; auto.
  destruct (Z.eqb_spec ((- r) mod nz i) 0), (Z.eqb_spec (r * nfp i) 0); try tauto; auto.
Qed.
Lemma grid_sin u v : (nfp i | v)%Z -> (Z.abs u < nt i)%Z -> (Z.abs v < nfp i * nz i)%Z ->
  rsum (nt i) (fun a => rsum (nz i) (fun b => sin (phase u v (gth i a) (gze i b)))) = 0.
Proof.
  intros D Hu Hv. transitivity (rsum (nt i) (fun a => rsum (nz i) (fun b => cos (- (PI / 2) + phase u v (gth i a) (gze i b))))).
  { apply rsum_ext. intros a _. apply rsum_ext. intros b _. rewrite <- cos_shift, <- (cos_neg (PI / 2 - _)). f_equal. lra. }
  rewrite grid_cos by auto. rewrite cos_neg, cos_PI2. destruct (_ && _)%bool; lra.
Qed.

Definition dsum (g : R -> R -> R) : R := rsum (nt i) (fun a => rsum (nz i) (fun b => g (gth i a) (gze i b))).
Lemma dsum_ext g h : (forall t z, g t z = h t z) -> dsum g = dsum h.
Proof. intros H. apply rsum_ext. intros a _. apply rsum_ext. intros b _. apply H. Qed.
Lemma dsum_add g h : dsum (fun t z => g t z + h t z) = dsum g + dsum h.
Proof. unfold dsum. rewrite <- rsum_add. apply rsum_ext. intros a _. apply rsum_add. Qed.
Lemma dsum_scal c g : dsum (fun t z => c * g t z) = c * dsum g.
Proof. unfold dsum. rewrite <- rsum_scal. apply rsum_ext. intros a _. apply rsum_scal. Qed.
Lemma dsum_rsum N (g : Z -> R -> R -> R) : dsum (fun t z => rsum N (fun k => g k t z)) = rsum N (fun k => dsum (g k)).
Proof.
  unfold dsum. transitivity (rsum (nt i) (fun a => rsum N (fun k => rsum (nz i) (fun b => g k (gth i a) (gze i b))))).
  - apply rsum_ext. intros a _. apply rsum_swap.
  - apply rsum_swap.
Qed.

Definition ind (u v : Z) : R := if (Z.eqb u 0 && Z.eqb v 0)%bool then 1 else 0.
Definition NM : R := IZR (nt i) * IZR (nz i).
Lemma dcos u v : (nfp i | v)%Z -> (Z.abs u < nt i)%Z -> (Z.abs v < nfp i * nz i)%Z ->
  dsum (fun t z => cos (phase u v t z)) = NM * ind u v.
Proof.
  intros A B C. transitivity (dsum (fun t z => cos (0 + phase u v t z))).
  { apply dsum_ext. intros. now rewrite Rplus_0_l. }
  unfold dsum. rewrite grid_cos by auto. unfold ind, NM. rewrite cos_0. destruct (_ && _)%bool; lra.
Qed.
Lemma dsin u v : (nfp i | v)%Z -> (Z.abs u < nt i)%Z -> (Z.abs v < nfp i * nz i)%Z ->
  dsum (fun t z => sin (phase u v t z)) = 0.
Proof. apply grid_sin. Qed.

Lemma phase_add u v m n t z : phase (u + m) (v + n) t z = phase u v t z + phase m n t z.
Proof. unfold phase. rewrite !plus_IZR. lra. Qed.
Lemma phase_sub u v m n t z : phase (u - m) (v - n) t z = phase u v t z - phase m n t z.
Proof. unfold phase. rewrite !minus_IZR. lra. Qed.

Section Pair.
Variables u v m n : Z.
Hypothesis Dv : (nfp i | v)%Z.
Hypothesis Dn : (nfp i | n)%Z.
Hypothesis Hu : (Z.abs u + Z.abs m < nt i)%Z.
Hypothesis Hv : (Z.abs v + Z.abs n < nfp i * nz i)%Z.
Let D1 : (nfp i | v - n)%Z. Proof. now apply Z.divide_sub_r. Qed.
Let D2 : (nfp i | v + n)%Z. Proof. now apply Z.divide_add_r. Qed.
Ltac go := intros; rewrite ?phase_add, ?phase_sub, ?cos_plus, ?cos_minus, ?sin_plus, ?sin_minus; lra.
Lemma d_cc : dsum (fun t z => cos (phase u v t z) * cos (phase m n t z)) = NM / 2 * (ind (u - m) (v - n) + ind (u + m) (v + n)).
Proof.
  rewrite (dsum_ext _ (fun t z => / 2 * (cos (phase (u - m) (v - n) t z) + cos (phase (u + m) (v + n) t z)))) by go.
  rewrite dsum_scal, dsum_add, !dcos by (auto; lia). lra.
Qed.
Lemma d_ss : dsum (fun t z => sin (phase u v t z) * sin (phase m n t z)) = NM / 2 * (ind (u - m) (v - n) - ind (u + m) (v + n)).
Proof.
  rewrite (dsum_ext _ (fun t z => / 2 * (cos (phase (u - m) (v - n) t z) + (-1) * cos (phase (u + m) (v + n) t z)))) by go.
  rewrite dsum_scal, dsum_add, dsum_scal, !dcos by (auto; lia). lra.
Qed.
Lemma d_sc : dsum (fun t z => sin (phase u v t z) * cos (phase m n t z)) = 0.
Proof.
  rewrite (dsum_ext _ (fun t z => / 2 * (sin (phase (u - m) (v - n) t z) + sin (phase (u + m) (v + n) t z)))) by go.
  rewrite dsum_scal, dsum_add, !dsin by (auto; lia). lra.
Qed.
Lemma d_cs : dsum (fun t z => cos (phase u v t z) * sin (phase m n t z)) = 0.
Proof.
  rewrite (dsum_ext _ (fun t z => / 2 * (sin (phase (u + m) (v + n) t z) + (-1) * sin (phase (u - m) (v - n) t z)))) by go.
  rewrite dsum_scal, dsum_add, dsum_scal, !dsin by (auto; lia). lra.
Qed.
End Pair.

Lemma NM_pos : 0 < NM.
Proof.
  pose proof (nt_pos i Hok). pose proof (nz_pos i Hok). unfold NM. apply Rmult_lt_0_compat; apply IZR_lt; auto.
Qed.

Section OneSeries.
Variables (N : Z) (ms ns : Z -> Z) (c s : Z -> R) (m n : Z).
Hypothesis Hd : forall k, (0 <= k < N)%Z -> (nfp i | ns k)%Z.
Hypothesis Hna : no_alias i N ms ns.
Hypothesis Hn : (nfp i | n)%Z.
Hypothesis Bm : (0 <= m < mboz i)%Z.
Hypothesis Bn : (Z.abs n <= nfp i * nboz i)%Z.
Let fac := (if (Z.eqb m 0 && Z.eqb n 0)%bool then 1 else 2) / (IZR (nt i) * IZR (nz i)).
Let bnd k : (0 <= k < N)%Z -> (Z.abs (ms k) + Z.abs m < nt i)%Z /\ (Z.abs (ns k) + Z.abs n < nfp i * nz i)%Z.
Proof. intros Hk. destruct (Hna k Hk) as (A & B). split; nia. Qed.

Lemma proj_cos : fac * dsum (fun t z => series N ms ns c s t z * cos (phase m n t z)) = amp_c N ms ns c m n.
Proof.
  rewrite (dsum_ext _ (fun t z => rsum N (fun k =>
    c k * (cos (phase (ms k) (ns k) t z) * cos (phase m n t z)) + s k * (sin (phase (ms k) (ns k) t z) * cos (phase m n t z))))).
  2:{ intros t z. unfold series. rewrite <- rsum_scal_r. apply rsum_ext. intros. lra. }
  rewrite dsum_rsum. unfold amp_c. rewrite <- rsum_scal. apply rsum_ext. intros k Hk. destruct (bnd k Hk) as (A & B).
  rewrite dsum_add, !dsum_scal, d_cc, d_sc by auto. unfold fac, ind, is_mode. fold NM. pose proof NM_pos.
  destruct (Z.eqb_spec (ms k) m), (Z.eqb_spec (ns k) n), (Z.eqb_spec (ms k) (- m)), (Z.eqb_spec (ns k) (- n)),
    (Z.eqb_spec m 0), (Z.eqb_spec n 0), (Z.eqb_spec (ms k - m) 0), (Z.eqb_spec (ns k - n) 0),
    (Z.eqb_spec (ms k + m) 0), (Z.eqb_spec (ns k + n) 0); try (exfalso; lia); cbn [andb orb]; field; lra.
Qed.
Lemma proj_sin : fac * dsum (fun t z => series N ms ns c s t z * sin (phase m n t z)) = amp_s N ms ns s m n.
Proof.
  rewrite (dsum_ext _ (fun t z => rsum N (fun k =>
    c k * (cos (phase (ms k) (ns k) t z) * sin (phase m n t z)) + s k * (sin (phase (ms k) (ns k) t z) * sin (phase m n t z))))).
  2:{ intros t z. unfold series. rewrite <- rsum_scal_r. apply rsum_ext. intros. lra. }
  rewrite dsum_rsum. unfold amp_s. rewrite <- rsum_scal. apply rsum_ext. intros k Hk. destruct (bnd k Hk) as (A & B).
  rewrite dsum_add, !dsum_scal, d_cs, d_ss by auto. unfold fac, ind, is_mode. fold NM. pose proof NM_pos.
  destruct (Z.eqb_spec (ms k) m), (Z.eqb_spec (ns k) n), (Z.eqb_spec (ms k) (- m)), (Z.eqb_spec (ns k) (- n)),
    (Z.eqb_spec m 0), (Z.eqb_spec n 0), (Z.eqb_spec (ms k - m) 0), (Z.eqb_spec (ns k - n) 0),
    (Z.eqb_spec (ms k + m) 0), (Z.eqb_spec (ns k + n) 0); try (exfalso; lia); cbn [andb orb]; field; lra.
Qed.
End OneSeries.
End Grid.

Section Ident.
Variables (i : Inp RS) (js : Z).
Hypothesis HB : in_boozer i js.
Lemma id_L t z : mL i js t z = 0.
Proof.
  unfold mL, series. apply rsum_zero. intros k Hk. destruct (proj1 HB k Hk) as (E & E'). unfold onA.
  destruct (asym i); rewrite ?E, ?E' by auto; lra.
Qed.
Lemma id_W t z : mW i js t z = 0.
Proof.
  unfold mW, series. apply rsum_zero. intros k Hk. pose proof (proj2 HB k Hk) as E. unfold onA, w_cos, w_sin.
  destruct (Z.eqb_spec (xmq i k) 0), (Z.eqb_spec (xnq i k) 0).
  1: destruct (asym i); lra.
  all: destruct E as (E1 & E2 & E3); auto; destruct (asym i);
    [destruct (E3 eq_refl) as (E4 & E5); rewrite ?E4, ?E5|]; rewrite ?E1, ?E2; rewrite ?div0, ?ndiv0; lra.
Qed.
Lemma id_Nu I G t z : mNu i js I G t z = 0.
Proof. unfold mNu. rewrite id_L, id_W. unfold Rdiv. lra. Qed.
Lemma id_Th I G t z : mTh i js I G t z = t.
Proof. unfold mTh. rewrite id_L, id_Nu. lra. Qed.
Lemma id_Ze I G t z : mZe i js I G t z = z.
Proof. unfold mZe. rewrite id_Nu. lra. Qed.
Lemma id_J I G J : is_jacobian i js I G J -> forall t z, J t z = 1.
Proof.
  intros H t z. destruct (H t z) as (a & b & c & d & A & B & C & D & ->).
  pose proof (derivable_ext _ _ _ _ (fun x => eq_sym (id_Th I G x z)) (derivable_pt_lim_id t)) as A'.
  pose proof (derivable_ext _ _ _ _ (fun x => eq_sym (id_Th I G t x)) (derivable_pt_lim_const t z)) as B'.
  pose proof (derivable_ext _ _ _ _ (fun x => eq_sym (id_Ze I G x z)) (derivable_pt_lim_const z t)) as C'.
  pose proof (derivable_ext _ _ _ _ (fun x => eq_sym (id_Ze I G t x)) (derivable_pt_lim_id z)) as D'.
  rewrite (uniqueness_limite _ _ _ _ A A'), (uniqueness_limite _ _ _ _ B B'),
    (uniqueness_limite _ _ _ _ C C'), (uniqueness_limite _ _ _ _ D D'). lra.
Qed.
Lemma id_quad I G J Q tr m n : is_jacobian i js I G J ->
  quad i js I G J Q tr m n =
  (if (Z.eqb m 0 && Z.eqb n 0)%bool then 1 else 2) / (IZR (nt i) * IZR (nz i)) * dsum i (fun t z => Q t z * tr (phase m n t z)).
Proof.
  intros HJ. unfold quad. f_equal. apply rsum_ext. intros a _. apply rsum_ext. intros b _. cbv zeta.
  rewrite id_Th, id_Ze, (id_J I G J HJ). lra.
Qed.
End Ident.

Theorem identity_transform (o : obj RS) i : valid o i -> nfp_divides i ->
  no_alias i (mnmax i) (xm i) (xn i) -> no_alias i (mnmaxq i) (xmq i) (xnq i) ->
  exists o' ev, run_ok o o' ev /\
  forall b js I G k m n, elemN o N_compute_surfs b = Some (Some js) ->
    elem o' A_Boozer_I b = Some (Some I) -> elem o' A_Boozer_G b = Some (Some G) ->
    G + iota i js * I <> 0 -> in_boozer i js ->
    elemN o' N_xm_b k = Some (Some m) -> elemN o' N_xn_b k = Some (Some n) ->
    let geo_c x := Some (Some (amp_c (mnmax i) (xm i) (xn i) (fun k => x i k js) m n)) in
    let geo_s x := Some (Some (amp_s (mnmax i) (xm i) (xn i) (fun k => x i k js) m n)) in
    elem2 o' A_rmnc_b k b = geo_c (@rmnc RS) /\
    elem2 o' A_zmns_b k b = geo_s (@zmns RS) /\
    elem2 o' A_bmnc_b k b = Some (Some (amp_c (mnmaxq i) (xmq i) (xnq i) (fun k => bmnc i k js) m n)) /\
    elem2 o' A_numns_b k b = Some (Some 0) /\
    (asym i = true ->
      elem2 o' A_rmns_b k b = geo_s (@rmns RS) /\
      elem2 o' A_zmnc_b k b = geo_c (@zmnc RS) /\
      elem2 o' A_bmns_b k b = Some (Some (amp_s (mnmaxq i) (xmq i) (xnq i) (fun k => bmns i k js) m n)) /\
      elem2 o' A_numnc_b k b = Some (Some 0)).
Proof.
  intros V Hd N1 N2. pose proof V as (Hok & Rp & W).
  destruct (run_total o i V) as (o' & E & _ & _ & _ & Q & _).
  exists o', (run_events RS i). split; auto. intros b js I G k m n Hjs _ _ _ HB Hm Hn. cbv zeta.
  destruct (surf_elem o i b js V Hjs) as (Hb & ->). set (js := surf i b) in *.
  destruct (mode_elem o' i k m Q Hm) as (Hk & ->).
  rewrite (elemN_vec _ _ _ _ _ (q_xn_b _ _ _ Q) Hk) in Hn. injection Hn as <-.
  assert (X : forall f, In f (outs (asym i)) ->
    elem2 o' f k b = Some (Some ((if (Z.eqb (xm_b i k) 0 && Z.eqb (xn_b i k) 0)%bool then 1 else 2) / (IZR (nt i) * IZR (nz i)) *
      dsum i (fun t z => out_Q i js f t z * out_trig f (phase (xm_b i k) (xn_b i k) t z))))).
  { intros f Hf. rewrite (coef_elem o' i b k f) by auto. do 2 f_equal. apply id_quad; auto using mJ_jacobian. }
  assert (S5 : forall f, In f sym_outs -> In f (outs (asym i))).
  { intros f Hf. unfold outs. destruct (asym i); auto. apply in_or_app; auto. }
  pose proof (mode_m_bounds i Hok k Hk) as Bm. pose proof (mode_n_bounds i Hok k Hk) as Bn.
  assert (Bm' : (0 <= xm_b i k < mboz i)%Z) by (unfold xm_b; lia).
  pose proof (ok_nfp _ _ Hok) as Hf.
  assert (Bn' : (Z.abs (xn_b i k) <= nfp i * nboz i)%Z) by (unfold xn_b; nia).
  assert (Dn : (nfp i | xn_b i k)%Z) by (exists (mode_n i k); reflexivity).
  assert (Z0 : forall tr, dsum i (fun t z => mNu i js (bI i js) (bG i js) t z * tr (phase (xm_b i k) (xn_b i k) t z)) = 0).
  { intros tr. rewrite (dsum_ext i _ (fun t z => 0 * 0)). rewrite dsum_scal; lra. intros. rewrite id_Nu by auto. lra. }
  destruct Hd as (Hd1 & Hd2).
  splits; try (rewrite X by (apply S5; cbn; tauto); do 2 f_equal; cbn [out_Q out_trig]).
  - apply proj_cos; auto.
  - apply proj_sin; auto.
  - apply proj_cos; auto.
  - rewrite Z0. apply Rmult_0_r.
  - intros Ha. splits; rewrite X by (rewrite Ha; cbn; tauto); do 2 f_equal; cbn [out_Q out_trig].
    + unfold mR, onA. rewrite Ha. apply proj_sin; auto.
    + unfold mZ, onA. rewrite Ha. apply proj_cos; auto.
    + unfold mB, onA. rewrite Ha. apply proj_sin; auto.
    + rewrite Z0. apply Rmult_0_r.
Qed.

(** Distinct modes, listed with m > 0 or with m = 0 and n >= 0: then each amplitude is one coefficient. *)
Definition canonical (N : Z) (ms ns : Z -> Z) : Prop :=
  (forall k, (0 <= k < N)%Z -> (0 < ms k \/ (ms k = 0 /\ 0 <= ns k))%Z) /\
  (forall k l, (0 <= k < N)%Z -> (0 <= l < N)%Z -> ms k = ms l -> ns k = ns l -> k = l).

Lemma is_mode_spec ms ns m n k : is_mode ms ns m n k = true <-> ms k = m /\ ns k = n.
Proof. unfold is_mode. rewrite andb_true_iff, !Z.eqb_eq. reflexivity. Qed.
Lemma canon_neg N ms ns m n k : canonical N ms ns -> (0 <= k < N)%Z -> (0 < m \/ (m = 0 /\ 0 <= n))%Z ->
  is_mode ms ns (- m) (- n) k = true -> (m = 0 /\ n = 0)%Z.
Proof. intros (C & _) Hk Hm H. apply is_mode_spec in H. specialize (C k Hk). lia. Qed.

Lemma amp_c_hit N ms ns c k : canonical N ms ns -> (0 <= k < N)%Z -> amp_c N ms ns c (ms k) (ns k) = c k.
Proof.
  intros C Hk. unfold amp_c. rewrite (rsum_single N k _ Hk).
  - assert (E : is_mode ms ns (ms k) (ns k) k = true) by (now apply is_mode_spec). now rewrite E.
  - intros l Hl Hne. destruct (is_mode ms ns (ms k) (ns k) l) eqn:E1.
    { apply is_mode_spec in E1. exfalso. apply Hne. apply C; tauto. }
    destruct (is_mode ms ns (- ms k) (- ns k) l) eqn:E2; auto. exfalso.
    destruct (canon_neg _ _ _ _ _ _ C Hl (proj1 C k Hk) E2) as (A & B). apply is_mode_spec in E2.
    apply Hne. apply C; auto; lia.
Qed.
Lemma amp_s_hit N ms ns s k : canonical N ms ns -> (0 <= k < N)%Z -> (ms k <> 0 \/ ns k <> 0)%Z ->
  amp_s N ms ns s (ms k) (ns k) = s k.
Proof.
  intros C Hk H0. unfold amp_s. rewrite (rsum_single N k _ Hk).
  - assert (E : is_mode ms ns (ms k) (ns k) k = true) by (now apply is_mode_spec). rewrite E.
    destruct (is_mode ms ns (- ms k) (- ns k) k) eqn:E2; [|lra].
    exfalso. apply (canon_neg _ _ _ _ _ _ C Hk (proj1 C k Hk)) in E2. lia.
  - intros l Hl Hne. destruct (is_mode ms ns (ms k) (ns k) l) eqn:E1.
    { apply is_mode_spec in E1. exfalso. apply Hne. apply C; tauto. }
    destruct (is_mode ms ns (- ms k) (- ns k) l) eqn:E2; [|lra]. exfalso.
    apply (canon_neg _ _ _ _ _ _ C Hl (proj1 C k Hk)) in E2. lia.
Qed.
Lemma amp_c_miss N ms ns c m n : canonical N ms ns -> (0 < m \/ (m = 0 /\ 0 <= n))%Z ->
  (forall k, (0 <= k < N)%Z -> ~ (ms k = m /\ ns k = n)) -> amp_c N ms ns c m n = 0.
Proof.
  intros C Hm H. unfold amp_c. apply rsum_zero. intros k Hk.
  destruct (is_mode ms ns m n k) eqn:E1. { apply is_mode_spec in E1. exfalso. exact (H k Hk E1). }
  destruct (is_mode ms ns (- m) (- n) k) eqn:E2; auto. exfalso.
  destruct (canon_neg _ _ _ _ _ _ C Hk Hm E2) as (-> & ->). apply is_mode_spec in E2. apply (H k Hk). lia.
Qed.
Lemma amp_s_miss N ms ns s m n : canonical N ms ns -> (0 < m \/ (m = 0 /\ 0 <= n))%Z ->
  (forall k, (0 <= k < N)%Z -> ~ (ms k = m /\ ns k = n)) -> amp_s N ms ns s m n = 0.
Proof.
  intros C Hm H. unfold amp_s. apply rsum_zero. intros k Hk.
  destruct (is_mode ms ns m n k) eqn:E1. { apply is_mode_spec in E1. exfalso. exact (H k Hk E1). }
  destruct (is_mode ms ns (- m) (- n) k) eqn:E2; [|lra]. exfalso.
  destruct (canon_neg _ _ _ _ _ _ C Hk Hm E2) as (-> & ->). apply is_mode_spec in E2. apply (H k Hk). lia.
Qed.
Lemma amp_s_00 N ms ns s : amp_s N ms ns s 0 0 = 0.
Proof. unfold amp_s. apply rsum_zero. intros. change (- 0)%Z with 0%Z. destruct (is_mode _ _ _ _ _); lra. Qed.

Lemma mode_canon (i : Inp RS) k : ok_inp i -> (0 <= k < mnboz i)%Z ->
  (0 < xm_b i k \/ (xm_b i k = 0 /\ 0 <= xn_b i k))%Z.
Proof.
  intros Hok Hk. pose proof (mode_m_bounds i Hok k Hk) as B. pose proof (ok_nfp _ _ Hok). pose proof (ok_nboz _ _ Hok).
  unfold xm_b, xn_b. destruct (Z.eq_dec (mode_m i k) 0) as [E|]; [right|left; lia]. split; auto.
  assert (Hlt : (k <= nboz i)%Z).
  { destruct (Z.le_gt_cases k (nboz i)) as [|L]; auto. exfalso. unfold mode_m in E.
    destruct (Z.leb_spec k (nboz i)); [lia|].
    assert (0 <= (k - (nboz i + 1)) / (2 * nboz i + 1))%Z by (apply Z.div_pos; lia). lia. }
  destruct (mode_at0 i k ltac:(lia)) as (_ & ->). nia.
Qed.

Theorem identity_modes (o : obj RS) i : valid o i -> nfp_divides i ->
  no_alias i (mnmax i) (xm i) (xn i) -> no_alias i (mnmaxq i) (xmq i) (xnq i) ->
  canonical (mnmax i) (xm i) (xn i) -> canonical (mnmaxq i) (xmq i) (xnq i) ->
  exists o' ev, run_ok o o' ev /\
  forall b js I G k m n, elemN o N_compute_surfs b = Some (Some js) ->
    elem o' A_Boozer_I b = Some (Some I) -> elem o' A_Boozer_G b = Some (Some G) ->
    G + iota i js * I <> 0 -> in_boozer i js ->
    elemN o' N_xm_b k = Some (Some m) -> elemN o' N_xn_b k = Some (Some n) ->
    (** a mode that is in the input *)
    (forall l, (0 <= l < mnmax i)%Z -> xm i l = m -> xn i l = n ->
       elem2 o' A_rmnc_b k b = Some (Some (rmnc i l js)) /\
       ((m <> 0 \/ n <> 0)%Z -> elem2 o' A_zmns_b k b = Some (Some (zmns i l js))) /\
       (asym i = true -> elem2 o' A_zmnc_b k b = Some (Some (zmnc i l js)) /\
         ((m <> 0 \/ n <> 0)%Z -> elem2 o' A_rmns_b k b = Some (Some (rmns i l js))))) /\
    (forall l, (0 <= l < mnmaxq i)%Z -> xmq i l = m -> xnq i l = n ->
       elem2 o' A_bmnc_b k b = Some (Some (bmnc i l js)) /\
       (asym i = true -> (m <> 0 \/ n <> 0)%Z -> elem2 o' A_bmns_b k b = Some (Some (bmns i l js)))) /\
    (** a mode that is not *)
    ((forall l, (0 <= l < mnmax i)%Z -> ~ (xm i l = m /\ xn i l = n)) ->
       elem2 o' A_rmnc_b k b = Some (Some 0) /\ elem2 o' A_zmns_b k b = Some (Some 0) /\
       (asym i = true -> elem2 o' A_zmnc_b k b = Some (Some 0) /\ elem2 o' A_rmns_b k b = Some (Some 0))) /\
    ((forall l, (0 <= l < mnmaxq i)%Z -> ~ (xmq i l = m /\ xnq i l = n)) ->
       elem2 o' A_bmnc_b k b = Some (Some 0) /\ (asym i = true -> elem2 o' A_bmns_b k b = Some (Some 0))) /\
    (** sine of nothing, and nu *)
    (m = 0%Z -> n = 0%Z -> elem2 o' A_zmns_b k b = Some (Some 0) /\
       (asym i = true -> elem2 o' A_rmns_b k b = Some (Some 0) /\ elem2 o' A_bmns_b k b = Some (Some 0))) /\
    elem2 o' A_numns_b k b = Some (Some 0) /\ (asym i = true -> elem2 o' A_numnc_b k b = Some (Some 0)).
Proof.
  intros V Hd N1 N2 C1 C2. pose proof V as (Hok & _).
  destruct (identity_transform o i V Hd N1 N2) as (o' & ev & E & H).
  exists o', ev. split; auto. intros b js I G k m n Hjs HI HG Hne HB Hm Hn.
  specialize (H b js I G k m n Hjs HI HG Hne HB Hm Hn). cbv zeta in H.
  destruct H as (R1 & Z1 & B1 & U1 & HA).
  assert (Cm : (0 < m \/ (m = 0 /\ 0 <= n))%Z).
  { destruct (run_total o i V) as (o2 & E2 & _ & _ & _ & Q & _). destruct (run_ok_det _ _ _ _ _ E E2) as (<- & _).
    destruct (mode_elem o' i k m Q Hm) as (Hk & ->).
    rewrite (elemN_vec _ _ _ _ _ (q_xn_b _ _ _ Q) Hk) in Hn. injection Hn as <-. now apply mode_canon. }
  rewrite R1, Z1, B1, U1. splits; auto.
  - intros l Hl <- <-. splits.
    + now rewrite (amp_c_hit _ _ _ (fun k => rmnc i k js)) by auto.
    + intros H0. now rewrite (amp_s_hit _ _ _ (fun k => zmns i k js)) by auto.
    + intros Ha. destruct (HA Ha) as (-> & -> & _). split.
      * now rewrite (amp_c_hit _ _ _ (fun k => zmnc i k js)) by auto.
      * intros H0. now rewrite (amp_s_hit _ _ _ (fun k => rmns i k js)) by auto.
  - intros l Hl <- <-. splits.
    + now rewrite (amp_c_hit _ _ _ (fun k => bmnc i k js)) by auto.
    + intros Ha H0. destruct (HA Ha) as (_ & _ & -> & _). now rewrite (amp_s_hit _ _ _ (fun k => bmns i k js)) by auto.
  - intros Hno. rewrite amp_c_miss, amp_s_miss by auto. splits; auto.
    intros Ha. destruct (HA Ha) as (-> & -> & _). rewrite amp_c_miss, amp_s_miss by auto. auto.
  - intros Hno. rewrite amp_c_miss by auto. splits; auto.
    intros Ha. destruct (HA Ha) as (_ & _ & -> & _). rewrite amp_s_miss by auto. auto.
  - intros -> ->. rewrite amp_s_00. split; auto. intros Ha. destruct (HA Ha) as (-> & _ & -> & _). rewrite !amp_s_00. auto.
  - intros Ha. apply (HA Ha).
Qed.

(** ** C24 *)
(** zeta = pi / nfp, or 0 if the grid has one point in zeta *)
Definition zhalf (i : Inp RS) : R := if Z.eqb (nz i) 1 then 0 else PI / IZR (nfp i).
Definition sym_points (i : Inp RS) : list (R * R) := [(0, 0); (PI, 0); (0, zhalf i); (PI, zhalf i)].

Lemma chk_pts (i : Inp RS) : ok_inp i ->
  map (fun j => (thg i j, zeg i j)) (chk_idx i) = sym_points i.
Proof.
  intros Hok. pose proof (nt_pos i Hok) as Ht. pose proof (nz_pos i Hok) as Hz. pose proof (ok_nfp _ _ Hok) as Hf.
  assert (IZR (nt i) <> 0) by (apply not_0_IZR; lia). assert (IZR (nz i) <> 0) by (apply not_0_IZR; lia).
  assert (IZR (nfp i) <> 0) by (apply not_0_IZR; lia).
  unfold chk_idx, sym_points. rewrite ntheta_half, nz_ok. cbn [map].
  assert (Hh : (0 <= nz i / 2 < nz i)%Z) by (split; [apply Z.div_pos; lia|apply Z.div_lt; lia]).
  assert (G0 : gth i 0 = 0) by (unfold gth, Rdiv; lra). assert (G1 : gze i 0 = 0) by (unfold gze, Rdiv; lra).
  assert (GP : gth i (2 * mboz i + 1) = PI).
  { unfold gth. apply (Rmult_eq_reg_r (IZR (nt i))); auto. unfold Rdiv. rewrite Rmult_assoc, Rinv_l, Rmult_1_r by auto.
    unfold nt. rewrite !plus_IZR, !mult_IZR. lra. }
  assert (GH : gze i (nz i / 2) = zhalf i).
  { unfold zhalf. destruct (Z.eqb_spec (nz i) 1) as [E|E]; [rewrite E; exact G1|].
    assert (Ev : (nz i = 2 * (nz i / 2))%Z).
    { unfold nz in *. destruct (Z.eqb (nboz i) 0); [lia|]. replace (4 * nboz i + 2)%Z with ((2 * nboz i + 1) * 2)%Z by lia.
      rewrite Z.div_mul by lia. lia. }
    unfold gze. assert (IZR (nz i) = 2 * IZR (nz i / 2)) as E2 by (rewrite Ev at 1; now rewrite mult_IZR).
    rewrite E2 in *. field. split; auto. intros X. rewrite X in *. lra. }
  rewrite !thg_ok, !zeg_ok.
  assert (Hd : forall a r, (0 <= r < nz i)%Z -> ((a * nz i + r) / nz i = a /\ (a * nz i + r) mod nz i = r)%Z).
  { intros a r Hr. split.
    - rewrite Z.div_add_l by lia. rewrite Z.div_small by lia. lia.
    - rewrite Z.add_comm, Z.mod_add by lia. apply Z.mod_small. lia. }
  rewrite (Z.div_0_l (nz i)), (Z.mod_0_l (nz i)) by lia.
  destruct (Hd (2 * mboz i + 1)%Z 0%Z ltac:(lia)) as (A1 & A2). rewrite Z.add_0_r in A1, A2. rewrite A1, A2.
  destruct (Hd 0%Z (nz i / 2)%Z ltac:(lia)) as (A3 & A4). rewrite Z.mul_0_l, Z.add_0_l in A3, A4. rewrite A3, A4.
  destruct (Hd (2 * mboz i + 1)%Z (nz i / 2)%Z ltac:(lia)) as (-> & ->).
  rewrite G0, G1, GP, GH. reflexivity.
Qed.

Theorem check_points (o : obj RS) i : valid o i ->
  exists o' ev nt nz l, run_ok o o' ev /\
    oI o' I_ntheta = Some nt /\ oI o' I_nzeta = Some nz /\ run (check_indices RS nt nz) o' = ROk l o' [] /\
    let zh := if Z.eqb nz 1 then 0 else PI / IZR (nfp i) in
    map (elem o' A_theta_grid) l = map (fun x => Some (Some x)) [0; PI; 0; PI] /\
    map (elem o' A_zeta_grid) l = map (fun x => Some (Some x)) [0; 0; zh; zh] /\
    (nz = 1%Z <-> nboz i = 0%Z).
Proof.
  intros V. pose proof V as (Hok & _). destruct (run_total o i V) as (o' & E & _ & _ & G & _ & _).
  exists o', (run_events RS i), (ntheta i), (nzeta i), (chk_idx i). splits; auto.
  - apply (g_ntheta _ _ _ G).
  - apply (g_nzeta _ _ _ G).
  - destruct (wp_run RS _ _ _ _ (check_indices_spec RS i Hok fp_any 0%Z o')) as (l & o2 & ev & E2 & -> & -> & ->). exact E2.
  - cbv zeta.
    assert (X : forall v f, vec_is (oA o' f) (npts i) v -> map (elem o' f) (chk_idx i) = map (fun j => Some (Some (v j))) (chk_idx i)).
    { intros v f Hv. pose proof (chk_idx_range RS i Hok 0%Z 0) as R0. pose proof (chk_idx_range RS i Hok 0%Z 1) as R1.
      pose proof (chk_idx_range RS i Hok 0%Z 2) as R2. pose proof (chk_idx_range RS i Hok 0%Z 3) as R3.
      change (Z.to_nat 0) with 0%nat in R0. change (Z.to_nat 1) with 1%nat in R1.
      change (Z.to_nat 2) with 2%nat in R2. change (Z.to_nat 3) with 3%nat in R3.
      unfold chk_idx in *. cbn [nth] in *. cbn [map].
      now rewrite (elem_vec _ _ _ _ _ Hv (R0 ltac:(lia))), (elem_vec _ _ _ _ _ Hv (R1 ltac:(lia))),
        (elem_vec _ _ _ _ _ Hv (R2 ltac:(lia))), (elem_vec _ _ _ _ _ Hv (R3 ltac:(lia))). }
    pose proof (chk_pts i Hok) as P. rewrite nz_ok. fold (zhalf i).
    splits.
    + rewrite (X _ _ (g_thg _ _ _ G)). apply (f_equal (map fst)) in P. rewrite map_map in P. cbn in P |- *.
      injection P as -> -> -> ->. reflexivity.
    + rewrite (X _ _ (g_zeg _ _ _ G)). apply (f_equal (map snd)) in P. rewrite map_map in P. cbn in P |- *.
      injection P as -> -> -> ->. reflexivity.
    + unfold nz. pose proof (ok_nboz _ _ Hok). destruct (Z.eqb_spec (nboz i) 0); lia.
Qed.

(** ** C25 *)
Definition is_acc (e : event RS) : bool := String.eqb (evTag e) "accuracy".
Definition rel_err (rec b : R) : R := Rabs (rec - b) / Rmax rec b.

Lemma chk_bb_ok (i : Inp RS) js r j : ok_inp i -> nfp_divides i ->
  chk_bb i js r j = series (mnboz i) (xm_b i) (xn_b i) (o_coef i js A_bmnc_b) (onA (asym i) (o_coef i js A_bmns_b))
    (mTh i js (bI i js) (bG i js) (thg i j) (zeg i j)) (mZe i js (bI i js) (bG i js) (thg i j) (zeg i j)).
Proof.
  intros Hok Hd. pose proof (ok_nfp _ _ Hok) as Hf. unfold chk_bb, series. cbv zeta.
  set (T := mTh _ _ _ _ _ _). set (ZE := mZe _ _ _ _ _ _).
  assert (ET : bth i js j = T) by (unfold bth; apply p_th_ok; auto).
  assert (EZ : bze i js j = ZE) by (unfold bze; apply p_ze_ok; auto).
  rewrite ET, EZ. rewrite f0R.
  assert (TS0 : forall m, (0 <= m)%Z -> @chk_TS RS i r T m = @TS RS T m).
  { intros m Hm. unfold chk_TS. destruct (Z.eqb_spec m 0) as [->|]; auto. rewrite wgt_ok, f0R, TS_exact, Rmult_0_l, sin_0 by lia. apply Rmult_0_r. }
  assert (Hc : forall k, (0 <= k)%Z ->
    @pcos RS (@TC RS T (xm_b i k)) (@chk_TS RS i r T (xm_b i k)) (@TC RS (IZR (nfp i) * ZE) (kn (nfp i) (xn_b i k)))
         (@TS RS (IZR (nfp i) * ZE) (kn (nfp i) (xn_b i k))) (xn_b i k) = cos (phase (xm_b i k) (xn_b i k) T ZE) /\
    @psin RS (@TC RS T (xm_b i k)) (@chk_TS RS i r T (xm_b i k)) (@TC RS (IZR (nfp i) * ZE) (kn (nfp i) (xn_b i k)))
         (@TS RS (IZR (nfp i) * ZE) (kn (nfp i) (xn_b i k))) (xn_b i k) = sin (phase (xm_b i k) (xn_b i k) T ZE)).
  { intros k Hk. pose proof (mode_m_nonneg i Hok k Hk) as Hm. rewrite TS0 by exact Hm.
    pose proof (pcos_exact (nfp i) (mode_m i k) (mode_n i k) 1 T ZE ltac:(lia) Hm) as E.
    pose proof (psin_exact (nfp i) (mode_m i k) (mode_n i k) 1 T ZE ltac:(lia) Hm) as E'.
    cbv zeta in E, E'. rewrite !Rmult_1_l in E, E'. unfold xn_b, xm_b. auto. }
  transitivity (accum (mnboz i) (fun k acc => acc + (o_coef i js A_bmnc_b k * cos (phase (xm_b i k) (xn_b i k) T ZE) +
     onA (asym i) (o_coef i js A_bmns_b) k * sin (phase (xm_b i k) (xn_b i k) T ZE))) 0).
  2:{ rewrite accum_rsum. apply Rplus_0_l. }
  apply accum_ext. intros k acc Hk. destruct (Hc k ltac:(lia)) as (E & E'). rs. rewrite E, E'. unfold onA.
  destruct (asym i); lra.
Qed.

Lemma fmaxR x y : fmax RS x y = Rmax x y.
Proof. unfold fmax. rs. unfold Rmax. destruct (Rlt_dec x y), (Rle_dec x y); try lra; auto. Qed.

Theorem accuracy_report (o : obj RS) i : valid o i -> nfp_divides i -> (0 < verb i)%Z ->
  exists o' ev, run_ok o o' ev /\
  exists line, filter is_acc ev = map line (zseq 0 (Z.to_nat (nsurf i))) /\
  forall b, (0 <= b < nsurf i)%Z ->
  exists js I G ms ns c s,
    elemN o N_compute_surfs b = Some (Some js) /\
    elem o' A_Boozer_I b = Some (Some I) /\ elem o' A_Boozer_G b = Some (Some G) /\
    (forall k, (0 <= k < mnboz i)%Z ->
       elemN o' N_xm_b k = Some (Some (ms k)) /\ elemN o' N_xn_b k = Some (Some (ns k)) /\
       elem2 o' A_bmnc_b k b = Some (Some (c k)) /\
       (asym i = true -> elem2 o' A_bmns_b k b = Some (Some (s k)))) /\
    let B p := mB i js (fst p) (snd p) in
    let rec p := series (mnboz i) ms ns c (onA (asym i) s) (mTh i js I G (fst p) (snd p)) (mZe i js I G (fst p) (snd p)) in
    line b = @mkEv RS "accuracy" [b; js] (map B (sym_points i) ++ map rec (sym_points i) ++
               map (fun p => rel_err (rec p) (B p)) (sym_points i)) /\
    (forall p, rec p = B p -> rel_err (rec p) (B p) = 0) /\
    (forall p, 0 < B p -> rel_err (rec p) (B p) = 0 -> rec p = B p).
Proof.
  intros V Hd Hv. pose proof V as (Hok & Rp & _). destruct (run_total o i V) as (o' & E & _ & _ & _ & Q & _).
  exists o', (run_events RS i). split; auto.
  exists (fun b => mkEv "accuracy" [b; surf i b] (chk_vals i (surf i b))). split.
  - unfold run_events. rewrite filter_app.
    assert (E0 : filter is_acc (head_events RS i) = []).
    { unfold head_events, init_events. repeat rewrite filter_app. 
      repeat match goal with |- context [if ?c then _ else _] => destruct c end; reflexivity. }
    rewrite E0. cbn [app]. unfold all_surfs. induction (zseq 0 (Z.to_nat (nsurf i))) as [|b l IH]; [reflexivity|].
    cbn [map List.concat]. rewrite filter_app, IH. unfold surf_events. destruct (Z.ltb_spec 0 (verb i)); [|lia].
    destruct (Z.ltb 1 (verb i)); reflexivity.
  - intros b Hb. set (js := surf i b).
    exists js, (bI i js), (bG i js), (xm_b i), (xn_b i), (o_coef i js A_bmnc_b), (o_coef i js A_bmns_b). splits.
    + apply (elemN_vec _ _ _ _ _ (r_surf _ _ _ Rp) Hb).
    + apply (elem_vec _ _ _ _ _ (q_I _ _ _ Q) Hb).
    + apply (elem_vec _ _ _ _ _ (q_G _ _ _ Q) Hb).
    + intros k Hk. splits.
      * apply (elemN_vec _ _ _ _ _ (q_xm_b _ _ _ Q) Hk).
      * apply (elemN_vec _ _ _ _ _ (q_xn_b _ _ _ Q) Hk).
      * apply (elem2_mat _ _ _ _ _ _ _ (q_out _ _ _ Q A_bmnc_b ltac:(unfold outs; destruct (asym i); cbn; tauto)) Hk Hb).
      * intros Ha. apply (elem2_mat _ _ _ _ _ _ _ (q_out _ _ _ Q A_bmns_b ltac:(rewrite Ha; cbn; tauto)) Hk Hb).
    + cbv zeta. splits.
      * f_equal. rewrite <- (chk_pts i Hok), !map_map. unfold chk_vals, chk_err, rel_err, chk_b. cbv zeta.
        rewrite !chk_bb_ok, !p_b_ok, !fmaxR by auto. unfold chk_idx. cbn [map app nth fst snd]. rs. reflexivity.
      * intros p Ep. unfold rel_err. rewrite Ep, Rminus_diag_eq, Rabs_R0 by auto. apply div0.
      * intros p Hp H0. unfold rel_err in H0.
        match type of H0 with Rabs (?r - ?b) / ?m = 0 => assert (Hm : 0 < m) by (eapply Rlt_le_trans; [exact Hp|apply Rmax_r]);
          assert (HH : Rabs (r - b) = 0) by (apply (Rmult_eq_reg_r (/ m)); [rewrite Rmult_0_l; exact H0|apply Rinv_neq_0_compat; lra]) end.
        destruct (Req_dec (series (mnboz i) (xm_b i) (xn_b i) (o_coef i js A_bmnc_b) (onA (asym i) (o_coef i js A_bmns_b))
          (mTh i js (bI i js) (bG i js) (fst p) (snd p)) (mZe i js (bI i js) (bG i js) (fst p) (snd p)) - mB i js (fst p) (snd p)) 0) as [Z0|Z0].
        { lra. } { apply Rabs_no_R0 in Z0. contradiction. }
Qed.
