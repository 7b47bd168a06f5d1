(** Rounding errors: every intermediate result of the transformation, in an accurate
    arithmetic, is within a constant times e of the exact one. *)
From Coq Require Import ZArith QArith List Bool Lia Reals Lra Psatz Qreals.
From Verif Require Import Scalar Prog Wp Func RoundSpec.
Import ListNotations.
Local Open Scope Z_scope.
Local Open Scope R_scope.

Section Env.
Variable i : Inp RS.
Record env : Type := mkEnv {
  eS : Scalar; eV : F eS -> R -> Prop; eE : R; eM : R; eI : Inp eS;
  e_acc : accurate eS eV eE eM; e_in : rounded eV eE eI i }.

(** [near x a]: in every environment accurate enough, x is finite and within C e of a. *)
Definition near (x : forall E, F (eS E)) (a : R) : Prop :=
  exists C e0 M0, 0 <= C /\ 0 < e0 /\ forall E, eE E <= e0 -> M0 <= eM E ->
    exists c, eV E (x E) c /\ Rabs (c - a) <= C * eE E.

Lemma near_ext x y a : (forall E, x E = y E) -> near x a -> near y a.
Proof.
  intros H (C & e0 & M0 & HC & He & N). exists C, e0, M0. repeat split; auto.
  intros E H1 H2. rewrite <- H. now apply N.
Qed.
Lemma near_if (b : env -> bool) b0 x y a a' : (forall E, b E = b0) -> (b0 = true -> near x a) -> (b0 = false -> near y a') ->
  near (fun E => if b E then x E else y E) (if b0 then a else a').
Proof.
  intros H Hx Hy. destruct b0.
  - apply (near_ext x); auto. intros E. now rewrite H.
  - apply (near_ext y); auto. intros E. now rewrite H.
Qed.
(** a conversion *)
Lemma near_conv x a (M0 : R) : (forall E, M0 <= eM E -> exists c, eV E (x E) c /\ Rabs (c - a) <= eE E * (1 + Rabs a)) -> near x a.
Proof.
  intros H. exists (1 + Rabs a), 1, M0. pose proof (Rabs_pos a). repeat split; try lra.
  intros E _ HM. destruct (H E HM) as (c & V & B). exists c. split; auto. lra.
Qed.
Lemma near_conv1 x a : (forall E, conv1 (eV E) (eE E) (x E) a) -> near x a.
Proof. intros H. apply (near_conv x a 0). intros E _. apply H. Qed.
Lemma near_ofZ z : near (fun E => fofZ (eS E) z) (IZR z).
Proof. apply (near_conv _ _ (Rabs (IZR z))). intros E H. apply (ac_ofZ _ _ _ _ (e_acc E)). exact H. Qed.
Lemma near_lit q : near (fun E => flit (eS E) q) (Q2R q).
Proof. apply (near_conv _ _ (Rabs (Q2R q))). intros E H. apply (ac_lit _ _ _ _ (e_acc E)). exact H. Qed.
Lemma near_pi : near (fun E => fpi (eS E)) PI.
Proof.
  apply (near_conv _ _ 0). intros E _. rewrite (Rabs_right PI); [|pose proof PI_RGT_0; lra].
  apply (ac_pi _ _ _ _ (e_acc E)).
Qed.
Lemma near_neg x a : near x a -> near (fun E => fneg (eS E) (x E)) (- a).
Proof.
  intros (C & e0 & M0 & HC & He & N). exists C, e0, M0. repeat split; auto. intros E H1 H2.
  destruct (N E H1 H2) as (c & V & B). exists (- c). split; [now apply (ac_neg _ _ _ _ (e_acc E))|].
  replace (- c - - a) with (- (c - a)) by ring. now rewrite Rabs_Ropp.
Qed.

(** two arguments *)
Lemma near_bin (op : forall E, F (eS E) -> F (eS E) -> F (eS E)) (g : R -> R -> R) (dom : R -> R -> Prop) x y a b L d :
  0 <= L -> 0 < d ->
  (forall p q, Rabs (p - a) <= d -> Rabs (q - b) <= d -> dom p q /\ Rabs (g p q - g a b) <= L * (Rabs (p - a) + Rabs (q - b))) ->
  (forall E x y p q, eV E x p -> eV E y q -> dom p q -> Rabs (g p q) <= eM E ->
     exists c, eV E (op E x y) c /\ Rabs (c - g p q) <= eE E * (1 + Rabs (g p q))) ->
  near x a -> near y b -> near (fun E => op E (x E) (y E)) (g a b).
Proof.
  intros HL Hd Lip Op (C & e0 & M0 & HC & He & N) (C' & e0' & M0' & HC' & He' & N').
  set (K := L * (C + C')). assert (HK : 0 <= K) by (apply Rmult_le_pos; lra).
  pose proof (Rabs_pos (g a b)) as Hg.
  exists (1 + Rabs (g a b) + K + K), (Rmin (Rmin e0 e0') (Rmin 1 (d / (1 + C + C')))), (Rmax (Rmax M0 M0') (Rabs (g a b) + K)).
  split; [lra|]. split.
  { repeat apply Rmin_glb_lt; auto; [lra|]. apply Rdiv_lt_0_compat; lra. }
  intros E H1 H2. pose proof (ac_pos _ _ _ _ (e_acc E)) as Pe. set (e := eE E) in *.
  assert (L1 : e <= e0 /\ e <= e0' /\ e <= 1 /\ e <= d / (1 + C + C')).
  { pose proof (Rmin_l (Rmin e0 e0') (Rmin 1 (d / (1 + C + C')))). pose proof (Rmin_r (Rmin e0 e0') (Rmin 1 (d / (1 + C + C')))).
    pose proof (Rmin_l e0 e0'). pose proof (Rmin_r e0 e0').
    pose proof (Rmin_l 1 (d / (1 + C + C'))). pose proof (Rmin_r 1 (d / (1 + C + C'))). lra. }
  assert (L2 : M0 <= eM E /\ M0' <= eM E /\ Rabs (g a b) + K <= eM E).
  { pose proof (Rmax_l (Rmax M0 M0') (Rabs (g a b) + K)). pose proof (Rmax_r (Rmax M0 M0') (Rabs (g a b) + K)).
    pose proof (Rmax_l M0 M0'). pose proof (Rmax_r M0 M0'). lra. }
  destruct L1 as (A1 & A2 & A3 & A4), L2 as (B1 & B2 & B3).
  destruct (N E A1 B1) as (p & Vp & Bp). destruct (N' E A2 B2) as (q & Vq & Bq). fold e in Bp, Bq.
  assert (D : (1 + C + C') * e <= d).
  { apply (Rmult_le_compat_l (1 + C + C')) in A4; [|lra]. replace ((1 + C + C') * (d / (1 + C + C'))) with d in A4; [exact A4|]. field. lra. }
  assert (C * e <= d /\ C' * e <= d) as (D1 & D2) by nra.
  destruct (Lip p q) as (Dm & Li); [lra|lra|].
  assert (T : Rabs (g p q - g a b) <= K * e).
  { eapply Rle_trans; [exact Li|]. unfold K. rewrite Rmult_assoc. apply Rmult_le_compat_l; auto. lra. }
  assert (T2 : Rabs (g p q) <= Rabs (g a b) + K * e).
  { replace (g p q) with (g a b + (g p q - g a b)) by ring. eapply Rle_trans; [apply Rabs_triang|]. lra. }
  assert (K * e <= K) by nra.
  destruct (Op E (x E) (y E) p q Vp Vq Dm) as (c & Vc & Bc); [lra|]. fold e in Bc.
  exists c. split; auto.
  replace (c - g a b) with ((c - g p q) + (g p q - g a b)) by ring.
  eapply Rle_trans; [apply Rabs_triang|]. nra.
Qed.

Lemma near_add x y a b : near x a -> near y b -> near (fun E => fadd (eS E) (x E) (y E)) (a + b).
Proof.
  apply (near_bin (fun E => fadd (eS E)) Rplus (fun _ _ => True) x y a b 1 1); try lra.
  - intros p q _ _. split; auto. replace (p + q - (a + b)) with ((p - a) + (q - b)) by ring.
    eapply Rle_trans; [apply Rabs_triang|]. lra.
  - intros E x0 y0 p q Vp Vq _. now apply (ac_add _ _ _ _ (e_acc E)).
Qed.
Lemma near_sub x y a b : near x a -> near y b -> near (fun E => fsub (eS E) (x E) (y E)) (a - b).
Proof.
  apply (near_bin (fun E => fsub (eS E)) Rminus (fun _ _ => True) x y a b 1 1); try lra.
  - intros p q _ _. split; auto. replace (p - q - (a - b)) with ((p - a) + - (q - b)) by ring.
    eapply Rle_trans; [apply Rabs_triang|]. rewrite Rabs_Ropp. lra.
  - intros E x0 y0 p q Vp Vq _. now apply (ac_sub _ _ _ _ (e_acc E)).
Qed.
Lemma near_mul x y a b : near x a -> near y b -> near (fun E => fmul (eS E) (x E) (y E)) (a * b).
Proof.
  pose proof (Rabs_pos a). pose proof (Rabs_pos b).
  apply (near_bin (fun E => fmul (eS E)) Rmult (fun _ _ => True) x y a b (1 + Rabs a + Rabs b) 1); try lra.
  - intros p q Hp Hq. split; auto. replace (p * q - a * b) with (p * (q - b) + b * (p - a)) by ring.
    eapply Rle_trans; [apply Rabs_triang|]. rewrite !Rabs_mult.
    assert (Rabs p <= Rabs a + 1).
    { replace p with (a + (p - a)) by ring. eapply Rle_trans; [apply Rabs_triang|]. lra. }
    pose proof (Rabs_pos (p - a)). pose proof (Rabs_pos (q - b)). pose proof (Rabs_pos p). nra.
  - intros E x0 y0 p q Vp Vq _. now apply (ac_mul _ _ _ _ (e_acc E)).
Qed.
Lemma near_div x y a b : b <> 0 -> near x a -> near y b -> near (fun E => fdiv (eS E) (x E) (y E)) (a / b).
Proof.
  intros Hb. pose proof (Rabs_pos a) as Pa. pose proof (Rabs_pos_lt b Hb) as Pb.
  apply (near_bin (fun E => fdiv (eS E)) Rdiv (fun _ q => q <> 0) x y a b (2 * (Rabs a + Rabs b) / (Rabs b * Rabs b)) (Rabs b / 2)); try lra.
  - apply Rmult_le_pos; [lra|]. apply Rlt_le, Rinv_0_lt_compat. nra.
  - intros p q Hp Hq.
    assert (Pq : Rabs b / 2 <= Rabs q).
    { assert (Rabs b <= Rabs q + Rabs (q - b)).
      { replace b with (q + - (q - b)) at 1 by ring. eapply Rle_trans; [apply Rabs_triang|]. rewrite Rabs_Ropp. lra. }
      lra. }
    assert (Nq : q <> 0) by (intros ->; rewrite Rabs_R0 in Pq; lra).
    split; auto. replace (p / q - a / b) with ((b * (p - a) - a * (q - b)) / (q * b)) by (field; auto).
    unfold Rdiv at 1. rewrite Rabs_mult.
    assert (X : Rabs (/ (q * b)) <= 2 / (Rabs b * Rabs b)).
    { rewrite Rabs_inv, Rabs_mult. replace (2 / (Rabs b * Rabs b)) with (/ (Rabs b / 2 * Rabs b)) by (field; lra).
      apply Rinv_le_contravar; nra. }
    assert (Y : Rabs (b * (p - a) - a * (q - b)) <= (Rabs a + Rabs b) * (Rabs (p - a) + Rabs (q - b))).
    { replace (b * (p - a) - a * (q - b)) with (b * (p - a) + - (a * (q - b))) by ring.
      eapply Rle_trans; [apply Rabs_triang|]. rewrite Rabs_Ropp, !Rabs_mult.
      pose proof (Rabs_pos (p - a)). pose proof (Rabs_pos (q - b)). nra. }
    eapply Rle_trans; [apply Rmult_le_compat; [apply Rabs_pos|apply Rabs_pos|exact Y|exact X]|].
    right. field. lra.
  - intros E x0 y0 p q Vp Vq Hq. now apply (ac_div _ _ _ _ (e_acc E)).
Qed.

(** cos and sin *)
Lemma mvt_abs (f f' : R -> R) : (forall c, derivable_pt_lim f c (f' c)) -> (forall c, Rabs (f' c) <= 1) ->
  forall p a, Rabs (f p - f a) <= Rabs (p - a).
Proof.
  intros D B.
  assert (X : forall p a, a < p -> Rabs (f p - f a) <= Rabs (p - a)).
  { intros p a H. destruct (MVT_cor2 f f' a p H) as (c & E & _); [intros; apply D|].
    rewrite E, Rabs_mult. rewrite <- (Rmult_1_l (Rabs (p - a))) at 2. apply Rmult_le_compat_r; [apply Rabs_pos|apply B]. }
  intros p a. destruct (Rtotal_order a p) as [H|[->|H]].
  - auto.
  - rewrite !Rminus_diag_eq by auto. rewrite Rabs_R0. lra.
  - rewrite Rabs_minus_sym, (Rabs_minus_sym p). auto.
Qed.
Lemma cos_lip p a : Rabs (cos p - cos a) <= Rabs (p - a).
Proof.
  apply (mvt_abs cos (fun c => - sin c)); [apply derivable_pt_lim_cos|].
  intros c. rewrite Rabs_Ropp. apply Rabs_le. apply SIN_bound.
Qed.
Lemma sin_lip p a : Rabs (sin p - sin a) <= Rabs (p - a).
Proof.
  apply (mvt_abs sin cos); [apply derivable_pt_lim_sin|].
  intros c. apply Rabs_le. apply COS_bound.
Qed.
Lemma near_un (op : forall E, F (eS E) -> F (eS E)) (g : R -> R) x a :
  (forall p q, Rabs (g p - g q) <= Rabs (p - q)) -> (forall p, Rabs (g p) <= 1) ->
  (forall E x p, eV E x p -> exists c, eV E (op E x) c /\ Rabs (c - g p) <= eE E * (1 + Rabs (g p))) ->
  near x a -> near (fun E => op E (x E)) (g a).
Proof.
  intros Lip B Op (C & e0 & M0 & HC & He & N). exists (2 + C), e0, M0. split; [lra|]. split; auto.
  intros E H1 H2. destruct (N E H1 H2) as (p & Vp & Bp). destruct (Op E _ _ Vp) as (c & Vc & Bc).
  exists c. split; auto. pose proof (ac_pos _ _ _ _ (e_acc E)). pose proof (B p). pose proof (Lip p a).
  replace (c - g a) with ((c - g p) + (g p - g a)) by ring. eapply Rle_trans; [apply Rabs_triang|]. nra.
Qed.
Lemma near_cos x a : near x a -> near (fun E => fcos (eS E) (x E)) (cos a).
Proof.
  apply (near_un (fun E => fcos (eS E)) cos); [apply cos_lip|intros; apply Rabs_le, COS_bound|].
  intros E y p V. now apply (ac_cos _ _ _ _ (e_acc E)).
Qed.
Lemma near_sin x a : near x a -> near (fun E => fsin (eS E) (x E)) (sin a).
Proof.
  apply (near_un (fun E => fsin (eS E)) sin); [apply sin_lip|intros; apply Rabs_le, SIN_bound|].
  intros E y p V. now apply (ac_sin _ _ _ _ (e_acc E)).
Qed.

(** loops *)
Lemma near_accum n (N : env -> Z) (f : forall E, Z -> F (eS E) -> F (eS E)) (g : Z -> R -> R) x a :
  (forall E, N E = n) ->
  (forall k y b, (0 <= k < n)%Z -> near y b -> near (fun E => f E k (y E)) (g k b)) -> near x a ->
  near (fun E => accum (N E) (f E) (x E)) (accum n g a).
Proof.
  intros HN Hs Hx. unfold accum.
  apply (near_ext (fun E => nat_rect (fun _ => F (eS E)) (x E) (fun k acc => f E (Z.of_nat k) acc) (Z.to_nat n))).
  { intros E. now rewrite HN. }
  assert (X : forall m, (Z.of_nat m <= n)%Z -> near
    (fun E => nat_rect (fun _ => F (eS E)) (x E) (fun k acc => f E (Z.of_nat k) acc) m)
    (nat_rect (fun _ => R) a (fun k acc => g (Z.of_nat k) acc) m)).
  { induction m as [|m IH]; intros Hm; cbn [nat_rect]; [exact Hx|].
    apply (Hs (Z.of_nat m)); [lia|]. apply IH. lia. }
  destruct (Z.le_gt_cases 0 n) as [Hn|Hn]; [apply X; lia|]. replace (Z.to_nat n) with O by lia. exact Hx.
Qed.

(** the operations, with the exact results written in the arithmetic RS *)
Lemma nA x y a b : near x a -> near y b -> near (fun E => fadd (eS E) (x E) (y E)) (fadd RS a b).
Proof. exact (near_add x y a b). Qed.
Lemma nS x y a b : near x a -> near y b -> near (fun E => fsub (eS E) (x E) (y E)) (fsub RS a b).
Proof. exact (near_sub x y a b). Qed.
Lemma nM x y a b : near x a -> near y b -> near (fun E => fmul (eS E) (x E) (y E)) (fmul RS a b).
Proof. exact (near_mul x y a b). Qed.
Lemma nD x y a b : b <> 0 -> near x a -> near y b -> near (fun E => fdiv (eS E) (x E) (y E)) (fdiv RS a b).
Proof. exact (near_div x y a b). Qed.
Lemma nN x a : near x a -> near (fun E => fneg (eS E) (x E)) (fneg RS a).
Proof. exact (near_neg x a). Qed.
Lemma nC x a : near x a -> near (fun E => fcos (eS E) (x E)) (fcos RS a).
Proof. exact (near_cos x a). Qed.
Lemma nSn x a : near x a -> near (fun E => fsin (eS E) (x E)) (fsin RS a).
Proof. exact (near_sin x a). Qed.
Lemma nPi : near (fun E => fpi (eS E)) (fpi RS). Proof. exact near_pi. Qed.
Lemma nL q : near (fun E => flit (eS E) q) (flit RS q). Proof. exact (near_lit q). Qed.
Lemma nZ (z : env -> Z) z0 : (forall E, z E = z0) -> near (fun E => fofZ (eS E) (z E)) (fofZ RS z0).
Proof. intros H. apply (near_ext (fun E => fofZ (eS E) z0)); [intros; now rewrite H|]. exact (near_ofZ z0). Qed.
Lemma n0 : near (fun E => f0 (eS E)) (f0 RS). Proof. exact (nZ (fun _ => 0%Z) 0%Z (fun _ => eq_refl)). Qed.
Lemma n1 : near (fun E => f1 (eS E)) (f1 RS). Proof. exact (nL _). Qed.

(** the tables *)
Lemma n_tcs x a k : near x a -> near (fun E => fst (tcs (x E) k)) (fst (tcs (S:=RS) a k)) /\ near (fun E => snd (tcs (x E) k)) (snd (tcs (S:=RS) a k)).
Proof.
  intros H. induction k as [|k (IC & IS)]; cbn [tcs].
  - split; cbn [fst snd]; [apply n1|apply n0].
  - destruct k as [|k]; cbn [fst snd].
    + split; [now apply nC|now apply nSn].
    + split; [apply nS|apply nA]; apply nM; assumption || (now apply nC) || (now apply nSn).
Qed.
Lemma nTC x a (k : env -> Z) k0 : (forall E, k E = k0) -> near x a -> near (fun E => TC (x E) (k E)) (TC (S:=RS) a k0).
Proof. intros H Hx. apply (near_ext (fun E => TC (x E) k0)); [intros; now rewrite H|]. apply n_tcs. exact Hx. Qed.
Lemma nTS x a (k : env -> Z) k0 : (forall E, k E = k0) -> near x a -> near (fun E => TS (x E) (k E)) (TS (S:=RS) a k0).
Proof. intros H Hx. apply (near_ext (fun E => TS (x E) k0)); [intros; now rewrite H|]. apply n_tcs. exact Hx. Qed.
Lemma n_pcos cm sm cn sn a b c d (n : env -> Z) n0 : (forall E, n E = n0) -> near cm a -> near sm b -> near cn c -> near sn d ->
  near (fun E => pcos (cm E) (sm E) (cn E) (sn E) (n E)) (pcos (S:=RS) a b c d n0).
Proof.
  intros H Ha Hb Hc Hd. unfold pcos. apply nA; [now apply nM|]. apply nM; [now apply nM|]. apply nZ. intros E. now rewrite H.
Qed.
Lemma n_psin cm sm cn sn a b c d (n : env -> Z) n0 : (forall E, n E = n0) -> near cm a -> near sm b -> near cn c -> near sn d ->
  near (fun E => psin (cm E) (sm E) (cn E) (sn E) (n E)) (psin (S:=RS) a b c d n0).
Proof.
  intros H Ha Hb Hc Hd. unfold psin. apply nS; [now apply nM|]. apply nM; [now apply nM|]. apply nZ. intros E. now rewrite H.
Qed.
Lemma n_pcosA th ze a b (nf m n : env -> Z) nf0 m0 n0 : (forall E, nf E = nf0) -> (forall E, m E = m0) -> (forall E, n E = n0) ->
  near th a -> near ze b -> near (fun E => pcosA (nf E) (th E) (ze E) (m E) (n E)) (pcosA (S:=RS) nf0 a b m0 n0).
Proof.
  intros H1 H2 H3 Ha Hb. unfold pcosA. cbv zeta.
  assert (K : forall E, kn (nf E) (n E) = kn nf0 n0) by (intros; now rewrite H1, H3).
  assert (Y : near (fun E => fmul (eS E) (fofZ (eS E) (nf E)) (ze E)) (fmul RS (fofZ RS nf0) b)) by (apply nM; [now apply nZ|assumption]).
  apply n_pcos; auto; (now apply nTC) || (now apply nTS).
Qed.
Lemma n_psinA th ze a b (nf m n : env -> Z) nf0 m0 n0 : (forall E, nf E = nf0) -> (forall E, m E = m0) -> (forall E, n E = n0) ->
  near th a -> near ze b -> near (fun E => psinA (nf E) (th E) (ze E) (m E) (n E)) (psinA (S:=RS) nf0 a b m0 n0).
Proof.
  intros H1 H2 H3 Ha Hb. unfold psinA. cbv zeta.
  assert (K : forall E, kn (nf E) (n E) = kn nf0 n0) by (intros; now rewrite H1, H3).
  assert (Y : near (fun E => fmul (eS E) (fofZ (eS E) (nf E)) (ze E)) (fmul RS (fofZ RS nf0) b)) by (apply nM; [now apply nZ|assumption]).
  apply n_psin; auto; (now apply nTC) || (now apply nTS).
Qed.

(** integer quantities do not depend on the arithmetic *)
Lemma z_asym E : asym (eI E) = asym i. Proof. apply (rd_asym _ _ _ _ (e_in E)). Qed.
Lemma z_nfp E : nfp (eI E) = nfp i. Proof. apply (rd_nfp _ _ _ _ (e_in E)). Qed.
Lemma z_mnmax E : mnmax (eI E) = mnmax i. Proof. apply (rd_mnmax _ _ _ _ (e_in E)). Qed.
Lemma z_mnmaxq E : mnmaxq (eI E) = mnmaxq i. Proof. apply (rd_mnmaxq _ _ _ _ (e_in E)). Qed.
Lemma z_mboz E : mboz (eI E) = mboz i. Proof. apply (rd_mboz _ _ _ _ (e_in E)). Qed.
Lemma z_nboz E : nboz (eI E) = nboz i. Proof. apply (rd_nboz _ _ _ _ (e_in E)). Qed.
Lemma z_xm k : (0 <= k < mnmax i)%Z -> forall E, xm (eI E) k = xm i k. Proof. intros H E. now apply (rd_xm _ _ _ _ (e_in E)). Qed.
Lemma z_xn k : (0 <= k < mnmax i)%Z -> forall E, xn (eI E) k = xn i k. Proof. intros H E. now apply (rd_xn _ _ _ _ (e_in E)). Qed.
Lemma z_xmq k : (0 <= k < mnmaxq i)%Z -> forall E, xmq (eI E) k = xmq i k. Proof. intros H E. now apply (rd_xmq _ _ _ _ (e_in E)). Qed.
Lemma z_xnq k : (0 <= k < mnmaxq i)%Z -> forall E, xnq (eI E) k = xnq i k. Proof. intros H E. now apply (rd_xnq _ _ _ _ (e_in E)). Qed.
Lemma z_ntheta E : ntheta (eI E) = ntheta i. Proof. unfold ntheta. now rewrite z_mboz. Qed.
Lemma z_nzeta E : nzeta (eI E) = nzeta i. Proof. unfold nzeta. now rewrite z_nboz. Qed.
Lemma z_nu2 E : nu2 (eI E) = nu2 i. Proof. unfold nu2. now rewrite z_ntheta. Qed.
Lemma z_nu3 E : nu3 (eI E) = nu3 i. Proof. unfold nu3. now rewrite z_ntheta, z_nu2, z_asym. Qed.
Lemma z_npts E : npts (eI E) = npts i. Proof. unfold npts. now rewrite z_nu3, z_nzeta. Qed.
Lemma z_mnboz E : mnboz (eI E) = mnboz i. Proof. unfold mnboz. now rewrite z_mboz, z_nboz. Qed.
Lemma z_xm_b k E : xm_b (eI E) k = xm_b i k. Proof. unfold xm_b, mode_m. now rewrite z_nboz. Qed.
Lemma z_xn_b k E : xn_b (eI E) k = xn_b i k. Proof. unfold xn_b, mode_n. now rewrite z_nboz, z_nfp. Qed.
Lemma z_half j E : half_pt (eI E) j = half_pt i j. Proof. unfold half_pt. now rewrite z_asym, z_nzeta, z_nu2. Qed.
Lemma z_is00 k : (0 <= k < mnmaxq i)%Z -> forall E, is00 (eI E) k = is00 i k.
Proof. intros H E. unfold is00. now rewrite z_xmq, z_xnq. Qed.

Hypothesis ok : ok_inp i.
Lemma p_ntheta : (4 <= ntheta i)%Z. Proof. unfold ntheta. pose proof (ok_mboz _ _ ok). lia. Qed.
Lemma p_nzeta : (1 <= nzeta i)%Z. Proof. unfold nzeta. pose proof (ok_nboz _ _ ok). destruct (nboz i =? 0)%Z; lia. Qed.
Lemma p_nu2 : (2 <= nu2 i)%Z.
Proof. unfold nu2. pose proof p_ntheta. assert (1 <= ntheta i / 2)%Z by (apply Z.div_le_lower_bound; lia). lia. Qed.
Lemma p_nu3 : (2 <= nu3 i)%Z. Proof. unfold nu3. pose proof p_ntheta. pose proof p_nu2. destruct (asym i); lia. Qed.
Lemma izr_nz z : z <> 0%Z -> fofZ RS z <> 0. Proof. intros H. change (IZR z <> 0). now apply not_0_IZR. Qed.

(** the grid *)
Lemma n_twopi : near (fun E => ftwopi (eS E)) (ftwopi RS).
Proof. unfold ftwopi. apply nM; [|apply nPi]; (apply nL || now apply nZ). Qed.
Lemma n_dtheta : near (fun E => dtheta (eI E)) (dtheta i).
Proof.
  unfold dtheta. apply near_if; [apply z_asym| |]; intros Ha.
  - apply nD; [apply izr_nz; pose proof p_nu3; lia|apply n_twopi|]. apply nZ. apply z_nu3.
  - apply nD; [apply izr_nz; pose proof p_nu3; lia|apply n_twopi|]. apply nZ. intros E. now rewrite z_nu3.
Qed.
Lemma n_dzeta : near (fun E => dzeta (eI E)) (dzeta i).
Proof.
  unfold dzeta. apply nD; [apply izr_nz; pose proof p_nzeta; pose proof (ok_nfp _ _ ok); nia|apply n_twopi|].
  apply nZ. intros E. now rewrite z_nfp, z_nzeta.
Qed.
Lemma n_thg j : near (fun E => thg (eI E) j) (thg i j).
Proof. unfold thg. apply nM; [|apply n_dtheta]. apply nZ. intros E. now rewrite z_nzeta. Qed.
Lemma n_zeg j : near (fun E => zeg (eI E) j) (zeg i j).
Proof. unfold zeg. apply nM; [|apply n_dzeta]. apply nZ. intros E. now rewrite z_nzeta. Qed.

(** one surface *)
Variable js : Z.
Hypothesis Hjs : (0 <= js < nsin i)%Z.
Section Inputs.
Variable k : Z.
Ltac inp := intros; apply near_conv1; intros E; pose proof (e_in E) as HE; destruct HE; match goal with |- conv1 _ _ (?f (eI E) k js) _ => match goal with H : _ -> conv _ _ _ _ (f _) _ |- _ => now apply H | H : conv _ _ _ _ (f _) _ |- _ => now apply H end | _ => auto end.
Lemma i_iota : near (fun E => iota (eI E) js) (iota i js). Proof. inp. Qed.
Lemma i_rmnc : (0 <= k < mnmax i)%Z -> near (fun E => rmnc (eI E) k js) (rmnc i k js). Proof. inp. Qed.
Lemma i_zmns : (0 <= k < mnmax i)%Z -> near (fun E => zmns (eI E) k js) (zmns i k js). Proof. inp. Qed.
Lemma i_lmns : (0 <= k < mnmax i)%Z -> near (fun E => lmns (eI E) k js) (lmns i k js). Proof. inp. Qed.
Lemma i_bmnc : (0 <= k < mnmaxq i)%Z -> near (fun E => bmnc (eI E) k js) (bmnc i k js). Proof. inp. Qed.
Lemma i_bsubumnc : (0 <= k < mnmaxq i)%Z -> near (fun E => bsubumnc (eI E) k js) (bsubumnc i k js). Proof. inp. Qed.
Lemma i_bsubvmnc : (0 <= k < mnmaxq i)%Z -> near (fun E => bsubvmnc (eI E) k js) (bsubvmnc i k js). Proof. inp. Qed.
Lemma i_rmns : asym i = true -> (0 <= k < mnmax i)%Z -> near (fun E => rmns (eI E) k js) (rmns i k js). Proof. inp. Qed.
Lemma i_zmnc : asym i = true -> (0 <= k < mnmax i)%Z -> near (fun E => zmnc (eI E) k js) (zmnc i k js). Proof. inp. Qed.
Lemma i_lmnc : asym i = true -> (0 <= k < mnmax i)%Z -> near (fun E => lmnc (eI E) k js) (lmnc i k js). Proof. inp. Qed.
Lemma i_bmns : asym i = true -> (0 <= k < mnmaxq i)%Z -> near (fun E => bmns (eI E) k js) (bmns i k js). Proof. inp. Qed.
Lemma i_bsubumns : asym i = true -> (0 <= k < mnmaxq i)%Z -> near (fun E => bsubumns (eI E) k js) (bsubumns i k js). Proof. inp. Qed.
Lemma i_bsubvmns : asym i = true -> (0 <= k < mnmaxq i)%Z -> near (fun E => bsubvmns (eI E) k js) (bsubvmns i k js). Proof. inp. Qed.

Lemma n_wmns : (0 <= k < mnmaxq i)%Z -> near (fun E => wmns (eI E) js k) (wmns i js k).
Proof.
  intros H. unfold wmns. apply near_if; [intros E; now rewrite z_xmq| |]; intros Ha.
  - apply nD; [apply izr_nz; intros X; rewrite X in Ha; discriminate|now apply i_bsubumnc|]. apply nZ. now apply z_xmq.
  - apply near_if; [intros E; now rewrite z_xnq| |]; intros Hb; [|apply n0].
    apply nD; [apply izr_nz; intros X; rewrite X in Hb; discriminate|apply nN; now apply i_bsubvmnc|]. apply nZ. now apply z_xnq.
Qed.
Lemma n_wmnc : asym i = true -> (0 <= k < mnmaxq i)%Z -> near (fun E => wmnc (eI E) js k) (wmnc i js k).
Proof.
  intros As H. unfold wmnc. apply near_if; [intros E; now rewrite z_xmq| |]; intros Ha.
  - apply nD; [apply izr_nz; intros X; rewrite X in Ha; discriminate|apply nN; now apply i_bsubumns|]. apply nZ. now apply z_xmq.
  - apply near_if; [intros E; now rewrite z_xnq| |]; intros Hb; [|apply n0].
    apply nD; [apply izr_nz; intros X; rewrite X in Hb; discriminate|now apply i_bsubvmns|]. apply nZ. now apply z_xnq.
Qed.
End Inputs.

Lemma n_bI : near (fun E => bI (eI E) js) (bI i js).
Proof.
  unfold bI. apply near_accum; [apply z_mnmaxq| |apply n0]. intros k y b Hk Hy.
  apply (near_if (fun E => is00 (eI E) k) (is00 i k)); [now apply z_is00| |]; intros _; [now apply i_bsubumnc|exact Hy].
Qed.
Lemma n_bG : near (fun E => bG (eI E) js) (bG i js).
Proof.
  unfold bG. apply near_accum; [apply z_mnmaxq| |apply n0]. intros k y b Hk Hy.
  apply (near_if (fun E => is00 (eI E) k) (is00 i k)); [now apply z_is00| |]; intros _; [now apply i_bsubvmnc|exact Hy].
Qed.
Lemma n_fsum (n : env -> Z) n0' (sym anti : forall E, Z -> F (eS E)) (sym0 anti0 : Z -> R) : (forall E, n E = n0') ->
  (forall k, (0 <= k < n0')%Z -> near (fun E => sym E k) (sym0 k)) ->
  (asym i = true -> forall k, (0 <= k < n0')%Z -> near (fun E => anti E k) (anti0 k)) ->
  near (fun E => fsum (eI E) (n E) (sym E) (anti E)) (fsum i n0' sym0 anti0).
Proof.
  intros Hn Hs Ha. unfold fsum. apply near_accum; [exact Hn| |apply n0]. intros k y b Hk Hy.
  apply (near_if (fun E => asym (eI E)) (asym i)); [apply z_asym| |]; intros As.
  - apply nA; [apply nA; auto|auto].
  - apply nA; auto.
Qed.

Section AtPoint.
Variables (th ze : forall E, F (eS E)) (a b : R).
Hypothesis Hth : near th a.
Hypothesis Hze : near ze b.
Ltac pt := intros;
  repeat first [ apply nM | apply nN | apply n_pcosA | apply n_psinA | exact Hth | exact Hze | apply z_nfp
    | apply z_xm; assumption | apply z_xn; assumption | apply z_xmq; assumption | apply z_xnq; assumption
    | apply nZ | apply i_rmnc; assumption | apply i_zmns; assumption | apply i_lmns; assumption | apply i_bmnc; assumption
    | apply i_rmns; assumption | apply i_zmnc; assumption | apply i_lmnc; assumption | apply i_bmns; assumption
    | apply n_wmns; assumption | apply n_wmnc; assumption ].
Lemma n_r : near (fun E => p_r (eI E) js (th E) (ze E)) (p_r i js a b). Proof. unfold p_r. apply n_fsum; [apply z_mnmax| |]; pt. Qed.
Lemma n_z : near (fun E => p_z (eI E) js (th E) (ze E)) (p_z i js a b). Proof. unfold p_z. apply n_fsum; [apply z_mnmax| |]; pt. Qed.
Lemma n_lam : near (fun E => p_lam (eI E) js (th E) (ze E)) (p_lam i js a b). Proof. unfold p_lam. apply n_fsum; [apply z_mnmax| |]; pt. Qed.
Lemma n_lt : near (fun E => p_lt (eI E) js (th E) (ze E)) (p_lt i js a b). Proof. unfold p_lt. apply n_fsum; [apply z_mnmax| |]; pt. Qed.
Lemma n_lz : near (fun E => p_lz (eI E) js (th E) (ze E)) (p_lz i js a b). Proof. unfold p_lz. apply n_fsum; [apply z_mnmax| |]; pt. Qed.
Lemma n_w : near (fun E => p_w (eI E) js (th E) (ze E)) (p_w i js a b). Proof. unfold p_w. apply n_fsum; [apply z_mnmaxq| |]; pt. Qed.
Lemma n_wt : near (fun E => p_wt (eI E) js (th E) (ze E)) (p_wt i js a b). Proof. unfold p_wt. apply n_fsum; [apply z_mnmaxq| |]; pt. Qed.
Lemma n_wz : near (fun E => p_wz (eI E) js (th E) (ze E)) (p_wz i js a b). Proof. unfold p_wz. apply n_fsum; [apply z_mnmaxq| |]; pt. Qed.
Lemma n_b : near (fun E => p_b (eI E) js (th E) (ze E)) (p_b i js a b). Proof. unfold p_b. apply n_fsum; [apply z_mnmaxq| |]; pt. Qed.

Lemma n_D : near (fun E => fadd (eS E) (bG (eI E) js) (fmul (eS E) (iota (eI E) js) (bI (eI E) js))) (bG i js + iota i js * bI i js).
Proof. apply nA; [apply n_bG|]. apply nM; [apply i_iota|apply n_bI]. Qed.
Hypothesis HD : bG i js + iota i js * bI i js <> 0.
Lemma n_oGI : near (fun E => oGI (eI E) js) (oGI i js). Proof. unfold oGI. apply nD; [exact HD|apply n1|apply n_D]. Qed.
Lemma n_nu : near (fun E => p_nu (eI E) js (th E) (ze E)) (p_nu i js a b).
Proof. unfold p_nu. apply nM; [apply n_oGI|]. apply nS; [apply n_w|]. apply nM; [apply n_bI|apply n_lam]. Qed.
Lemma n_th : near (fun E => p_th (eI E) js (th E) (ze E)) (p_th i js a b).
Proof. unfold p_th. apply nA; [apply nA; [exact Hth|apply n_lam]|]. apply nM; [apply i_iota|apply n_nu]. Qed.
Lemma n_ze : near (fun E => p_ze (eI E) js (th E) (ze E)) (p_ze i js a b).
Proof. unfold p_ze. apply nA; [exact Hze|apply n_nu]. Qed.
Lemma n_nuz : near (fun E => p_nuz (eI E) js (th E) (ze E)) (p_nuz i js a b).
Proof. unfold p_nuz. apply nM; [apply n_oGI|]. apply nS; [apply n_wz|]. apply nM; [apply n_bI|apply n_lz]. Qed.
Lemma n_nut : near (fun E => p_nut (eI E) js (th E) (ze E)) (p_nut i js a b).
Proof. unfold p_nut. apply nM; [apply n_oGI|]. apply nS; [apply n_wt|]. apply nM; [apply n_bI|apply n_lt]. Qed.
Lemma n_jac : near (fun E => p_jac (eI E) js (th E) (ze E)) (p_jac i js a b).
Proof.
  unfold p_jac. apply nA; apply nM.
  - apply nA; [apply n1|apply n_lt].
  - apply nA; [apply n1|apply n_nuz].
  - apply nS; [apply i_iota|apply n_lz].
  - apply n_nut.
Qed.
Lemma n_g : p_b i js a b <> 0 -> near (fun E => p_g (eI E) js (th E) (ze E)) (p_g i js a b).
Proof.
  intros Hb. unfold p_g. apply nD; [|apply n_D|apply nM; apply n_b].
  change (p_b i js a b * p_b i js a b <> 0). now apply Rmult_integral_contrapositive_currified.
Qed.
End AtPoint.

(** the output coefficients *)
Hypothesis HD : bG i js + iota i js * bI i js <> 0.
Lemma n_wgt j x a : near x a -> near (fun E => wgt (eI E) j (x E)) (wgt i j a).
Proof.
  intros H. unfold wgt. apply (near_if (fun E => half_pt (eI E) j)); [apply z_half| |]; intros _; [|exact H].
  apply nM; [apply nL|exact H].
Qed.
Lemma n_ff0 : near (fun E => ff0 (eI E)) (ff0 i).
Proof.
  unfold ff0. pose proof p_nzeta. pose proof p_ntheta. pose proof p_nu2.
  apply near_if; [apply z_asym| |]; intros _; (apply nD; [apply izr_nz; nia|apply nL|]); apply nZ; intros E.
  - now rewrite z_ntheta, z_nzeta.
  - now rewrite z_nu2, z_nzeta.
Qed.
Lemma n_ff k : near (fun E => ff (eI E) k) (ff i k).
Proof.
  unfold ff. apply (near_if (fun _ => (k =? 0)%Z)); [reflexivity| |]; intros _; [|apply n_ff0].
  apply nM; [apply n_ff0|apply nL].
Qed.
Lemma n_bth j : near (fun E => bth (eI E) js j) (bth i js j).
Proof. unfold bth. apply n_th; auto; [apply n_thg|apply n_zeg]. Qed.
Lemma n_bze j : near (fun E => bze (eI E) js j) (bze i js j).
Proof. unfold bze. apply n_ze; auto; [apply n_thg|apply n_zeg]. Qed.
Lemma n_y j : near (fun E => fmul (eS E) (fofZ (eS E) (nfp (eI E))) (bze (eI E) js j)) (fmul RS (fofZ RS (nfp i)) (bze i js j)).
Proof. apply nM; [apply nZ, z_nfp|apply n_bze]. Qed.
Lemma z_q k E : kn (nfp (eI E)) (xn_b (eI E) k) = kn (nfp i) (xn_b i k). Proof. now rewrite z_nfp, z_xn_b. Qed.
Lemma n_ocos k j : near (fun E => o_cos (eI E) js k j) (o_cos i js k j).
Proof.
  unfold o_cos. cbv zeta. apply nM; [apply nM|apply n_ff]; [|apply n_jac; auto; [apply n_thg|apply n_zeg]].
  apply n_pcos; [apply z_xn_b| | | |].
  - apply (n_wgt j (fun E => TC (bth (eI E) js j) (xm_b (eI E) k))). apply nTC; [apply z_xm_b|apply n_bth].
  - apply (n_wgt j (fun E => TS (bth (eI E) js j) (xm_b (eI E) k))). apply nTS; [apply z_xm_b|apply n_bth].
  - apply nTC; [apply z_q|apply n_y].
  - apply nTS; [apply z_q|apply n_y].
Qed.
Lemma n_osin k j : near (fun E => o_sin (eI E) js k j) (o_sin i js k j).
Proof.
  unfold o_sin. cbv zeta. apply nM; [apply nM|apply n_ff]; [|apply n_jac; auto; [apply n_thg|apply n_zeg]].
  apply n_psin; [apply z_xn_b| | | |].
  - apply (n_wgt j (fun E => TC (bth (eI E) js j) (xm_b (eI E) k))). apply nTC; [apply z_xm_b|apply n_bth].
  - apply (n_wgt j (fun E => TS (bth (eI E) js j) (xm_b (eI E) k))). apply nTS; [apply z_xm_b|apply n_bth].
  - apply nTC; [apply z_q|apply n_y].
  - apply nTS; [apply z_q|apply n_y].
Qed.
Lemma n_coef f k : In f (outs true) ->
  (f = A_gmnc_b \/ f = A_gmns_b -> forall j, (0 <= j < npts i)%Z -> p_b i js (thg i j) (zeg i j) <> 0) ->
  near (fun E => o_coef (eI E) js f k) (o_coef i js f k).
Proof.
  intros Hf Hb. unfold o_coef. apply near_accum; [apply z_npts| |apply n0]. intros j y c Hj Hy. apply nA; [exact Hy|].
  pose proof (n_thg j) as T. pose proof (n_zeg j) as Z.
  cbn [outs sym_outs asym_outs app In] in Hf.
  repeat (destruct Hf as [<-|Hf]); [..|contradiction]; unfold o_inc.
  - apply nM; [apply n_ocos|]. exact (n_b _ _ _ _ T Z).
  - apply nM; [apply n_ocos|]. exact (n_r _ _ _ _ T Z).
  - apply nM; [apply n_osin|]. exact (n_z _ _ _ _ T Z).
  - apply nM; [apply n_osin|]. exact (n_nu _ _ _ _ T Z HD).
  - apply nM; [apply n_ocos|]. exact (n_g _ _ _ _ T Z (Hb (or_introl eq_refl) j Hj)).
  - apply nM; [apply n_osin|]. exact (n_b _ _ _ _ T Z).
  - apply nM; [apply n_osin|]. exact (n_r _ _ _ _ T Z).
  - apply nM; [apply n_ocos|]. exact (n_z _ _ _ _ T Z).
  - apply nM; [apply n_ocos|]. exact (n_nu _ _ _ _ T Z HD).
  - apply nM; [apply n_osin|]. exact (n_g _ _ _ _ T Z (Hb (or_intror eq_refl) j Hj)).
Qed.
End Env.

(** Finitely many quantities are uniformly near. *)
Lemma near_uniform i (n m : Z) (l : list afield) (x : afield -> Z -> Z -> forall E : env i, F (eS i E)) (a : afield -> Z -> Z -> R) :
  (forall f k b, In f l -> (0 <= k < n)%Z -> (0 <= b < m)%Z -> near i (x f k b) (a f k b)) ->
  exists C e0 M0, 0 <= C /\ 0 < e0 /\ forall E, eE i E <= e0 -> M0 <= eM i E ->
    forall f k b, In f l -> (0 <= k < n)%Z -> (0 <= b < m)%Z ->
      exists c, eV i E (x f k b E) c /\ Rabs (c - a f k b) <= C * eE i E.
Proof.
  intros H.
  assert (G : forall T (l : list T) (P : T -> R -> R -> R -> Prop),
    (forall t C e M C' e' M', C <= C' -> e' <= e -> M <= M' -> P t C e M -> P t C' e' M') ->
    (forall t, In t l -> exists C e M, 0 <= C /\ 0 < e /\ P t C e M) ->
    exists C e M, 0 <= C /\ 0 < e /\ forall t, In t l -> P t C e M).
  { intros T l0 P Mo. induction l0 as [|t l0 IH]; intros Hl.
    - exists 0, 1, 0. repeat split; try lra. intros t [].
    - destruct IH as (C & e & M & HC & He & HP); [intros; apply Hl; now right|].
      destruct (Hl t) as (C' & e' & M' & HC' & He' & HP'); [now left|].
      exists (Rmax C C'), (Rmin e e'), (Rmax M M').
      split; [eapply Rle_trans; [exact HC|apply Rmax_l]|]. split; [now apply Rmin_glb_lt|].
      intros t' [<-|Ht].
      + eapply Mo; [apply Rmax_r|apply Rmin_r|apply Rmax_r|exact HP'].
      + eapply Mo; [apply Rmax_l|apply Rmin_l|apply Rmax_l|auto]. }
  set (P := fun (t : afield * (nat * nat)) C e M => forall E, eE i E <= e -> M <= eM i E ->
     exists c, eV i E (x (fst t) (Z.of_nat (fst (snd t))) (Z.of_nat (snd (snd t))) E) c /\
       Rabs (c - a (fst t) (Z.of_nat (fst (snd t))) (Z.of_nat (snd (snd t)))) <= C * eE i E).
  destruct (G _ (list_prod l (list_prod (seq 0 (Z.to_nat n)) (seq 0 (Z.to_nat m)))) P) as (C & e & M & HC & He & HP).
  - intros t C e M C' e' M' L1 L2 L3 HP E H1 H2. destruct (HP E) as (c & V & B); [lra|lra|]. exists c. split; auto.
    pose proof (ac_pos _ _ _ _ (e_acc i E)). nra.
  - intros (f & k & b) Ht. apply in_prod_iff in Ht. destruct Ht as (Hf & Ht). apply in_prod_iff in Ht. destruct Ht as (Hk & Hb).
    apply in_seq in Hk. apply in_seq in Hb.
    destruct (H f (Z.of_nat k) (Z.of_nat b) Hf) as (C & e & M & HC & He & HP); [lia|lia|].
    exists C, e, M. split; auto.
  - exists C, e, M. split; [auto|]. split; [auto|]. intros E H1 H2 f k b Hf Hk Hb.
    assert (I : In (f, (Z.to_nat k, Z.to_nat b)) (list_prod l (list_prod (seq 0 (Z.to_nat n)) (seq 0 (Z.to_nat m))))).
    { apply in_prod; [auto|]. apply in_prod; apply in_seq; lia. }
    destruct (HP _ I E H1 H2) as (c & V & B). cbn [fst snd] in V, B. rewrite !Z2Nat.id in V, B by lia. now exists c.
Qed.
