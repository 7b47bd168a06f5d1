(** Sums over the uniform grid of a smooth periodic function: they converge, faster than any
    power of the number of points, and vanish faster than any power for a divergence. *)
From Coq Require Import ZArith List Bool Lia Reals Lra Psatz.
From Verif Require Import Scalar RSum RSpec RPoint RQuad.
Import ListNotations.
Local Open Scope Z_scope.
Local Open Scope R_scope.

(** ** One variable *)

(** g has p derivatives, the last one bounded by M *)
Fixpoint Dk (p : nat) (M : R) (g : R -> R) : Prop :=
  match p with
  | O => forall x, Rabs (g x) <= M
  | S p' => exists g', (forall x, derivable_pt_lim g x (g' x)) /\ Dk p' M g'
  end.

Lemma derivative_periodic T g g' : (forall x, g (x + T) = g x) -> (forall x, derivable_pt_lim g x (g' x)) ->
  forall x, g' (x + T) = g' x.
Proof.
  intros P D x. apply (uniqueness_limite g x); [|apply D].
  intros e He. destruct (D (x + T) e He) as (d & Hd). exists d. intros h Hh Hh'. specialize (Hd h Hh Hh').
  replace (g (x + h)) with (g (x + T + h)); [|rewrite <- (P (x + h)); f_equal; lra].
  rewrite <- (P x). exact Hd.
Qed.

Definition avg (N : Z) (g : R -> R) (T s : R) : R := / IZR N * rsum N (fun a => g (T * IZR a / IZR N + s)).

Lemma rsum_abs n g M : (0 <= n)%Z -> (forall k, (0 <= k < n)%Z -> Rabs (g k) <= M) -> Rabs (rsum n g) <= IZR n * M.
Proof.
  intros Hn. revert n Hn. apply (rsum_ind (fun n => (forall k, (0 <= k < n)%Z -> Rabs (g k) <= M) -> Rabs (rsum n g) <= IZR n * M)).
  - intros _. rewrite rsum_0, Rabs_R0. lra.
  - intros n Hn IH H. rewrite rsum_succ, plus_IZR by auto.
    eapply Rle_trans; [apply Rabs_triang|]. pose proof (H n ltac:(lia)). pose proof (IH ltac:(intros; apply H; lia)). lra.
Qed.
Lemma mean_abs N g M : (0 < N)%Z -> (forall k, (0 <= k < N)%Z -> Rabs (g k) <= M) -> Rabs (/ IZR N * rsum N g) <= M.
Proof.
  intros HN H. assert (HN' : 0 < IZR N) by (apply IZR_lt; lia).
  rewrite Rabs_mult, (Rabs_right (/ IZR N)) by (apply Rle_ge, Rlt_le, Rinv_0_lt_compat; auto).
  pose proof (rsum_abs N g M ltac:(lia) H). apply (Rmult_le_reg_l (IZR N)); auto.
  rewrite <- Rmult_assoc, Rinv_r by lra. lra.
Qed.

Lemma avg_shift N g T s : (0 < N)%Z -> (forall x, g (x + T) = g x) -> avg N g T (s + T / IZR N) = avg N g T s.
Proof.
  intros HN P. unfold avg. f_equal. assert (HN' : IZR N <> 0) by (apply not_0_IZR; lia).
  rewrite <- (rsum_shift1 N (fun a => g (T * IZR a / IZR N + s))) by
    (try lia; rewrite <- (P (T * 0 / IZR N + s)); f_equal; field; auto).
  apply rsum_ext. intros a _. f_equal. rewrite plus_IZR. field. auto.
Qed.
Lemma avg_deriv N g g' T s : (forall x, derivable_pt_lim g x (g' x)) ->
  derivable_pt_lim (fun s => avg N g T s) s (avg N g' T s).
Proof.
  intros D. unfold avg.
  apply (derivable_pt_lim_scal (fun s => rsum N (fun a => g (T * IZR a / IZR N + s)))).
  apply (derivable_rsum N (fun a s => g (T * IZR a / IZR N + s))). intros a _.
  intros e He. destruct (D (T * IZR a / IZR N + s) e He) as (d & Hd). exists d. intros h Hh Hh'.
  specialize (Hd h Hh Hh'). rewrite Rplus_assoc in Hd. exact Hd.
Qed.

Lemma lip_bound (f f' : R -> R) M a b : (forall x, derivable_pt_lim f x (f' x)) -> (forall x, Rabs (f' x) <= M) ->
  Rabs (f a - f b) <= M * Rabs (a - b).
Proof.
  intros D B. assert (W : forall a b, a < b -> Rabs (f b - f a) <= M * Rabs (b - a)).
  { clear a b. intros a b H. destruct (MVT_cor2 f f' a b H (fun c _ => D c)) as (c & E & _).
    rewrite E, Rabs_mult. apply Rmult_le_compat_r; [apply Rabs_pos|apply B]. }
  destruct (Rtotal_order a b) as [H|[H|H]].
  - rewrite Rabs_minus_sym, (Rabs_minus_sym a). auto.
  - subst. replace (f b - f b) with 0 by lra. replace (b - b) with 0 by lra. rewrite Rabs_R0. lra.
  - now apply W.
Qed.

(** The mean over the grid of a derivative *)
Lemma avg_of_derivative N T p M : (0 < N)%Z -> 0 < T -> forall g g',
  (forall x, g (x + T) = g x) -> (forall x, derivable_pt_lim g x (g' x)) -> Dk p M g' ->
  forall s, Rabs (avg N g' T s) <= (T / IZR N) ^ p * M.
Proof.
  intros HN HT. assert (HN' : 0 < IZR N) by (apply IZR_lt; lia).
  assert (Hh : 0 < T / IZR N) by (apply Rdiv_lt_0_compat; auto).
  induction p as [|p IH]; intros g g' P D B s.
  - cbn [pow]. rewrite Rmult_1_l. apply mean_abs; auto.
  - destruct B as (g2 & D2 & B). pose proof (derivative_periodic T g g' P D) as P'.
    specialize (IH g' g2 P' D2 B). set (h := T / IZR N) in *.
    destruct (MVT_cor2 (fun s => avg N g T s) (fun s => avg N g' T s) s (s + h)) as (c & E & Hc); [lra| |].
    { intros x _. now apply avg_deriv. }
    assert (Z0 : avg N g' T c = 0).
    { unfold h in E at 1. rewrite avg_shift in E by auto. replace (avg N g T s - avg N g T s) with 0 in E by lra.
      symmetry in E. apply Rmult_integral in E. destruct E; [auto|lra]. }
    replace (avg N g' T s) with (avg N g' T s - avg N g' T c) by lra.
    eapply Rle_trans; [apply (lip_bound (fun s => avg N g' T s) (fun s => avg N g2 T s))|].
    + intros x. now apply avg_deriv.
    + exact IH.
    + cbn [pow]. replace (h * h ^ p * M) with (h ^ p * M * h) by lra.
      apply Rmult_le_compat_l.
      * eapply Rle_trans; [apply Rabs_pos|apply (IH s)].
      * apply Rabs_le. lra.
Qed.

(** The grid and a refinement of it *)
Lemma avg_refine N K T p M g g' : (0 < N)%Z -> (0 < K)%Z -> 0 < T ->
  (forall x, g (x + T) = g x) -> (forall x, derivable_pt_lim g x (g' x)) -> Dk p M g' ->
  Rabs (avg N g T 0 - avg (N * K) g T 0) <= (T / IZR N) ^ (S p) * M.
Proof.
  intros HN HK HT P D B. assert (HN' : 0 < IZR N) by (apply IZR_lt; lia). assert (HK' : 0 < IZR K) by (apply IZR_lt; lia).
  assert (Hh : 0 < T / IZR N) by (apply Rdiv_lt_0_compat; auto).
  assert (E : avg (N * K) g T 0 = / IZR K * rsum K (fun j => avg N g T (T / IZR N * IZR j / IZR K))).
  { unfold avg. rewrite rsum_scal. rewrite <- Rmult_assoc, mult_IZR.
    replace (/ IZR K * / IZR N) with (/ (IZR N * IZR K)) by (field; lra). f_equal.
    rewrite rsum_swap. rewrite <- (rsum_flat N K (fun a j => g (T * IZR a / IZR N + T / IZR N * IZR j / IZR K))) by lia.
    apply rsum_ext. intros j Hj. f_equal. rewrite Rplus_0_r.
    rewrite (Z.div_mod j K) at 1 by lia. rewrite plus_IZR, mult_IZR. field. lra. }
  rewrite E. replace (avg N g T 0) with (/ IZR K * rsum K (fun _ => avg N g T 0)) by
    (rewrite rsum_const by lia; field; lra).
  rewrite <- Rmult_minus_distr_l, <- rsum_sub. apply mean_abs; auto. intros j Hj.
  pose proof (avg_of_derivative N T p M HN HT g g' P D B) as A.
  eapply Rle_trans; [apply (lip_bound (fun s => avg N g T s) (fun s => avg N g' T s) _ _ _ (fun x => avg_deriv N g g' T x D) A)|].
  cbn [pow]. replace (T / IZR N * (T / IZR N) ^ p * M) with ((T / IZR N) ^ p * M * (T / IZR N)) by lra.
  apply Rmult_le_compat_l; [eapply Rle_trans; [apply Rabs_pos|apply (A 0)]|].
  assert (0 <= IZR j) by (apply IZR_le; lia). assert (IZR j <= IZR K) by (apply IZR_le; lia).
  assert (X : 0 <= T / IZR N * IZR j / IZR K <= T / IZR N).
  { split.
    - apply Rmult_le_pos; [apply Rmult_le_pos; lra|]. left. now apply Rinv_0_lt_compat.
    - apply (Rmult_le_reg_r (IZR K)); auto. unfold Rdiv at 1. rewrite Rmult_assoc, Rinv_l by lra.
      rewrite Rmult_1_r. apply Rmult_le_compat_l; lra. }
  apply Rabs_le. lra.
Qed.

(** ** Two variables *)

(** f is periodic and bounded, with its first k partial derivatives *)
Fixpoint Ck (nf : Z) (k : nat) (f : R -> R -> R) : Prop :=
  periodic nf f /\ (exists M, forall t z, Rabs (f t z) <= M) /\
  match k with
  | O => True
  | S k' => exists ft fz, (forall t z, derivable_pt_lim (fun x => f x z) t (ft t z)) /\
      (forall t z, derivable_pt_lim (fun x => f t x) z (fz t z)) /\ Ck nf k' ft /\ Ck nf k' fz
  end.
Definition smooth (nf : Z) (f : R -> R -> R) : Prop := forall k, Ck nf k f.

Lemma Ck_pred nf k : forall f, Ck nf (S k) f -> Ck nf k f.
Proof.
  induction k as [|k IH]; intros f (P & B & ft & fz & D1 & D2 & C1 & C2); (split; [exact P|split; [exact B|]]); [exact Logic.I|].
  exists ft, fz. repeat split; auto.
Qed.
Lemma Ck_ext nf k : forall f g, (forall t z, f t z = g t z) -> Ck nf k f -> Ck nf k g.
Proof.
  intros f g E C. destruct k as [|k]; destruct C as (P & (M & B) & C);
    (split; [intros t z; rewrite <- !E; apply P|split; [exists M; intros; rewrite <- E; apply B|]]); [exact Logic.I|].
  destruct C as (ft & fz & D1 & D2 & C1 & C2). exists ft, fz. repeat split; auto.
  - intros t z. apply (derivable_ext (fun x => f x z)); auto.
  - intros t z. apply (derivable_ext (fun x => f t x)); auto.
Qed.
Lemma Ck_const nf k c : Ck nf k (fun _ _ => c).
Proof.
  revert c. induction k as [|k IH]; intros c; (split; [split; reflexivity|split; [exists (Rabs c); intros; lra|]]); [exact Logic.I|].
  exists (fun _ _ => 0), (fun _ _ => 0). repeat split; auto; intros; apply (derivable_pt_lim_const c).
Qed.
Lemma Ck_add nf k : forall f g, Ck nf k f -> Ck nf k g -> Ck nf k (fun t z => f t z + g t z).
Proof.
  induction k as [|k IH]; intros f g (P & (M & B) & C) (P' & (M' & B') & C');
    (split; [intros t z; destruct (P t z) as (-> & ->); destruct (P' t z) as (-> & ->); auto|split;
      [exists (M + M'); intros; eapply Rle_trans; [apply Rabs_triang|]; pose proof (B t z); pose proof (B' t z); lra|]]); [exact Logic.I|].
  destruct C as (ft & fz & D1 & D2 & C1 & C2). destruct C' as (gt & gz & D1' & D2' & C1' & C2').
  exists (fun t z => ft t z + gt t z), (fun t z => fz t z + gz t z). repeat split; auto.
  - intros t z. apply (derivable_pt_lim_plus (fun x => f x z) (fun x => g x z)); auto.
  - intros t z. apply (derivable_pt_lim_plus (fun x => f t x) (fun x => g t x)); auto.
Qed.
Lemma Ck_mul nf k : forall f g, Ck nf k f -> Ck nf k g -> Ck nf k (fun t z => f t z * g t z).
Proof.
  induction k as [|k IH]; intros f g Cf Cg; pose proof Cf as (P & (M & B) & C); pose proof Cg as (P' & (M' & B') & C');
    (split; [intros t z; destruct (P t z) as (-> & ->); destruct (P' t z) as (-> & ->); auto|split;
      [exists (M * M'); intros; rewrite Rabs_mult; apply Rmult_le_compat; auto; apply Rabs_pos|]]); [exact Logic.I|].
  destruct C as (ft & fz & D1 & D2 & C1 & C2). destruct C' as (gt & gz & D1' & D2' & C1' & C2').
  apply Ck_pred in Cf. apply Ck_pred in Cg.
  exists (fun t z => ft t z * g t z + f t z * gt t z), (fun t z => fz t z * g t z + f t z * gz t z). repeat split.
  - intros t z. apply (derivable_pt_lim_mult (fun x => f x z) (fun x => g x z)); auto.
  - intros t z. apply (derivable_pt_lim_mult (fun x => f t x) (fun x => g t x)); auto.
  - apply Ck_add; auto.
  - apply Ck_add; auto.
Qed.
Lemma Ck_scal nf k c f : Ck nf k f -> Ck nf k (fun t z => c * f t z).
Proof. intros C. apply (Ck_mul nf k (fun _ _ => c)); auto. apply Ck_const. Qed.

Lemma smooth_const nf c : smooth nf (fun _ _ => c). Proof. intros k. apply Ck_const. Qed.
Lemma smooth_add nf f g : smooth nf f -> smooth nf g -> smooth nf (fun t z => f t z + g t z).
Proof. intros A B k. now apply Ck_add. Qed.
Lemma smooth_mul nf f g : smooth nf f -> smooth nf g -> smooth nf (fun t z => f t z * g t z).
Proof. intros A B k. now apply Ck_mul. Qed.
Lemma smooth_scal nf c f : smooth nf f -> smooth nf (fun t z => c * f t z).
Proof. intros A k. now apply Ck_scal. Qed.
Lemma smooth_ext nf f g : (forall t z, f t z = g t z) -> smooth nf f -> smooth nf g.
Proof. intros E A k. eapply Ck_ext; eauto. Qed.
Lemma smooth_sub nf f g : smooth nf f -> smooth nf g -> smooth nf (fun t z => f t z - g t z).
Proof.
  intros A B. apply (smooth_ext nf (fun t z => f t z + (-1) * g t z)); [intros; lra|].
  apply smooth_add; auto. now apply smooth_scal.
Qed.

(** the partial derivatives, whatever they are called *)
Lemma smooth_dt nf f ft : smooth nf f -> (forall t z, derivable_pt_lim (fun x => f x z) t (ft t z)) -> smooth nf ft.
Proof.
  intros A D k. destruct (A (S k)) as (_ & _ & gt & gz & D1 & _ & C & _). eapply Ck_ext; [|exact C].
  intros t z. eapply uniqueness_limite; eauto.
Qed.
Lemma smooth_dz nf f fz : smooth nf f -> (forall t z, derivable_pt_lim (fun x => f t x) z (fz t z)) -> smooth nf fz.
Proof.
  intros A D k. destruct (A (S k)) as (_ & _ & gt & gz & _ & D2 & _ & C). eapply Ck_ext; [|exact C].
  intros t z. eapply uniqueness_limite; eauto.
Qed.

(** functions of the kind used here *)
Lemma series_smooth nf n ms ns c s : (0 < nf)%Z -> (forall k, (0 <= k < n)%Z -> (nf | ns k)%Z) -> smooth nf (series n ms ns c s).
Proof.
  intros Hf Hd k. revert c s. induction k as [|k IH]; intros c s;
    (split; [now apply series_per|split]).
  1,3: exists (rsum n (fun k => Rabs (c k) + Rabs (s k))); intros t z; unfold series;
    (destruct (Z.le_gt_cases 0 n) as [Hn|Hn]; [|rewrite !rsum_neg by lia; rewrite Rabs_R0; lra]);
    clear IH || idtac; clear Hd; revert n Hn; apply rsum_ind; [rewrite !rsum_0, Rabs_R0; lra|];
    intros n Hn IHn; rewrite !rsum_succ by auto; eapply Rle_trans; [apply Rabs_triang|];
    apply Rplus_le_compat; auto; eapply Rle_trans; [apply Rabs_triang|]; rewrite !Rabs_mult;
    pose proof (COS_bound (phase (ms n) (ns n) t z)) as HC; pose proof (SIN_bound (phase (ms n) (ns n) t z)) as HS;
    apply Rplus_le_compat; rewrite <- (Rmult_1_r (Rabs _)) at 2; apply Rmult_le_compat_l;
    try apply Rabs_pos; apply Rabs_le; lra.
  - exact Logic.I.
  - exists (series n ms ns (fun k => s k * IZR (ms k)) (fun k => - c k * IZR (ms k))),
           (series n ms ns (fun k => - s k * IZR (ns k)) (fun k => c k * IZR (ns k))).
    repeat split; auto.
    + intros t z. replace (series n ms ns _ _ t z) with (series_t n ms ns c s t z); [apply series_dt|].
      unfold series, series_t. apply rsum_ext. intros j _. lra.
    + intros t z. replace (series n ms ns _ _ t z) with (series_z n ms ns c s t z); [apply series_dz|].
      unfold series, series_z. apply rsum_ext. intros j _. lra.
Qed.

Lemma trig_smooth nf (f ft fz : R -> R -> R) : smooth nf ft -> smooth nf fz ->
  (forall t z, derivable_pt_lim (fun x => f x z) t (ft t z)) -> (forall t z, derivable_pt_lim (fun x => f t x) z (fz t z)) ->
  periodic nf (fun t z => cos (f t z)) -> periodic nf (fun t z => sin (f t z)) ->
  smooth nf (fun t z => cos (f t z)) /\ smooth nf (fun t z => sin (f t z)).
Proof.
  intros St Sz Dt Dz Pc Ps. assert (X : forall k, Ck nf k (fun t z => cos (f t z)) /\ Ck nf k (fun t z => sin (f t z))).
  2: split; intros k; apply X.
  induction k as [|k (IHc & IHs)].
  - split; (split; [assumption|split; [exists 1; intros; apply Rabs_le|exact Logic.I]]);
      [apply COS_bound|apply SIN_bound].
  - split; (split; [assumption|split; [exists 1; intros; apply Rabs_le; (apply COS_bound || apply SIN_bound)|]]).
    + exists (fun t z => - sin (f t z) * ft t z), (fun t z => - sin (f t z) * fz t z). repeat split.
      * intros t z. apply (derivable_pt_lim_comp (fun x => f x z) cos); auto. apply derivable_pt_lim_cos.
      * intros t z. apply (derivable_pt_lim_comp (fun x => f t x) cos); auto. apply derivable_pt_lim_cos.
      * apply (Ck_ext nf k (fun t z => (-1) * (sin (f t z) * ft t z))); [intros; lra|]. apply Ck_scal, Ck_mul; auto.
      * apply (Ck_ext nf k (fun t z => (-1) * (sin (f t z) * fz t z))); [intros; lra|]. apply Ck_scal, Ck_mul; auto.
    + exists (fun t z => cos (f t z) * ft t z), (fun t z => cos (f t z) * fz t z). repeat split.
      * intros t z. apply (derivable_pt_lim_comp (fun x => f x z) sin); auto. apply derivable_pt_lim_sin.
      * intros t z. apply (derivable_pt_lim_comp (fun x => f t x) sin); auto. apply derivable_pt_lim_sin.
      * apply Ck_mul; auto.
      * apply Ck_mul; auto.
Qed.

Lemma inv_smooth nf f b : 0 < b -> (forall t z, b <= Rabs (f t z)) -> smooth nf f -> smooth nf (fun t z => / f t z).
Proof.
  intros Hb Hf Sf k. assert (NZ : forall t z, f t z <> 0).
  { intros t z E. specialize (Hf t z). rewrite E, Rabs_R0 in Hf. lra. }
  assert (P : periodic nf (fun t z => / f t z)).
  { intros t z. destruct (Sf O) as (P & _). destruct (P t z) as (-> & ->). auto. }
  assert (B : forall t z, Rabs (/ f t z) <= / b).
  { intros t z. rewrite Rabs_inv. apply Rinv_le_contravar; auto. }
  induction k as [|k IH]; (split; [exact P|split; [exists (/ b); exact B|]]); [exact Logic.I|].
  destruct (Sf (S k)) as (_ & _ & ft & fz & D1 & D2 & C1 & C2).
  assert (DI : forall (g : R -> R) x d, g x <> 0 -> derivable_pt_lim g x d ->
    derivable_pt_lim (fun y => / g y) x ((-1) * (d * (/ g x * / g x)))).
  { intros g x d Hg D. pose proof (derivable_pt_lim_div (fct_cte 1) g x 0 d (derivable_pt_lim_const 1 x) D Hg) as E.
    replace ((-1) * (d * (/ g x * / g x))) with ((0 * g x - d * fct_cte 1 x) / (g x)²) by (unfold fct_cte, Rsqr; field; auto).
    eapply derivable_ext; [|exact E]. intros y. unfold div_fct, fct_cte. unfold Rdiv. now rewrite Rmult_1_l. }
  exists (fun t z => (-1) * (ft t z * (/ f t z * / f t z))), (fun t z => (-1) * (fz t z * (/ f t z * / f t z))). repeat split.
  - intros t z. apply (DI (fun x => f x z)); auto.
  - intros t z. apply (DI (fun x => f t x)); auto.
  - apply Ck_scal, Ck_mul; auto. now apply Ck_mul.
  - apply Ck_scal, Ck_mul; auto. now apply Ck_mul.
Qed.

(** ** Sums over the grid *)
Section Grid.
Variable nf : Z.
Hypothesis Hnf : (0 < nf)%Z.
Definition TT : R := 2 * PI.
Definition ZT : R := 2 * PI / IZR nf.
Lemma TT_pos : 0 < TT. Proof. unfold TT. pose proof PI_RGT_0. lra. Qed.
Lemma ZT_pos : 0 < ZT. Proof. unfold ZT. apply Rdiv_lt_0_compat; [apply TT_pos|apply IZR_lt; lia]. Qed.

Definition avg2 (N M : Z) (f : R -> R -> R) : R :=
  / (IZR N * IZR M) * rsum N (fun a => rsum M (fun b => f (TT * IZR a / IZR N) (ZT * IZR b / IZR M))).

Lemma avg2_t N M f : (0 < N)%Z -> (0 < M)%Z ->
  avg2 N M f = / IZR M * rsum M (fun b => avg N (fun x => f x (ZT * IZR b / IZR M)) TT 0).
Proof.
  intros HN HM. unfold avg2, avg. rewrite rsum_scal, <- Rmult_assoc, rsum_swap. f_equal.
  - field. split; apply not_0_IZR; lia.
  - apply rsum_ext. intros b _. apply rsum_ext. intros a _. now rewrite Rplus_0_r.
Qed.
Lemma avg2_z N M f : (0 < N)%Z -> (0 < M)%Z ->
  avg2 N M f = / IZR N * rsum N (fun a => avg M (fun y => f (TT * IZR a / IZR N) y) ZT 0).
Proof.
  intros HN HM. unfold avg2, avg. rewrite rsum_scal, <- Rmult_assoc. f_equal.
  - field. split; apply not_0_IZR; lia.
  - apply rsum_ext. intros b _. apply rsum_ext. intros a _. now rewrite Rplus_0_r.
Qed.

Lemma avg2_add N M f g : avg2 N M (fun t z => f t z + g t z) = avg2 N M f + avg2 N M g.
Proof.
  unfold avg2. rewrite <- Rmult_plus_distr_l, <- rsum_add. f_equal. apply rsum_ext. intros. apply rsum_add.
Qed.
Lemma avg2_scal N M c f : avg2 N M (fun t z => c * f t z) = c * avg2 N M f.
Proof.
  unfold avg2. rewrite <- Rmult_assoc, (Rmult_comm c), Rmult_assoc. f_equal. rewrite <- rsum_scal. apply rsum_ext. intros. apply rsum_scal.
Qed.
Lemma avg2_ext N M f g : (forall t z, f t z = g t z) -> avg2 N M f = avg2 N M g.
Proof. intros E. unfold avg2. f_equal. apply rsum_ext. intros. apply rsum_ext. intros. apply E. Qed.
Lemma avg2_const N M c : (0 < N)%Z -> (0 < M)%Z -> avg2 N M (fun _ _ => c) = c.
Proof.
  intros HN HM. unfold avg2. rewrite (rsum_ext N _ (fun _ => IZR M * c)) by (intros; apply rsum_const; lia).
  rewrite rsum_const by lia. field. split; apply not_0_IZR; lia.
Qed.
Lemma avg2_rsum N M n (f : Z -> R -> R -> R) :
  avg2 N M (fun t z => rsum n (fun k => f k t z)) = rsum n (fun k => avg2 N M (f k)).
Proof.
  unfold avg2. rewrite rsum_scal. f_equal.
  transitivity (rsum N (fun a => rsum n (fun k => rsum M (fun b => f k (TT * IZR a / IZR N) (ZT * IZR b / IZR M))))).
  - apply rsum_ext. intros a _. apply rsum_swap.
  - apply rsum_swap.
Qed.
Lemma avg2_abs N M f B : (0 < N)%Z -> (0 < M)%Z -> (forall t z, Rabs (f t z) <= B) -> Rabs (avg2 N M f) <= B.
Proof.
  intros HN HM H. rewrite avg2_t by auto. apply mean_abs; auto. intros b _. unfold avg. apply mean_abs; auto.
Qed.

Lemma Ck_Dk_t k : forall f, Ck nf k f -> exists M, 0 <= M /\ forall z, Dk k M (fun x => f x z).
Proof.
  induction k as [|k IH]; intros f (P & (M & B) & C).
  - exists M. split; [|intros z x; apply B]. eapply Rle_trans; [apply Rabs_pos|apply (B 0 0)].
  - destruct C as (ft & fz & D1 & D2 & C1 & C2). destruct (IH ft C1) as (M' & HM & H). exists M'. split; auto.
    intros z. exists (fun x => ft x z). split; [intros x; apply D1|apply H].
Qed.
Lemma Ck_Dk_z k : forall f, Ck nf k f -> exists M, 0 <= M /\ forall t, Dk k M (fun y => f t y).
Proof.
  induction k as [|k IH]; intros f (P & (M & B) & C).
  - exists M. split; [|intros z x; apply B]. eapply Rle_trans; [apply Rabs_pos|apply (B 0 0)].
  - destruct C as (ft & fz & D1 & D2 & C1 & C2). destruct (IH fz C2) as (M' & HM & H). exists M'. split; auto.
    intros t. exists (fun y => fz t y). split; [intros x; apply D2|apply H].
Qed.

Lemma pow_frac T N p : (0 < N)%Z -> (T / IZR N) ^ p = T ^ p * / IZR N ^ p.
Proof. intros HN. unfold Rdiv. now rewrite Rpow_mult_distr, pow_inv. Qed.

(** The mean of a divergence is smaller than any power *)
Lemma avg2_div f g ft gz p : smooth nf f -> smooth nf g ->
  (forall t z, derivable_pt_lim (fun x => f x z) t (ft t z)) -> (forall t z, derivable_pt_lim (fun y => g t y) z (gz t z)) ->
  exists C, 0 <= C /\ forall N M, (0 < N)%Z -> (0 < M)%Z ->
    Rabs (avg2 N M (fun t z => ft t z + gz t z)) <= C * (/ IZR N ^ p + / IZR M ^ p).
Proof.
  intros Sf Sg Df Dg. destruct (Ck_Dk_t p ft (smooth_dt _ _ _ Sf Df p)) as (M1 & HM1 & B1).
  destruct (Ck_Dk_z p gz (smooth_dz _ _ _ Sg Dg p)) as (M2 & HM2 & B2).
  pose proof (pow_lt TT p TT_pos) as HT. pose proof (pow_lt ZT p ZT_pos) as HZ.
  exists (TT ^ p * M1 + ZT ^ p * M2). split; [apply Rplus_le_le_0_compat; apply Rmult_le_pos; lra|].
  intros N M HN HM. rewrite avg2_add. eapply Rle_trans; [apply Rabs_triang|].
  assert (HN' : 0 < / IZR N ^ p) by (apply Rinv_0_lt_compat, pow_lt, IZR_lt; lia).
  assert (HM' : 0 < / IZR M ^ p) by (apply Rinv_0_lt_compat, pow_lt, IZR_lt; lia).
  assert (X1 : Rabs (avg2 N M ft) <= TT ^ p * / IZR N ^ p * M1).
  { rewrite avg2_t by auto. apply mean_abs; auto. intros b _. rewrite <- pow_frac by auto.
    apply (avg_of_derivative N TT p M1 HN TT_pos (fun x => f x (ZT * IZR b / IZR M))); auto.
    intros x. destruct (Sf O) as (P & _). apply (P x). }
  assert (X2 : Rabs (avg2 N M gz) <= ZT ^ p * / IZR M ^ p * M2).
  { rewrite avg2_z by auto. apply mean_abs; auto. intros a _. rewrite <- pow_frac by auto.
    apply (avg_of_derivative M ZT p M2 HM ZT_pos (fun y => g (TT * IZR a / IZR N) y)); auto.
    intros x. destruct (Sg O) as (P & _). apply (P _ x). }
  set (x := / IZR N ^ p) in *. set (y := / IZR M ^ p) in *. set (A := TT ^ p) in *. set (Bc := ZT ^ p) in *.
  assert (0 <= A * M1 * y) by (apply Rmult_le_pos; [apply Rmult_le_pos|]; lra). assert (0 <= Bc * M2 * x) by (apply Rmult_le_pos; [apply Rmult_le_pos|]; lra).
  nra.
Qed.

(** Means over any two grids differ by less than any power *)
Lemma avg2_cauchy f p : smooth nf f -> exists C, 0 <= C /\ forall N M N' M', (0 < N)%Z -> (0 < M)%Z -> (0 < N')%Z -> (0 < M')%Z ->
  Rabs (avg2 N M f - avg2 N' M' f) <= C * (/ IZR N ^ p + / IZR M ^ p + / IZR N' ^ p + / IZR M' ^ p).
Proof.
  intros Sf.
  assert (X : exists C, 0 <= C /\ forall N M K L, (0 < N)%Z -> (0 < M)%Z -> (0 < K)%Z -> (0 < L)%Z ->
    Rabs (avg2 N M f - avg2 (N * K) (M * L) f) <= C * (/ IZR N ^ p + / IZR M ^ p)).
  { destruct p as [|p].
    { destruct (Sf O) as (_ & (B & HB) & _). exists B. split; [eapply Rle_trans; [apply Rabs_pos|apply (HB 0 0)]|].
      intros N M K L HN HM HK HL. cbn [pow]. rewrite Rinv_1.
      pose proof (avg2_abs N M f B HN HM HB) as A1. pose proof (avg2_abs (N * K) (M * L) f B ltac:(lia) ltac:(lia) HB) as A2.
      unfold Rminus. eapply Rle_trans; [apply Rabs_triang|]. rewrite Rabs_Ropp. lra. }
    destruct (Sf (S p)) as (P & _ & ft & fz & Dt & Dz & C1 & C2).
    destruct (Ck_Dk_t p ft C1) as (M1 & HM1 & B1). destruct (Ck_Dk_z p fz C2) as (M2 & HM2 & B2).
    pose proof (pow_lt TT (S p) TT_pos) as HT. pose proof (pow_lt ZT (S p) ZT_pos) as HZ.
    exists (TT ^ S p * M1 + ZT ^ S p * M2). split; [apply Rplus_le_le_0_compat; apply Rmult_le_pos; lra|].
    intros N M K L HN HM HK HL.
    assert (X1 : Rabs (avg2 N M f - avg2 (N * K) M f) <= TT ^ S p * / IZR N ^ S p * M1).
    { rewrite !avg2_t by lia. rewrite <- Rmult_minus_distr_l, <- rsum_sub. apply mean_abs; auto. intros b _.
      rewrite <- pow_frac by auto.
      apply (avg_refine N K TT p M1 (fun x => f x (ZT * IZR b / IZR M)) (fun x => ft x (ZT * IZR b / IZR M))); auto; [apply TT_pos|].
      intros x. apply (P x). }
    assert (X2 : Rabs (avg2 (N * K) M f - avg2 (N * K) (M * L) f) <= ZT ^ S p * / IZR M ^ S p * M2).
    { rewrite !avg2_z by lia. rewrite <- Rmult_minus_distr_l, <- rsum_sub. apply mean_abs; [lia|]. intros a _.
      rewrite <- pow_frac by auto.
      apply (avg_refine M L ZT p M2 (fun y => f (TT * IZR a / IZR (N * K)) y) (fun y => fz (TT * IZR a / IZR (N * K)) y)); auto; [apply ZT_pos|].
      intros x. apply (P _ x). }
    replace (avg2 N M f - avg2 (N * K) (M * L) f) with
      ((avg2 N M f - avg2 (N * K) M f) + (avg2 (N * K) M f - avg2 (N * K) (M * L) f)) by lra.
    eapply Rle_trans; [apply Rabs_triang|].
    assert (HN' : 0 < / IZR N ^ S p) by (apply Rinv_0_lt_compat, pow_lt, IZR_lt; lia).
    assert (HM' : 0 < / IZR M ^ S p) by (apply Rinv_0_lt_compat, pow_lt, IZR_lt; lia).
    set (x := / IZR N ^ S p) in *. set (y := / IZR M ^ S p) in *. set (A := TT ^ S p) in *. set (Bc := ZT ^ S p) in *.
    assert (0 <= A * M1 * y) by (apply Rmult_le_pos; [apply Rmult_le_pos|]; lra). assert (0 <= Bc * M2 * x) by (apply Rmult_le_pos; [apply Rmult_le_pos|]; lra).
    nra. }
  destruct X as (C & HC & X). exists C. split; auto. intros N M N' M' HN HM HN' HM'.
  pose proof (X N M N' M' HN HM HN' HM') as A. pose proof (X N' M' N M HN' HM' HN HM) as B.
  rewrite (Z.mul_comm N'), (Z.mul_comm M') in B.
  replace (avg2 N M f - avg2 N' M' f) with ((avg2 N M f - avg2 (N * N') (M * M') f) - (avg2 N' M' f - avg2 (N * N') (M * M') f)) by lra.
  unfold Rminus at 1. eapply Rle_trans; [apply Rabs_triang|]. rewrite Rabs_Ropp. lra.
Qed.

Lemma inv_small e : 0 < e -> exists N, forall n, (N <= n)%nat -> / IZR (Z.of_nat n + 1) < e.
Proof.
  intros He. exists (Z.to_nat (up (/ e))). intros n Hn. pose proof (archimed (/ e)) as (A & _).
  assert (0 < / e) by now apply Rinv_0_lt_compat.
  assert (IZR (up (/ e)) <= IZR (Z.of_nat n + 1)).
  { apply IZR_le. assert (0 < up (/ e))%Z by (apply lt_IZR; lra). lia. }
  rewrite <- (Rinv_involutive e) by lra. apply Rinv_lt_contravar; [|lra].
  apply Rmult_lt_0_compat; [auto|lra].
Qed.

(** The means converge faster than any power *)
Lemma avg2_limit f : smooth nf f -> exists l, forall p, exists C, 0 <= C /\ forall N M, (0 < N)%Z -> (0 < M)%Z ->
  Rabs (avg2 N M f - l) <= C * (/ IZR N ^ p + / IZR M ^ p).
Proof.
  intros Sf. set (u := fun n => avg2 (Z.of_nat n + 1) (Z.of_nat n + 1) f).
  destruct (R_complete u) as (l & Hl).
  { intros e He. destruct (avg2_cauchy f 1 Sf) as (C & HC & X).
    assert (He' : 0 < e / (4 * C + 1)) by (apply Rdiv_lt_0_compat; lra).
    destruct (inv_small _ He') as (N & HN). exists N. intros n m Hn Hm. unfold R_dist, u.
    eapply Rle_lt_trans; [apply X; lia|]. rewrite !pow_1. pose proof (HN n Hn) as A1. pose proof (HN m Hm) as A2.
    assert (E : 4 * C * (e / (4 * C + 1)) < e).
    { apply (Rmult_lt_reg_r (4 * C + 1)); [lra|]. unfold Rdiv. replace (4 * C * (e * / (4 * C + 1)) * (4 * C + 1)) with (4 * C * e) by (field; lra). lra. }
    nra. }
  exists l. intros p.
  assert (W : exists C, 0 <= C /\ forall N M, (0 < N)%Z -> (0 < M)%Z -> Rabs (avg2 N M f - l) <= C * (/ IZR N ^ S p + / IZR M ^ S p)).
  { destruct (avg2_cauchy f (S p) Sf) as (C & HC & X). exists C. split; auto. intros N M HN HM.
    apply le_epsilon. intros e He.
    assert (He2 : 0 < e / 2 / (2 * C + 1)) by (apply Rdiv_lt_0_compat; lra).
    destruct (inv_small _ He2) as (n1 & H1). destruct (Hl (e / 2) ltac:(lra)) as (n2 & H2).
    set (n := max n1 n2). specialize (H1 n ltac:(unfold n; lia)). specialize (H2 n ltac:(unfold n; lia)).
    unfold R_dist in H2. replace (avg2 N M f - l) with ((avg2 N M f - u n) + (u n - l)) by lra.
    eapply Rle_trans; [apply Rabs_triang|].
    pose proof (X N M (Z.of_nat n + 1)%Z (Z.of_nat n + 1)%Z HN HM ltac:(lia) ltac:(lia)) as A. fold (u n) in A.
    assert (Hi : / IZR (Z.of_nat n + 1) ^ S p <= / IZR (Z.of_nat n + 1)).
    { assert (1 <= IZR (Z.of_nat n + 1)) by (apply (IZR_le 1); lia). apply Rinv_le_contravar; [lra|].
      rewrite <- (pow_1 (IZR (Z.of_nat n + 1))) at 1. apply Rle_pow; [auto|lia]. }
    assert (E : 2 * C * / IZR (Z.of_nat n + 1) <= e / 2).
    { apply (Rle_trans _ (2 * C * (e / 2 / (2 * C + 1)))); [apply Rmult_le_compat_l; lra|].
      apply (Rmult_le_reg_r (2 * C + 1)); [lra|].
      replace (2 * C * (e / 2 / (2 * C + 1)) * (2 * C + 1)) with (2 * C * (e / 2)) by (field; lra). nra. }
    assert (C * / IZR (Z.of_nat n + 1) ^ S p <= C * / IZR (Z.of_nat n + 1)) by (apply Rmult_le_compat_l; lra).
    nra. }
  destruct W as (C & HC & W). exists C. split; auto. intros N M HN HM. eapply Rle_trans; [now apply W|].
  apply Rmult_le_compat_l; auto.
  assert (Y : forall K, (0 < K)%Z -> / IZR K ^ S p <= / IZR K ^ p).
  { intros K HK. assert (1 <= IZR K) by (apply (IZR_le 1); lia). apply Rinv_le_contravar; [apply pow_lt; lra|].
    apply Rle_pow; [auto|lia]. }
  pose proof (Y N HN). pose proof (Y M HM). lra.
Qed.
End Grid.
