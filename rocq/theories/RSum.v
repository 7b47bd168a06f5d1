(** Finite sums of reals, and sums of cosines over a uniform grid. *)
From Coq Require Import ZArith List Bool Lia Permutation Reals Lra Psatz.
From Verif Require Import Scalar Prog Wp Func Step RunProof FuncExt.
Import ListNotations.
Local Open Scope Z_scope.
Local Open Scope R_scope.

(** [rsum n g] = g 0 + ... + g (n-1) *)
Definition rsum (n : Z) (g : Z -> R) : R := fold_right Rplus 0 (map g (zseq 0 (Z.to_nat n))).

Lemma fold_app l l' : fold_right Rplus 0 (l ++ l') = fold_right Rplus 0 l + fold_right Rplus 0 l'.
Proof. induction l; cbn; lra. Qed.
Lemma rsum_0 g : rsum 0 g = 0.
Proof. reflexivity. Qed.
Lemma rsum_succ n g : (0 <= n)%Z -> rsum (n + 1) g = rsum n g + g n.
Proof.
  intros H. unfold rsum. replace (Z.to_nat (n + 1)) with (Datatypes.S (Z.to_nat n)) by lia.
  rewrite zseq_succ, map_app, fold_app. cbn. rewrite Z2Nat.id by lia. lra.
Qed.
Lemma rsum_neg n g : (n <= 0)%Z -> rsum n g = 0.
Proof. intros. unfold rsum. replace (Z.to_nat n) with O by lia. reflexivity. Qed.
Lemma rsum_1 g : rsum 1 g = g 0%Z.
Proof. change 1%Z with (0 + 1)%Z. rewrite rsum_succ by lia. rewrite rsum_0. lra. Qed.

Lemma rsum_ind (P : Z -> Prop) : P 0%Z -> (forall n, (0 <= n)%Z -> P n -> P (n + 1)%Z) ->
  forall n, (0 <= n)%Z -> P n.
Proof. intros H0 HS. apply natlike_ind; auto. Qed.

Lemma rsum_ext n g h : (forall k, (0 <= k < n)%Z -> g k = h k) -> rsum n g = rsum n h.
Proof.
  intros H. destruct (Z.le_gt_cases 0 n) as [Hn|Hn]; [|now rewrite !rsum_neg by lia].
  revert n Hn H. apply (rsum_ind (fun n => _ -> rsum n g = rsum n h)); [reflexivity|].
  intros n Hn IH H. rewrite !rsum_succ by auto. rewrite IH, H by (intros; try apply H; lia). reflexivity.
Qed.
Lemma rsum_const0 n : rsum n (fun _ => 0) = 0.
Proof.
  destruct (Z.le_gt_cases 0 n) as [Hn|Hn]; [|now rewrite !rsum_neg by lia].
  revert n Hn. apply rsum_ind; [reflexivity|]. intros n Hn IH. rewrite rsum_succ, IH by auto. lra.
Qed.
Lemma rsum_zero n g : (forall k, (0 <= k < n)%Z -> g k = 0) -> rsum n g = 0.
Proof. intros H. rewrite (rsum_ext n g (fun _ => 0)) by auto. apply rsum_const0. Qed.
Lemma rsum_const n c : (0 <= n)%Z -> rsum n (fun _ => c) = IZR n * c.
Proof.
  revert n. apply rsum_ind; [cbn; rewrite rsum_0; lra|].
  intros n Hn IH. rewrite rsum_succ, IH by auto. rewrite plus_IZR. lra.
Qed.
Lemma rsum_add n g h : rsum n (fun k => g k + h k) = rsum n g + rsum n h.
Proof.
  destruct (Z.le_gt_cases 0 n) as [Hn|Hn]; [|rewrite !rsum_neg by lia; lra].
  revert n Hn. apply rsum_ind; [rewrite !rsum_0; lra|]. intros n Hn IH. rewrite !rsum_succ, IH by auto. lra.
Qed.
Lemma rsum_scal n c g : rsum n (fun k => c * g k) = c * rsum n g.
Proof.
  destruct (Z.le_gt_cases 0 n) as [Hn|Hn]; [|rewrite !rsum_neg by lia; lra].
  revert n Hn. apply rsum_ind; [rewrite !rsum_0; lra|]. intros n Hn IH. rewrite !rsum_succ, IH by auto. lra.
Qed.
Lemma rsum_scal_r n c g : rsum n (fun k => g k * c) = rsum n g * c.
Proof. rewrite Rmult_comm, <- rsum_scal. apply rsum_ext. intros; lra. Qed.
Lemma rsum_opp n g : rsum n (fun k => - g k) = - rsum n g.
Proof. replace (- rsum n g) with ((-1) * rsum n g) by lra. rewrite <- rsum_scal. apply rsum_ext. intros; lra. Qed.
Lemma rsum_sub n g h : rsum n (fun k => g k - h k) = rsum n g - rsum n h.
Proof. unfold Rminus. rewrite rsum_add, rsum_opp. reflexivity. Qed.
Lemma rsum_split a b g : (0 <= a)%Z -> (0 <= b)%Z ->
  rsum (a + b) g = rsum a g + rsum b (fun k => g (a + k)%Z).
Proof.
  intros Ha. revert b. apply rsum_ind; [rewrite Z.add_0_r, rsum_0; lra|].
  intros n Hn IH. replace (a + (n + 1))%Z with (a + n + 1)%Z by lia. rewrite !rsum_succ, IH by lia. lra.
Qed.
Lemma rsum_first n g : (0 <= n)%Z -> rsum (n + 1) g = g 0%Z + rsum n (fun k => g (k + 1)%Z).
Proof.
  intros Hn. replace (n + 1)%Z with (1 + n)%Z by lia. rewrite rsum_split by lia. rewrite rsum_1. f_equal.
  apply rsum_ext. intros. f_equal. lia.
Qed.
Lemma rsum_rev n g : (0 <= n)%Z -> rsum n g = rsum n (fun k => g (n - 1 - k)%Z).
Proof.
  revert n. apply (rsum_ind (fun n => rsum n g = rsum n (fun k => g (n - 1 - k)%Z))); [reflexivity|].
  intros n Hn IH. rewrite rsum_succ by auto. rewrite rsum_first by auto. rewrite IH.
  replace (n + 1 - 1 - 0)%Z with n by lia. rewrite Rplus_comm. f_equal.
  apply rsum_ext. intros. f_equal. lia.
Qed.
Lemma rsum_swap n m (g : Z -> Z -> R) :
  rsum n (fun a => rsum m (fun b => g a b)) = rsum m (fun b => rsum n (fun a => g a b)).
Proof.
  destruct (Z.le_gt_cases 0 n) as [Hn|Hn].
  - revert n Hn. apply rsum_ind.
    + rewrite rsum_0. symmetry. apply rsum_zero. intros. apply rsum_0.
    + intros n Hn IH. rewrite rsum_succ by auto. rewrite IH, <- rsum_add. apply rsum_ext. intros.
      now rewrite rsum_succ by auto.
  - rewrite rsum_neg by lia. symmetry. apply rsum_zero. intros. apply rsum_neg. lia.
Qed.
(** A double loop flattened, the inner index varying fastest. *)
Lemma rsum_flat a b (g : Z -> Z -> R) : (0 <= a)%Z -> (0 < b)%Z ->
  rsum (a * b) (fun j => g (j / b) (j mod b))%Z = rsum a (fun x => rsum b (fun y => g x y)).
Proof.
  intros Ha Hb. revert a Ha. apply rsum_ind; [now rewrite !rsum_0|].
  intros n Hn IH. replace ((n + 1) * b)%Z with (n * b + b)%Z by lia.
  rewrite rsum_split by nia. rewrite rsum_succ by auto. rewrite IH. f_equal.
  apply rsum_ext. intros k Hk. rewrite Z.add_comm, Z.div_add, Z.mod_add by lia.
  rewrite Z.div_small, Z.mod_small by lia. reflexivity.
Qed.
Lemma rsum_perm n (p : Z -> Z) g :
  Permutation (map p (zseq 0 (Z.to_nat n))) (zseq 0 (Z.to_nat n)) ->
  rsum n (fun k => g (p k)) = rsum n g.
Proof.
  intros H. unfold rsum. rewrite <- (map_map p g).
  assert (P : Permutation (map g (map p (zseq 0 (Z.to_nat n)))) (map g (zseq 0 (Z.to_nat n)))) by (apply Permutation_map, H).
  revert P. generalize (map g (map p (zseq 0 (Z.to_nat n)))), (map g (zseq 0 (Z.to_nat n))).
  induction 1; cbn; lra.
Qed.
(** One nonzero term *)
Lemma rsum_single n k0 g : (0 <= k0 < n)%Z -> (forall k, (0 <= k < n)%Z -> k <> k0 -> g k = 0) ->
  rsum n g = g k0.
Proof.
  intros Hk H. replace n with (k0 + (1 + (n - k0 - 1)))%Z by lia.
  rewrite !rsum_split by lia. rewrite rsum_1, Z.add_0_r.
  rewrite (rsum_zero k0), (rsum_zero (n - k0 - 1)); [lra| |]; intros; apply H; lia.
Qed.

(** Sums over a period: shifting and reflecting. *)
Lemma rsum_shift1 n (g : Z -> R) : (0 <= n)%Z -> g n = g 0%Z -> rsum n (fun k => g (k + 1)%Z) = rsum n g.
Proof.
  intros Hn E. pose proof (rsum_first n g Hn) as H1. rewrite rsum_succ in H1 by auto. lra.
Qed.
Lemma rsum_reflect n (g : Z -> R) : (0 <= n)%Z -> g n = g 0%Z -> rsum n (fun k => g (n - k)%Z) = rsum n g.
Proof.
  intros Hn E. rewrite (rsum_rev n (fun k => g (n - k)%Z)) by auto.
  rewrite <- (rsum_shift1 n g Hn E). apply rsum_ext. intros. f_equal. lia.
Qed.

(** The loops [acc += g k] *)
Lemma accum_rsum n (g : Z -> R) a : accum n (fun k acc => acc + g k) a = a + rsum n g.
Proof.
  destruct (Z.le_gt_cases 0 n) as [Hn|Hn].
  - revert n Hn. apply rsum_ind; [rewrite accum_0, rsum_0; lra|].
    intros n Hn IH. rewrite accum_succ, rsum_succ, IH by auto. lra.
  - rewrite rsum_neg by lia. unfold accum. replace (Z.to_nat n) with O by lia. cbn. lra.
Qed.

(** ** Trigonometric sums *)
Lemma sin_IZR_PI k : sin (IZR k * PI) = 0.
Proof. apply sin_eq_0_1. exists k. reflexivity. Qed.
Lemma cos_2PI_shift x k : cos (x + IZR k * (2 * PI)) = cos x.
Proof.
  assert (H : forall n x, cos (x + INR n * (2 * PI)) = cos x).
  { intros n y. replace (y + INR n * (2 * PI)) with (y + 2 * INR n * PI) by lra. apply cos_period. }
  destruct (Z.le_gt_cases 0 k) as [Hk|Hk].
  - rewrite <- (Z2Nat.id k), <- INR_IZR_INZ by lia. apply H.
  - rewrite <- (H (Z.to_nat (- k)) (x + IZR k * (2 * PI))).
    rewrite INR_IZR_INZ, Z2Nat.id by lia. rewrite opp_IZR. f_equal. lra.
Qed.
Lemma sin_2PI_shift x k : sin (x + IZR k * (2 * PI)) = sin x.
Proof.
  assert (H : forall n x, sin (x + INR n * (2 * PI)) = sin x).
  { intros n y. replace (y + INR n * (2 * PI)) with (y + 2 * INR n * PI) by lra. apply sin_period. }
  destruct (Z.le_gt_cases 0 k) as [Hk|Hk].
  - rewrite <- (Z2Nat.id k), <- INR_IZR_INZ by lia. apply H.
  - rewrite <- (H (Z.to_nat (- k)) (x + IZR k * (2 * PI))).
    rewrite INR_IZR_INZ, Z2Nat.id by lia. rewrite opp_IZR. f_equal. lra.
Qed.

Lemma telescope_cos n x h : (0 <= n)%Z ->
  2 * sin (h / 2) * rsum n (fun a => cos (x + IZR a * h)) = sin (x + (IZR n - / 2) * h) - sin (x - h / 2).
Proof.
  revert n. apply rsum_ind.
  - rewrite rsum_0. replace (x + (0 - / 2) * h) with (x - h / 2) by lra. lra.
  - intros n Hn IH. rewrite rsum_succ by auto. rewrite Rmult_plus_distr_l, IH, plus_IZR.
    set (y := x + IZR n * h).
    replace (x + (IZR n - / 2) * h) with (y - h / 2) by (unfold y; lra).
    replace (x + (IZR n + 1 - / 2) * h) with (y + h / 2) by (unfold y; lra).
    rewrite (sin_plus y), (sin_minus y). lra.
Qed.

(** N does not divide p: the sum over a full period vanishes, whatever the phase. *)
Lemma sum_cos_period N p x : (0 < N)%Z -> ~ (N | p)%Z ->
  rsum N (fun a => cos (x + IZR a * (2 * PI * IZR p / IZR N))) = 0.
Proof.
  intros HN Hp. set (h := 2 * PI * IZR p / IZR N).
  assert (HN' : IZR N <> 0) by (apply not_0_IZR; lia).
  assert (Hs : sin (h / 2) <> 0).
  { intros E. apply sin_eq_0_0 in E. destruct E as (k & E). apply Hp. exists k.
    apply eq_IZR. rewrite mult_IZR. pose proof PI_RGT_0.
    assert (E2 : IZR p / IZR N * PI = IZR k * PI) by (rewrite <- E; unfold h; field; auto).
    apply Rmult_eq_reg_r in E2; [|lra]. rewrite <- E2. field. auto. }
  pose proof (telescope_cos N x h ltac:(lia)) as T.
  replace (x + (IZR N - / 2) * h) with ((x - h / 2) + IZR p * (2 * PI)) in T by (unfold h; field; auto).
  rewrite sin_2PI_shift in T.
  apply (Rmult_eq_reg_l (2 * sin (h / 2))); lra.
Qed.

(** N divides p: every term is the same. *)
Lemma sum_cos_aligned N p x : (0 < N)%Z -> (N | p)%Z ->
  rsum N (fun a => cos (x + IZR a * (2 * PI * IZR p / IZR N))) = IZR N * cos x.
Proof.
  intros HN (q & ->). rewrite <- (rsum_const N (cos x)) by lia. apply rsum_ext. intros a Ha.
  assert (HN' : IZR N <> 0) by (apply not_0_IZR; lia).
  replace (IZR a * (2 * PI * IZR (q * N) / IZR N)) with (IZR (a * q) * (2 * PI)).
  - apply cos_2PI_shift.
  - rewrite !mult_IZR. field. auto.
Qed.

(** Over a grid of N x M points. *)
Lemma sum_cos_grid N M p r x : (0 < N)%Z -> (0 < M)%Z ->
  rsum N (fun a => rsum M (fun b =>
    cos (x + IZR a * (2 * PI * IZR p / IZR N) + IZR b * (2 * PI * IZR r / IZR M)))) =
  if (Z.eqb (p mod N) 0 && Z.eqb (r mod M) 0)%bool then IZR N * IZR M * cos x else 0.
Proof.
  intros HN HM.
  destruct (Z.eqb_spec (r mod M) 0) as [Er|Er].
  - rewrite (rsum_ext N _ (fun a => IZR M * cos (x + IZR a * (2 * PI * IZR p / IZR N)))).
    2:{ intros a Ha. apply sum_cos_aligned; auto. apply Z.mod_divide; lia. }
    rewrite rsum_scal. destruct (Z.eqb_spec (p mod N) 0) as [Ep|Ep]; cbn.
    + rewrite sum_cos_aligned by (auto; apply Z.mod_divide; lia). lra.
    + rewrite sum_cos_period; auto; [lra|]. intros D. apply Ep. apply Z.mod_divide; auto. lia.
  - rewrite andb_false_r. apply rsum_zero. intros a Ha. apply sum_cos_period; auto.
    intros D. apply Er. apply Z.mod_divide; auto. lia.
Qed.
