(** The arithmetic of Cert.v keeps what it promises. *)
From Coq Require Import ZArith QArith List Bool Lia Reals Lra Psatz Qreals.
From Verif Require Import Scalar RoundSpec Round Cert.
Local Open Scope Z_scope.
Local Open Scope R_scope.

Lemma Rabs_le_inv x y : Rabs x <= y -> - y <= x <= y.
Proof. intros H. unfold Rabs in H. destruct (Rcase_abs x); lra. Qed.

Section P.
Variables (p e M pi : Z) (n : nat).
Hypothesis Hp : (0 <= p)%Z.
Let B : R := IZR (2 ^ p).
Lemma B_pos : 0 < B. Proof. apply IZR_lt. apply Z.pow_pos_nonneg; lia. Qed.
Lemma pow_pos2 : (0 < 2 ^ p)%Z. Proof. apply Z.pow_pos_nonneg; lia. Qed.

Definition enc (x : iv) (a : R) : Prop := Rabs (a * B - IZR (fst x)) <= IZR (snd x).
Lemma enc_iff x a : enc x a <-> IZR (fst x) - IZR (snd x) <= a * B <= IZR (fst x) + IZR (snd x).
Proof. unfold enc. split; [intros H; apply Rabs_le_inv in H; lra|intros H; apply Rabs_le; lra]. Qed.
Lemma enc_r x a : enc x a -> 0 <= IZR (snd x).
Proof. intros H. unfold enc in H. pose proof (Rabs_pos (a * B - IZR (fst x))). lra. Qed.
Lemma Rabs_IZR z : Rabs (IZR z) = IZR (Z.abs z). Proof. symmetry. apply abs_IZR. Qed.
Lemma enc_max x a : enc x a -> Rabs (a * B) <= IZR (i_max x).
Proof.
  intros H. unfold i_max. rewrite plus_IZR, <- Rabs_IZR. replace (a * B) with (IZR (fst x) + (a * B - IZR (fst x))) by ring.
  eapply Rle_trans; [apply Rabs_triang|]. unfold enc in H. lra.
Qed.
Lemma down_ok z : IZR (down p z) * B <= IZR z < (IZR (down p z) + 1) * B.
Proof.
  unfold down. rewrite Z.shiftr_div_pow2 by lia. pose proof pow_pos2 as P. pose proof (Z.div_mod z (2 ^ p) ltac:(lia)) as E.
  pose proof (Z.mod_pos_bound z (2 ^ p) P) as Bd. unfold B. rewrite <- mult_IZR. split; [apply IZR_le; nia|].
  replace (IZR (z / 2 ^ p) + 1) with (IZR (z / 2 ^ p + 1)) by (rewrite plus_IZR; reflexivity). rewrite <- mult_IZR. apply IZR_lt. nia.
Qed.
Lemma up_ok z : IZR z <= IZR (up p z) * B.
Proof. pose proof (down_ok z). unfold up, down in *. rewrite plus_IZR. lra. Qed.

Lemma enc_add x y a c : enc x a -> enc y c -> enc (i_add x y) (a + c).
Proof. rewrite !enc_iff. unfold i_add. cbn [fst snd]. rewrite !plus_IZR. lra. Qed.
Lemma enc_sub x y a c : enc x a -> enc y c -> enc (i_sub x y) (a - c).
Proof. rewrite !enc_iff. unfold i_sub. cbn [fst snd]. rewrite !plus_IZR, minus_IZR. lra. Qed.
Lemma enc_neg x a : enc x a -> enc (i_neg x) (- a).
Proof. rewrite !enc_iff. unfold i_neg. cbn [fst snd]. rewrite !opp_IZR. lra. Qed.
Lemma enc_mul x y a c : enc x a -> enc y c -> enc (i_mul p x y) (a * c).
Proof.
  intros Hx Hy. pose proof (enc_r _ _ Hx) as Px. pose proof (enc_r _ _ Hy) as Py. unfold enc in *. unfold i_mul. cbn [fst snd].
  destruct x as (m & r), y as (m' & r'). cbn [fst snd] in *. pose proof B_pos as PB.
  pose proof (down_ok (m * m')) as (D1 & D2). pose proof (up_ok (Z.abs m * r' + Z.abs m' * r + r * r')) as U.
  set (d := IZR (down p (m * m'))) in *. rewrite plus_IZR. set (u := IZR (up _ _)) in *.
  rewrite !plus_IZR, !mult_IZR, <- !Rabs_IZR in U. rewrite mult_IZR in D1, D2.
  apply (Rmult_le_reg_r B); [exact PB|]. rewrite <- (Rabs_right B) at 2 by lra. rewrite <- Rabs_mult.
  replace ((a * c * B - d) * B) with ((a * B - IZR m) * (c * B - IZR m') + IZR m * (c * B - IZR m') + IZR m' * (a * B - IZR m) + (IZR m * IZR m' - d * B)) by ring.
  assert (T1 : Rabs ((a * B - IZR m) * (c * B - IZR m')) <= IZR r * IZR r') by (rewrite Rabs_mult; apply Rmult_le_compat; auto using Rabs_pos).
  assert (T2 : Rabs (IZR m * (c * B - IZR m')) <= Rabs (IZR m) * IZR r') by (rewrite Rabs_mult; apply Rmult_le_compat_l; auto using Rabs_pos).
  assert (T3 : Rabs (IZR m' * (a * B - IZR m)) <= Rabs (IZR m') * IZR r) by (rewrite Rabs_mult; apply Rmult_le_compat_l; auto using Rabs_pos).
  assert (T4 : Rabs (IZR m * IZR m' - d * B) <= B) by (apply Rabs_le; lra).
  eapply Rle_trans; [apply Rabs_triang|]. eapply Rle_trans; [apply Rplus_le_compat_r, Rabs_triang|].
  eapply Rle_trans; [apply Rplus_le_compat_r, Rplus_le_compat_r, Rabs_triang|]. lra.
Qed.
Lemma div_bounds m k : (0 < k)%Z -> IZR (m / k) * IZR k <= IZR m < (IZR (m / k) + 1) * IZR k.
Proof.
  intros H. pose proof (Z.div_mod m k ltac:(lia)) as E. pose proof (Z.mod_pos_bound m k H) as Bd.
  replace (IZR (m / k) + 1) with (IZR (m / k + 1)) by (rewrite plus_IZR; reflexivity). rewrite <- !mult_IZR.
  split; [apply IZR_le|apply IZR_lt]; nia.
Qed.
Lemma enc_divZ x a k : (0 < k)%Z -> enc x a -> enc (i_divZ x k) (a / IZR k).
Proof.
  intros Hk. rewrite !enc_iff. destruct x as (m & r). unfold i_divZ. cbn [fst snd]. intros H.
  pose proof (div_bounds m k Hk) as (D1 & D2). pose proof (div_bounds r k Hk) as (D3 & D4). assert (Pk : 0 < IZR k) by (now apply IZR_lt).
  rewrite plus_IZR. assert (E : a / IZR k * B * IZR k = a * B) by (field; lra). set (y := a / IZR k * B) in *.
  split; apply (Rmult_le_reg_r (IZR k)); auto; nra.
Qed.

(** ** Series *)
Section Series.
Variables (x2 : iv) (X : R) (u : nat -> R) (j0 : Z).
Hypothesis Hx2 : enc x2 X.
Hypothesis Hj : (0 <= j0)%Z.
Hypothesis Hu : forall k, u (S k) = - (u k * X / IZR ((j0 + 2 * Z.of_nat k + 1) * (j0 + 2 * Z.of_nat k + 2))).
Lemma next_ok t k : enc t (u k) -> enc (next p x2 t (j0 + 2 * Z.of_nat k)) (u (S k)).
Proof. intros H. rewrite Hu. unfold next. apply enc_neg, enc_divZ; [nia|]. now apply enc_mul. Qed.
Lemma series_ok N : forall k t s, enc t (u k) -> enc s (sum_f_R0 u k) ->
  enc (fst (series p x2 t s (j0 + 2 * Z.of_nat k) N)) (sum_f_R0 u (k + N)) /\
  enc (snd (series p x2 t s (j0 + 2 * Z.of_nat k) N)) (u (k + N)%nat).
Proof.
  induction N as [|N IH]; intros k t s Ht Hs; cbn [series].
  - rewrite Nat.add_0_r. auto.
  - pose proof (next_ok t k Ht) as Hn. unfold next in Hn. set (t' := i_neg _) in *.
    replace (k + S N)%nat with (S k + N)%nat by lia. replace (j0 + 2 * Z.of_nat k + 2)%Z with (j0 + 2 * Z.of_nat (S k))%Z by lia.
    apply IH; [exact Hn|]. cbn [sum_f_R0]. now apply enc_add.
Qed.
Lemma alternating_ok x first y : i_mul p x x = x2 -> enc first (u 0%nat) ->
  sum_f_R0 u (2 * n + 1) <= y <= sum_f_R0 u (2 * (n + 1)) -> enc (alternating p n x first j0) y.
Proof.
  intros Ex Hf Hy. unfold alternating. rewrite Ex. pose proof (series_ok (2 * n + 1) 0 first first Hf Hf) as (H1 & H2).
  change (Z.of_nat 0) with 0%Z in *. rewrite Z.mul_0_r, Z.add_0_r in *. rewrite Nat.add_0_l in *.
  destruct (series p x2 first first j0 (2 * n + 1)) as (s & t). cbn [fst snd] in *.
  pose proof (next_ok t _ H2) as H3. pose proof (enc_max _ _ H3) as H4. set (nx := next _ _ _ _) in *.
  replace (2 * (n + 1))%nat with (S (2 * n + 1)) in Hy by lia. cbn [sum_f_R0] in Hy.
  pose proof B_pos as PB. apply Rabs_le_inv in H4. rewrite enc_iff in *. cbn [fst snd]. rewrite plus_IZR. split; [|]; nra.
Qed.
End Series.

Lemma cos_term_S x k : cos_term x (S k) = - (cos_term x k * (x * x) / IZR ((0 + 2 * Z.of_nat k + 1) * (0 + 2 * Z.of_nat k + 2))).
Proof.
  unfold cos_term. replace (2 * S k)%nat with (S (S (2 * k))) by lia. rewrite !fact_simpl, !mult_INR.
  replace (IZR ((0 + 2 * Z.of_nat k + 1) * (0 + 2 * Z.of_nat k + 2))) with (INR (S (2 * k)) * INR (S (S (2 * k)))).
  2:{ rewrite mult_IZR, !INR_IZR_INZ. f_equal; f_equal; lia. }
  cbn [pow]. field. repeat split; try (apply not_0_INR; lia). apply INR_fact_neq_0.
Qed.
Lemma sin_term_S x k : sin_term x (S k) = - (sin_term x k * (x * x) / IZR ((1 + 2 * Z.of_nat k + 1) * (1 + 2 * Z.of_nat k + 2))).
Proof.
  unfold sin_term. replace (2 * S k + 1)%nat with (S (S (2 * k + 1))) by lia. rewrite !fact_simpl, !mult_INR.
  replace (IZR ((1 + 2 * Z.of_nat k + 1) * (1 + 2 * Z.of_nat k + 2))) with (INR (S (2 * k + 1)) * INR (S (S (2 * k + 1)))).
  2:{ rewrite mult_IZR, !INR_IZR_INZ. f_equal; f_equal; lia. }
  cbn [pow]. field. repeat split; try (apply not_0_INR; lia). apply INR_fact_neq_0.
Qed.

Lemma enc_self m : enc (m, 0%Z) (IZR m / B).
Proof. unfold enc. cbn [fst snd]. pose proof B_pos. replace (IZR m / B * B - IZR m) with 0 by (field; lra). rewrite Rabs_R0. lra. Qed.
Lemma enc_one : enc (one p, 0%Z) 1.
Proof. unfold enc. cbn [fst snd]. unfold one. fold B. replace (1 * B - B) with 0 by ring. rewrite Rabs_R0. lra. Qed.
Lemma small_ok m : (0 <= m <= 2 ^ p)%Z -> enc (fst (small p n m)) (cos (IZR m / B)) /\ enc (snd (small p n m)) (sin (IZR m / B)).
Proof.
  intros Hm. pose proof B_pos as PB. set (x := IZR m / B). assert (Hx : 0 <= x <= 1).
  { destruct Hm as (H1 & H2). apply IZR_le in H1, H2. fold B in H2. unfold x. split.
    - apply Rmult_le_reg_r with B; auto. replace (IZR m / B * B) with (IZR m) by (field; lra). lra.
    - apply Rmult_le_reg_r with B; auto. replace (IZR m / B * B) with (IZR m) by (field; lra). lra. }
  assert (E2 : enc (i_mul p (m, 0%Z) (m, 0%Z)) (x * x)) by (apply enc_mul; apply enc_self).
  unfold small. cbn [fst snd]. split.
  - apply (alternating_ok _ (x * x) (cos_term x) 0 E2 ltac:(lia) (cos_term_S x)); [reflexivity| |].
    + replace (cos_term x 0) with 1 by (unfold cos_term; cbn; field). apply enc_one.
    + apply pre_cos_bound; lra.
  - apply (alternating_ok _ (x * x) (sin_term x) 1 E2 ltac:(lia) (sin_term_S x)); [reflexivity| |].
    + replace (sin_term x 0) with x by (unfold sin_term; cbn; field). apply enc_self.
    + apply pre_sin_bound; lra.
Qed.
Lemma enc_near x a a' d : enc x a -> Rabs (a' - a) * B <= IZR d -> enc (fst x, (snd x + d)%Z) a'.
Proof.
  intros H D. unfold enc in *. cbn [fst snd]. rewrite plus_IZR. replace (a' * B - IZR (fst x)) with ((a * B - IZR (fst x)) + (a' - a) * B) by ring.
  eapply Rle_trans; [apply Rabs_triang|]. rewrite (Rabs_mult (a' - a)), (Rabs_right B) by (pose proof B_pos; lra). lra.
Qed.
Lemma doubled_ok h : forall m, (0 <= m <= 2 ^ Z.of_nat h * 2 ^ p)%Z ->
  enc (fst (doubled p n h m)) (cos (IZR m / B)) /\ enc (snd (doubled p n h m)) (sin (IZR m / B)).
Proof.
  pose proof B_pos as PB.
  induction h as [|h IH]; intros m Hm; cbn [doubled].
  - apply small_ok. change (2 ^ Z.of_nat 0)%Z with 1%Z in Hm. lia.
  - assert (Hm2 : (0 <= m / 2 <= 2 ^ Z.of_nat h * 2 ^ p)%Z).
    { rewrite Nat2Z.inj_succ, Z.pow_succ_r in Hm by lia. split; [apply Z.div_pos; lia|]. apply Z.div_le_upper_bound; lia. }
    destruct (IH _ Hm2) as (Hc & Hs). destruct (doubled p n h (m / 2)) as (c & s). cbn [fst snd] in *.
    set (y := IZR (m / 2) / B) in *.
    assert (Dm : Rabs (IZR m / B - (y + y)) * B <= 1).
    { pose proof (div_bounds m 2 ltac:(lia)) as (D1 & D2).
      replace (IZR m / B - (y + y)) with ((IZR m - 2 * IZR (m / 2)) / B) by (unfold y; field; lra).
      assert (D3 : (m - 2 * (m / 2) <= 1)%Z) by (pose proof (Z.div_mod m 2 ltac:(lia)); pose proof (Z.mod_pos_bound m 2 ltac:(lia)); lia).
      apply IZR_le in D3. rewrite minus_IZR, mult_IZR in D3.
      unfold Rdiv. rewrite Rabs_mult, (Rabs_right (/ B)) by (apply Rle_ge, Rlt_le, Rinv_0_lt_compat, PB).
      rewrite Rmult_assoc, Rinv_l, Rmult_1_r by lra. apply Rabs_le. lra. }
    split.
    + apply (enc_near (i_sub (i_mul p c c) (i_mul p s s)) (cos (y + y))).
      * rewrite cos_plus. apply enc_sub; now apply enc_mul.
      * eapply Rle_trans; [apply Rmult_le_compat_r; [lra|apply cos_lip]|]. exact Dm.
    + apply (enc_near (i_add (i_mul p c s) (i_mul p c s)) (sin (y + y))).
      * rewrite sin_plus. replace (sin y * cos y + cos y * sin y) with (cos y * sin y + cos y * sin y) by ring. apply enc_add; now apply enc_mul.
      * eapply Rle_trans; [apply Rmult_le_compat_r; [lra|apply sin_lip]|]. exact Dm.
Qed.
Lemma cs_ok m : (0 <= m)%Z -> enc (fst (cs p n m)) (cos (IZR m / B)) /\ enc (snd (cs p n m)) (sin (IZR m / B)).
Proof.
  intros Hm. unfold cs. apply doubled_ok. split; [exact Hm|].
  destruct (Z.eq_dec m 0) as [->|N]; [apply Z.mul_nonneg_nonneg; apply Z.pow_nonneg; lia|].
  pose proof (Z.log2_spec m ltac:(lia)) as (_ & H). pose proof (Z.log2_nonneg m).
  rewrite <- Z.pow_add_r by lia. apply Z.le_trans with (2 ^ Z.succ (Z.log2 m))%Z; [lia|]. apply Z.pow_le_mono_r; lia.
Qed.
Lemma near_arg x a : enc x a -> Rabs (a - IZR (fst x) / B) * B <= IZR (snd x).
Proof.
  intros H. unfold enc in H. pose proof B_pos as PB. rewrite <- (Rabs_right B) at 2 by lra. rewrite <- Rabs_mult.
  replace ((a - IZR (fst x) / B) * B) with (a * B - IZR (fst x)) by (field; lra). exact H.
Qed.
Lemma enc_cos x a : enc x a -> enc (i_cos p n x) (cos a).
Proof.
  intros H. unfold i_cos. destruct (cs_ok (Z.abs (fst x)) ltac:(lia)) as (Hc & _). apply enc_near with (cos (IZR (fst x) / B)).
  - replace (cos (IZR (fst x) / B)) with (cos (IZR (Z.abs (fst x)) / B)); [exact Hc|].
    destruct (Z.abs_spec (fst x)) as [(_ & ->)|(_ & ->)]; [reflexivity|]. rewrite opp_IZR. unfold Rdiv.
    rewrite Ropp_mult_distr_l_reverse. apply cos_neg.
  - eapply Rle_trans; [apply Rmult_le_compat_r; [pose proof B_pos; lra|apply cos_lip]|]. now apply near_arg.
Qed.
Lemma enc_sin x a : enc x a -> enc (i_sin p n x) (sin a).
Proof.
  intros H. unfold i_sin. destruct (cs_ok (Z.abs (fst x)) ltac:(lia)) as (_ & Hs). set (s := snd _) in *.
  apply (enc_near ((if fst x <? 0 then - fst s else fst s)%Z, snd s) (sin (IZR (fst x) / B))).
  - destruct (Z.ltb_spec (fst x) 0) as [L|L].
    + apply (enc_neg s (sin (IZR (Z.abs (fst x)) / B))) in Hs. rewrite Z.abs_neq in Hs by lia. rewrite opp_IZR in Hs.
      unfold Rdiv in Hs. rewrite Ropp_mult_distr_l_reverse, sin_neg, Ropp_involutive in Hs. exact Hs.
    + rewrite Z.abs_eq in Hs by lia. destruct s. exact Hs.
  - eapply Rle_trans; [apply Rmult_le_compat_r; [pose proof B_pos; lra|apply sin_lip]|]. now apply near_arg.
Qed.
Lemma enc_pi : half_pi p pi n = true -> enc ((2 * pi)%Z, (2 * w)%Z) PI.
Proof.
  unfold half_pi. rewrite !andb_true_iff, !Z.ltb_lt, !Z.leb_le. intros (((H1 & H2) & H3) & H4).
  pose proof B_pos as PB. assert (W : (0 < w)%Z) by (unfold w; lia). 
  destruct (cs_ok (pi - w) ltac:(lia)) as (C1 & _). destruct (cs_ok (pi + w) ltac:(lia)) as (C2 & _).
  rewrite enc_iff in C1, C2. apply IZR_lt in H1, H2. rewrite minus_IZR in H1. rewrite plus_IZR in H2.
  apply IZR_le in H3, H4. unfold one in H4. rewrite mult_IZR in H4. fold B in H4. rewrite plus_IZR in H4. apply IZR_lt in W.
  set (x1 := IZR (pi - w) / B) in *. set (x2 := IZR (pi + w) / B) in *.
  assert (X1 : x1 * B = IZR pi - IZR w) by (unfold x1; rewrite minus_IZR; field; lra).
  assert (X2 : x2 * B = IZR pi + IZR w) by (unfold x2; rewrite plus_IZR; field; lra).
  assert (P1 : x1 < PI / 2).
  { destruct (Rlt_le_dec x1 (PI / 2)) as [L|L]; [exact L|]. exfalso. assert (cos x1 <= 0); [|nra].
    apply cos_le_0; [lra|]. pose proof PI2_3_2. assert (x1 <= 2) by (apply Rmult_le_reg_r with B; auto; lra). lra. }
  assert (P2 : PI / 2 < x2).
  { destruct (Rlt_le_dec (PI / 2) x2) as [L|L]; [exact L|]. exfalso. assert (0 <= cos x2); [|nra].
    apply cos_ge_0; [|exact L]. assert (0 <= x2) by (apply Rmult_le_reg_r with B; auto; lra). pose proof PI2_3_2. lra. }
  apply enc_iff. cbn [fst snd]. rewrite !mult_IZR. nra.
Qed.

(** ** With errors *)
Variables (S : Scalar) (v : F S -> R -> Prop) (er Mr : R).
Hypothesis HA : accurate S v er Mr.
Hypothesis He : er * B <= IZR e.
Hypothesis HM : IZR M <= Mr * B.

Definition good (x : F S) (a : R) (q : num) : Prop :=
  match q with None => True | Some (y, E) => enc y a /\ exists c, v x c /\ Rabs (c - a) * B <= IZR E end.
Lemma er_pos : 0 <= er. Proof. apply (ac_pos _ _ _ _ HA). Qed.
Lemma mk_good x a c0 y D : enc y a -> Rabs (c0 - a) * B <= IZR D ->
  (Rabs c0 <= Mr -> exists c, v x c /\ Rabs (c - c0) <= er * (1 + Rabs c0)) -> good x a (mk p e M y D).
Proof.
  intros Hy HD Hv. unfold mk, good. destruct (Z.leb_spec (i_max y + D) M) as [L|L]; [|exact I]. split; [exact Hy|].
  pose proof B_pos as PB. pose proof er_pos as Pe. pose proof (enc_max _ _ Hy) as Ha. rewrite Rabs_mult, (Rabs_right B) in Ha by lra.
  assert (C0 : Rabs c0 * B <= IZR (i_max y + D)).
  { rewrite plus_IZR. assert (Rabs c0 <= Rabs a + Rabs (c0 - a)); [|nra]. replace c0 with (a + (c0 - a)) at 1 by ring. apply Rabs_triang. }
  assert (CM : Rabs c0 <= Mr) by (apply IZR_le in L; apply Rmult_le_reg_r with B; auto; lra).
  destruct (Hv CM) as (c & Vc & Bc). exists c. split; [exact Vc|]. rewrite plus_IZR.
  pose proof (up_ok (e * (one p + (i_max y + D)))) as U. set (u := IZR (up _ _)) in *.
  rewrite mult_IZR, (plus_IZR (one p)) in U. unfold one in U. fold B in U.
  assert (T : Rabs (c - a) <= Rabs (c - c0) + Rabs (c0 - a)) by (replace (c - a) with ((c - c0) + (c0 - a)) by ring; apply Rabs_triang).
  pose proof (Rabs_pos c0) as P0. 
  assert (K : er * (1 + Rabs c0) * B <= u).
  { apply Rmult_le_reg_r with B; [exact PB|]. apply Rle_trans with (IZR e * (B + Rabs c0 * B)).
    - replace (er * (1 + Rabs c0) * B * B) with (er * B * (B + Rabs c0 * B)) by ring. apply Rmult_le_compat_r; [nra|exact He].
    - eapply Rle_trans; [|exact U]. apply Rmult_le_compat_l; [nra|lra]. }
  nra.
Qed.
Lemma good_add x y a b qa qb : good x a qa -> good y b qb -> good (fadd S x y) (a + b) (c_add p e M qa qb).
Proof.
  destruct qa as [(u & E)|], qb as [(u' & E')|]; cbn; auto. intros (Ha & c & Vc & Bc) (Hb & d & Vd & Bd).
  apply mk_good with (c + d); [now apply enc_add| |intros; now apply (ac_add _ _ _ _ HA)].
  rewrite plus_IZR. replace (c + d - (a + b)) with ((c - a) + (d - b)) by ring. pose proof (Rabs_triang (c - a) (d - b)). pose proof B_pos. nra.
Qed.
Lemma good_sub x y a b qa qb : good x a qa -> good y b qb -> good (fsub S x y) (a - b) (c_sub p e M qa qb).
Proof.
  destruct qa as [(u & E)|], qb as [(u' & E')|]; cbn; auto. intros (Ha & c & Vc & Bc) (Hb & d & Vd & Bd).
  apply mk_good with (c - d); [now apply enc_sub| |intros; now apply (ac_sub _ _ _ _ HA)].
  rewrite plus_IZR. replace (c - d - (a - b)) with ((c - a) + - (d - b)) by ring. pose proof (Rabs_triang (c - a) (- (d - b))) as T.
  rewrite Rabs_Ropp in T. pose proof B_pos. nra.
Qed.
Lemma good_mul x y a b qa qb : good x a qa -> good y b qb -> good (fmul S x y) (a * b) (c_mul p e M qa qb).
Proof.
  destruct qa as [(u & E)|], qb as [(u' & E')|]; cbn; auto. intros (Ha & c & Vc & Bc) (Hb & d & Vd & Bd).
  apply mk_good with (c * d); [now apply enc_mul| |intros; now apply (ac_mul _ _ _ _ HA)].
  pose proof (enc_max _ _ Ha) as Ma. pose proof (enc_max _ _ Hb) as Mb. pose proof B_pos as PB.
  rewrite Rabs_mult, (Rabs_right B) in Ma, Mb by lra.
  pose proof (up_ok (i_max u * E' + i_max u' * E + E * E')) as U. set (w := IZR (up _ _)) in *.
  rewrite !plus_IZR, !mult_IZR in U. apply Rmult_le_reg_r with B; [exact PB|]. eapply Rle_trans; [|exact U].
  replace (c * d - a * b) with (a * (d - b) + b * (c - a) + (c - a) * (d - b)) by ring.
  pose proof (Rabs_triang (a * (d - b) + b * (c - a)) ((c - a) * (d - b))) as T1. pose proof (Rabs_triang (a * (d - b)) (b * (c - a))) as T2.
  rewrite !Rabs_mult in T1. rewrite (Rabs_mult a), (Rabs_mult b) in T2. set (t := Rabs (a * (d - b) + b * (c - a) + (c - a) * (d - b))) in *.
  pose proof (Rabs_pos a). pose proof (Rabs_pos b). pose proof (Rabs_pos (c - a)). pose proof (Rabs_pos (d - b)).
  apply Rle_trans with ((Rabs a * B) * (Rabs (d - b) * B) + (Rabs b * B) * (Rabs (c - a) * B) + (Rabs (c - a) * B) * (Rabs (d - b) * B)).
  - replace (Rabs a * B * (Rabs (d - b) * B) + Rabs b * B * (Rabs (c - a) * B) + Rabs (c - a) * B * (Rabs (d - b) * B))
      with ((Rabs a * Rabs (d - b) + Rabs b * Rabs (c - a) + Rabs (c - a) * Rabs (d - b)) * (B * B)) by ring.
    rewrite (Rmult_assoc t). apply Rmult_le_compat_r; [nra|]. lra.
  - repeat apply Rplus_le_compat; apply Rmult_le_compat; nra || auto.
Qed.
Lemma floor_div m k : (k <> 0)%Z -> Rabs (IZR (m / k) - IZR m / IZR k) <= 1.
Proof.
  intros H. pose proof (Z.div_mod m k H) as E. assert (Bd : (Z.abs (m mod k) <= Z.abs k)%Z).
  { destruct (Z.lt_total k 0) as [L|[L|L]]; [pose proof (Z.mod_neg_bound m k L)|lia|pose proof (Z.mod_pos_bound m k L)]; lia. }
  apply IZR_le in Bd. rewrite <- !Rabs_IZR in Bd. assert (K : IZR k <> 0) by (now apply not_0_IZR).
  assert (Em : IZR m = IZR k * IZR (m / k) + IZR (m mod k)) by (rewrite <- mult_IZR, <- plus_IZR; now f_equal).
  replace (IZR (m / k) - IZR m / IZR k) with (- (IZR (m mod k) / IZR k)) by (rewrite Em; field; exact K).
  rewrite Rabs_Ropp. unfold Rdiv. rewrite Rabs_mult, Rabs_inv. apply Rmult_le_reg_r with (Rabs (IZR k)); [now apply Rabs_pos_lt|].
  rewrite Rmult_assoc, Rinv_l, Rmult_1_r, Rmult_1_l; [exact Bd|now apply Rabs_no_R0].
Qed.
Lemma ceil_div x k : (0 < k)%Z -> IZR x / IZR k <= IZR (x / k) + 1.
Proof.
  intros H. pose proof (div_bounds x k H) as (_ & D). assert (K : 0 < IZR k) by (now apply IZR_lt).
  apply Rmult_le_reg_r with (IZR k); [exact K|]. replace (IZR x / IZR k * IZR k) with (IZR x) by (field; lra). lra.
Qed.
Lemma frac x X y Y : 0 <= x -> x <= X -> 0 < y -> y <= Y -> x / Y <= X / y.
Proof. intros. unfold Rdiv. apply Rmult_le_compat; auto; [apply Rlt_le, Rinv_0_lt_compat; lra|]. now apply Rinv_le_contravar. Qed.
Lemma good_div x y a b qa qb : good x a qa -> good y b qb -> good (fdiv S x y) (a / b) (c_div p e M qa qb).
Proof.
  destruct qa as [((m & r) & E)|], qb as [((m' & r') & E')|]; cbn [good c_div Cert.lift2]; auto.
  intros (Ha & c & Vc & Bc) (Hb & d & Vd & Bd). cbn [fst snd].
  set (lo := (Z.abs m' - r')%Z). destruct (Z.ltb_spec E' lo) as [L|L]; [|exact I].
  pose proof B_pos as PB. pose proof (enc_max _ _ Ha) as Ma. rewrite Rabs_mult, (Rabs_right B) in Ma by lra.
  set (A := i_max (m, r)) in *. pose proof (enc_r _ _ Ha) as Pr. pose proof (enc_r _ _ Hb) as Pr'.
  unfold enc in Ha, Hb. cbn [fst snd] in *.
  pose proof (Rabs_pos (d - b)) as Pd. assert (PE' : 0 <= IZR E') by nra. pose proof (Rabs_pos (c - a)) as Pc. assert (PE : 0 <= IZR E) by nra.
  assert (PA : 0 <= IZR A) by (pose proof (Rabs_pos a); nra).
  assert (Zr' : (0 <= r')%Z) by (now apply le_IZR). assert (ZE' : (0 <= E')%Z) by (now apply le_IZR).
  assert (Zm' : (0 < Z.abs m')%Z) by (unfold lo in L; lia). assert (Zl : (0 < lo)%Z) by lia.
  assert (Lb : IZR lo <= Rabs b * B).
  { unfold lo. rewrite minus_IZR, <- Rabs_IZR. pose proof (Rabs_triang_inv (IZR m') (IZR m' - b * B)) as T.
    replace (IZR m' - (IZR m' - b * B)) with (b * B) in T by ring. rewrite (Rabs_minus_sym (IZR m') (b * B)) in T.
    rewrite Rabs_mult, (Rabs_right B) in T by lra. lra. }
  assert (Ld : IZR lo - IZR E' <= Rabs d * B).
  { pose proof (Rabs_triang_inv b (b - d)) as T. rewrite (Rabs_minus_sym b d) in T. replace (b - (b - d)) with d in T by ring. nra. }
  assert (RL : IZR E' < IZR lo) by (now apply IZR_lt). assert (RL0 : 0 < IZR lo) by lra.
  assert (Nb : b <> 0) by (intros ->; rewrite Rabs_R0 in Lb; lra). assert (Nd : d <> 0) by (intros ->; rewrite Rabs_R0 in Ld; lra).
  assert (Pb : 0 < Rabs b) by (now apply Rabs_pos_lt). assert (Pdd : 0 < Rabs d) by (now apply Rabs_pos_lt).
  assert (Rm' : 0 < IZR (Z.abs m')) by (now apply IZR_lt). assert (Nm' : IZR m' <> 0) by (apply not_0_IZR; lia).
  apply mk_good with (c / d).
  - unfold enc. cbn [fst snd]. pose proof (floor_div (m * one p) m' ltac:(lia)) as F1.
    pose proof (ceil_div ((Z.abs m * r' + Z.abs m' * r) * one p) (Z.abs m' * lo) ltac:(nia)) as F2.
    unfold one in *. rewrite !mult_IZR in F1. rewrite !mult_IZR, plus_IZR, !mult_IZR in F2. fold B in F1, F2.
    rewrite (plus_IZR _ 2). set (q := IZR (m * 2 ^ p / m')) in *. set (t := IZR (_ / _)) in *.
    assert (K : Rabs (a / b * B - IZR m * B / IZR m') <= (IZR (Z.abs m) * IZR r' + IZR (Z.abs m') * IZR r) * B / (IZR (Z.abs m') * IZR lo)).
    { replace (a / b * B - IZR m * B / IZR m') with (((a * B - IZR m) * IZR m' - IZR m * (b * B - IZR m')) * B * / (b * B * IZR m')) by (field; repeat split; auto; lra).
      rewrite Rabs_mult, Rabs_inv, Rabs_mult, (Rabs_right B), Rabs_mult, Rabs_mult, (Rabs_right B) by lra.
      rewrite (Rabs_IZR m'). unfold Rdiv. apply Rmult_le_compat.
      - apply Rmult_le_pos; [apply Rabs_pos|lra].
      - apply Rlt_le, Rinv_0_lt_compat. apply Rmult_lt_0_compat; nra.
      - apply Rmult_le_compat_r; [lra|]. unfold Rminus at 1. eapply Rle_trans; [apply Rabs_triang|]. rewrite Rabs_Ropp, !Rabs_mult, !Rabs_IZR.
        pose proof (IZR_le 0 (Z.abs m) ltac:(lia)). pose proof (Rabs_pos (a * B - IZR m)). pose proof (Rabs_pos (b * B - IZR m')). nra.
      - apply Rinv_le_contravar; [apply Rmult_lt_0_compat; auto|]. rewrite Rmult_comm. apply Rmult_le_compat_r; [lra|exact Lb]. }
    replace (a / b * B - q) with ((a / b * B - IZR m * B / IZR m') + (IZR m * B / IZR m' - q)) by ring.
    eapply Rle_trans; [apply Rabs_triang|]. rewrite (Rabs_minus_sym (IZR m * B / IZR m') q). lra.
  - pose proof (ceil_div ((E * lo + A * E') * one p) (lo * (lo - E')) ltac:(nia)) as F2. unfold one in *.
    rewrite !mult_IZR, plus_IZR, !mult_IZR, minus_IZR in F2. fold B in F2. rewrite plus_IZR. set (t := IZR (_ / _)) in *.
    eapply Rle_trans; [|exact F2].
    assert (T : Rabs (c / d - a / b) * B <= (Rabs (c - a) * B) / (Rabs d * B) * B + (Rabs a * B * (Rabs (d - b) * B)) / (Rabs b * B * (Rabs d * B)) * B).
    { replace (c / d - a / b) with ((c - a) * / d + - (a * (d - b) * / (b * d))) by (field; auto).
      rewrite <- Rmult_plus_distr_r. apply Rmult_le_compat_r; [lra|]. eapply Rle_trans; [apply Rabs_triang|].
      rewrite Rabs_Ropp, !Rabs_mult, !Rabs_inv, Rabs_mult. apply Req_le. field. repeat split; lra. }
    eapply Rle_trans; [exact T|].
    replace ((IZR E * IZR lo + IZR A * IZR E') * B / (IZR lo * (IZR lo - IZR E')))
      with (IZR E / (IZR lo - IZR E') * B + (IZR A * IZR E') / (IZR lo * (IZR lo - IZR E')) * B) by (field; split; lra).
    apply Rplus_le_compat; (apply Rmult_le_compat_r; [lra|]); apply frac; try lra; try nra.
    + apply Rmult_le_pos; apply Rmult_le_pos; auto using Rabs_pos; lra.
    + apply Rmult_le_compat; auto; apply Rmult_le_pos; auto using Rabs_pos; lra.
  - intros; now apply (ac_div _ _ _ _ HA).
Qed.
Lemma good_neg x a q : good x a q -> good (fneg S x) (- a) (option_map (fun y => (i_neg (fst y), snd y)) q).
Proof.
  destruct q as [(u & E)|]; cbn; auto. intros (Ha & c & Vc & Bc). split; [now apply enc_neg|]. exists (- c). split; [now apply (ac_neg _ _ _ _ HA)|].
  replace (- c - - a) with (- (c - a)) by ring. now rewrite Rabs_Ropp.
Qed.
Lemma zero_err a : Rabs (a - a) * B <= IZR 0.
Proof. replace (a - a) with 0 by ring. rewrite Rabs_R0. lra. Qed.
Lemma good_ofZ z : good (fofZ S z) (IZR z) (c_ofZ p e M z).
Proof.
  unfold c_ofZ. apply mk_good with (IZR z); [|apply zero_err|intros; now apply (ac_ofZ _ _ _ _ HA)].
  unfold enc. cbn [fst snd]. rewrite mult_IZR. unfold one. fold B. rewrite Rminus_diag_eq by ring. rewrite Rabs_R0. lra.
Qed.
Lemma good_lit q : good (flit S q) (Q2R q) (c_lit p e M q).
Proof.
  unfold c_lit. apply mk_good with (Q2R q); [|apply zero_err|intros; now apply (ac_lit _ _ _ _ HA)].
  unfold enc. cbn [fst snd]. pose proof (floor_div (Qnum q * one p) (Zpos (Qden q)) ltac:(lia)) as F. rewrite mult_IZR in F. unfold one in *. fold B in F.
  rewrite Rabs_minus_sym. unfold Q2R. replace (IZR (Qnum q) * / IZR (Z.pos (Qden q)) * B) with (IZR (Qnum q) * B / IZR (Z.pos (Qden q))); [exact F|].
  unfold Rdiv. ring.
Qed.
Lemma good_pi : good (fpi S) PI (c_pi p e M pi n).
Proof.
  unfold c_pi. destruct (half_pi p pi n) eqn:E; [|exact I]. apply mk_good with PI; [now apply enc_pi|apply zero_err|].
  intros _. assert (EP : Rabs PI = PI) by (apply Rabs_right; pose proof PI_RGT_0; lra). rewrite EP. apply (ac_pi _ _ _ _ HA).
Qed.
Lemma libm_err a c c' E : Rabs (c - a) * B <= IZR E -> forall g, (forall x y, Rabs (g x - g y) <= Rabs (x - y)) -> (forall x, Rabs (g x) <= 1) ->
  Rabs (c' - g c) <= er * (1 + Rabs (g c)) -> Rabs (c' - g a) * B <= IZR (E + up p (2 * e * one p)).
Proof.
  intros H g Hl H1 Hc. pose proof B_pos as PB. pose proof er_pos as Pe. rewrite plus_IZR.
  pose proof (up_ok (2 * e * one p)) as U. set (u := IZR (up _ _)) in *. rewrite !mult_IZR in U. unfold one in U. fold B in U.
  assert (U' : 2 * (er * B) <= u) by (apply Rmult_le_reg_r with B; auto; nra).
  assert (T : Rabs (c' - g a) <= Rabs (c' - g c) + Rabs (g c - g a)) by (replace (c' - g a) with ((c' - g c) + (g c - g a)) by ring; apply Rabs_triang).
  pose proof (Hl c a). pose proof (H1 c). 
  assert (Rabs (c' - g c) <= er * 2) by (eapply Rle_trans; [exact Hc|]; apply Rmult_le_compat_l; lra). nra.
Qed.
Lemma good_cos x a q : good x a q -> good (fcos S x) (cos a) (c_cos p e n q).
Proof.
  destruct q as [(u & E)|]; cbn [good c_cos]; auto. intros (Ha & c & Vc & Bc). split; [now apply enc_cos|].
  destruct (ac_cos _ _ _ _ HA _ _ Vc) as (c' & Vc' & Bc'). exists c'. split; [exact Vc'|].
  apply (libm_err a c c' E Bc cos); auto; [apply cos_lip|intros; apply Rabs_le, COS_bound].
Qed.
Lemma good_sin x a q : good x a q -> good (fsin S x) (sin a) (c_sin p e n q).
Proof.
  destruct q as [(u & E)|]; cbn [good c_sin]; auto. intros (Ha & c & Vc & Bc). split; [now apply enc_sin|].
  destruct (ac_sin _ _ _ _ HA _ _ Vc) as (c' & Vc' & Bc'). exists c'. split; [exact Vc'|].
  apply (libm_err a c c' E Bc sin); auto; [apply sin_lip|intros; apply Rabs_le, SIN_bound].
Qed.
End P.
