(** The operations of SpecFloat are accurate to a unit in the last place. *)
From Coq Require Import ZArith QArith Bool Lia Reals Lra Psatz Qreals Floats.SpecFloat Zpower.
From Verif Require Import Scalar RoundSpec Ieee.
Local Open Scope Z_scope.
Local Open Scope R_scope.

Notation b := (powerRZ 2).
Lemma b_pos k : 0 < b k. Proof. apply powerRZ_lt. lra. Qed.
Lemma b_add j k : b (j + k) = b j * b k. Proof. apply powerRZ_add. lra. Qed.
Lemma b_Z k : (0 <= k)%Z -> b k = IZR (2 ^ k).
Proof.
  intros H. rewrite <- (Z2Nat.id k H) at 1. rewrite <- pow_powerRZ. rewrite pow_IZR. now rewrite Z2Nat.id.
Qed.
Lemma b_0 : b 0 = 1. Proof. reflexivity. Qed.
Lemma b_le j k : (j <= k)%Z -> b j <= b k.
Proof.
  intros H. replace k with (j + (k - j))%Z by lia. rewrite b_add. pose proof (b_pos j).
  assert (1 <= b (k - j)). { rewrite b_Z by lia. apply IZR_le. pose proof (Z.pow_pos_nonneg 2 (k - j)). lia. }
  nra.
Qed.
Lemma b_lt_inv j k : b j < b k -> (j < k)%Z.
Proof. intros H. destruct (Z_lt_le_dec j k) as [L|L]; auto. apply b_le in L. lra. Qed.
Lemma b_le_inv j k : b j <= b k -> (j <= k)%Z.
Proof.
  intros H. destruct (Z_le_gt_dec j k) as [L|L]; auto. assert (A : (k + 1 <= j)%Z) by lia.
  apply b_le in A. rewrite b_add in A. change (b 1) with (2 * 1) in A. pose proof (b_pos k). lra.
Qed.

(** *** Digits *)
Lemma digits_pos p : (2 ^ (Zpos (digits2_pos p) - 1) <= Zpos p < 2 ^ Zpos (digits2_pos p))%Z.
Proof.
  induction p as [p IH|p IH|]; cbn [digits2_pos]; [| |vm_compute; intuition congruence].
  - rewrite Pos2Z.inj_succ. replace (Z.succ (Zpos (digits2_pos p)) - 1)%Z with (Z.succ (Zpos (digits2_pos p) - 1)) by lia.
    rewrite !Z.pow_succ_r by lia. rewrite Pos2Z.inj_xI. lia.
  - rewrite Pos2Z.inj_succ. replace (Z.succ (Zpos (digits2_pos p)) - 1)%Z with (Z.succ (Zpos (digits2_pos p) - 1)) by lia.
    rewrite !Z.pow_succ_r by lia. change (Zpos (xO p)) with (2 * Zpos p)%Z. lia.
Qed.
Lemma digits_nonneg m : (0 <= Zdigits2 m)%Z. Proof. destruct m; cbn; lia. Qed.
Lemma digits_lt m : (0 <= m)%Z -> (m < 2 ^ Zdigits2 m)%Z.
Proof. destruct m as [|p|p]; cbn [Zdigits2]; intros H; [reflexivity|apply digits_pos|lia]. Qed.
Lemma digits_ge m : (0 < m)%Z -> (2 ^ (Zdigits2 m - 1) <= m)%Z /\ (1 <= Zdigits2 m)%Z.
Proof. destruct m as [|p|p]; cbn [Zdigits2]; intros H; try lia. split; [apply digits_pos|lia]. Qed.
Lemma digits_le m k : (0 <= k)%Z -> (0 <= m < 2 ^ k)%Z -> (Zdigits2 m <= k)%Z.
Proof.
  intros Hk (H0 & H). destruct (Z.eq_dec m 0) as [->|N]; [cbn; lia|].
  destruct (digits_ge m ltac:(lia)) as (A & B). destruct (Z_le_gt_dec (Zdigits2 m) k); auto.
  assert (2 ^ k <= 2 ^ (Zdigits2 m - 1))%Z by (apply Z.pow_le_mono_r; lia). lia.
Qed.
Lemma digits_more m k : (0 <= k)%Z -> (2 ^ k <= m)%Z -> (k + 1 <= Zdigits2 m)%Z.
Proof.
  intros Hk H. pose proof (Z.pow_pos_nonneg 2 k ltac:(lia) Hk). pose proof (digits_lt m ltac:(lia)) as A.
  destruct (Z_le_gt_dec (k + 1) (Zdigits2 m)); auto. pose proof (digits_nonneg m).
  assert (2 ^ Zdigits2 m <= 2 ^ k)%Z by (apply Z.pow_le_mono_r; lia). lia.
Qed.
Lemma digits_eq m k : (0 < k)%Z -> (2 ^ (k - 1) <= m < 2 ^ k)%Z -> Zdigits2 m = k.
Proof.
  intros Hk (H1 & H2). pose proof (Z.pow_pos_nonneg 2 (k - 1) ltac:(lia) ltac:(lia)).
  pose proof (digits_le m k ltac:(lia) ltac:(lia)). pose proof (digits_more m (k - 1) ltac:(lia) H1). lia.
Qed.
Lemma digits_shift m k : (0 < m)%Z -> (0 <= k)%Z -> Zdigits2 (m * 2 ^ k) = (Zdigits2 m + k)%Z.
Proof.
  intros Hm Hk. destruct (digits_ge m Hm) as (A & B). pose proof (digits_lt m ltac:(lia)) as C.
  pose proof (Z.pow_pos_nonneg 2 k ltac:(lia) Hk). apply digits_eq; [lia|].
  replace (Zdigits2 m + k - 1)%Z with (Zdigits2 m - 1 + k)%Z by lia. rewrite !Z.pow_add_r by lia. nia.
Qed.

(** *** Shifts *)
Lemma shr_1_m r : (0 <= shr_m r)%Z -> shr_m (shr_1 r) = (shr_m r / 2)%Z.
Proof.
  destruct r as [m r s]. cbn [shr_m]. intros H. rewrite <- Z.div2_div. destruct m as [|[p|p|]|p]; try reflexivity. lia.
Qed.
Lemma shr_iter_m p : forall r, (0 <= shr_m r)%Z -> shr_m (iter_pos shr_1 p r) = (shr_m r / 2 ^ Zpos p)%Z.
Proof.
  assert (D : forall m j k, (0 <= j)%Z -> (0 <= k)%Z -> (m / 2 ^ j / 2 ^ k = m / 2 ^ (j + k))%Z).
  { intros m j k Hj Hk. rewrite Z.div_div, Z.pow_add_r by (try lia; try apply Z.pow_pos_nonneg; lia). reflexivity. }
  assert (N : forall m k, (0 <= m)%Z -> (0 <= k)%Z -> (0 <= m / 2 ^ k)%Z).
  { intros m k Hm Hk. apply Z.div_pos; [lia|]. apply Z.pow_pos_nonneg; lia. }
  assert (I : forall p r, (0 <= shr_m r)%Z -> (0 <= shr_m (iter_pos shr_1 p r))%Z /\
                shr_m (iter_pos shr_1 p r) = (shr_m r / 2 ^ Zpos p)%Z).
  { clear p. induction p as [p IH|p IH|]; intros r H; cbn [iter_pos].
    - assert (H1 : shr_m (shr_1 r) = (shr_m r / 2 ^ 1)%Z) by (rewrite shr_1_m by auto; reflexivity).
      assert (P1 : (0 <= shr_m (shr_1 r))%Z) by (rewrite H1; apply N; lia).
      destruct (IH _ P1) as (P2 & H2). destruct (IH _ P2) as (P3 & H3). split; [exact P3|].
      rewrite H3, H2, H1, !D by lia. f_equal. f_equal. lia.
    - destruct (IH _ H) as (P2 & H2). destruct (IH _ P2) as (P3 & H3). split; [exact P3|].
      rewrite H3, H2, !D by lia. f_equal. f_equal. lia.
    - assert (H1 : shr_m (shr_1 r) = (shr_m r / 2 ^ 1)%Z) by (rewrite shr_1_m by auto; reflexivity).
      split; [rewrite H1; apply N; lia|exact H1]. }
  intros r H. apply I, H.
Qed.
Lemma shr_m_of m l : shr_m (shr_record_of_loc m l) = m. Proof. now destruct l as [|[| |]]. Qed.

Section P.
Variables prec emax : Z.
Hypothesis Hprec : (2 <= prec)%Z.
Hypothesis Hemax : (prec < emax)%Z.
Notation fexp := (fexp prec emax).
Notation emin := (emin prec emax).
Notation eps := (sf_eps prec).
Notation is := (sf_is prec emax).

Lemma fexp_mono j k : (j <= k)%Z -> (fexp j <= fexp k)%Z. Proof. unfold SpecFloat.fexp. lia. Qed.
Lemma eps_pos : 0 < eps. Proof. apply b_pos. Qed.

Lemma shr_fexp_eq m e l : (0 <= m)%Z -> (e <= fexp (Zdigits2 m + e))%Z ->
  exists r, shr_fexp prec emax m e l = (r, fexp (Zdigits2 m + e)) /\ shr_m r = (m / 2 ^ (fexp (Zdigits2 m + e) - e))%Z.
Proof.
  intros Hm He. unfold shr_fexp. set (k := (fexp (Zdigits2 m + e) - e)%Z).
  assert (Ek : fexp (Zdigits2 m + e) = (e + k)%Z) by (unfold k; lia). rewrite Ek. assert (Hk : (0 <= k)%Z) by (unfold k; lia).
  clearbody k. unfold shr. destruct k as [|k|k]; [| |lia].
  - eexists. split; [rewrite Z.add_0_r; reflexivity|]. rewrite shr_m_of. change (2 ^ 0)%Z with 1%Z. now rewrite Z.div_1_r.
  - eexists. split; [reflexivity|]. rewrite shr_iter_m by (now rewrite shr_m_of). now rewrite shr_m_of.
Qed.

Definition sg (s : bool) : R := if s then -1 else 1.
Lemma finite_is s m e : bounded prec emax m e = true -> is (S754_finite s m e) (sg s * (IZR (Zpos m) * b e)).
Proof. intros H. split; [exact H|]. unfold sg. ring. Qed.
Lemma bounded_of m e : fexp (Zpos (digits2_pos m) + e) = e -> (e <= emax - prec)%Z -> bounded prec emax m e = true.
Proof.
  intros H1 H2. unfold bounded, canonical_mantissa. rewrite H1. apply andb_true_intro. split.
  - unfold Zeq_bool. now rewrite Z.compare_refl.
  - now apply Zle_imp_le_bool.
Qed.

(** A value x between m 2^e and (m+1) 2^e, m long enough, is rounded to a neighbour. *)
Lemma round_aux s m e l x : (0 <= m)%Z -> IZR m * b e <= x -> x < (IZR m + 1) * b e -> (e <= fexp (Zdigits2 m + e))%Z ->
  x <= b (emax - 1) ->
  exists c, is (binary_round_aux prec emax s m e l) (sg s * c) /\ Rabs (c - x) <= eps * (1 + x).
Proof.
  intros Hm Hlo Hhi He Hx. unfold binary_round_aux.
  assert (PM : (emin <= Zdigits2 m + e - prec)%Z -> (0 < m)%Z).
  { intros A. destruct (Z.eq_dec m 0) as [->|]; [|lia]. unfold SpecFloat.fexp in He. cbn [Zdigits2] in *. lia. }
  destruct (shr_fexp_eq m e l Hm He) as (r & -> & Hr). set (e' := fexp (Zdigits2 m + e)) in *.
  set (k := (e' - e)%Z) in *. assert (Hk : (0 <= k)%Z) by (unfold k; lia).
  set (m1 := (m / 2 ^ k)%Z) in *.
  assert (P2 : (0 < 2 ^ k)%Z) by (apply Z.pow_pos_nonneg; lia).
  assert (Hm1 : (0 <= m1)%Z) by (apply Z.div_pos; lia).
  assert (Hdiv : (2 ^ k * m1 <= m < 2 ^ k * (m1 + 1))%Z).
  { split; [apply Z.mul_div_le; lia|]. pose proof (Z.mul_succ_div_gt m (2 ^ k) P2). unfold Z.succ in *. exact H. }
  assert (Eb : b e' = b e * IZR (2 ^ k)). { replace e' with (e + k)%Z by (unfold k; lia). rewrite b_add, (b_Z k Hk). reflexivity. }
  pose proof (b_pos e) as Pe. pose proof (b_pos e') as Pe'.
  assert (L1 : IZR m1 * b e' <= x).
  { destruct Hdiv as (A & _). apply IZR_le in A. rewrite mult_IZR in A. rewrite Eb. nra. }
  assert (U1 : x < (IZR m1 + 1) * b e').
  { destruct Hdiv as (_ & A). assert (A' : (m + 1 <= 2 ^ k * (m1 + 1))%Z) by lia. apply IZR_le in A'.
    rewrite mult_IZR, !plus_IZR in A'. rewrite Eb. nra. }
  rewrite Hr. set (M := round_nearest_even m1 (loc_of_shr_record r)).
  assert (HM : M = m1 \/ M = (m1 + 1)%Z).
  { unfold M, round_nearest_even. destruct (loc_of_shr_record r) as [|[| |]]; auto. destruct (Z.even m1); auto. }
  clearbody M. clear Hr r.
  assert (Perr : Rabs (IZR M * b e' - x) <= b e').
  { apply Rabs_le. destruct HM as [-> | ->]; rewrite ?plus_IZR; split; nra. }
  (* size of the unit *)
  assert (Hulp : b e' <= eps * (1 + x)).
  { pose proof eps_pos. assert (X0 : 0 <= x). { pose proof (IZR_le 0 m Hm). nra. }
    unfold e', SpecFloat.fexp. destruct (Z.max_spec (Zdigits2 m + e - prec) emin) as [(A & ->)|(A & ->)].
    - apply Rle_trans with eps; [|nra]. apply b_le. unfold SpecFloat.emin. lia.
    - pose proof (PM A) as Pm.
      destruct (digits_ge m Pm) as (B & B1). apply IZR_le in B. rewrite <- b_Z in B by lia.
      assert (b (Zdigits2 m + e - prec) = b (Zdigits2 m - 1) * b e * eps).
      { unfold sf_eps. rewrite <- !b_add. f_equal. lia. }
      rewrite H0. assert (b (Zdigits2 m - 1) * b e <= x) by nra. nra. }
  (* size of the exponent *)
  assert (Hexp : (e' <= emax - prec)%Z).
  { unfold e', SpecFloat.fexp. destruct (Z.max_spec (Zdigits2 m + e - prec) emin) as [(A & ->)|(A & ->)]; [unfold SpecFloat.emin; lia|].
    pose proof (PM A) as Pm.
    destruct (digits_ge m Pm) as (B & B1). apply IZR_le in B. rewrite <- b_Z in B by lia.
    assert (C : b (Zdigits2 m - 1 + e) <= b (emax - 1)) by (rewrite b_add; nra). apply b_le_inv in C. lia. }
  assert (HM0 : (0 <= M)%Z) by lia.
  (* the two cases: normal and subnormal *)
  assert (Cases : (Zdigits2 M = prec /\ (emin <= e')%Z) \/ M = (2 ^ prec)%Z /\ (emin <= e')%Z /\ (e' < emax - prec)%Z \/
                  (Zdigits2 M <= prec)%Z /\ e' = emin).
  { pose proof (digits_lt m Hm) as D2. destruct (Z.max_spec (Zdigits2 m + e - prec) emin) as [(A & A')|(A & A')].
    - right. right. assert (E' : e' = emin) by exact A'. split; [|exact E'].
      apply digits_le; [lia|]. split; [lia|]. assert (m1 < 2 ^ (prec - 1))%Z.
      { apply Z.div_lt_upper_bound; [lia|]. rewrite <- Z.pow_add_r by lia.
        eapply Z.lt_le_trans; [exact D2|]. apply Z.pow_le_mono_r; lia. }
      assert (2 ^ prec = 2 * 2 ^ (prec - 1))%Z. { rewrite <- Z.pow_succ_r by lia. f_equal. lia. }
      pose proof (Z.pow_pos_nonneg 2 (prec - 1) ltac:(lia) ltac:(lia)).
      assert (1 < 2 ^ (prec - 1) \/ M <= m1 + 1)%Z by lia. lia.
    - assert (E' : e' = (Zdigits2 m + e - prec)%Z) by exact A'.
      pose proof (PM A) as Pm.
      destruct (digits_ge m Pm) as (B & B1). assert (Ek : Zdigits2 m = (prec + k)%Z) by (unfold k; lia).
      assert (Lo1 : (2 ^ (prec - 1) <= m1)%Z).
      { apply Z.div_le_lower_bound; [lia|]. rewrite <- Z.pow_add_r by lia. eapply Z.le_trans; [|exact B].
        apply Z.pow_le_mono_r; lia. }
      assert (Up1 : (m1 < 2 ^ prec)%Z).
      { apply Z.div_lt_upper_bound; [lia|]. rewrite <- Z.pow_add_r by lia. eapply Z.lt_le_trans; [exact D2|].
        apply Z.pow_le_mono_r; lia. }
      destruct (Z.eq_dec M (2 ^ prec)) as [EM|NM].
      + right. left. split; [exact EM|]. split; [lia|]. destruct (Z.eq_dec e' (emax - prec)) as [Ee|]; [exfalso|lia].
        assert (m1 = 2 ^ prec - 1)%Z by lia. rewrite Ee in L1.
        assert (Y : IZR m1 * b (emax - prec) = b emax - b (emax - prec)).
        { rewrite H, minus_IZR, <- b_Z by lia. replace emax with (prec + (emax - prec))%Z at 2 by lia. rewrite b_add. ring. }
        assert (Z1 : b emax = 2 * b (emax - 1)).
        { replace emax with (1 + (emax - 1))%Z at 1 by lia. rewrite b_add. change (b 1) with (2 * 1). ring. }
        assert (Z2 : 2 * b (emax - prec) <= b (emax - 1)).
        { replace (2 * b (emax - prec)) with (b (1 + (emax - prec))) by (rewrite b_add; change (b 1) with (2 * 1); ring).
          apply b_le. lia. }
        pose proof (b_pos (emax - prec)). lra.
      + left. split; [|lia]. apply digits_eq; [lia|]. lia. }
  destruct Cases as [(Dg & Em)|[(EM & Em & Lt)|(Dg & Em)]].
  - (* normal *)
    assert (Fe : fexp (Zdigits2 M + e') = e') by (unfold SpecFloat.fexp; rewrite Dg; lia).
    destruct (shr_fexp_eq M e' loc_Exact HM0 ltac:(lia)) as (r2 & -> & Hr2). rewrite Fe, Z.sub_diag in Hr2.
    change (2 ^ 0)%Z with 1%Z in Hr2. rewrite Z.div_1_r in Hr2. rewrite Hr2, Fe.
    destruct M as [|p|p]; [cbn in Dg; lia| |lia].
    replace (Zle_bool e' (emax - prec)) with true by (symmetry; now apply Zle_imp_le_bool).
    exists (IZR (Zpos p) * b e'). split; [|lra]. apply finite_is. apply bounded_of; [exact Fe|exact Hexp].
  - (* the mantissa overflows *)
    assert (Dg : Zdigits2 M = (prec + 1)%Z).
    { rewrite EM. apply digits_eq; [lia|]. replace (prec + 1 - 1)%Z with prec by lia.
      split; [lia|]. apply Z.pow_lt_mono_r; lia. }
    assert (Fe : fexp (Zdigits2 M + e') = (e' + 1)%Z) by (unfold SpecFloat.fexp; rewrite Dg; lia).
    destruct (shr_fexp_eq M e' loc_Exact HM0 ltac:(lia)) as (r2 & -> & Hr2). rewrite Fe in *.
    replace (e' + 1 - e')%Z with 1%Z in Hr2 by lia. change (2 ^ 1)%Z with 2%Z in Hr2.
    assert (Em2 : (2 ^ prec = 2 * 2 ^ (prec - 1))%Z). { rewrite <- Z.pow_succ_r by lia. f_equal. lia. }
    pose proof (Z.pow_pos_nonneg 2 (prec - 1) ltac:(lia) ltac:(lia)) as Pp.
    assert (Em3 : (M / 2 = 2 ^ (prec - 1))%Z). { rewrite EM, Em2, Z.mul_comm, Z.div_mul by lia. reflexivity. }
    rewrite Hr2, Em3. destruct (2 ^ (prec - 1))%Z as [|p|p] eqn:Ep; try lia.
    replace (Zle_bool (e' + 1) (emax - prec)) with true by (symmetry; apply Zle_imp_le_bool; lia).
    assert (Vp : IZR (Zpos p) * b (e' + 1) = IZR M * b e').
    { rewrite EM, Em2, b_add, mult_IZR. change (b 1) with (2 * 1). ring. }
    exists (IZR (Zpos p) * b (e' + 1)). split; [|rewrite Vp; lra]. apply finite_is. apply bounded_of; [|lia].
    change (Zpos (digits2_pos p)) with (Zdigits2 (Zpos p)). rewrite <- Ep.
    rewrite (digits_eq (2 ^ (prec - 1)) prec) by (try lia). unfold SpecFloat.fexp. lia.
  - (* subnormal *)
    assert (Fe : fexp (Zdigits2 M + e') = e') by (unfold SpecFloat.fexp; lia).
    destruct (shr_fexp_eq M e' loc_Exact HM0 ltac:(lia)) as (r2 & -> & Hr2). rewrite Fe, Z.sub_diag in Hr2.
    change (2 ^ 0)%Z with 1%Z in Hr2. rewrite Z.div_1_r in Hr2. rewrite Hr2, Fe.
    destruct M as [|p|p]; [| |lia].
    + exists (IZR 0 * b e'). split; [|lra]. split; [reflexivity|]. ring.
    + replace (Zle_bool e' (emax - prec)) with true by (symmetry; now apply Zle_imp_le_bool).
      exists (IZR (Zpos p) * b e'). split; [|lra]. apply finite_is. apply bounded_of; [exact Fe|exact Hexp].
Qed.

(** exact values *)
Lemma round_aux_exact s p e : (e <= fexp (Zdigits2 (Zpos p) + e))%Z -> IZR (Zpos p) * b e <= b (emax - 1) ->
  exists c, is (binary_round_aux prec emax s (Zpos p) e loc_Exact) (sg s * c) /\
    Rabs (c - IZR (Zpos p) * b e) <= eps * (1 + IZR (Zpos p) * b e).
Proof. intros He Hx. apply round_aux; auto; try lia; try lra. pose proof (b_pos e). lra. Qed.

Lemma shl_align_eq p e e' : exists k, (0 <= k)%Z /\ shl_align p e e' = (fst (shl_align p e e'), (e - k)%Z) /\
  Zpos (fst (shl_align p e e')) = (Zpos p * 2 ^ k)%Z /\ k = Z.max 0 (e - e').
Proof.
  unfold shl_align. destruct (e' - e)%Z as [|d|d] eqn:E.
  - exists 0%Z. repeat split; try lia; cbn [fst]; [f_equal; lia|lia].
  - exists 0%Z. repeat split; try lia; cbn [fst]; [f_equal; lia|lia].
  - exists (Zpos d). repeat split; try lia; cbn [fst]; [f_equal; lia|]. rewrite shift_pos_correct, Z.mul_comm. reflexivity.
Qed.

Lemma normalize_ok m e z : Rabs (IZR m * b e) <= b (emax - 1) ->
  exists c, is (binary_normalize prec emax m e z) c /\ Rabs (c - IZR m * b e) <= eps * (1 + Rabs (IZR m * b e)).
Proof.
  pose proof (b_pos e) as Pe. pose proof eps_pos as Pep.
  assert (G : forall s p, IZR (Zpos p) * b e <= b (emax - 1) -> exists c, is (binary_round prec emax s p e) (sg s * c) /\
    Rabs (c - IZR (Zpos p) * b e) <= eps * (1 + IZR (Zpos p) * b e)).
  { intros s p H. unfold binary_round.
    destruct (shl_align_eq p e (fexp (Zpos (digits2_pos p) + e))) as (k & Hk & E & Em & Ek). rewrite E.
    set (q := fst _) in *. 
    assert (V : IZR (Zpos q) * b (e - k) = IZR (Zpos p) * b e).
    { rewrite Em, mult_IZR, <- b_Z by lia. rewrite Rmult_assoc, <- b_add. do 2 f_equal. lia. }
    rewrite <- V. rewrite <- V in H. apply round_aux_exact; auto.
    rewrite Em, digits_shift by lia. replace (Zdigits2 (Zpos p) + k + (e - k))%Z with (Zpos (digits2_pos p) + e)%Z by (cbn [Zdigits2]; lia).
    lia. }
  intros H. destruct m as [|p|p]; cbn [binary_normalize].
  - exists 0. split; [split; reflexivity|]. rewrite Rmult_0_l, Rminus_0_r, Rabs_R0. lra.
  - assert (A : Rabs (IZR (Zpos p) * b e) = IZR (Zpos p) * b e).
    { apply Rabs_right. pose proof (IZR_le 0 (Zpos p) ltac:(lia)). nra. }
    rewrite A in *. destruct (G false p H) as (c & V & B). exists (sg false * c). split; [exact V|].
    unfold sg. rewrite Rmult_1_l. exact B.
  - assert (A : Rabs (IZR (Zneg p) * b e) = IZR (Zpos p) * b e).
    { change (Zneg p) with (- Zpos p)%Z. rewrite opp_IZR, Ropp_mult_distr_l_reverse, Rabs_Ropp.
      apply Rabs_right. pose proof (IZR_le 0 (Zpos p) ltac:(lia)). nra. }
    rewrite A in *. destruct (G true p H) as (c & V & B). exists (sg true * c). split; [exact V|].
    unfold sg. change (Zneg p) with (- Zpos p)%Z. rewrite opp_IZR.
    replace (-1 * c - - IZR (Z.pos p) * b e) with (- (c - IZR (Zpos p) * b e)) by ring. rewrite Rabs_Ropp. exact B.
Qed.

Lemma cond_val (s : bool) p e e0 : (e0 <= e)%Z -> (if s then -1 else 1) * IZR (Zpos p) * b e = IZR (cond_Zopp s (Zpos (fst (shl_align p e e0)))) * b e0.
Proof.
  intros H. destruct (shl_align_eq p e e0) as (k & Hk & _ & Em & Ek). rewrite Em.
  assert (V : IZR (Zpos p * 2 ^ k) * b e0 = IZR (Zpos p) * b e).
  { rewrite mult_IZR, <- b_Z by lia. rewrite Rmult_assoc, <- b_add. do 2 f_equal. lia. }
  destruct s; cbn [cond_Zopp]; rewrite ?opp_IZR; [|lra].
  replace (- IZR (Z.pos p * 2 ^ k) * b e0) with (- (IZR (Z.pos p * 2 ^ k) * b e0)) by ring. rewrite V. ring.
Qed.

Lemma exact_ok x a : is x a -> exists c, is x c /\ Rabs (c - a) <= eps * (1 + Rabs a).
Proof.
  intros H. exists a. split; [exact H|]. replace (a - a) with 0 by ring. rewrite Rabs_R0.
  pose proof eps_pos. pose proof (Rabs_pos a). nra.
Qed.
Lemma neg_ok x a : is x a -> is (SFopp x) (- a).
Proof.
  intros (V & A). destruct x as [s|s| |s m e]; try contradiction; split; try exact V; cbn; rewrite A.
  - ring.
  - destruct s; cbn [negb]; ring.
Qed.
Lemma add_ok x y a c : is x a -> is y c -> Rabs (a + c) <= b (emax - 1) ->
  exists d, is (SFadd prec emax x y) d /\ Rabs (d - (a + c)) <= eps * (1 + Rabs (a + c)).
Proof.
  intros Hx Hy HM. pose proof Hx as (Vx & Ax). pose proof Hy as (Vy & Ay).
  destruct x as [s|s| |s m e]; try contradiction; destruct y as [s'|s'| |s' m' e']; try contradiction; cbn [SFadd].
  - rewrite Ax, Ay in *. replace (0 + 0) with 0 in * by ring. apply exact_ok. destruct (Bool.eqb s s'); split; reflexivity.
  - rewrite Ax in *. rewrite Rplus_0_l in *. apply exact_ok, Hy.
  - rewrite Ay in *. rewrite Rplus_0_r in *. apply exact_ok, Hx.
  - rewrite (cond_val s m e (Z.min e e')) in Ax by lia. rewrite (cond_val s' m' e' (Z.min e e')) in Ay by lia.
    assert (E : a + c = IZR (cond_Zopp s (Z.pos (fst (shl_align m e (Z.min e e')))) + cond_Zopp s' (Z.pos (fst (shl_align m' e' (Z.min e e'))))) * b (Z.min e e')).
    { rewrite Ax, Ay, plus_IZR. ring. }
    rewrite E in *. apply normalize_ok, HM.
Qed.
Lemma sub_ok x y a c : is x a -> is y c -> Rabs (a - c) <= b (emax - 1) ->
  exists d, is (SFsub prec emax x y) d /\ Rabs (d - (a - c)) <= eps * (1 + Rabs (a - c)).
Proof.
  intros Hx Hy HM. pose proof Hx as (Vx & Ax). pose proof Hy as (Vy & Ay).
  destruct x as [s|s| |s m e]; try contradiction; destruct y as [s'|s'| |s' m' e']; try contradiction; cbn [SFsub].
  - rewrite Ax, Ay in *. replace (0 - 0) with 0 in * by ring. apply exact_ok. destruct (Bool.eqb s (negb s')); split; reflexivity.
  - rewrite Ax in *. rewrite Rminus_0_l in *. apply exact_ok. exact (neg_ok _ _ Hy).
  - rewrite Ay in *. rewrite Rminus_0_r in *. apply exact_ok, Hx.
  - rewrite (cond_val s m e (Z.min e e')) in Ax by lia. rewrite (cond_val s' m' e' (Z.min e e')) in Ay by lia.
    assert (E : a - c = IZR (cond_Zopp s (Z.pos (fst (shl_align m e (Z.min e e')))) - cond_Zopp s' (Z.pos (fst (shl_align m' e' (Z.min e e'))))) * b (Z.min e e')).
    { rewrite Ax, Ay, minus_IZR. ring. }
    rewrite E in *. apply normalize_ok, HM.
Qed.

Lemma bounded_inv m e : bounded prec emax m e = true -> fexp (Zdigits2 (Zpos m) + e) = e /\ (e <= emax - prec)%Z.
Proof.
  unfold bounded, canonical_mantissa. intros H. apply andb_prop in H. destruct H as (H1 & H2).
  apply Zeq_bool_eq in H1. apply Zle_bool_imp_le in H2. cbn [Zdigits2]. auto.
Qed.
Lemma sg_xor s s' : sg (xorb s s') = sg s * sg s'. Proof. destruct s, s'; cbn; ring. Qed.
Lemma sg_abs s x : Rabs (sg s * x) = Rabs x.
Proof. destruct s; cbn [sg]; [|now rewrite Rmult_1_l]. rewrite <- (Rabs_Ropp x). f_equal. ring. Qed.
Lemma val_sg s m e : (if s : bool then -1 else 1) * IZR (Zpos m) * b e = sg s * (IZR (Zpos m) * b e).
Proof. unfold sg. ring. Qed.
Lemma posval m e : 0 < IZR (Zpos m) * b e. Proof. pose proof (b_pos e). pose proof (IZR_lt 0 (Zpos m) ltac:(lia)). nra. Qed.
Lemma signed_ok s r x a : a = sg s * x -> 0 <= x -> (exists c, is r (sg s * c) /\ Rabs (c - x) <= eps * (1 + x)) ->
  exists c, is r c /\ Rabs (c - a) <= eps * (1 + Rabs a).
Proof.
  intros E Px (c & V & B). exists (sg s * c). split; [exact V|]. rewrite E.
  replace (sg s * c - sg s * x) with (sg s * (c - x)) by ring. rewrite !sg_abs, (Rabs_right x) by lra. exact B.
Qed.

Lemma mul_ok x y a c : is x a -> is y c -> Rabs (a * c) <= b (emax - 1) ->
  exists d, is (SFmul prec emax x y) d /\ Rabs (d - a * c) <= eps * (1 + Rabs (a * c)).
Proof.
  intros Hx Hy HM. pose proof Hx as (Vx & Ax). pose proof Hy as (Vy & Ay).
  destruct x as [s|s| |s m e]; try contradiction; destruct y as [s'|s'| |s' m' e']; try contradiction; cbn [SFmul].
  - rewrite Ax, Ay in *. rewrite Rmult_0_l in *. apply exact_ok. split; reflexivity.
  - rewrite Ax in *. rewrite Rmult_0_l in *. apply exact_ok. split; reflexivity.
  - rewrite Ay in *. rewrite Rmult_0_r in *. apply exact_ok. split; reflexivity.
  - rewrite val_sg in Ax, Ay. cbn in Vx, Vy. destruct (bounded_inv _ _ Vx) as (Cx & _). destruct (bounded_inv _ _ Vy) as (Cy & _).
    assert (E : a * c = sg (xorb s s') * (IZR (Zpos (m * m')) * b (e + e'))).
    { rewrite Ax, Ay, sg_xor, b_add, Pos2Z.inj_mul, mult_IZR. ring. }
    pose proof (posval (m * m') (e + e')) as PV. apply (signed_ok _ _ _ _ E); [lra|].
    rewrite E, sg_abs, Rabs_right in HM by lra. apply round_aux_exact; [|exact HM].
    (* long enough *)
    destruct (digits_ge (Zpos m) ltac:(lia)) as (D1 & D1'). destruct (digits_ge (Zpos m') ltac:(lia)) as (D2 & D2').
    assert (D : (Zdigits2 (Zpos m) + Zdigits2 (Zpos m') - 1 <= Zdigits2 (Zpos (m * m')))%Z).
    { pose proof (digits_more (Zpos (m * m')) (Zdigits2 (Zpos m) - 1 + (Zdigits2 (Zpos m') - 1)) ltac:(lia)) as X.
      rewrite Pos2Z.inj_mul in *. rewrite Z.pow_add_r in X by lia.
      assert (2 ^ (Zdigits2 (Z.pos m) - 1) * 2 ^ (Zdigits2 (Z.pos m') - 1) <= Z.pos m * Z.pos m')%Z.
      { apply Z.mul_le_mono_nonneg; try lia; apply Z.pow_nonneg; lia. }
      specialize (X H). lia. }
    unfold SpecFloat.fexp, SpecFloat.emin in *. lia.
Qed.

(** division of positive mantissas *)
Lemma div_core_ok s m1 e1 m2 e2 :
  IZR (Zpos m1) * b e1 / (IZR (Zpos m2) * b e2) <= b (emax - 1) ->
  exists c, is (let '(m, e, l) := SFdiv_core_binary prec emax (Zpos m1) e1 (Zpos m2) e2 in binary_round_aux prec emax s m e l) (sg s * c) /\
    Rabs (c - IZR (Zpos m1) * b e1 / (IZR (Zpos m2) * b e2)) <= eps * (1 + IZR (Zpos m1) * b e1 / (IZR (Zpos m2) * b e2)).
Proof.
  intros H. unfold SFdiv_core_binary.
  set (e' := Z.min (fexp (Zdigits2 (Zpos m1) + e1 - (Zdigits2 (Zpos m2) + e2))) (e1 - e2)).
  set (k := (e1 - e2 - e')%Z). assert (Hk : (0 <= k)%Z) by (unfold k, e'; lia).
  set (m' := match k with Zpos _ => Z.shiftl (Zpos m1) k | Z0 => Zpos m1 | Zneg _ => 0%Z end).
  assert (Em' : m' = (Zpos m1 * 2 ^ k)%Z).
  { unfold m'. destruct k as [|q|q]; [change (2 ^ 0)%Z with 1%Z; lia|apply Z.shiftl_mul_pow2; lia|lia]. }
  pose proof (Z_div_mod m' (Zpos m2) ltac:(lia)) as DM. destruct (Z.div_eucl m' (Zpos m2)) as (q, r). destruct DM as (DM & Hr).
  pose proof (Z.pow_pos_nonneg 2 k ltac:(lia) Hk) as Pk.
  assert (Hq : (0 <= q)%Z) by nia.
  assert (V : IZR (Zpos m1) * b e1 / (IZR (Zpos m2) * b e2) = IZR m' / IZR (Zpos m2) * b e').
  { rewrite Em', mult_IZR, <- b_Z by lia. replace e1 with (k + e' + e2)%Z by (unfold k; lia). rewrite !b_add.
    pose proof (b_pos e2). pose proof (IZR_lt 0 (Zpos m2) ltac:(lia)). field. split; lra. }
  rewrite V in *. pose proof (IZR_lt 0 (Zpos m2) ltac:(lia)) as P2. pose proof (b_pos e') as Pe'.
  assert (Q : IZR m' / IZR (Zpos m2) = IZR q + IZR r / IZR (Zpos m2)).
  { rewrite DM, plus_IZR, mult_IZR. field. lra. }
  assert (R1 : 0 <= IZR r / IZR (Zpos m2) < 1).
  { destruct Hr as (A & B). apply IZR_le in A. apply IZR_lt in B. unfold Rdiv. pose proof (Rinv_0_lt_compat _ P2).
    split; [nra|]. apply (Rmult_lt_reg_r (IZR (Zpos m2))); [lra|]. rewrite Rmult_assoc, Rinv_l by lra. lra. }
  apply round_aux; auto.
  - rewrite Q. nra.
  - rewrite Q. nra.
  - assert (D : (Zdigits2 (Zpos m1) + k - Zdigits2 (Zpos m2) <= Zdigits2 q)%Z).
    { pose proof (digits_nonneg q). destruct (Z_le_gt_dec (Zdigits2 (Zpos m1) + k - Zdigits2 (Zpos m2)) 0); [lia|].
      destruct (digits_ge (Zpos m1) ltac:(lia)) as (D1 & D1'). pose proof (digits_lt (Zpos m2) ltac:(lia)) as D2.
      set (t := (Zdigits2 (Zpos m1) + k - Zdigits2 (Zpos m2) - 1)%Z).
      pose proof (digits_more q t ltac:(unfold t; lia)) as X.
      assert (Y : (2 ^ t <= q)%Z); [|specialize (X Y); unfold t in *; lia].
      destruct (Z_le_gt_dec (2 ^ t) q); auto. exfalso.
      assert (m' < Zpos m2 * 2 ^ t)%Z by nia.
      assert (2 ^ (Zdigits2 (Zpos m1) - 1) * 2 ^ k <= m')%Z by (rewrite Em'; nia).
      assert (2 ^ (Zdigits2 (Zpos m1) - 1) * 2 ^ k = 2 ^ Zdigits2 (Zpos m2) * 2 ^ t)%Z.
      { rewrite <- !Z.pow_add_r by (try apply digits_nonneg; unfold t; lia). f_equal. unfold t. lia. }
      pose proof (Z.pow_pos_nonneg 2 t ltac:(lia) ltac:(unfold t; lia)). nia. }
    assert (fexp (Zdigits2 (Zpos m1) + e1 - (Zdigits2 (Zpos m2) + e2)) <= fexp (Zdigits2 q + e'))%Z.
    { apply fexp_mono. unfold k in *. lia. }
    unfold e' at 1. lia.
Qed.
Lemma div_ok x y a c : is x a -> is y c -> c <> 0 -> Rabs (a / c) <= b (emax - 1) ->
  exists d, is (SFdiv prec emax x y) d /\ Rabs (d - a / c) <= eps * (1 + Rabs (a / c)).
Proof.
  intros Hx Hy Hc HM. pose proof Hx as (Vx & Ax). pose proof Hy as (Vy & Ay).
  destruct x as [s|s| |s m e]; try contradiction; destruct y as [s'|s'| |s' m' e']; try contradiction; cbn [SFdiv]; try contradiction.
  - rewrite Ax in *. replace (0 / c) with 0 in * by (field; auto). apply exact_ok. split; reflexivity.
  - rewrite val_sg in Ax, Ay. 
    pose proof (posval m e) as P1. pose proof (posval m' e') as P2.
    assert (E : a / c = sg (xorb s s') * (IZR (Zpos m) * b e / (IZR (Zpos m') * b e'))).
    { rewrite Ax, Ay, sg_xor. clear - P1 P2. revert P1 P2. generalize (IZR (Zpos m) * b e) (IZR (Zpos m') * b e').
      intros X Y HX HY. destruct s, s'; cbn [sg]; field; repeat split; lra. }
    assert (PV : 0 < IZR (Zpos m) * b e / (IZR (Zpos m') * b e')).
    { unfold Rdiv. pose proof (Rinv_0_lt_compat _ P2). nra. }
    apply (signed_ok _ _ _ _ E); [lra|]. rewrite E, sg_abs, Rabs_right in HM by lra. apply div_core_ok, HM.
Qed.
Lemma ofZ_ok z : Rabs (IZR z) <= b (emax - 1) ->
  exists c, is (sf_ofZ prec emax z) c /\ Rabs (c - IZR z) <= eps * (1 + Rabs (IZR z)).
Proof. intros H. pose proof (normalize_ok z 0 false) as X. rewrite b_0, Rmult_1_r in X. exact (X H). Qed.
Lemma lit_ok q : Rabs (Q2R q) <= b (emax - 1) ->
  exists c, is (sf_lit prec emax q) c /\ Rabs (c - Q2R q) <= eps * (1 + Rabs (Q2R q)).
Proof.
  intros H. destruct q as [n d]. unfold sf_lit, Q2R in *. cbn [Qnum Qden] in *.
  pose proof (IZR_lt 0 (Zpos d) ltac:(lia)) as Pd. pose proof (Rinv_0_lt_compat _ Pd) as Pi.
  destruct n as [|n|n].
  - rewrite Rmult_0_l in *. apply exact_ok. split; reflexivity.
  - pose proof (div_core_ok false n 0 d 0) as X. rewrite b_0, !Rmult_1_r in X.
    pose proof (IZR_lt 0 (Zpos n) ltac:(lia)). 
    apply (signed_ok false _ (IZR (Zpos n) / IZR (Zpos d))).
    + cbn [sg]. unfold Rdiv. ring.
    + unfold Rdiv. nra.
    + apply X. rewrite Rabs_right in H by nra. exact H.
  - pose proof (div_core_ok true n 0 d 0) as X. rewrite b_0, !Rmult_1_r in X.
    pose proof (IZR_lt 0 (Zpos n) ltac:(lia)). change (Zneg n) with (- Zpos n)%Z in *. rewrite opp_IZR in *.
    apply (signed_ok true _ (IZR (Zpos n) / IZR (Zpos d))).
    + cbn [sg]. unfold Rdiv. ring.
    + unfold Rdiv. nra.
    + apply X. replace (- IZR (Zpos n) * / IZR (Zpos d)) with (- (IZR (Zpos n) * / IZR (Zpos d))) in H by ring.
      rewrite Rabs_Ropp, Rabs_right in H by nra. exact H.
Qed.

Lemma weaken e' r a : eps <= e' -> (exists c, is r c /\ Rabs (c - a) <= eps * (1 + Rabs a)) ->
  exists c, is r c /\ Rabs (c - a) <= e' * (1 + Rabs a).
Proof. intros H (c & V & B). exists c. split; [exact V|]. pose proof (Rabs_pos a). nra. Qed.

Theorem IEEE_accurate : forall pi cos_ sin_ e', eps <= e' -> libm_ok prec emax pi cos_ sin_ e' ->
  accurate (IEEE prec emax pi cos_ sin_) is e' (powerRZ 2 (emax - 1)).
Proof.
  intros pi cos_ sin_ e' He [L1 L2 L3]. pose proof eps_pos. constructor; cbn.
  - lra.
  - intros x y a c Hx Hy HM. apply weaken; [exact He|]. exact (add_ok x y a c Hx Hy HM).
  - intros x y a c Hx Hy HM. apply weaken; [exact He|]. exact (sub_ok x y a c Hx Hy HM).
  - intros x y a c Hx Hy HM. apply weaken; [exact He|]. exact (mul_ok x y a c Hx Hy HM).
  - intros x y a c Hx Hy Hc HM. apply weaken; [exact He|]. exact (div_ok x y a c Hx Hy Hc HM).
  - intros x a Hx. exact (neg_ok x a Hx).
  - intros z HM. apply weaken; [exact He|]. exact (ofZ_ok z HM).
  - intros q HM. apply weaken; [exact He|]. exact (lit_ok q HM).
  - exact L1.
  - exact L2.
  - exact L3.
Qed.
End P.
