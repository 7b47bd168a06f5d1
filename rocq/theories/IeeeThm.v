(** C76: what the theorems about arithmetics say of IEEE floating point. *)
From Coq Require Import ZArith QArith List String Bool Lia Reals Lra Psatz Floats.SpecFloat.
From Verif Require Import Scalar Prog Model Wp Func Step TrigProof InitProof SurfProof RunProof Par FuncExt Spec RunThms
  RSum RSpec RPoint RQuad RThms RThms2 RThms3 RExamples RoundSpec Round RoundThm RoundEx Ieee IeeeProof Nc NcModel NcSpec NcVoc NcThms NcThms4.
Import ListNotations.
Local Open Scope Z_scope.
Local Open Scope R_scope.
Notation b := (powerRZ 2).

(** ** Comparison *)
Section P.
Variables prec emax : Z.
Hypothesis Hprec : (2 <= prec)%Z.
Hypothesis Hemax : (prec < emax)%Z.
Notation is := (sf_is prec emax).

Lemma mag_lt m1 e1 m2 e2 : bounded prec emax m1 e1 = true -> bounded prec emax m2 e2 = true -> (e1 < e2)%Z ->
  IZR (Zpos m1) * b e1 < IZR (Zpos m2) * b e2.
Proof.
  intros B1 B2 H. destruct (bounded_inv _ _ _ _ B1) as (F1 & _). destruct (bounded_inv _ _ _ _ B2) as (F2 & _).
  set (d1 := Zdigits2 (Zpos m1)) in *. set (d2 := Zdigits2 (Zpos m2)) in *.
  assert (L : (d1 + e1 < d2 + e2)%Z).
  { destruct (Z.le_gt_cases (d2 + e2) (d1 + e1)) as [X|X]; [|lia]. pose proof (fexp_mono prec emax _ _ X). lia. }
  assert (P1 : (Zpos m1 < 2 ^ d1)%Z) by (apply digits_lt; lia). destruct (digits_ge (Zpos m2) ltac:(lia)) as (P2 & P3). fold d2 in P2, P3.
  pose proof (digits_nonneg (Zpos m1)) as P4. fold d1 in P4.
  apply Rlt_le_trans with (b (d1 + e1)).
  - rewrite b_add. apply Rmult_lt_compat_r; [apply b_pos|]. rewrite b_Z by lia. now apply IZR_lt.
  - apply Rle_trans with (b (d2 - 1 + e2)); [apply b_le; lia|]. rewrite b_add. apply Rmult_le_compat_r; [apply Rlt_le, b_pos|].
    rewrite b_Z by lia. now apply IZR_le.
Qed.
Lemma mag_cmp m1 e1 m2 e2 : bounded prec emax m1 e1 = true -> bounded prec emax m2 e2 = true ->
  match match Z.compare e1 e2 with Lt => Lt | Gt => Gt | Eq => Pcompare m1 m2 Eq end with
  | Lt => IZR (Zpos m1) * b e1 < IZR (Zpos m2) * b e2
  | Eq => IZR (Zpos m1) * b e1 = IZR (Zpos m2) * b e2
  | Gt => IZR (Zpos m1) * b e1 > IZR (Zpos m2) * b e2
  end.
Proof.
  intros B1 B2. destruct (Z.compare_spec e1 e2) as [->|H|H].
  - change (Pcompare m1 m2 Eq) with (Pos.compare m1 m2). pose proof (b_pos e2). destruct (Pos.compare_spec m1 m2) as [->|H0|H0]; [reflexivity| |].
    + apply Rmult_lt_compat_r; [auto|]. now apply IZR_lt.
    + apply Rmult_lt_compat_r; [auto|]. apply IZR_lt. lia.
  - now apply mag_lt.
  - apply Rlt_gt. now apply mag_lt.
Qed.
Theorem ltb_ok x y a c : is x a -> is y c -> (SFltb x y = true <-> a < c).
Proof.
  intros (V1 & A1) (V2 & A2). unfold SFltb.
  destruct x as [s|s| |s m1 e1]; try contradiction; destruct y as [s'|s'| |s' m2 e2]; try contradiction; cbn [SFcompare].
  - subst. split; [discriminate|lra].
  - pose proof (posval m2 e2). subst. destruct s'; split; try discriminate; try reflexivity; lra.
  - pose proof (posval m1 e1). subst. destruct s; split; try discriminate; try reflexivity; lra.
  - cbn in V1, V2. pose proof (posval m1 e1). pose proof (posval m2 e2). pose proof (mag_cmp _ _ _ _ V1 V2) as M. subst a c.
    destruct s, s'.
    + destruct (Z.compare e1 e2); cbn [CompOpp]; [destruct (Pcompare m1 m2 Eq); cbn [CompOpp]| |];
        (split; [first [discriminate|lra]|]); intros; first [reflexivity|exfalso; lra].
    + split; [lra|reflexivity].
    + split; [discriminate|lra].
    + destruct (Z.compare e1 e2); [destruct (Pcompare m1 m2 Eq)| |];
        (split; [first [discriminate|lra]|]); intros; first [reflexivity|exfalso; lra].
Qed.

(** ** Integers *)
Lemma round_fix s p e : fexp prec emax (Zdigits2 (Zpos p) + e) = e -> (e <= emax - prec)%Z ->
  binary_round_aux prec emax s (Zpos p) e loc_Exact = S754_finite s p e.
Proof.
  intros F H. unfold binary_round_aux.
  assert (X : shr_fexp prec emax (Zpos p) e loc_Exact = ({| shr_m := Zpos p; shr_r := false; shr_s := false |}, e)).
  { unfold shr_fexp. rewrite F, Z.sub_diag. reflexivity. }
  rewrite X. cbn [shr_m shr_r shr_s loc_of_shr_record round_nearest_even]. rewrite X. cbn [shr_m].
  replace (Zle_bool e (emax - prec)) with true by (symmetry; now apply Zle_imp_le_bool). reflexivity.
Qed.
(** integers of at most prec bits are exact *)
Lemma ofZ_exact z : (Z.abs z < 2 ^ prec)%Z -> match sf_ofZ prec emax z with
  | S754_zero _ => z = 0%Z
  | S754_finite s m e => valid_binary prec emax (S754_finite s m e) = true /\ (e <= 0)%Z /\ cond_Zopp s (Zpos m) = (z * 2 ^ (- e))%Z
  | _ => False end.
Proof.
  intros H. assert (G : forall s p, (Zpos p < 2 ^ prec)%Z -> exists q e, binary_round prec emax s p 0 = S754_finite s q e /\
    (e <= 0)%Z /\ Zpos q = (Zpos p * 2 ^ (- e))%Z /\ valid_binary prec emax (S754_finite s q e) = true).
  { intros s p Hp. unfold binary_round. set (f := fexp prec emax (Zpos (digits2_pos p) + 0)).
    destruct (shl_align_eq p 0 f) as (k & Hk & E & Em & Ek). rewrite E. set (q := fst _) in *.
    assert (Hd : (Zdigits2 (Zpos p) <= prec)%Z) by (apply digits_le; lia). cbn [Zdigits2] in Hd.
    assert (Ef : f = (- k)%Z) by (unfold f, fexp, SpecFloat.emin in *; lia).
    assert (Fq : fexp prec emax (Zdigits2 (Zpos q) + (0 - k)) = (0 - k)%Z).
    { rewrite Em, digits_shift by lia. replace (Zdigits2 (Z.pos p) + k + (0 - k))%Z with (Zpos (digits2_pos p) + 0)%Z by (cbn [Zdigits2]; lia).
      fold f. lia. }
    exists q, (0 - k)%Z. split; [|split; [lia|split]].
    - apply round_fix; [exact Fq|lia].
    - rewrite Em. do 2 f_equal. lia.
    - cbn. apply bounded_of; [exact Fq|lia]. }
  unfold sf_ofZ. destruct z as [|p|p]; cbn [binary_normalize]; [reflexivity| |].
  - destruct (G false p ltac:(lia)) as (q & e & -> & He & Eq & V). split; [exact V|]. split; [exact He|exact Eq].
  - destruct (G true p ltac:(lia)) as (q & e & -> & He & Eq & V). split; [exact V|]. split; [exact He|]. cbn [cond_Zopp]. rewrite Eq. lia.
Qed.
Lemma ofZ_is z : (Z.abs z < 2 ^ prec)%Z -> is (sf_ofZ prec emax z) (IZR z).
Proof.
  intros H. pose proof (ofZ_exact z H) as X. destruct (sf_ofZ prec emax z) as [s|s| |s m e]; try contradiction.
  - subst. split; reflexivity.
  - destruct X as (V & He & E). split; [exact V|]. pose proof (b_pos e) as Pe.
    assert (Y : IZR z = IZR (cond_Zopp s (Zpos m)) * b e).
    { rewrite E, mult_IZR, <- b_Z by lia. rewrite Rmult_assoc, <- b_add. replace (- e + e)%Z with 0%Z by lia. rewrite b_0. ring. }
    rewrite Y. destruct s; cbn [cond_Zopp]; rewrite ?opp_IZR; ring.
Qed.
(** mode numbers survive the way through the file, where they are doubles *)
Theorem toZ_ofZ : (32 <= prec)%Z -> forall z, (-2147483648 <= z <= 2147483647)%Z -> sf_toZ prec emax (sf_ofZ prec emax z) = Some z.
Proof.
  intros H32 z Hz. assert (P : (2 ^ 32 <= 2 ^ prec)%Z) by (apply Z.pow_le_mono_r; lia). change (2 ^ 32)%Z with 4294967296%Z in P.
  pose proof (ofZ_is z ltac:(lia)) as Iz. pose proof (ofZ_is 2147483647 ltac:(lia)) as I1. pose proof (ofZ_is (-2147483648) ltac:(lia)) as I2.
  unfold sf_toZ. destruct (SFltb (sf_ofZ prec emax 2147483647) (sf_ofZ prec emax z)) eqn:L1.
  { exfalso. apply (ltb_ok _ _ _ _ I1 Iz) in L1. apply lt_IZR in L1. lia. }
  destruct (SFltb (sf_ofZ prec emax z) (sf_ofZ prec emax (-2147483648))) eqn:L2.
  { exfalso. apply (ltb_ok _ _ _ _ Iz I2) in L2. apply lt_IZR in L2. lia. }
  cbn [orb]. pose proof (ofZ_exact z ltac:(lia)) as X. destruct (sf_ofZ prec emax z) as [s|s| |s m e]; try contradiction.
  - now subst.
  - destruct X as (V & He & E). f_equal.
    assert (D : (0 < 2 ^ (- e))%Z) by (apply Z.pow_pos_nonneg; lia).
    assert (Q : Z.shiftl (Zpos m) e = (Zpos m / 2 ^ (- e))%Z) by (replace e with (- - e)%Z by lia; rewrite Z.shiftl_opp_r, Z.shiftr_div_pow2, Z.opp_involutive by lia; f_equal; f_equal; lia).
    rewrite Q. destruct s; cbn [cond_Zopp] in *.
    + assert (Y : Zpos m = (- z * 2 ^ (- e))%Z) by lia. rewrite Y, Z.div_mul by lia. lia.
    + rewrite E, Z.div_mul by lia. reflexivity.
Qed.

(** ** Conversion of real numbers *)
Definition sf_of_R (r : R) : spec_float := binary_normalize prec emax (Int_part (r * b prec)) (- prec) false.
Notation e2 := (2 * sf_eps prec).
Lemma of_R_ok r : Rabs r <= b (emax - 1) - 1 -> exists c, is (sf_of_R r) c /\ Rabs (c - r) <= e2 * (1 + Rabs r).
Proof.
  intros H. unfold sf_of_R. destruct (base_Int_part (r * b prec)) as (L & U). set (m := Int_part _) in *.
  pose proof (b_pos prec) as Pp. pose proof (b_pos (- prec)) as Pm.
  assert (PP : b prec * b (- prec) = 1) by (rewrite <- b_add, Z.add_opp_diag_r; apply b_0).
  assert (Se : sf_eps prec = 2 * b (- prec)).
  { unfold sf_eps. replace (1 - prec)%Z with (1 + - prec)%Z by lia. rewrite b_add. change (b 1) with (2 * 1). ring. }
  assert (S1 : b (- prec) <= 1 / 4).
  { assert (X : b (- prec) <= b (-2)) by (apply b_le; lia). assert (Y : b 2 * b (-2) = 1) by (rewrite <- b_add; apply b_0).
    replace (b 2) with 4 in Y by (rewrite b_Z by lia; reflexivity). lra. }
  assert (E1 : Rabs (IZR m * b (- prec) - r) <= b (- prec)).
  { replace (IZR m * b (- prec) - r) with ((IZR m - r * b prec) * b (- prec)).
    - rewrite Rabs_mult, (Rabs_right (b (- prec))) by lra.
      assert (Rabs (IZR m - r * b prec) <= 1) by (apply Rabs_le; lra). nra.
    - rewrite Rmult_minus_distr_r, Rmult_assoc, PP. ring. }
  assert (E2 : Rabs (IZR m * b (- prec)) <= Rabs r + b (- prec)).
  { replace (IZR m * b (- prec)) with (r + (IZR m * b (- prec) - r)) by ring. eapply Rle_trans; [apply Rabs_triang|]. lra. }
  destruct (normalize_ok prec emax Hprec Hemax m (- prec) false) as (c & V & B); [lra|].
  exists c. split; [exact V|]. pose proof (Rabs_pos r).
  replace (c - r) with ((c - IZR m * b (- prec)) + (IZR m * b (- prec) - r)) by ring.
  eapply Rle_trans; [apply Rabs_triang|]. rewrite Se in *. nra.
Qed.
Definition sf_val (x : spec_float) : R :=
  match x with S754_finite s m e => (if s then -1 else 1) * IZR (Zpos m) * b e | _ => 0 end.
Definition sf_fun (g : R -> R) (x : spec_float) : spec_float :=
  match x with S754_infinity _ | S754_nan => S754_nan | _ => sf_of_R (g (sf_val x)) end.
Lemma sf_fun_ok g x a : is x a -> Rabs (g a) <= b (emax - 1) - 1 ->
  exists c, is (sf_fun g x) c /\ Rabs (c - g a) <= e2 * (1 + Rabs (g a)).
Proof.
  intros (V & A) H. destruct x as [s|s| |s m e]; try contradiction; cbn [sf_fun sf_val] in *; subst; now apply of_R_ok.
Qed.
Lemma libm_exists : (4 <= emax)%Z -> libm_ok prec emax (sf_of_R PI) (sf_fun cos) (sf_fun sin) e2.
Proof.
  intros H. assert (Hb : 8 <= b (emax - 1)) by (replace 8 with (b 3) by (rewrite b_Z by lia; reflexivity); apply b_le; lia).
  constructor.
  - assert (EP : Rabs PI = PI) by (apply Rabs_right; pose proof PI_RGT_0; lra). pose proof PI_4.
    destruct (of_R_ok PI ltac:(rewrite EP; lra)) as (c & V & B). rewrite EP in B. eauto.
  - intros x a Hx. apply sf_fun_ok; [exact Hx|]. assert (Rabs (cos a) <= 1) by (apply Rabs_le, COS_bound). lra.
  - intros x a Hx. apply sf_fun_ok; [exact Hx|]. assert (Rabs (sin a) <= 1) by (apply Rabs_le, SIN_bound). lra.
Qed.
Definition sf1 (f : Z -> R) : Z -> spec_float := fun j => sf_of_R (f j).
Definition sf2 (f : Z -> Z -> R) : Z -> Z -> spec_float := fun k j => sf_of_R (f k j).
Definition sf_inp pi cos_ sin' (i : Inp RS) : Inp (IEEE prec emax pi cos_ sin') :=
  mkInp (IEEE prec emax pi cos_ sin') (asym i) (nfp i) (mpol i) (ntor i) (mnmax i) (mpolq i) (ntorq i) (mnmaxq i) (nsin i) (mboz i) (nboz i) (verb i)
    (xm i) (xn i) (xmq i) (xnq i) (nsurf i) (surf i) (sf1 (sin_ i)) (sf1 (iota i))
    (sf2 (rmnc i)) (sf2 (zmns i)) (sf2 (lmns i)) (sf2 (bmnc i)) (sf2 (bsubumnc i)) (sf2 (bsubvmnc i))
    (sf2 (rmns i)) (sf2 (zmnc i)) (sf2 (lmnc i)) (sf2 (bmns i)) (sf2 (bsubumns i)) (sf2 (bsubvmns i)).
Lemma sf_inp_ok pi cos_ sin' i : ok_inp i -> ok_inp (sf_inp pi cos_ sin' i).
Proof. intros []. constructor; assumption. Qed.
End P.

(** ** Rounding errors in this format *)
Theorem ieee_errors : forall (o : obj RS) i l, valid o i -> nfp_divides i -> incl l (outs (asym i)) ->
  exists r ev, run_ok o r ev /\
  ((forall j I G, (0 <= j < nsurf i)%Z -> elem r A_Boozer_I j = Some (Some I) -> elem r A_Boozer_G j = Some (Some G) ->
      G + iota i (surf i j) * I <> 0) ->
   (In A_gmnc_b l \/ In A_gmns_b l -> forall j a b, (0 <= j < nsurf i)%Z -> (0 <= a < nt i)%Z -> (0 <= b < nz i)%Z ->
      mB i (surf i j) (gth i a) (gze i b) <> 0) ->
   exists C e0 E0, 0 < e0 /\
   forall prec emax pi cos_ sin' e, (2 <= prec)%Z -> (prec < emax)%Z -> (E0 <= emax)%Z ->
   sf_eps prec <= e -> e <= e0 -> libm_ok prec emax pi cos_ sin' e ->
   forall (i' : Inp (IEEE prec emax pi cos_ sin')) o', rounded (S := IEEE prec emax pi cos_ sin') (sf_is prec emax) e i' i -> valid o' i' ->
   exists r' ev', run_ok o' r' ev' /\
     (forall f j, In f [A_Boozer_I; A_Boozer_G] -> (0 <= j < nsurf i)%Z -> exists x y c,
        elem r f j = Some (Some y) /\ elem r' f j = Some (Some x) /\ sf_is prec emax x c /\ Rabs (c - y) <= C * e) /\
     (forall f k j, In f l -> (0 <= k < mnboz i)%Z -> (0 <= j < nsurf i)%Z -> exists x y c,
        elem2 r f k j = Some (Some y) /\ elem2 r' f k j = Some (Some x) /\ sf_is prec emax x c /\ Rabs (c - y) <= C * e)).
Proof.
  intros o i l V Hd Hl. destruct (rounding_errors o i l V Hd Hl) as (r & ev & Rr & H). exists r, ev. split; [exact Rr|].
  intros HD HB. destruct (H HD HB) as (C & e0 & M0 & He0 & N).
  destruct (archimed M0) as (A1 & _). exists C, e0, (Z.max 1 (up M0 + 1))%Z. split; [exact He0|].
  intros prec emax pi cos_ sin' e Hp Hm HE He1 He2 HL i' o' Hr V'.
  apply (N (IEEE prec emax pi cos_ sin') (sf_is prec emax) e (b (emax - 1)) i' o'); auto.
  - now apply IEEE_accurate.
  - assert (Hk : (up M0 <= emax - 1)%Z) by lia. apply IZR_le in Hk.
    assert (T : IZR (emax - 1) <= b (emax - 1)); [|lra].
    rewrite b_Z by lia. apply IZR_le. assert (emax - 1 < 2 ^ (emax - 1))%Z by (apply Z.pow_gt_lin_r; lia). lia.
Qed.

(** A case: [ex_rnd] converted to any format with at least 12 bits for the exponent range,
    and a libm that is as accurate as the conversion *)
Lemma ieee_case : valid (obj_of ex_rnd) ex_rnd /\ nfp_divides ex_rnd /\ asym ex_rnd = true /\
  (forall j, (0 <= j < nsurf ex_rnd)%Z -> bG ex_rnd (surf ex_rnd j) + iota ex_rnd (surf ex_rnd j) * bI ex_rnd (surf ex_rnd j) <> 0) /\
  (forall js t z, mB ex_rnd js t z <> 0) /\
  forall prec emax, (2 <= prec)%Z -> (prec < emax)%Z -> (12 <= emax)%Z ->
  exists pi cos_ sin', libm_ok prec emax pi cos_ sin' (2 * sf_eps prec) /\
    exists i', rounded (S := IEEE prec emax pi cos_ sin') (sf_is prec emax) (2 * sf_eps prec) i' ex_rnd /\ valid (obj_of i') i'.
Proof.
  destruct ex_rnd_case as (V & Dv & As & HD & HB & _). split; [exact V|]. split; [exact Dv|]. split; [exact As|].
  split; [exact HD|]. split; [exact HB|]. intros prec emax Hp He H12.
  exists (sf_of_R prec emax PI), (sf_fun prec emax cos), (sf_fun prec emax sin). split; [apply libm_exists; auto; lia|].
  exists (sf_inp prec emax _ _ _ ex_rnd). split; [|apply ok_valid, sf_inp_ok, V].
  assert (Hb : 1001 <= b (emax - 1) - 1).
  { assert (X : b 11 <= b (emax - 1)) by (apply b_le; lia). replace (b 11) with 2048 in X by (rewrite b_Z by lia; reflexivity). lra. }
  assert (K : forall z, (-1000 <= z <= 1000)%Z -> Rabs (IZR z) <= b (emax - 1) - 1).
  { intros z Hz. apply Rle_trans with 1000; [|lra]. destruct Hz as (Z1 & Z2). apply IZR_le in Z1, Z2. apply Rabs_le. lra. }
  assert (CV : forall x z, x = IZR z -> (-1000 <= z <= 1000)%Z ->
    conv1 (S := IEEE prec emax (sf_of_R prec emax PI) (sf_fun prec emax cos) (sf_fun prec emax sin)) (sf_is prec emax) (2 * sf_eps prec)
      (sf_of_R prec emax x) x).
  { intros x z -> Hz. destruct (of_R_ok prec emax Hp He (IZR z) (K z Hz)) as (c & Vc & Bc). exists c. split; assumption. }
  assert (VV : forall a g k j, exists z, ex_v a g k j = IZR z /\ (z = g \/ z = 2 * (a + k + j) \/ z = - (a + k + j))%Z).
  { intros a g k j. unfold ex_v, ex_u. destruct (Z.eqb k 0); [eauto|]. destruct (Z.eqb k 1).
    - exists (2 * (a + k + j))%Z. rewrite mult_IZR. auto.
    - exists (- (a + k + j))%Z. rewrite opp_IZR. auto. }
  assert (V6 : mnmax ex_rnd = 2%Z /\ mnmaxq ex_rnd = 3%Z /\ nsin ex_rnd = 3%Z) by (repeat split). destruct V6 as (N1 & N2 & N3).
  constructor; try reflexivity; try (intros; reflexivity); rewrite ?N1, ?N2, ?N3; intros; try intros k j' Hk Hj; try (intros k' j'' Hk' Hj').
  all: cbn [sf_inp iota rmnc zmns lmns bmnc bsubumnc bsubvmnc rmns zmnc lmnc bmns bsubumns bsubvmns]; unfold sf1, sf2.
  - eapply CV; [reflexivity|]. lia.
  - eapply CV; [reflexivity|]. lia.
  - eapply CV; [reflexivity|]. lia.
  - eapply CV; [reflexivity|]. lia.
  - apply CV with (if Z.eqb k 0 then 3 else 1)%Z; [cbn; now destruct (Z.eqb k 0)|destruct (Z.eqb k 0); lia].
  - eapply CV; [reflexivity|]. lia.
  - destruct (VV 5 40 k j')%Z as (z & Ez & Hz). apply CV with z; [exact Ez|lia].
  - eapply CV; [reflexivity|]. lia.
  - eapply CV; [reflexivity|]. lia.
  - eapply CV; [reflexivity|]. lia.
  - apply CV with 0%Z; [reflexivity|lia].
  - eapply CV; [reflexivity|]. lia.
  - destruct (VV 7 0 k j')%Z as (z & Ez & Hz). apply CV with z; [exact Ez|lia].
Qed.

(** ** NaN *)
Section NaN.
Variables (prec emax : Z) (pi : spec_float) (cos_ sin' : spec_float -> spec_float).
Notation S := (IEEE prec emax pi cos_ sin').
Definition zn (x : spec_float) : Prop := match x with S754_zero _ | S754_nan => True | _ => False end.
Definition bad (x : spec_float) : Prop := match x with S754_infinity _ | S754_nan => True | _ => False end.
Lemma zn_mul_r x y : zn y -> zn (SFmul prec emax x y). Proof. destruct x, y; cbn; tauto. Qed.
Lemma zn_mul_l x y : zn x -> zn (SFmul prec emax x y). Proof. destruct x, y; cbn; tauto. Qed.
Lemma zn_add x y : zn x -> zn y -> zn (SFadd prec emax x y). Proof. destruct x as [[]| | |], y as [[]| | |]; cbn; tauto. Qed.
Lemma zn_sub x y : zn x -> zn y -> zn (SFsub prec emax x y). Proof. destruct x as [[]| | |], y as [[]| | |]; cbn; tauto. Qed.
Lemma zn_div x y : zn x -> zn (SFdiv prec emax x y). Proof. destruct x, y; cbn; tauto. Qed.
Lemma zn_opp x : zn x -> zn (SFopp x). Proof. destruct x; cbn; tauto. Qed.
Lemma bad_div x y : zn y -> bad (SFdiv prec emax x y). Proof. destruct x, y; cbn; tauto. Qed.
Lemma bad_mul x y : bad x -> zn y -> SFmul prec emax x y = S754_nan. Proof. destruct x, y; cbn; tauto. Qed.
Lemma nan_mul_l x : SFmul prec emax S754_nan x = S754_nan. Proof. now destruct x. Qed.
Lemma nan_mul_r x : SFmul prec emax x S754_nan = S754_nan. Proof. now destruct x. Qed.
Lemma nan_add_l x : SFadd prec emax S754_nan x = S754_nan. Proof. now destruct x. Qed.
Lemma nan_add_r x : SFadd prec emax x S754_nan = S754_nan. Proof. now destruct x. Qed.

Variable i : Inp S.
Variable js : Z.
Hypothesis Hl : forall k, (0 <= k < mnmax i)%Z -> zn (lmns i k js) /\ (asym i = true -> zn (lmnc i k js)).
Hypothesis Hu : forall k, (0 <= k < mnmaxq i)%Z -> xmq i k <> 0%Z -> zn (bsubumnc i k js) /\ (asym i = true -> zn (bsubumns i k js)).
Hypothesis Hv : forall k, (0 <= k < mnmaxq i)%Z -> xmq i k = 0%Z -> xnq i k <> 0%Z -> zn (bsubvmnc i k js) /\ (asym i = true -> zn (bsubvmns i k js)).
Hypothesis HD : zn (fadd S (bG i js) (fmul S (iota i js) (bI i js))).
Lemma zn_accum n (f : Z -> spec_float -> spec_float) x : (forall k y, (0 <= k < n)%Z -> zn y -> zn (f k y)) -> zn x -> zn (accum n f x).
Proof.
  intros Hs Hx. unfold accum.
  assert (X : forall m, (Z.of_nat m <= n)%Z -> zn (nat_rect (fun _ => spec_float) x (fun k acc => f (Z.of_nat k) acc) m)).
  { induction m as [|m IH]; intros Hm; cbn [nat_rect]; [exact Hx|]. apply (Hs (Z.of_nat m)); [lia|]. apply IH. lia. }
  destruct (Z.le_gt_cases 0 n) as [Hn|Hn]; [apply X; lia|]. replace (Z.to_nat n) with O by lia. exact Hx.
Qed.
Lemma zn_fsum n (s a : Z -> spec_float) : (forall k, (0 <= k < n)%Z -> zn (s k) /\ (asym i = true -> zn (a k))) -> zn (@fsum S i n s a).
Proof.
  intros H. unfold fsum. apply zn_accum; [|exact I]. intros k y Hk Hy. destruct (H k Hk) as (H1 & H2).
  destruct (asym i); repeat apply zn_add; auto.
Qed.
Lemma zn_lz th ze : zn (p_lz i js th ze).
Proof.
  unfold p_lz. apply zn_fsum. intros k Hk. destruct (Hl k Hk) as (H1 & H2).
  split; [|intros As]; apply zn_mul_l, zn_mul_r; auto.
Qed.
Lemma zn_wmns k : (0 <= k < mnmaxq i)%Z -> zn (wmns i js k).
Proof.
  intros Hk. unfold wmns. destruct (Z.eqb_spec (xmq i k) 0) as [E|E]; cbn [negb]; [|apply zn_div; now apply Hu].
  destruct (Z.eqb_spec (xnq i k) 0) as [E'|E']; cbn [negb]; [exact I|]. apply zn_div, zn_opp. now apply Hv.
Qed.
Lemma zn_wmnc k : (0 <= k < mnmaxq i)%Z -> asym i = true -> zn (wmnc i js k).
Proof.
  intros Hk As. unfold wmnc. destruct (Z.eqb_spec (xmq i k) 0) as [E|E]; cbn [negb]; [|apply zn_div, zn_opp; now apply Hu].
  destruct (Z.eqb_spec (xnq i k) 0) as [E'|E']; cbn [negb]; [exact I|]. apply zn_div. now apply Hv.
Qed.
Lemma zn_wz th ze : zn (p_wz i js th ze).
Proof.
  unfold p_wz. apply zn_fsum. intros k Hk. split; [|intros As]; apply zn_mul_l, zn_mul_r; [apply zn_wmns|apply zn_wmnc]; auto.
Qed.
Lemma nan_jac th ze : p_jac i js th ze = S754_nan.
Proof.
  assert (N : p_nuz i js th ze = S754_nan).
  { unfold p_nuz. apply bad_mul; [apply bad_div; exact HD|]. apply zn_sub; [apply zn_wz|]. apply zn_mul_r, zn_lz. }
  unfold p_jac. rewrite N. cbn [S IEEE fadd fmul fsub]. rewrite nan_add_r, nan_mul_r. apply nan_add_l.
Qed.
Lemma nan_coef f k : In f (outs true) -> (0 < npts i)%Z -> o_coef i js f k = S754_nan.
Proof.
  intros Hf Hn.
  assert (X : forall j, o_inc i js f k j = S754_nan).
  { intros j. assert (C : o_cos i js k j = S754_nan) by (unfold o_cos; cbv zeta; rewrite nan_jac; cbn [IEEE fmul]; rewrite nan_mul_r; apply nan_mul_l).
    assert (S1 : o_sin i js k j = S754_nan) by (unfold o_sin; cbv zeta; rewrite nan_jac; cbn [IEEE fmul]; rewrite nan_mul_r; apply nan_mul_l).
    cbn [outs sym_outs asym_outs app In] in Hf.
    repeat (destruct Hf as [<-|Hf]); [..|contradiction]; unfold o_inc; rewrite ?C, ?S1; apply nan_mul_l. }
  unfold o_coef, accum. replace (Z.to_nat (npts i)) with (Datatypes.S (Z.to_nat (npts i) - 1)) by lia. cbn [nat_rect].
  rewrite X. apply nan_add_r.
Qed.
End NaN.

(** lambda = 0, B_theta and B_zeta constant, G = I = 1, iota = -1: G + iota I = 0.  The
    other coefficients are those of [ex_inp], symmetric. *)
Definition ex_zero (S : Scalar) : Inp S :=
  let i := ex_inp S false in let z := fun _ _ => fofZ S 0 in let c k (_ : Z) := fofZ S (if Z.eqb k 0 then 1 else 0) in
  mkInp S (asym i) (nfp i) (mpol i) (ntor i) (mnmax i) (mpolq i) (ntorq i) (mnmaxq i) (nsin i) (mboz i) (nboz i) (verb i)
    (xm i) (xn i) (xmq i) (xnq i) (nsurf i) (surf i) (sin_ i) (fun _ => fofZ S (-1))
    (rmnc i) (zmns i) z (bmnc i) c c (rmns i) (zmnc i) z (bmns i) z z.
Lemma ex_zero_ok S : ok_inp (ex_zero S). Proof. destruct (ex_ok S false). constructor; assumption. Qed.
Lemma double_ofZ z : (-1000 <= z <= 1000)%Z -> sf_is 53 1024 (sf_ofZ 53 1024 z) (IZR z).
Proof. intros H. apply ofZ_is; lia. Qed.
Lemma ex_zero_rounded pi cos_ sin' : rounded (S := IEEE 53 1024 pi cos_ sin') (sf_is 53 1024) (sf_eps 53) (ex_zero _) (ex_zero RS).
Proof.
  assert (CV : forall z, (-1000 <= z <= 1000)%Z ->
    conv1 (S := IEEE 53 1024 pi cos_ sin') (sf_is 53 1024) (sf_eps 53) (sf_ofZ 53 1024 z) (IZR z)).
  { intros z Hz. exists (IZR z). split; [now apply double_ofZ|]. replace (IZR z - IZR z) with 0 by ring. rewrite Rabs_R0.
    pose proof (eps_pos 53). pose proof (Rabs_pos (IZR z)). nra. }
  assert (V6 : mnmax (ex_zero RS) = 2%Z /\ mnmaxq (ex_zero RS) = 3%Z /\ nsin (ex_zero RS) = 3%Z) by (repeat split). destruct V6 as (N1 & N2 & N3).
  constructor; try reflexivity; try (intros; reflexivity); rewrite ?N1, ?N2, ?N3; try (intros As; discriminate As);
    intros; try intros k j' Hk Hj; try (intros k' j'' Hk' Hj').
  all: cbn [ex_zero ex_inp iota rmnc zmns lmns bmnc bsubumnc bsubvmnc ex_coef]; unfold ex_coef; cbn [IEEE fofZ RS]; apply CV; try lia;
    destruct (Z.eqb k 0); lia.
Qed.

Theorem no_check_refuted : exists i : Inp RS, valid (obj_of i) i /\ nfp_divides i /\
  forall pi cos_ sin', exists i' : Inp (IEEE 53 1024 pi cos_ sin'),
    rounded (S := IEEE 53 1024 pi cos_ sin') (sf_is 53 1024) (sf_eps 53) i' i /\ valid (obj_of i') i' /\
    exists r ev, run_ok (obj_of i') r ev /\
      forall f k j, In f (outs (asym i)) -> (0 <= k < mnboz i)%Z -> (0 <= j < nsurf i)%Z ->
        elem2 r f k j = Some (Some S754_nan).
Proof.
  exists (ex_zero RS). split; [apply ok_valid, ex_zero_ok|]. split; [exact (ex_div false)|].
  intros pi cos_ sin'. exists (ex_zero _). split; [apply ex_zero_rounded|].
  assert (V : valid (obj_of (ex_zero (IEEE 53 1024 pi cos_ sin'))) (ex_zero _)) by (apply ok_valid, ex_zero_ok).
  split; [exact V|]. destruct (run_total _ _ V) as (r & Rr & _ & _ & _ & Q & _). exists r, (run_events _ (ex_zero (IEEE 53 1024 pi cos_ sin'))).
  split; [exact Rr|]. intros f k j Hf Hk Hj.
  assert (Ef : In f (outs true)) by (cbn [outs]; apply in_or_app; now left).
  rewrite (elem2_mat _ _ _ _ (fun k b => o_coef (ex_zero _) (surf (ex_zero _) b) f k) _ _ (q_out _ _ _ Q f Hf)) by assumption.
  do 2 f_equal. apply nan_coef; auto.
  - intros q Hq. split; [exact I|intros X; discriminate X].
  - intros q Hq. change (0 <= q < 3)%Z in Hq. pattern q. apply (ex_range3 q _ Hq); intros X; [exfalso; now apply X|..];
      (split; [exact I|intros Y; discriminate Y]).
  - intros q Hq. change (0 <= q < 3)%Z in Hq. pattern q. apply (ex_range3 q _ Hq); intros X Y;
      [exfalso; now apply Y|discriminate X|discriminate X].
  - exact I.
  - reflexivity.
Qed.

Lemma opp_opp x : SFopp (SFopp x) = x. Proof. destruct x as [s|s| |s m e]; cbn; rewrite ?negb_involutive; reflexivity. Qed.

Theorem int_exact prec emax : (32 <= prec)%Z -> (prec < emax)%Z -> forall z, (-2147483648 <= z <= 2147483647)%Z ->
  sf_is prec emax (sf_ofZ prec emax z) (IZR z) /\ sf_toZ prec emax (sf_ofZ prec emax z) = Some z.
Proof.
  intros H1 H2 z Hz. split; [|apply toZ_ofZ; auto; lia]. apply ofZ_is; try lia.
  assert (P : (2 ^ 32 <= 2 ^ prec)%Z) by (apply Z.pow_le_mono_r; lia). change (2 ^ 32)%Z with 4294967296%Z in P. lia.
Qed.
Theorem ieee_round_trip prec emax pi cos_ sin' version x (w : world (IEEE prec emax pi cos_ sin')) i o2 :
  writable version (wO w) i -> open_ok w -> lucky _ w -> usable o2 ->
  exists w1 w2, write_boozmn _ version x w = IOk tt w1 /\ read_boozmn _ x (setO w1 o2) = IOk tt w2 /\ restored (wO w) i (wO w2).
Proof. exact (round_trip _ version x w i o2 opp_opp). Qed.
Lemma ieee_file_case prec emax pi cos_ sin' : exists o : obj (IEEE prec emax pi cos_ sin'), writable "0.0.8" o (ex_inp _ true) /\ usable (obj_new (IEEE prec emax pi cos_ sin')).
Proof. destruct (ex_writable (IEEE prec emax pi cos_ sin') true true) as (o & W & _). exists o. split; [exact W|apply fresh_usable]. Qed.
