(** An accurate arithmetic: binary floating point numbers with p significant bits, least
    exponent emin, rounding towards minus infinity, overflow beyond M.

    A value is [Some a] (finite) or [None] (an infinity or NaN, which spreads).  Rounding
    acts on the exact results, also of cos and sin. *)
From Coq Require Import ZArith QArith List String Bool Lia Reals Lra Psatz Qreals.
From Verif Require Import Scalar Prog Model Wp Func Step TrigProof InitProof SurfProof RunProof Par FuncExt Spec RunThms
  RSum RSpec RPoint RQuad RThms RThms2 RThms3 RExamples RoundSpec Round RoundThm.
Import ListNotations.
Local Open Scope Z_scope.
Local Open Scope R_scope.

(** the exponent of x: 2^k <= |x| < 2^(k+1), not below emin *)
Definition fl_exp (emin : Z) (x : R) : Z := Z.max emin (Int_part (ln (Rabs x) / ln 2)).
(** the unit in the last place *)
Definition ulp (p : nat) (emin : Z) (x : R) : R := powerRZ 2 (fl_exp emin x) * (2 * / 2 ^ p).
(** the greatest multiple of the unit that is at most x *)
Definition rnd (p : nat) (emin : Z) (x : R) : R := ulp p emin x * IZR (Int_part (x / ulp p emin x)).

Section FL.
Variables (p : nat) (emin : Z) (M : R).
Definition fin (x : R) : option R := if Rle_dec (Rabs x) M then Some (rnd p emin x) else None.
Definition lift2 (g : R -> R -> R) (x y : option R) : option R :=
  match x, y with Some a, Some b => fin (g a b) | _, _ => None end.
Definition lift1 (g : R -> R) (x : option R) : option R := match x with Some a => fin (g a) | None => None end.
Definition FL : Scalar := {|
  F := option R;
  fadd := lift2 Rplus; fsub := lift2 Rminus; fmul := lift2 Rmult;
  fdiv := fun x y => match y with Some b => if Req_EM_T b 0 then None else lift2 Rdiv x y | None => None end;
  fneg := option_map Ropp;
  fofZ := fun z => fin (IZR z); flit := fun q => fin (Q2R q); fpi := fin PI;
  fsqrt := lift1 sqrt; fcos := lift1 cos; fsin := lift1 sin; fabs := option_map Rabs;
  flt := fun x y => match x, y with Some a, Some b => if Rlt_dec a b then true else false | _, _ => false end;
  ftoZ := fun x => match x with Some a => Some (Rtrunc a) | None => None end
|}.
Definition fl_v (x : option R) (a : R) : Prop := x = Some a.
Definition fl_e : R := 2 * / 2 ^ p.

Lemma pow2_pos : 0 < / 2 ^ p. Proof. apply Rinv_0_lt_compat, pow_lt. lra. Qed.
Lemma fl_e_pos : 0 < fl_e. Proof. unfold fl_e. pose proof pow2_pos. lra. Qed.
Lemma powerRZ2_pos k : 0 < powerRZ 2 k. Proof. apply powerRZ_lt. lra. Qed.
Lemma powerRZ2_exp k : powerRZ 2 k = exp (IZR k * ln 2).
Proof.
  destruct k as [|k|k]; cbn [powerRZ].
  - now rewrite Rmult_0_l, exp_0.
  - rewrite <- (exp_ln (2 ^ Pos.to_nat k)) by (apply pow_lt; lra). f_equal. rewrite ln_pow by lra.
    now rewrite INR_IZR_INZ, positive_nat_Z.
  - rewrite <- (exp_ln (2 ^ Pos.to_nat k)) by (apply pow_lt; lra). rewrite <- exp_Ropp. f_equal. rewrite ln_pow by lra.
    rewrite INR_IZR_INZ, positive_nat_Z. rewrite <- Pos2Z.opp_pos, opp_IZR. ring.
Qed.
Lemma int_part_le x : IZR (Int_part x) <= x. Proof. apply base_Int_part. Qed.

Hypothesis Hemin : (emin <= 0)%Z.
Lemma ulp_pos x : 0 < ulp p emin x.
Proof. unfold ulp. pose proof (powerRZ2_pos (fl_exp emin x)). pose proof fl_e_pos. unfold fl_e in *. nra. Qed.
Lemma ulp_le x : ulp p emin x <= fl_e * (1 + Rabs x).
Proof.
  unfold ulp. fold fl_e. rewrite Rmult_comm. apply Rmult_le_compat_l; [pose proof fl_e_pos; lra|].
  pose proof (Rabs_pos x) as Px. assert (L2 : 0 < ln 2) by (rewrite <- ln_1; apply ln_increasing; lra).
  rewrite powerRZ2_exp. unfold fl_exp. destruct (Z.max_spec emin (Int_part (ln (Rabs x) / ln 2))) as [(H & ->)|(H & ->)].
  - destruct (Req_dec (Rabs x) 0) as [E|E].
    + rewrite E in H |- *. assert (Ln0 : ln 0 = 0) by (unfold ln; destruct (Rlt_dec 0 0) as [X|X]; [exfalso; exact (Rlt_irrefl 0 X)|reflexivity]).
      rewrite Ln0 in H |- *. unfold Rdiv. rewrite Rmult_0_l. pose proof (int_part_le 0).
      assert (exp (IZR (Int_part 0) * ln 2) <= exp 0).
      { destruct (Rle_lt_or_eq_dec (IZR (Int_part 0) * ln 2) 0) as [X|X]; [nra|apply Rlt_le, exp_increasing, X|rewrite X; lra]. }
      rewrite exp_0 in *. lra.
    + assert (P : 0 < Rabs x) by lra.
      assert (X : IZR (Int_part (ln (Rabs x) / ln 2)) * ln 2 <= ln (Rabs x)).
      { pose proof (int_part_le (ln (Rabs x) / ln 2)) as Y. apply (Rmult_le_compat_r (ln 2)) in Y; [|lra].
        replace (ln (Rabs x) / ln 2 * ln 2) with (ln (Rabs x)) in Y by (field; lra). exact Y. }
      assert (exp (IZR (Int_part (ln (Rabs x) / ln 2)) * ln 2) <= exp (ln (Rabs x))).
      { destruct (Rle_lt_or_eq_dec _ _ X) as [Y|Y]; [apply Rlt_le, exp_increasing, Y|rewrite Y; lra]. }
      rewrite exp_ln in * by auto. lra.
  - apply IZR_le in Hemin. assert (exp (IZR emin * ln 2) <= exp 0).
    { destruct (Rle_lt_or_eq_dec (IZR emin * ln 2) 0) as [X|X]; [nra|apply Rlt_le, exp_increasing, X|rewrite X; lra]. }
    rewrite exp_0 in *. lra.
Qed.
Lemma rnd_close x : Rabs (rnd p emin x - x) <= fl_e * (1 + Rabs x).
Proof.
  eapply Rle_trans; [|apply ulp_le]. unfold rnd. pose proof (ulp_pos x) as Pu. set (u := ulp p emin x) in *.
  destruct (base_Int_part (x / u)) as (H1 & H2). apply Rabs_le.
  apply (Rmult_le_compat_l u) in H1; [|lra]. apply Rgt_lt, (Rmult_lt_compat_l u) in H2; [|lra].
  replace (u * (x / u)) with x in H1 by (field; lra). 
  replace (u * (IZR (Int_part (x / u)) - x / u)) with (u * IZR (Int_part (x / u)) - x) in H2 by (field; lra). lra.
Qed.
Lemma fin_ok x : Rabs x <= M -> exists c, fl_v (fin x) c /\ Rabs (c - x) <= fl_e * (1 + Rabs x).
Proof. intros H. exists (rnd p emin x). unfold fin. destruct (Rle_dec (Rabs x) M); [|contradiction]. split; [reflexivity|apply rnd_close]. Qed.

Hypothesis HM : 4 <= M.
Lemma FL_accurate : accurate FL fl_v fl_e M.
Proof.
  assert (C1 : forall x, Rabs (cos x) <= 1) by (intros x; apply Rabs_le, COS_bound).
  assert (S1 : forall x, Rabs (sin x) <= 1) by (intros x; apply Rabs_le, SIN_bound).
  constructor; unfold fl_v.
  - pose proof fl_e_pos. lra.
  - intros x y a b -> -> H. exact (fin_ok _ H).
  - intros x y a b -> -> H. exact (fin_ok _ H).
  - intros x y a b -> -> H. exact (fin_ok _ H).
  - intros x y a b -> -> Hb H. cbn. destruct (Req_EM_T b 0); [contradiction|]. exact (fin_ok _ H).
  - intros x a ->. reflexivity.
  - intros z H. exact (fin_ok _ H).
  - intros q H. exact (fin_ok _ H).
  - assert (EP : Rabs PI = PI) by (apply Rabs_right; pose proof PI_RGT_0; lra).
    destruct (fin_ok PI) as (c & Vc & Bc); [rewrite EP; pose proof PI_4; lra|]. rewrite EP in Bc. exists c. split; [exact Vc|exact Bc].
  - intros x a ->. apply fin_ok. pose proof (C1 a). lra.
  - intros x a ->. apply fin_ok. pose proof (S1 a). lra.
Qed.

(** inputs converted to floating point *)
Definition fl1 (f : Z -> R) : Z -> option R := fun j => Some (rnd p emin (f j)).
Definition fl2 (f : Z -> Z -> R) : Z -> Z -> option R := fun k j => Some (rnd p emin (f k j)).
Definition fl_inp (i : Inp RS) : Inp FL :=
  mkInp FL (asym i) (nfp i) (mpol i) (ntor i) (mnmax i) (mpolq i) (ntorq i) (mnmaxq i) (nsin i) (mboz i) (nboz i) (verb i)
    (xm i) (xn i) (xmq i) (xnq i) (nsurf i) (surf i) (fl1 (sin_ i)) (fl1 (iota i))
    (fl2 (rmnc i)) (fl2 (zmns i)) (fl2 (lmns i)) (fl2 (bmnc i)) (fl2 (bsubumnc i)) (fl2 (bsubvmnc i))
    (fl2 (rmns i)) (fl2 (zmnc i)) (fl2 (lmnc i)) (fl2 (bmns i)) (fl2 (bsubumns i)) (fl2 (bsubvmns i)).
Lemma fl_conv1 x : conv1 (S := FL) fl_v fl_e (Some (rnd p emin x)) x.
Proof. exists (rnd p emin x). split; [reflexivity|apply rnd_close]. Qed.
Lemma fl_inp_rounded i : rounded (S := FL) fl_v fl_e (fl_inp i) i.
Proof. constructor; try reflexivity; try (intros; reflexivity); intros; try intros k j _ _; apply fl_conv1. Qed.
Lemma fl_inp_ok i : ok_inp i -> ok_inp (fl_inp i).
Proof. intros []. constructor; assumption. Qed.
End FL.

(** The theorem for these numbers *)
Theorem floating_point : forall (o : obj RS) i l, valid o i -> nfp_divides i -> incl l (outs (asym i)) ->
  exists r ev, run_ok o r ev /\
  ((forall j I G, (0 <= j < nsurf i)%Z -> elem r A_Boozer_I j = Some (Some I) -> elem r A_Boozer_G j = Some (Some G) ->
      G + iota i (surf i j) * I <> 0) ->
   (In A_gmnc_b l \/ In A_gmns_b l -> forall j a b, (0 <= j < nsurf i)%Z -> (0 <= a < nt i)%Z -> (0 <= b < nz i)%Z ->
      mB i (surf i j) (gth i a) (gze i b) <> 0) ->
   exists C p0 M0, forall p emin M, (p0 <= p)%nat -> (emin <= 0)%Z -> M0 <= M ->
   exists r' ev', run_ok (obj_of (fl_inp p emin M i)) r' ev' /\
     (forall f j, In f [A_Boozer_I; A_Boozer_G] -> (0 <= j < nsurf i)%Z -> exists y c,
        elem r f j = Some (Some y) /\ elem r' f j = Some (Some (Some c)) /\ Rabs (c - y) <= C / 2 ^ p) /\
     (forall f k j, In f l -> (0 <= k < mnboz i)%Z -> (0 <= j < nsurf i)%Z -> exists y c,
        elem2 r f k j = Some (Some y) /\ elem2 r' f k j = Some (Some (Some c)) /\ Rabs (c - y) <= C / 2 ^ p)).
Proof.
  intros o i l V Hd Hl. destruct (rounding_errors o i l V Hd Hl) as (r & ev & Rr & H). exists r, ev. split; [exact Rr|].
  intros HD HB. destruct (H HD HB) as (C & e0 & M0 & He0 & N).
  destruct (pow_lt_1_zero (/ 2) ltac:(rewrite Rabs_right; lra) (e0 / 2) ltac:(lra)) as (p0 & Hp0).
  exists (C * 2), p0, (Rmax M0 4). intros p emin M Hp Hem HM.
  pose proof (Rmax_l M0 4). pose proof (Rmax_r M0 4).
  assert (Pe : fl_e p <= e0).
  { specialize (Hp0 p Hp). rewrite pow_inv in Hp0. unfold fl_e.
    rewrite Rabs_right in Hp0 by (apply Rle_ge, Rlt_le, pow2_pos). lra. }
  destruct (N (FL p emin M) fl_v (fl_e p) M (fl_inp p emin M i) (obj_of (fl_inp p emin M i))) as (r' & ev' & Rr' & N1 & N2).
  - apply FL_accurate; auto. lra.
  - exact Pe.
  - lra.
  - now apply fl_inp_rounded.
  - apply ok_valid. apply fl_inp_ok. apply V.
  - assert (X : C * fl_e p = C * 2 / 2 ^ p) by (unfold fl_e, Rdiv; ring).
    exists r', ev'. split; [exact Rr'|]. split.
    + intros f j Hf Hj. destruct (N1 f j Hf Hj) as (x & y & c & E1 & E2 & -> & B). exists y, c. rewrite <- X. auto.
    + intros f k j Hf Hk Hj. destruct (N2 f k j Hf Hk Hj) as (x & y & c & E1 & E2 & -> & B). exists y, c. rewrite <- X. auto.
Qed.

(** A case: the field of [ex_phys] with |B| = 3 + cos + cos *)
Definition ex_rnd : Inp RS := with_rzb ex_phys
  (mkRzb (ex_coef RS 1) (ex_coef RS 2) (ex_coef RS 3) (ex_coef RS 4) (fun k _ => if Z.eqb k 0 then 3 else 1) (fun _ _ => 0)).
Lemma ex_rnd_case : valid (obj_of ex_rnd) ex_rnd /\ nfp_divides ex_rnd /\ asym ex_rnd = true /\
  (forall j, (0 <= j < nsurf ex_rnd)%Z -> bG ex_rnd (surf ex_rnd j) + iota ex_rnd (surf ex_rnd j) * bI ex_rnd (surf ex_rnd j) <> 0) /\
  (forall js t z, mB ex_rnd js t z <> 0) /\
  forall p emin M, (emin <= 0)%Z -> 4 <= M -> accurate (FL p emin M) fl_v (fl_e p) M /\
    rounded (S := FL p emin M) fl_v (fl_e p) (fl_inp p emin M ex_rnd) ex_rnd /\ valid (obj_of (fl_inp p emin M ex_rnd)) (fl_inp p emin M ex_rnd).
Proof.
  destruct ex_phys_ok as (V & _ & Dv & HD). destruct V as (Hok & _ & _).
  assert (Ho : ok_inp ex_rnd) by (destruct Hok; constructor; assumption).
  split; [now apply ok_valid|]. split; [exact Dv|]. split; [reflexivity|]. split.
  { intros j Hj. exact (proj2 (HD j Hj)). }
  split.
  { intros js t z. unfold mB, series. change (mnmaxq ex_rnd) with 3%Z.
    rewrite !(rsum_succ 2), !(rsum_succ 1), !(rsum_succ 0), rsum_0 by lia.
    change (asym ex_rnd) with true. unfold onA. cbn [ex_rnd with_rzb bmnc bmns x_bmnc x_bmns].
    change (xmq ex_rnd 0) with 0%Z. change (xnq ex_rnd 0) with 0%Z.
    eqbs. unfold phase at 1 2. rewrite !Rmult_0_l, Rminus_0_r, cos_0.
    pose proof (COS_bound (phase (xmq ex_rnd 1) (xnq ex_rnd 1) t z)). pose proof (COS_bound (phase (xmq ex_rnd 2) (xnq ex_rnd 2) t z)). lra. }
  intros p emin M He HM. split; [now apply FL_accurate|]. split; [now apply fl_inp_rounded|]. apply ok_valid. now apply fl_inp_ok.
Qed.
