(** Property C74: the results depend continuously on the inputs.

    [within e i' i]: the same sizes, modes and surfaces; every floating-point input of i' is
    at most e away from that of i. *)
From Coq Require Import ZArith QArith List String Bool Reals Lra.
From Verif Require Import Scalar Prog Model Wp Func FuncExt Spec RSpec RThms2 RExamples RoundSpec RoundThm RoundEx.
Import ListNotations.
Local Open Scope Z_scope.
Local Open Scope R_scope.

Definition near2 (e : R) (n m : Z) (x a : Z -> Z -> R) : Prop :=
  forall k j, (0 <= k < n)%Z -> (0 <= j < m)%Z -> Rabs (x k j - a k j) <= e.
Record within (e : R) (i' i : Inp RS) : Prop := mkWithin {
  wi_asym : asym i' = asym i; wi_nfp : nfp i' = nfp i; wi_mpol : mpol i' = mpol i; wi_ntor : ntor i' = ntor i;
  wi_mnmax : mnmax i' = mnmax i; wi_mpolq : mpolq i' = mpolq i; wi_ntorq : ntorq i' = ntorq i;
  wi_mnmaxq : mnmaxq i' = mnmaxq i; wi_nsin : nsin i' = nsin i; wi_mboz : mboz i' = mboz i; wi_nboz : nboz i' = nboz i;
  wi_nsurf : nsurf i' = nsurf i;
  wi_xm : forall k, (0 <= k < mnmax i)%Z -> xm i' k = xm i k;
  wi_xn : forall k, (0 <= k < mnmax i)%Z -> xn i' k = xn i k;
  wi_xmq : forall k, (0 <= k < mnmaxq i)%Z -> xmq i' k = xmq i k;
  wi_xnq : forall k, (0 <= k < mnmaxq i)%Z -> xnq i' k = xnq i k;
  wi_surf : forall b, (0 <= b < nsurf i)%Z -> surf i' b = surf i b;
  wi_iota : forall j, (0 <= j < nsin i)%Z -> Rabs (iota i' j - iota i j) <= e;
  wi_rmnc : near2 e (mnmax i) (nsin i) (rmnc i') (rmnc i);
  wi_zmns : near2 e (mnmax i) (nsin i) (zmns i') (zmns i);
  wi_lmns : near2 e (mnmax i) (nsin i) (lmns i') (lmns i);
  wi_bmnc : near2 e (mnmaxq i) (nsin i) (bmnc i') (bmnc i);
  wi_bsubumnc : near2 e (mnmaxq i) (nsin i) (bsubumnc i') (bsubumnc i);
  wi_bsubvmnc : near2 e (mnmaxq i) (nsin i) (bsubvmnc i') (bsubvmnc i);
  wi_rmns : asym i = true -> near2 e (mnmax i) (nsin i) (rmns i') (rmns i);
  wi_zmnc : asym i = true -> near2 e (mnmax i) (nsin i) (zmnc i') (zmnc i);
  wi_lmnc : asym i = true -> near2 e (mnmax i) (nsin i) (lmnc i') (lmnc i);
  wi_bmns : asym i = true -> near2 e (mnmaxq i) (nsin i) (bmns i') (bmns i);
  wi_bsubumns : asym i = true -> near2 e (mnmaxq i) (nsin i) (bsubumns i') (bsubumns i);
  wi_bsubvmns : asym i = true -> near2 e (mnmaxq i) (nsin i) (bsubvmns i') (bsubvmns i)
}.

Lemma exact_accurate : forall e M, 0 <= e -> accurate RS (@eq R) e M.
Proof.
  intros e M He.
  assert (Z0 : forall x b, Rabs (x - x) <= e * (1 + Rabs b)).
  { intros x b. rewrite Rminus_diag_eq by reflexivity. rewrite Rabs_R0. apply Rmult_le_pos; [exact He|]. pose proof (Rabs_pos b). lra. }
  assert (P : PI = Rabs PI) by (symmetry; apply Rabs_right; pose proof PI_RGT_0; lra).
  constructor; [exact He|..]; intros; subst; try (eexists; split; [reflexivity|]); try apply Z0; try reflexivity.
  change (Rabs (PI - PI) <= e * (1 + PI)). specialize (Z0 PI PI). rewrite <- P in Z0. exact Z0.
Qed.

Lemma conv1_near : forall e (x a : R), 0 <= e -> Rabs (x - a) <= e -> conv1 (S := RS) (@eq R) e x a.
Proof.
  intros e x a He H. exists x. split; [reflexivity|]. eapply Rle_trans; [exact H|].
  pose proof (Rabs_pos a). rewrite <- (Rmult_1_r e) at 1. apply Rmult_le_compat_l; lra.
Qed.
Lemma within_rounded : forall e i' i, 0 <= e -> within e i' i -> rounded (S := RS) (@eq R) e i' i.
Proof.
  intros e i' i He H. destruct H.
  constructor; try assumption; intros; try intros k j' Hk Hj; apply conv1_near; auto; unfold near2 in *; auto.
Qed.

Theorem stable : forall (o : obj RS) i l, valid o i -> nfp_divides i -> incl l (outs (asym i)) ->
  exists r ev, run_ok o r ev /\
  ((forall j I G, (0 <= j < nsurf i)%Z -> elem r A_Boozer_I j = Some (Some I) -> elem r A_Boozer_G j = Some (Some G) ->
      G + iota i (surf i j) * I <> 0) ->
   (In A_gmnc_b l \/ In A_gmns_b l -> forall j a b, (0 <= j < nsurf i)%Z -> (0 <= a < nt i)%Z -> (0 <= b < nz i)%Z ->
      mB i (surf i j) (gth i a) (gze i b) <> 0) ->
   exists C e0, 0 < e0 /\
   forall e (i' : Inp RS) (o' : obj RS), 0 <= e <= e0 -> within e i' i -> valid o' i' ->
   exists r' ev', run_ok o' r' ev' /\
     (forall f j, In f [A_Boozer_I; A_Boozer_G] -> (0 <= j < nsurf i)%Z -> exists x y : R,
        elem r f j = Some (Some y) /\ elem r' f j = Some (Some x) /\ Rabs (x - y) <= C * e) /\
     (forall f k j, In f l -> (0 <= k < mnboz i)%Z -> (0 <= j < nsurf i)%Z -> exists x y : R,
        elem2 r f k j = Some (Some y) /\ elem2 r' f k j = Some (Some x) /\ Rabs (x - y) <= C * e)).
Proof.
  intros o i l V Hd Hl. destruct (rounding_errors o i l V Hd Hl) as (r & ev & Rr & H). exists r, ev. split; [exact Rr|].
  intros HD HB. destruct (H HD HB) as (C & e0 & M0 & He0 & H'). exists C, e0. split; [exact He0|].
  intros e i' o' He Hw V'.
  destruct (H' RS (@eq R) e M0 i' o' (exact_accurate e M0 (proj1 He)) (proj2 He) (Rle_refl _) (within_rounded e i' i (proj1 He) Hw) V')
    as (r' & ev' & Rr' & H1 & H2).
  exists r', ev'. split; [exact Rr'|]. split.
  - intros f j Hf Hj. destruct (H1 f j Hf Hj) as (x & y & c & Hy & Hx & Hc & HE). exists x, y. subst c. auto.
  - intros f k j Hf Hk Hj. destruct (H2 f k j Hf Hk Hj) as (x & y & c & Hy & Hx & Hc & HE). exists x, y. subst c. auto.
Qed.

(** A case: the inputs of [ex_rnd], with R, Z and |B| changed by [e] *)
Definition bumped (e : R) : Inp RS := with_rzb ex_phys
  (mkRzb (fun k j => ex_coef RS 1 k j + e) (fun k j => ex_coef RS 2 k j - e) (fun k j => ex_coef RS 3 k j + e / 2) (ex_coef RS 4)
     (fun k _ => (if Z.eqb k 0 then 3 else 1) + e) (fun _ _ => e)).
Lemma stable_case : valid (obj_of ex_rnd) ex_rnd /\ nfp_divides ex_rnd /\
  (forall j, (0 <= j < nsurf ex_rnd)%Z -> bG ex_rnd (surf ex_rnd j) + iota ex_rnd (surf ex_rnd j) * bI ex_rnd (surf ex_rnd j) <> 0) /\
  (forall js t z, mB ex_rnd js t z <> 0) /\
  forall e, 0 <= e -> within e (bumped e) ex_rnd /\ valid (obj_of (bumped e)) (bumped e).
Proof.
  destruct ex_rnd_case as (V & Hd & _ & HD & HB & _). do 4 (split; [assumption|]). intros e He. split.
  - assert (Ab : forall x y : R, x - y = e \/ x - y = - e \/ x - y = e / 2 \/ x - y = 0 -> Rabs (x - y) <= e).
    { intros x y H. apply Rabs_le. destruct H as [H|[H|[H|H]]]; rewrite H; lra. }
    constructor; try reflexivity; intros; try reflexivity; try (intros k j' _ _); apply Ab; cbn; try (right; right; right; ring).
    all: try (left; ring); try (right; left; ring); right; right; left; field.
  - destruct ex_phys_ok as (V0 & _). destruct V0 as (Hok & _ & _). apply ok_valid. destruct Hok. constructor; assumption.
Qed.
