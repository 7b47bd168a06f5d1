(** C68: the results in an accurate arithmetic are within a constant times its accuracy of
    the exact ones. *)
From Coq Require Import ZArith QArith List String Bool Lia Reals Lra Psatz.
From Verif Require Import Scalar Prog Model Wp Func Step TrigProof InitProof SurfProof RunProof Par FuncExt Spec RunThms
  RSum RSpec RPoint RQuad RThms RThms2 RThms3 RExamples RoundSpec Round.
Import ListNotations.
Local Open Scope Z_scope.
Local Open Scope R_scope.

Lemma b_grid (i : Inp RS) js : ok_inp i -> nfp_divides i ->
  (forall a b, (0 <= a < nt i)%Z -> (0 <= b < nz i)%Z -> mB i js (gth i a) (gze i b) <> 0) ->
  forall j, (0 <= j < npts i)%Z -> p_b i js (thg i j) (zeg i j) <> 0.
Proof.
  intros Hok Hd H j Hj. rewrite p_b_ok by auto. rewrite thg_ok, zeg_ok by auto.
  pose proof (p_nzeta _ Hok) as Pz. pose proof (p_ntheta _ Hok) as Pt.
  assert (Ez : nz i = nzeta i) by (unfold nz, nzeta; destruct (nboz i =? 0)%Z; lia).
  assert (Et : nt i = ntheta i) by (unfold nt, ntheta; lia).
  apply H.
  - rewrite Ez, Et. unfold npts in Hj. split; [apply Z.div_pos; lia|].
    assert (j / nzeta i < nu3 i)%Z by (apply Z.div_lt_upper_bound; lia).
    assert (nu3 i <= ntheta i)%Z.
    { unfold nu3, nu2. assert (ntheta i / 2 <= ntheta i / 2)%Z by lia.
      assert (2 * (ntheta i / 2) <= ntheta i)%Z by (apply Z.mul_div_le; lia). destruct (asym i); lia. }
    lia.
  - rewrite Ez. apply Z.mod_pos_bound. lia.
Qed.

Theorem rounding_errors : forall (o : obj RS) i l, valid o i -> nfp_divides i -> incl l (outs (asym i)) ->
  exists r ev, run_ok o r ev /\
  ((forall j I G, (0 <= j < nsurf i)%Z -> elem r A_Boozer_I j = Some (Some I) -> elem r A_Boozer_G j = Some (Some G) ->
      G + iota i (surf i j) * I <> 0) ->
   (In A_gmnc_b l \/ In A_gmns_b l -> forall j a b, (0 <= j < nsurf i)%Z -> (0 <= a < nt i)%Z -> (0 <= b < nz i)%Z ->
      mB i (surf i j) (gth i a) (gze i b) <> 0) ->
   exists C e0 M0, 0 < e0 /\
   forall S v e M (i' : Inp S) (o' : obj S), accurate S v e M -> e <= e0 -> M0 <= M -> rounded v e i' i -> valid o' i' ->
   exists r' ev', run_ok o' r' ev' /\
     (forall f j, In f [A_Boozer_I; A_Boozer_G] -> (0 <= j < nsurf i)%Z -> exists x y c,
        elem r f j = Some (Some y) /\ elem r' f j = Some (Some x) /\ v x c /\ Rabs (c - y) <= C * e) /\
     (forall f k j, In f l -> (0 <= k < mnboz i)%Z -> (0 <= j < nsurf i)%Z -> exists x y c,
        elem2 r f k j = Some (Some y) /\ elem2 r' f k j = Some (Some x) /\ v x c /\ Rabs (c - y) <= C * e)).
Proof.
  intros o i l V Hd Hl. destruct (run_total o i V) as (r & Rr & _ & _ & _ & Q & _). exists r, (run_events RS i).
  split; [exact Rr|]. intros HD HB. destruct V as (Hok & _ & _).
  assert (HI : forall j, (0 <= j < nsurf i)%Z -> elem r A_Boozer_I j = Some (Some (bI i (surf i j)))) by (intros; now apply (elem_vec _ _ _ (fun k => bI i (surf i k)) _ (q_I _ _ _ Q))).
  assert (HG : forall j, (0 <= j < nsurf i)%Z -> elem r A_Boozer_G j = Some (Some (bG i (surf i j)))) by (intros; now apply (elem_vec _ _ _ (fun k => bG i (surf i k)) _ (q_G _ _ _ Q))).
  assert (D : forall j, (0 <= j < nsurf i)%Z -> bG i (surf i j) + iota i (surf i j) * bI i (surf i j) <> 0) by (intros j Hj; apply (HD j); auto).
  pose proof (ok_surf _ _ Hok) as Hs.
  destruct (near_uniform i (mnboz i) (nsurf i) l (fun f k b E => o_coef (eI i E) (surf i b) f k) (fun f k b => o_coef i (surf i b) f k))
    as (C1 & e1 & M1 & HC1 & He1 & N1).
  { intros f k b Hf Hk Hb. apply n_coef; auto.
    - specialize (Hl f Hf). destruct (asym i); [exact Hl|]. cbn [outs]. now apply in_or_app; left.
    - intros Hg. apply b_grid; auto. intros a0 b0 Ha0 Hb0. apply HB; auto. destruct Hg as [-> | ->]; auto. }
  destruct (near_uniform i 1 (nsurf i) [A_Boozer_I; A_Boozer_G]
      (fun f k b E => match f with A_Boozer_I => bI (eI i E) (surf i b) | _ => bG (eI i E) (surf i b) end)
      (fun f k b => match f with A_Boozer_I => bI i (surf i b) | _ => bG i (surf i b) end)) as (C2 & e2 & M2 & HC2 & He2 & N2).
  { intros f k b Hf Hk Hb. cbn in Hf. destruct Hf as [<-|[<-|[]]]; [apply n_bI|apply n_bG]; auto. }
  exists (Rmax C1 C2), (Rmin e1 e2), (Rmax M1 M2). split; [now apply Rmin_glb_lt|].
  intros S v e M i' o' HA He HM Hr V'.
  destruct (run_total o' i' V') as (r' & Rr' & _ & _ & _ & Q' & _). exists r', (run_events S i'). split; [exact Rr'|].
  pose proof (ac_pos _ _ _ _ HA) as Pe.
  pose proof (Rmin_l e1 e2). pose proof (Rmin_r e1 e2). pose proof (Rmax_l M1 M2). pose proof (Rmax_r M1 M2).
  pose proof (Rmax_l C1 C2). pose proof (Rmax_r C1 C2).
  pose (E := mkEnv i S v e M i' HA Hr).
  assert (Ens : nsurf i' = nsurf i) by apply Hr. assert (Emn : mnboz i' = mnboz i) by exact (z_mnboz i E).
  assert (Eas : asym i' = asym i) by apply Hr.
  split.
  - intros f j Hf Hj. destruct (N2 E ltac:(cbn; lra) ltac:(cbn; lra) f 0%Z j Hf ltac:(lia) Hj) as (c & Vc & Bc).
    cbn [In] in Hf. destruct Hf as [<-|[<-|[]]].
    + exists (bI i' (surf i' j)), (bI i (surf i j)), c. split; [now apply HI|]. split.
      { apply (elem_vec _ _ _ (fun k => bI i' (surf i' k)) _ (q_I _ _ _ Q')). lia. }
      assert (Es : surf i' j = surf i j) by (now apply Hr). rewrite Es. split; [exact Vc|]. cbn in Bc. nra.
    + exists (bG i' (surf i' j)), (bG i (surf i j)), c. split; [now apply HG|]. split.
      { apply (elem_vec _ _ _ (fun k => bG i' (surf i' k)) _ (q_G _ _ _ Q')). lia. }
      assert (Es : surf i' j = surf i j) by (now apply Hr). rewrite Es. split; [exact Vc|]. cbn in Bc. nra.
  - intros f k j Hf Hk Hj. destruct (N1 E ltac:(cbn; lra) ltac:(cbn; lra) f k j Hf Hk Hj) as (c & Vc & Bc).
    exists (o_coef i' (surf i' j) f k), (o_coef i (surf i j) f k), c. split.
    { apply (elem2_mat _ _ _ _ (fun k b => o_coef i (surf i b) f k) _ _ (q_out _ _ _ Q f (Hl f Hf))); auto. }
    split.
    { apply (elem2_mat _ _ _ _ (fun k b => o_coef i' (surf i' b) f k) _ _ (q_out _ _ _ Q' f ltac:(rewrite Eas; exact (Hl f Hf)))); lia. }
    assert (Es : surf i' j = surf i j) by (now apply Hr). rewrite Es. split; [exact Vc|]. cbn in Bc. nra.
Qed.
