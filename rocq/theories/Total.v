(** Discretisation and rounding errors together: C58 and C68. *)
From Coq Require Import ZArith QArith List String Bool Lia Reals Lra.
From Verif Require Import Scalar Prog Model Wp Func Step RunProof FuncExt Spec RunThms RSum RSpec RPoint RQuad RThms RThms2 RThms3 RExamples
  Conv ConvThms ConvMain ConvEx RoundSpec RoundThm RoundEx.
Import ListNotations.
Local Open Scope Z_scope.
Local Open Scope R_scope.

Theorem total_error : forall (i : Inp RS) js I G J f Q c m n,
  (0 < nfp i)%Z -> nfp_divides i -> (nfp i | n)%Z ->
  G + iota i js * I <> 0 -> is_jacobian i js I G J ->
  documented i js I G f Q c -> B_nonzero i js f ->
  exists l,
  (forall N ms ns co si eps, (forall k, (0 <= k < N)%Z -> (nfp i | ns k)%Z) ->
    (forall t z, Rabs (Q t z - series N ms ns co si (mTh i js I G t z) (mZe i js I G t z)) <= eps) ->
    (forall t z, 0 <= J t z) -> Rabs (l - amp c N ms ns co si m n) <= 2 * eps) /\
  forall q, exists C, 0 <= C /\ forall mb nb o,
    let i' := at_res i mb nb in
    valid o i' -> exists r ev, run_ok o r ev /\
    ((forall j I' G', (0 <= j < nsurf i)%Z -> elem r A_Boozer_I j = Some (Some I') -> elem r A_Boozer_G j = Some (Some G') ->
        G' + iota i (surf i j) * I' <> 0 /\ forall t z, mB i (surf i j) t z <> 0) ->
     exists D p0 M0, forall p emin M, (p0 <= p)%nat -> (emin <= 0)%Z -> M0 <= M ->
     exists r' ev', run_ok (obj_of (fl_inp p emin M i')) r' ev' /\
     forall b k, (0 <= b < nsurf i)%Z -> surf i b = js -> 
        elem r A_Boozer_I b = Some (Some I) -> elem r A_Boozer_G b = Some (Some G) ->
        elemN r N_xm_b k = Some (Some m) -> elemN r N_xn_b k = Some (Some n) ->
        exists x, elem2 r' f k b = Some (Some (Some x)) /\
          Rabs (x - l) <= C * (/ IZR (nt i') ^ q + / IZR (nz i') ^ q) + D / 2 ^ p).
Proof.
  intros i js I G J f Q c m n Hf Hd Hn Hne HJ Hdoc HB.
  destruct (converges i js I G J f Q c m n Hf Hd Hn Hne HJ Hdoc HB) as (l & Hl & Hq).
  exists l. split.
  { intros N ms ns co si eps H1 H2 H3. exact (proj2 (Hl N ms ns co si eps H1 H2) H3). }
  intros q. destruct (Hq q) as (C & HC & H). exists C. split; [exact HC|]. intros mb nb o i' V.
  pose proof V as (Hok & Rp & _).
  pose proof (ok_mboz _ _ Hok) as Hm. pose proof (ok_nboz _ _ Hok) as Hnb. change (1 <= mb)%Z in Hm. change (0 <= nb)%Z in Hnb.
  destruct (H mb nb Hm Hnb) as (Hb & _ & Hr). cbv zeta in Hb, Hr. fold i' in Hb, Hr.
  assert (Hd' : nfp_divides i') by exact Hd.
  assert (Hin : incl [f] (outs (asym i'))).
  { intros x [<- | []]. change (asym i') with (asym i). unfold outs. destruct Hdoc; rewrite ?H0;
      try (rewrite H0); cbn; try tauto; destruct (asym i); cbn; tauto. }
  destruct (floating_point o i' [f] V Hd' Hin) as (r & ev & E & HF). exists r, ev. split; [exact E|].
  destruct (Hr o V) as (r2 & ev2 & E2 & HR). assert (r2 = r) by (unfold run_ok in E, E2; rewrite E in E2; now injection E2). subst r2.
  intros HS. 
  assert (Q1 : forall j I' G', (0 <= j < nsurf i')%Z -> elem r A_Boozer_I j = Some (Some I') -> elem r A_Boozer_G j = Some (Some G') ->
      G' + iota i' (surf i' j) * I' <> 0) by (intros j I' G' Hj H1 H2; exact (proj1 (HS j I' G' Hj H1 H2))).
  destruct (run_total o i' V) as (r3 & E3 & _ & _ & _ & Q3 & _).
  assert (r3 = r) by (unfold run_ok in E, E3; rewrite E in E3; now injection E3). subst r3.
  destruct (HF Q1) as (D & p0 & M0 & HFl).
  { intros _ j a b Hj _ _. 
    exact (proj2 (HS j _ _ Hj (elem_vec _ _ _ _ j (q_I _ _ _ Q3) Hj) (elem_vec _ _ _ _ j (q_G _ _ _ Q3) Hj)) _ _). }
  exists D, p0, M0. intros p emin M Hp He HM. destruct (HFl p emin M Hp He HM) as (r' & ev' & E' & _ & HX).
  exists r', ev'. split; [exact E'|]. intros b k Hbn Hjs HI HG Hkm Hkn.
  destruct (mode_elem r i' k m Q3 Hkm) as (Hk & _).
  destruct (HX f k b (or_introl eq_refl) Hk Hbn) as (y & x & Ey & Ex & Hxy). exists x. split; [exact Ex|].
  pose proof (elemN_vec _ _ _ _ b (r_surf _ _ _ Rp) Hbn) as Es. change (surf i' b) with (surf i b) in Es. rewrite Hjs in Es.
  rewrite (HR b k Es HI HG Hkm Hkn) in Ey. injection Ey as <-.
  match type of Hb with Rabs (?v - l) <= _ => replace (x - l) with ((x - v) + (v - l)) by ring end.
  eapply Rle_trans; [apply Rabs_triang|]. lra.
Qed.

(** The hypotheses hold for ex_helical, for all its surfaces, at all resolutions up to 20. *)
Lemma total_case : forall js,
  (0 < nfp ex_helical)%Z /\ nfp_divides ex_helical /\ 40 + iota ex_helical js * 0 <> 0 /\
  is_jacobian ex_helical js 0 40 ex_helical_J /\ (forall t z, 0 <= ex_helical_J t z) /\
  documented ex_helical js 0 40 A_gmns_b (mSqrtg ex_helical js 0 40) false /\ B_nonzero ex_helical js A_gmns_b /\
  forall mb nb, (1 <= mb <= 20)%Z -> (0 <= nb <= 20)%Z -> let i' := at_res ex_helical mb nb in valid (obj_of i') i' /\
  forall r ev, run_ok (obj_of i') r ev ->
    (forall j, (0 <= j < nsurf ex_helical)%Z -> elem r A_Boozer_I j = Some (Some 0) /\ elem r A_Boozer_G j = Some (Some 40)) /\
    (forall j I' G', (0 <= j < nsurf ex_helical)%Z -> elem r A_Boozer_I j = Some (Some I') -> elem r A_Boozer_G j = Some (Some G') ->
        G' + iota ex_helical (surf ex_helical j) * I' <> 0 /\ forall t z, mB ex_helical (surf ex_helical j) t z <> 0).
Proof.
  intros js. destruct (ex_helical_case js) as (H1 & _ & _ & H4 & H5 & H6 & H7 & _ & H9 & _ & _ & H12).
  split; [cbn; lia|]. split; [exact H1|]. split; [exact H4|]. split; [exact H5|]. split; [exact H6|]. split; [exact H9|]. split; [apply H7|].
  intros mb nb Hm Hn i'. split; [now apply H12|]. intros r ev E. pose proof (H12 mb nb Hm Hn) as V. fold i' in V.
  destruct (run_total (obj_of i') i' V) as (r3 & E3 & _ & _ & _ & Q3 & _).
  assert (r3 = r) by (unfold run_ok in E, E3; rewrite E in E3; now injection E3). subst r3.
  assert (IG : forall j, (0 <= j < nsurf ex_helical)%Z -> elem r A_Boozer_I j = Some (Some 0) /\ elem r A_Boozer_G j = Some (Some 40)).
  { intros j Hj. split.
    - rewrite (elem_vec _ _ _ _ j (q_I _ _ _ Q3) Hj). do 2 f_equal; try exact (ex_helical_I (surf ex_helical j)).
    - rewrite (elem_vec _ _ _ _ j (q_G _ _ _ Q3) Hj). do 2 f_equal; try exact (ex_helical_G (surf ex_helical j)). }
  split; [exact IG|]. intros j I' G' Hj HI HG. destruct (IG j Hj) as (A & B). rewrite A in HI. rewrite B in HG.
  injection HI as <-. injection HG as <-. destruct (ex_helical_case (surf ex_helical j)) as (_ & _ & _ & K4 & _ & _ & K7 & _).
  split; [exact K4|]. intros t z. destruct (K7 A_gmnc_b) as (beta & Hb & K). intros Z0. specialize (K t z). rewrite Z0, Rabs_R0 in K. lra.
Qed.
