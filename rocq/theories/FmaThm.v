(** C78: the results when the compiler contracts products and sums as it likes. *)
From Coq Require Import ZArith QArith List String Bool Lia Reals Lra Psatz Qreals Floats.SpecFloat.
From Verif Require Import Scalar Prog Model Wp Func Step TrigProof InitProof SurfProof RunProof Par FuncExt Spec RunThms
  RSum RSpec RPoint RQuad RThms RThms2 RThms3 RExamples RoundSpec Round RoundThm Sim Ieee IeeeProof IeeeThm Fma LooseProof FmaProof.
Import ListNotations.
Local Open Scope Z_scope.
Local Open Scope R_scope.

Lemma rounded_alike S v e (i' : Inp S) (i : Inp RS) : rounded v e i' i -> alike S RS (conv1 v e) i' i.
Proof. intros []. constructor; assumption. Qed.
Lemma rounded_ok S v e (i' : Inp S) (i : Inp RS) : rounded v e i' i -> ok_inp i -> ok_inp i'.
Proof.
  intros [] []. unfold ntheta, nzeta in *.
  constructor; unfold ntheta, nzeta; rewrite ?rd_nfp, ?rd_mpol, ?rd_ntor, ?rd_mpolq, ?rd_ntorq, ?rd_mnmax, ?rd_mnmaxq, ?rd_nsin, ?rd_nsurf, ?rd_mboz, ?rd_nboz; auto.
  - intros k Hk. rewrite rd_xm; auto.
  - intros k Hk. rewrite rd_xn; auto.
  - intros k Hk. rewrite rd_xmq; auto.
  - intros k Hk. rewrite rd_xnq; auto.
  - intros k Hk. rewrite rd_surf; auto.
Qed.
Lemma only_input prec emax pi cos_ sin' e (X : cell -> Prop) x a : X = only x -> conv1 (S := IEEE prec emax pi cos_ sin') (sf_is prec emax) e x a ->
  input (FMA prec emax pi cos_ sin') (uses prec emax) e X a.
Proof.
  intros -> (c & Vc & Bc). split; [apply (use_any prec emax _ (plain x)); reflexivity|]. intros w Hw. exists c. split; [|exact Bc].
  destruct Hw as [y d -> D|y p q a1 d -> E _ _|y -> N|y p q -> E _]; cbn in *; try discriminate.
  - f_equal. eapply is_fun; eauto.
  - exfalso. eapply N; eauto.
Qed.
Lemma only_alike prec emax pi cos_ sin' e (i' : Inp (FMA prec emax pi cos_ sin')) (i0 : Inp (IEEE prec emax pi cos_ sin')) (i : Inp RS) :
  alike (FMA prec emax pi cos_ sin') (IEEE prec emax pi cos_ sin') (fun X x => X = only x) i' i0 ->
  rounded (S := IEEE prec emax pi cos_ sin') (sf_is prec emax) e i0 i ->
  alike (FMA prec emax pi cos_ sin') RS (input (FMA prec emax pi cos_ sin') (uses prec emax) e) i' i.
Proof.
  intros H1 H2. apply rounded_alike in H2. revert H2 H1. apply alike_trans. intros X x a. apply only_input.
Qed.
Lemma big_M M0 emax : (Z.max 1 (Rdefinitions.up M0 + 1) <= emax)%Z -> M0 <= b (emax - 1).
Proof.
  intros HE. destruct (archimed M0) as (A1 & _). assert (Hk : (Rdefinitions.up M0 <= emax - 1)%Z) by lia. apply IZR_le in Hk.
  assert (T : IZR (emax - 1) <= b (emax - 1)); [|lra].
  rewrite b_Z by lia. apply IZR_le. assert (emax - 1 < 2 ^ (emax - 1))%Z by (apply Z.pow_gt_lin_r; lia). lia.
Qed.

Theorem fma_errors : forall (o : obj RS) i l, valid o i -> nfp_divides i -> incl l (outs (asym i)) ->
  exists r ev, run_ok o r ev /\
  ((forall j I G, (0 <= j < nsurf i)%Z -> elem r A_Boozer_I j = Some (Some I) -> elem r A_Boozer_G j = Some (Some G) ->
      G + iota i (surf i j) * I <> 0) ->
   (In A_gmnc_b l \/ In A_gmns_b l -> forall j a b, (0 <= j < nsurf i)%Z -> (0 <= a < nt i)%Z -> (0 <= b < nz i)%Z ->
      mB i (surf i j) (gth i a) (gze i b) <> 0) ->
   exists C e0 E0, 0 < e0 /\
   forall prec emax pi cos_ sin' e, (2 <= prec)%Z -> (prec < emax)%Z -> (E0 <= emax)%Z ->
   sf_eps prec <= e -> e <= e0 -> libm_ok prec emax pi cos_ sin' e ->
   forall (i0 : Inp (IEEE prec emax pi cos_ sin')) (i' : Inp (FMA prec emax pi cos_ sin')) o',
   rounded (S := IEEE prec emax pi cos_ sin') (sf_is prec emax) e i0 i ->
   alike (FMA prec emax pi cos_ sin') (IEEE prec emax pi cos_ sin') (fun X x => X = only x) i' i0 -> valid o' i' ->
   exists r' ev', run_ok o' r' ev' /\
     (forall f j, In f [A_Boozer_I; A_Boozer_G] -> (0 <= j < nsurf i)%Z -> exists X y,
        elem r f j = Some (Some y) /\ elem r' f j = Some (Some X) /\ (exists x, X x) /\
        forall x, X x -> exists c, sf_is prec emax (fst x) c /\ Rabs (c - y) <= C * e) /\
     (forall f k j, In f l -> (0 <= k < mnboz i)%Z -> (0 <= j < nsurf i)%Z -> exists X y,
        elem2 r f k j = Some (Some y) /\ elem2 r' f k j = Some (Some X) /\ (exists x, X x) /\
        forall x, X x -> exists c, sf_is prec emax (fst x) c /\ Rabs (c - y) <= C * e)).
Proof.
  intros o i l V Hd Hl. destruct (loose_errors o i l V Hd Hl) as (r & ev & Rr & H). exists r, ev. split; [exact Rr|].
  intros HD HB. destruct (H HD HB) as (C & e0 & M0 & He0 & N).
  exists C, e0, (Z.max 1 (Rdefinitions.up M0 + 1))%Z. split; [exact He0|].
  intros prec emax pi cos_ sin' e Hp Hm HE He1 He2 HL i0 i' o' Hr Ha V'.
  destruct (N (FMA prec emax pi cos_ sin') (uses prec emax) e (b (emax - 1)) i' o') as (r' & ev' & Rr' & T1 & T2); auto.
  { now apply FMA_loose. } { now apply big_M. } { exact (only_alike prec emax pi cos_ sin' e i' i0 i Ha Hr). }
  assert (K : forall (X : cell -> Prop) y, some (FMA prec emax pi cos_ sin') (uses prec emax) X ->
     (forall w, uses prec emax X w -> exists c, w = Some c /\ Rabs (c - y) <= C * e) ->
     (exists x, X x) /\ forall x, X x -> exists c, sf_is prec emax (fst x) c /\ Rabs (c - y) <= C * e).
  { intros X y Sx Hx. split; [now apply some_any in Sx|]. intros x Xx. destruct (use_self prec emax X x Xx) as [(c & Ic & Uc)|(_ & Un)].
    - exists c. split; [exact Ic|]. destruct (Hx _ Uc) as (d & E & B). now injection E as <-.
    - destruct (Hx _ Un) as (d & E & _). discriminate. }
  exists r', ev'. split; [exact Rr'|]. split.
  - intros f j Hf Hj. destruct (T1 f j Hf Hj) as (X & y & Ey & Ex & Sx & Hx). exists X, y. split; [exact Ey|]. split; [exact Ex|]. now apply K.
  - intros f k j Hf Hk Hj. destruct (T2 f k j Hf Hk Hj) as (X & y & Ey & Ex & Sx & Hx). exists X, y. split; [exact Ey|]. split; [exact Ex|]. now apply K.
Qed.

(** ** One way of contracting *)
Definition contracts prec emax (add sub : cell -> cell -> cell) : Prop :=
  forall x y, sums prec emax x y (add x y) /\ diffs prec emax x y (sub x y).
Section One.
Variables (prec emax : Z) (pi : spec_float) (cos_ sin' : spec_float -> spec_float) (add sub : cell -> cell -> cell).
Hypothesis HC : contracts prec emax add sub.
Notation I0 := (IEEE prec emax pi cos_ sin').
Notation I1 := (FMA prec emax pi cos_ sin').
Notation I2 := (CONTRACT prec emax pi cos_ sin' add sub).
Lemma sim_member : simul I1 I2 (fun X x => X x) (fun _ => True).
Proof.
  constructor; cbn; auto; intros.
  - exists a, b. repeat split; auto. apply HC.
  - exists a, b. repeat split; auto. apply HC.
  - exists a, b. auto.
  - exists a, b. auto.
  - exists a. auto.
  - exists a. auto.
  - exists a. auto.
  - reflexivity.
  - reflexivity.
  - reflexivity.
Qed.
Definition one1 (f : Z -> spec_float) : Z -> F I1 := fun j => only (f j).
Definition one2 (f : Z -> Z -> spec_float) : Z -> Z -> F I1 := fun k j => only (f k j).
Definition only_inp (i : Inp I0) : Inp I1 :=
  mkInp I1 (asym i) (nfp i) (mpol i) (ntor i) (mnmax i) (mpolq i) (ntorq i) (mnmaxq i) (nsin i) (mboz i) (nboz i) (verb i)
    (xm i) (xn i) (xmq i) (xnq i) (nsurf i) (surf i) (one1 (sin_ i)) (one1 (iota i))
    (one2 (rmnc i)) (one2 (zmns i)) (one2 (lmns i)) (one2 (bmnc i)) (one2 (bsubumnc i)) (one2 (bsubvmnc i))
    (one2 (rmns i)) (one2 (zmnc i)) (one2 (lmnc i)) (one2 (bmns i)) (one2 (bsubumns i)) (one2 (bsubvmns i)).
Lemma only_ok i : ok_inp i -> ok_inp (only_inp i). Proof. intros []. constructor; assumption. Qed.
Lemma only_self i : alike I1 I0 (fun X x => X = only x) (only_inp i) i.
Proof. constructor; try reflexivity; try (intros; reflexivity); try (intros _); intros; try intros k j' Hk Hj; reflexivity. Qed.
(** the other way round *)
Lemma alike_sym (S T : Scalar) (r : F S -> F T -> Prop) i' i : alike S T r i' i -> alike T S (fun a x => r x a) i i'.
Proof.
  intros [D1 D2 D3 D4 D5 D6 D7 D8 D9 D10 D11 D12 D13 D14 D15 D16 D17 D18 D19 D20 D21 D22 D23 D24 D25 D26].
  assert (Two : forall n1 m1 n2 m2 x a, rel2 S T r n1 m1 x a -> n2 = n1 -> m2 = m1 -> rel2 T S (fun a x => r x a) n2 m2 a x).
  { intros n1 m1 n2 m2 x a H1 -> -> k j Hk Hj. now apply H1. }
  constructor; try (symmetry; assumption).
  - intros k Hk. symmetry. apply D9. lia.
  - intros k Hk. symmetry. apply D10. lia.
  - intros k Hk. symmetry. apply D11. lia.
  - intros k Hk. symmetry. apply D12. lia.
  - intros k Hk. symmetry. apply D13. lia.
  - intros k Hk. apply D14. lia.
  - exact (Two _ _ _ _ _ _ D15 D3 D5).
  - exact (Two _ _ _ _ _ _ D16 D3 D5).
  - exact (Two _ _ _ _ _ _ D17 D3 D5).
  - exact (Two _ _ _ _ _ _ D18 D4 D5).
  - exact (Two _ _ _ _ _ _ D19 D4 D5).
  - exact (Two _ _ _ _ _ _ D20 D4 D5).
  - intros As. assert (As' : asym i = true) by congruence. exact (Two _ _ _ _ _ _ (D21 As') D3 D5).
  - intros As. assert (As' : asym i = true) by congruence. exact (Two _ _ _ _ _ _ (D22 As') D3 D5).
  - intros As. assert (As' : asym i = true) by congruence. exact (Two _ _ _ _ _ _ (D23 As') D3 D5).
  - intros As. assert (As' : asym i = true) by congruence. exact (Two _ _ _ _ _ _ (D24 As') D4 D5).
  - intros As. assert (As' : asym i = true) by congruence. exact (Two _ _ _ _ _ _ (D25 As') D4 D5).
  - intros As. assert (As' : asym i = true) by congruence. exact (Two _ _ _ _ _ _ (D26 As') D4 D5).
Qed.
End One.

(** what a relation preserved by the operations says about the results of two runs *)
Theorem sim_runs (S T : Scalar) (rel : F S -> F T -> Prop) : simul S T rel (fun _ => True) ->
  forall (i' : Inp S) (i : Inp T) o' o, alike S T rel i' i -> valid o' i' -> valid o i ->
  exists r ev r' ev', run_ok o r ev /\ run_ok o' r' ev' /\
    (forall f j, In f [A_Boozer_I; A_Boozer_G] -> (0 <= j < nsurf i)%Z -> exists x y,
       elem r f j = Some (Some y) /\ elem r' f j = Some (Some x) /\ rel x y) /\
    (forall f k j, In f (outs (asym i)) -> (0 <= k < mnboz i)%Z -> (0 <= j < nsurf i)%Z -> exists x y,
       elem2 r f k j = Some (Some y) /\ elem2 r' f k j = Some (Some x) /\ rel x y).
Proof.
  intros Sm i' i o' o Al V' V.
  destruct (run_total o i V) as (r & Rr & _ & _ & _ & Q & _). destruct (run_total o' i' V') as (r' & Rr' & _ & _ & _ & Q' & _).
  exists r, (run_events T i), r', (run_events S i'). split; [exact Rr|]. split; [exact Rr'|].
  destruct V as (Hok & _ & _). pose proof (ok_surf _ _ Hok) as Hs.
  assert (Ens : nsurf i' = nsurf i) by apply Al. assert (Emn : mnboz i' = mnboz i) by (unfold mnboz; destruct Al; congruence).
  assert (Eas : asym i' = asym i) by apply Al. assert (Es : forall j, (0 <= j < nsurf i)%Z -> surf i' j = surf i j) by (apply Al).
  split.
  - intros f j Hf Hj. cbn [In] in Hf. destruct Hf as [<-|[<-|[]]].
    + exists (bI i' (surf i' j)), (bI i (surf i j)). split; [now apply (elem_vec _ _ _ (fun k => bI i (surf i k)) _ (q_I _ _ _ Q))|].
      split; [apply (elem_vec _ _ _ (fun k => bI i' (surf i' k)) _ (q_I _ _ _ Q')); lia|]. rewrite Es by auto.
      exact (s_bI _ _ _ _ Sm _ _ Al (surf i j) (Hs j Hj)).
    + exists (bG i' (surf i' j)), (bG i (surf i j)). split; [now apply (elem_vec _ _ _ (fun k => bG i (surf i k)) _ (q_G _ _ _ Q))|].
      split; [apply (elem_vec _ _ _ (fun k => bG i' (surf i' k)) _ (q_G _ _ _ Q')); lia|]. rewrite Es by auto.
      exact (s_bG _ _ _ _ Sm _ _ Al (surf i j) (Hs j Hj)).
  - intros f k j Hf Hk Hj. exists (o_coef i' (surf i' j) f k), (o_coef i (surf i j) f k).
    split; [apply (elem2_mat _ _ _ _ (fun k b => o_coef i (surf i b) f k) _ _ (q_out _ _ _ Q f Hf)); auto|].
    split; [apply (elem2_mat _ _ _ _ (fun k b => o_coef i' (surf i' b) f k) _ _ (q_out _ _ _ Q' f ltac:(rewrite Eas; exact Hf))); lia|].
    rewrite Es by auto.
    assert (Ft : In f (outs true)) by (destruct (asym i); [exact Hf|]; cbn [outs]; now apply in_or_app; left).
    apply (s_coef _ _ _ _ Sm _ _ Al Hok (surf i j) (Hs j Hj) I f k Ft). auto.
Qed.

Theorem contracted : forall (o : obj RS) i l, valid o i -> nfp_divides i -> incl l (outs (asym i)) ->
  exists r ev, run_ok o r ev /\
  ((forall j I G, (0 <= j < nsurf i)%Z -> elem r A_Boozer_I j = Some (Some I) -> elem r A_Boozer_G j = Some (Some G) ->
      G + iota i (surf i j) * I <> 0) ->
   (In A_gmnc_b l \/ In A_gmns_b l -> forall j a b, (0 <= j < nsurf i)%Z -> (0 <= a < nt i)%Z -> (0 <= b < nz i)%Z ->
      mB i (surf i j) (gth i a) (gze i b) <> 0) ->
   exists C e0 E0, 0 < e0 /\
   forall prec emax pi cos_ sin' e, (2 <= prec)%Z -> (prec < emax)%Z -> (E0 <= emax)%Z ->
   sf_eps prec <= e -> e <= e0 -> libm_ok prec emax pi cos_ sin' e ->
   forall add sub, contracts prec emax add sub ->
   forall (i0 : Inp (IEEE prec emax pi cos_ sin')) (i' : Inp (CONTRACT prec emax pi cos_ sin' add sub)) o',
   rounded (S := IEEE prec emax pi cos_ sin') (sf_is prec emax) e i0 i ->
   alike (CONTRACT prec emax pi cos_ sin' add sub) (IEEE prec emax pi cos_ sin') (fun c x => c = plain x) i' i0 -> valid o' i' ->
   exists r' ev', run_ok o' r' ev' /\
     (forall f j, In f [A_Boozer_I; A_Boozer_G] -> (0 <= j < nsurf i)%Z -> exists x y c,
        elem r f j = Some (Some y) /\ elem r' f j = Some (Some x) /\ sf_is prec emax (fst x) c /\ Rabs (c - y) <= C * e) /\
     (forall f k j, In f l -> (0 <= k < mnboz i)%Z -> (0 <= j < nsurf i)%Z -> exists x y c,
        elem2 r f k j = Some (Some y) /\ elem2 r' f k j = Some (Some x) /\ sf_is prec emax (fst x) c /\ Rabs (c - y) <= C * e)).
Proof.
  intros o i l V Hd Hl. destruct (fma_errors o i l V Hd Hl) as (r & ev & Rr & H). exists r, ev. split; [exact Rr|].
  intros HD HB. destruct (H HD HB) as (C & e0 & E0 & He0 & N). exists C, e0, E0. split; [exact He0|].
  intros prec emax pi cos_ sin' e Hp Hm HE He1 He2 HL add sub HC i0 i' o' Hr Ha V'.
  assert (Ok0 : ok_inp i0).
  { destruct V as (Ok & _ & _). exact (rounded_ok _ _ _ _ _ Hr Ok). }
  set (i1 := only_inp prec emax pi cos_ sin' i0). pose proof (only_ok prec emax pi cos_ sin' i0 Ok0) as Ok1. fold i1 in Ok1.
  pose proof (ok_valid _ _ Ok1) as V1.
  destruct (N prec emax pi cos_ sin' e Hp Hm HE He1 He2 HL i0 i1 (obj_of i1) Hr (only_self prec emax pi cos_ sin' i0) V1) as (r1 & ev1 & R1 & T1 & T2).
  assert (Al : alike (FMA prec emax pi cos_ sin') (CONTRACT prec emax pi cos_ sin' add sub) (fun X x => X x) i1 i').
  { pose proof (only_self prec emax pi cos_ sin' i0) as Hs. fold i1 in Hs. pose proof (alike_sym _ _ _ _ _ Ha) as Ha'. revert Ha' Hs.
    apply alike_trans. intros X x c -> ->. reflexivity. }
  destruct (sim_runs _ _ _ (sim_member prec emax pi cos_ sin' add sub HC) i1 i' (obj_of i1) o' Al V1 V') as (r' & ev' & r1' & ev1' & R' & R1' & U1 & U2).
  assert (Er : r1' = r1) by (unfold run_ok in R1, R1'; rewrite R1 in R1'; injection R1' as -> _; reflexivity). subst r1'.
  assert (A1 : asym i' = asym i) by (destruct Ha, Hr; congruence). assert (A2 : nsurf i' = nsurf i) by (destruct Ha, Hr; congruence).
  assert (A3 : mnboz i' = mnboz i) by (unfold mnboz; destruct Ha, Hr; congruence).
  exists r', ev'. split; [exact R'|]. split.
  - intros f j Hf Hj. destruct (T1 f j Hf Hj) as (X & y & Ey & EX & _ & HX). destruct (U1 f j Hf ltac:(lia)) as (X' & x & Ex & EX' & Hx).
    rewrite EX in EX'. injection EX' as <-. destruct (HX x Hx) as (c & Ic & Bc). exists x, y, c. auto.
  - intros f k j Hf Hk Hj. destruct (T2 f k j Hf Hk Hj) as (X & y & Ey & EX & _ & HX).
    destruct (U2 f k j ltac:(rewrite A1; exact (Hl f Hf)) ltac:(lia) ltac:(lia)) as (X' & x & Ex & EX' & Hx).
    rewrite EX in EX'. injection EX' as <-. destruct (HX x Hx) as (c & Ic & Bc). exists x, y, c. auto.
Qed.
