(** C77: a run in the arithmetic of Cert.v bounds the rounding errors of the run in any
    accurate arithmetic. *)
From Coq Require Import ZArith QArith List String Bool Lia Reals Lra Psatz Qreals Floats.SpecFloat.
From Verif Require Import Scalar Prog Model Wp Func Step TrigProof InitProof SurfProof RunProof Par FuncExt Spec RunThms
  RSum RSpec RThms RExamples RoundSpec Round Sim Cert CertProof Ieee IeeeProof.
Import ListNotations.
Local Open Scope Z_scope.
Local Open Scope R_scope.

(** A number q of [CERT] knows the real number a and what it is rounded to as an input *)
Definition knows (p : Z) (er : R) (a : R) (q : num) : Prop :=
  match q with
  | None => True
  | Some (m, r, E) => Rabs (a * IZR (2 ^ p) - IZR m) <= IZR r /\ er * (1 + Rabs a) * IZR (2 ^ p) <= IZR E
  end.
(** the inputs q do so for the inputs i, with the same modes and resolution *)
Definition covers (p e M pi : Z) (n : nat) (er : R) (i : Inp RS) (q : Inp (CERT p e M pi n)) : Prop :=
  alike RS (CERT p e M pi n) (knows p er) i q.

(** ** Two arithmetics side by side *)
Definition both (S : Scalar) : Scalar := {|
  F := (F S * R)%type;
  fadd := fun x y => (fadd S (fst x) (fst y), snd x + snd y);
  fsub := fun x y => (fsub S (fst x) (fst y), snd x - snd y);
  fmul := fun x y => (fmul S (fst x) (fst y), snd x * snd y);
  fdiv := fun x y => (fdiv S (fst x) (fst y), snd x / snd y);
  fneg := fun x => (fneg S (fst x), - snd x);
  fofZ := fun z => (fofZ S z, IZR z); flit := fun q => (flit S q, Q2R q); fpi := (fpi S, PI);
  fsqrt := fun x => (fsqrt S (fst x), sqrt (snd x));
  fcos := fun x => (fcos S (fst x), cos (snd x)); fsin := fun x => (fsin S (fst x), sin (snd x));
  fabs := fun x => (fabs S (fst x), Rabs (snd x)); flt := fun x y => flt S (fst x) (fst y); ftoZ := fun x => ftoZ S (fst x)
|}.
Lemma sim_fst S : simul S (both S) (fun x y => x = fst y) (fun _ => True).
Proof. constructor; cbn; intros; subst; auto. Qed.
Lemma sim_snd S : simul RS (both S) (fun x y => x = snd y) (fun _ => True).
Proof. constructor; cbn; intros; subst; auto. Qed.
Section Sim3.
Variables (p e M pi : Z) (n : nat) (S : Scalar) (v : F S -> R -> Prop) (er Mr : R).
Hypothesis Hp : (0 <= p)%Z.
Hypothesis HA : accurate S v er Mr.
Hypothesis He : er * IZR (2 ^ p) <= IZR e.
Hypothesis HM : IZR M <= Mr * IZR (2 ^ p).
Notation C := (CERT p e M pi n).
Lemma sim_cert : simul (both S) C (fun x q => good p S v (fst x) (snd x) q) (fun _ => True).
Proof.
  constructor; cbn [both CERT fadd fsub fmul fdiv fneg fcos fsin fofZ flit fpi fst snd]; auto; intros.
  - eapply good_add; eauto.
  - eapply good_sub; eauto.
  - eapply good_mul; eauto.
  - eapply good_div; eauto.
  - eapply good_neg; eauto.
  - eapply good_cos; eauto.
  - eapply good_sin; eauto.
  - eapply good_ofZ; eauto.
  - eapply good_lit; eauto.
  - eapply good_pi; eauto.
Qed.
Definition zip1 (x : Z -> F S) (a : Z -> R) : Z -> F (both S) := fun k => (x k, a k).
Definition zip2 (x : Z -> Z -> F S) (a : Z -> Z -> R) : Z -> Z -> F (both S) := fun k j => (x k j, a k j).
Definition zip (i' : Inp S) (i : Inp RS) : Inp (both S) :=
  mkInp (both S) (asym i) (nfp i) (mpol i) (ntor i) (mnmax i) (mpolq i) (ntorq i) (mnmaxq i) (nsin i) (mboz i) (nboz i) (verb i)
    (xm i) (xn i) (xmq i) (xnq i) (nsurf i) (surf i) (zip1 (sin_ i') (sin_ i)) (zip1 (iota i') (iota i))
    (zip2 (rmnc i') (rmnc i)) (zip2 (zmns i') (zmns i)) (zip2 (lmns i') (lmns i)) (zip2 (bmnc i') (bmnc i)) (zip2 (bsubumnc i') (bsubumnc i)) (zip2 (bsubvmnc i') (bsubvmnc i))
    (zip2 (rmns i') (rmns i)) (zip2 (zmnc i') (zmnc i)) (zip2 (lmnc i') (lmnc i)) (zip2 (bmns i') (bmns i)) (zip2 (bsubumns i') (bsubumns i)) (zip2 (bsubvmns i') (bsubvmns i)).
Lemma zip_ok i' i : ok_inp i -> ok_inp (zip i' i). Proof. intros []. constructor; assumption. Qed.
Variables (i' : Inp S) (i : Inp RS) (q : Inp C).
Hypothesis Hr : rounded v er i' i.
Lemma alike_fst : alike S (both S) (fun x y => x = fst y) i' (zip i' i).
Proof. destruct Hr. constructor; cbn; auto; try (intros; reflexivity); try (intros _); intros k j Hk Hj; reflexivity. Qed.
Lemma alike_snd : alike RS (both S) (fun x y => x = snd y) i (zip i' i).
Proof. constructor; cbn; auto; try (intros; reflexivity); try (intros _); intros k j Hk Hj; reflexivity. Qed.
Hypothesis Hc : covers p e M pi n er i q.
Lemma knows_good x a y : conv1 v er x a -> knows p er a y -> good p S v x a y.
Proof.
  intros (c & Vc & Bc). unfold knows, good. destruct y as [((m & r) & E)|]; auto. intros (H1 & H2). split; [exact H1|].
  exists c. split; [exact Vc|]. eapply Rle_trans; [apply Rmult_le_compat_r; [apply Rlt_le, B_pos; exact Hp|exact Bc]|]. exact H2.
Qed.
Lemma alike_cert : alike (both S) C (fun x y => good p S v (fst x) (snd x) y) (zip i' i) q.
Proof.
  destruct Hr as [R1 R2 R3 R4 R5 R6 R7 R8 R9 R10 R11 R12 R13 R14 R15 R16 R17 R18 R19 R20 R21 R22 R23 R24 R25 R26 R27 R28 R29 R30].
  destruct Hc as [C1 C2 C3 C4 C5 C6 C7 C8 C9 C10 C11 C12 C13 C14 C15 C16 C17 C18 C19 C20 C21 C22 C23 C24 C25 C26].
  assert (Two : forall n1 m1 n2 m2 x a y, conv v er n1 m1 x a -> rel2 RS C (knows p er) n2 m2 a y -> n2 = n1 -> m2 = m1 ->
    rel2 (both S) C (fun x y => good p S v (fst x) (snd x) y) n2 m2 (zip2 x a) y).
  { intros n1 m1 n2 m2 x a y H1 H2 -> -> k j Hk Hj. apply knows_good; [now apply H1|now apply H2]. }
  constructor; cbn [zip asym nfp mnmax mnmaxq nsin mboz nboz nsurf xm xn xmq xnq surf iota rmnc zmns lmns bmnc bsubumnc bsubvmnc rmns zmnc lmnc bmns bsubumns bsubvmns]; auto.
  - intros j Hj. apply knows_good; [apply R18; lia|now apply C14].
  - exact (Two _ _ _ _ _ _ _ R19 C15 (eq_sym C3) (eq_sym C5)).
  - exact (Two _ _ _ _ _ _ _ R20 C16 (eq_sym C3) (eq_sym C5)).
  - exact (Two _ _ _ _ _ _ _ R21 C17 (eq_sym C3) (eq_sym C5)).
  - exact (Two _ _ _ _ _ _ _ R22 C18 (eq_sym C4) (eq_sym C5)).
  - exact (Two _ _ _ _ _ _ _ R23 C19 (eq_sym C4) (eq_sym C5)).
  - exact (Two _ _ _ _ _ _ _ R24 C20 (eq_sym C4) (eq_sym C5)).
  - intros As. assert (As' : asym i = true) by congruence. exact (Two _ _ _ _ _ _ _ (R25 As') (C21 As) (eq_sym C3) (eq_sym C5)).
  - intros As. assert (As' : asym i = true) by congruence. exact (Two _ _ _ _ _ _ _ (R26 As') (C22 As) (eq_sym C3) (eq_sym C5)).
  - intros As. assert (As' : asym i = true) by congruence. exact (Two _ _ _ _ _ _ _ (R27 As') (C23 As) (eq_sym C3) (eq_sym C5)).
  - intros As. assert (As' : asym i = true) by congruence. exact (Two _ _ _ _ _ _ _ (R28 As') (C24 As) (eq_sym C4) (eq_sym C5)).
  - intros As. assert (As' : asym i = true) by congruence. exact (Two _ _ _ _ _ _ _ (R29 As') (C25 As) (eq_sym C4) (eq_sym C5)).
  - intros As. assert (As' : asym i = true) by congruence. exact (Two _ _ _ _ _ _ _ (R30 As') (C26 As) (eq_sym C4) (eq_sym C5)).
Qed.
End Sim3.

Theorem certified : forall p e M pi n (S : Scalar) v er Mr (i : Inp RS) (i' : Inp S) (q : Inp (CERT p e M pi n)) o o' oq,
  (0 <= p)%Z -> accurate S v er Mr -> er * IZR (2 ^ p) <= IZR e -> IZR M <= Mr * IZR (2 ^ p) ->
  rounded v er i' i -> covers p e M pi n er i q -> valid o i -> valid o' i' -> valid oq q ->
  exists r ev r' ev' rq evq, run_ok o r ev /\ run_ok o' r' ev' /\ run_ok oq rq evq /\
    (forall f j, In f [A_Boozer_I; A_Boozer_G] -> (0 <= j < nsurf i)%Z -> exists y x z,
       elem r f j = Some (Some y) /\ elem r' f j = Some (Some x) /\ elem rq f j = Some (Some z) /\
       forall m rad E, z = Some (m, rad, E) ->
         Rabs (y * IZR (2 ^ p) - IZR m) <= IZR rad /\ exists c, v x c /\ Rabs (c - y) * IZR (2 ^ p) <= IZR E) /\
    (forall f k j, In f (outs (asym i)) -> (0 <= k < mnboz i)%Z -> (0 <= j < nsurf i)%Z -> exists y x z,
       elem2 r f k j = Some (Some y) /\ elem2 r' f k j = Some (Some x) /\ elem2 rq f k j = Some (Some z) /\
       forall m rad E, z = Some (m, rad, E) ->
         Rabs (y * IZR (2 ^ p) - IZR m) <= IZR rad /\ exists c, v x c /\ Rabs (c - y) * IZR (2 ^ p) <= IZR E).
Proof.
  intros p e M pi n S v er Mr i i' q o o' oq Hp HA He HM Hr Hc V V' Vq.
  destruct (run_total o i V) as (r & Rr & _ & _ & _ & Q & _). destruct (run_total o' i' V') as (r' & Rr' & _ & _ & _ & Q' & _).
  destruct (run_total oq q Vq) as (rq & Rq & _ & _ & _ & Qq & _).
  exists r, (run_events RS i), r', (run_events S i'), rq, (run_events _ q). split; [exact Rr|]. split; [exact Rr'|]. split; [exact Rq|].
  destruct V as (Hok & _ & _). destruct Vq as (Hokq & _ & _).
  pose proof (zip_ok S i' i Hok) as Hokz.
  pose proof (alike_fst S v er i' i Hr) as A1. pose proof (alike_snd S i' i) as A2.
  pose proof (alike_cert p e M pi n S v er Hp i' i q Hr Hc) as A3.
  pose proof (sim_cert p e M pi n S v er Mr Hp HA He HM) as S3.
  assert (E1 : nsurf i' = nsurf i) by apply Hr. assert (E2 : nsurf q = nsurf i) by (symmetry; apply Hc).
  assert (E3 : mnboz i' = mnboz i) by (unfold mnboz; destruct Hr; congruence).
  assert (E4 : mnboz q = mnboz i) by (destruct Hc; unfold mnboz; congruence).
  assert (E5 : asym i' = asym i) by apply Hr. assert (E6 : asym q = asym i) by (symmetry; apply Hc).
  pose proof (ok_surf _ _ Hok) as Hs. 
  assert (Es : forall j, (0 <= j < nsurf i)%Z -> surf i' j = surf i j) by (apply Hr).
  assert (Eq : forall j, (0 <= j < nsurf i)%Z -> surf q j = surf i j) by (intros j Hj; symmetry; apply Hc; lia).
  assert (K : forall (x : F S) y z, good p S v x y z -> forall m rad E, z = Some (m, rad, E) ->
         Rabs (y * IZR (2 ^ p) - IZR m) <= IZR rad /\ exists c, v x c /\ Rabs (c - y) * IZR (2 ^ p) <= IZR E).
  { intros x y z G m rad E ->. exact G. }
  split.
  - intros f j Hf Hj. cbn [In] in Hf. assert (Hz : (0 <= surf i j < nsin (zip S i' i))%Z) by (now apply Hs).
    assert (Hq : (0 <= surf i j < nsin q)%Z) by (rewrite <- (al_nsin _ _ _ _ _ Hc); now apply Hs).
    destruct Hf as [<-|[<-|[]]].
    + exists (bI i (surf i j)), (bI i' (surf i' j)), (bI q (surf q j)). split; [now apply (elem_vec _ _ _ (fun k => bI i (surf i k)) _ (q_I _ _ _ Q))|].
      split; [apply (elem_vec _ _ _ (fun k => bI i' (surf i' k)) _ (q_I _ _ _ Q')); lia|].
      split; [apply (elem_vec _ _ _ (fun k => bI q (surf q k)) _ (q_I _ _ _ Qq)); lia|]. rewrite Es, Eq by auto. apply K.
      rewrite (s_bI _ _ _ _ (sim_fst S) _ _ A1 (surf i j) Hz), (s_bI _ _ _ _ (sim_snd S) _ _ A2 (surf i j) Hz).
      exact (s_bI _ _ _ _ S3 _ _ A3 (surf i j) Hq).
    + exists (bG i (surf i j)), (bG i' (surf i' j)), (bG q (surf q j)). split; [now apply (elem_vec _ _ _ (fun k => bG i (surf i k)) _ (q_G _ _ _ Q))|].
      split; [apply (elem_vec _ _ _ (fun k => bG i' (surf i' k)) _ (q_G _ _ _ Q')); lia|].
      split; [apply (elem_vec _ _ _ (fun k => bG q (surf q k)) _ (q_G _ _ _ Qq)); lia|]. rewrite Es, Eq by auto. apply K.
      rewrite (s_bG _ _ _ _ (sim_fst S) _ _ A1 (surf i j) Hz), (s_bG _ _ _ _ (sim_snd S) _ _ A2 (surf i j) Hz).
      exact (s_bG _ _ _ _ S3 _ _ A3 (surf i j) Hq).
  - intros f k j Hf Hk Hj. assert (Hz : (0 <= surf i j < nsin (zip S i' i))%Z) by (now apply Hs).
    assert (Hq : (0 <= surf i j < nsin q)%Z) by (rewrite <- (al_nsin _ _ _ _ _ Hc); now apply Hs).
    exists (o_coef i (surf i j) f k), (o_coef i' (surf i' j) f k), (o_coef q (surf q j) f k).
    split; [apply (elem2_mat _ _ _ _ (fun k b => o_coef i (surf i b) f k) _ _ (q_out _ _ _ Q f Hf)); auto|].
    split; [apply (elem2_mat _ _ _ _ (fun k b => o_coef i' (surf i' b) f k) _ _ (q_out _ _ _ Q' f ltac:(rewrite E5; exact Hf))); lia|].
    split; [apply (elem2_mat _ _ _ _ (fun k b => o_coef q (surf q b) f k) _ _ (q_out _ _ _ Qq f ltac:(rewrite E6; exact Hf))); lia|].
    rewrite Es, Eq by auto. apply K.
    assert (Ft : In f (outs true)) by (destruct (asym i); [exact Hf|]; cbn [outs]; now apply in_or_app; left).
    rewrite (s_coef _ _ _ _ (sim_fst S) _ _ A1 Hokz (surf i j) Hz I f k Ft) by auto.
    rewrite (s_coef _ _ _ _ (sim_snd S) _ _ A2 Hokz (surf i j) Hz I f k Ft) by auto.
    apply (s_coef _ _ _ _ S3 _ _ A3 Hokq (surf i j) Hq I f k Ft). auto.
Qed.
