(** Cases for RSymm.v; the accuracy check for a field given in Boozer coordinates. *)
From Coq Require Import ZArith QArith List String Bool Lia Reals Lra Psatz.
From Verif Require Import Scalar Prog Model Wp Func Step TrigProof InitProof SurfProof RunProof Par FuncExt Spec RunThms
  RSum RSpec RPoint RQuad RThms RThms2 RThms3 RExamples Vmec VmecSpec Nc NcModel NcSpec NcVoc NcThms NcThms2 NcThms3 NcThms4
  Plots PlotSpec PlotProof PlotWire PlotThms PlotReal PlotReal2 REquiv RSymm.
Import ListNotations.
Local Open Scope Z_scope.
Local Open Scope R_scope.

(** ** The accuracy check *)
Theorem no_error : forall (o : obj RS) i, valid o i ->
  resolved i (mnmax i) (xm i) (xn i) -> resolved i (mnmaxq i) (xmq i) (xnq i) -> (0 < verb i)%Z ->
  exists o' ev line, run_ok o o' ev /\ filter is_acc ev = map line (zseq 0 (Z.to_nat (nsurf i))) /\
  forall b, (0 <= b < nsurf i)%Z -> in_boozer i (surf i b) ->
    bG i (surf i b) + iota i (surf i b) * bI i (surf i b) <> 0 ->
    let bs := map (fun p => mB i (surf i b) (fst p) (snd p)) (sym_points i) in
    line b = @mkEv RS "accuracy" [b; surf i b] (bs ++ bs ++ [0; 0; 0; 0]).
Proof.
  intros o i V R1 R2 Hv. pose proof V as (Hok & Rp & _).
  assert (Hd : nfp_divides i) by (split; intros k Hk; [apply (R1 k Hk)|apply (R2 k Hk)]).
  destruct (accuracy_report o i V Hd Hv) as (o' & ev & E & line & El & H).
  exists o', ev, line. split; [exact E|]. split; [exact El|].
  destruct (identity_functions o i V R1 R2) as (o2 & ev2 & W & E2 & _ & Sh & HI).
  unfold run_ok in E, E2. rewrite E2 in E. injection E as -> ->. 
  intros b Hb HB Hne. destruct (H b Hb) as (js & I & G & ms & ns & c & s & Ej & EI & EG & Ek & Eq & Z1 & _).
  rewrite (elemN_vec _ _ _ _ b (r_surf _ _ _ Rp) Hb) in Ej. injection Ej as <-.
  specialize (HI b Hb HB Hne). cbv zeta in HI.
  assert (Rec : forall t z, series (mnboz i) ms ns c (onA (asym i) s) t z = mB i (surf i b) t z).
  { intros t z. destruct (HI t z) as (<- & _). unfold sB, series. apply rsum_ext. intros k Hk.
    destruct (Ek k Hk) as (A1 & A2 & A3 & A4).
    rewrite (elemN_vec _ _ _ _ k (sh_xm _ _ _ _ _ _ _ _ _ Sh) Hk) in A1. injection A1 as <-.
    rewrite (elemN_vec _ _ _ _ k (sh_xn _ _ _ _ _ _ _ _ _ Sh) Hk) in A2. injection A2 as <-.
    assert (Hc : In A_bmnc_b (outs (asym i))) by (unfold outs; destruct (asym i); cbn; tauto).
    rewrite (elem2_mat _ _ _ _ _ k b (sh_V _ _ _ _ _ _ _ _ _ Sh _ Hc) Hk Hb) in A3. injection A3 as <-.
    unfold onA. destruct (asym i) eqn:Ea; [|reflexivity]. specialize (A4 eq_refl).
    rewrite (elem2_mat _ _ _ _ _ k b (sh_V _ _ _ _ _ _ _ _ _ Sh A_bmns_b ltac:(cbn; tauto)) Hk Hb) in A4. injection A4 as <-. reflexivity. }
  assert (Same : forall p, series (mnboz i) ms ns c (onA (asym i) s) (mTh i (surf i b) I G (fst p) (snd p)) (mZe i (surf i b) I G (fst p) (snd p))
    = mB i (surf i b) (fst p) (snd p)).
  { intros p. rewrite Rec. now rewrite (id_Th i (surf i b) HB), (id_Ze i (surf i b) HB). }
  cbv zeta. rewrite Eq. f_equal. f_equal. f_equal.
  - apply map_ext. exact Same.
  - unfold sym_points. cbn [map]. rewrite !Z1; [reflexivity|apply Same..].
Qed.

Ltac bounds := lazymatch goal with |- forall _, _ => idtac | |- _ => vm_compute; repeat split; discriminate end.
Ltac modes := let k := fresh "k" in let Hk := fresh "Hk" in intros k Hk;
  first [ pattern k; apply (ex_range3 k _ Hk); vm_compute; (repeat split; discriminate)
        | pattern k; apply (ex_range2 k _ Hk); vm_compute; (repeat split; discriminate) ].
(** modes m = 0, 1, 2 with n = 3 h m *)
Definition ex_sym (asy : bool) (h v : Z) (lam : R) (bs : Z -> R) : Inp RS :=
  mkInp RS asy 3 3 2 3 2 2 3 2 3 3 v (fun k => k) (fun k => 3 * h * k)%Z (fun k => k) (fun k => 3 * h * k)%Z
    2 (fun k => (1 - k)%Z) (fun j => if Z.eqb j 0 then 1 / 4 else 3 / 4) (fun _ => 1)
    (fun k _ => IZR (9 - 4 * k)) (fun k _ => IZR k) (fun k _ => lam * IZR k)
    (fun k _ => if Z.eqb k 0 then 10 else if Z.eqb k 1 then 1 else 0)
    (fun k _ => if Z.eqb k 0 then 2 else 0) (fun k _ => if Z.eqb k 0 then 7 else 0)
    (fun k _ => lam * IZR k) (fun k _ => lam) (fun k _ => lam * IZR k) (fun k _ => bs k) (fun k _ => 0) (fun k _ => 0).
Section Cases.
Variables (asy : bool) (h v : Z) (lam : R) (bs : Z -> R).
Hypothesis Hh : (h = 0 \/ h = 1)%Z.
Let i := ex_sym asy h v lam bs.
Lemma exs_ok : ok_inp i.
Proof.
  unfold i. destruct Hh as [-> | ->]; constructor; cbn [ex_sym nfp mpol ntor mnmax mpolq ntorq mnmaxq nsin mboz nboz nsurf xm xn xmq xnq surf];
    bounds; modes.
Qed.
Lemma exs_valid : valid (obj_of i) i. Proof. apply ok_valid, exs_ok. Qed.
Lemma exs_div : nfp_divides i.
Proof. split; intros k Hk; exists (h * k)%Z; cbn; lia. Qed.
End Cases.

Lemma sum3 (g : Z -> R) : rsum 3 g = g 0%Z + g 1%Z + g 2%Z.
Proof. change 3%Z with (0 + 1 + 1 + 1)%Z. rewrite !rsum_succ by lia. rewrite rsum_0. change (0 + 1 + 1)%Z with 2%Z. change (0 + 1)%Z with 1%Z. lra. Qed.
Lemma no_error_case asy : exists i, asym i = asy /\ valid (obj_of i) i /\
  resolved i (mnmax i) (xm i) (xn i) /\ resolved i (mnmaxq i) (xmq i) (xnq i) /\ (0 < verb i)%Z /\ (0 < nsurf i)%Z /\
  forall b, (0 <= b < nsurf i)%Z -> in_boozer i (surf i b) /\ bG i (surf i b) + iota i (surf i b) * bI i (surf i b) <> 0 /\
    mB i (surf i b) 0 0 <> mB i (surf i b) PI 0.
Proof.
  exists (ex_sym asy 1 1 0 (fun _ => 0)). split; [reflexivity|]. split; [apply exs_valid; auto|].
  assert (X : resolved (ex_sym asy 1 1 0 (fun _ => 0)) 3 (fun k => k) (fun k => 3 * 1 * k)%Z).
  { intros l Hl. cbn. split; [lia|]. split; [lia|]. exists l. lia. }
  split; [exact X|]. split; [exact X|]. split; [cbn; lia|]. split; [cbn; lia|]. intros b Hb. split.
  { split; [cbn; intros; split; intros; lra|]. intros k Hk H0. cbn in H0. cbn.
    destruct (Z.eqb_spec k 0) as [-> |]; [exfalso; destruct H0 as [H0|H0]; apply H0; reflexivity|auto]. }
  split; [change (7 + 1 * 2 <> 0); lra|].
  unfold mB, series. change (mnmaxq (ex_sym asy 1 1 0 (fun _ => 0))) with 3%Z. rewrite !sum3. unfold phase, onA.
  cbn [ex_sym xmq xnq bmnc bmns asym Z.eqb Pos.eqb].
  replace (IZR 0 * 0 - IZR (3 * 1 * 0) * 0) with 0 by ring. replace (IZR 1 * 0 - IZR (3 * 1 * 1) * 0) with 0 by ring.
  replace (IZR 0 * PI - IZR (3 * 1 * 0) * 0) with 0 by ring. replace (IZR 1 * PI - IZR (3 * 1 * 1) * 0) with PI by ring.
  rewrite cos_0, cos_PI. clear X. intros X. match type of X with @eq _ ?a ?b => change (@eq R a b) in X end. change (0 =? 0)%Z with true in X. change (1 =? 0)%Z with false in X. change (1 =? 1)%Z with true in X. change (2 =? 0)%Z with false in X. change (2 =? 1)%Z with false in X. cbv beta iota in X. destruct asy; lra.
Qed.
Lemma axi_case asy : exists i, asym i = asy /\ valid (obj_of i) i /\ nfp_divides i /\ (0 < nsurf i)%Z /\ (0 < nboz i)%Z /\
  (forall js, axisymmetric i js /\ lmns i 1 js <> 0 /\ bG i js + iota i js * bI i js <> 0) /\
  valid (obj_of (with_periods 1 5 0 0 i)) (with_periods 1 5 0 0 i) /\ nfp_divides (with_periods 1 5 0 0 i).
Proof.
  exists (ex_sym asy 0 0 (1 / 2) (fun k => IZR k)). split; [reflexivity|]. split; [apply exs_valid; auto|]. split; [apply exs_div|].
  split; [cbn; lia|]. split; [cbn; lia|]. split.
  { intros js. split; [split; intros k Hk; left; reflexivity|]. split; [cbn; lra|]. change (7 + 1 * 2 <> 0). lra. }
  split.
  - apply ok_valid. destruct (exs_ok asy 0 0 (1 / 2) (fun k => IZR k) (or_introl eq_refl)). constructor; try assumption; bounds; modes.
  - split; intros k Hk; exists 0%Z; reflexivity.
Qed.
Lemma hel_case asy : exists i, asym i = asy /\ valid (obj_of i) i /\ nfp_divides i /\ (0 < nsurf i)%Z /\ (0 < nboz i)%Z /\ nboz i = mboz i /\
  (forall js, helical i js 1 1 /\ invariant i js 1 1 /\ ~ axisymmetric i js /\ lmns i 1 js <> 0 /\ bG i js + iota i js * bI i js <> 0) /\
  nfp i = (3 * 1)%Z /\ (2 * 10 + 1 = 3 * (2 * nboz i + 1))%Z /\
  let i' := with_periods 1 10 (3 * ntor i) (3 * ntorq i) i in valid (obj_of i') i'.
Proof.
  set (i := ex_sym asy 1 0 (1 / 2) (fun k => IZR k)).
  pose proof (exs_ok asy 1 0 (1 / 2) (fun k => IZR k) (or_intror eq_refl)) as Hok. change (ok_inp i) in Hok.
  assert (Hh : forall js, helical i js 1 1) by (intros js; split; intros k Hk; left; cbn; lia).
  exists i. split; [reflexivity|]. split; [now apply ok_valid|]. split; [apply exs_div|].
  split; [cbn; lia|]. split; [cbn; lia|]. split; [reflexivity|]. split.
  { intros js. split; [apply Hh|]. split.
    - assert (W : forall k, whole i 1 1 k (3 * k)%Z).
      { intros k. apply hel_whole; auto; [exists k; cbn; lia|]. exists 0%Z. cbn. lia. }
      split; intros k Hk; left; apply W.
    - split; [|split; [cbn; lra|change (7 + 1 * 2 <> 0); lra]].
      intros (A & _). destruct (A 1%Z ltac:(cbn; lia)) as [X | (X & _)]; [discriminate X|change (5 = 0) in X; lra]. }
  split; [reflexivity|]. split; [reflexivity|]. cbv zeta. apply ok_valid. destruct Hok. constructor; try assumption; bounds; modes.
Qed.
