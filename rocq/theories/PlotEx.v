(** Concrete objects for the theorems about plots.py, and what the plots get wrong. *)
From Coq Require Import ZArith QArith List String Bool Lia Reals Lra Psatz Permutation Sorted.
From Verif Require Import Scalar Prog Model Wp Func Step TrigProof InitProof SurfProof RunProof Par FuncExt Spec RunThms
  RSum RSpec RPoint RQuad RThms RThms2 RThms3 RExamples Vmec VmecSpec Nc NcModel NcSpec NcVoc NcThms NcThms2 NcThms3 NcThms4
  Plots PlotSpec PlotProof PlotWire PlotThms PlotReal PlotReal2 PlotReal3.
Import ListNotations.
Local Open Scope Z_scope.
Local Open Scope R_scope.

(** Three modes m = 0, 1, 2 with n = 0; two surfaces, the outer one first; in Boozer coordinates *)
Definition ex_modes (asy : bool) (bc bs rc rs zc zs : Z -> Z -> R) : Inp RS :=
  mkInp RS asy 1 3 0 3 2 0 3 2 3 0 0 (fun k => k) (fun _ => 0%Z) (fun k => k) (fun _ => 0%Z)
    2 (fun k => (1 - k)%Z) (fun j => if Z.eqb j 0 then 1 / 4 else 3 / 4) (fun _ => 1)
    rc zs (fun _ _ => 0) bc (fun k _ => if Z.eqb k 0 then 2 else 0) (fun k _ => if Z.eqb k 0 then 7 else 0)
    rs zc (fun _ _ => 0) bs (fun _ _ => 0) (fun _ _ => 0).
Lemma vec_is_ext {T} (a : array T) n g h : (forall k, (0 <= k < n)%Z -> g k = h k) -> vec_is a n g -> vec_is a n h.
Proof. unfold vec_is. intros E H. decompose [and] H. splits; auto. intros k Hk. rewrite <- E by auto. auto. Qed.
Section ExModes.
Variables (asy : bool) (bc bs rc rs zc zs : Z -> Z -> R).
Let i := ex_modes asy bc bs rc rs zc zs.
Lemma exm_ok : ok_inp i.
Proof.
  constructor; cbn [i ex_modes nfp mpol ntor mnmax mpolq ntorq mnmaxq nsin mboz nboz nsurf xm xn xmq xnq surf];
    unfold kn; try (vm_compute; split; congruence); try (vm_compute; congruence); intros k Hk; cbn; try lia; unfold INT_MAX; lia.
Qed.
Lemma exm_valid : valid (obj_of i) i.
Proof. apply ok_valid, exm_ok. Qed.
Lemma exm_resolved : resolved i (mnmax i) (xm i) (xn i) /\ resolved i (mnmaxq i) (xmq i) (xnq i).
Proof. split; intros l Hl; cbn in *; (split; [lia|split; [lia|exists 0%Z; lia]]). Qed.
Lemma exm_boozer js : in_boozer i js.
Proof.
  split; [cbn; auto|]. intros k Hk H0. cbn in H0. cbn. destruct (Z.eqb_spec k 0) as [->|]; [exfalso; destruct H0; congruence|auto].
Qed.
Lemma exm_den js : bG i js + iota i js * bI i js <> 0.
Proof. change (7 + 1 * 2 <> 0). lra. Qed.
Lemma exm_mode k : (0 <= k < 3)%Z -> xm_b i k = k /\ xn_b i k = 0%Z.
Proof.
  intros Hk. pattern k. apply (ex_range3 k _ Hk); vm_compute; auto.
Qed.
Lemma exm_out : exists o V, after_run o i /\
  shows o asy 1 3 2 (xm_b i) (xn_b i) (fun b => if Z.eqb b 0 then 3 / 4 else 1 / 4) V /\
  forall k b, (0 <= k < 3)%Z -> (0 <= b < 2)%Z ->
    V A_bmnc_b k b = bc k (1 - b)%Z /\ V A_rmnc_b k b = rc k (1 - b)%Z /\ (k <> 0%Z -> V A_zmns_b k b = zs k (1 - b)%Z) /\
    V A_numns_b k b = 0 /\
    (asy = true -> (k <> 0%Z -> V A_bmns_b k b = bs k (1 - b)%Z /\ V A_rmns_b k b = rs k (1 - b)%Z) /\
       V A_zmnc_b k b = zc k (1 - b)%Z /\ V A_numnc_b k b = 0).
Proof.
  pose proof exm_ok as Hok. pose proof exm_valid as Hv. destruct exm_resolved as (R1 & R2).
  assert (Hd : nfp_divides i) by (split; intros k Hk; [apply (R1 k Hk)|apply (R2 k Hk)]).
  assert (C : canonical 3 (fun k => k) (fun _ => 0%Z)) by (split; intros; lia).
  destruct (identity_modes (obj_of i) i Hv Hd (resolved_no_alias _ Hok _ _ _ R1) (resolved_no_alias _ Hok _ _ _ R2) C C) as (o & ev & E & H).
  assert (A : after_run o i) by (eapply after_run_intro; eauto).
  exists o, (fun f k b => o_coef i (surf i b) f k). split; [exact A|].
  pose proof (shows_after_run o i A) as Sh.
  split.
  - assert (Es : vec_is (oA o A_s_b) 2 (fun b => if Z.eqb b 0 then 3 / 4 else 1 / 4)).
    { eapply (vec_is_ext (T := R)); [|exact (sh_s _ _ _ _ _ _ _ _ _ Sh)]. intros b Hb. change (0 <= b < 2)%Z in Hb. pattern b. apply (ex_range2 b _ Hb); reflexivity. }
    constructor; [exact (sh_asym _ _ _ _ _ _ _ _ _ Sh)|exact (sh_nfp _ _ _ _ _ _ _ _ _ Sh)|exact (sh_n _ _ _ _ _ _ _ _ _ Sh)|exact (sh_c _ _ _ _ _ _ _ _ _ Sh)
      |exact (sh_xm _ _ _ _ _ _ _ _ _ Sh)|exact (sh_xn _ _ _ _ _ _ _ _ _ Sh)|exact Es|exact (sh_V _ _ _ _ _ _ _ _ _ Sh)|lia
      |exact (sh_first _ _ _ _ _ _ _ _ _ Sh)|exact (sh_mult _ _ _ _ _ _ _ _ _ Sh)].
  - intros k b Hk Hb. destruct (after_run_holds RS o i A) as (_ & Rp & Q & _).
    destruct (exm_mode k Hk) as (Em & En).
    assert (Hb' : (0 <= b < nsurf i)%Z) by exact Hb. assert (Hk' : (0 <= k < mnboz i)%Z) by exact Hk.
    pose proof (elemN_vec _ _ _ _ k (q_xm_b _ _ _ Q) Hk') as M. pose proof (elemN_vec _ _ _ _ k (q_xn_b _ _ _ Q) Hk') as Nn.
    rewrite Em in M. rewrite En in Nn.
    assert (Hsf : elemN (obj_of i) N_compute_surfs b = Some (Some (surf i b))).
    { apply (elemN_vec _ _ _ _ b (r_surf _ _ _ (proj1 (proj2 Hv))) Hb'). }
    specialize (H b (surf i b) _ _ k k 0%Z Hsf (elem_vec _ _ _ _ b (q_I _ _ _ Q) Hb') (elem_vec _ _ _ _ b (q_G _ _ _ Q) Hb')
      (exm_den _) (exm_boozer _) M Nn).
    destruct H as (H1 & H2 & _ & _ & _ & H3 & H4).
    destruct (H1 k Hk eq_refl eq_refl) as (G1 & G2 & G3). destruct (H2 k Hk eq_refl eq_refl) as (G4 & G5).
    assert (Y : forall f v, In f (outs (asym i)) -> elem2 o f k b = Some (Some v) -> o_coef i (surf i b) f k = v).
    { intros f v Hf Ev. rewrite (elem2_mat _ _ _ _ _ k b (sh_V _ _ _ _ _ _ _ _ _ Sh f Hf) Hk' Hb') in Ev. now injection Ev. }
    assert (S5 : forall f, In f sym_outs -> In f (outs (asym i))).
    { intros f Hf. unfold outs. destruct (asym i); auto. apply in_or_app; auto. }
    splits.
    + apply Y; [apply S5; cbn; tauto|exact G4].
    + apply Y; [apply S5; cbn; tauto|exact G1].
    + intros Hne. apply Y; [apply S5; cbn; tauto|apply G2; auto].
    + apply Y; [apply S5; cbn; tauto|exact H3].
    + intros Ha. assert (Ha' : asym i = true) by exact Ha. destruct (G3 Ha') as (G6 & G7).
      assert (A5 : forall f, In f asym_outs -> In f (outs (asym i))).
      { intros f Hf. unfold outs. rewrite Ha'. apply in_or_app; auto. }
      splits.
      * intros Hne. split; [exact (Y A_bmns_b _ (A5 A_bmns_b ltac:(cbn; auto)) (G5 Ha' (or_introl Hne)))|
          exact (Y A_rmns_b _ (A5 A_rmns_b ltac:(cbn; auto)) (G7 (or_introl Hne)))].
      * exact (Y A_zmnc_b _ (A5 A_zmnc_b ltac:(cbn; auto)) G6).
      * exact (Y A_numnc_b _ (A5 A_numnc_b ltac:(cbn; auto)) (H4 Ha')).
Qed.
End ExModes.

(** ** symplot: the legend *)
Section Legend.
Context {S : Scalar}.
Lemma ex_after : exists o : obj S, after_run o (ex_inp S false).
Proof. destruct (run_total _ _ (ex_valid S false)) as (o & E & _). exists o. eapply after_run_intro; [apply ex_valid|exact E]. Qed.
Lemma ex_modes5 (P : Z -> Z -> Prop) : P 0%Z 0%Z -> P 0%Z 2%Z -> P 1%Z (-2)%Z -> P 1%Z 0%Z -> P 1%Z 2%Z ->
  forall k, (0 <= k < mnboz (ex_inp S false))%Z -> P (xm_b (ex_inp S false) k) (xn_b (ex_inp S false) k).
Proof.
  intros H0 H1 H2 H3 H4 k Hk. change (0 <= k < 5)%Z in Hk.
  assert (X : (k = 0 \/ k = 1 \/ k = 2 \/ k = 3 \/ k = 4)%Z) by lia.
  destruct X as [-> | [-> | [-> | [-> | ->]]]]; cbn; assumption.
Qed.
(** helical_detail = False: helical modes are drawn, and the legend has no entry for them;
    helical_detail = True: the legend has an entry for modes that are not drawn;
    max_m = 0: likewise. *)
Theorem symplot_legend_wrong : exists (o : obj S) i, after_run o i /\
  (exists pl, run (symplot S 20 20 None false true true None false) o = ROk pl o [] /\
     (exists cv, In cv (pl_curves S pl) /\ cv_color S cv = Helical) /\ forall cv, In cv (pl_legend S pl) -> cv_color S cv <> Helical) /\
  (exists pl, run (symplot S 20 20 None false true true None true) o = ROk pl o [] /\
     (exists cv, In cv (pl_legend S pl) /\ cv_color S cv = Helical) /\ forall cv, In cv (pl_curves S pl) -> cv_color S cv <> Helical) /\
  (exists pl, run (symplot S 0 20 None false true true None false) o = ROk pl o [] /\
     (exists cv, In cv (pl_legend S pl) /\ cv_color S cv = QA) /\ forall cv, In cv (pl_curves S pl) -> cv_color S cv <> QA).
Proof.
  destruct ex_after as (o & A). exists o, (ex_inp S false). split; [exact A|].
  pose proof (shows_after_run o _ A) as Sh. assert (Hc : (1 <= nsurf (ex_inp S false))%Z) by (cbn; lia).
  assert (X : forall mm dt, exists pl l,
    run (symplot S mm 20 None false true true None dt) o = ROk pl o [] /\
    map (cv_color S) (pl_curves S pl) = map snd l /\
    (forall k col, In (k, col) l <-> (0 <= k < mnboz (ex_inp S false))%Z /\
       selected mm 20 true 2 (xm_b (ex_inp S false) k) (xn_b (ex_inp S false) k) /\ has_color dt 2 (xm_b (ex_inp S false) k) (xn_b (ex_inp S false) k) col) /\
    (forall cv, In cv (pl_legend S pl) -> exists k, (0 <= k < mnboz (ex_inp S false))%Z /\
       legend_class 2 true dt (cv_color S cv) (xm_b (ex_inp S false) k) (xn_b (ex_inp S false) k)) /\
    (forall col k, (0 <= k < mnboz (ex_inp S false))%Z -> legend_class 2 true dt col (xm_b (ex_inp S false) k) (xn_b (ex_inp S false) k) ->
       exists cv, In cv (pl_legend S pl) /\ cv_color S cv = col)).
  { intros mm dt.
    destruct (symplot_modes o _ _ _ _ _ _ _ _ Sh Hc mm 20 None false true true None dt) as (pl & l & E & _ & _ & E3 & _ & E4).
    destruct (symplot_legend o _ _ _ _ _ _ _ _ Sh Hc mm 20 None false true true None dt) as (pl' & E' & _ & F1 & F2).
    rewrite E in E'. injection E' as <-. exists pl, l. splits; auto.
    - rewrite E3, map_map. reflexivity.
    - intros cv I. destruct (F1 cv I) as (k & (K1 & K2 & _) & _). eauto. }
  assert (M2 : xm_b (ex_inp S false) 2 = 1%Z /\ xn_b (ex_inp S false) 2 = (-2)%Z) by (split; reflexivity).
  assert (M3 : xm_b (ex_inp S false) 3 = 1%Z /\ xn_b (ex_inp S false) 3 = 0%Z) by (split; reflexivity).
  splits.
  - destruct (X 20%Z false) as (pl & l & E & C & Hl & L1 & L2). exists pl. splits; auto.
    + assert (I : In Helical (map (cv_color S) (pl_curves S pl))).
      { rewrite C. apply in_map_iff. exists (2%Z, Helical). split; [reflexivity|]. apply Hl. split; [split; [discriminate|reflexivity]|]. split.
        - unfold selected. rewrite (proj1 M2), (proj2 M2). lia.
        - rewrite (proj1 M2), (proj2 M2). cbn. splits; try lia; discriminate. }
      apply in_map_iff in I. destruct I as (cv & E1 & E2). eauto.
    + intros cv I Ec. destruct (L1 cv I) as (k & Hk & Cl). rewrite Ec in Cl. revert Cl. cbn [legend_class]. unfold legend_helical.
      pattern (xm_b (ex_inp S false) k), (xn_b (ex_inp S false) k). apply ex_modes5; auto; intros (H1 & H2 & H3); specialize (H3 eq_refl); lia.
  - destruct (X 20%Z true) as (pl & l & E & C & Hl & L1 & L2). exists pl. splits; auto.
    + apply (L2 Helical 2%Z); [split; [discriminate|reflexivity]|]. rewrite (proj1 M2), (proj2 M2). cbn. unfold legend_helical. splits; try lia; discriminate.
    + intros cv I Ec. assert (I2 : In Helical (map snd l)) by (rewrite <- C, <- Ec; now apply in_map).
      apply in_map_iff in I2. destruct I2 as ((k & col) & E1 & E2). cbn in E1. subst col. apply Hl in E2. destruct E2 as (Hk & _ & Cl). revert Cl.
      cbn [has_color]. pattern (xm_b (ex_inp S false) k), (xn_b (ex_inp S false) k). apply ex_modes5; auto; intros (H1 & H2 & H3); specialize (H3 eq_refl); lia.
  - destruct (X 0%Z false) as (pl & l & E & C & Hl & L1 & L2). exists pl. splits; auto.
    + apply (L2 QA 3%Z); [split; [discriminate|reflexivity]|]. rewrite (proj1 M3), (proj2 M3). cbn. splits; lia.
    + intros cv I Ec. assert (I2 : In QA (map snd l)) by (rewrite <- C, <- Ec; now apply in_map).
      apply in_map_iff in I2. destruct I2 as ((k & col) & E1 & E2). cbn in E1. subst col. apply Hl in E2. destruct E2 as (Hk & (Sm & _) & Cl). revert Sm Cl.
      cbn [has_color]. pattern (xm_b (ex_inp S false) k), (xn_b (ex_inp S false) k). apply ex_modes5; auto; lia.
Qed.
End Legend.

(** ** modeplot *)
Definition zero2 : Z -> Z -> R := fun _ _ => 0.
Definition ex_b (k js : Z) : R := if Z.eqb k 0 then 1 else if Z.eqb (k + js) 1 then 2 / 10 else if Z.eqb (k + js) 3 then 2 / 10 else 1 / 10.
Lemma one_of (l : list Z) : Z.of_nat (List.length l) = 1%Z -> exists k, l = [k].
Proof. destruct l as [|k [|k' l]]; cbn [List.length]; intros H; try lia. eauto. Qed.
(** "the outermost surface": the last of the surfaces, which need not be the one with the largest s *)
Theorem modeplot_outermost_wrong : exists (o : obj RS) i a nf n c ms ns sb V b,
  after_run o i /\ shows o a nf n c ms ns sb V /\ (0 <= b < c)%Z /\ (forall b', (0 <= b' < c)%Z -> sb b' <= sb b) /\
  forall argsort, sorts (S := RS) argsort -> exists pl k k',
    run (modeplot RS argsort 1 None false true false None) o = ROk pl o [] /\
    pl_curves RS pl = [mode_curve c ms ns sb V None false true Cycle (Mode (ms k) (ns k)) k] /\
    eligible false n k /\ eligible false n k' /\ Rabs (V A_bmnc_b k b) < Rabs (V A_bmnc_b k' b).
Proof.
  destruct (exm_out false ex_b zero2 zero2 zero2 zero2 zero2) as (o & V & A & Sh & HV).
  exists o. eexists. exists false, 1%Z, 3%Z, 2%Z. eexists. eexists. eexists. exists V, 0%Z.
  split; [exact A|]. split; [exact Sh|]. split; [lia|]. split.
  { intros b' Hb'. pattern b'. apply (ex_range2 b' _ Hb'); [change (3 / 4 <= 3 / 4)|change (1 / 4 <= 3 / 4)]; lra. }
  intros argsort Hs.
  destruct (modeplot_real o _ _ _ _ _ _ _ _ argsort 1 None false true false None Sh ltac:(lia) Hs ltac:(cbn; lia)) as (l & E & El & _ & He & Hm & _).
  destruct (one_of l El) as (k & ->). eexists. exists k, 2%Z. split; [exact E|]. split; [reflexivity|].
  assert (Ek : eligible false 3 k) by (apply He; now left). split; [exact Ek|]. split; [split; [lia|discriminate]|].
  assert (K : k = 1%Z).
  { destruct Ek as (Hk & H0). specialize (H0 eq_refl). destruct (Z.eq_dec k 2) as [->|]; [|lia]. exfalso.
    specialize (Hm 2%Z 1%Z (or_introl eq_refl)). cbv zeta in Hm. unfold ampl in Hm. cbn [removed] in Hm.
    assert (Q : Rabs (V A_bmnc_b 1%Z 1%Z) <= Rabs (V A_bmnc_b 2%Z 1%Z)) by (apply Hm; [split; [lia|discriminate]|intros [X|[]]; discriminate]).
    rewrite (proj1 (HV 1%Z 1%Z ltac:(lia) ltac:(lia))), (proj1 (HV 2%Z 1%Z ltac:(lia) ltac:(lia))) in Q. change (Rabs (2 / 10) <= Rabs (1 / 10)) in Q.
    rewrite !Rabs_right in Q by lra. lra. }
  subst k. rewrite (proj1 (HV 1%Z 0%Z ltac:(lia) ltac:(lia))), (proj1 (HV 2%Z 0%Z ltac:(lia) ltac:(lia))). change (Rabs (1 / 10) < Rabs (2 / 10)).
  rewrite !Rabs_right by lra. lra.
Qed.
(** Without stellarator symmetry the sine amplitudes do not count. *)
Definition ex_c (k js : Z) : R := if Z.eqb k 0 then 1 else if Z.eqb k 1 then 2 / 10 else 1 / 10.
Definition ex_s (k js : Z) : R := if Z.eqb k 2 then 3 / 10 else 0.
Theorem modeplot_asym_wrong : exists (o : obj RS) i nf n c ms ns sb V,
  after_run o i /\ shows o true nf n c ms ns sb V /\ (1 <= c)%Z /\
  forall argsort, sorts (S := RS) argsort -> exists pl k k',
    run (modeplot RS argsort 1 None false true false None) o = ROk pl o [] /\
    pl_curves RS pl = [mode_curve c ms ns sb V None false true Cycle (Mode (ms k) (ns k)) k] /\
    eligible false n k /\ eligible false n k' /\
    forall b, (0 <= b < c)%Z -> (V A_bmnc_b k b)² + (V A_bmns_b k b)² < (V A_bmnc_b k' b)² + (V A_bmns_b k' b)².
Proof.
  destruct (exm_out true ex_c ex_s zero2 zero2 zero2 zero2) as (o & V & A & Sh & HV).
  exists o. eexists. exists 1%Z, 3%Z, 2%Z. eexists. eexists. eexists. exists V.
  split; [exact A|]. split; [exact Sh|]. split; [lia|].
  intros argsort Hs.
  destruct (modeplot_real o _ _ _ _ _ _ _ _ argsort 1 None false true false None Sh ltac:(lia) Hs ltac:(cbn; lia)) as (l & E & El & _ & He & Hm & _).
  destruct (one_of l El) as (k & ->). eexists. exists k, 2%Z. split; [exact E|]. split; [reflexivity|].
  assert (Ek : eligible false 3 k) by (apply He; now left). split; [exact Ek|]. split; [split; [lia|discriminate]|].
  assert (K : k = 1%Z).
  { destruct Ek as (Hk & H0). specialize (H0 eq_refl). destruct (Z.eq_dec k 2) as [->|]; [|lia]. exfalso.
    specialize (Hm 2%Z 1%Z (or_introl eq_refl)). cbv zeta in Hm. unfold ampl in Hm. cbn [removed] in Hm.
    assert (Q : Rabs (V A_bmnc_b 1%Z 1%Z) <= Rabs (V A_bmnc_b 2%Z 1%Z)) by (apply Hm; [split; [lia|discriminate]|intros [X|[]]; discriminate]).
    rewrite (proj1 (HV 1%Z 1%Z ltac:(lia) ltac:(lia))), (proj1 (HV 2%Z 1%Z ltac:(lia) ltac:(lia))) in Q. change (Rabs (2 / 10) <= Rabs (1 / 10)) in Q.
    rewrite !Rabs_right in Q by lra. lra. }
  subst k. intros b Hb. destruct (HV 1%Z b ltac:(lia) Hb) as (X1 & _ & _ & _ & X2). destruct (HV 2%Z b ltac:(lia) Hb) as (Y1 & _ & _ & _ & Y2).
  destruct (X2 eq_refl) as (X3 & _). destruct (Y2 eq_refl) as (Y3 & _).
  rewrite X1, Y1, (proj1 (X3 ltac:(lia))), (proj1 (Y3 ltac:(lia))). unfold Rsqr. change (2 / 10 * (2 / 10) + 0 * 0 < 1 / 10 * (1 / 10) + 3 / 10 * (3 / 10)). lra.
Qed.

(** ** symplot: the default lower limit is taken from the largest value, not the largest magnitude *)
Definition ex_n (k js : Z) : R := if Z.eqb k 0 then 1 else - 1.
Lemma fold_rmax0 (l : list R) : (forall x, In x l -> x <= 0) -> fold_left (fmax RS) l 0 = 0.
Proof.
  induction l as [|x l IH]; intros H; [reflexivity|]. cbn [fold_left]. rewrite fmaxR, Rmax_left by (apply H; now left).
  apply IH. intros y Hy. apply H. now right.
Qed.
Theorem symplot_ymin_wrong : exists (o : obj RS) i nf n c ms ns sb V pl rm,
  after_run o i /\ shows o false nf n c ms ns sb V /\ (1 <= c)%Z /\
  run (symplot RS 20 20 None false true true rm false) o = ROk pl o [] /\ pl_ymin RS pl = Some 0 /\
  exists k, (0 <= k < n)%Z /\ forall b, (0 <= b < c)%Z -> Rabs (ampl (S := RS) ms ns V rm k b) = 1.
Proof.
  destruct (exm_out false ex_n zero2 zero2 zero2 zero2 zero2) as (o & V & A & Sh & HV).
  exists o. eexists. exists 1%Z, 3%Z, 2%Z. eexists. eexists. eexists. exists V.
  destruct (symplot_modes o _ _ _ _ _ _ _ _ Sh ltac:(lia) 20 20 None false true true (Some (1, 3)%Z) false) as (pl & l & E & _ & Ey & _).
  exists pl, (Some (1, 3)%Z). split; [exact A|]. split; [exact Sh|]. split; [lia|]. split; [exact E|].
  assert (Am : forall k b, (0 <= k < 3)%Z -> (0 <= b < 2)%Z ->
    ampl (S := RS) (xm_b (ex_modes false ex_n zero2 zero2 zero2 zero2 zero2)) (xn_b (ex_modes false ex_n zero2 zero2 zero2 zero2 zero2)) V (Some (1, 3)%Z) k b =
    if Z.eqb k 0 then 0 else - 1).
  { intros k b Hk Hb. unfold ampl. destruct (exm_mode false ex_n zero2 zero2 zero2 zero2 zero2 k Hk) as (-> & ->).
    rewrite (proj1 (HV k b Hk Hb)). unfold removed, ex_n. change (F RS) with R.
    destruct (Z.eqb_spec k 0) as [->|Hne]; [reflexivity|]. destruct (Z.eqb_spec (3 * k) (1 * 0)); [lia|reflexivity]. }
  split.
  - rewrite Ey. cbn [lower]. apply f_equal. unfold largest.
    set (g := ampl (S := RS) _ _ V (Some (1, 3)%Z)) in *.
    change (List.concat (map (fun k => map (g k) (upto 2)) (upto 3))) with [g 0%Z 0%Z; g 0%Z 1%Z; g 1%Z 0%Z; g 1%Z 1%Z; g 2%Z 0%Z; g 2%Z 1%Z].
    rewrite !Am by lia. cbn [Z.eqb Pos.eqb]. etransitivity; [apply (f_equal (fun x => fmul RS x (flit RS (1 # 10000)))); apply fold_rmax0|cbn; lra].
    intros x Hx. destruct Hx as [<-|[<-|[<-|[<-|[<-|[]]]]]]; [apply Rle_refl| | | |]; change (-1 <= 0); lra.
  - exists 1%Z. split; [lia|]. intros b Hb. rewrite Am by lia. change (Rabs (- 1) = 1). rewrite Rabs_left; lra.
Qed.

(** ** wireplot *)
Lemma rsum3 (g : Z -> R) : rsum 3 g = g 0%Z + g 1%Z + g 2%Z.
Proof. change 3%Z with (0 + 1 + 1 + 1)%Z. rewrite !rsum_succ by lia. rewrite rsum_0. change (0 + 1 + 1)%Z with 2%Z. change (0 + 1)%Z with 1%Z. lra. Qed.
Definition ex_r (k js : Z) : R := if Z.eqb k 0 then IZR (1 + js) else 0.
(** js = None: the last surface, not the one with the largest s *)
Theorem wire_outermost_wrong : exists (o : obj RS) i a nf n c ms ns sb V b,
  after_run o i /\ shows o a nf n c ms ns sb V /\ (0 <= b < c)%Z /\ (forall b', (0 <= b' < c)%Z -> sb b' <= sb b) /\
  forall nt np rf sf, (0 <= nt)%Z -> (0 <= np)%Z -> (2 <= rf)%Z -> exists w,
    run (wireplot RS None nt np rf sf false) o = ROk w o [] /\
    wi_boozer_theta RS w <> curves1 (boozer_point a n ms ns (fun f k => V f k b)) nt np rf.
Proof.
  destruct (exm_out false zero2 zero2 ex_r zero2 zero2 zero2) as (o & V & A & Sh & HV).
  exists o. eexists. exists false, 1%Z, 3%Z, 2%Z. eexists. eexists. eexists. exists V, 0%Z.
  split; [exact A|]. split; [exact Sh|]. split; [lia|]. split.
  { intros b' Hb'. pattern b'. apply (ex_range2 b' _ Hb'); [change (3 / 4 <= 3 / 4)|change (1 / 4 <= 3 / 4)]; lra. }
  intros nt np rf sf Ht Hp Hr.
  destruct (wire_curves o _ _ _ _ _ _ _ _ Sh None nt np rf ltac:(lia) Ht Hp (ex_inp RS false) false sf Hr ltac:(discriminate)) as (w & E & C1 & _).
  exists w. split; [exact E|]. rewrite C1. clear E C1. intros X.
  assert (Hd : forall P, nth 0 (nth 0 (curves1 P nt np rf) []) (0, 0, 0) = P 0 0).
  { intros P. unfold curves1. rewrite (upto_pos (nt + 1)), (upto_pos (np * rf + 1)) by nia. cbn [map nth].
    assert (L0 : forall st N, lin st N 0 = 0). { intros st N. unfold lin. destruct (Z.eqb N 1); [reflexivity|]. unfold Rdiv. ring. }
    now rewrite !L0. }
  apply (f_equal (fun l => nth 0 (nth 0 l []) (0, 0, 0))) in X. rewrite !Hd in X. clear Hd.
  unfold boozer_point, cyl in X. apply (f_equal (fun p => fst (fst p))) in X. cbn [fst] in X.
  assert (Q : forall b, (0 <= b < 2)%Z ->
    sR false 3 (xm_b (ex_modes false zero2 zero2 ex_r zero2 zero2 zero2)) (xn_b (ex_modes false zero2 zero2 ex_r zero2 zero2 zero2)) (fun f k => V f k b) 0 0 = IZR (2 - b) /\
    sNu false 3 (xm_b (ex_modes false zero2 zero2 ex_r zero2 zero2 zero2)) (xn_b (ex_modes false zero2 zero2 ex_r zero2 zero2 zero2)) (fun f k => V f k b) 0 0 = 0).
  { intros b Hb. unfold sR, sNu, series, onA.
    destruct (HV 0%Z b ltac:(lia) Hb) as (_ & X0 & _ & Y0 & _). destruct (HV 1%Z b ltac:(lia) Hb) as (_ & X1 & _ & Y1 & _). destruct (HV 2%Z b ltac:(lia) Hb) as (_ & X2 & _ & Y2 & _).
    rewrite !rsum3. cbv beta. rewrite X0, X1, X2, Y0, Y1, Y2. unfold phase. rewrite !Rmult_0_r, !Rminus_0_r, cos_0, sin_0.
    change (ex_r 0 (1 - b)) with (IZR (1 + (1 - b))). change (ex_r 1 (1 - b)) with 0. change (ex_r 2 (1 - b)) with 0.
    replace (1 + (1 - b))%Z with (2 - b)%Z by lia. split; lra. }
  change (surf_index 2 None) with 1%Z in X.
  destruct (Q 1%Z ltac:(lia)) as (Q1 & Q2). destruct (Q 0%Z ltac:(lia)) as (Q3 & Q4).
  rewrite Q1, Q2, Q3, Q4 in X. rewrite Rminus_0_r, cos_0 in X. change (1 * 1 = 2 * 1) in X. lra.
Qed.

(** Without stellarator symmetry the surface is not displaced along its normal: the derivatives lack terms. *)
Definition ex_R (k js : Z) : R := if Z.eqb k 0 then 10 else 0.
Definition ex_one (k js : Z) : R := if Z.eqb k 1 then 1 else 0.
Theorem wire_surface_wrong : exists (o : obj RS) i nf n c ms ns sb V w x rt zt,
  after_run o i /\ shows o true nf n c ms ns sb V /\ (1 <= c)%Z /\
  run (wireplot RS None 1 1 1 true false) o = ROk w o [] /\
  (exists rows, wi_surface RS w = Some rows /\ nth 0 (nth 0 rows []) (0, 0, 0) = x) /\
  let Vj := fun f k => V f k (c - 1)%Z in
  derivable_pt_lim (fun t => sR true n ms ns Vj t 0) 0 rt /\ derivable_pt_lim (fun t => sZ true n ms ns Vj t 0) 0 zt /\
  (rt <> 0 \/ zt <> 0) /\
  forall r' z', x = cyl r' (0 - sNu true n ms ns Vj 0 0) z' -> ~ left_of (sR true n ms ns Vj 0 0) (sZ true n ms ns Vj 0 0) rt zt r' z'.
Proof.
  destruct (exm_out true zero2 zero2 ex_R ex_one zero2 ex_one) as (o & V & A & Sh & HV).
  set (i := ex_modes true zero2 zero2 ex_R ex_one zero2 ex_one) in *.
  destruct (wire_all o _ _ _ _ _ _ _ _ Sh None 1 1 1 true ltac:(lia) ltac:(lia) ltac:(lia) (ex_inp RS false) false ltac:(lia) ltac:(discriminate)) as (w & E & _ & _ & _ & Es).
  exists o, i, 1%Z, 3%Z, 2%Z. eexists. eexists. eexists. exists V, w. eexists. exists 1, 1.
  split; [exact A|]. split; [exact Sh|]. split; [lia|]. split; [exact E|]. split.
  { eexists. split; [exact Es|]. reflexivity. }
  clear E Es. cbv zeta. change (2 - 1)%Z with 1%Z. change (surf_index 2 None) with 1%Z.
  set (Vj := fun f k => V f k 1%Z).
  assert (L0 : forall st N, lin st N 0 = 0). { intros st N. unfold lin. destruct (Z.eqb N 1); [reflexivity|]. unfold Rdiv. ring. }
  cbn [map nth upto Z.to_nat zseq]. 
  destruct (HV 0%Z 1%Z ltac:(lia) ltac:(lia)) as (_ & R0 & _ & N0 & S0). destruct (HV 1%Z 1%Z ltac:(lia) ltac:(lia)) as (_ & R1 & Z1 & N1 & S1).
  destruct (HV 2%Z 1%Z ltac:(lia) ltac:(lia)) as (_ & R2 & Z2 & N2 & S2).
  destruct (S0 eq_refl) as (_ & C0 & M0). destruct (S1 eq_refl) as (T1 & C1 & M1). destruct (S2 eq_refl) as (T2 & C2 & M2).
  specialize (Z1 ltac:(lia)). specialize (Z2 ltac:(lia)). destruct (T1 ltac:(lia)) as (_ & U1). destruct (T2 ltac:(lia)) as (_ & U2).
  clear S0 S1 S2 T1 T2.
  assert (Xm : xm_b i 0 = 0%Z /\ xm_b i 1 = 1%Z /\ xm_b i 2 = 2%Z /\ xn_b i 0 = 0%Z /\ xn_b i 1 = 0%Z /\ xn_b i 2 = 0%Z) by (repeat split; reflexivity).
  destruct Xm as (X0 & X1 & X2 & Y0 & Y1 & Y2).
  assert (Ph : forall m n, phase m n 0 0 = 0) by (intros; unfold phase; ring).
  change (ex_R 0 (1 - 1)) with 10 in R0. change (ex_R 1 (1 - 1)) with 0 in R1. change (ex_R 2 (1 - 1)) with 0 in R2.
  change (ex_one 1 (1 - 1)) with 1 in Z1, U1. change (ex_one 2 (1 - 1)) with 0 in Z2, U2.
  assert (ER : sR true 3 (xm_b i) (xn_b i) Vj 0 0 = 10).
  { unfold sR, series, onA, Vj. rewrite rsum3, !Ph, cos_0, sin_0, R0, R1, R2. lra. }
  assert (EZ : sZ true 3 (xm_b i) (xn_b i) Vj 0 0 = 0).
  { unfold sZ, series, onA, Vj. rewrite rsum3, !Ph, cos_0, sin_0, C0, C1, C2. unfold zero2. lra. }
  assert (EN : sNu true 3 (xm_b i) (xn_b i) Vj 0 0 = 0).
  { unfold sNu, series, onA, Vj. rewrite rsum3, !Ph, cos_0, sin_0, M0, M1, M2. lra. }
  assert (ERt : wRt_sum (xm_b i) (xn_b i) Vj 3 0 0 = 0).
  { unfold wRt_sum. rewrite rsum3, !Ph, sin_0. lra. }
  assert (EZt : wZt_sum (xm_b i) (xn_b i) Vj 3 0 0 = 1).
  { unfold wZt_sum, Vj. rewrite rsum3, !Ph, cos_0, X0, X1, X2, Z1, Z2. lra. }
  splits.
  - replace 1 with (series_t 3 (xm_b i) (xn_b i) (Vj A_rmnc_b) (onA true (Vj A_rmns_b)) 0 0); [apply series_dt|].
    unfold series_t, onA, Vj. rewrite rsum3, !Ph, cos_0, sin_0, X0, X1, X2, U1, U2. lra.
  - replace 1 with (series_t 3 (xm_b i) (xn_b i) (onA true (Vj A_zmnc_b)) (Vj A_zmns_b) 0 0); [apply series_dt|].
    unfold series_t, onA, Vj. rewrite rsum3, !Ph, cos_0, sin_0, X0, X1, X2, Z1, Z2. lra.
  - lra.
  - intros r' z' Ex (Lo & _). rewrite ER, EZ in Lo. rewrite EN in Ex. unfold cyl in Ex.
    assert (r' = 10 - 1 / 500 /\ z' = 0) as (-> & ->); [|lra].
    revert Ex. match goal with |- nth 0 (nth 0 ?l _) _ = _ -> _ => change (nth 0 (nth 0 l []) (0, 0, 0)) with (shrunk true 3 2 (xm_b i) (xn_b i) V None (lin (2 * PI) (1 * 1 + 1) 0) (lin (2 * PI) (1 * 1 + 1) 0)) end.
    rewrite !L0. unfold shrunk, wshrunk. cbn [wR wZ wRt wZt wNu]. change (surf_index 2 None) with 1%Z. fold Vj.
    rewrite ER, EZ, EN, ERt, EZt. unfold cart. cbn [RS fmul fadd fsub fdiv fsqrt fcos fsin flit].
    replace (0 * 0 + 1 * 1) with 1 by ring. rewrite sqrt_1, !Rminus_0_r, cos_0. intros Ex. injection Ex as E1 E2 E3.
    assert (Eq : Q2R (2 # 1000) = 1 / 500) by (unfold Q2R; cbn; lra). rewrite Eq in *. lra.
Qed.

(** ** The cases *)
Lemma exm_written asy bc bs rc rs zc zs : exists o : obj RS, writable "0.0.8" o (ex_modes asy bc bs rc rs zc zs) /\
  vmec_grid o (ex_modes asy bc bs rc rs zc zs).
Proof.
  set (i := ex_modes asy bc bs rc rs zc zs). destruct (run_total _ _ (exm_valid asy bc bs rc rs zc zs)) as (o & E & H2 & _).
  assert (A : after_run o i) by (eapply after_run_intro; [apply exm_valid|exact E]).
  exists o. split.
  - constructor; [exact A| |cbn; lia|cbn; lia|cbn; lia].
    left. rewrite (rf_A _ _ _ _ H2) by (destruct asy; reflexivity). reflexivity.
  - intros j Hj. destruct (after_run_holds RS o i A) as (_ & Rp & _).
    rewrite (elem_vec _ _ _ _ j (r_sin _ _ _ Rp) Hj). do 2 f_equal. change (0 <= j < 2)%Z in Hj.
    assert (X : (j = 0 \/ j = 1)%Z) by lia. destruct X as [-> | ->]; [change (@eq R (1 / 4) (Q2R (1 # 1) / (3 - Q2R (1 # 1)) * (0 + Q2R (1 # 2))))|change (@eq R (3 / 4) (Q2R (1 # 1) / (3 - Q2R (1 # 1)) * (1 + Q2R (1 # 2))))]; unfold Q2R; cbn; lra.
Qed.
Lemma case50 : sorts (S := RS) insertion /\ exists o V, shows (S := RS) o false 1 3 2 (fun k => k) (fun _ => 0%Z) (fun b => if Z.eqb b 0 then 3 / 4 else 1 / 4) V /\
  (0 <= 2 <= count false 3)%Z /\ V A_bmnc_b 1%Z 1%Z = 5 /\ V A_bmnc_b 2%Z 1%Z = -7.
Proof.
  split; [exact insertion_sorts|].
  destruct (exm_out false (fun k _ => if Z.eqb k 1 then 5 else if Z.eqb k 2 then -7 else 1) (fun _ _ => 0) (fun _ _ => 0) (fun _ _ => 0) (fun _ _ => 0) (fun _ _ => 0)) as (o & V & A & Sh & HV).
  exists o, V. splits.
  - set (i := ex_modes _ _ _ _ _ _ _) in *.
    assert (E1 : vec_is (oN o N_xm_b) 3 (fun k => k)) by (eapply vec_is_ext; [|exact (sh_xm _ _ _ _ _ _ _ _ _ Sh)]; intros k Hk; apply exm_mode; exact Hk).
    assert (E2 : vec_is (oN o N_xn_b) 3 (fun _ => 0%Z)) by (eapply vec_is_ext; [|exact (sh_xn _ _ _ _ _ _ _ _ _ Sh)]; intros k Hk; apply exm_mode; exact Hk).
    constructor; [exact (sh_asym _ _ _ _ _ _ _ _ _ Sh)|exact (sh_nfp _ _ _ _ _ _ _ _ _ Sh)|exact (sh_n _ _ _ _ _ _ _ _ _ Sh)|exact (sh_c _ _ _ _ _ _ _ _ _ Sh)
      |exact E1|exact E2|exact (sh_s _ _ _ _ _ _ _ _ _ Sh)|exact (sh_V _ _ _ _ _ _ _ _ _ Sh)|lia|auto|intros; apply Z.divide_0_r].
  - lia.
  - cbn. lia.
  - destruct (HV 1%Z 1%Z ltac:(lia) ltac:(lia)) as (X & _). exact X.
  - destruct (HV 2%Z 1%Z ltac:(lia) ltac:(lia)) as (X & _). exact X.
Qed.
Lemma case55 : forall S, exists o : obj S, after_run o (ex_inp S false) /\ (1 <= nsurf (ex_inp S false))%Z.
Proof. intros S. destruct (@ex_after S) as (o & A). exists o. split; [exact A|cbn; lia]. Qed.
Theorem refine1_refuted : exists (o : obj RS) i, after_run o i /\ (2 <= nsurf i)%Z /\
  forall nt np sf orig, (1 <= nt)%Z -> (1 <= np)%Z -> exists w, run (wireplot RS None nt np 1 sf orig) o = ROk w o [] /\
    wi_boozer_theta RS w = [] /\ wi_boozer_zeta RS w = [] /\ wi_orig_theta RS w = [] /\ wi_orig_zeta RS w = [].
Proof.
  destruct (exm_out false zero2 zero2 ex_R zero2 zero2 ex_one) as (o & V & A & Sh & _).
  exists o. eexists. split; [exact A|]. split; [cbn; lia|]. intros nt np sf orig Ht Hp.
  exact (wire_refine1 o _ _ _ _ _ _ _ _ Sh None nt np 1 ltac:(lia) ltac:(lia) ltac:(lia) _ orig sf eq_refl (fun _ => conj A eq_refl)).
Qed.
Theorem orig_refuted : exists version x (w w1 : world RS) i,
  writable version (wO w) i /\ write_boozmn RS version x w = IOk tt w1 /\
  (exists v, run (wireplot RS None 15 15 10 true true) (wO w) = ROk v (wO w) []) /\
  (exists why, on_file RS x (wireplot RS None 15 15 10 true true) w1 = IUB why).
Proof.
  destruct (exm_written false zero2 zero2 ex_R zero2 zero2 ex_one) as (o & W & G).
  set (i := ex_modes _ _ _ _ _ _ _) in *. set (w := desk RS o (fun _ => None) []).
  destruct (wireplot_file_orig "0.0.8" "b.nc" w i (fun y : R => Ropp_involutive y) W (desk_open _ _ _ _) eq_refl G) as (w1 & E & H).
  exists "0.0.8"%string, "b.nc"%string, w, w1, i. split; [exact W|]. split; [exact E|].
  apply (H None 15 15 10 true)%Z; cbn; lia.
Qed.
