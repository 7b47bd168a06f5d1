(** init_from_vmec: what follows from the call having returned, and exactly when it returns. *)
From Coq Require Import ZArith List String Bool Lia.
From Verif Require Import Scalar Prog Model Wp Func FuncExt Spec Vmec VmecSpec VmecRun VmecThms Nc NcModel Py Frame FrameThms Ran.
Import ListNotations.
Local Open Scope Z_scope.

Section VmecNeeds.
Context {S : Scalar}.
Notation obj := (obj S).
Notation prog := (prog S).

Ltac spv := repeat first [progress sp
  | apply spares_resize_member; inl | apply spares_fill; [inl|intros ?] | apply spares_drop_first; inl | apply spares_interp; inl
  | apply spares_elems | apply spares_elems_n | unfold reject; sp1 ].
Ltac spx := spv; try (split; [inl|exact Logic.I]).
Ltac keep R K := match type of R with ran _ ?x _ ?y => assert (K : same vmec_members x y) by
  (eapply ran_same; [|exact R]; try unfold vet; try unfold store_profiles; try unfold store_half; try unfold report; try unfold radial_grids; spx) end.
Lemma ran_reject b msg (o : obj) a o' : ran (reject S b msg) o a o' -> b = false /\ o' = o.
Proof. unfold reject. destruct b; intros R; [destruct R as (ev & R); discriminate|]. apply ran_ret in R as (_ & ->). auto. Qed.
Lemma ne_iff a b : ne a b = false <-> a = b.
Proof. unfold ne. rewrite negb_false_iff. apply Z.eqb_eq. Qed.
Lemma ran_cols ns l (o : obj) a o' : ran (vet_cols S ns l) o a o' -> o' = o /\ forall x, In x l -> acols (snd x) = ns.
Proof.
  induction l as [|x l IH]; cbn [vet_cols fold_right]; intros R.
  - apply ran_ret in R as (_ & ->). split; [auto|intros ? []].
  - apply ran_bind in R as (u & o1 & R1 & R2). apply ran_reject in R1 as (E & ->). apply ne_iff in E. apply IH in R2 as (-> & K).
    split; [auto|]. intros y [<-|Hy]; auto.
Qed.
Lemma ran_rows l (o : obj) a o' : ran (vet_rows S l) o a o' -> o' = o /\ forall x, In x l -> arows (snd (fst x)) = snd x.
Proof.
  induction l as [|x l IH]; cbn [vet_rows fold_right]; intros R.
  - apply ran_ret in R as (_ & ->). split; [auto|intros ? []].
  - apply ran_bind in R as (u & o1 & R1 & R2). apply ran_reject in R1 as (E & ->). apply ne_iff in E. apply IH in R2 as (-> & K).
    split; [auto|]. intros y [<-|Hy]; auto.
Qed.
Lemma znth_lt {T} (l : list T) i x : znth l i = Some x -> 0 <= i < Z.of_nat (List.length l).
Proof.
  unfold znth. destruct (Z.ltb_spec i 0); [discriminate|]. intros E. assert (nth_error l (Z.to_nat i) <> None) by congruence.
  apply nth_error_Some in H0. lia.
Qed.
(** The arrays of mode numbers have as many elements as they say *)
Definition modes_fit (o : obj) : Prop := forall f, In f [N_xm; N_xn; N_xm_nyq; N_xn_nyq] -> Z.of_nat (List.length (adata (oN o f))) = asize (oN o f).
Lemma wf_modes_fit (o : obj) : wf_obj o -> modes_fit o.
Proof. intros W f _. apply (wf_N _ W f). Qed.
Lemma vetn_inside (o : obj) f i x : modes_fit o -> In f [N_xm; N_xn; N_xm_nyq; N_xn_nyq] -> znth (adata (oN o f)) i = Some x -> 0 <= i < asize (oN o f).
Proof. intros W Hf E. pose proof (znth_lt _ _ _ E) as K. rewrite (W f Hf) in K. exact K. Qed.
Lemma getn_inside (o : obj) f i x : wf_obj o -> znth (adata (oN o f)) i = Some x -> 0 <= i < asize (oN o f) /\ elemN o f i = Some x.
Proof.
  intros W E. pose proof (znth_lt _ _ _ E) as K. destruct (wf_N _ W f) as ((_ & _ & L) & C). unfold asize.
  assert (Q : 0 <= i < arows (oN o f) * acols (oN o f)) by lia. split; [exact Q|]. unfold elemN, asize.
  rewrite (proj2 (andb_true_iff _ _)); [exact E|]. rewrite Z.leb_le, Z.ltb_lt. exact Q.
Qed.

(** What validation establishes *)
Lemma ran_vet v (o : obj) a o' : modes_fit o -> ran (vet S v) o a o' -> exists n mn mq nt ntq,
  oI o I_nfp = Some n /\ oI o I_mnmax = Some mn /\ oI o I_mnmax_nyq = Some mq /\ oI o I_ntor = Some nt /\ oI o I_ntor_nyq = Some ntq /\
  2 <= v_ns S v /\ 1 <= mn /\ 1 <= mq /\ INT_MIN <= n * nt <= INT_MAX /\ INT_MIN <= n * ntq <= INT_MAX /\
  acols (v_rmnc S v) = v_ns S v /\ arows (v_rmnc S v) = mn.
Proof.
  intros W. unfold vet. cbv zeta. intros R.
  Ltac vstep := match goal with
    | H : ran (bind (reject _ _ _) _) _ _ _ |- _ => let a := fresh "a" in let o := fresh "o" in let R := fresh "R" in let E := fresh "Q" in
        apply ran_bind in H as (a & o & R & H); apply ran_reject in R as (E & ->); clear a
    | H : ran (bind (if _ =? 0 then Ret tt else _) _) ?o _ _ |- _ => let a := fresh "a" in let o1 := fresh "o" in let R := fresh "R" in
        apply ran_bind in H as (a & o1 & R & H);
        let K := fresh "K" in assert (K : o1 = o) by
          (match type of R with ran (if ?b then _ else _) _ _ _ => destruct b end; repeat first [vstep|ran1|apply ran_reject in R as (_ & ->)]; reflexivity);
        subst o1; clear R a
    | _ => ran1
    end.
  repeat vstep.
  match goal with H : ran (vet_cols _ _ _) _ _ _ |- _ => apply ran_cols in H as (-> & Kc) end.
  match goal with H : ran (vet_rows _ _) _ _ _ |- _ => apply ran_rows in H as (-> & Kr) end.
  repeat match goal with H : ne _ _ = false |- _ => apply ne_iff in H end.
  repeat match goal with H : znth _ _ = Some _ |- _ => apply vetn_inside in H; [|exact W|cbn; tauto] end.
  do 5 eexists. do 5 (split; [eassumption|]).
  match goal with H : (v_ns S v <? 2) = false |- _ => apply Z.ltb_ge in H end.
  pose proof (Kc _ (or_introl eq_refl)). pose proof (Kr _ (or_introl eq_refl)). cbn [fst snd] in *.
  repeat split; try assumption; try lia.
Qed.

Lemma ran_report v (o : obj) a o' : ran (report S v) o a o' -> exists vb, oI o I_verbose = Some vb /\
  (1 < vb -> 4 <= acols (v_rmnc S v) /\ 4 <= arows (v_rmnc S v)).
Proof.
  unfold report. intros R. repeat ran1. eexists. split; [eassumption|]. intros Hv.
  rewrite (proj2 (Z.ltb_lt 0 _)) in R by lia. repeat ran1. rewrite (proj2 (Z.ltb_lt 1 _)) in R by lia. repeat ran1.
  repeat match goal with H : ran (for_ 0 4 _ _) _ _ _ |- _ =>
    eapply ran_for with (L := []) (j := 3) in H; [|intros; sp|lia]; destruct H as (? & ? & ? & ? & _ & H); repeat ran1 end.
  repeat match goal with H : ran (mget _ _ _) _ _ _ |- _ => apply ran_mget in H as (? & ? & _ & ->) end. lia.
Qed.
Lemma ran_interp f mn n x0 full half (o : obj) a o' : ran (interp S f mn n x0 full half) o a o' ->
  forall k, 0 <= k < mn -> znth (adata (oN o N_xm)) k = Some (Some 1) -> 3 <= acols x0.
Proof.
  unfold interp. intros R k Hk Ek. repeat ran1.
  match goal with H : ran (for_ 0 mn _ _) _ _ _ |- _ => eapply ran_for with (L := []) (j := k) in H; [|intros; sp|lia];
    destruct H as (s1 & p1 & s2 & p2 & K & H); apply ran_bind in H as (m & p3 & Rm & H); apply ran_getn in Rm as (Em & ->);
    rename H into R9 end.
  assert (Q : oN p1 N_xm = oN o N_xm) by (apply (K (MN N_xm)); intros []). rewrite Q, Ek in Em. injection Em as <-.
  change (irem 1 2) with (Ret (S := S) 1) in R9. repeat ran1. change (1 =? 0) with false in R9. change (1 =? 1) with true in R9. cbv iota in R9.
  repeat ran1. repeat match goal with H : ran (mget _ _ _) _ _ _ |- _ => apply ran_mget in H as (? & ? & _ & ->) end. lia.
Qed.

(** From a normal return *)
Theorem returned_needs_fit (o : obj) v o' ev : modes_fit o -> vmec_ok v o o' ev -> exists n mn mq nt ntq mp vb,
  oI o I_nfp = Some n /\ oI o I_mnmax = Some mn /\ oI o I_mnmax_nyq = Some mq /\ oI o I_ntor = Some nt /\ oI o I_ntor_nyq = Some ntq /\
  oI o I_mpol = Some mp /\ oI o I_verbose = Some vb /\
  2 <= v_ns S v /\ 1 <= mn /\ 1 <= mq /\
  (v_ns S v = 2 -> forall k, elemN o N_xm k <> Some (Some 1)) /\
  (1 < vb -> 4 <= v_ns S v /\ 4 <= mn) /\
  INT_MIN <= n * nt <= INT_MAX /\ INT_MIN <= n * ntq <= INT_MAX /\
  INT_MIN <= 6 * mp <= INT_MAX /\ INT_MIN <= 2 * nt - 1 /\ 2 * nt <= INT_MAX.
Proof.
  intros W E. assert (R : ran (init_from_vmec S v) o tt o') by (exists ev; exact E). clear E. unfold init_from_vmec in R.
  assert (Kn : forall (x y : obj), same vmec_members x y -> oN y N_xm = oN x N_xm).
  { intros x y K. apply (K (MN N_xm)). cbn. intuition discriminate. }
  assert (Ki : forall (x y : obj) f, same vmec_members x y -> In f [I_nfp; I_mnmax; I_mnmax_nyq; I_ntor; I_ntor_nyq; I_mpol; I_verbose] -> oI y f = oI x f).
  { intros x y f K Hf. apply (K (MI f)). cbn in *. intuition (subst; try discriminate; congruence). }
  apply ran_bind in R as (nsin & o0 & R0 & R). apply ran_int in R0 as (-> & -> & Bn).
  apply ran_bind in R as (? & o1 & R0 & R). keep R0 K1. pose proof (ran_seti _ _ _ _ _ R0) as E1. clear R0.
  assert (W1 : modes_fit o1) by (subst o1; exact W).
  apply ran_bind in R as (? & o2 & R0 & R). pose proof R0 as Rv.
  keep R0 K2. clear R0.
  apply ran_bind in R as (? & o3 & R0 & R). keep R0 K3. clear R0.
  apply ran_bind in R as (? & o4 & R0 & R). keep R0 K4. clear R0.
  apply ran_bind in R as (? & o5 & R0 & R). pose proof R0 as Rr.
  keep R0 K5. clear R0.
  apply ran_bind in R as ((full & half) & o6 & R0 & R). keep R0 K6. clear R0.
  apply ran_bind in R as (mn & o7 & R0 & R). apply ran_geti in R0 as (Emn & ->).
  apply ran_bind in R as (asy & o7 & R0 & R). apply ran_getb in R0 as (Eas & ->).
  apply ran_bind in R as (? & o7 & R0 & R). pose proof R0 as Ri. keep R0 K7. clear R0.
  apply ran_bind in R as (? & o8 & R0 & R). keep R0 K8. clear R0.
  apply ran_bind in R as (? & o9 & R0 & R). keep R0 K9. clear R0.
  apply ran_bind in R as (mp & p1 & R0 & R). apply ran_geti in R0 as (Emp & ->).
  apply ran_bind in R as (pr1 & p1 & R0 & R). apply ran_int in R0 as (-> & -> & B1).
  apply ran_bind in R as (? & p1 & R0 & R). keep R0 L1. clear R0.
  apply ran_bind in R as (nt & p2 & R0 & R). apply ran_geti in R0 as (Ent & ->).
  apply ran_bind in R as (pr2 & p2 & R0 & R). apply ran_int in R0 as (-> & -> & B2).
  apply ran_bind in R as (pr3 & p2 & R0 & R). apply ran_int in R0 as (-> & -> & B3). clear R.
  assert (S4 : same vmec_members o o4) by (eapply same_trans; [exact K1|]; eapply same_trans; [exact K2|]; eapply same_trans; [exact K3|exact K4]).
  assert (S6 : same vmec_members o o6) by (eapply same_trans; [exact S4|]; eapply same_trans; [exact K5|exact K6]).
  assert (S9 : same vmec_members o o9) by (eapply same_trans; [exact S6|]; eapply same_trans; [exact K7|]; eapply same_trans; [exact K8|exact K9]).
  assert (T1 : same vmec_members o p1) by (eapply same_trans; [exact S9|exact L1]).
  destruct (ran_vet v o1 _ _ W1 Rv) as (n & mn' & mq & nt' & ntq & En & Em & Eq & Et & Etq & V1 & V2 & V3 & V4 & V5 & V6 & V7).
  destruct (ran_report v _ _ _ Rr) as (vb & Evb & V8).
  rewrite (Ki o o1) in En, Em, Eq, Et, Etq by (auto; cbn; tauto).
  rewrite (Ki o _ _ S6) in Emn by (cbn; tauto). rewrite (Ki o _ _ S9) in Emp by (cbn; tauto).
  rewrite (Ki o _ _ T1) in Ent by (cbn; tauto). rewrite (Ki o _ _ S4) in Evb by (cbn; tauto).
  assert (nt' = nt) by congruence. assert (mn' = mn) by congruence. subst nt' mn'.
  exists n, mn, mq, nt, ntq, mp, vb. do 7 (split; [assumption|]). do 3 (split; [lia|]).
  split. { intros H2 k Ek. unfold elemN in Ek. destruct (_ && _) eqn:B in Ek; [|discriminate].
    apply andb_true_iff in B. rewrite Z.leb_le, Z.ltb_lt in B.
    pose proof (ran_interp _ _ _ _ _ _ _ _ _ Ri k) as X. rewrite (Kn _ _ S6) in X. rewrite V6 in X.
    assert (k < mn). { revert Rv. unfold vet. cbv zeta. intros Rv. repeat vstep. repeat match goal with H : ne _ _ = false |- _ => apply ne_iff in H end.
      match goal with H : asize (oN o1 N_xm) = ?m, H' : oI o1 I_mnmax = Some ?m |- _ => rewrite (Kn _ _ K1) in H; rewrite (Ki o o1) in H' by (auto; cbn; tauto);
        assert (m = mn) by congruence end. lia. }
    specialize (X ltac:(lia) Ek). lia. }
  split. { intros Hv. specialize (V8 Hv). lia. } lia.
Qed.

Theorem returned_needs (o : obj) v o' ev : wf_obj o -> vmec_ok v o o' ev -> exists n mn mq nt ntq mp vb,
  oI o I_nfp = Some n /\ oI o I_mnmax = Some mn /\ oI o I_mnmax_nyq = Some mq /\ oI o I_ntor = Some nt /\ oI o I_ntor_nyq = Some ntq /\
  oI o I_mpol = Some mp /\ oI o I_verbose = Some vb /\
  2 <= v_ns S v /\ 1 <= mn /\ 1 <= mq /\
  (v_ns S v = 2 -> forall k, elemN o N_xm k <> Some (Some 1)) /\
  (1 < vb -> 4 <= v_ns S v /\ 4 <= mn) /\
  INT_MIN <= n * nt <= INT_MAX /\ INT_MIN <= n * ntq <= INT_MAX /\
  INT_MIN <= 6 * mp <= INT_MAX /\ INT_MIN <= 2 * nt - 1 /\ 2 * nt <= INT_MAX.
Proof. intros W. apply returned_needs_fit. now apply wf_modes_fit. Qed.

(** C28: exactly when init_from_vmec returns, for arguments of the documented shapes *)
Lemma last_in (o : obj) i v : vbase o i -> well_shaped o i v -> 1 <= mnmax i /\ 1 <= mnmaxq i.
Proof.
  intros B W. destruct (ws_size _ _ _ _ W) as (Z1 & _). destruct (ws_sizeq _ _ _ _ W) as (Z2 & _).
  pose proof (ws_first _ _ _ _ W N_xm ltac:(cbn; tauto)) as F1. pose proof (ws_first _ _ _ _ W N_xm_nyq ltac:(cbn; tauto)) as F2.
  unfold elemN in F1, F2. rewrite Z1 in F1. rewrite Z2 in F2.
  destruct (_ && _) eqn:A1 in F1; [|discriminate]. destruct (_ && _) eqn:A2 in F2; [|discriminate].
  apply andb_true_iff in A1, A2. rewrite !Z.ltb_lt in A1, A2. lia.
Qed.
Theorem returns_exactly (o : obj) i v d : vbase o i -> wf_obj o -> vholds v i d -> well_shaped o i v ->
  d_ns S d <= INT_MAX -> mnmax i <= INT_MAX -> mnmaxq i <= INT_MAX ->
  ((exists o' ev, vmec_ok v o o' ev) <-> room i d /\ vints i d).
Proof.
  intros B W H Sh M1 M2 M3. destruct (last_in _ _ _ B Sh) as (P1 & P2). split.
  - intros (o' & ev & E). destruct (returned_needs _ _ _ _ W E) as (n & mn & mq & nt & ntq & mp & vb & E1 & E2 & E3 & E4 & E5 & E6 & E7 & N1 & N2 & N3 & N4 & N5 & N6).
    rewrite (vb_nfp _ _ _ B) in E1. rewrite (vb_mnmax _ _ _ B) in E2. rewrite (vb_mnmaxq _ _ _ B) in E3. rewrite (vb_ntor _ _ _ B) in E4.
    rewrite (vb_ntorq _ _ _ B) in E5. rewrite (vb_mpol _ _ _ B) in E6. rewrite (vb_verb _ _ _ B) in E7.
    injection E1 as <-. injection E2 as <-. injection E3 as <-. injection E4 as <-. injection E5 as <-. injection E6 as <-. injection E7 as <-.
    rewrite (vh_ns _ _ _ _ H) in *. split; [|unfold vints; lia]. split; [|lia].
    destruct (Z.eq_dec (d_ns S d) 2) as [Q|Q]; [right|left; lia]. intros k Hk Ek. apply (N4 Q k).
    destruct (vb_xm _ _ _ B) as (Y1 & Y2 & Y3). unfold elemN, asize.
    rewrite Y1, Y2, Z.mul_1_r. rewrite (proj2 (andb_true_iff _ _)) by (rewrite Z.leb_le, Z.ltb_lt; lia). destruct Y3 as (_ & Y4).
    rewrite Y4 by lia. now rewrite Ek.
  - intros (Rm & Vi). destruct (vmec_total o i v d (mkAcc _ _ _ _ _ B W H Sh Rm Vi)) as (o' & E & _). eauto.
Qed.
(** ... and what happens otherwise *)
Theorem otherwise_ub (o : obj) i v d : vbase o i -> wf_obj o -> vholds v i d -> well_shaped o i v ->
  d_ns S d <= INT_MAX -> mnmax i <= INT_MAX -> mnmaxq i <= INT_MAX ->
  INT_MIN <= nfp i * ntor i <= INT_MAX -> INT_MIN <= nfp i * ntorq i <= INT_MAX ->
  ((exists why, run (init_from_vmec S v) o = RUB why) <-> ~ (room i d /\ vints i d)).
Proof.
  intros B W H Sh M1 M2 M3 M4 M5. rewrite <- (returns_exactly o i v d) by assumption. destruct (last_in _ _ _ B Sh) as (P1 & P2).
  assert (R : vready o i).
  { destruct B. constructor; try assumption; try lia.
    intros f [<-|[<-|[<-|[<-|[<-|[]]]]]]; eauto. }
  assert (Hn : 1 - INT_MAX <= v_ns S v <= INT_MAX) by (pose proof (ws_ns _ _ _ _ Sh); rewrite (vh_ns _ _ _ _ H) in *; unfold INT_MAX in *; lia).
  pose proof (rejects_exactly o i v R Hn) as X. split.
  - intros (why & E) (o' & ev & E'). unfold vmec_ok in E'. congruence.
  - intros N. destruct (run (init_from_vmec S v) o) as [[] o' ev|m o' ev|why] eqn:E.
    + exfalso. apply N. exists o', ev. exact E.
    + exfalso. apply (proj2 X); [exists m, o', ev; reflexivity|exact Sh].
    + eauto.
Qed.
End VmecNeeds.
