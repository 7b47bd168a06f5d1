(** Consequences of the functional correctness of run(). *)
From Coq Require Import ZArith QArith List String Bool Lia Permutation Reals.RIneq.
From Verif Require Import Scalar Prog Model Wp Func Step TrigProof InitProof SurfProof RunProof Par FuncExt Spec.
Import ListNotations.
Local Open Scope Z_scope.

Section RunThms.
Context {S : Scalar}.
Notation obj := (obj S).

Lemma elem_vec (o : obj) f n g b : vec_is (oA o f) n g -> 0 <= b < n -> elem o f b = Some (Some (g b)).
Proof.
  intros V Hb. unfold elem. rewrite (vec_is_asize _ _ _ V). destruct V as (_ & _ & _ & V). zb. cbn. now apply V.
Qed.
Lemma elem2_mat (o : obj) f r c g k b : mat_is (oA o f) r c g -> 0 <= k < r -> 0 <= b < c ->
  elem2 o f k b = Some (Some (g k b)).
Proof.
  intros (_ & _ & E1 & E2 & _ & V) Hk Hb. unfold elem2. rewrite E1, E2. zb. cbn. now apply V.
Qed.
Lemma elemN_vec (o : obj) f n g k : vec_is (oN o f) n g -> 0 <= k < n -> elemN o f k = Some (Some (g k)).
Proof.
  intros V Hb. unfold elemN. rewrite (vec_is_asize _ _ _ V). destruct V as (_ & _ & _ & V). zb. cbn. now apply V.
Qed.

Lemma run_total (o : obj) i : valid o i ->
  exists o', run_ok o o' (run_events S i) /\
    run_frame S (asym i) o o' /\ repr o' i /\ grid_ok S o' i /\ results o' i /\ wf_obj o'.
Proof.
  intros (Hok & R & W). destruct (bx_run_ok S i Hok o R W) as (o' & E & RF & R' & G & Q).
  exists o'. splits; auto. constructor; intros f.
  - destruct (chN f) eqn:Ef.
    + destruct f; try discriminate; (split; [eapply vec_is_wf; apply Q|]).
      * apply (q_xm_b _ _ _ Q).
      * apply (q_xn_b _ _ _ Q).
    + rewrite (rf_N _ _ _ _ RF) by auto. apply W.
  - destruct (chA (asym i) f) eqn:Ef; [|rewrite (rf_A _ _ _ _ RF) by auto; apply W].
    destruct f; try discriminate;
      try (eapply vec_is_wf; apply Q; fail); try (eapply vec_is_wf; apply G; fail);
      try (eapply mat_is_wf; apply G; fail);
      (eapply mat_is_wf; apply (q_out _ _ _ Q)); cbn in Ef; try rewrite Ef; unfold outs;
      try (destruct (asym i)); cbn; tauto.
Qed.

Lemma run_ok_det (o o1 o2 : obj) e1 e2 : run_ok o o1 e1 -> run_ok o o2 e2 -> o1 = o2 /\ e1 = e2.
Proof. unfold run_ok. intros H1 H2. rewrite H1 in H2. injection H2 as -> ->. auto. Qed.

(** Two runs with the same inputs fill in the same values. *)
Lemma results_same (o o' : obj) i : results o i -> results o' i -> same_outputs (asym i) o o'.
Proof.
  intros Q Q'. constructor.
  - split; [now rewrite (q_ns_b _ _ _ Q), (q_ns_b _ _ _ Q')|now rewrite (q_mnboz _ _ _ Q), (q_mnboz _ _ _ Q')].
  - split; eapply vec_is_eq; eauto using q_xm_b, q_xn_b.
  - intros f Hf. cbn in Hf.
    repeat (destruct Hf as [<-|Hf]; [first
      [ eapply vec_is_eq; [apply Q|apply Q']
      | eapply mat_is_eq; [apply (q_out _ _ _ Q)|apply (q_out _ _ _ Q')]; unfold outs; destruct (asym i); cbn; tauto ]|]).
    contradiction.
  - intros Ha f Hf. eapply mat_is_eq; [apply (q_out _ _ _ Q)|apply (q_out _ _ _ Q')];
      rewrite Ha; unfold outs, asym_outs; apply in_or_app; right; cbn in *; tauto.
Qed.

Lemma same_inputs_repr (o o' : obj) i : same_inputs o o' -> repr o i -> repr o' i.
Proof.
  intros [H1 H2 H3 H4 H5] R. rewrite (r_asym _ _ _ R) in H5.
  assert (HA : forall f, In f input_arrays_asym -> asym i = true -> oA o f = oA o' f).
  { intros f Hf Ha. apply H5; auto. now rewrite Ha. }
  destruct R; constructor;
    try (rewrite <- H1 by (cbn; tauto); assumption);
    try (rewrite <- H2; assumption);
    try (rewrite <- H3 by (cbn; tauto); assumption);
    try (rewrite <- H4 by (cbn; tauto); assumption);
    intros Ha; rewrite <- HA by (cbn; tauto); auto.
Qed.

(** All the members after a run are determined by the inputs and by the members run() leaves alone. *)
Lemma run_members (o o' r r' : obj) i :
  run_frame S (asym i) o r -> grid_ok S r i -> results r i ->
  run_frame S (asym i) o' r' -> grid_ok S r' i -> results r' i ->
  (forall f, chI f = false -> oI o f = oI o' f) -> (forall f, oB o f = oB o' f) ->
  (forall f, chF f = false -> oF o f = oF o' f) -> (forall f, chN f = false -> oN o f = oN o' f) ->
  (forall f, chA (asym i) f = false -> oA o f = oA o' f) ->
  obj_eq r r'.
Proof.
  intros RF G Q RF' G' Q' HI HB HF HN HA.
  pose proof (results_same _ _ _ Q Q') as SO. constructor; intros f.
  - destruct (chI f) eqn:Ef; [|rewrite (rf_I _ _ _ _ RF), (rf_I _ _ _ _ RF') by auto; auto].
    destruct f; try discriminate; destruct G, G'; congruence.
  - rewrite (rf_B _ _ _ _ RF), (rf_B _ _ _ _ RF'); auto.
  - destruct (chF f) eqn:Ef; [|rewrite (rf_F _ _ _ _ RF), (rf_F _ _ _ _ RF') by auto; auto].
    destruct f; try discriminate; destruct G, G'; congruence.
  - destruct (chN f) eqn:Ef; [|rewrite (rf_N _ _ _ _ RF), (rf_N _ _ _ _ RF') by auto; auto].
    destruct f; try discriminate; apply SO.
  - destruct (chA (asym i) f) eqn:Ef; [|rewrite (rf_A _ _ _ _ RF), (rf_A _ _ _ _ RF') by auto; auto].
    destruct f; try discriminate;
      try (apply (so_A _ _ _ SO); cbn; tauto);
      try (apply (so_As _ _ _ SO); [exact Ef|cbn; tauto]);
      try (eapply vec_is_eq; [apply G|apply G']); try (eapply mat_is_eq; [apply G|apply G']).
Qed.

(** ** C02 *)
Theorem mode_table (o : obj) i : valid o i ->
  exists o' ev, run_ok o o' ev /\
  let n := (2 * nboz i + 1) * (mboz i - 1) + nboz i + 1 in
  oI o' I_mnboz = Some n /\
  exists ms ns : Z -> Z,
    vec_is (oN o' N_xm_b) n ms /\ vec_is (oN o' N_xn_b) n ns /\
    ms 0 = 0 /\ ns 0 = 0 /\
    (forall j k, 0 <= j < n -> 0 <= k < n -> ms j = ms k -> ns j = ns k -> j = k) /\
    (forall k, 0 <= k < n -> exists q, ns k = q * nfp i) /\
    (forall m q, (exists k, 0 <= k < n /\ ms k = m /\ ns k = q * nfp i) <->
       0 <= m <= mboz i - 1 /\ - nboz i <= q <= nboz i /\ (m = 0 -> 0 <= q)).
Proof.
  intros V. destruct (run_total o i V) as (o' & E & _ & _ & _ & Q & _). destruct V as (Hok & _ & _).
  exists o', (run_events S i). split; auto. cbv zeta. fold (mnboz i).
  pose proof (ok_nboz _ _ Hok) as Hn. pose proof (ok_mboz _ _ Hok) as Hm. pose proof (ok_nfp _ _ Hok) as Hf.
  pose proof (mnboz_alt i) as Halt.
  split; [apply Q|]. exists (xm_b i), (xn_b i).
  assert (Z0 : mode_m i 0 = 0 /\ mode_n i 0 = 0) by (apply mode_at0; lia).
  splits; try apply Q.
  - apply Z0.
  - unfold xn_b. destruct Z0 as (_ & ->). reflexivity.
  - unfold xm_b, xn_b. intros j k Hj Hk Em En. apply Z.mul_reg_r in En; [|lia]. clear E Q Z0.
    unfold mode_m in Em. unfold mode_n in En.
    destruct (Z.leb_spec j (nboz i)), (Z.leb_spec k (nboz i)).
    + exact En.
    + assert (0 <= (k - (nboz i + 1)) / (2 * nboz i + 1)) by (apply Z.div_pos; lia). lia.
    + assert (0 <= (j - (nboz i + 1)) / (2 * nboz i + 1)) by (apply Z.div_pos; lia). lia.
    + pose proof (Z.div_mod (j - (nboz i + 1)) (2 * nboz i + 1)).
      pose proof (Z.div_mod (k - (nboz i + 1)) (2 * nboz i + 1)). nia.
  - intros k _. exists (mode_n i k). reflexivity.
  - intros m q. split.
    + intros (k & Hk & <- & Eq). unfold xn_b in Eq. apply Z.mul_reg_r in Eq; [|lia]. subst q.
      unfold xm_b. splits.
      * apply mode_m_bounds; auto.
      * apply mode_m_bounds; auto.
      * apply mode_n_bounds; auto.
      * apply mode_n_bounds; auto.
      * unfold mode_m, mode_n. destruct (Z.leb_spec k (nboz i)); [lia|].
        assert (0 <= (k - (nboz i + 1)) / (2 * nboz i + 1)) by (apply Z.div_pos; lia). lia.
    + intros (Hmm & Hq & H0). destruct (Z.eq_dec m 0) as [->|Nm].
      * exists q. unfold xm_b, xn_b. destruct (mode_at0 i q) as (-> & ->); [lia|].
        rewrite Halt. split; [nia|auto].
      * exists (nboz i + 1 + (m - 1) * (2 * nboz i + 1) + (q + nboz i)). unfold xm_b, xn_b.
        destruct (mode_at i m q) as (-> & ->); [lia|lia|].
        rewrite Halt. split; [nia|auto].
Qed.

Theorem no_mboz_mode (o : obj) i : valid o i ->
  exists o' ev, run_ok o o' ev /\ forall k, elemN o' N_xm_b k <> Some (Some (mboz i)).
Proof.
  intros V. destruct (run_total o i V) as (o' & E & _ & _ & _ & Q & _). destruct V as (Hok & _ & _).
  exists o', (run_events S i). split; auto. intros k Hk.
  pose proof (q_xm_b _ _ _ Q) as Vk.
  destruct (Z.ltb_spec k 0).
  - unfold elemN in Hk. destruct (Z.leb_spec 0 k); [lia|]. discriminate.
  - destruct (Z.ltb_spec k (mnboz i)).
    + rewrite (elemN_vec _ _ _ _ _ Vk) in Hk by lia. injection Hk as Hk. unfold xm_b in Hk.
      pose proof (mode_m_bounds i Hok k). lia.
    + unfold elemN in Hk. rewrite (vec_is_asize _ _ _ Vk) in Hk. destruct (Z.ltb_spec k (mnboz i)); [lia|].
      rewrite andb_false_r in Hk. discriminate.
Qed.

(** ** C04 *)
Theorem inputs_kept (o : obj) i : valid o i ->
  exists o' ev, run_ok o o' ev /\
    (forall f, In f input_ints -> oI o' f = oI o f) /\
    (forall f, oB o' f = oB o f) /\
    (forall f, In f [F_aspect; F_toroidal_flux] -> oF o' f = oF o f) /\
    (forall f, In f input_intvecs -> oN o' f = oN o f) /\
    (forall f, In f (input_arrays_sym ++ input_arrays_asym ++ flux_arrays) -> oA o' f = oA o f).
Proof.
  intros V. destruct (run_total o i V) as (o' & E & RF & _). exists o', (run_events S i). splits; auto.
  - intros f Hf. apply (rf_I _ _ _ _ RF). cbn in Hf. destruct f; try reflexivity; intuition discriminate.
  - apply RF.
  - intros f Hf. apply (rf_F _ _ _ _ RF). cbn in Hf. destruct f; try reflexivity; intuition discriminate.
  - intros f Hf. apply (rf_N _ _ _ _ RF). cbn in Hf. destruct f; try reflexivity; intuition discriminate.
  - intros f Hf. apply (rf_A _ _ _ _ RF). cbn in Hf. destruct f; try reflexivity; intuition discriminate.
Qed.

(** ** C05 *)
Theorem run_idempotent (o : obj) i : valid o i ->
  exists o1 e1, run_ok o o1 e1 /\
  forall n, (1 <= n)%nat -> exists on en, run (run_times n) o = ROk tt on en /\ obj_eq o1 on.
Proof.
  intros V. destruct (run_total o i V) as (o1 & E1 & RF1 & R1 & G1 & Q1 & W1).
  exists o1, (run_events S i). split; auto.
  assert (H : forall n (x : obj), valid x i -> run_frame S (asym i) o x ->
    exists on en, run (run_times (Datatypes.S n)) x = ROk tt on en /\ obj_eq o1 on).
  { induction n as [|n IH]; intros x Vx RFx;
      destruct (run_total x i Vx) as (x1 & Ex & RFx1 & Rx & Gx & Qx & Wx); unfold run_ok in Ex.
    - exists x1, (run_events S i ++ []). split.
      + cbn [run_times]. rewrite bind_run, Ex. reflexivity.
      + pose proof (run_frame_trans _ _ _ _ _ RFx RFx1) as RF.
        eapply (run_members o o); eauto.
    - destruct (IH x1) as (on & en & En & Q).
      + split; [apply Vx|]. auto.
      + eapply run_frame_trans; eauto.
      + exists on, (run_events S i ++ en). split; auto.
        change (run_times (Datatypes.S (Datatypes.S n))) with
          (bind (bx_run S) (fun _ => run_times (S := S) (Datatypes.S n))).
        rewrite bind_run, Ex, En. reflexivity. }
  intros n Hn. destruct n as [|n]; [lia|]. apply H; auto. apply run_frame_refl.
Qed.

(** ** C06 *)
Theorem history_independent (o o' : obj) i : valid o i -> wf_obj o' -> same_inputs o o' ->
  exists r r' ev, run_ok o r ev /\ run_ok o' r' ev /\ same_outputs (asym i) r r'.
Proof.
  intros V W SI. destruct (run_total o i V) as (r & E & _ & _ & _ & Q & _).
  destruct V as (Hok & R & _).
  destruct (run_total o' i) as (r' & E' & _ & _ & _ & Q' & _).
  { split; auto. split; auto. eapply same_inputs_repr; eauto. }
  exists r, r', (run_events S i). splits; auto. now apply results_same.
Qed.

(** ** C07 *)
Theorem asym_outputs_untouched (o : obj) i : valid o i -> asym i = false ->
  exists o' ev, run_ok o o' ev /\ forall f, In f output_arrays_asym -> oA o' f = oA o f.
Proof.
  intros V Ha. destruct (run_total o i V) as (o' & E & RF & _). exists o', (run_events S i). split; auto.
  intros f Hf. apply (rf_A _ _ _ _ RF). rewrite Ha. cbn in Hf. destruct f; try reflexivity; intuition discriminate.
Qed.

Definition with_asym (i : Inp S) (a : bool) : Inp S :=
  {| asym := a; nfp := nfp i; mpol := mpol i; ntor := ntor i; mnmax := mnmax i; mpolq := mpolq i;
     ntorq := ntorq i; mnmaxq := mnmaxq i; nsin := nsin i; mboz := mboz i; nboz := nboz i; verb := verb i;
     xm := xm i; xn := xn i; xmq := xmq i; xnq := xnq i; nsurf := nsurf i; surf := surf i;
     sin_ := sin_ i; iota := iota i; rmnc := rmnc i; zmns := zmns i; lmns := lmns i; bmnc := bmnc i;
     bsubumnc := bsubumnc i; bsubvmnc := bsubvmnc i; rmns := rmns i; zmnc := zmnc i; lmnc := lmnc i;
     bmns := bmns i; bsubumns := bsubumns i; bsubvmns := bsubvmns i |}.
Lemma with_asym_ok i a : ok_inp i -> ok_inp (with_asym i a).
Proof. intros []. constructor; auto. Qed.
Lemma with_asym_repr (o : obj) i : repr o i -> repr (updB o B_asym (Some false)) (with_asym i false).
Proof. intros []. constructor; cbn; auto; discriminate. Qed.

(** Run with asym, then switch asym off and run again: the asymmetric results stay. *)
Theorem asym_outputs_stale (o : obj) i : valid o i -> asym i = true -> 1 <= nsurf i ->
  exists o1 e1 o2 e2,
    run_ok o o1 e1 /\ run_ok (updB o1 B_asym (Some false)) o2 e2 /\
    oB o2 B_asym = Some false /\ 1 <= asize (oA o2 A_bmns_b).
Proof.
  intros V Ha Hn. destruct (run_total o i V) as (o1 & E1 & RF1 & R1 & G1 & Q1 & W1).
  destruct V as (Hok & R & W).
  destruct (run_total (updB o1 B_asym (Some false)) (with_asym i false)) as (o2 & E2 & RF2 & R2 & _).
  { split; [apply with_asym_ok; auto|]. split; [now apply with_asym_repr|]. destruct W1. constructor; auto. }
  exists o1, (run_events S i), o2, (run_events S (with_asym i false)). splits; auto.
  - apply R2.
  - rewrite (rf_A _ _ _ _ RF2) by reflexivity. cbn.
    destruct (q_out _ _ _ Q1 A_bmns_b) as (_ & _ & Er & Ec & _).
    { rewrite Ha. cbn. tauto. }
    unfold asize. rewrite Er, Ec. pose proof (mnboz_pos i Hok). nia.
Qed.

(** ** C08 *)
Theorem surface_independent (o o' : obj) i i' b b' :
  valid o i -> valid o' i' -> same_setup i i' ->
  0 <= b < nsurf i -> 0 <= b' < nsurf i' ->
  same_surface i (surf i b) i' (surf i' b') ->
  exists r e r' e', run_ok o r e /\ run_ok o' r' e' /\
    (forall f k, In f sym_outs \/ (asym i = true /\ In f asym_outs) -> 0 <= k < mnboz i ->
       elem2 r f k b = elem2 r' f k b' /\ elem2 r f k b <> None) /\
    elem r A_Boozer_I b = elem r' A_Boozer_I b' /\ elem r A_Boozer_G b = elem r' A_Boozer_G b' /\
    (sin_ i (surf i b) = sin_ i' (surf i' b') -> elem r A_s_b b = elem r' A_s_b b').
Proof.
  intros V V' HS Hb Hb' HU.
  destruct (run_total o i V) as (r & E & _ & _ & _ & Q & _).
  destruct (run_total o' i' V') as (r' & E' & _ & _ & _ & Q' & _).
  exists r, (run_events S i), r', (run_events S i'). splits; auto.
  - intros f k Hf Hk.
    assert (Hin : In f (outs (asym i))).
    { unfold outs. destruct (asym i); [apply in_or_app; tauto|]. intuition discriminate. }
    rewrite (elem2_mat _ _ _ _ _ _ _ (q_out _ _ _ Q f Hin)) by auto.
    assert (Hin' : In f (outs (asym i'))) by now rewrite <- (ss_asym _ _ HS).
    rewrite (elem2_mat _ _ _ _ _ _ _ (q_out _ _ _ Q' f Hin')) by (rewrite <- ?(e_mnboz i i' HS); auto).
    split; [|discriminate]. now rewrite (e_o_coef i i' (surf i b) (surf i' b') HS HU).
  - rewrite (elem_vec _ _ _ _ _ (q_I _ _ _ Q)), (elem_vec _ _ _ _ _ (q_I _ _ _ Q')) by auto.
    now rewrite (e_bI i i' (surf i b) (surf i' b') HS HU).
  - rewrite (elem_vec _ _ _ _ _ (q_G _ _ _ Q)), (elem_vec _ _ _ _ _ (q_G _ _ _ Q')) by auto.
    now rewrite (e_bG i i' (surf i b) (surf i' b') HS HU).
  - intros Es. rewrite (elem_vec _ _ _ _ _ (q_s_b _ _ _ Q)), (elem_vec _ _ _ _ _ (q_s_b _ _ _ Q')) by auto.
    now rewrite Es.
Qed.

(** ** C10 *)
Definition with_verb (i : Inp S) (v : Z) : Inp S :=
  {| asym := asym i; nfp := nfp i; mpol := mpol i; ntor := ntor i; mnmax := mnmax i; mpolq := mpolq i;
     ntorq := ntorq i; mnmaxq := mnmaxq i; nsin := nsin i; mboz := mboz i; nboz := nboz i; verb := v;
     xm := xm i; xn := xn i; xmq := xmq i; xnq := xnq i; nsurf := nsurf i; surf := surf i;
     sin_ := sin_ i; iota := iota i; rmnc := rmnc i; zmns := zmns i; lmns := lmns i; bmnc := bmnc i;
     bsubumnc := bsubumnc i; bsubvmnc := bsubvmnc i; rmns := rmns i; zmnc := zmnc i; lmnc := lmnc i;
     bmns := bmns i; bsubumns := bsubumns i; bsubvmns := bsubvmns i |}.

Theorem verbose_prints_only (o : obj) i v : valid o i ->
  exists r e r' e', run_ok o r e /\ run_ok (updI o I_verbose (Some v)) r' e' /\
    obj_eq r' (updI r I_verbose (Some v)) /\ (v <= 0 -> e' = []).
Proof.
  intros V. destruct (run_total o i V) as (r & E & RF & R & G & Q & _).
  destruct (run_total (updI o I_verbose (Some v)) (with_verb i v)) as (r' & E' & RF' & R' & G' & Q' & _).
  { destruct V as (Hok & R0 & W). split; [destruct Hok; constructor; auto|]. split.
    - destruct R0. constructor; cbn; auto.
    - destruct W. constructor; auto. }
  exists r, (run_events S i), r', (run_events S (with_verb i v)). splits; auto.
  - change (asym (with_verb i v)) with (asym i) in *.
    apply (run_members (updI o I_verbose (Some v)) (updI o I_verbose (Some v)) r' _ (with_verb i v)); auto.
    + destruct RF as [F1 F2 F3 F4 F5]. constructor; auto. intros f Hf. cbn.
      destruct (ifield_eq_dec f I_verbose); auto.
    + destruct G. constructor; auto.
    + destruct Q. constructor; auto.
  - intros Hv. unfold run_events, head_events, init_events. change (verb (with_verb i v)) with v. zb. cbn.
    induction (all_surfs S (with_verb i v)) as [|b l IH]; cbn; auto. rewrite IH.
    unfold surf_events. change (verb (with_verb i v)) with v. zb. reflexivity.
Qed.

(** ** C20, C21 *)
Lemma accum_last {T} (n : Z) (p : Z -> bool) (g : Z -> T) (a : T) k0 : 0 <= k0 < n ->
  p k0 = true -> (forall k, k0 < k < n -> p k = false) ->
  accum n (fun k acc => if p k then g k else acc) a = g k0.
Proof.
  intros Hk Hp Hq.
  assert (H : forall m, 0 <= m -> k0 + 1 + m <= n ->
    accum (k0 + 1 + m) (fun k acc => if p k then g k else acc) a = g k0).
  { apply (natlike_ind (fun m => k0 + 1 + m <= n -> _ = _)).
    - intros _. rewrite Z.add_0_r, accum_succ by lia. now rewrite Hp.
    - intros m Hm IH Hn. replace (k0 + 1 + Z.succ m) with (k0 + 1 + m + 1) by lia.
      rewrite accum_succ by lia. rewrite Hq by lia. apply IH. lia. }
  replace n with (k0 + 1 + (n - (k0 + 1))) by lia. apply H; lia.
Qed.
Lemma accum_none {T} (n : Z) (p : Z -> bool) (g : Z -> T) (a : T) :
  (forall k, 0 <= k < n -> p k = false) -> accum n (fun k acc => if p k then g k else acc) a = a.
Proof.
  intros H. transitivity (accum n (fun _ acc => acc) a).
  - apply accum_ext. intros k x Hk. now rewrite H.
  - unfold accum. induction (Z.to_nat n); cbn; auto.
Qed.

(** Boozer_G and Boozer_I come from the last (0,0) entry of the Nyquist list, the "all" arrays
    from its first entry, whatever that is. *)
Theorem GI_last (o : obj) i k0 : valid o i -> 0 <= k0 < mnmaxq i ->
  xmq i k0 = 0 -> xnq i k0 = 0 ->
  (forall k, k0 < k < mnmaxq i -> xmq i k <> 0 \/ xnq i k <> 0) ->
  exists r ev, run_ok o r ev /\
    (forall b, 0 <= b < nsurf i ->
       elem r A_Boozer_I b = Some (Some (bsubumnc i k0 (surf i b))) /\
       elem r A_Boozer_G b = Some (Some (bsubvmnc i k0 (surf i b)))) /\
    (forall j, 0 <= j < nsin i ->
       elem r A_Boozer_I_all j = Some (Some (bsubumnc i 0 j)) /\
       elem r A_Boozer_G_all j = Some (Some (bsubvmnc i 0 j))).
Proof.
  intros V Hk Em En Hl. destruct (run_total o i V) as (r & E & _ & _ & _ & Q & _).
  exists r, (run_events S i). splits; auto.
  - assert (Hp : is00 i k0 = true) by (unfold is00; rewrite Em, En; reflexivity).
    assert (Hq : forall k, k0 < k < mnmaxq i -> is00 i k = false).
    { intros k Hk'. unfold is00. destruct (Hl k Hk'); [destruct (Z.eqb_spec (xmq i k) 0); [lia|reflexivity]|].
      destruct (Z.eqb_spec (xnq i k) 0); [lia|apply andb_false_r]. }
    intros b Hb. rewrite (elem_vec _ _ _ _ _ (q_I _ _ _ Q)), (elem_vec _ _ _ _ _ (q_G _ _ _ Q)) by auto.
    unfold bI, bG.
    rewrite (accum_last _ (is00 i) (fun k => bsubumnc i k (surf i b)) (f0 S) k0) by auto.
    rewrite (accum_last _ (is00 i) (fun k => bsubvmnc i k (surf i b)) (f0 S) k0) by auto. auto.
  - intros j Hj. rewrite (elem_vec _ _ _ _ _ (q_Iall _ _ _ Q)), (elem_vec _ _ _ _ _ (q_Gall _ _ _ Q)) by auto. auto.
Qed.

Theorem GI_missing (o : obj) i : valid o i ->
  (forall k, 0 <= k < mnmaxq i -> xmq i k <> 0 \/ xnq i k <> 0) ->
  exists r ev, run_ok o r ev /\
    (forall b, 0 <= b < nsurf i ->
       elem r A_Boozer_I b = Some (Some (f0 S)) /\ elem r A_Boozer_G b = Some (Some (f0 S))).
Proof.
  intros V Hl. destruct (run_total o i V) as (r & E & _ & _ & _ & Q & _).
  exists r, (run_events S i). split; auto.
  assert (Hq : forall k, 0 <= k < mnmaxq i -> is00 i k = false).
  { intros k Hk'. unfold is00. destruct (Hl k Hk'); [destruct (Z.eqb_spec (xmq i k) 0); [lia|reflexivity]|].
    destruct (Z.eqb_spec (xnq i k) 0); [lia|apply andb_false_r]. }
  intros b Hb. rewrite (elem_vec _ _ _ _ _ (q_I _ _ _ Q)), (elem_vec _ _ _ _ _ (q_G _ _ _ Q)) by auto.
  unfold bI, bG. now rewrite !(accum_none _ (is00 i)).
Qed.

Theorem s_b_selected (o : obj) i : valid o i ->
  exists r ev, run_ok o r ev /\ oI r I_ns_b = Some (nsurf i) /\ asize (oA r A_s_b) = nsurf i /\
    forall b, 0 <= b < nsurf i -> exists js, elemN o N_compute_surfs b = Some (Some js) /\
      elem r A_s_b b = elem o A_s_in js /\ elem r A_s_b b <> None.
Proof.
  intros V. destruct (run_total o i V) as (r & E & _ & _ & _ & Q & _). destruct V as (Hok & R & _).
  exists r, (run_events S i). splits; auto.
  - apply Q.
  - apply (vec_is_asize _ _ _ (q_s_b _ _ _ Q)).
  - intros b Hb. exists (surf i b).
    rewrite (elemN_vec _ _ _ _ _ (r_surf _ _ _ R)) by auto.
    rewrite (elem_vec _ _ _ _ _ (q_s_b _ _ _ Q)) by auto.
    rewrite (elem_vec _ _ _ _ _ (r_sin _ _ _ R)) by (apply (ok_surf _ _ Hok); auto).
    splits; auto. discriminate.
Qed.

(** ** C01 *)
Theorem run_safe (o : obj) i : valid o i ->
  exists o' ev, run_ok o o' ev /\
    (* every output is determinate and has the documented shape *)
    (forall f k b, In f sym_outs \/ (asym i = true /\ In f asym_outs) ->
       0 <= k < mnboz i -> 0 <= b < nsurf i -> exists x, elem2 o' f k b = Some (Some x)) /\
    (forall f, In f sym_outs \/ (asym i = true /\ In f asym_outs) ->
       arows (oA o' f) = mnboz i /\ acols (oA o' f) = nsurf i) /\
    (forall f b, In f [A_s_b; A_Boozer_I; A_Boozer_G] -> 0 <= b < nsurf i ->
       exists x, elem o' f b = Some (Some x)).
Proof.
  intros V. destruct (run_total o i V) as (r & E & _ & _ & _ & Q & _).
  assert (Hin : forall f, In f sym_outs \/ (asym i = true /\ In f asym_outs) -> In f (outs (asym i))).
  { intros f Hf. unfold outs. destruct (asym i); [apply in_or_app; tauto|]. intuition discriminate. }
  exists r, (run_events S i). splits; auto.
  - intros f k b Hf Hk Hb. rewrite (elem2_mat _ _ _ _ _ _ _ (q_out _ _ _ Q f (Hin f Hf))) by auto. eauto.
  - intros f Hf. destruct (q_out _ _ _ Q f (Hin f Hf)) as (_ & _ & H1 & H2 & _). auto.
  - intros f b Hf Hb. cbn in Hf. destruct Hf as [<-|[<-|[<-|[]]]].
    + rewrite (elem_vec _ _ _ _ _ (q_s_b _ _ _ Q)) by auto. eauto.
    + rewrite (elem_vec _ _ _ _ _ (q_I _ _ _ Q)) by auto. eauto.
    + rewrite (elem_vec _ _ _ _ _ (q_G _ _ _ Q)) by auto. eauto.
Qed.

(** A new object: run() reads members the constructor left uninitialised. *)
Theorem run_fresh : exists why, run (bx_run S) (obj_new S) = RUB why.
Proof. eexists. vm_compute. reflexivity. Qed.

(** Small inputs breaking one requirement each. *)
Definition tiny (mp mpq mb nf nbz nsu sf : Z) (x : Z) : Inp S :=
  {| asym := false; nfp := nf; mpol := mp; ntor := 0; mnmax := 1; mpolq := mpq; ntorq := 0; mnmaxq := 1;
     nsin := 1; mboz := mb; nboz := nbz; verb := 0;
     xm := fun _ => x; xn := fun _ => 0; xmq := fun _ => 0; xnq := fun _ => 0;
     nsurf := nsu; surf := fun _ => sf; sin_ := fun _ => f0 S; iota := fun _ => f1 S;
     rmnc := fun _ _ => f1 S; zmns := fun _ _ => f1 S; lmns := fun _ _ => f0 S;
     bmnc := fun _ _ => f1 S; bsubumnc := fun _ _ => f0 S; bsubvmnc := fun _ _ => f1 S;
     rmns := fun _ _ => f0 S; zmnc := fun _ _ => f0 S; lmnc := fun _ _ => f0 S;
     bmns := fun _ _ => f0 S; bsubumns := fun _ _ => f0 S; bsubvmns := fun _ _ => f0 S |}.
Lemma tiny_repr mp mpq mb nf nbz nsu sf x : 0 <= nsu ->
  repr (obj_of (tiny mp mpq mb nf nbz nsu sf x)) (tiny mp mpq mb nf nbz nsu sf x) /\
  wf_obj (obj_of (tiny mp mpq mb nf nbz nsu sf x)).
Proof. intros. split; [apply obj_of_repr|apply obj_of_wf]; cbn; lia. Qed.
(** The requirements are met by the base values. *)
Lemma tiny_ok : ok_inp (tiny 2 1 1 1 0 1 0 0).
Proof.
  constructor; cbn [tiny nfp mpol ntor mnmax mpolq ntorq mnmaxq nsin mboz nboz nsurf xm xn xmq xnq surf];
    unfold INT_MAX; try (intros; lia); try (vm_compute; discriminate);
    intros k _; split; vm_compute; discriminate.
Qed.

(** ** C09: at verbose > 1 the banner lines of two threads can be mixed up *)
Lemma csteps_cons (c1 c2 c3 : config (S := S)) : cstep c1 c2 -> csteps c2 c3 -> csteps c1 c3.
Proof.
  intros H1 H2. induction H2 as [c|c2 c3 c4 H2 IH H3].
  - eapply csteps_step; [apply csteps_refl|exact H1].
  - eapply csteps_step; [exact (IH H1)|exact H3].
Qed.

Theorem banner_mixed (o : obj) i b0 b1 : valid o i -> 1 < verb i ->
  is_schedule (nsurf i) [[b0]; [b1]] ->
  exists o1 ev c, run (run_head S) o = ROk tt o1 ev /\
    csteps (mkCfg (map (seqs S) [[b0]; [b1]]) o1 []) c /\
    cLog c = [(0%nat, mkEv "Solving for js_b=" [b0] []); (1%nat, mkEv "Solving for js_b=" [b1] [])].
Proof.
  intros (Hok & R & W) Hv HA.
  destruct (wp_run S _ _ _ _ (run_head_spec S i Hok o R W)) as ([] & o1 & ev & Eh & RF & R1 & G1 & Z1 & _).
  assert (Hb : forall b, In b [b0; b1] -> znth (adata (oN o1 N_compute_surfs)) b = Some (Some (surf i b))).
  { intros b Hb. destruct (r_surf _ _ _ R1) as (_ & _ & _ & V). apply V.
    apply (in_all S i Hok b). unfold all_surfs. eapply Permutation_in; [exact HA|exact Hb]. }
  pose proof (Hb b0 ltac:(cbn; auto)) as H0. pose proof (Hb b1 ltac:(cbn; auto)) as H1.
  pose proof (r_verb _ _ _ R1) as Ev.
  exists o1, ev. eexists. split; [exact Eh|]. split.
  - eapply csteps_cons; [cbn [map seqs]; eapply (cstep_one _ _ _ 0%nat); [reflexivity|]; cbn; rewrite H0; reflexivity|].
    eapply csteps_cons; [eapply (cstep_one _ _ _ 0%nat); [reflexivity|]; cbn; rewrite Ev; reflexivity|].
    replace (1 <? verb i) with true by (symmetry; apply Z.ltb_lt; exact Hv).
    eapply csteps_cons; [eapply (cstep_one _ _ _ 0%nat); [reflexivity|]; cbn; reflexivity|].
    eapply csteps_cons; [eapply (cstep_one _ _ _ 1%nat); [reflexivity|]; cbn; rewrite H1; reflexivity|].
    eapply csteps_cons; [eapply (cstep_one _ _ _ 1%nat); [reflexivity|]; cbn; rewrite Ev; reflexivity|].
    replace (1 <? verb i) with true by (symmetry; apply Z.ltb_lt; exact Hv).
    eapply csteps_cons; [eapply (cstep_one _ _ _ 1%nat); [reflexivity|]; cbn; reflexivity|].
    apply csteps_refl.
  - reflexivity.
Qed.
End RunThms.

Section Bad.
Variable S : Scalar.
Definition crash (i : Inp S) : Prop := exists why, run (bx_run S) (obj_of i) = RUB why.
(** base case runs *)
Lemma tiny_runs : exists o ev, run (bx_run S) (obj_of (tiny (S:=S) 2 1 1 1 0 1 0 0)) = ROk tt o ev.
Proof.
  destruct (run_total (obj_of (tiny (S:=S) 2 1 1 1 0 1 0 0)) (tiny 2 1 1 1 0 1 0 0)) as (o & E & _).
  - split; [apply tiny_ok|]. apply tiny_repr. lia.
  - eauto.
Qed.
Lemma bad_mpol : crash (tiny 1 1 1 1 0 1 0 0).     (* mpol = 1, the only mode has m = 0 *)
Proof. eexists. vm_compute. reflexivity. Qed.
Lemma bad_mpolq : crash (tiny 2 0 1 1 0 1 0 0).    (* mpol_nyq = 0 *)
Proof. eexists. vm_compute. reflexivity. Qed.
Lemma bad_mboz : crash (tiny 2 1 0 1 0 1 0 0).     (* mboz = 0 *)
Proof. eexists. vm_compute. reflexivity. Qed.
Lemma bad_nfp : crash (tiny 2 1 1 0 0 1 0 0).      (* nfp = 0 *)
Proof. eexists. vm_compute. reflexivity. Qed.
Lemma bad_surf : crash (tiny 2 1 1 1 0 1 1 0).     (* compute_surfs = [1] with ns_in = 1 *)
Proof. eexists. vm_compute. reflexivity. Qed.
Lemma bad_surf_neg : crash (tiny 2 1 1 1 0 1 (-1) 0).
Proof. eexists. vm_compute. reflexivity. Qed.
Lemma bad_xm : crash (tiny 2 1 1 1 0 1 0 2).       (* xm = mpol *)
Proof. eexists. vm_compute. reflexivity. Qed.
End Bad.

(** ** Concrete cases *)
Lemma ex_valid S asy : valid (obj_of (ex_inp S asy)) (ex_inp S asy).
Proof. split; [apply ex_ok|]. split; [apply ex_repr|apply ex_wf]. Qed.

Lemma ex_schedule : is_schedule 2 [[1]; [0]].
Proof. unfold is_schedule. cbn. apply perm_swap. Qed.

(** The example inputs with the selection 0, 2, 2 instead of 2, 0. *)
Definition ex_sel (S : Scalar) : Inp S :=
  let i := ex_inp S true in
  {| asym := asym i; nfp := nfp i; mpol := mpol i; ntor := ntor i; mnmax := mnmax i; mpolq := mpolq i;
     ntorq := ntorq i; mnmaxq := mnmaxq i; nsin := nsin i; mboz := mboz i; nboz := nboz i; verb := 0;
     xm := xm i; xn := xn i; xmq := xmq i; xnq := xnq i;
     nsurf := 3; surf := fun k => if k =? 0 then 0 else 2;
     sin_ := sin_ i; iota := iota i; rmnc := rmnc i; zmns := zmns i; lmns := lmns i; bmnc := bmnc i;
     bsubumnc := bsubumnc i; bsubvmnc := bsubvmnc i; rmns := rmns i; zmnc := zmnc i; lmnc := lmnc i;
     bmns := bmns i; bsubumns := bsubumns i; bsubvmns := bsubvmns i |}.
Lemma ex_sel_valid S : valid (obj_of (ex_sel S)) (ex_sel S).
Proof.
  split; [|split; [apply obj_of_repr|apply obj_of_wf]; cbn; lia].
  destruct (ex_ok S true). constructor; try assumption.
  - intros k Hk. change (0 <= k < 3) in Hk. pattern k. apply (ex_range3 k _ Hk); vm_compute; repeat split; discriminate.
Qed.
Lemma ex_sel_same S :
  same_setup (ex_inp S true) (ex_sel S) /\
  same_surface (ex_inp S true) (surf (ex_inp S true) 0) (ex_sel S) (surf (ex_sel S) 2).
Proof. split; constructor; auto. Qed.

(** (0,0) is the second entry of the Nyquist list instead of the first. *)
Definition ex_swap : Inp RS :=
  let i := ex_inp RS false in
  {| asym := asym i; nfp := nfp i; mpol := mpol i; ntor := ntor i; mnmax := mnmax i; mpolq := mpolq i;
     ntorq := ntorq i; mnmaxq := 2; nsin := nsin i; mboz := mboz i; nboz := nboz i; verb := 0;
     xm := xm i; xn := xn i; xmq := fun k => if k =? 0 then 1 else 0; xnq := fun _ => 0;
     nsurf := 2; surf := surf i;
     sin_ := sin_ i; iota := iota i; rmnc := rmnc i; zmns := zmns i; lmns := lmns i; bmnc := bmnc i;
     bsubumnc := bsubumnc i; bsubvmnc := bsubvmnc i; rmns := rmns i; zmnc := zmnc i; lmnc := lmnc i;
     bmns := bmns i; bsubumns := bsubumns i; bsubvmns := bsubvmns i |}.
Lemma ex_swap_valid : valid (obj_of ex_swap) ex_swap.
Proof.
  split; [|split; [apply obj_of_repr|apply obj_of_wf]; cbn; lia].
  destruct (ex_ok RS false). constructor; try assumption.
  - intros k Hk. change (0 <= k < 2) in Hk. pattern k. apply (ex_range2 k _ Hk); vm_compute; repeat split; discriminate.
  - intros k Hk. change (0 <= k < 2) in Hk. pattern k. apply (ex_range2 k _ Hk); vm_compute; repeat split; discriminate.
Qed.
Theorem GI_sources_differ : exists (o : obj RS) i r ev js,
  valid o i /\ run_ok o r ev /\ elemN o N_compute_surfs 0 = Some (Some js) /\
  elem r A_Boozer_G 0 <> elem r A_Boozer_G_all js.
Proof.
  destruct (GI_last (obj_of ex_swap) ex_swap 1 ex_swap_valid) as (r & ev & E & H1 & H2); try reflexivity.
  { cbn. lia. }
  { cbn. lia. }
  exists (obj_of ex_swap), ex_swap, r, ev, 2.
  splits; auto using ex_swap_valid.
  destruct (H1 0) as (_ & ->); [cbn; lia|]. destruct (H2 2) as (_ & ->); [cbn; lia|].
  intros [=E']. cbn in E'. unfold ex_coef in E'. cbn in E'. apply RIneq.eq_IZR in E'. discriminate.
Qed.

Section Cases.
Context {S : Scalar}.

Theorem GI_first (o : obj S) (i : Inp S) : valid o i ->
  xmq i 0 = 0 -> xnq i 0 = 0 ->
  (forall k, 0 < k < mnmaxq i -> xmq i k <> 0 \/ xnq i k <> 0) ->
  exists r ev, run_ok o r ev /\
    forall b, 0 <= b < nsurf i -> exists js, elemN o N_compute_surfs b = Some (Some js) /\
      elem r A_Boozer_I b = elem2 o A_bsubumnc 0 js /\ elem r A_Boozer_I b = elem r A_Boozer_I_all js /\
      elem r A_Boozer_G b = elem2 o A_bsubvmnc 0 js /\ elem r A_Boozer_G b = elem r A_Boozer_G_all js /\
      elem r A_Boozer_I b <> None /\ elem r A_Boozer_G b <> None.
Proof.
  intros V Em En Hl. pose proof V as (Hok & R & _). pose proof (ok_mnmaxq _ _ Hok) as Hm.
  destruct (GI_last o i 0 V) as (r & ev & E & H1 & H2); auto; try lia.
  exists r, ev. split; auto. intros b Hb. exists (surf i b).
  pose proof (ok_surf _ _ Hok b Hb) as Hs.
  destruct (H1 b Hb) as (-> & ->). destruct (H2 (surf i b) Hs) as (-> & ->).
  rewrite (elemN_vec _ _ _ _ _ (r_surf _ _ _ R)) by auto.
  rewrite (elem2_mat _ _ _ _ _ _ _ (r_bsubumnc _ _ _ R)) by lia.
  rewrite (elem2_mat _ _ _ _ _ _ _ (r_bsubvmnc _ _ _ R)) by lia.
  splits; auto; discriminate.
Qed.

Lemma ex_GI : valid (obj_of (ex_inp S true)) (ex_inp S true) /\
  xmq (ex_inp S true) 0 = 0 /\ xnq (ex_inp S true) 0 = 0 /\
  forall k, 0 < k < mnmaxq (ex_inp S true) -> xmq (ex_inp S true) k <> 0 \/ xnq (ex_inp S true) k <> 0.
Proof. splits; [apply ex_valid|reflexivity|reflexivity|]. cbn. lia. Qed.

(** Junk left in a private and an output member. *)
Lemma ex_histories : exists o o' : obj S, exists i,
  valid o i /\ wf_obj o' /\ same_inputs o o' /\ oA o A_bmnc_b <> oA o' A_bmnc_b.
Proof.
  exists (obj_of (ex_inp S true)), (updA (obj_of (ex_inp S true)) A_bmnc_b (mkArr 1 1 [None])), (ex_inp S true).
  splits; [apply ex_valid|..].
  - destruct (ex_wf S true) as [W1 W2]. constructor; auto. intros f. cbn.
    destruct (afield_eq_dec f A_bmnc_b) as [E|E].
    + unfold wf_arr. cbn. lia.
    + apply W2.
  - constructor; auto; intros; cbn in *; intuition subst; reflexivity.
  - cbn. unfold empty_mat. congruence.
Qed.

Lemma ex_empty_asym : valid (obj_of (ex_inp S false)) (ex_inp S false) /\
  forall f, In f output_arrays_asym -> asize (oA (obj_of (ex_inp S false)) f) = 0.
Proof.
  split; [apply ex_valid|]. intros f Hf. cbn in Hf. intuition subst; reflexivity.
Qed.
Lemma ex_stale_asym : exists (o o1 o2 : obj S) e1 e2,
  run_ok o o1 e1 /\ run_ok (updB o1 B_asym (Some false)) o2 e2 /\
  oB o2 B_asym = Some false /\ 1 <= asize (oA o2 A_bmns_b).
Proof.
  destruct (asym_outputs_stale _ _ (ex_valid S true)) as (o1 & e1 & o2 & e2 & H); [reflexivity|cbn; lia|].
  exists (obj_of (ex_inp S true)), o1, o2, e1, e2. exact H.
Qed.
Lemma ex_banner : exists (o : obj S) i A o1 ev c,
  valid o i /\ is_schedule (nsurf i) A /\
  run (run_head S) o = ROk tt o1 ev /\ csteps (mkCfg (map (seqs S) A) o1 []) c /\
  cLog c = [(0%nat, mkEv "Solving for js_b=" [1] []); (1%nat, mkEv "Solving for js_b=" [0] [])].
Proof.
  destruct (banner_mixed _ _ 1 0 (ex_valid S true)) as (o1 & ev & c & H1 & H2 & H3); [cbn; lia|apply ex_schedule|].
  exists (obj_of (ex_inp S true)), (ex_inp S true), [[1]; [0]], o1, ev, c.
  splits; auto using ex_valid, ex_schedule.
Qed.
End Cases.
