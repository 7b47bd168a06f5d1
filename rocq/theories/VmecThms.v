(** The theorems about init_from_vmec, with their concrete cases. *)
From Coq Require Import ZArith QArith List String Bool Lia Reals Lra.
From Verif Require Import Scalar Prog Model Wp Func Step TrigProof InitProof RunProof FuncExt Spec RunThms
  Vmec VmecSpec VmecProof VmecRun.
Import ListNotations.
Local Open Scope Z_scope.

Section Thms.
Context {S : Scalar}.
Notation obj := (obj S).
Notation F := (F S).

Lemma vmec_total (o : obj) i v d : accepted o i v d ->
  exists o', vmec_ok v o o' (vmec_lines i d) /\
    repr o' (from_vmec i d) /\ fluxes_stored o' d /\ vmec_frame (asym i) o o' /\ wf_obj o'.
Proof.
  intros A. pose proof A as [B W D Sh Hr HI].
  assert (Hns : 2 <= d_ns S d) by (rewrite <- (vh_ns _ _ _ _ D); apply Sh).
  destruct (wp_run S _ _ _ _ (init_from_vmec_spec i v d D HI Hns o A)) as ([] & o' & ev & E & -> & X).
  exists o'. split; auto.
Qed.
Lemma vmec_det (o o1 o2 : obj) v e1 e2 : vmec_ok v o o1 e1 -> vmec_ok v o o2 e2 -> o1 = o2 /\ e1 = e2.
Proof. unfold vmec_ok. intros H1 H2. rewrite H1 in H2. injection H2. auto. Qed.

(** C26 *)
Theorem rejects_exactly (o : obj) i v : vready o i -> 1 - INT_MAX <= v_ns S v <= INT_MAX ->
  (~ well_shaped o i v <-> exists msg o' ev, run (init_from_vmec S v) o = RThrow msg o' ev).
Proof.
  intros R Hns. set (o1 := updI o I_ns_in (Some (v_ns S v - 1))).
  assert (R1 : vready o1 i) by (destruct R; constructor; auto).
  assert (Hin : in_int (v_ns S v - 1) = true) by (apply in_int_true; unfold INT_MIN, INT_MAX in *; lia).
  unfold init_from_vmec. rewrite !bind_run.
  change (run (isub (v_ns S v) 1) o) with (run (@int_ S (v_ns S v - 1)) o). unfold int_ at 1. rewrite Hin.
  cbn [run]. rewrite bind_run. unfold seti at 1. cbn [run]. fold o1. rewrite bind_run.
  destruct (vet_verdict S o1 i v R1 Hns) as [(E & Hs)|(m & E & Hs)]; rewrite E.
  - split; [intros N; exfalso; apply N; destruct Hs; constructor; auto|].
    intros (m & o' & ev & E'). exfalso.
    match type of E' with context [run ?p o1] => pose proof (nothrow_run S p (after_vet S v _) o1) as N end.
    destruct (run _ o1) as [| |] in E', N; try discriminate. now destruct (N msg o0 ev0).
  - split; [|intros _ X; apply Hs; destruct X; constructor; auto].
    intros _. cbn. eauto.
Qed.
Theorem accepts (o : obj) i v d : accepted o i v d -> exists o' ev, vmec_ok v o o' ev.
Proof. intros A. destruct (vmec_total o i v d A) as (o' & E & _). eauto. Qed.
Theorem never_ub (o : obj) i v d : accepted o i v d -> forall why, run (init_from_vmec S v) o <> RUB why.
Proof.
  intros A why E. destruct (vmec_total o i v d A) as (o' & E' & _). unfold vmec_ok in E'. congruence.
Qed.

(** C27 *)
Theorem rejected_state (o : obj) v msg o' ev :
  run (init_from_vmec S v) o = RThrow msg o' ev ->
  ev = [] /\ (forall f, oB o' f = oB o f) /\ (forall f, f <> I_ns_in -> oI o' f = oI o f) /\
  (forall f, oF o' f = oF o f) /\ (forall f, oN o' f = oN o f) /\ (forall f, oA o' f = oA o f).
Proof.
  intros E. destruct (throw_state S _ _ _ _ _ E) as (-> & ->). splits; auto.
  intros f Nf. destruct f; try reflexivity. contradiction.
Qed.

(** C29 *)
Lemma at2_mat (a : arr S) r c g k j : mat_is a r c g -> 0 <= k < r -> 0 <= j < c -> at2 a k j = Some (Some (g k j)).
Proof.
  intros (H1 & H2 & H3 & H4 & H5 & H6) Hk Hj. unfold at2. rewrite H3, H4. zb. apply H6; auto.
Qed.
Lemma at1_vec (a : arr S) n g j : vec_is a n g -> 0 <= j < n -> at1 a j = Some (Some (g j)).
Proof.
  intros H Hj. unfold at1. rewrite (vec_is_asize _ _ _ H). zb. destruct H as (_ & _ & _ & H). apply H; auto.
Qed.

Theorem half_grid (o : obj) i v d : accepted o i v d ->
  exists o' ev, vmec_ok v o o' ev /\
    oI o' I_ns_in = Some (v_ns S v - 1) /\
    (forall j, 0 <= j < v_ns S v - 1 ->
       elem o' A_s_in j = Some (Some (f1 S / (fofZ S (v_ns S v) - f1 S) * (fofZ S j + flit S (1 # 2)))%sc) /\
       elem o' A_iota j = at1 (v_iotas S v) (j + 1) /\ elem o' A_iota j <> None /\ elem o' A_iota j <> Some None) /\
    (forall f a, In (f, a) (half_sym v) \/ (asym i = true /\ In (f, a) (half_asym v)) ->
       arows (oA o' f) = arows a /\ acols (oA o' f) = v_ns S v - 1 /\
       forall k j, 0 <= k < arows a -> 0 <= j < v_ns S v - 1 ->
         elem2 o' f k j = at2 a k (j + 1) /\ elem2 o' f k j <> None /\ elem2 o' f k j <> Some None).
Proof.
  intros A. destruct (vmec_total o i v d A) as (o' & E & R & Fx & Fr & W).
  exists o'. eexists. split; [exact E|]. pose proof A as [_ _ D _ _ _]. rewrite (vh_ns _ _ _ _ D). splits.
  - exact (r_nsin _ _ _ R).
  - intros j Hj. splits.
    + rewrite (elem_vec _ _ _ _ _ (r_sin _ _ _ R)) by exact Hj. reflexivity.
    + rewrite (elem_vec _ _ _ _ _ (r_iota _ _ _ R)) by exact Hj.
      rewrite (at1_vec _ _ _ _ (vh_iotas _ _ _ _ D)) by lia. reflexivity.
    + rewrite (elem_vec _ _ _ _ _ (r_iota _ _ _ R)) by exact Hj. discriminate.
    + rewrite (elem_vec _ _ _ _ _ (r_iota _ _ _ R)) by exact Hj. discriminate.
  - assert (G : forall f a r g, mat_is a r (d_ns S d) g -> mat_is (oA o' f) r (d_ns S d - 1) (fun k j => g k (j + 1)) ->
      arows (oA o' f) = arows a /\ acols (oA o' f) = d_ns S d - 1 /\
      forall k j, 0 <= k < arows a -> 0 <= j < d_ns S d - 1 ->
         elem2 o' f k j = at2 a k (j + 1) /\ elem2 o' f k j <> None /\ elem2 o' f k j <> Some None).
    { intros f a r g H1 H2. pose proof H1 as (_ & _ & X1 & _). pose proof H2 as (_ & _ & Y1 & Y2 & _).
      rewrite X1. splits; auto. intros k j Hk Hj.
      rewrite (elem2_mat _ _ _ _ _ _ _ H2 Hk Hj), (at2_mat _ _ _ _ _ _ H1 Hk) by lia. splits; auto; discriminate. }
    intros f a [Hf|(EA & Hf)]; destruct Hf as [X|[X|[X|[X|[]]]]]; injection X as <- <-.
    + eapply G; [apply D|apply R].
    + eapply G; [apply D|apply R].
    + eapply G; [apply D|apply R].
    + eapply G; [apply D|apply R].
    + eapply G; [apply (vh_lmnc _ _ _ _ D EA)|apply (r_lmnc _ _ _ R EA)].
    + eapply G; [apply (vh_bmns _ _ _ _ D EA)|apply (r_bmns _ _ _ R EA)].
    + eapply G; [apply (vh_bsubumns _ _ _ _ D EA)|apply (r_bsubumns _ _ _ R EA)].
    + eapply G; [apply (vh_bsubvmns _ _ _ _ D EA)|apply (r_bsubvmns _ _ _ R EA)].
Qed.

(** C31 *)
Theorem default_resolution (o : obj) i v d : accepted o i v d ->
  exists o' ev, vmec_ok v o o' ev /\
    oI o' I_mboz = Some (6 * mpol i) /\ oI o' I_nboz = Some (Z.max (2 * ntor i - 1) 0) /\
    asize (oN o' N_compute_surfs) = v_ns S v - 1 /\
    forall j, 0 <= j < v_ns S v - 1 -> elemN o' N_compute_surfs j = Some (Some j).
Proof.
  intros A. destruct (vmec_total o i v d A) as (o' & E & R & Fx & Fr & W).
  exists o'. eexists. split; [exact E|]. pose proof A as [_ _ D _ _ _]. rewrite (vh_ns _ _ _ _ D). splits.
  - apply R.
  - apply R.
  - exact (vec_is_asize _ _ _ (r_surf _ _ _ R)).
  - intros j Hj. exact (elemN_vec S _ _ _ _ _ (r_surf _ _ _ R) Hj).
Qed.

(** C32 *)
Theorem fluxes (o : obj) i v d : accepted o i v d ->
  exists o' ev, vmec_ok v o o' ev /\
    (asize (v_phip S v) = 0 ->
       (forall f, In f flux_arrays -> asize (oA o' f) = 0) /\ oF o' F_toroidal_flux = Some (flit S (0 # 1))) /\
    (asize (v_phip S v) <> 0 ->
       (forall f, In f flux_arrays -> asize (oA o' f) = v_ns S v) /\
       (forall j, 0 <= j < v_ns S v ->
          (exists x, at1 (v_phip S v) j = Some (Some x) /\ elem o' A_phip j = Some (Some (- x / ftwopi S)%sc)) /\
          elem o' A_chi j = at1 (v_chi S v) j /\ elem o' A_pres j = at1 (v_pres S v) j /\
          elem o' A_phi j = at1 (v_phi S v) j) /\
       exists x, at1 (v_phi S v) (v_ns S v - 1) = Some (Some x) /\ oF o' F_toroidal_flux = Some x).
Proof.
  intros A. destruct (vmec_total o i v d A) as (o' & E & R & Fx & Fr & W).
  exists o'. eexists. split; [exact E|]. pose proof A as [_ _ D Sh _ _].
  assert (Hns : 2 <= d_ns S d) by (rewrite <- (vh_ns _ _ _ _ D); apply Sh).
  rewrite (vh_ns _ _ _ _ D). unfold fluxes_stored in Fx. destruct (d_flux S d) eqn:Ef.
  - pose proof (vh_phip _ _ _ _ D Ef) as Vp. pose proof (vh_chi _ _ _ _ D Ef) as Vc.
    pose proof (vh_pres _ _ _ _ D Ef) as Vr. pose proof (vh_phi _ _ _ _ D Ef) as Vh.
    rewrite (vec_is_asize _ _ _ Vp). destruct Fx as (F1 & F2 & F3 & F4 & F5). split; [lia|]. intros _. splits.
    + intros f [<-|[<-|[<-|[<-|[]]]]]; eapply vec_is_asize; eassumption.
    + intros j Hj. splits.
      * exists (d_phip S d j). rewrite (at1_vec _ _ _ _ Vp Hj), (elem_vec _ _ _ _ _ F1 Hj). auto.
      * rewrite (at1_vec _ _ _ _ Vc Hj), (elem_vec _ _ _ _ _ F2 Hj). auto.
      * rewrite (at1_vec _ _ _ _ Vr Hj), (elem_vec _ _ _ _ _ F3 Hj). auto.
      * rewrite (at1_vec _ _ _ _ Vh Hj), (elem_vec _ _ _ _ _ F4 Hj). auto.
    + exists (d_phi S d (d_ns S d - 1)). rewrite (at1_vec _ _ _ _ Vh) by lia. auto.
  - split; [|intros X; destruct (X (vh_noflux _ _ _ _ D Ef))]. intros _. destruct Fx as (F1 & F2). split; auto.
    intros f Hf. apply F1. cbn in Hf |- *. tauto.
Qed.

(** C51 *)
Theorem vmec_changes_only (o : obj) i v d : accepted o i v d ->
  exists o' ev, vmec_ok v o o' ev /\ vmec_frame (asym i) o o' /\ ev = vmec_lines i d.
Proof. intros A. destruct (vmec_total o i v d A) as (o' & E & R & Fx & Fr & W). eauto 6. Qed.

(** C34 *)
Lemma fits_ok i d : fits_run i -> vints i d -> 2 <= d_ns S d -> 1 <= nfp i -> ok_inp (from_vmec i d).
Proof.
  intros Ft (I1 & I2 & I3 & _ & I5 & I6 & I7) Hns Hnfp. destruct Ft as [T1 T2 T3 T4 T5 T6 T7 T8 T9 T10 T11].
  assert (Imax : INT_MAX = 2147483647) by reflexivity. assert (Imin : INT_MIN = -2147483648) by reflexivity.
  assert (K : forall n t, Z.abs n <= nfp i * t -> kn (nfp i) n <= t).
  { intros x t Hx. unfold kn. rewrite <- Z.quot_abs by lia. rewrite (Z.abs_eq (nfp i)) by lia.
    apply Z.quot_le_upper_bound; lia. }
  assert (Gz : nzeta (from_vmec i d) = Z.max 1 (8 * ntor i - 2)).
  { unfold nzeta. cbn [from_vmec nboz]. zb; lia. }
  assert (Gt : ntheta (from_vmec i d) = 24 * mpol i + 2) by (unfold ntheta; cbn [from_vmec mboz]; lia).
  constructor; rewrite ?Gz, ?Gt;
    cbn [from_vmec nfp mpol ntor mnmax mpolq ntorq mnmaxq nsin mboz nboz nsurf xm xn xmq xnq surf];
    try lia; auto.
  - intros k Hk. specialize (T6 k Hk). split; [lia|apply K; lia].
  - intros k Hk. specialize (T8 k Hk). split; [lia|apply K; lia].
Qed.
Theorem then_run (o : obj) i v d : accepted o i v d -> fits_run i ->
  exists o1 e1 o2 e2, vmec_ok v o o1 e1 /\ run_ok o1 o2 e2 /\
    oI o2 I_ns_b = Some (v_ns S v - 1) /\ asize (oA o2 A_s_b) = v_ns S v - 1 /\
    forall f, In f sym_outs \/ (asym i = true /\ In f asym_outs) ->
      acols (oA o2 f) = v_ns S v - 1 /\
      forall k b, 0 <= k < arows (oA o2 f) -> 0 <= b < v_ns S v - 1 -> exists x, elem2 o2 f k b = Some (Some x).
Proof.
  intros A Ft. destruct (vmec_total o i v d A) as (o1 & E & R & Fx & Fr & W).
  pose proof A as [_ _ D Sh _ HI].
  assert (Hns : 2 <= d_ns S d) by (rewrite <- (vh_ns _ _ _ _ D); apply Sh).
  assert (V : valid o1 (from_vmec i d)).
  { split; [|split]; auto. apply fits_ok; auto. apply (ws_nfp _ _ _ _ Sh). }
  destruct (run_total o1 _ V) as (o2 & E2 & _ & _ & _ & Q & _).
  exists o1. eexists. exists o2. eexists. split; [exact E|]. split; [exact E2|]. rewrite (vh_ns _ _ _ _ D). splits.
  - exact (q_ns_b _ _ _ Q).
  - exact (vec_is_asize _ _ _ (q_s_b _ _ _ Q)).
  - intros f Hf.
    assert (Hin : In f (outs (asym (from_vmec i d)))).
    { unfold outs. change (asym (from_vmec i d)) with (asym i). destruct Hf as [Hf|(-> & Hf)]; [|apply in_or_app; auto].
      destruct (asym i); [apply in_or_app; auto|auto]. }
    pose proof (q_out _ _ _ Q f Hin) as M. pose proof M as (_ & _ & M1 & M2 & _). split; [exact M2|].
    intros k b Hk Hb. rewrite M1 in Hk. eexists. exact (elem2_mat _ _ _ _ _ _ _ M Hk Hb).
Qed.
End Thms.

(** ** Concrete cases *)
Section Cases.
Variable S : Scalar.

(** The arguments holding the data [d]. *)
Definition args_of (i : Inp S) (d : vdat S) : vargs S :=
  let m := fun g => tabm (mnmax i) (d_ns S d) g in
  let q := fun g => tabm (mnmaxq i) (d_ns S d) g in
  let am := fun g => if asym i then m g else empty_mat in
  let aq := fun g => if asym i then q g else empty_mat in
  let fl := fun g => if d_flux S d then tab (d_ns S d) g else empty_vec in
  {| v_ns := d_ns S d; v_iotas := tab (d_ns S d) (d_iotas S d);
     v_rmnc := m (d_rmnc S d); v_rmns := am (d_rmns S d); v_zmnc := am (d_zmnc S d); v_zmns := m (d_zmns S d);
     v_lmnc := am (d_lmnc S d); v_lmns := m (d_lmns S d);
     v_bmnc := q (d_bmnc S d); v_bmns := aq (d_bmns S d);
     v_bsubumnc := q (d_bsubumnc S d); v_bsubumns := aq (d_bsubumns S d);
     v_bsubvmnc := q (d_bsubvmnc S d); v_bsubvmns := aq (d_bsubvmns S d);
     v_phip := fl (d_phip S d); v_chi := fl (d_chi S d); v_pres := fl (d_pres S d); v_phi := fl (d_phi S d) |}.
Lemma args_hold i d : 0 <= mnmax i -> 0 <= mnmaxq i -> 0 <= d_ns S d -> vholds (args_of i d) i d.
Proof.
  intros H1 H2 H3. constructor; cbn; auto using tab_is, tabm_is; intros ->; auto using tab_is, tabm_is.
Qed.

(** nfp = 2, modes (0,0), (1,2), Nyquist modes (0,0), (1,-2), (2,2); [ns] surfaces; compute_surfs
    as [nsf] and [sf] say. *)
Definition vex (asy : bool) (vb nsf : Z) (sf : Z -> Z) : Inp S :=
  let i := ex_inp S asy in
  {| asym := asy; nfp := 2; mpol := 2; ntor := 1; mnmax := 2; mpolq := 2; ntorq := 1; mnmaxq := 3;
     nsin := 3; mboz := 2; nboz := 1; verb := vb;
     xm := xm i; xn := xn i; xmq := xmq i; xnq := xnq i; nsurf := nsf; surf := sf;
     sin_ := sin_ i; iota := iota i; rmnc := rmnc i; zmns := zmns i; lmns := lmns i; bmnc := bmnc i;
     bsubumnc := bsubumnc i; bsubvmnc := bsubvmnc i; rmns := rmns i; zmnc := zmnc i; lmnc := lmnc i;
     bmns := bmns i; bsubumns := bsubumns i; bsubvmns := bsubvmns i |}.
Definition vexd (fl : bool) (ns : Z) : vdat S :=
  {| d_ns := ns; d_iotas := fun j => fofZ S (j + 1);
     d_rmnc := ex_coef S 1; d_zmns := ex_coef S 2; d_lmns := ex_coef S 3;
     d_bmnc := ex_coef S 4; d_bsubumnc := ex_coef S 5; d_bsubvmnc := ex_coef S 6;
     d_rmns := ex_coef S 7; d_zmnc := ex_coef S 8; d_lmnc := ex_coef S 9;
     d_bmns := ex_coef S 10; d_bsubumns := ex_coef S 11; d_bsubvmns := ex_coef S 12;
     d_flux := fl; d_phip := fun j => fofZ S (20 + j); d_chi := fun j => fofZ S (30 + j);
     d_pres := fun j => fofZ S (40 + j); d_phi := fun j => fofZ S (50 + j) |}.
Definition two_surfs (k : Z) : Z := if k =? 0 then 2 else 0.

Lemma vex_base asy vb nsf sf : 0 <= nsf -> vbase (obj_of (vex asy vb nsf sf)) (vex asy vb nsf sf) /\
  wf_obj (obj_of (vex asy vb nsf sf)).
Proof.
  intros H. split; [|apply obj_of_wf; cbn; lia].
  assert (R : repr (obj_of (vex asy vb nsf sf)) (vex asy vb nsf sf)) by (apply obj_of_repr; cbn; lia).
  constructor; try apply R. do 2 eexists. exact (r_surf _ _ _ R).
Qed.
Lemma vex_ready asy vb nsf sf : 0 <= nsf -> vready (obj_of (vex asy vb nsf sf)) (vex asy vb nsf sf).
Proof.
  intros H. destruct (vex_base asy vb nsf sf H) as (B & _). constructor; try apply B.
  - intros f [<-|[<-|[<-|[<-|[<-|[]]]]]]; [| | | |exact (vb_surf _ _ _ B)]; do 2 eexists; apply B.
  - vm_compute. repeat split; discriminate.
  - intros _. vm_compute. repeat split; discriminate.
Qed.
Lemma vet_shaped (o : obj S) i v : vready o i -> 1 - INT_MAX <= v_ns S v <= INT_MAX ->
  run (vet S v) o = ROk tt o [] -> well_shaped o i v.
Proof.
  intros R H E. destruct (vet_verdict S o i v R H) as [(_ & X)|(m & X & _)]; auto. congruence.
Qed.

Lemma vex_accepted asy fl :
  accepted (obj_of (vex asy 1 2 two_surfs)) (vex asy 1 2 two_surfs)
    (args_of (vex asy 1 2 two_surfs) (vexd fl 4)) (vexd fl 4).
Proof.
  constructor.
  - apply vex_base. lia.
  - apply vex_base. lia.
  - apply args_hold; cbn; lia.
  - apply vet_shaped; [apply vex_ready; lia|cbn; unfold INT_MAX; lia|].
    destruct asy, fl; vm_compute; reflexivity.
  - split; cbn; lia.
  - unfold vints; cbn; unfold INT_MIN, INT_MAX; lia.
Qed.
Lemma vex_fits asy : fits_run (vex asy 1 2 two_surfs).
Proof.
  constructor; cbn [vex ex_inp nfp mpol ntor mnmax mpolq ntorq mnmaxq xm xn xmq xnq]; unfold INT_MAX; try lia;
    intros k Hk; zb; lia.
Qed.

(** A rejected call: a fresh-looking, valid object, and arguments for ns = 10 of the wrong size. *)
Lemma vex_valid asy : valid (obj_of (ex_inp S asy)) (ex_inp S asy).
Proof. apply ex_valid. Qed.
Definition bad_args : vargs S :=
  let v := args_of (vex false 0 0 (fun _ => 0)) (vexd false 4) in
  {| v_ns := 10; v_iotas := v_iotas S v; v_rmnc := v_rmnc S v; v_rmns := v_rmns S v; v_zmnc := v_zmnc S v;
     v_zmns := v_zmns S v; v_lmnc := v_lmnc S v; v_lmns := v_lmns S v; v_bmnc := v_bmnc S v; v_bmns := v_bmns S v;
     v_bsubumnc := v_bsubumnc S v; v_bsubumns := v_bsubumns S v; v_bsubvmnc := v_bsubvmnc S v;
     v_bsubvmns := v_bsubvmns S v; v_phip := v_phip S v; v_chi := v_chi S v; v_pres := v_pres S v; v_phi := v_phi S v |}.
Theorem ns_in_changed : exists (o : obj S) i v msg o' ev,
  valid o i /\ run (init_from_vmec S v) o = RThrow msg o' ev /\ oI o' I_ns_in <> oI o I_ns_in /\
  exists why, run (bx_run S) o' = RUB why.
Proof.
  exists (obj_of (ex_inp S false)), (ex_inp S false), bad_args. do 3 eexists. split; [apply ex_valid|].
  split; [vm_compute; reflexivity|]. split; [vm_compute; discriminate|]. eexists. vm_compute. reflexivity.
Qed.
Lemma bad_args_case : exists msg o' ev,
  run (init_from_vmec S bad_args) (obj_of (ex_inp S false)) = RThrow msg o' ev.
Proof. do 3 eexists. vm_compute. reflexivity. Qed.

(** Accepted arguments on which init_from_vmec reads outside an array. *)
Definition vcrash (i : Inp S) (d : vdat S) : Prop :=
  vbase (obj_of i) i /\ wf_obj (obj_of i) /\ vholds (args_of i d) i d /\ vints i d /\
  well_shaped (obj_of i) i (args_of i d) /\
  exists why, run (init_from_vmec S (args_of i d)) (obj_of i) = RUB why.
Lemma vex_crash vb ns fl : 2 <= ns <= 100 ->
  run (vet S (args_of (vex false vb 0 (fun _ => 0)) (vexd fl ns))) (obj_of (vex false vb 0 (fun _ => 0)))
    = ROk tt (obj_of (vex false vb 0 (fun _ => 0))) [] ->
  (exists why, run (init_from_vmec S (args_of (vex false vb 0 (fun _ => 0)) (vexd fl ns)))
    (obj_of (vex false vb 0 (fun _ => 0))) = RUB why) ->
  vcrash (vex false vb 0 (fun _ => 0)) (vexd fl ns).
Proof.
  intros Hns H1 H2. unfold vcrash. splits; auto.
  - apply vex_base. lia.
  - apply vex_base. lia.
  - apply args_hold; cbn; lia.
  - unfold vints; cbn; unfold INT_MIN, INT_MAX; lia.
  - apply vet_shaped; [apply vex_ready; lia|cbn; unfold INT_MAX; lia|exact H1].
Qed.
Theorem ns2_crash : exists i d, d_ns S d = 2 /\ verb i = 0 /\ xm i 1 = 1 /\ vcrash i d.
Proof.
  exists (vex false 0 0 (fun _ => 0)), (vexd false 2). splits; try reflexivity.
  apply vex_crash; [lia|vm_compute; reflexivity|eexists; vm_compute; reflexivity].
Qed.
Theorem verbose2_crash : exists i d, 4 <= d_ns S d /\ mnmax i = 2 /\ verb i = 2 /\ vcrash i d.
Proof.
  exists (vex false 2 0 (fun _ => 0)), (vexd false 5). splits; try reflexivity; [cbn; lia|].
  apply vex_crash; [lia|vm_compute; reflexivity|eexists; vm_compute; reflexivity].
Qed.
Theorem no_modes_crash : exists (o : obj S) v,
  wf_obj o /\ (forall f, In f [N_xm; N_xn; N_xm_nyq; N_xn_nyq] -> asize (oN o f) = 0) /\
  oI o I_mnmax = Some 0 /\ oI o I_mnmax_nyq = Some 0 /\ 2 <= v_ns S v /\
  exists why, run (init_from_vmec S v) o = RUB why.
Proof.
  set (o := updI (updI (updI (updI (updB (obj_new S) B_asym (Some false)) I_nfp (Some 1)) I_mnmax (Some 0))
    I_mnmax_nyq (Some 0)) I_ntor (Some 0)).
  set (v := {| v_ns := 3; v_iotas := tab 3 (fun j => fofZ S j); v_rmnc := tabm 0 3 (ex_coef S 1); v_rmns := empty_mat;
     v_zmnc := empty_mat; v_zmns := tabm 0 3 (ex_coef S 1); v_lmnc := empty_mat; v_lmns := tabm 0 3 (ex_coef S 1);
     v_bmnc := tabm 0 3 (ex_coef S 1); v_bmns := empty_mat; v_bsubumnc := tabm 0 3 (ex_coef S 1);
     v_bsubumns := empty_mat; v_bsubvmnc := tabm 0 3 (ex_coef S 1); v_bsubvmns := empty_mat;
     v_phip := empty_vec; v_chi := empty_vec; v_pres := empty_vec; v_phi := empty_vec |} : vargs S).
  exists o, v. splits.
  - pose proof (@obj_new_wf S) as W. constructor; apply W.
  - intros f [<-|[<-|[<-|[<-|[]]]]]; reflexivity.
  - reflexivity.
  - reflexivity.
  - cbn. lia.
  - eexists. vm_compute. reflexivity.
Qed.
End Cases.

(** ** C30, in real arithmetic *)
Local Open Scope R_scope.
Definition s_full_R (ns j : Z) : R := IZR j / IZR (ns - 1).
Definition s_half_R (ns j : Z) : R := (IZR j + 1 / 2) / IZR (ns - 1).

Section Real.
Variable d : vdat RS.
Hypothesis Hns : (2 <= d_ns RS d)%Z.
Let ns := d_ns RS d.

Lemma half_lit : flit RS (1 # 2) = 1 / 2. Proof. cbn. unfold Q2R. cbn. lra. Qed.
Lemma th_lit : flit RS (3 # 2) = 3 / 2. Proof. cbn. unfold Q2R. cbn. lra. Qed.
Lemma one_lit : f1 RS = 1. Proof. cbn. unfold Q2R. cbn. lra. Qed.
Lemma ns1_pos : 0 < IZR (ns - 1). Proof. apply IZR_lt. unfold ns. lia. Qed.
Lemma hs_R : hs d = / IZR (ns - 1).
Proof.
  unfold hs. rewrite one_lit. change (1 / (IZR ns - 1) = / IZR (ns - 1)). rewrite minus_IZR.
  unfold Rdiv. now rewrite Rmult_1_l.
Qed.
Lemma s_half_ok j : s_half d j = s_half_R ns j.
Proof.
  unfold s_half, s_half_R. rewrite half_lit, hs_R. change (/ IZR (ns - 1) * (IZR j + 1 / 2) = (IZR j + 1 / 2) / IZR (ns - 1)).
  unfold Rdiv at 2. ring.
Qed.
Lemma sq_half_ok j : sq_half d j = sqrt (s_half_R ns j).
Proof. unfold sq_half. rewrite s_half_ok. reflexivity. Qed.
Lemma sq_full_ok j : (1 <= j)%Z -> sq_full d j = sqrt (s_full_R ns j).
Proof.
  intros Hj. unfold sq_full. rewrite (proj2 (Z.eqb_neq j 0)) by lia. rewrite hs_R.
  change (sqrt (/ IZR (ns - 1) * IZR j) = sqrt (IZR j / IZR (ns - 1))). f_equal. unfold Rdiv. ring.
Qed.
Lemma s_full_pos j : (1 <= j)%Z -> 0 < s_full_R ns j.
Proof.
  intros Hj. apply Rdiv_lt_0_compat; [apply IZR_lt; lia|apply ns1_pos].
Qed.
Lemma mid j : s_full_R ns j + s_full_R ns (j + 1) = 2 * s_half_R ns j.
Proof. unfold s_full_R, s_half_R. rewrite plus_IZR. pose proof ns1_pos. field. lra. Qed.
Lemma quot_sqrt j c : (1 <= j)%Z -> sqrt (s_full_R ns j) * c / sq_full d j = c.
Proof.
  intros Hj. rewrite sq_full_ok by exact Hj. pose proof (sqrt_lt_R0 _ (s_full_pos j Hj)). field. lra.
Qed.

Lemma even_exact m x a b j : (0 <= j < ns - 1)%Z -> Z.Even m ->
  (forall l, (0 <= l < ns)%Z -> x l = a + b * s_full_R ns l) ->
  to_half d m x j = a + b * s_half_R ns j.
Proof.
  intros Hj Hm Hx. unfold to_half. destruct Hm as (h & ->).
  replace (Z.rem (2 * h) 2) with 0%Z by (rewrite Z.mul_comm, Z.rem_mul; lia). rewrite Z.eqb_refl, half_lit.
  change (1 / 2 * (x j + x (j + 1)%Z) = a + b * s_half_R ns j). rewrite !Hx by lia. pose proof (mid j). nra.
Qed.
Lemma rem_odd m : Z.Odd m -> (Z.rem m 2 =? 0)%Z = false.
Proof.
  intros (h & ->). apply Z.eqb_neq. intros E. apply Z.rem_divide in E; [|lia]. destruct E as (q & E). lia.
Qed.
Lemma odd_exact m x a b j : (1 <= j < ns - 1)%Z -> Z.Odd m ->
  (forall l, (1 <= l < ns)%Z -> x l = sqrt (s_full_R ns l) * (a + b * s_full_R ns l)) ->
  to_half d m x j = sqrt (s_half_R ns j) * (a + b * s_half_R ns j).
Proof.
  intros Hj Hm Hx. unfold to_half. rewrite (rem_odd m Hm). rewrite (proj2 (Z.eqb_neq j 0)) by lia.
  rewrite andb_false_r, half_lit, sq_half_ok.
  change (1 / 2 * (x j / sq_full d j + x (j + 1)%Z / sq_full d (j + 1)) * sqrt (s_half_R ns j) =
    sqrt (s_half_R ns j) * (a + b * s_half_R ns j)).
  rewrite !Hx by lia. rewrite !quot_sqrt by lia. pose proof (mid j). nra.
Qed.
Lemma odd_axis m x a b : Z.Odd m -> m <> 1%Z -> x 0%Z = 0 ->
  (forall l, (1 <= l < ns)%Z -> x l = sqrt (s_full_R ns l) * (a + b * s_full_R ns l)) ->
  to_half d m x 0 = sqrt (s_half_R ns 0) * (a + b * s_half_R ns 0) - a / 2 * sqrt (s_half_R ns 0).
Proof.
  intros Hm H1 H0 Hx. unfold to_half. rewrite (rem_odd m Hm). rewrite (proj2 (Z.eqb_neq m 1)) by exact H1.
  cbn [andb]. rewrite half_lit, sq_half_ok.
  change (1 / 2 * (x 0%Z / sq_full d 0 + x (0 + 1)%Z / sq_full d (0 + 1)) * sqrt (s_half_R ns 0) =
    sqrt (s_half_R ns 0) * (a + b * s_half_R ns 0) - a / 2 * sqrt (s_half_R ns 0)).
  rewrite H0, Hx by (unfold ns in *; lia). rewrite quot_sqrt by lia. pose proof (mid 0) as M.
  assert (Z0 : s_full_R ns 0 = 0) by (unfold s_full_R, Rdiv; ring). rewrite Z0 in M.
  replace (0 / sq_full d 0) with 0 by (unfold Rdiv; ring). nra.
Qed.
Lemma m1_axis x a b : (3 <= ns)%Z ->
  (forall l, (1 <= l < ns)%Z -> x l = sqrt (s_full_R ns l) * (a + b * s_full_R ns l)) ->
  to_half d 1 x 0 = sqrt (s_half_R ns 0) * (a + b * s_half_R ns 0).
Proof.
  intros H3 Hx. unfold to_half. change (Z.rem 1 2 =? 0)%Z with false. cbn [andb Z.eqb Pos.eqb].
  rewrite half_lit, th_lit, sq_half_ok.
  change ((3 / 2 * x 1%Z / sq_full d 1 - 1 / 2 * x 2%Z / sq_full d 2) * sqrt (s_half_R ns 0) =
    sqrt (s_half_R ns 0) * (a + b * s_half_R ns 0)).
  rewrite !Hx by lia.
  replace (3 / 2 * (sqrt (s_full_R ns 1) * (a + b * s_full_R ns 1)) / sq_full d 1)
    with (3 / 2 * (sqrt (s_full_R ns 1) * (a + b * s_full_R ns 1) / sq_full d 1)) by (unfold Rdiv; ring).
  replace (1 / 2 * (sqrt (s_full_R ns 2) * (a + b * s_full_R ns 2)) / sq_full d 2)
    with (1 / 2 * (sqrt (s_full_R ns 2) * (a + b * s_full_R ns 2) / sq_full d 2)) by (unfold Rdiv; ring).
  rewrite !quot_sqrt by lia.
  assert (E : 3 * s_full_R ns 1 - s_full_R ns 2 = 2 * s_half_R ns 0).
  { unfold s_full_R, s_half_R. pose proof ns1_pos. field. lra. }
  nra.
Qed.
End Real.

(** The radial forms: mode k of the argument [a] has the values given by [g] on the full-grid
    surfaces from [lo] on. *)
Definition full_is (a : arr RS) (ns k lo : Z) (g : R -> R) : Prop :=
  forall j, (lo <= j < ns)%Z -> at2 a k j = Some (Some (g (s_full_R ns j))).
Definition half_is (o : obj RS) (f : afield) (ns k lo : Z) (g : R -> R) : Prop :=
  forall j, (lo <= j < ns - 1)%Z -> elem2 o f k j = Some (Some (g (s_half_R ns j))).

Theorem interpolation (o : obj RS) i v d : accepted o i v d ->
  exists o' ev, vmec_ok v o o' ev /\
    forall f x, In (f, x) (full_sym v) \/ (asym i = true /\ In (f, x) (full_asym v)) ->
    forall k m, elemN o N_xm k = Some (Some m) -> forall a b : R,
      (Z.Even m -> full_is x (v_ns RS v) k 0 (fun s => a + b * s) ->
         half_is o' f (v_ns RS v) k 0 (fun s => a + b * s)) /\
      (Z.Odd m -> full_is x (v_ns RS v) k 1 (fun s => sqrt s * (a + b * s)) ->
         half_is o' f (v_ns RS v) k 1 (fun s => sqrt s * (a + b * s)) /\
         (m = 1%Z -> half_is o' f (v_ns RS v) k 0 (fun s => sqrt s * (a + b * s))) /\
         (m <> 1%Z -> at2 x k 0 = Some (Some 0) ->
            elem2 o' f k 0 = Some (Some (let s := s_half_R (v_ns RS v) 0 in sqrt s * (a + b * s) - a / 2 * sqrt s)))).
Proof.
  intros A. destruct (vmec_total o i v d A) as (o' & E & RR & Fx & Fr & W).
  exists o'. eexists. split; [exact E|]. pose proof A as [B _ D Sh Hr HI].
  assert (Hns : (2 <= d_ns RS d)%Z) by (rewrite <- (vh_ns _ _ _ _ D); apply Sh).
  rewrite (vh_ns _ _ _ _ D).
  assert (G : forall f x g, mat_is x (mnmax i) (d_ns RS d) g ->
    mat_is (oA o' f) (mnmax i) (d_ns RS d - 1) (fun k => to_half d (xm i k) (g k)) ->
    forall k m, elemN o N_xm k = Some (Some m) -> forall a b : R,
      (Z.Even m -> full_is x (d_ns RS d) k 0 (fun s => a + b * s) ->
         half_is o' f (d_ns RS d) k 0 (fun s => a + b * s)) /\
      (Z.Odd m -> full_is x (d_ns RS d) k 1 (fun s => sqrt s * (a + b * s)) ->
         half_is o' f (d_ns RS d) k 1 (fun s => sqrt s * (a + b * s)) /\
         (m = 1%Z -> half_is o' f (d_ns RS d) k 0 (fun s => sqrt s * (a + b * s))) /\
         (m <> 1%Z -> at2 x k 0 = Some (Some 0) ->
            elem2 o' f k 0 = Some (Some (let s := s_half_R (d_ns RS d) 0 in sqrt s * (a + b * s) - a / 2 * sqrt s))))).
  { intros f x g M1 M2 k m Em a b. destruct (elemN_in RS _ _ _ _ _ _ (vb_xm _ _ _ B) Em) as (Hk & ->).
    assert (V : forall lo h, (0 <= lo)%Z -> full_is x (d_ns RS d) k lo h ->
      forall j, (lo <= j < d_ns RS d)%Z -> g k j = h (s_full_R (d_ns RS d) j)).
    { intros lo h Hlo Hf j Hj. specialize (Hf j Hj). rewrite (at2_mat _ _ _ _ _ _ M1 Hk) in Hf by lia. congruence. }
    split; [|intros Hm Hf; specialize (V 1%Z _ ltac:(lia) Hf); splits].
    - intros Hm Hf j Hj. rewrite (elem2_mat _ _ _ _ _ _ _ M2 Hk Hj). do 2 f_equal.
      apply even_exact; auto. intros l Hl. exact (V 0%Z _ ltac:(lia) Hf l Hl).
    - intros j Hj. rewrite (elem2_mat _ _ _ _ _ _ _ M2 Hk) by lia. do 2 f_equal. apply odd_exact; auto.
    - intros E1 j Hj. rewrite (elem2_mat _ _ _ _ _ _ _ M2 Hk Hj). do 2 f_equal.
      destruct (Z.eq_dec j 0) as [->|Nj]; [|apply odd_exact; auto; lia].
      rewrite E1. apply m1_axis; auto. destruct Hr as ([?|X] & _); auto. destruct (X k Hk E1).
    - intros N1 H0. rewrite (elem2_mat _ _ _ _ _ _ _ M2 Hk) by lia. do 2 f_equal.
      apply odd_axis; auto. rewrite (at2_mat _ _ _ _ _ _ M1 Hk) in H0 by lia. congruence. }
  intros f x [Hf|(EA & Hf)]; destruct Hf as [X|[X|[]]]; injection X as <- <-.
  - eapply G; [apply D|apply RR].
  - eapply G; [apply D|apply RR].
  - eapply G; [apply (vh_rmns _ _ _ _ D EA)|apply (r_rmns _ _ _ RR EA)].
  - eapply G; [apply (vh_zmnc _ _ _ _ D EA)|apply (r_zmnc _ _ _ RR EA)].
Qed.

(** The term subtracted above is really there: a mode with m = 3 that is sqrt(s) on every
    full-grid surface is not sqrt(s) on the first half-grid surface. *)
Definition vex3 : Inp RS :=
  let i := vex RS false 1 2 two_surfs in
  {| asym := false; nfp := 2; mpol := 4; ntor := 1; mnmax := 2; mpolq := 2; ntorq := 1; mnmaxq := 3;
     nsin := 3; mboz := 2; nboz := 1; verb := 1;
     xm := fun k => if (k =? 1)%Z then 3%Z else 0%Z; xn := xn i; xmq := xmq i; xnq := xnq i; nsurf := 2; surf := two_surfs;
     sin_ := sin_ i; iota := iota i; rmnc := rmnc i; zmns := zmns i; lmns := lmns i; bmnc := bmnc i;
     bsubumnc := bsubumnc i; bsubvmnc := bsubvmnc i; rmns := rmns i; zmnc := zmnc i; lmnc := lmnc i;
     bmns := bmns i; bsubumns := bsubumns i; bsubvmns := bsubvmns i |}.
Definition vexd3 : vdat RS :=
  let d := vexd RS false 4 in
  {| d_ns := 4; d_iotas := d_iotas RS d; d_rmnc := fun _ j => sqrt (s_full_R 4 j);
     d_zmns := d_zmns RS d; d_lmns := d_lmns RS d; d_bmnc := d_bmnc RS d; d_bsubumnc := d_bsubumnc RS d;
     d_bsubvmnc := d_bsubvmnc RS d; d_rmns := d_rmns RS d; d_zmnc := d_zmnc RS d; d_lmnc := d_lmnc RS d;
     d_bmns := d_bmns RS d; d_bsubumns := d_bsubumns RS d; d_bsubvmns := d_bsubvmns RS d;
     d_flux := false; d_phip := d_phip RS d; d_chi := d_chi RS d; d_pres := d_pres RS d; d_phi := d_phi RS d |}.
Lemma vex3_accepted : accepted (obj_of vex3) vex3 (args_of RS vex3 vexd3) vexd3.
Proof.
  assert (RR : repr (obj_of vex3) vex3) by (apply obj_of_repr; cbn; lia).
  assert (B : vbase (obj_of vex3) vex3).
  { constructor; try apply RR. do 2 eexists. exact (r_surf _ _ _ RR). }
  constructor.
  - exact B.
  - apply obj_of_wf; cbn; lia.
  - apply args_hold; cbn; lia.
  - apply vet_shaped.
    + constructor; try apply B.
      * intros f [<-|[<-|[<-|[<-|[<-|[]]]]]]; [| | | |exact (vb_surf _ _ _ B)]; do 2 eexists; apply B.
      * vm_compute. repeat split; discriminate.
      * intros _. vm_compute. repeat split; discriminate.
    + cbn. unfold INT_MAX. lia.
    + lazy [run vet bind reject vet_cols vet_rows fold_right getn geti getb]. vm_compute. reflexivity.
  - split; cbn; lia.
  - unfold vints; cbn; unfold INT_MIN, INT_MAX; lia.
Qed.
Theorem near_axis_inexact : exists (o : obj RS) i v d k, accepted o i v d /\
  elemN o N_xm k = Some (Some 3%Z) /\ full_is (v_rmnc RS v) (v_ns RS v) k 0 sqrt /\
  forall o' ev, vmec_ok v o o' ev -> ~ half_is o' A_rmnc (v_ns RS v) k 0 sqrt.
Proof.
  pose proof vex3_accepted as A.
  assert (Hf : full_is (v_rmnc RS (args_of RS vex3 vexd3)) 4 1 0 sqrt).
  { intros j Hj. rewrite (at2_mat _ _ _ _ _ _ (vh_rmnc _ _ _ _ (ac_data _ _ _ _ _ A))) by (cbn; lia). reflexivity. }
  exists (obj_of vex3), vex3, (args_of RS vex3 vexd3), vexd3, 1%Z. split; [exact A|]. split; [reflexivity|].
  split; [exact Hf|]. intros o' ev E H.
  destruct (interpolation _ _ _ _ A) as (o2 & ev2 & E2 & X). destruct (vmec_det _ _ _ _ _ _ E E2) as (-> & ->).
  destruct (X A_rmnc _ (or_introl (or_introl eq_refl)) 1%Z 3%Z eq_refl 1 0) as (_ & Y).
  destruct Y as (_ & _ & Y).
  - exists 1%Z. reflexivity.
  - intros j Hj. rewrite (Hf j) by (cbn in Hj; lia). do 2 f_equal. change (v_ns RS (args_of RS vex3 vexd3)) with 4%Z. generalize (s_full_R 4 j). intros s. change (@eq R (sqrt s) (sqrt s * (1 + 0 * s))). ring.
  - specialize (Y ltac:(lia)).
    assert (H0 : at2 (v_rmnc RS (args_of RS vex3 vexd3)) 1 0 = Some (Some 0)).
    { rewrite (Hf 0%Z) by lia. do 2 f_equal. unfold s_full_R. replace (0 / IZR (4 - 1)) with 0 by (unfold Rdiv; ring). apply sqrt_0. }
    specialize (Y H0). pose proof (H 0%Z ltac:(cbn; lia)) as H1. rewrite H1 in Y. injection Y as Y.
    change (v_ns RS (args_of RS vex3 vexd3)) with 4%Z in Y.
    assert (P : 0 < sqrt (s_half_R 4 0)). { apply sqrt_lt_R0. unfold s_half_R. change (IZR (4 - 1)) with 3. lra. }
    nra.
Qed.
