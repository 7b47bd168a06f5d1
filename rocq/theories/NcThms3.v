(** Theorems about files, continued: edits of compute_surfs, incomplete files, reading. *)
From Coq Require Import ZArith QArith List String Bool Lia.
From Verif Require Import Scalar Prog Model Wp Func Step TrigProof InitProof RunProof Par FuncExt Spec RunThms
  Vmec VmecSpec VmecRun VmecThms Nc NcModel NcSpec NcTri NcRead NcBoozmn NcWout NcWrite NcWriteB NcVoc NcThms NcThms2 NcEdit.
Import ListNotations.
Local Open Scope Z_scope.

Section Thms.
Variable S : Scalar.
Notation obj := (obj S).
Notation world := (world S).
Notation io := (io S).
Notation file := (ncfile S).
Notation F := (F S).

(** ** In the words of the properties *)
Theorem edited_length version x (w : world) o i a n c : writable version o i -> open_ok w -> lucky S w ->
  wO w = updN o N_compute_surfs a -> vec_is a n c -> n <= 2147483644 -> (forall j, 0 <= j < n -> INT_MIN <= c j + 2 <= INT_MAX) ->
  n <> nsurf i ->
  (n = 0 -> exists m w', write_boozmn S version x w = IThrow m w' /\ wFS w' x = Some Torn) /\
  (n <> 0 -> exists why, write_boozmn S version x w = IUB why).
Proof.
  intros Wr Op L E Ha Hn Hc Hd. destruct (writable_stored S version o i Wr) as (pi & pp & ch & pr & P & St & Ft).
  pose proof (writable_verbose S version o i Wr) as V. pose proof Ha as (_ & _ & V3 & _).
  split; intros E0.
  - eapply edit_empty; eauto.
  - eapply edit_any; eauto. lia.
Qed.

Definition bdj (d : bdat S) (l : Z -> Z) : bdat S :=
  mkBdat S (b_lasym S d) (b_nfp S d) (b_mboz S d) (b_nboz S d) (b_mnboz S d) (b_radius S d) (b_nsurf S d) (b_ns S d)
    (b_xm S d) (b_xn S d) l (b_iota S d) (b_G S d) (b_I S d) (b_phi S d) (b_phip S d) (b_chi S d) (b_pres S d) (b_mat S d).
Theorem edited_entries version x (w : world) o i a c : writable version o i -> open_ok w -> lucky S w -> wf_obj (wO w) ->
  wO w = updN o N_compute_surfs a -> vec_is a (nsurf i) c -> (forall j, 0 <= j < nsurf i -> INT_MIN <= c j /\ c j + 2 <= INT_MAX) ->
  exists w' f, write_boozmn S version x w = IOk tt w' /\ wFS w' x = Some (Whole f) /\
    (forall j, 0 <= j < nsurf i -> icell f "jlist" j = Some (Some (c j + 2))) /\
    (forall k b, 0 <= k < mnboz i -> 0 <= b < nsurf i -> exists v,
       elem2 o A_bmnc_b k b = Some (Some v) /\ dcell f "bmnc_b" (b * mnboz i + k) = Some (Some v)).
Proof.
  intros Wr Op L Wf E Ha Hc. destruct (writable_stored S version o i Wr) as (pi & pp & ch & pr & P & St & Ft).
  pose proof (writable_verbose S version o i Wr) as V.
  destruct (after_run_holds S o i (wb_run _ _ _ Wr)) as (O & R & Q & W).
  set (d := bd S i (has_fluxes o) pi pp ch pr) in *.
  assert (St' : stored S (wO w) (bdj d (fun j => c j + 2)) (fun m k b => o_coef i (surf i b) m k) (has_fluxes o) pp).
  { rewrite E. destruct St. constructor; auto. exists c. split; [exact Ha|reflexivity]. }
  assert (Ft' : wfits S version (bdj d (fun j => c j + 2))).
  { destruct Ft. constructor; auto. cbn. intros j Hj. specialize (Hc j Hj). lia. }
  assert (V' : oI (wO w) I_verbose = Some (verb i)) by (rewrite E; exact V).
  pose proof (write_boozmn_spec S version x w (wO w) (bdj d (fun j => c j + 2)) _ (has_fluxes o) pp [] (verb i) eq_refl St' Ft' (conj Wf Op) (fun _ => L) V') as T.
  unfold tri in T. destruct (write_boozmn S version x w) as [[] w'|m w'|y|w'] eqn:Ew; try contradiction; try (exfalso; exact (proj1 T eq_refl)).
  destruct T as (_ & _ & _ & _ & (f & H2 & H3) & _). exists w', f. splits; auto.
  - intros j Hj. pose proof (wt_data _ _ _ _ _ _ H3) as B. destruct (wt_all _ _ _ _ _ _ H3) as ((C1 & _) & _).
    rewrite (icell_of S f _ (nsurf i) (fun j => c j + 2) j (bf_jlist _ _ _ B)); auto. apply C1. cbn. auto 30.
  - intros k b Hk Hb. exists (o_coef i (surf i b) A_bmnc_b k). split.
    + refine (elem2_mat _ _ _ _ _ k b (q_out _ _ _ Q A_bmnc_b _) Hk Hb). unfold outs. destruct (asym i); cbn; tauto.
    + pose proof (wt_data _ _ _ _ _ _ H3) as B. destruct (wt_all _ _ _ _ _ _ H3) as ((C1 & _) & _).
      rewrite (dcell_of2 S f _ (mnboz i) (nsurf i) (fun k b => b_mat S d A_bmnc_b k b) k b); auto.
      * apply (bf_sym _ _ _ B). cbn. auto.
      * apply C1. cbn. auto 30.
Qed.

(** ** C33 *)
Lemma staged_base asp i (o om : obj) : staged S asp i o om -> oI o I_verbose = Some (verb i) ->
  (exists n g, vec_is (oN o N_compute_surfs) n g) -> vbase om i.
Proof.
  intros G V C. destruct G. constructor; auto.
  - rewrite sg_I; [exact V|]. cbn. intuition discriminate.
  - rewrite sg_N; [exact C|]. cbn. intuition discriminate.
Qed.
Lemma staged_ready asp i d (o om : obj) : staged S asp i o om -> wout_ok i d -> oI o I_verbose = Some (verb i) ->
  (exists n g, vec_is (oN o N_compute_surfs) n g) -> vready om i.
Proof.
  intros G K V C. pose proof (staged_base asp i o om G V C) as B. destruct K as [K1 K2 K3 K4 K5 K6 K7]. destruct K7 as (I1 & I2 & I3 & (I4 & I5) & I6).
  constructor; try apply B.
  - intros f Hf. cbn in Hf. repeat destruct Hf as [<-|Hf]; try contradiction; [| | | |apply B]; do 2 eexists; apply B.
  - lia.
  - auto.
Qed.
Lemma surfs_le (o : obj) n m g : vec_is (oN o N_compute_surfs) m g ->
  ((forall j x, elemN o N_compute_surfs j = Some (Some x) -> 0 <= x <= n - 1) <-> forall j, 0 <= j < m -> 0 <= g j < n).
Proof.
  intros V. split.
  - intros H j Hj. specialize (H j (g j) (elemN_vec _ _ _ _ _ V Hj)). lia.
  - intros H j x E. assert (0 <= j < m).
    { unfold elemN in E. destruct ((0 <=? j) && (j <? asize (oN o N_compute_surfs))) eqn:X; [|discriminate].
      apply andb_true_iff in X. rewrite (vec_is_asize _ _ _ V) in X. destruct X as (X1 & X2). apply Z.leb_le in X1. apply Z.ltb_lt in X2. lia. }
    rewrite (elemN_vec _ _ _ _ _ V H0) in E. injection E as <-. specialize (H j H0). lia.
Qed.
Lemma staged_shape asp i d v (o om : obj) : staged S asp i o om -> wout_ok i d -> vholds v i d -> oI o I_verbose = Some (verb i) ->
  (exists n g, vec_is (oN o N_compute_surfs) n g) -> (well_shaped om i v <-> selects o (d_ns S d - 1)).
Proof.
  intros G K D V (n & g & Vs).
  assert (Es : oN om N_compute_surfs = oN o N_compute_surfs) by (apply (sg_N _ _ _ _ _ G); cbn; intuition discriminate).
  assert (B : vbase om i) by (eapply staged_base; eauto). destruct K as [K1 K2 (K3 & K4 & K5 & K6) K7 K8 K9 (I1 & I2 & I3 & I4)].
  rewrite <- Es in Vs. split.
  - intros W. exists n, g. rewrite <- Es. split; auto. apply (surfs_le om); auto.
    intros j x E. pose proof (ws_surfs _ _ _ _ W j x E). rewrite (vh_ns _ _ _ _ D) in H. lia.
  - intros (n' & g' & V1 & V2). constructor.
    + rewrite (vh_ns _ _ _ _ D). exact K1.
    + exact K2.
    + rewrite (vh_ns _ _ _ _ D). exact (vec_is_asize _ _ _ (vh_iotas _ _ _ _ D)).
    + rewrite (vh_ns _ _ _ _ D). destruct (d_flux S d) eqn:Ef.
      * right. destruct D. splits; eapply vec_is_asize; eauto.
      * left. now apply (vh_noflux _ _ _ _ D).
    + split; eapply vec_is_asize; apply B.
    + split; eapply vec_is_asize; apply B.
    + intros f Hf. cbn in Hf. repeat destruct Hf as [<-|Hf]; try contradiction.
      * rewrite (elemN_vec _ _ _ _ _ (vb_xm _ _ _ B)) by lia. congruence.
      * rewrite (elemN_vec _ _ _ _ _ (vb_xn _ _ _ B)) by lia. congruence.
      * rewrite (elemN_vec _ _ _ _ _ (vb_xmq _ _ _ B)) by lia. congruence.
      * rewrite (elemN_vec _ _ _ _ _ (vb_xnq _ _ _ B)) by lia. congruence.
    + rewrite (elemN_vec _ _ _ _ _ (vb_xn _ _ _ B)) by lia. congruence.
    + rewrite (elemN_vec _ _ _ _ _ (vb_xnq _ _ _ B)) by lia. congruence.
    + rewrite (vh_ns _ _ _ _ D). intros a r Hin. cbn in Hin. destruct D.
      repeat destruct Hin as [E|Hin]; try contradiction; injection E as <- <-;
        match goal with H : mat_is ?a _ _ _ |- arows ?a = _ /\ _ => destruct H as (_ & _ & X1 & X2 & _); auto end.
    + rewrite (vh_ns _ _ _ _ D). intros As a r Hin. cbn in Hin. destruct D.
      repeat destruct Hin as [E|Hin]; try contradiction; injection E as <- <-;
        match goal with H : _ -> mat_is ?a _ _ _ |- arows ?a = _ /\ _ => destruct (H As) as (_ & _ & X1 & X2 & _); auto end.
    + rewrite <- Es in V1. rewrite (vh_ns _ _ _ _ D). intros j x E.
      pose proof (proj2 (surfs_le om (d_ns S d - 1) n' g' V1) V2 j x E). lia.
Qed.

Lemma selects_dec (o : obj) m0 : (exists n g, vec_is (oN o N_compute_surfs) n g) -> selects o m0 \/ ~ selects o m0.
Proof.
  intros Hs. destruct Hs as (n & g & Vs). 
    assert (X : forall m, (forall j, 0 <= j < Z.of_nat m -> 0 <= g j < m0) \/ exists j, 0 <= j < Z.of_nat m /\ ~ (0 <= g j < m0)).
    { induction m as [|m [IH|(j & H1 & H2)]].
      - left. lia.
      - assert ((0 <= g (Z.of_nat m) < m0) \/ ~ (0 <= g (Z.of_nat m) < m0)) as [H|H] by lia.
        + left. intros j Hj. destruct (Z.eq_dec j (Z.of_nat m)) as [->|]; [exact H|]. apply IH. lia.
        + right. exists (Z.of_nat m). split; [lia|exact H].
      - right. exists j. split; [lia|exact H2]. }
    assert (Hn : 0 <= n) by (destruct Vs as (_ & _ & V & _); lia).
    specialize (X (Z.to_nat n)). rewrite Z2Nat.id in X by lia. destruct X as [X|(j & H1 & H2)].
    - left. exists n, g. auto.
    - right. intros (n' & g' & V1 & V2). pose proof (vec_is_asize _ _ _ V1) as E1. pose proof (vec_is_asize _ _ _ Vs) as E2.
      assert (En : n' = n) by congruence. rewrite En in V1, V2. clear n' En E1 E2. specialize (V2 j H1).
      pose proof (elemN_vec _ _ _ _ _ V1 H1) as E3. pose proof (elemN_vec _ _ _ _ _ Vs H1) as E4. rewrite E3 in E4. injection E4 as E4. lia.
Qed.
Lemma wout_no_ub asp i d (o : obj) : wout_ok i d -> oI o I_verbose = Some (verb i) -> (exists n g, vec_is (oN o N_compute_surfs) n g) ->
  forall om v, staged S asp i o om -> wf_obj om -> vholds v i d -> forall why, run (init_from_vmec S v) om <> RUB why.
Proof.
  intros Gk Hv Hs om v G Wm D why E. destruct (selects_dec o (d_ns S d - 1) Hs) as [Sl|Sl].
  - refine (never_ub om i v d _ why E). constructor; auto; try apply Gk; [eapply staged_base; eauto|eapply staged_shape; eauto].
  - assert (Rng : 1 - INT_MAX <= v_ns S v <= INT_MAX).
    { rewrite (vh_ns _ _ _ _ D). destruct Gk as [K1 _ _ _ _ _ (K2 & _)]. unfold INT_MAX in *. lia. }
    destruct (proj1 (rejects_exactly om i v (staged_ready _ _ _ _ _ G Gk Hv Hs) Rng)) as (m & o' & ev & E'); [|congruence].
    intros X. apply Sl. eapply staged_shape; eauto.
Qed.
(** C52 *)
Theorem read_wout_safe f la asp i d x (w : world) : wfile S f la asp i d -> wsane S la i d -> wout_ok i d ->
  wFS w x = Some (Whole f) -> open_ok w -> wf_obj (wO w) -> oI (wO w) I_verbose = Some (verb i) ->
  (exists n g, vec_is (oN (wO w) N_compute_surfs) n g) ->
  (forall why, read_wout S x (d_flux S d) w <> IUB why) /\
  (lucky S w -> ~ wcomplete S f i d -> exists m w', read_wout S x (d_flux S d) w = IThrow m w').
Proof.
  intros Wf Ws Gk Hf Op Wo Hv Hs. pose proof (wout_no_ub asp i d (wO w) Gk Hv Hs) as NU. split.
  - intros why E. pose proof (read_wout_spec S f la asp i d Wf Ws x w (wQ w) (verb i) Hf (conj Wo Op) (fun H => H) Hv NU) as T.
    unfold tri in T. now rewrite E in T.
  - intros L C. pose proof (read_wout_spec S f la asp i d Wf Ws x w [] (verb i) Hf (conj Wo Op) (fun _ => L) Hv NU) as T. unfold tri in T.
    destruct (read_wout S x (d_flux S d) w) as [[] w'|m w'|y|w']; try contradiction.
    + destruct T as (_ & _ & _ & T & _). contradiction.
    + eauto.
    + destruct T as (_ & T). congruence.
Qed.
Theorem read_wout_outcome f asp i d x (w : world) : good_wout f asp i d -> wFS w x = Some (Whole f) -> lucky S w -> open_ok w ->
  wf_obj (wO w) -> oI (wO w) I_verbose = Some (verb i) -> (exists n g, vec_is (oN (wO w) N_compute_surfs) n g) ->
  (selects (wO w) (d_ns S d - 1) ->
     exists w', read_wout S x (d_flux S d) w = IOk tt w' /\ repr (wO w') (from_vmec i d) /\ fluxes_stored (wO w') d /\
       oF (wO w') F_aspect = Some asp /\ wFS w' = wFS w /\ wOpen w' = wOpen w) /\
  (~ selects (wO w) (d_ns S d - 1) -> exists m w', read_wout S x (d_flux S d) w = IThrow m w' /\ wFS w' = wFS w).
Proof.
  intros [(la & Wf & Ws) Gc Gk] Hf L Op Wo Hv Hs.
  assert (Acc : forall om v, staged S asp i (wO w) om -> wf_obj om -> vholds v i d -> selects (wO w) (d_ns S d - 1) -> accepted om i v d).
  { intros om v G Wm D Sl. constructor; auto; try apply Gk; [eapply staged_base; eauto|eapply staged_shape; eauto]. }
  assert (Rng : forall v, vholds v i d -> 1 - INT_MAX <= v_ns S v <= INT_MAX).
  { intros v D. rewrite (vh_ns _ _ _ _ D). destruct Gk as [K1 _ _ _ _ _ (K2 & _)]. unfold INT_MAX in *. lia. }
  assert (Rej : forall om v, staged S asp i (wO w) om -> vholds v i d -> ~ selects (wO w) (d_ns S d - 1) ->
    exists m o' ev, run (init_from_vmec S v) om = RThrow m o' ev).
  { intros om v G D Sl. apply (rejects_exactly om i v); [eapply staged_ready; eauto|now apply Rng|].
    intros X. apply Sl. eapply staged_shape; eauto. }
  pose proof (wout_no_ub asp i d (wO w) Gk Hv Hs) as NU.
  pose proof (read_wout_spec S f la asp i d Wf Ws x w [] (verb i) Hf (conj Wo Op) (fun _ => L) Hv NU) as T.
  unfold tri in T. split; intros Sl; destruct (read_wout S x (d_flux S d) w) as [[] w'|m w'|y|w'] eqn:Er.
  - destruct T as (T1 & T2 & T3 & _ & om & v & ev & G & Wm & D & E). exists w'. split; [reflexivity|].
    destruct (vmec_total om i v d (Acc om v G Wm D Sl)) as (o' & E' & R & Fx & Fr & _). unfold vmec_ok in E'. rewrite E in E'.
    injection E' as <- _. splits; auto. rewrite (vf_F _ _ _ _ Fr) by discriminate. apply G.
  - exfalso. destruct T as (_ & T). destruct (T eq_refl) as [T1|(T1 & om & v & m' & ev & G & Wm & D & E)]; [contradiction|].
    destruct (vmec_total om i v d (Acc om v G Wm D Sl)) as (o' & E' & _). unfold vmec_ok in E'. congruence.
  - contradiction.
  - destruct T as (_ & T). congruence.
  - exfalso. destruct T as (_ & _ & _ & _ & om & v & ev & G & Wm & D & E). destruct (Rej om v G D Sl) as (m & o' & ev' & E'). congruence.
  - exists m, w'. split; [reflexivity|apply T].
  - contradiction.
  - destruct T as (_ & T). congruence.
Qed.

Lemma repr_same (o o' : obj) i : repr o i -> repr o' i -> same_inputs o o'.
Proof.
  intros R R'. destruct R, R'. constructor.
  - intros f Hf. cbn in Hf. repeat destruct Hf as [<-|Hf]; try contradiction; congruence.
  - congruence.
  - intros f Hf. cbn in Hf. repeat destruct Hf as [<-|Hf]; try contradiction; eapply vec_is_eq; eauto.
  - intros f Hf. cbn in Hf. repeat destruct Hf as [<-|Hf]; try contradiction; solve [eapply vec_is_eq; eauto|eapply mat_is_eq; eauto].
  - intros As f Hf. assert (A : asym i = true) by congruence.
    cbn in Hf. repeat destruct Hf as [<-|Hf]; try contradiction; eapply mat_is_eq; eauto.
Qed.
Theorem read_wout_history f asp i d x (w1 w2 : world) : good_wout f asp i d ->
  (forall w, w = w1 \/ w = w2 -> wFS w x = Some (Whole f) /\ lucky S w /\ open_ok w /\ wf_obj (wO w) /\
     oI (wO w) I_verbose = Some (verb i) /\ selects (wO w) (d_ns S d - 1)) ->
  exists w1' w2', read_wout S x (d_flux S d) w1 = IOk tt w1' /\ read_wout S x (d_flux S d) w2 = IOk tt w2' /\
    same_inputs (wO w1') (wO w2') /\
    (forall g, In g [F_aspect; F_toroidal_flux] -> oF (wO w1') g = oF (wO w2') g) /\
    (forall g, In g flux_arrays -> asize (oA (wO w1') g) = asize (oA (wO w2') g) /\ forall j, elem (wO w1') g j = elem (wO w2') g j).
Proof.
  intros G H.
  assert (X : forall w, w = w1 \/ w = w2 -> exists w', read_wout S x (d_flux S d) w = IOk tt w' /\ repr (wO w') (from_vmec i d) /\
     fluxes_stored (wO w') d /\ oF (wO w') F_aspect = Some asp).
  { intros w Hw. destruct (H w Hw) as (H1 & H2 & H3 & H4 & H5 & H6).
    destruct (read_wout_outcome f asp i d x w G H1 H2 H3 H4 H5) as (X & _).
    - destruct H6 as (n & g & V & _). eauto.
    - destruct (X H6) as (w' & A1 & A2 & A3 & A4 & _). eauto 10. }
  destruct (X w1 (or_introl eq_refl)) as (w1' & A1 & A2 & A3 & A4). destruct (X w2 (or_intror eq_refl)) as (w2' & B1 & B2 & B3 & B4).
  exists w1', w2'. splits; auto.
  - eapply repr_same; eauto.
  - unfold fluxes_stored in A3, B3. intros g [<-|[<-|[]]]; [congruence|]. destruct (d_flux S d).
    + destruct A3 as (_ & _ & _ & _ & A3), B3 as (_ & _ & _ & _ & B3). congruence.
    + destruct A3 as (_ & A3), B3 as (_ & B3). congruence.
  - unfold fluxes_stored in A3, B3. intros g Hg. destruct (d_flux S d).
    + destruct A3 as (C1 & C2 & C3 & C4 & _), B3 as (D1 & D2 & D3 & D4 & _).
      assert (E : oA (wO w1') g = oA (wO w2') g).
      { cbn in Hg. repeat destruct Hg as [<-|Hg]; try contradiction; eapply vec_is_eq; eauto. }
      unfold elem. rewrite E. auto.
    + destruct A3 as (A3 & _), B3 as (B3 & _). assert (Hg' : In g [A_phip; A_chi; A_pres; A_phi]) by (cbn in *; tauto).
      pose proof (A3 g Hg') as E1. pose proof (B3 g Hg') as E2. rewrite E1, E2. split; [reflexivity|]. intros j. unfold elem. rewrite E1, E2.
      destruct (Z.leb_spec 0 j), (Z.ltb_spec j 0); cbn; auto; lia.
Qed.

(** ** C43, C45: reading a boozmn file *)
Theorem read_complete f d x (w : world) : bfile S f d -> bsane S d -> wFS w x = Some (Whole f) -> open_ok w -> usable (wO w) ->
  (forall why, read_boozmn S x w <> IUB why) /\
  (lucky S w -> bcomplete S f d -> exists w', read_boozmn S x w = IOk tt w' /\ loaded S d (wO w) (wO w') /\
     (present S f "chi_b" -> vec_is (oA (wO w') A_chi) (b_radius S d) (b_chi S d))) /\
  (lucky S w -> ~ bcomplete S f d -> exists m w', read_boozmn S x w = IThrow m w').
Proof.
  intros B Bs Hf Op (Wo & vb & Hv). splits.
  - intros why E. pose proof (read_boozmn_spec S f d B Bs x w (wQ w) vb Hf (conj Wo Op) (fun H => H) Hv) as T. unfold tri in T. now rewrite E in T.
  - intros L C. pose proof (read_boozmn_spec S f d B Bs x w [] vb Hf (conj Wo Op) (fun _ => L) Hv) as T. unfold tri in T.
    destruct (read_boozmn S x w) as [[] w'|m w'|y|w']; try contradiction.
    + exists w'. destruct T as (T1 & T2 & _). splits; auto.
    + exfalso. now apply (proj2 T).
    + exfalso. now apply (proj2 T).
  - intros L C. pose proof (read_boozmn_spec S f d B Bs x w [] vb Hf (conj Wo Op) (fun _ => L) Hv) as T. unfold tri in T.
    destruct (read_boozmn S x w) as [[] w'|m w'|y|w']; try contradiction.
    + exfalso. apply C. apply T.
    + eauto.
    + exfalso. now apply (proj2 T).
Qed.
Theorem read_closes f d x (w w' : world) : bfile S f d -> bsane S d -> wFS w x = Some (Whole f) -> open_ok w -> usable (wO w) ->
  read_boozmn S x w = IOk tt w' -> wOpen w' = wOpen w.
Proof.
  intros B Bs Hf Op (Wo & vb & Hv) E. pose proof (read_boozmn_spec S f d B Bs x w (wQ w) vb Hf (conj Wo Op) (fun H => H) Hv) as T.
  unfold tri in T. rewrite E in T. apply T.
Qed.
Theorem read_wout_closes f asp i d x (w w' : world) : good_wout f asp i d -> wFS w x = Some (Whole f) -> open_ok w ->
  wf_obj (wO w) -> oI (wO w) I_verbose = Some (verb i) -> selects (wO w) (d_ns S d - 1) ->
  read_wout S x (d_flux S d) w = IOk tt w' -> wOpen w' = wOpen w.
Proof.
  intros [(la & Wf & Ws) Gc Gk] Hf Op Wo Hv Sl E.
  assert (Hs : exists n g, vec_is (oN (wO w) N_compute_surfs) n g) by (destruct Sl as (n & g & V & _); eauto).
  assert (NU : forall om v, staged S asp i (wO w) om -> wf_obj om -> vholds v i d -> forall why, run (init_from_vmec S v) om <> RUB why).
  { intros om v G Wm D. eapply never_ub. constructor; eauto; try apply Gk; [eapply staged_base; eauto|eapply staged_shape; eauto]. }
  pose proof (read_wout_spec S f la asp i d Wf Ws x w (wQ w) (verb i) Hf (conj Wo Op) (fun H => H) Hv NU) as T. unfold tri in T.
  rewrite E in T. apply T.
Qed.
End Thms.
