(** Sessions: the invariant of each stage, and that every call keeps it. *)
From Coq Require Import ZArith List String Bool Lia.
From Verif Require Import Scalar Prog Model Wp Func Step TrigProof InitProof RunProof Spec FuncExt RunThms
  Vmec VmecSpec VmecProof VmecRun VmecThms
  Nc NcModel NcSpec NcTri NcRead NcBoozmn NcWout NcWrite NcWriteB NcVoc NcThms NcThms3 PyProof PyKeep Py PySpec.
Import ListNotations.
Local Open Scope Z_scope.

Section Inv.
Context {S : Scalar}.
Notation obj := (obj S).
Notation world := (world S).
Notation io := (io S).
Variable version : string.

Definition known (o : obj) : Prop := exists n g, vec_is (oN o N_compute_surfs) n g.
Definition base (o : obj) : Prop := wf_obj o /\ exists vb, oI o I_verbose = Some vb.
Definition oinv (st : stage) (o : obj) : Prop := base o /\
  match st with
  | Broken => True
  | Empty => known o
  | Ready => exists i, valid o i /\ fluxes_ok o (nsin i + 1)
  | Done => exists i, after_run o i /\ fluxes_ok o (nsin i + 1)
  | Loaded => known o /\ forall n c, vec_is (oA o A_chi) n c -> exists d g ph, stored S o d g true ph /\ bsane S d
  end.
Definition inv (st : stage) (w : world) : Prop := oinv st (wO w) /\ open_ok w.

Lemma inv_known st o : st <> Broken -> oinv st o -> known o.
Proof.
  intros N (B & H). destruct st; try contradiction; auto.
  - destruct H as (i & (_ & R & _) & _). exists (nsurf i), (surf i). apply R.
  - destruct H as (i & H & _). destruct (after_run_holds S o i H) as (_ & R & _). exists (nsurf i), (surf i). apply R.
  - apply H.
Qed.
Lemma inv_new : oinv Empty (obj_new S).
Proof.
  split; [split; [apply obj_new_wf|exists 1; reflexivity]|]. exists 0, (fun _ => 0). unfold vec_is. cbn. splits; auto. intros; lia.
Qed.

(** Attributes *)
Lemma set_verb2 (i : Inp S) v v' : set_verb (set_verb i v) v' = set_verb i v'.
Proof. reflexivity. Qed.
Lemma wf_updI (o : obj) f v : wf_obj o -> wf_obj (updI o f v).
Proof. intros W. constructor; apply W. Qed.
Lemma wf_updB (o : obj) f v : wf_obj o -> wf_obj (updB o f v).
Proof. intros W. constructor; apply W. Qed.
Lemma wf_updF (o : obj) f v : wf_obj o -> wf_obj (updF o f v).
Proof. intros W. constructor; apply W. Qed.
Lemma wf_updA (o : obj) f v : wf_obj o -> wf_arr v -> wf_obj (updA o f v).
Proof. intros W Wv. constructor; [apply W|]. intros g. cbn. destruct (afield_eq_dec g f); [auto|apply W]. Qed.

Lemma repr_verb (o : obj) i v : repr o i -> repr (updI o I_verbose (Some v)) (set_verb i v).
Proof. intros R. destruct R. constructor; auto. Qed.
Lemma ok_verb (i : Inp S) v : ok_inp i -> ok_inp (set_verb i v).
Proof. intros H. apply (ok_set_verb S _ (verb i)). rewrite set_verb2. now rewrite set_verb_id. Qed.
Lemma retouch_verb (o o' : obj) v : retouched o o' -> retouched o (updI o' I_verbose (Some v)).
Proof.
  intros [T1 T2 T3 T4 T5 T6]. constructor; auto.
  - intros f Hf. cbn. destruct (ifield_eq_dec f I_verbose); [contradiction|auto].
  - now apply wf_updI.
Qed.
Lemma touch_verb st (o : obj) v : oinv st o -> oinv st (updI o I_verbose (Some v)).
Proof.
  intros ((W & vb & B) & H). split; [split; [now apply wf_updI|exists v; reflexivity]|]. destruct st; auto.
  - destruct H as (i & (V1 & V2 & V3) & Hf). exists (set_verb i v). split; [|exact Hf].
    split; [now apply ok_verb|]. split; [now apply repr_verb|now apply wf_updI].
  - destruct H as (i & (o1 & o2 & ev & u & V & E & T & Hv) & Hf). exists (set_verb i v). split; [|exact Hf].
    exists o1, o2, ev, u. rewrite set_verb2. splits; auto. now apply retouch_verb.
  - destruct H as (Kn & H). split; [exact Kn|]. intros n c Hc. destruct (H n c Hc) as (d & g & ph & St & Sn). exists d, g, ph. split; [|exact Sn].
    destruct St. constructor; auto.
Qed.
Lemma touch_flt st (o : obj) f v : In f [F_aspect; F_toroidal_flux] -> oinv st o -> oinv st (updF o f v).
Proof.
  intros Hin ((W & vb & B) & H). split; [split; [now apply wf_updF|exists vb; exact B]|]. destruct st; auto.
  - destruct H as (i & (V1 & V2 & V3) & Hf). exists i. split; [|exact Hf].
    split; [auto|]. split; [|now apply wf_updF]. destruct V2. constructor; auto.
  - destruct H as (i & (o1 & o2 & ev & u & V & E & T & Hv) & Hf). exists i. split; [|exact Hf].
    exists o1, o2, ev, u. splits; auto. destruct T as [T1 T2 T3 T4 T5 T6]. constructor; auto.
    + intros f' Hf'. cbn. destruct (ffield_eq_dec f' f); [subst; contradiction|auto].
    + now apply wf_updF.
  - destruct H as (Kn & H). split; [exact Kn|]. intros n c Hc. destruct (H n c Hc) as (d & g & ph & St & Sn). exists d, g, ph. split; [|exact Sn].
    destruct St. constructor; auto.
Qed.

Notation tri3 := (fun m (w : world) Q E => tri m w (fun _ => Q) E (fun _ => True)).

Lemma step_touch st c (w : world) : touch c = true -> inv st w ->
  tri (exec version c) w (fun _ => inv st) (inv st) (fun _ => True).
Proof.
  intros T (H & Op). destruct c; try discriminate.
  - destruct f; try discriminate. cbn. destruct (in_int v); [|split; auto]. unfold tri, lift. cbn. split; [|exact Op]. now apply touch_verb.
  - unfold exec. destruct f; try discriminate; unfold rw_flt, tri, lift; cbn; (split; [|exact Op]); apply touch_flt; cbn; auto.
Qed.
Lemma step_set st c (w : world) : setter c = true -> inv st w ->
  tri (exec version c) w (fun _ w' => base (wO w') /\ open_ok w' /\ (known (wO w) \/ sets_surfs c = true -> known (wO w'))) (inv st) (fun _ => True).
Proof.
  intros T (((W & vb & B) & H) & Op). assert (I : inv st w) by (split; [split; [split; eauto|]|]; auto).
  destruct c; try discriminate; unfold exec.
  - destruct (rw_int f); [|exact I]. destruct (in_int v); [|exact I]. unfold tri, lift. cbn. splits; auto.
    + split; [now apply wf_updI|]. destruct f; cbn; eauto.
    + intros [K|K]; [exact K|discriminate].
  - destruct (rw_bool f); [|exact I]. unfold tri, lift. cbn. splits; auto.
    + split; [now apply wf_updB|]. eauto.
    + intros [K|K]; [exact K|discriminate].
  - destruct (rw_flt f); [|exact I]. unfold tri, lift. cbn. splits; auto.
    + split; [now apply wf_updF|]. eauto.
    + intros [K|K]; [exact K|discriminate].
  - destruct (rw_ints f); [|exact I]. assert (V : vec_is (tab (Z.of_nat n) g) (Z.of_nat n) g) by (apply tab_is; lia).
    unfold tri, lift. cbn. splits; auto.
    + split; [|eauto]. constructor; [|apply W]. intros f'. cbn. destruct (nfield_eq_dec f' f); [|apply W].
      split; [eapply vec_is_wf; exact V|apply V].
    + intros Hk. unfold known. cbn [oN updN setO wO addEv]. destruct (nfield_eq_dec N_compute_surfs f); [eauto|].
      destruct Hk as [Hk|Hk]; [exact Hk|]. destruct f; try discriminate. contradiction.
  - destruct (rw_arr f); [|exact I]. destruct (is_vector f && negb (c =? 1)%nat); [exact I|].
    assert (M : mat_is (tabm (Z.of_nat r) (Z.of_nat c) g) (Z.of_nat r) (Z.of_nat c) g) by (apply tabm_is; lia).
    unfold tri, lift. cbn. splits; auto.
    + split; [|eauto]. apply wf_updA; auto. eapply mat_is_wf; exact M.
    + intros [K|K]; [exact K|discriminate].
Qed.

(** A file that is not there *)
Lemma absent {A} t (k : Z -> io A) x (w : world) vb : wFS w x = None -> oI (wO w) I_verbose = Some vb -> open_ok w ->
  tri (ibind (chatter S (out t [] [])) (fun _ => ibind (reader S x) k)) w (fun _ _ => False)
    (fun w' => wO w' = wO w /\ open_ok w') (fun _ => True).
Proof.
  intros Hx Hv Op. apply tri_bind. unfold chatter. apply tri_lift. eapply wp_geti; [exact Hv|].
  eapply wp_mono with (Q := fun _ o _ => o = wO w); [|destruct (0 <? vb); cbn; auto].
  cbv beta. intros _ o ev ->. apply tri_bind. unfold reader. apply tri_bind. unfold nc_open. apply tri_call.
  - intros w' (O1 & F1 & P1 & N1) _. cbn in O1, F1, P1, N1. rewrite F1, Hx. cbn. split; [exact O1|]. unfold open_ok. cbn. now rewrite P1, N1.
  - intros w' m (O1 & F1 & P1 & N1) _. cbn in O1, F1, P1, N1. split; [|exact Logic.I]. cbn. split; [exact O1|]. unfold open_ok. cbn. now rewrite P1, N1.
Qed.

(** run() *)
Lemma run_step (o : obj) i : valid o i -> fluxes_ok o (nsin i + 1) -> exists o' ev,
  run (bx_run S) o = ROk tt o' ev /\ oinv Done o'.
Proof.
  intros V Fx. destruct (run_total o i V) as (o' & E & Fr & R & _ & Q & W). exists o', (run_events S i). split; [exact E|].
  split; [split; [exact W|]; exists (verb i); apply R|]. exists i. split; [eapply after_run_intro; eauto|].
  assert (X : forall f, In f flux_arrays -> oA o' f = oA o f).
  { intros f Hf. apply (rf_A _ _ _ _ Fr). cbn in Hf. repeat destruct Hf as [<-|Hf]; try contradiction; reflexivity. }
  destruct Fx as [Fx|Fx].
  - left. rewrite X by (cbn; auto). exact Fx.
  - right. intros f Hf. rewrite X by exact Hf. exact (Fx f Hf).
Qed.
Lemma done_valid (o : obj) i : after_run o i -> valid o i.
Proof. intros H. destruct (after_run_holds S o i H) as (H1 & H2 & _ & H3). split; auto. Qed.

(** write_boozmn *)
Lemma wf_after fl (o : obj) : wf_obj o -> wf_obj (after S fl o).
Proof. intros W. destruct fl; [|exact W]. apply wf_updA; auto. apply wf_aput. apply W. Qed.
Lemma after_done (o : obj) : oinv Done o -> oinv Done (after S (has_fluxes o) o).
Proof.
  intros ((W & vb & B) & i & (o1 & o2 & ev & u & V & E & T & Hv) & Hf). pose proof (after_same S (has_fluxes o) o) as SP.
  split; [split; [now apply wf_after|exists vb; now rewrite (sp_I _ _ _ _ SP)]|]. exists i. split.
  - exists o1, o2, ev, u. splits; auto; [|now rewrite (sp_I _ _ _ _ SP)]. destruct T as [T1 T2 T3 T4 T5 T6]. constructor.
    + intros f. rewrite (sp_B _ _ _ _ SP). auto.
    + intros f N. rewrite (sp_I _ _ _ _ SP). auto.
    + intros f N. rewrite (sp_F _ _ _ _ SP). auto.
    + intros f. rewrite (sp_N _ _ _ _ SP). auto.
    + intros f N. rewrite (sp_A _ _ _ _ SP); [auto|]. intros ->. apply N. cbn. auto.
    + now apply wf_after.
  - unfold has_fluxes in *. destruct Hf as [Hf|Hf].
    + left. rewrite Hf. exact Hf.
    + right. destruct (Hf A_phip) as (pp & Vp); [cbn; auto|]. rewrite (vec_is_asize _ _ _ Vp) in *.
      destruct (Z.eqb_spec (nsin i + 1) 0) as [En|En]; [exact Hf|]. cbn [negb after].
      intros f Hin. cbn. destruct (afield_eq_dec f A_phip) as [->|]; [|exact (Hf f Hin)].
      eexists. apply vec_is_put; [|exact Vp]. pose proof (proj1 (proj2 (proj2 Vp))). lia.
Qed.
Lemma after_loaded (o : obj) d g ph : stored S o d g true ph -> bsane S d -> base o -> oinv Loaded (after S true o).
Proof.
  intros St Sn (W & vb & B). pose proof (after_same S true o) as SP.
  split; [split; [now apply wf_after|exists vb; now rewrite (sp_I _ _ _ _ SP)]|]. pose proof St as St0. destruct St.
  split.
  - destruct st_surfs as (c & Hc & _). exists (b_nsurf S d), c. exact Hc.
  - intros n c Hc. exists d, g, (fun j => if j =? 0 then fofZ S 0 else ph j). split; [|exact Sn]. destruct (st_flux eq_refl) as (F1 & F2 & F3 & F4 & F5).
    constructor; auto.
    + intros x m Hin. cbn. destruct (afield_eq_dec m A_phip) as [->|]; [|eapply st_sym; eauto].
      exfalso. cbn in Hin. intuition discriminate.
    + intros As x m Hin. cbn. destruct (afield_eq_dec m A_phip) as [->|]; [|eapply st_matA; eauto].
      exfalso. cbn in Hin. intuition discriminate.
    + intros _. splits; auto.
      * cbn. apply vec_is_put; [|exact F1]. destruct Sn. lia.
      * intros j. rewrite F2. destruct (j =? 0); reflexivity.
Qed.

(** read_boozmn *)
Lemma loaded_inv (o o' : obj) d : loaded S d o o' -> bsane S d -> (exists vb, oI o I_verbose = Some vb) -> oinv Loaded o'.
Proof.
  intros L Sn (vb & B). pose proof L as L0. destruct L. split.
  { split; [exact ld_wf|]. exists vb. rewrite ld_Is; [exact B|]. cbn. intuition discriminate. }
  split; [eexists; eexists; exact ld_surfs|]. intros n c Hc.
  assert (En : n = b_radius S d) by (rewrite <- ld_chi; symmetry; now apply vec_is_asize in Hc). subst n.
  set (g := fun (m : afield) (k b : Z) => bsign S m (b_mat S d m k b)).
  set (zf := fun (h : Z -> F S) (j : Z) => if j =? 0 then fofZ S 0 else h j).
  assert (Zs : forall h j, 0 <= j -> h (j + 1) = zf h (j + 1)).
  { intros h j Hj. unfold zf. destruct (Z.eqb_spec (j + 1) 0); [lia|reflexivity]. }
  set (d' := {| b_lasym := if b_asym S d then 1 else 0; b_nfp := b_nfp S d; b_mboz := b_mboz S d; b_nboz := b_nboz S d; b_mnboz := b_mnboz S d;
    b_radius := b_radius S d; b_nsurf := b_nsurf S d; b_ns := b_radius S d; b_xm := b_xm S d; b_xn := b_xn S d;
    b_jlist := b_jlist S d; b_iota := zf (b_iota S d); b_G := zf (b_G S d); b_I := zf (b_I S d);
    b_phi := b_phi S d; b_phip := zf (b_phip S d); b_chi := c; b_pres := b_pres S d;
    b_mat := fun m k b => bsign S m (g m k b) |}).
  assert (As : b_asym S d' = b_asym S d) by (unfold b_asym at 1; cbn; destruct (b_asym S d); reflexivity).
  exists d', g, (b_phip S d). split; [|destruct Sn; constructor; auto].
  constructor; rewrite ?As; auto.
  - exists (fun j => b_jlist S d j - 2). split; [exact ld_surfs|]. cbn. intros; lia.
  - eapply vec_ext; [|exact ld_iota]. cbv beta. intros j Hj. apply Zs. lia.
  - eapply vec_ext; [|exact ld_G]. cbv beta. intros j Hj. apply Zs. lia.
  - eapply vec_ext; [|exact ld_I]. cbv beta. intros j Hj. apply Zs. lia.
  - intros Ha x m Hin. pose proof (ld_matA x m Hin) as M. rewrite Ha in M. exact M.
  - discriminate.
Qed.

Lemma fluxes_of_vmec (o : obj) i d : fluxes_stored o d -> fluxes_ok o (nsin (from_vmec i d) + 1).
Proof.
  unfold fluxes_stored, fluxes_ok. cbn [from_vmec nsin]. replace (d_ns S d - 1 + 1) with (d_ns S d) by lia. destruct (d_flux S d).
  - intros (H1 & H2 & H3 & H4 & _). right. intros f Hf. cbn in Hf. repeat destruct Hf as [<-|Hf]; try contradiction; eauto.
  - intros (H & _). left. apply H. cbn. auto.
Qed.
Lemma K_self kI kN (w : world) : wf_obj (wO w) -> open_ok w -> K kI kN (wO w) w.
Proof. intros W Op. split; [|exact Op]. split; [exact W|]. auto. Qed.
Lemma tri_pt {A} (m : io A) (w : world) Q E Q' E' : tri m w Q E (fun _ => True) -> pt m w Q' E' ->
  tri m w (fun a w' => Q a w' /\ Q' a w') (fun w' => E w' /\ E' w') (fun _ => True).
Proof. unfold tri, pt. destruct (m w); auto. Qed.
Lemma storable_fits (o : obj) d g ph : storable version o -> stored S o d g true ph -> bsane S d -> wfits S version d.
Proof.
  intros [B1 B2 B3 B4] St [D1 D2 D3 D4]. destruct (st_surfs _ _ _ _ _ _ St) as (c & Hc & _). rewrite (vec_is_asize _ _ _ Hc) in B1.
  specialize (B2 _ (st_mnboz _ _ _ _ _ _ St)). specialize (B3 _ (st_ns_in _ _ _ _ _ _ St)).
  constructor; [| | | |exact B4]; clear B4.
  - lia.
  - lia.
  - lia.
  - exact D4.
Qed.

Theorem step st c (w : world) ok exn : allowed version st c w ok exn -> inv st w ->
  tri (exec version c) w (fun _ => inv ok) (inv exn) (fun _ => True).
Proof.
  intros A. destruct A as [st w|st g w|st c w Ht|st c w Hs Hd|c w Hs|st x w f la asp i d ok N Hf Wf Ws Wk Hv Hok|st x fl w Hf
    |st v w i d ok Ac Hok|st v w i Vr Hns Nw|st w Hst|x w Sb|x w n g Sb Hc|st x w f d Hf Bf Bs|st x w Hf];
    intros I; pose proof I as (((W & vb & B) & H) & Op).
  - split; [apply inv_new|exact Op].
  - exact I.
  - now apply step_touch.
  - eapply tri_mono; [| | |apply step_set; eauto]; [|auto|auto]. cbv beta. intros _ w' (B' & Op' & K'). split; [|exact Op'].
    split; [exact B'|]. apply K'. destruct Hd as [N|N]; [left|auto]. apply (inv_known st); auto. apply I.
  - eapply tri_mono; [| | |apply step_set; eauto]; [|auto|auto]. cbv beta. intros _ w' (B' & Op' & K'). split; [|exact Op']. split; [exact B'|exact Logic.I].
  - (* read_wout *)
    assert (Kn : known (wO w)) by (apply (inv_known st); [auto|apply I]).
    pose proof (wout_no_ub S asp i d (wO w) Wk Hv Kn) as NU.
    pose proof (read_wout_spec S f la asp i d Wf Ws x w (wQ w) (verb i) Hf (conj W Op) (fun H => H) Hv NU) as T.
    pose proof (read_wout_keeps (wO w) x (d_flux S d) w (K_self _ _ w W Op)) as P. cbn [exec].
    unfold tri in *. unfold pt in P. destruct (read_wout S x (d_flux S d) w) as [[] w'|m w'|y|w'] eqn:E; try exact Logic.I; [| |contradiction].
    + destruct T as (T1 & T2 & T3 & _ & om & v & ev & G & Wm & D & E').
      assert (Sl : selects (wO w) (d_ns S d - 1)).
      { destruct (selects_dec S (wO w) (d_ns S d - 1) Kn) as [Y|Y]; [exact Y|].
        assert (Rng : 1 - INT_MAX <= v_ns S v <= INT_MAX).
        { rewrite (vh_ns _ _ _ _ D). destruct Wk as [K1 _ _ _ _ _ (K2 & _)]. unfold INT_MAX in *. lia. }
        destruct (proj1 (rejects_exactly om i v (staged_ready S _ _ _ _ _ G Wk Hv Kn) Rng)) as (m & o' & ev' & X); [|congruence].
        intros Z. apply Y. eapply staged_shape; eauto. }
      assert (Ac : accepted om i v d).
      { constructor; auto; try apply Wk; [eapply staged_base; eauto|eapply staged_shape; eauto]. }
      destruct (vmec_total om i v d Ac) as (o' & X & R & Fx & Fr & Wo'). unfold vmec_ok in X. rewrite E' in X. injection X as <- _.
      assert (Op' : open_ok w').
      { unfold open_ok. rewrite T2, T3. revert Op. apply Forall_impl. intros; lia. }
      split; [|exact Op']. assert (B' : base (wO w')) by (split; [exact Wo'|exists (verb i); apply R]).
      destruct Hok as [->|(-> & Ft)]; (split; [exact B'|]).
      * eexists; eexists; apply R.
      * exists (from_vmec i d). split; [split; [|split; auto]|].
        { apply fits_ok; auto; apply Wk. }
        { apply fluxes_of_vmec; auto. }
    + destruct P as ((W' & PI & PN) & Op'). split; [|exact Op']. split.
      * split; [exact W'|]. exists vb. now rewrite PI.
      * destruct Kn as (n & g & Kn). exists n, g. now rewrite PN.
  - (* read_wout, no such file *)
    cbn [exec]. unfold read_wout. eapply tri_mono; [| | |exact (absent _ _ x w vb Hf B Op)]; cbv beta; try tauto. intros w' (O' & Op'). split; [|exact Op']. rewrite O'. apply I.
  - (* init_from_vmec *)
    destruct (vmec_total (wO w) i v d Ac) as (o' & X & R & Fx & Fr & Wo'). unfold vmec_ok in X. unfold tri, exec, lift. rewrite X.
    split; [|exact Op]. cbn [wO addEv setO]. assert (B' : base o') by (split; [exact Wo'|exists (verb i); apply R]).
    destruct Hok as [->|(-> & Ft)]; (split; [exact B'|]).
    + eexists; eexists; apply R.
    + exists (from_vmec i d). pose proof Ac as [_ _ D Sh _ HI].
      assert (Hns : 2 <= d_ns S d) by (rewrite <- (vh_ns _ _ _ _ D); apply Sh). split; [split; [|split; auto]|].
      * apply fits_ok; auto. apply (ws_nfp _ _ _ _ Sh).
      * apply fluxes_of_vmec; auto.
  - destruct (proj1 (rejects_exactly (wO w) i v Vr Hns) Nw) as (m & o' & ev & E). unfold tri, exec, lift. rewrite E.
    destruct (throw_state S _ _ _ _ _ E) as (-> & ->). split; [|exact Op]. split.
    + split; [now apply wf_updI|]. exists vb. exact B.
    + exact (vr_vecs _ _ _ Vr N_compute_surfs ltac:(cbn; tauto)).
  - (* run *)
    assert (V : exists i, valid (wO w) i /\ fluxes_ok (wO w) (nsin i + 1)).
    { destruct Hst as [->| ->]; destruct H as (i & V & Fx); exists i; split; auto. now apply done_valid. }
    destruct V as (i & V & Fx). destruct (run_step _ i V Fx) as (o' & ev & E & D). unfold tri, exec, lift. rewrite E. split; [exact D|exact Op].
  - (* write *)
    destruct H as (i & Ar & Fx). destruct (after_run_holds S _ i Ar) as (O & R & Q & _).
    assert (Wr : writable version (wO w) i).
    { destruct Sb as [B1 B2 B3 B4]. constructor; auto.
      - now rewrite (vec_is_asize _ _ _ (r_surf _ _ _ R)) in B1.
      - apply B3. apply R. }
    destruct (write_all S version x w i Wr Op) as (pi & pp & ch & pr & _ & _ & T).
    pose proof (write_boozmn_keeps (wO w) version x w (K_self _ _ w W Op)) as P. cbn [exec].
    pose proof (after_done (wO w) (proj1 I)) as Dn.
    unfold tri in *. unfold pt in P. destruct (write_boozmn S version x w) as [[] w'|m w'|y|w'] eqn:E; try exact Logic.I; [| |contradiction].
    + destruct T as (_ & _ & _ & _ & _ & T). split; [rewrite T; exact Dn|apply P].
    + destruct T as (_ & _ & _ & [T|T]); (split; [rewrite T|apply P]); [apply I|exact Dn].
  - (* write what was read *)
    destruct H as (Kn & H). destruct (H n g Hc) as (d & g' & ph & St & Sn).
    pose proof (write_boozmn_spec S version x w (wO w) d g' true ph (wQ w) vb eq_refl St (storable_fits _ _ _ _ Sb St Sn) (conj W Op) (fun H => H) B) as T.
    pose proof (write_boozmn_keeps (wO w) version x w (K_self _ _ w W Op)) as P. cbn [exec].
    pose proof (after_loaded (wO w) d g' ph St Sn (conj W (ex_intro _ vb B))) as Dn.
    unfold tri in *. unfold pt in P. destruct (write_boozmn S version x w) as [[] w'|m w'|y|w'] eqn:E; try exact Logic.I; [| |contradiction].
    + destruct T as (_ & _ & _ & _ & _ & T). split; [rewrite T; exact Dn|apply P].
    + destruct T as (_ & _ & _ & [T|T]); (split; [rewrite T|apply P]); [apply I|exact Dn].
  - (* read_boozmn *)
    pose proof (read_boozmn_spec S f d Bf Bs x w (wQ w) vb Hf (conj W Op) (fun H => H) B) as T.
    pose proof (read_boozmn_keeps (wO w) x w (K_self _ _ w W Op)) as P. cbn [exec].
    unfold tri in *. unfold pt in P. destruct (read_boozmn S x w) as [[] w'|m w'|y|w'] eqn:E; try exact Logic.I; [| |contradiction].
    + destruct T as (L & _). split; [|apply P]. eapply loaded_inv; eauto.
    + destruct P as ((W' & PI & _) & Op'). split; [|exact Op']. split; [|exact Logic.I]. split; [exact W'|]. exists vb. now rewrite PI.
  - cbn [exec]. unfold read_boozmn. eapply tri_mono; [| | |exact (absent _ _ x w vb Hf B Op)]; cbv beta; try tauto. intros w' (O' & Op'). split; [|exact Op']. rewrite O'. apply I.
Qed.
End Inv.
