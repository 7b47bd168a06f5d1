(** Sessions: theorems about Python programs that use the object as documented. *)
From Coq Require Import ZArith List String Bool Lia.
From Verif Require Import Scalar Prog Model Wp Func Step TrigProof InitProof RunProof Spec FuncExt RunThms
  Vmec VmecSpec VmecProof VmecRun VmecThms
  Nc NcModel NcSpec NcTri NcRead NcBoozmn NcWout NcWrite NcWriteB NcVoc NcThms NcThms3 NcThms4
  Driver DriverSpec DriverProof DriverThms PyProof PyKeep Py PySpec PyInv.
Import ListNotations.
Local Open Scope Z_scope.

Section Thms.
Context {S : Scalar}.
Notation obj := (obj S).
Notation world := (world S).
Variable version : string.

(** A call keeps to the stages. *)
Lemma step_ok st c (w w' : world) ok exn : allowed version st c w ok exn -> inv st w -> exec version c w = IOk tt w' -> inv ok w'.
Proof. intros A I E. pose proof (step version st c w ok exn A I) as T. unfold tri in T. now rewrite E in T. Qed.
Lemma step_exn st c (w w' : world) ok exn m : allowed version st c w ok exn -> inv st w -> exec version c w = IThrow m w' -> inv exn w'.
Proof. intros A I E. pose proof (step version st c w ok exn A I) as T. unfold tri in T. now rewrite E in T. Qed.
Lemma inv_ready st (w : world) i : inv st w -> valid (wO w) i -> fluxes_ok (wO w) (nsin i + 1) -> inv Ready w.
Proof. intros ((B & _) & Op) V Fx. split; [split; [exact B|eauto]|exact Op]. Qed.
Lemma inv_done st (w : world) i : inv st w -> after_run (wO w) i -> fluxes_ok (wO w) (nsin i + 1) -> inv Done w.
Proof. intros ((B & _) & Op) V Fx. split; [split; [exact B|eauto]|exact Op]. Qed.

Lemma obeys_safe st s (w : world) : obeys version st s w -> inv st w -> forall why, play version s w <> Undefined why.
Proof.
  induction 1 as [st w|st c k w ok exn A H1 IH1 H2 IH2|st s w i V Fx H IH|st s w i V Fx H IH]; intros I why.
  - discriminate.
  - cbn [play]. pose proof (step version st c w ok exn A I) as T. unfold tri in T.
    destruct (exec version c w) as [[] w'|m w'|y|w'] eqn:E; [| |contradiction|discriminate].
    + now apply IH1.
    + eapply IH2; eauto.
  - apply IH. eapply inv_ready; eauto.
  - apply IH. eapply inv_done; eauto.
Qed.

(** At any call that a program makes: the stage. *)
Lemma obeys_do st s (w : world) : obeys version st s w -> inv st w -> forall c k, s = Do c k ->
  exists st' ok exn, inv st' w /\ allowed version st' c w ok exn /\
    (forall w', exec version c w = IOk tt w' -> obeys version ok (k None (wO w')) w') /\
    (forall m w', exec version c w = IThrow m w' -> obeys version exn (k (Some m) (wO w')) w').
Proof.
  induction 1 as [st w|st c k w ok exn A H1 IH1 H2 IH2|st s w i V Fx H IH|st s w i V Fx H IH]; intros I c0 k0 E.
  - discriminate.
  - injection E as <- <-. exists st, ok, exn. splits; auto.
  - apply IH; auto. eapply inv_ready; eauto.
  - apply IH; auto. eapply inv_done; eauto.
Qed.
Lemma obeys_reaches s (w : world) s2 w2 : reaches version s w s2 w2 -> forall st, obeys version st s w -> inv st w ->
  exists st', obeys version st' s2 w2 /\ inv st' w2.
Proof.
  induction 1 as [s w|c k w w' s2 w2 E R IH|c k w m w' s2 w2 E R IH]; intros st O I; [eauto| |].
  - destruct (obeys_do st _ w O I c k eq_refl) as (st' & ok & exn & I' & A & K1 & K2).
    apply (IH ok); [now apply K1|]. eapply step_ok; eauto.
  - destruct (obeys_do st _ w O I c k eq_refl) as (st' & ok & exn & I' & A & K1 & K2).
    apply (IH exn); [eapply K2; eauto|]. eapply step_exn; eauto.
Qed.
Lemma reached s (w : world) c k w1 : wO w = obj_new S -> open_ok w -> obeys version Empty s w -> reaches version s w (Do c k) w1 ->
  exists st ok exn, inv st w1 /\ allowed version st c w1 ok exn.
Proof.
  intros Hn Op O R. destruct (obeys_reaches _ _ _ _ R Empty O) as (st & O1 & I1).
  { split; [rewrite Hn; apply inv_new|exact Op]. }
  destruct (obeys_do st _ w1 O1 I1 c k eq_refl) as (st' & ok & exn & I' & A & _). eauto 6.
Qed.

Theorem session_safe s (w : world) : wO w = obj_new S -> open_ok w -> obeys version Empty s w ->
  forall why, play version s w <> Undefined why.
Proof. intros Hn Op O. apply (obeys_safe Empty); auto. split; [rewrite Hn; apply inv_new|exact Op]. Qed.

(** run(), whatever was done before, gives what it would give for these inputs alone. *)
Theorem session_run s (w w1 : world) k : wO w = obj_new S -> open_ok w -> obeys version Empty s w -> reaches version s w (Do Run k) w1 ->
  exists i w2, valid (wO w1) i /\ exec version Run w1 = IOk tt w2 /\
    forall o, valid o i -> exists o2 ev, run_ok o o2 ev /\ same_outputs (asym i) (wO w2) o2.
Proof.
  intros Hn Op O R. destruct (reached s w _ _ w1 Hn Op O R) as (st & ok & exn & I & A).
  assert (V : exists i, valid (wO w1) i).
  { inversion A; subst; try discriminate. destruct I as ((_ & I) & _). destruct H as [->| ->]; destruct I as (i & V & _); exists i; auto.
    now apply done_valid. }
  destruct V as (i & V). destruct (run_total (wO w1) i V) as (o2 & E2 & _ & _ & _ & Q2 & _).
  exists i. eexists. split; [exact V|]. split; [unfold exec, lift; unfold run_ok in E2; rewrite E2; reflexivity|].
  intros o Vo. destruct (run_total o i Vo) as (o3 & E3 & _ & _ & _ & Q3 & _). exists o3. eexists. split; [exact E3|].
  cbn [wO setO addEv]. apply results_same; auto.
Qed.

(** A file that was written can be read by any program. *)
Lemma fits_sane d : wfits S version d -> bsane S d.
Proof. intros [Z1 Z2 Z3 Z4 _]. constructor; [lia|unfold INT_MAX; lia|unfold INT_MAX; lia|exact Z4]. Qed.
Lemma write_step st x (w w' : world) ok exn : inv st w -> allowed version st (Write x) w ok exn -> exec version (Write x) w = IOk tt w' ->
  exists f d, wFS w' x = Some (Whole f) /\ bfile S f d /\ bsane S d /\ bcomplete S f d.
Proof.
  intros I A E. pose proof I as (((W & vb & B) & H) & Op). inversion A; subst; try discriminate.
  - destruct H as (i & Ar & Fx). destruct (after_run_holds S _ i Ar) as (O & R & Q & _). match goal with X : storable _ _ |- _ => rename X into Sb end.
    assert (Wr : writable version (wO w) i).
    { destruct Sb as [B1 B2 B3 B4]. constructor; auto.
      - now rewrite (vec_is_asize _ _ _ (r_surf _ _ _ R)) in B1.
      - apply B3. apply R. }
    destruct (write_all S version x w i Wr Op) as (pi & pp & ch & pr & _ & Ft & T). cbn [exec] in E. unfold tri in T. rewrite E in T.
    destruct T as (_ & _ & _ & _ & (f & F1 & F2) & _). exists f. eexists. splits; [exact F1|apply F2|eapply fits_sane; eauto|apply F2].
  - destruct H as (Kn & H). match goal with X : storable _ _ |- _ => rename X into Sb end.
    match goal with X : vec_is (oA (wO w) A_chi) ?n ?g |- _ => rename X into Hc; destruct (H n g Hc) as (d & g' & ph & St & Sn) end.
    pose proof (storable_fits version _ _ _ _ Sb St Sn) as Ft.
    pose proof (write_boozmn_spec S version x w (wO w) d g' true ph (wQ w) vb eq_refl St Ft (conj W Op) (fun H => H) B) as T.
    cbn [exec] in E. unfold tri in T. rewrite E in T.
    destruct T as (_ & _ & _ & _ & (f & F1 & F2) & _). exists f, d. splits; [exact F1|apply F2|exact Sn|apply F2].
Qed.
Theorem session_write s (w w1 w2 : world) x k : wO w = obj_new S -> open_ok w -> obeys version Empty s w ->
  reaches version s w (Do (Write x) k) w1 -> exec version (Write x) w1 = IOk tt w2 ->
  exists f d, wFS w2 x = Some (Whole f) /\ bfile S f d /\ bsane S d /\ bcomplete S f d.
Proof.
  intros Hn Op O R E. destruct (reached s w _ _ w1 Hn Op O R) as (st & ok & exn & I & A). eapply write_step; eauto.
Qed.
End Thms.

(** ** Wrong uses *)
Section Wrong.
Variable S : Scalar.
Notation world := (world S).
Definition undefd (r : ending S) (y : string) : Prop := match r with Undefined z => z = y | _ => False end.
Lemma undefd_ex r y : undefd r y -> r = Undefined y.
Proof. destruct r; cbn; try contradiction. now intros ->. Qed.
Definition two_files (b w : ncfile S) (x : string) : option (disk S) :=
  if String.eqb x "b.nc" then Some (Whole b) else if String.eqb x "wout.nc" then Some (Whole w) else None.

(** read_boozmn threw, the program goes on with a wout file. *)
Definition no_jlist : ncfile S := without S "jlist" (bfile_of S (bex S)).
Lemma no_jlist_file : bfile S no_jlist (bex S).
Proof.
  constructor; try (apply hold_int; reflexivity); try (apply hold_ints; [cbn; lia|reflexivity]); try (apply hold_vec; [cbn; lia|reflexivity]).
  - intros m E. vm_compute in E. first [discriminate E|now injection E].
  - intros m E. vm_compute in E. first [discriminate E|now injection E].
  - intros m E. vm_compute in E. first [discriminate E|now injection E].
  - intros x m Hin. cbn in Hin. repeat destruct Hin as [E|Hin]; try contradiction; injection E as <- <-; (apply hold_mat; [cbn; lia|cbn; lia|reflexivity]).
  - intros _ x m Hin. cbn in Hin. repeat destruct Hin as [E|Hin]; try contradiction; injection E as <- <-; (apply hold_mat; [cbn; lia|cbn; lia|reflexivity]).
Qed.
Definition recover : script S := Do (ReadBoozmn "b.nc") (fun _ _ => Do (ReadWout "wout.nc" false) (fun _ _ => Stop)).
Theorem recover_refuted : exists version (w : world) i d w1 m why,
  bfile S no_jlist (bex S) /\ bsane S (bex S) /\ good_wout (wex S false false) (fofZ S 3) i d /\
  wFS w "b.nc" = Some (Whole no_jlist) /\ wFS w "wout.nc" = Some (Whole (wex S false false)) /\
  wO w = obj_new S /\ open_ok w /\ lucky S w /\
  exec version (ReadBoozmn "b.nc") w = IThrow m w1 /\ (exists w2, exec version (ReadWout "wout.nc" false) w = IOk tt w2) /\
  play version recover w = Undefined why.
Proof.
  set (w := desk S (obj_new S) (two_files no_jlist (wex S false false)) []).
  destruct (thrown_ex S (exec "" (ReadBoozmn "b.nc") w) (fun _ => True)) as (m & w1 & E1 & _); [vm_compute; exact Logic.I|].
  destruct (okd_ex S (exec "" (ReadWout "wout.nc" false) w) (fun _ => True)) as (w2 & E2 & _); [vm_compute; exact Logic.I|].
  exists ""%string, w. do 2 eexists. exists w1, m. eexists.
  split; [apply no_jlist_file|]. split; [apply bex_sane|]. split; [apply (wex_good S false false)|]. do 3 (split; [reflexivity|]).
  split; [apply desk_open|]. split; [reflexivity|]. split; [exact E1|]. split; [eauto|].
  apply undefd_ex. vm_compute. reflexivity.
Qed.

(** run() after read_boozmn() *)
Definition rerun : script S := Do (ReadBoozmn "b.nc") (fun _ _ => Do Run (fun _ _ => Stop)).
Theorem rerun_refuted : exists version (w : world) w1 why,
  bfile S (bfile_of S (bex S)) (bex S) /\ bsane S (bex S) /\ bcomplete S (bfile_of S (bex S)) (bex S) /\
  wFS w "b.nc" = Some (Whole (bfile_of S (bex S))) /\ wO w = obj_new S /\ open_ok w /\ lucky S w /\
  exec version (ReadBoozmn "b.nc") w = IOk tt w1 /\
  play version rerun w = Undefined why.
Proof.
  set (w := desk S (obj_new S) (two_files (bfile_of S (bex S)) (wex S false false)) []).
  destruct (okd_ex S (exec "" (ReadBoozmn "b.nc") w) (fun _ => True)) as (w1 & E1 & _); [vm_compute; exact Logic.I|].
  exists ""%string, w, w1. eexists. destruct (bfile_of_ok S (bex S) (bex_sane S)) as (B1 & B2 & B3).
  split; [exact B1|]. split; [apply bex_sane|]. split; [exact B2|]. do 2 (split; [reflexivity|]). split; [apply desk_open|]. split; [reflexivity|].
  split; [exact E1|]. apply undefd_ex. vm_compute. reflexivity.
Qed.
End Wrong.

(** ** A session *)
Section Session.
Variable S : Scalar.
Notation world := (world S).
(** Read the wout file, with a second attempt on a new object if that fails; choose the
    resolution and the surfaces; run; write the results, with a second attempt if that fails;
    if they were written, read them back. *)
Definition s_read : script S := Do (ReadBoozmn "b.nc") (fun _ _ => Stop).
Definition s_write : script S := Do (Write "b.nc") (fun e _ => match e with
  | None => s_read
  | Some _ => Do (Write "b.nc") (fun e _ => match e with None => s_read | Some _ => Stop end)
  end).
Definition s_run : script S := Do (PutInt I_mboz 20) (fun _ _ => Do (PutInt I_nboz 3) (fun _ _ =>
  Do (PutInts N_compute_surfs 2 (fun k => 2 * k)) (fun _ _ => Do (PutInt I_verbose 0) (fun _ _ =>
  Do Run (fun _ _ => s_write))))).
Definition session : script S := Do (ReadWout "wout_x.nc" false) (fun e _ => match e with
  | None => s_run
  | Some _ => Do New (fun _ _ => Do (ReadWout "wout_x.nc" false) (fun e _ => match e with None => s_run | Some _ => Stop end))
  end).

Lemma s_read_obeys st (w : world) f d : wFS w "b.nc" = Some (Whole f) -> bfile S f d -> bsane S d -> obeys "0.0.8" st s_read w.
Proof.
  intros Hf Bf Bs. eapply ob_do; [eapply al_boozmn; eauto| |]; intros; constructor.
Qed.
Lemma writable_storable version (o : obj S) i : writable version o i -> storable version o.
Proof.
  intros Wr. destruct (after_run_holds S _ i (wb_run _ _ _ Wr)) as (O & R & Q & _).
  destruct (writable_stored S version _ i Wr) as (pi & pp & ch & pr & _ & _ & [Z1 Z2 Z3 Z4 Z5]).
  destruct Wr as [_ _ W1 W2 W3]. constructor; [| | |exact W3]; clear W3 Z5.
  - now rewrite (vec_is_asize _ _ _ (r_surf _ _ _ R)).
  - intros n E. rewrite (q_mnboz _ _ _ Q) in E. injection E as <-. cbn in Z1. lia.
  - intros n E. rewrite (r_nsin _ _ _ R) in E. injection E as <-. exact W2.
Qed.
Lemma writable_inv version (w : world) i : writable version (wO w) i -> open_ok w -> inv Done w.
Proof.
  intros Wr Op. destruct (after_run_holds S _ i (wb_run _ _ _ Wr)) as (O & R & Q & W).
  split; [|exact Op]. split; [split; [exact W|exists (verb i); apply R]|]. exists i. split; apply Wr.
Qed.
Lemma s_write_obeys (w : world) i : writable "0.0.8" (wO w) i -> open_ok w -> obeys "0.0.8" Done s_write w.
Proof.
  intros Wr Op. pose proof (writable_storable _ _ _ Wr) as Sb. pose proof (writable_inv _ _ _ Wr Op) as I.
  eapply ob_do; [apply al_write; exact Sb| |].
  - intros w' E. destruct (write_step "0.0.8" Done _ _ _ _ _ I (al_write "0.0.8" "b.nc" w Sb) E) as (f & d & F1 & F2 & F3 & _).
    eapply s_read_obeys; eauto.
  - intros m w' E. pose proof (step_exn "0.0.8" Done _ w w' _ _ m (al_write "0.0.8" "b.nc" w Sb) I E) as I'.
    cbn [exec] in E. destruct (write_object S "0.0.8" "b.nc" w i w' Wr Op) as (_ & Y). specialize (Y (or_introl (ex_intro _ m E))).
    assert (Sb' : storable "0.0.8" (wO w')).
    { destruct Sb as [B1 B2 B3 B4]. destruct Y as [->|Y]; [now constructor|]. constructor; [| | |exact B4]; clear B4.
      - now rewrite (sp_N _ _ _ _ Y).
      - now rewrite (sp_I _ _ _ _ Y).
      - now rewrite (sp_I _ _ _ _ Y). }
    eapply ob_do; [apply al_write; exact Sb'| |].
    + intros w2 E2. destruct (write_step "0.0.8" Done _ _ _ _ _ I' (al_write "0.0.8" "b.nc" w' Sb') E2) as (f & d & F1 & F2 & F3 & _).
      eapply s_read_obeys; eauto.
    + intros m2 w2 E2. constructor.
Qed.

Definition s_inp (asy : bool) : Inp S := vex S asy 1 2 two_surfs.
Definition s_dat : vdat S := vexd S false 4.
Definition s_req (asy : bool) : Inp S := set_verb (request (s_inp asy) s_dat 20 3 [0; 2]) 0.
Definition s_obj (o : obj S) : obj S :=
  updI (updN (updI (updI o I_mboz (Some 20)) I_nboz (Some 3)) N_compute_surfs (tab 2 (fun k => 2 * k))) I_verbose (Some 0).
Lemma s_obj_valid asy (o : obj S) : repr o (from_vmec (s_inp asy) s_dat) -> wf_obj o -> valid (s_obj o) (s_req asy).
Proof.
  intros R W. destruct (prepared_ok S o (s_inp asy) s_dat 20 3 [0; 2] R W) as (R2 & W2).
  change (s_obj o) with (updI (prepared S o (s_inp asy) 20 3 [0; 2]) I_verbose (Some 0)). split; [|split].
  - apply ok_verb. apply d_ok; cbn; try lia. repeat constructor; lia.
  - now apply repr_verb.
  - now apply wf_updI.
Qed.
Lemma s_run_obeys asy st (w : world) : st <> Broken -> repr (wO w) (from_vmec (s_inp asy) s_dat) -> wf_obj (wO w) -> fluxes_stored (wO w) s_dat -> open_ok w ->
  obeys "0.0.8" st s_run w.
Proof.
  intros N R W Fl Op.
  assert (NF : asize (oA (wO w) A_phip) = 0) by (unfold fluxes_stored in Fl; apply Fl; cbn; auto).
  eapply ob_do; [apply al_set; [reflexivity|left; exact N]| |]; intros *; cbn; try discriminate. intros E1. injection E1 as <-. cbn.
  eapply ob_do; [apply al_set; [reflexivity|left; discriminate]| |]; intros *; cbn; try discriminate. intros E1. injection E1 as <-. cbn.
  eapply ob_do; [apply al_set; [reflexivity|right; reflexivity]| |]; intros *; cbn; try discriminate. intros E1. injection E1 as <-. cbn.
  eapply ob_do; [apply al_touch; reflexivity| |]; intros *; cbn; try discriminate. intros E1. injection E1 as <-. cbn.
  match goal with |- obeys _ _ _ ?w1 => set (w4 := w1) end.
  assert (Ho : wO w4 = s_obj (wO w)) by reflexivity. assert (Op4 : open_ok w4) by exact Op. clearbody w4.
  pose proof (s_obj_valid asy (wO w) R W) as V. rewrite <- Ho in V.
  assert (Fx : fluxes_ok (wO w4) (nsin (s_req asy) + 1)) by (left; rewrite Ho; exact NF).
  eapply ob_ready; [exact V|exact Fx|].
  destruct (run_total (wO w4) _ V) as (o5 & E5 & Fr & _). unfold run_ok in E5.
  eapply ob_do; [apply al_run; auto| |]; intros *; unfold exec, lift; rewrite E5; [|discriminate]. intros E. injection E as <-.
  apply s_write_obeys with (i := s_req asy); [|exact Op4]. cbn [wO addEv setO]. constructor.
  - eapply after_run_intro; eauto.
  - left. rewrite (rf_A _ _ _ _ Fr) by (destruct asy; reflexivity). rewrite Ho. exact NF.
  - cbn. lia.
  - cbn. lia.
  - cbn. lia.
Qed.
Lemma session_obeys asy q : obeys "0.0.8" Empty session (dworld S asy q).
Proof.
  destruct (wex_good S asy false) as [(la & Wf & Ws) G2 G3].
  assert (Fr : forall w : world, wFS w = wFS (dworld S asy q) -> open_ok w -> wO w = obj_new S ->
    allowed "0.0.8" Empty (ReadWout "wout_x.nc" false) w Empty Empty /\
    (forall w', exec "0.0.8" (ReadWout "wout_x.nc" false) w = IOk tt w' -> obeys "0.0.8" Empty s_run w') /\
    (forall m w', exec "0.0.8" (ReadWout "wout_x.nc" false) w = IThrow m w' -> wFS w' = wFS w /\ open_ok w')).
  { intros w Hfs Op Ho. assert (Hf : wFS w "wout_x.nc" = Some (Whole (wex S asy false))) by (rewrite Hfs; reflexivity).
    assert (A : allowed "0.0.8" Empty (ReadWout "wout_x.nc" false) w Empty Empty).
    { apply (al_wout "0.0.8" Empty "wout_x.nc" w (wex S asy false) la (fofZ S 3) (s_inp asy) s_dat Empty); auto; [discriminate|].
      rewrite Ho. reflexivity. }
    assert (I : inv Empty w) by (split; [rewrite Ho; apply inv_new|exact Op]).
    pose proof (fresh_wout S _ la _ _ _ "wout_x.nc" w Wf Ws G3 eq_refl Hf Op Ho) as T. change (d_flux S (vexd S false 4)) with false in T.
    splits; [exact A| |].
    - intros w' E. pose proof (step_ok "0.0.8" _ _ _ _ _ _ A I E) as (_ & Op'). cbn [exec] in E. unfold tri in T. rewrite E in T.
      destruct T as (_ & _ & _ & _ & _ & R & Fl & _ & W). apply s_run_obeys with (asy := asy); auto. discriminate.
    - intros m w' E. pose proof (step_exn "0.0.8" _ _ _ _ _ _ _ A I E) as (_ & Op'). cbn [exec] in E. unfold tri in T. rewrite E in T.
      split; [apply T|exact Op']. }
  destruct (Fr (dworld S asy q) eq_refl (desk_open S _ _ _) eq_refl) as (A & H1 & H2).
  eapply ob_do; [exact A|exact H1|]. intros m w1 E1. destruct (H2 _ _ E1) as (F1 & O1).
  eapply ob_do; [apply al_new| |]; intros *; cbn; [|discriminate]. intros E. injection E as <-.
  destruct (Fr (setO w1 (obj_new S)) F1 O1 eq_refl) as (A' & H1' & H2').
  eapply ob_do; [exact A'|exact H1'|]. intros; constructor.
Qed.
(** Without trouble it gets to run() and to write_boozmn(), and the file is written. *)
Lemma reaches_trans version s1 (w1 : world) s2 w2 s3 w3 : reaches version s1 w1 s2 w2 -> reaches version s2 w2 s3 w3 -> reaches version s1 w1 s3 w3.
Proof. induction 1; intros; [assumption|eapply re_ok; eauto|eapply re_exn; eauto]. Qed.
Definition same_open (w w' : world) : Prop := wOpen w' = wOpen w /\ wNext w' = wNext w /\ wQ w' = wQ w.
Lemma s_run_reaches (w : world) : exists w', reaches "0.0.8" s_run w (Do Run (fun _ _ => s_write)) w' /\ wO w' = s_obj (wO w) /\ same_open w w'.
Proof.
  eexists. split.
  - unfold s_run. do 4 (eapply re_ok; [reflexivity|]; cbv beta). apply re_here.
  - repeat split.
Qed.
Lemma exec_wout version x fl (w : world) : exec version (ReadWout x fl) w = read_wout S x fl w.
Proof. reflexivity. Qed.
Lemma exec_write version x (w : world) : exec version (Write x) w = write_boozmn S version x w.
Proof. reflexivity. Qed.
Lemma exec_run version (w : world) o ev : run (bx_run S) (wO w) = ROk tt o ev -> exec version Run w = IOk tt (addEv (setO w o) ev).
Proof. intros E. unfold exec, lift. now rewrite E. Qed.
Lemma s_read_ok asy : exists w1, exec "0.0.8" (ReadWout "wout_x.nc" false) (dworld S asy []) = IOk tt w1 /\ wOpen w1 = [] /\ wQ w1 = [] /\
  repr (wO w1) (from_vmec (s_inp asy) s_dat) /\ fluxes_stored (wO w1) s_dat /\ wf_obj (wO w1).
Proof.
  destruct (wex_good S asy false) as [(la & Wf & Ws) G2 G3].
  assert (Op0 : wOpen (dworld S asy []) = []) by reflexivity. assert (Q0 : wQ (dworld S asy []) = []) by reflexivity.
  pose proof (fresh_wout S _ la _ _ _ "wout_x.nc" (dworld S asy []) Wf Ws G3 eq_refl eq_refl (desk_open S _ _ _) eq_refl) as T.
  generalize dependent (dworld S asy []). intros w0 Op0 Q0 T. rewrite exec_wout. change (read_wout S "wout_x.nc" false w0) with (read_wout S "wout_x.nc" (d_flux S (vexd S false 4)) w0).
  unfold tri in T. destruct (read_wout S "wout_x.nc" (d_flux S (vexd S false 4)) w0) as [[] w1|m w1|y|w1].
  - exists w1. destruct T as (T1 & T2 & T3 & T4 & _ & R & Fl & _ & W). split; [reflexivity|]. split; [rewrite T2; exact Op0|]. split; [exact (T4 Q0)|]. split; [exact R|]. split; [exact Fl|exact W].
  - destruct T as (_ & T). destruct (T Q0 G2).
  - contradiction.
  - destruct T as (_ & T). contradiction.
Qed.
Lemma s_run_writes asy (w : world) : repr (wO w) (from_vmec (s_inp asy) s_dat) -> fluxes_stored (wO w) s_dat -> wf_obj (wO w) ->
  wOpen w = [] -> wQ w = [] ->
  exists w1 w2 w3, reaches "0.0.8" s_run w (Do Run (fun _ _ => s_write)) w1 /\ reaches "0.0.8" s_run w s_write w2 /\
    exec "0.0.8" (Write "b.nc") w2 = IOk tt w3.
Proof.
  intros R Fl W Op Qw.
  assert (NF : asize (oA (wO w) A_phip) = 0) by (unfold fluxes_stored in Fl; apply Fl; cbn; auto).
  destruct (s_run_reaches w) as (w1 & R1 & O1 & P1 & N1 & Q1). pose proof (s_obj_valid asy (wO w) R W) as V. rewrite <- O1 in V.
  destruct (run_total (wO w1) _ V) as (o5 & E5 & Fr & _). unfold run_ok in E5. pose proof (exec_run "0.0.8" w1 _ _ E5) as X.
  exists w1. eexists. assert (R2 : reaches "0.0.8" s_run w s_write (addEv (setO w1 o5) (run_events S (s_req asy)))).
  { eapply reaches_trans; [exact R1|]. eapply re_ok; [exact X|]. apply re_here. }
  set (w2 := addEv (setO w1 o5) (run_events S (s_req asy))) in *.
  assert (Wr : writable "0.0.8" (wO w2) (s_req asy)).
  { change (wO w2) with o5. constructor; [eapply after_run_intro; eauto| |cbn; lia|cbn; lia|cbn; lia].
    left. rewrite (rf_A _ _ _ _ Fr) by (destruct asy; reflexivity). rewrite O1. exact NF. }
  assert (Op2 : open_ok w2) by (unfold open_ok; change (wOpen w2) with (wOpen w1); rewrite P1, Op; constructor).
  assert (L2 : lucky S w2) by (unfold lucky; change (wQ w2) with (wQ w1); rewrite Q1; exact Qw).
  destruct (proj2 (write_safe S "0.0.8" "b.nc" w2 _ Wr Op2) L2) as (w3 & E3). rewrite <- exec_write in E3.
  exists w3. split; [exact R1|]. split; [exact R2|exact E3].
Qed.
Lemma session_reaches asy : exists k w1 k' w2 w3, reaches "0.0.8" session (dworld S asy []) (Do Run k) w1 /\
  reaches "0.0.8" session (dworld S asy []) (Do (Write "b.nc") k') w2 /\ exec "0.0.8" (Write "b.nc") w2 = IOk tt w3.
Proof.
  destruct (s_read_ok asy) as (w & E & Op & Q & R & Fl & W). destruct (s_run_writes asy w R Fl W Op Q) as (w1 & w2 & w3 & H1 & H2 & H3).
  exists (fun _ _ => s_write), w1. eexists. exists w2, w3. split; [|split; [|exact H3]].
  - eapply re_ok; [exact E|exact H1].
  - eapply re_ok; [exact E|exact H2].
Qed.
End Session.
