(** Concrete objects, files and worlds, and the refutations. *)
From Coq Require Import ZArith QArith List String Bool Lia Reals Lra.
From Verif Require Import Scalar Prog Model Wp Func Step TrigProof InitProof RunProof Par FuncExt Spec RunThms
  Vmec VmecSpec VmecRun VmecThms Nc NcModel NcSpec NcTri NcRead NcBoozmn NcWout NcWrite NcWriteB NcVoc NcThms NcThms2 NcEdit NcThms3.
Import ListNotations.
Local Open Scope Z_scope.

Section Ex.
Variable S : Scalar.
Notation obj := (obj S).
Notation world := (world S).
Notation file := (ncfile S).
Notation F := (F S).

(** ** Objects *)
(** The inputs [i] and, if [fl], flux functions; aspect is 3. *)
Definition fex (fl : bool) (i : Inp S) : obj :=
  let o := updF (obj_of i) F_aspect (Some (fofZ S 3)) in
  let t := fun k => tab (nsin i + 1) (fun j => fofZ S (k + j)) in
  if fl then updA (updA (updA (updA o A_phip (t 20)) A_chi (t 30)) A_pres (t 40)) A_phi (t 50) else o.
Lemma fex_valid fl asy : valid (fex fl (ex_inp S asy)) (ex_inp S asy).
Proof.
  destruct (ex_valid S asy) as (V1 & V2 & V3). split; [exact V1|]. split.
  - destruct fl; constructor; try apply V2.
  - destruct fl; constructor; intros f; cbn [fex oN oA updA updF]; try apply V3.
    destruct (afield_eq_dec f A_phi); [eapply vec_is_wf; apply tab_is; cbn; lia|].
    destruct (afield_eq_dec f A_pres); [eapply vec_is_wf; apply tab_is; cbn; lia|].
    destruct (afield_eq_dec f A_chi); [eapply vec_is_wf; apply tab_is; cbn; lia|].
    destruct (afield_eq_dec f A_phip); [eapply vec_is_wf; apply tab_is; cbn; lia|].
    apply V3.
Qed.
Lemma ex_writable fl asy : exists o : obj, writable "0.0.8" o (ex_inp S asy) /\ has_fluxes o = fl /\ wf_obj o /\
  oF o F_aspect = Some (fofZ S 3) /\ (fl = true -> elem o A_phip 0 = Some (Some (fofZ S 20))) /\ results o (ex_inp S asy).
Proof.
  destruct (run_total _ _ (fex_valid fl asy)) as (o & H1 & H2 & H3 & H4 & H5 & H6). exists o.
  assert (Ef : forall f, In f flux_arrays -> oA o f = oA (fex fl (ex_inp S asy)) f).
  { intros f Hf. apply (rf_A _ _ _ _ H2). cbn in Hf. repeat destruct Hf as [<-|Hf]; try contradiction; destruct asy; reflexivity. }
  splits; auto.
  - constructor.
    + eapply after_run_intro; [apply fex_valid|exact H1].
    + destruct fl.
      * right. intros f Hf. rewrite (Ef f Hf). cbn in Hf.
        repeat destruct Hf as [<-|Hf]; try contradiction; eexists; cbn [fex oA updA afield_eq_dec]; cbn; apply (tab_is (nsin (ex_inp S asy) + 1)); cbn; lia.
      * left. rewrite (Ef A_phip) by (cbn; auto). reflexivity.
    + cbn. lia.
    + cbn. lia.
    + cbn. lia.
  - unfold has_fluxes. rewrite (Ef A_phip) by (cbn; auto). destruct fl; reflexivity.
  - rewrite (rf_F _ _ _ _ H2) by reflexivity. destruct fl; reflexivity.
  - intros ->. unfold elem. rewrite (Ef A_phip) by (cbn; auto). reflexivity.
Qed.

(** ** Worlds *)
Definition desk (o : obj) (fs : string -> option (disk S)) (q : list verdict) : world := mkW o fs [] 0 q [].
Lemma desk_open o fs q : open_ok (desk o fs q).
Proof. constructor. Qed.
Lemma fresh_usable : usable (obj_new S).
Proof.
  split; [|eexists; reflexivity]. constructor; intros f; cbn.
  - split; [apply wf_empty_vec|reflexivity].
  - destruct f; auto using wf_empty_vec, wf_empty_mat.
Qed.

(** ** Files *)
Definition fint (x : string) (z : Z) : ncvar S := mkVar x [] [] (VInt [Some z]).
Definition fints (x : string) (n : Z) (g : Z -> Z) : ncvar S := mkVar x ["n"%string] [] (VInt (adata (tab n g))).
Definition fvec (x : string) (n : Z) (g : Z -> F) : ncvar S := mkVar x ["n"%string] [] (VDbl (adata (tab n g))).
Definition fmat (x : string) (r c : Z) (g : Z -> Z -> F) : ncvar S := mkVar x ["n"; "m"]%string [] (VDbl (adata (tabm r c g))).

(** A boozmn file *)
Definition bfile_of (d : bdat S) : file :=
  mkFile [("radius", b_radius S d); ("comput_surfs", b_nsurf S d)]%string
    ([fint "lasym__logical__" (b_lasym S d); fint "nfp_b" (b_nfp S d); fint "mboz_b" (b_mboz S d); fint "nboz_b" (b_nboz S d);
      fint "mnboz_b" (b_mnboz S d); fint "ns_b" (b_ns S d); fints "ixm_b" (b_mnboz S d) (b_xm S d);
      fints "ixn_b" (b_mnboz S d) (b_xn S d); fints "jlist" (b_nsurf S d) (b_jlist S d);
      fvec "iota_b" (b_radius S d) (b_iota S d); fvec "bvco_b" (b_radius S d) (b_G S d); fvec "buco_b" (b_radius S d) (b_I S d);
      fvec "phi_b" (b_radius S d) (b_phi S d); fvec "phip_b" (b_radius S d) (b_phip S d); fvec "chi_b" (b_radius S d) (b_chi S d);
      fvec "pres_b" (b_radius S d) (b_pres S d)] ++
     map (fun p => fmat (fst p) (b_mnboz S d) (b_nsurf S d) (b_mat S d (snd p))) (bvars_sym ++ bvars_asym)).
Lemma hold_int f x z : find_var f x = Some (fint x z) -> holds_int S f x z.
Proof.
  intros E v Hv. rewrite E in Hv. injection Hv as <-. exists [Some z]. split; [reflexivity|].
  unfold vec_is. cbn. splits; auto. intros k Hk. now replace k with 0 by lia.
Qed.
Lemma hold_ints f x n g : 0 <= n -> find_var f x = Some (fints x n g) -> holds_ints S f x n g.
Proof. intros Hn E v Hv. rewrite E in Hv. injection Hv as <-. eexists. split; [reflexivity|]. now apply tab_is. Qed.
Lemma hold_vec f x n g : 0 <= n -> find_var f x = Some (fvec x n g) -> holds_vec S f x n g.
Proof. intros Hn E v Hv. rewrite E in Hv. injection Hv as <-. eexists. split; [reflexivity|]. now apply tab_is. Qed.
Lemma hold_mat f x r c g : 0 <= r -> 0 <= c -> find_var f x = Some (fmat x r c g) -> holds_mat S f x r c g.
Proof. intros Hr Hc E v Hv. rewrite E in Hv. injection Hv as <-. eexists. split; [reflexivity|]. now apply tabm_is. Qed.
Lemma bfile_of_ok d : bsane S d -> bfile S (bfile_of d) d /\ bcomplete S (bfile_of d) d /\ present S (bfile_of d) "chi_b".
Proof.
  intros [B1 B2 B3 B4]. splits.
  - constructor; try (apply hold_int; reflexivity); try (apply hold_ints; [lia|reflexivity]); try (apply hold_vec; [lia|reflexivity]).
    + intros m E. vm_compute in E. now injection E.
    + intros m E. vm_compute in E. now injection E.
    + intros x m Hin. cbn in Hin. repeat destruct Hin as [E|Hin]; try contradiction; injection E as <- <-; (apply hold_mat; [lia|lia|reflexivity]).
    + intros _ x m Hin. cbn in Hin. repeat destruct Hin as [E|Hin]; try contradiction; injection E as <- <-; (apply hold_mat; [lia|lia|reflexivity]).
  - split.
    + intros x Hx. unfold bneed_vars in Hx. apply in_app_or in Hx. destruct Hx as [Hx|Hx]; [|apply in_app_or in Hx; destruct Hx as [Hx|Hx]];
        [| |destruct (b_asym S d)]; cbn in Hx; repeat destruct Hx as [<-|Hx]; try contradiction; intros E; vm_compute in E; discriminate E.
    + intros x Hx. cbn in Hx. repeat destruct Hx as [<-|Hx]; try contradiction; intros E; vm_compute in E; discriminate E.
  - intros E. vm_compute in E. discriminate E.
Qed.
(** A small one: two radial points, one surface, one mode *)
Definition bex : bdat S :=
  mkBdat S 0 5 1 0 1 2 1 2 (fun _ => 0) (fun _ => 0) (fun _ => 2) (fun j => fofZ S j) (fun j => fofZ S (j + 2)) (fun j => fofZ S (j + 3))
    (fun j => fofZ S (j + 4)) (fun j => fofZ S (j + 5)) (fun j => fofZ S (j + 6)) (fun j => fofZ S (j + 7))
    (fun m k b => fofZ S 8).
Lemma bex_sane : bsane S bex.
Proof. constructor; cbn; unfold INT_MIN, INT_MAX; intros; lia. Qed.
Definition without (x : string) (f : file) : file :=
  mkFile (nf_dims f) (filter (fun v => negb (String.eqb (vr_name v) x)) (nf_vars f)).
Definition replaced (v : ncvar S) (f : file) : file :=
  mkFile (nf_dims f) (map (fun u => if String.eqb (vr_name u) (vr_name v) then v else u) (nf_vars f)).
Definition shelf (f : file) : string -> option (disk S) := fun _ => Some (Whole f).

(** A wout file *)
Definition wout_of (la : Z) (asp : F) (i : Inp S) (d : vdat S) : file :=
  mkFile []
    ([fint "lasym__logical__" la; fint "ns" (d_ns S d); fint "nfp" (nfp i); fint "mpol" (mpol i); fint "ntor" (ntor i);
      fint "mnmax" (mnmax i); fint "mnmax_nyq" (mnmaxq i); fvec "aspect" 1 (fun _ => asp); fvec "iotas" (d_ns S d) (d_iotas S d);
      fints "xm" (mnmax i) (xm i); fints "xn" (mnmax i) (xn i); fints "xm_nyq" (mnmaxq i) (xmq i); fints "xn_nyq" (mnmaxq i) (xnq i)] ++
     map (fun p => fvec (fst p) (d_ns S d) (snd p)) (wvecs S d) ++
     map (fun p => fmat (fst (fst p)) (snd (fst p)) (d_ns S d) (snd p)) (wmats S i d ++ wmats_asym S i d)).
Lemma wout_of_ok la asp i d : wsane S la i d -> wfile S (wout_of la asp i d) la asp i d /\ wcomplete S (wout_of la asp i d) i d.
Proof.
  intros [_ _ _ _ _ (B1 & B2 & B3)]. splits.
  - constructor; try (apply hold_int; reflexivity); try (apply hold_ints; [lia|reflexivity]); try (apply hold_vec; [lia|reflexivity]).
    + intros _ x g Hin. cbn in Hin. repeat destruct Hin as [E|Hin]; try contradiction; injection E as <- <-; (apply hold_vec; [lia|reflexivity]).
    + intros x n g Hin. cbn in Hin. repeat destruct Hin as [E|Hin]; try contradiction; injection E as <- <- <-; (apply hold_mat; [lia|lia|reflexivity]).
    + intros _ x n g Hin. cbn in Hin. repeat destruct Hin as [E|Hin]; try contradiction; injection E as <- <- <-; (apply hold_mat; [lia|lia|reflexivity]).
  - intros x Hx. unfold wneed in Hx. apply in_app_or in Hx. destruct Hx as [Hx|Hx]; [|apply in_app_or in Hx; destruct Hx as [Hx|Hx]];
        [|destruct (asym i)|destruct (d_flux S d)]; cbn in Hx; repeat destruct Hx as [<-|Hx]; try contradiction; intros E; vm_compute in E; discriminate E.
Qed.
Definition wex (asy fl : bool) : file := wout_of (if asy then 1 else 0) (fofZ S 3) (vex S asy 1 2 two_surfs) (vexd S fl 4).
Lemma wex_good asy fl : good_wout (wex asy fl) (fofZ S 3) (vex S asy 1 2 two_surfs) (vexd S fl 4).
Proof.
  assert (Ws : wsane S (if asy then 1 else 0) (vex S asy 1 2 two_surfs) (vexd S fl 4)).
  { constructor; [now destruct asy|reflexivity|reflexivity|discriminate| |]; cbn; unfold INT_MIN, INT_MAX; lia. }
  constructor.
  - exists (if asy then 1 else 0). split; [|exact Ws]. now apply wout_of_ok.
  - now apply wout_of_ok with (la := if asy then 1 else 0).
  - constructor; cbn; try lia; auto.
    + split; cbn; lia.
    + unfold vints; cbn; unfold INT_MIN, INT_MAX; lia.
Qed.
Lemma wex_world asy fl sf : (forall j, 0 <= j < 2 -> 0 <= sf j < 3) ->
  let w := desk (obj_of (vex S asy 1 2 sf)) (shelf (wex asy fl)) [] in
  wFS w "wout" = Some (Whole (wex asy fl)) /\ lucky S w /\ open_ok w /\ wf_obj (wO w) /\ oI (wO w) I_verbose = Some 1 /\
  selects (wO w) 3.
Proof.
  intros Hs w. splits; try reflexivity.
  - constructor.
  - apply vex_base. lia.
  - exists 2, sf. split; [|exact Hs]. destruct (vex_base S asy 1 2 sf ltac:(lia)) as (B & _).
    assert (R : repr (obj_of (vex S asy 1 2 sf)) (vex S asy 1 2 sf)) by (apply obj_of_repr; cbn; lia). exact (r_surf _ _ _ R).
Qed.

(** ** C33: whether a file is accepted depends on an old compute_surfs. *)
Theorem history_refuted : exists x (w1 w2 : world) w1' msg w2',
  good_wout (wex false false) (fofZ S 3) (vex S false 1 2 two_surfs) (vexd S false 4) /\
  (forall w, w = w1 \/ w = w2 -> wFS w x = Some (Whole (wex false false)) /\ lucky S w /\ open_ok w /\ wf_obj (wO w)) /\
  (exists a, wO w2 = updN (wO w1) N_compute_surfs a) /\
  read_wout S x false w1 = IOk tt w1' /\ read_wout S x false w2 = IThrow msg w2'.
Proof.
  set (o1 := obj_of (vex S false 1 2 two_surfs)). set (a := tab 1 (fun _ => 7) : array Z).
  set (w1 := desk o1 (shelf (wex false false)) []). set (w2 := desk (updN o1 N_compute_surfs a) (shelf (wex false false)) []).
  assert (K1 : forall j, 0 <= j < 2 -> 0 <= two_surfs j < 3) by (intros j Hj; unfold two_surfs; destruct (j =? 0); lia).
  destruct (wex_world false false two_surfs K1) as (A1 & A2 & A3 & A4 & A5 & A6).
  assert (Wf2 : wf_obj (wO w2)).
  { constructor; intros f.
    - cbn [w2 desk wO updN oN]. destruct (nfield_eq_dec f N_compute_surfs); [|apply A4]. split; [|reflexivity].
      eapply vec_is_wf. apply (tab_is 1 (fun _ => 7)). lia.
    - apply A4. }
  assert (V2 : vec_is (oN (wO w2) N_compute_surfs) 1 (fun _ => 7)) by (apply tab_is; lia).
  destruct (read_wout_outcome S (wex false false) (fofZ S 3) _ _ "wout" w1 (wex_good false false) A1 A2 A3 A4 A5) as (O1 & _).
  { destruct A6 as (m & g & V & _). eauto. }
  destruct (O1 A6) as (w1' & E1 & _).
  destruct (read_wout_outcome S (wex false false) (fofZ S 3) _ _ "wout" w2 (wex_good false false) eq_refl eq_refl (desk_open _ _ _) Wf2 A5) as (_ & O2).
  { eauto. }
  destruct O2 as (m & w2' & E2 & _).
  { intros (n & g & V & B). pose proof (vec_is_asize _ _ _ V) as Q1. pose proof (vec_is_asize _ _ _ V2) as Q2.
    assert (n = 1) by congruence. subst n. pose proof (elemN_vec _ _ _ _ 0 V ltac:(lia)) as X1. pose proof (elemN_vec _ _ _ _ 0 V2 ltac:(lia)) as X2.
    rewrite X1 in X2. injection X2 as X2. specialize (B 0 ltac:(lia)). cbn in B. lia. }
  exists "wout"%string, w1, w2, w1', m, w2'. splits; auto using wex_good.
  - intros w [->| ->]; splits; auto; try reflexivity; apply desk_open.
  - exists a. reflexivity.
Qed.

(** ** C37 *)
Theorem beta_refuted : exists version x (w : world) i w' f,
  writable version (wO w) i /\ open_ok w /\ lucky S w /\ oF (wO w) F_aspect <> None /\
  write_boozmn S version x w = IOk tt w' /\ wFS w' x = Some (Whole f) /\
  exists v, In v (nf_vars f) /\ ~ determinate (vr_val v).
Proof.
  destruct (ex_writable true false) as (o & H1 & H2 & H3 & H4 & _).
  set (w := desk o (fun _ => None) []).
  destruct (write_safe S "0.0.8" "b.nc" w _ H1 (desk_open _ _ _)) as (_ & E). destruct (E eq_refl) as (w' & E').
  destruct (beta_indeterminate S "0.0.8" "b.nc" w _ w' H1 (desk_open _ _ _) H2 E') as (f & Ef & B).
  exists "0.0.8"%string, "b.nc"%string, w, (ex_inp S false), w', f. splits; auto; try (apply desk_open); try reflexivity.
  - change (oF o F_aspect <> None). rewrite H4. discriminate.
  - specialize (B 0 ltac:(cbn; lia)). unfold dcell in B. destruct (find_var f "beta_b") as [v|] eqn:Ev; [|discriminate].
    exists v. split; [eapply find_some; exact Ev|]. destruct (to_dbl (vr_val v)) as [[l []]|] eqn:El; try discriminate.
    intros D. assert (In None l) by (unfold znth in B; cbn in B; eapply nth_error_In; exact B).
    destruct (vr_val v) as [m|m|s]; cbn in El, D; try discriminate.
    + injection El as <-. apply in_map_iff in H. destruct H as ([z|] & X1 & X2); [discriminate|]. rewrite Forall_forall in D. exact (D None X2 eq_refl).
    + injection El as <-. rewrite Forall_forall in D. exact (D None H eq_refl).
Qed.

(** ** C39 *)
Theorem clobber_refuted : exists version x (w : world) i f0,
  writable version (wO w) i /\ open_ok w /\ wFS w x = Some (Whole f0) /\
  (exists w', write_boozmn S version x (setQ w [Fine; Die]) = IDie w' /\ wFS w' x = Some Torn) /\
  (exists w', write_boozmn S version x (setQ w [Fine; Fail "No space left on device"]) = IThrow "No space left on device" w' /\ wFS w' x = Some Torn).
Proof.
  destruct (ex_writable true false) as (o & H1 & H2 & _). set (w := desk o (shelf (bfile_of bex)) []).
  exists "0.0.8"%string, "b.nc"%string, w, (ex_inp S false), (bfile_of bex). splits; auto; try (apply desk_open).
  - eapply dies_torn; [exact H1|reflexivity].
  - destruct (fails_torn S "0.0.8" "b.nc" (setQ w [Fine; Fail "No space left on device"]) _ "No space left on device" H1 eq_refl) as (w' & A & B & _). eauto.
Qed.

Ltac triv := lazymatch goal with
  | |- _ = IOk _ _ => idtac | |- _ = IUB _ => idtac | |- _ = IThrow _ _ => idtac | |- elem _ _ _ = _ => idtac
  | |- _ => try reflexivity end.

(** ** C42 *)
Theorem edit_ub_refuted : exists version x (w : world) o i a c,
  writable version o i /\ open_ok w /\ lucky S w /\ wO w = updN o N_compute_surfs a /\ vec_is a 1 c /\ 0 <= c 0 < nsin i /\
  exists why, write_boozmn S version x w = IUB why.
Proof.
  destruct (ex_writable true false) as (o & H1 & H2 & _).
  set (a := tab 1 (fun _ => 1) : array Z). set (w := desk (updN o N_compute_surfs a) (fun _ => None) []).
  assert (V : vec_is a 1 (fun _ => 1)) by (apply tab_is; lia).
  exists "0.0.8"%string, "b.nc"%string, w, o, (ex_inp S false), a, (fun _ => 1).
  splits; auto; try (apply desk_open); try reflexivity; try (cbn; lia).
  eapply (edited_length S "0.0.8" "b.nc" w o _ a 1 (fun _ => 1)); eauto; try (apply desk_open); try reflexivity; cbn; unfold INT_MIN, INT_MAX; intros; lia.
Qed.
Theorem edit_loss_refuted : exists version x (w : world) o i f0,
  writable version o i /\ open_ok w /\ lucky S w /\ wO w = updN o N_compute_surfs empty_vec /\ wFS w x = Some (Whole f0) /\
  exists m w', write_boozmn S version x w = IThrow m w' /\ wFS w' x = Some Torn.
Proof.
  destruct (ex_writable true false) as (o & H1 & H2 & _).
  set (w := desk (updN o N_compute_surfs empty_vec) (shelf (bfile_of bex)) []).
  assert (V : vec_is (@empty_vec Z) 0 (fun _ => 1)) by (unfold vec_is; cbn; splits; auto; intros; lia).
  exists "0.0.8"%string, "b.nc"%string, w, o, (ex_inp S false), (bfile_of bex). splits; auto; try (apply desk_open); try reflexivity.
  eapply (edited_length S "0.0.8" "b.nc" w o _ empty_vec 0 (fun _ => 1)); eauto; try (apply desk_open); try reflexivity; cbn; unfold INT_MIN, INT_MAX; intros; lia.
Qed.
Theorem edit_mislabels_refuted : exists version x (w : world) o i a w' f,
  writable version o i /\ open_ok w /\ lucky S w /\ wO w = updN o N_compute_surfs a /\
  write_boozmn S version x w = IOk tt w' /\ wFS w' x = Some (Whole f) /\
  results o i /\ surf i 0 = 2 /\ surf i 1 = 0 /\
  icell f "jlist" 0 = Some (Some (0 + 2)) /\ icell f "jlist" 1 = Some (Some (2 + 2)) /\
  forall k, 0 <= k < mnboz i ->
    dcell f "bmnc_b" k = Some (Some (o_coef i 2 A_bmnc_b k)) /\ dcell f "bmnc_b" (mnboz i + k) = Some (Some (o_coef i 0 A_bmnc_b k)).
Proof.
  destruct (ex_writable true false) as (o & H1 & H2 & H3 & _ & _ & Q).
  set (c := fun k => if k =? 0 then 0 else 2). set (a := tab 2 c : array Z).
  set (w := desk (updN o N_compute_surfs a) (fun _ => None) []).
  assert (V : vec_is a 2 c) by (apply tab_is; lia).
  assert (Wf : wf_obj (wO w)).
  { constructor; intros f.
    - cbn [w desk wO updN oN]. destruct (nfield_eq_dec f N_compute_surfs); [|apply H3]. split; [|reflexivity]. eapply vec_is_wf. exact V.
    - apply H3. }
  destruct (edited_entries S "0.0.8" "b.nc" w o _ a c H1 (desk_open _ _ _) eq_refl Wf eq_refl V) as (w' & f & E1 & E2 & E3 & E4).
  { cbn. intros j Hj. unfold c. destruct (j =? 0); unfold INT_MIN, INT_MAX; lia. }
  exists "0.0.8"%string, "b.nc"%string, w, o, (ex_inp S false), a, w', f. splits; auto; try (apply desk_open); try reflexivity.
  - apply (E3 0). cbn. lia.
  - apply (E3 1). cbn. lia.
  - assert (M : mat_is (oA o A_bmnc_b) (mnboz (ex_inp S false)) 2 (fun k b => o_coef (ex_inp S false) (surf (ex_inp S false) b) A_bmnc_b k))
      by (apply (q_out _ _ _ Q); cbn; auto).
    intros k Hk. split.
    + destruct (E4 k 0 Hk ltac:(cbn; lia)) as (v & X1 & X2). rewrite (elem2_mat _ _ _ _ _ k 0 M Hk ltac:(lia)) in X1. injection X1 as <-.
      now rewrite Z.mul_0_l, Z.add_0_l in X2.
    + destruct (E4 k 1 Hk ltac:(cbn; lia)) as (v & X1 & X2). rewrite (elem2_mat _ _ _ _ _ k 1 M Hk ltac:(lia)) in X1. injection X1 as <-.
      now rewrite Z.mul_1_l in X2.
Qed.

(** ** C43: a missing chi_b, or one that cannot be read, leaves chi indeterminate or old. *)
Definition no_chi : file := without "chi_b" (bfile_of bex).
Lemma no_chi_file : bfile S no_chi bex /\ bcomplete S no_chi bex /\ ~ present S no_chi "chi_b".
Proof.
  splits.
  - constructor; try (apply hold_int; reflexivity); try (apply hold_ints; [cbn; lia|reflexivity]); try (apply hold_vec; [cbn; lia|reflexivity]).
    + intros m E. vm_compute in E. now injection E.
    + intros m E. vm_compute in E. now injection E.
    + intros v E. vm_compute in E. discriminate E.
    + intros x m Hin. cbn in Hin. repeat destruct Hin as [E|Hin]; try contradiction; injection E as <- <-; (apply hold_mat; [cbn; lia|cbn; lia|reflexivity]).
    + intros _ x m Hin. cbn in Hin. repeat destruct Hin as [E|Hin]; try contradiction; injection E as <- <-; (apply hold_mat; [cbn; lia|cbn; lia|reflexivity]).
  - split.
    + intros x Hx. cbn in Hx. repeat destruct Hx as [<-|Hx]; try contradiction; intros E; vm_compute in E; discriminate E.
    + intros x Hx. cbn in Hx. repeat destruct Hx as [<-|Hx]; try contradiction; intros E; vm_compute in E; discriminate E.
  - intros H. apply H. reflexivity.
Qed.
Definition okd (r : ires S unit) (P : world -> Prop) : Prop := match r with IOk _ w' => P w' | _ => False end.
Definition thrown (r : ires S unit) (P : world -> Prop) : Prop := match r with IThrow _ w' => P w' | _ => False end.
Definition ubd (r : ires S unit) (y : string) : Prop := match r with IUB z => z = y | _ => False end.
Lemma okd_ex r P : okd r P -> exists w', r = IOk tt w' /\ P w'.
Proof. destruct r as [[] w'|? ?|?|?]; cbn; try contradiction. eauto. Qed.
Lemma thrown_ex r P : thrown r P -> exists m w', r = IThrow m w' /\ P w'.
Proof. destruct r as [[] w'|? ?|?|?]; cbn; try contradiction. eauto. Qed.
Lemma ubd_ex r y : ubd r y -> r = IUB y.
Proof. destruct r as [[] w'|? ?|?|?]; cbn; try contradiction. now intros ->. Qed.

Theorem chi_indeterminate : exists x (w w' : world), bfile S no_chi bex /\ bsane S bex /\
  wO w = obj_new S /\ wFS w x = Some (Whole no_chi) /\ lucky S w /\
  read_boozmn S x w = IOk tt w' /\ elem (wO w') A_chi 0 = Some None /\ elem (wO w') A_chi 1 = Some None.
Proof.
  exists "b.nc"%string, (desk (obj_new S) (shelf no_chi) []).
  destruct (okd_ex (read_boozmn S "b.nc" (desk (obj_new S) (shelf no_chi) []))
    (fun w' => elem (wO w') A_chi 0 = Some None /\ elem (wO w') A_chi 1 = Some None)) as (w' & E & H).
  { vm_compute. auto. }
  exists w'. split; [apply no_chi_file|]. split; [apply bex_sane|]. do 3 (split; [reflexivity|]). auto.
Qed.
(** chi is that of another configuration read before *)
Theorem chi_stale : exists x (w w' : world), bfile S no_chi bex /\ bsane S bex /\ usable (wO w) /\
  wFS w x = Some (Whole no_chi) /\ lucky S w /\ read_boozmn S x w = IOk tt w' /\
  elem (wO w) A_chi 1 = Some (Some (fofZ S 31)) /\ elem (wO w') A_chi 1 = Some (Some (fofZ S 31)).
Proof.
  set (w := desk (updA (obj_new S) A_chi (tab 2 (fun j => fofZ S (30 + j)))) (shelf no_chi) []).
  exists "b.nc"%string, w.
  destruct (okd_ex (read_boozmn S "b.nc" w) (fun w' => elem (wO w') A_chi 1 = Some (Some (fofZ S 31)))) as (w' & E & H).
  { vm_compute. auto. }
  exists w'. split; [apply no_chi_file|]. split; [apply bex_sane|]. split; [|do 2 (split; [reflexivity|]); split; [exact E|]; split; [reflexivity|exact H]].
  split; [|eexists; reflexivity]. destruct fresh_usable as (W & _). constructor; intros f; [apply W|].
  cbn [w desk wO oA updA]. destruct (afield_eq_dec f A_chi); [eapply vec_is_wf; apply tab_is; lia|apply W].
Qed.
(** An I/O error while reading chi_b is not reported. *)
Theorem chi_error_ignored : exists x (w w' : world), bfile S (bfile_of bex) bex /\ present S (bfile_of bex) "chi_b" /\
  wO w = obj_new S /\ wFS w x = Some (Whole (bfile_of bex)) /\ wQ w = repeat Fine 28 ++ [Fail "I/O error"%string] /\
  read_boozmn S x w = IOk tt w' /\ wQ w' = [] /\ elem (wO w') A_chi 0 = Some None.
Proof.
  set (w := desk (obj_new S) (shelf (bfile_of bex)) (repeat Fine 28 ++ [Fail "I/O error"%string])).
  exists "b.nc"%string, w.
  destruct (okd_ex (read_boozmn S "b.nc" w) (fun w' => wQ w' = [] /\ elem (wO w') A_chi 0 = Some None)) as (w' & E & H).
  { vm_compute. auto. }
  exists w'. split; [apply bfile_of_ok, bex_sane|]. split; [apply bfile_of_ok, bex_sane|]. do 3 (split; [reflexivity|]). auto.
Qed.

(** ** C44 *)
Theorem overflow_refuted : exists x (w : world) f, wO w = obj_new S /\ wFS w x = Some (Whole f) /\ lucky S w /\
  read_boozmn S x w = IUB "buffer overflow"%string.
Proof.
  exists "b.nc"%string, (desk (obj_new S) (shelf (replaced (mkVar "nfp_b" ["two"%string] [] (VInt [Some 5; Some 6])) (bfile_of bex))) []).
  eexists. do 3 (split; [reflexivity|]). apply ubd_ex. vm_compute. reflexivity.
Qed.
Theorem overflow_wout_refuted : exists x (w : world) f, wO w = obj_new S /\ wFS w x = Some (Whole f) /\ lucky S w /\
  read_wout S x true w = IUB "buffer overflow"%string.
Proof.
  exists "wout.nc"%string, (desk (obj_new S) (shelf (replaced (fvec "iotas" 5 (fun j => fofZ S j)) (wex false true))) []).
  eexists. do 3 (split; [reflexivity|]). apply ubd_ex. vm_compute. reflexivity.
Qed.

(** ** C45 *)
Theorem leak_refuted : exists x (w w' : world) f msg, wO w = obj_new S /\ wFS w x = Some (Whole f) /\ wOpen w = [] /\ lucky S w /\
  read_boozmn S x w = IThrow msg w' /\ wOpen w' <> [].
Proof.
  set (w := desk (obj_new S) (shelf (without "gmn_b" (bfile_of bex))) []).
  destruct (thrown_ex (read_boozmn S "b.nc" w) (fun w' => wOpen w' <> [])) as (m & w' & E & H).
  { vm_compute. discriminate. }
  exists "b.nc"%string, w, w'. do 2 eexists. do 4 (split; [reflexivity|]). eauto.
Qed.
Theorem leak_wout_refuted : exists x (w w' : world) f msg, wO w = obj_new S /\ wFS w x = Some (Whole f) /\ wOpen w = [] /\ lucky S w /\
  read_wout S x true w = IThrow msg w' /\ wOpen w' <> [].
Proof.
  set (w := desk (obj_new S) (shelf (without "bmnc" (wex false true))) []).
  destruct (thrown_ex (read_wout S "b.nc" true w) (fun w' => wOpen w' <> [])) as (m & w' & E & H).
  { vm_compute. discriminate. }
  exists "b.nc"%string, w, w'. do 2 eexists. do 4 (split; [reflexivity|]). eauto.
Qed.
Theorem leak_write_refuted : exists version x (w : world) i msg w', writable version (wO w) i /\ wOpen w = [] /\
  write_boozmn S version x w = IThrow msg w' /\ wOpen w' <> [].
Proof.
  destruct (ex_writable true false) as (o & H1 & H2 & _). set (w := desk o (fun _ => None) [Fine; Fail "No space left on device"]).
  destruct (fails_torn S "0.0.8" "b.nc" w _ "No space left on device" H1 eq_refl) as (w' & A & _ & B).
  exists "0.0.8"%string, "b.nc"%string, w, (ex_inp S false). do 2 eexists. splits; eauto. rewrite B. discriminate.
Qed.

(** ** A missing file *)
Lemma ibind_throw {A B} (m : io S A) (k : A -> io S B) w e w' : m w = IThrow e w' -> ibind m k w = IThrow e w'.
Proof. unfold ibind. now intros ->. Qed.
Theorem no_file x (w : world) : wFS w x = None -> lucky S w -> usable (wO w) ->
  (exists m w', read_boozmn S x w = IThrow m w' /\ wO w' = wO w /\ wOpen w' = wOpen w /\ wFS w' = wFS w) /\
  forall fl, exists m w', read_wout S x fl w = IThrow m w' /\ wO w' = wO w /\ wOpen w' = wOpen w /\ wFS w' = wFS w.
Proof.
  intros Hf L (_ & v & Hv). destruct w as [o fs op nx q ev]. cbn in Hf, Hv. unfold lucky in L. cbn in L. subst q.
  assert (C : forall t, exists e, chatter S (out t [] []) (mkW o fs op nx [] ev) = IOk tt (mkW o fs op nx [] (ev ++ e))).
  { intros t. unfold chatter, lift, geti. cbn. rewrite Hv. cbn. destruct (0 <? v); cbn; eexists; reflexivity. }
  assert (Rd : forall e, reader S x (mkW o fs op nx [] e) =
    IThrow "No such file or directory" (mkW o fs op nx [] (e ++ [mkEv ("NetCDF Error! " ++ "No such file or directory" ++ " [" ++ x ++ "]") [] []]))).
  { intros e. unfold reader, nc_open, call, ibind. cbn [wQ wFS]. rewrite Hf. reflexivity. }
  split; [|intros fl].
  - unfold read_boozmn. destruct (C ("About to try reading boozmn netcdf file " ++ x)%string) as (e & E). rewrite (ibind_ok _ _ _ _ _ _ E).
    rewrite (ibind_throw _ _ _ _ _ (Rd _)). do 2 eexists. split; [reflexivity|]. splits; reflexivity.
  - unfold read_wout. destruct (C ("About to try reading VMEC wout file " ++ x)%string) as (e & E). rewrite (ibind_ok _ _ _ _ _ _ E).
    rewrite (ibind_throw _ _ _ _ _ (Rd _)). do 2 eexists. split; [reflexivity|]. splits; reflexivity.
Qed.

(** ** nfp = 0 in a wout file is divided by before it is validated. *)
Definition wex0 : file := replaced (fint "nfp" 0) (wex false true).
Theorem nfp0_refuted : exists x (w : world) why, wO w = obj_new S /\ wFS w x = Some (Whole wex0) /\ lucky S w /\
  read_wout S x true w = IUB why.
Proof.
  exists "wout.nc"%string, (desk (obj_new S) (shelf wex0) []), "integer division by zero"%string.
  do 3 (split; [reflexivity|]). apply ubd_ex. vm_compute. reflexivity.
Qed.
(** ** write_boozmn before run() *)
Theorem write_first_refuted : exists version x (w : world) why, usable (wO w) /\ open_ok w /\ lucky S w /\
  oB (wO w) B_completed = Some false /\ write_boozmn S version x w = IUB why.
Proof.
  exists "0.0.8"%string, "b.nc"%string, (desk (obj_new S) (fun _ => None) []). eexists.
  split; [apply fresh_usable|]. split; [apply desk_open|]. do 2 (split; [reflexivity|]). apply ubd_ex. vm_compute. reflexivity.
Qed.

End Ex.

(** ** In real arithmetic *)
Lemma neg_neg : forall y : F RS, fneg RS (fneg RS y) = y.
Proof. intros y. exact (Ropp_involutive y). Qed.

(** C35: a surface label that is not on the half grid of VMEC is not restored. *)
Theorem s_b_refuted : exists version x (w w1 w2 : world RS) i,
  writable version (wO w) i /\ open_ok w /\ lucky RS w /\
  write_boozmn RS version x w = IOk tt w1 /\ read_boozmn RS x (setO w1 (obj_new RS)) = IOk tt w2 /\
  elem (wO w) A_s_b 0 = Some (Some 2%R) /\ elem (wO w2) A_s_b 0 = Some (Some (5 / 6)%R).
Proof.
  destruct (ex_writable RS true false) as (o & H1 & H2 & H3 & _ & _ & Q). set (w := desk RS o (fun _ => None) []).
  destruct (round_trip_s_b RS "0.0.8" "b.nc" w _ (obj_new RS) neg_neg H1 (desk_open _ _ _ _) eq_refl (fresh_usable RS)) as (w1 & w2 & E1 & E2 & E3).
  exists "0.0.8"%string, "b.nc"%string, w, w1, w2, (ex_inp RS false). splits; auto; try (apply desk_open); try reflexivity.
  - exact (elem_vec _ _ _ _ 0 (q_s_b _ _ _ Q) ltac:(cbn; lia)).
  - rewrite E3 by (cbn; lia). do 2 f_equal. change ((Q2R (1#1) / (IZR (3+1) - Q2R (1#1)) * (IZR 2 + Q2R (1#2)))%R = (5/6)%R).
    unfold Q2R. cbn [Qnum Qden]. replace (3 + 1) with 4 by lia. field.
Qed.
(** C36 *)
Theorem lost_refuted : exists version x (w w1 w2 : world RS) i,
  writable version (wO w) i /\ open_ok w /\ lucky RS w /\
  write_boozmn RS version x w = IOk tt w1 /\ read_boozmn RS x (setO w1 (obj_new RS)) = IOk tt w2 /\
  oF (wO w) F_aspect = Some 3%R /\ oF (wO w2) F_aspect = Some 0%R /\
  asize (oA (wO w) A_Boozer_G) = 2 /\ asize (oA (wO w2) A_Boozer_G) = 0 /\
  asize (oA (wO w) A_Boozer_I) = 2 /\ asize (oA (wO w2) A_Boozer_I) = 0.
Proof.
  destruct (ex_writable RS true false) as (o & H1 & H2 & H3 & H4 & _ & Q). set (w := desk RS o (fun _ => None) []).
  destruct (not_restored RS "0.0.8" "b.nc" w _ (obj_new RS) neg_neg H1 (desk_open _ _ _ _) eq_refl (fresh_usable RS)) as (w1 & w2 & E1 & E2 & E3 & E4 & E5).
  exists "0.0.8"%string, "b.nc"%string, w, w1, w2, (ex_inp RS false). splits; auto; try (apply desk_open); try reflexivity.
  - exact (vec_is_asize _ _ _ (q_G _ _ _ Q)).
  - rewrite E4. reflexivity.
  - exact (vec_is_asize _ _ _ (q_I _ _ _ Q)).
  - rewrite E5. reflexivity.
Qed.
(** C38 *)
Theorem phip_refuted : exists version x (w w' : world RS) i,
  writable version (wO w) i /\ open_ok w /\ lucky RS w /\ write_boozmn RS version x w = IOk tt w' /\
  elem (wO w) A_phip 0 = Some (Some 20%R) /\ elem (wO w') A_phip 0 = Some (Some 0%R).
Proof.
  destruct (ex_writable RS true false) as (o & H1 & H2 & H3 & H4 & H5 & Q). set (w := desk RS o (fun _ => None) []).
  destruct (write_safe RS "0.0.8" "b.nc" w _ H1 (desk_open _ _ _ _)) as (_ & E). destruct (E eq_refl) as (w' & E').
  destruct (write_object RS "0.0.8" "b.nc" w _ w' H1 (desk_open _ _ _ _)) as (X & _). specialize (X E').
  exists "0.0.8"%string, "b.nc"%string, w, w', (ex_inp RS false). splits; auto; try (apply desk_open); try reflexivity.
  pose proof (sp_phip _ _ _ _ X) as P. cbn [w desk wO] in P. rewrite H2 in P. specialize (H5 eq_refl).
  unfold elem in H5 |- *. rewrite P. change (asize (aput (oA o A_phip) 0 (fofZ RS 0))) with (asize (oA o A_phip)).
  destruct ((0 <=? 0) && (0 <? asize (oA o A_phip))) eqn:B; [|discriminate H5].
  destruct (oA o A_phip) as [r c [|y l]]; [discriminate H5|reflexivity].
Qed.
Lemma two_surfs_in j : 0 <= j < 2 -> 0 <= two_surfs j < 3.
Proof. intros Hj. unfold two_surfs. destruct (j =? 0); lia. Qed.
