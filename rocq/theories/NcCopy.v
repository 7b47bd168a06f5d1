(** read_boozmn, then write_boozmn: the copy of a file. *)
From Coq Require Import ZArith List String Bool Lia Reals.
From Verif Require Import Scalar Prog Model Wp Func Step TrigProof InitProof RunProof FuncExt Spec RunThms
  Vmec VmecSpec VmecThms Nc NcModel NcSpec NcTri NcRead NcBoozmn NcWrite NcWriteB NcVoc NcThms NcThms3 NcThms4 DriverProof.
Import ListNotations.
Local Open Scope Z_scope.

Section CopySpec.
Context {S : Scalar}.
Notation file := (ncfile S).
(** What a copy [f'] of [f] has in common with it.  [mn], [rad], [ns]: the numbers of modes,
    radial points and surfaces; [asy]: [f] has the asymmetric variables. *)
Record copied (version : string) (mn rad ns : Z) (asy : bool) (f f' : file) : Prop := mkCopied {
  cp_numbers : forall x, In x ["nfp_b"; "mboz_b"; "nboz_b"; "mnboz_b"]%string -> icell f' x 0 = icell f x 0 /\ icell f x 0 <> None;
  cp_modes : forall x p, In x ["ixm_b"; "ixn_b"]%string -> 0 <= p < mn -> icell f' x p = icell f x p /\ icell f x p <> None;
  cp_jlist : forall p, 0 <= p < ns -> icell f' "jlist" p = icell f "jlist" p /\ icell f "jlist" p <> None;
  (* the first radial point is not used *)
  cp_half : forall x, In x ["iota_b"; "buco_b"; "bvco_b"; "phip_b"]%string -> dcell f' x 0 = Some (Some (fofZ S 0)) /\
    forall p, 1 <= p < rad -> dcell f' x p = dcell f x p /\ dcell f x p <> None;
  cp_full : forall x p, In x ["phi_b"; "chi_b"; "pres_b"]%string -> 0 <= p < rad -> dcell f' x p = dcell f x p /\ dcell f x p <> None;
  cp_sym : forall x p, In x ["bmnc_b"; "rmnc_b"; "zmns_b"; "pmns_b"; "gmn_b"]%string -> 0 <= p < ns * mn ->
    dcell f' x p = dcell f x p /\ dcell f x p <> None;
  cp_asym : asy = true -> forall x p, In x ["bmns_b"; "rmns_b"; "zmnc_b"; "pmnc_b"; "gmns_b"]%string -> 0 <= p < ns * mn ->
    dcell f' x p = dcell f x p /\ dcell f x p <> None;
  cp_lasym : icell f' "lasym__logical__" 0 = Some (Some (if asy then 1 else 0));
  cp_ns : icell f' "ns_b" 0 = Some (Some rad);
  cp_dims : nf_dims f' = [("radius", rad); ("mn_mode", mn); ("mn_modes", mn); ("comput_surfs", ns); ("pack_rad", ns);
     (dim_str (22 + String.length version), Z.of_nat (22 + String.length version))]%string;
  cp_layout : map (fun v => (vr_name v, vr_dims v, lookup (vr_atts v) "units")) (nf_vars f') = blayout version asy true
}.
(** The file [f] is complete, can be read into the object, and is small enough to be written. *)
Record copyable (version : string) (f : file) (d : bdat S) : Prop := mkCopyable {
  cy_file : bfile S f d; cy_sane : bsane S d; cy_complete : bcomplete S f d; cy_chi : present S f "chi_b";
  cy_mn : b_mnboz S d <= 2147483644; cy_rad : b_radius S d <= 2147483644; cy_ns : b_nsurf S d <= 2147483644;
  cy_version : (String.length version < 2000)%nat
}.
End CopySpec.

Section Copy.
Variable S : Scalar.
Notation obj := (obj S).
Notation world := (world S).
Notation file := (ncfile S).
Notation F := (F S).

Definition zero_first (h : Z -> F) (j : Z) : F := if j =? 0 then fofZ S 0 else h j.
Definition copy_dat (d : bdat S) : bdat S :=
  mkBdat S (if b_asym S d then 1 else 0) (b_nfp S d) (b_mboz S d) (b_nboz S d) (b_mnboz S d) (b_radius S d) (b_nsurf S d) (b_radius S d)
    (b_xm S d) (b_xn S d) (b_jlist S d) (zero_first (b_iota S d)) (zero_first (b_G S d)) (zero_first (b_I S d))
    (b_phi S d) (zero_first (b_phip S d)) (b_chi S d) (b_pres S d) (fun m k b => bsign S m (bsign S m (b_mat S d m k b))).
Lemma copy_asym d : b_asym S (copy_dat d) = b_asym S d.
Proof. unfold b_asym at 1. cbn. now destruct (b_asym S d). Qed.
Lemma loaded_stored (d : bdat S) (o o' : obj) : loaded S d o o' -> vec_is (oA o' A_chi) (b_radius S d) (b_chi S d) -> bsane S d ->
  stored S o' (copy_dat d) (fun m k b => bsign S m (b_mat S d m k b)) true (b_phip S d).
Proof.
  intros [] Hc Sn. assert (Zs : forall h j, 0 <= j -> h (j + 1) = zero_first h (j + 1)).
  { intros h j Hj. unfold zero_first. destruct (Z.eqb_spec (j + 1) 0); [lia|reflexivity]. }
  constructor; rewrite ?copy_asym; auto.
  - exists (fun j => b_jlist S d j - 2). split; [exact ld_surfs|]. cbn. intros; lia.
  - eapply vec_ext; [|exact ld_iota]. cbv beta. intros j Hj. apply Zs. lia.
  - eapply vec_ext; [|exact ld_G]. cbv beta. intros j Hj. apply Zs. lia.
  - eapply vec_ext; [|exact ld_I]. cbv beta. intros j Hj. apply Zs. lia.
  - intros Ha x m Hin. pose proof (ld_matA x m Hin) as M. rewrite Ha in M. exact M.
  - discriminate.
Qed.

Lemma icell2 (f f' : file) x n g g' p : holds_ints S f x n g -> holds_ints S f' x n g' -> present S f x -> present S f' x -> 0 <= p < n ->
  g' p = g p -> icell f' x p = icell f x p /\ icell f x p <> None.
Proof. intros H H' P P' Hp E. rewrite (icell_of S f x n g p), (icell_of S f' x n g' p) by auto. rewrite E. split; [reflexivity|discriminate]. Qed.
Lemma dcell2 (f f' : file) x n g g' p : holds_vec S f x n g -> holds_vec S f' x n g' -> present S f x -> present S f' x -> 0 <= p < n ->
  g' p = g p -> dcell f' x p = dcell f x p /\ dcell f x p <> None.
Proof. intros H H' P P' Hp E. rewrite (dcell_of S f x n g p), (dcell_of S f' x n g' p) by auto. rewrite E. split; [reflexivity|discriminate]. Qed.
Lemma mcell2 (f f' : file) x r c g g' p : holds_mat S f x r c g -> holds_mat S f' x r c g' -> present S f x -> present S f' x ->
  1 <= r -> 0 <= p < c * r -> (forall k b, g' k b = g k b) -> dcell f' x p = dcell f x p /\ dcell f x p <> None.
Proof.
  intros H H' P P' Hr Hp E. pose proof (Z.div_mod p r ltac:(lia)) as Dv. pose proof (Z.mod_pos_bound p r ltac:(lia)) as Mb.
  assert (Hb : 0 <= p / r < c) by (split; [apply Z.div_pos; lia|apply Z.div_lt_upper_bound; lia]).
  replace p with (p / r * r + p mod r) by lia.
  rewrite (dcell_of2 S f x r c g), (dcell_of2 S f' x r c g') by auto. rewrite E. split; [reflexivity|discriminate].
Qed.

Theorem copy_file version x y (w : world) f d : (forall z : F, fneg S (fneg S z) = z) ->
  wFS w x = Some (Whole f) -> copyable version f d -> open_ok w -> usable (wO w) -> lucky S w ->
  exists w1 w2 f', read_boozmn S x w = IOk tt w1 /\ write_boozmn S version y w1 = IOk tt w2 /\
    (forall z, z <> y -> wFS w2 z = wFS w z) /\ wFS w2 y = Some (Whole f') /\
    copied version (b_mnboz S d) (b_radius S d) (b_nsurf S d) (b_asym S d) f f' /\
    dcell f' "aspect_b" 0 = Some (oF (wO w) F_aspect) /\ (forall j, 0 <= j < b_radius S d -> dcell f' "beta_b" j = Some None).
Proof.
  intros Neg Hf [Bf Bs Bc Bch Cm Cr Cn Cv] Op (Wo & vb & Hv) L.
  pose proof (read_boozmn_spec S f d Bf Bs x w [] vb Hf (conj Wo Op) (fun _ => L) Hv) as T.
  pose proof (calm_read_boozmn S x w L) as Cl1.
  unfold tri in T. destruct (read_boozmn S x w) as [[] w1|m w1|z|w1] eqn:E1;
    [| exfalso; now apply (proj2 T) | contradiction | exfalso; now apply (proj2 T)].
  destruct T as (Ld & Tc & _ & F1 & P1 & N1). pose proof (Tc eq_refl Bch) as Hc.
  pose proof (loaded_stored d _ _ Ld Hc Bs) as St. destruct Bs as [Z1 Z2 Z3 Z4].
  assert (Ft : wfits S version (copy_dat d)) by (constructor; [cbn; lia|cbn; lia|cbn; lia|exact Z4|exact Cv]).
  assert (Op1 : wf_world S w1).
  { split; [apply Ld|]. rewrite P1, N1. revert Op. apply Forall_impl. intros a Ha. clear Cv. lia. }
  assert (Hv1 : oI (wO w1) I_verbose = Some vb).
  { rewrite (ld_Is _ _ _ _ Ld); [exact Hv|]. cbn. intuition discriminate. }
  pose proof (write_boozmn_spec S version y w1 (wO w1) _ _ true _ [] vb eq_refl St Ft Op1 (fun _ => Cl1) Hv1) as T.
  clear Tc Cv. unfold tri in T. destruct (write_boozmn S version y w1) as [[] w2|m w2|z|w2] eqn:E2;
    [| destruct T as (X & _); contradiction | contradiction | destruct T as (X & _); contradiction].
  destruct T as (_ & _ & _ & T1 & (f' & T2 & Wt) & _).
  exists w1, w2, f'. split; [reflexivity|]. split; [exact E2|]. split; [intros z Hz; rewrite T1 by exact Hz; now rewrite F1|]. split; [exact T2|].
  pose proof (wt_data _ _ _ _ _ _ Wt) as B'. destruct (wt_all _ _ _ _ _ _ Wt) as ((C1' & _) & C3'). rewrite copy_asym in C1'. destruct Bc as (C1 & _).
  assert (Sg : forall m k b, b_mat S (copy_dat d) m k b = b_mat S d m k b) by (intros m k b; cbn; destruct m; cbn; auto).
  split; [constructor|split].
  - intros v Hin. cbn in Hin. repeat destruct Hin as [<-|Hin]; try contradiction.
    + eapply icell2; [apply Bf|apply B'| | |lia|reflexivity]; [apply C1|apply C1']; cbn; auto 30.
    + eapply icell2; [apply Bf|apply B'| | |lia|reflexivity]; [apply C1|apply C1']; cbn; auto 30.
    + eapply icell2; [apply Bf|apply B'| | |lia|reflexivity]; [apply C1|apply C1']; cbn; auto 30.
    + eapply icell2; [apply Bf|apply B'| | |lia|reflexivity]; [apply C1|apply C1']; cbn; auto 30.
  - intros v p Hin Hp. cbn in Hin. repeat destruct Hin as [<-|Hin]; try contradiction.
    + eapply icell2; [apply Bf|apply B'| | |exact Hp|reflexivity]; [apply C1|apply C1']; cbn; auto 30.
    + eapply icell2; [apply Bf|apply B'| | |exact Hp|reflexivity]; [apply C1|apply C1']; cbn; auto 30.
  - intros p Hp. eapply icell2; [apply Bf|apply B'| | |exact Hp|reflexivity]; [apply C1|apply C1']; cbn; auto 30.
  - assert (Zf : forall (h : Z -> F) p, 1 <= p -> zero_first h p = h p).
    { intros h p Hp. unfold zero_first. destruct (Z.eqb_spec p 0); [lia|reflexivity]. }
    intros v Hin. cbn in Hin. repeat destruct Hin as [<-|Hin]; try contradiction.
    + split.
      * erewrite dcell_of; [|apply (bf_iota _ _ _ B')|apply C1'; cbn; auto 30|cbn; lia]. reflexivity.
      * intros p Hp. eapply dcell2; [apply (bf_iota _ _ _ Bf)|apply (bf_iota _ _ _ B')|apply C1; cbn; auto 30|apply C1'; cbn; auto 30|lia|apply Zf; lia].
    + split.
      * erewrite dcell_of; [|apply (bf_I _ _ _ B')|apply C1'; cbn; auto 30|cbn; lia]. reflexivity.
      * intros p Hp. eapply dcell2; [apply (bf_I _ _ _ Bf)|apply (bf_I _ _ _ B')|apply C1; cbn; auto 30|apply C1'; cbn; auto 30|lia|apply Zf; lia].
    + split.
      * erewrite dcell_of; [|apply (bf_G _ _ _ B')|apply C1'; cbn; auto 30|cbn; lia]. reflexivity.
      * intros p Hp. eapply dcell2; [apply (bf_G _ _ _ Bf)|apply (bf_G _ _ _ B')|apply C1; cbn; auto 30|apply C1'; cbn; auto 30|lia|apply Zf; lia].
    + split.
      * erewrite dcell_of; [|apply (bf_phip _ _ _ B')|apply C1'; cbn; auto 30|cbn; lia]. reflexivity.
      * intros p Hp. eapply dcell2; [apply (bf_phip _ _ _ Bf)|apply (bf_phip _ _ _ B')|apply C1; cbn; auto 30|apply C1'; cbn; auto 30|lia|apply Zf; lia].
  - intros v p Hin Hp. cbn in Hin. repeat destruct Hin as [<-|Hin]; try contradiction.
    + eapply dcell2; [apply (bf_phi _ _ _ Bf)|apply (bf_phi _ _ _ B')|apply C1; cbn; auto 30|apply C1'; cbn; auto 30|exact Hp|reflexivity].
    + eapply dcell2; [apply (bf_chi _ _ _ Bf)|apply (bf_chi _ _ _ B')|exact Bch|exact C3'|exact Hp|reflexivity].
    + eapply dcell2; [apply (bf_pres _ _ _ Bf)|apply (bf_pres _ _ _ B')|apply C1; cbn; auto 30|apply C1'; cbn; auto 30|exact Hp|reflexivity].
  - intros v p Hin Hp. assert (Hm : exists m, In (v, m) bvars_sym).
    { cbn in Hin. repeat destruct Hin as [<-|Hin]; try contradiction; eexists; cbn; eauto 10. }
    assert (Hin' : forall asy, In v (bneed_vars asy)).
    { intros asy. unfold bneed_vars. cbn in Hin. repeat destruct Hin as [<-|Hin]; try contradiction; cbn; auto 40. }
    destruct Hm as (m & Hm). eapply mcell2; [apply (bf_sym _ _ _ Bf v m Hm)|apply (bf_sym _ _ _ B' v m Hm)|now apply C1|now apply C1'|lia|exact Hp|apply Sg].
  - intros Ha v p Hin Hp. assert (Hm : exists m, In (v, m) bvars_asym).
    { cbn in Hin. repeat destruct Hin as [<-|Hin]; try contradiction; eexists; cbn; eauto 10. }
    assert (Hin' : In v (bneed_vars true)).
    { unfold bneed_vars. cbn in Hin. repeat destruct Hin as [<-|Hin]; try contradiction; cbn; auto 40. }
    rewrite Ha in C1, C1'. pose proof (copy_asym d) as Ha'. rewrite Ha in Ha'.
    destruct Hm as (m & Hm). eapply mcell2; [apply (bf_asym _ _ _ Bf Ha v m Hm)|apply (bf_asym _ _ _ B' Ha' v m Hm)|now apply C1|now apply C1'|lia|exact Hp|apply Sg].
  - erewrite icell_of; [|apply (bf_lasym _ _ _ B')|apply C1'; cbn; auto 30|cbn; lia]. reflexivity.
  - erewrite icell_of; [|apply (bf_ns _ _ _ B')|apply C1'; cbn; auto 30|cbn; lia]. reflexivity.
  - exact (wt_dims _ _ _ _ _ _ Wt).
  - rewrite (wt_vars _ _ _ _ _ _ Wt). now rewrite copy_asym.
  - destruct (wt_aspect _ _ _ _ _ _ Wt) as (v & V1 & V2). unfold dcell. rewrite V1, V2. cbn.
    rewrite (ld_F _ _ _ _ Ld) by discriminate. reflexivity.
  - intros j Hj. destruct (wt_beta _ _ _ _ _ _ Wt) as (v & l & V1 & V2 & V3 & V4). unfold dcell. rewrite V1, V2. cbn [to_dbl].
    cbn [copy_dat b_radius] in V3. destruct (nth_error l (Z.to_nat j)) as [c|] eqn:En.
    + rewrite Forall_forall in V4. rewrite (V4 c) in * by (eapply nth_error_In; eauto). 
      unfold znth. destruct (Z.ltb_spec j 0); [lia|exact En].
    + apply nth_error_None in En. lia.
Qed.
End Copy.

(** ** aspect and toroidal_flux *)
Section Pass.
Variable S : Scalar.
Notation obj := (obj S).
Notation world := (world S).
Theorem aspect_passed version x (w w' : world) i : writable version (wO w) i -> open_ok w -> write_boozmn S version x w = IOk tt w' ->
  exists f, wFS w' x = Some (Whole f) /\ dcell f "aspect_b" 0 = Some (oF (wO w) F_aspect).
Proof.
  intros Wr Op E. destruct (write_all S version x w i Wr Op) as (pi & pp & ch & pr & _ & _ & T). unfold tri in T. rewrite E in T.
  destruct T as (_ & _ & _ & _ & (f & T2 & Wt) & _). exists f. split; [exact T2|].
  destruct (wt_aspect _ _ _ _ _ _ Wt) as (v & V1 & V2). unfold dcell. rewrite V1, V2. reflexivity.
Qed.
Theorem flux_passed version x (w : world) i (o2 : obj) : (forall y : F S, fneg S (fneg S y) = y) ->
  writable version (wO w) i -> open_ok w -> lucky S w -> usable o2 ->
  has_fluxes (wO w) = true -> Some (oF (wO w) F_toroidal_flux) = elem (wO w) A_phi (nsin i) ->
  exists w1 w2, write_boozmn S version x w = IOk tt w1 /\ read_boozmn S x (setO w1 o2) = IOk tt w2 /\
    oF (wO w2) F_toroidal_flux = oF (wO w) F_toroidal_flux.
Proof.
  intros Neg Wr Op L U Hf Ht. destruct (round_trip_full S version x w i o2 Neg Wr Op L U) as (w1 & w2 & d & E1 & E2 & _ & _ & R & _).
  exists w1, w2. split; [exact E1|]. split; [exact E2|].
  destruct (rs_flux _ _ _ R Hf) as (_ & _ & _ & X). rewrite <- Ht in X. now injection X.
Qed.
Lemma writable_flt version (o : obj) i f v : In f [F_aspect; F_toroidal_flux] -> writable version o i -> writable version (updF o f v) i.
Proof.
  intros Hin [(o1 & o2 & ev & u & V & E & T & Hv) W2 W3 W4 W5]. constructor; auto. exists o1, o2, ev, u. splits; auto.
  destruct T as [T1 T2 T3 T4 T5 T6]. constructor; auto.
  - intros f' Hf'. cbn. destruct (ffield_eq_dec f' f); [subst; contradiction|auto].
  - constructor; apply T6.
Qed.
Lemma flux_case asy : exists o : obj, writable "0.0.8" o (ex_inp S asy) /\ has_fluxes o = true /\
  Some (oF o F_toroidal_flux) = elem o A_phi (nsin (ex_inp S asy)).
Proof.
  destruct (ex_writable S true asy) as (o & H1 & H2 & _).
  assert (V : exists v, elem o A_phi (nsin (ex_inp S asy)) = Some (Some v)).
  { destruct (wb_flux _ _ _ H1) as [X|X]; [unfold has_fluxes in H2; rewrite X in H2; discriminate|].
    destruct (X A_phi) as (g & Hg); [cbn; auto|]. exists (g (nsin (ex_inp S asy))). eapply elem_vec; [exact Hg|cbn; lia]. }
  destruct V as (v & V). exists (updF o F_toroidal_flux (Some v)). splits; auto.
  - apply writable_flt; [cbn; auto|exact H1].
Qed.
Lemma copyable_case : copyable "0.0.8" (bfile_of S (bex S)) (bex S).
Proof.
  destruct (bfile_of_ok S (bex S) (bex_sane S)) as (B1 & B2 & B3). constructor; auto; try (cbn; lia). apply bex_sane.
Qed.
End Pass.

(** The user's value of toroidal_flux is not in the file: what is read back is something else. *)
Theorem flux_refuted : exists version x (w w1 w2 : world RS) i,
  writable version (wO w) i /\ open_ok w /\ lucky RS w /\
  write_boozmn RS version x w = IOk tt w1 /\ read_boozmn RS x (setO w1 (obj_new RS)) = IOk tt w2 /\
  oF (wO w) F_toroidal_flux = Some 7%R /\ oF (wO w2) F_toroidal_flux = Some 0%R.
Proof.
  destruct (ex_writable RS false false) as (o & H1 & H2 & _).
  set (w := desk RS (updF o F_toroidal_flux (Some 7%R : option (F RS))) (fun _ => None) []).
  assert (Wr : writable "0.0.8" (wO w) (ex_inp RS false)) by (apply writable_flt; [cbn; auto|exact H1]).
  destruct (round_trip RS "0.0.8" "b.nc" w _ (obj_new RS) neg_neg Wr (desk_open _ _ _ _) eq_refl (fresh_usable RS)) as (w1 & w2 & E1 & E2 & R).
  exists "0.0.8"%string, "b.nc"%string, w, w1, w2, (ex_inp RS false). splits; auto; try (apply desk_open); try reflexivity.
  apply (rs_noflux _ _ _ R). exact H2.
Qed.

(** aspect_b and beta_b are not copied. *)
Theorem copy_refuted : exists version x y (w w1 w2 : world RS) f f' d,
  wFS w x = Some (Whole f) /\ copyable version f d /\ wO w = obj_new RS /\ open_ok w /\ lucky RS w /\
  read_boozmn RS x w = IOk tt w1 /\ write_boozmn RS version y w1 = IOk tt w2 /\ wFS w2 y = Some (Whole f') /\
  dcell f "aspect_b" 0 = Some (Some 3%R) /\ dcell f' "aspect_b" 0 = Some (Some 0%R) /\
  dcell f "beta_b" 1 = Some (Some 0%R) /\ dcell f' "beta_b" 1 = Some None.
Proof.
  destruct (ex_writable RS false false) as (o & H1 & H2 & H3 & H4 & _). set (w0 := desk RS o (fun _ => None) []).
  destruct (write_lucky RS "0.0.8" "b.nc" w0 _ H1 (desk_open _ _ _ _) eq_refl) as (pi & pp & ch & pr & w1 & _ & Ft & E1 & G1 & G2 & G3 & _ & (f & G4 & Wt) & _).
  change (wO w0) with o in *. rewrite H2 in *. set (d := bd RS (ex_inp RS false) false pi pp ch pr) in *.
  assert (Cy : copyable "0.0.8" f d).
  { destruct Ft as [Z1 Z2 Z3 Z4 Z5]. destruct (wt_all _ _ _ _ _ _ Wt) as (C1 & C2). constructor; try exact Z5; clear Z5; auto; try apply Wt; try lia.
    constructor; [lia|unfold INT_MAX; lia|unfold INT_MAX; lia|exact Z4]. }
  set (w := setO w1 (obj_new RS)).
  assert (Op : open_ok w) by (unfold open_ok; cbn; rewrite G1; constructor).
  destruct (copy_file RS "0.0.8" "b.nc" "c.nc" w f d neg_neg G4 Cy Op (fresh_usable RS) (G3 eq_refl)) as (w2 & w3 & f' & K1 & K2 & K3 & K4 & K5 & K6 & K7).
  exists "0.0.8"%string, "b.nc"%string, "c.nc"%string, w, w2, w3, f, f', d. splits; auto.
  - exact (G3 eq_refl).
  - destruct (wt_aspect _ _ _ _ _ _ Wt) as (v & V1 & V2). unfold dcell. rewrite V1, V2, H4. reflexivity.
  - destruct (wt_beta _ _ _ _ _ _ Wt) as (v & l & V1 & V2 & V3 & V4). unfold dcell. rewrite V1, V2. cbn [to_dbl].
    cbn in V3. unfold znth. cbn. destruct l as [|c0 [|c1 l]]; cbn in V3; try lia. cbn. inversion V4 as [|? ? _ V5]. inversion V5 as [|? ? V6 _].
    subst. reflexivity.
  - apply K7. cbn. lia.
Qed.
