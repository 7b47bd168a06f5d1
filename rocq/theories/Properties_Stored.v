(** C75: what a reading stores, whatever the file contains. *)
From Coq Require Import QArith ZArith List String Bool.
From Verif Require Import Scalar Prog Model Wp Spec Nc NcModel NcSpec NcVoc NcThms4 ReadAll Vmec Short Stored.
Import ListNotations.
Local Open Scope Z_scope.

Theorem C75_boozmn : forall (S : Scalar) x (w w' : world S), wf_obj (wO w) -> read_boozmn S x w = IOk tt w' ->
  exists f, wFS w x = Some (Whole f) /\ exists mn ns nb asy,
  oI (wO w') I_mnboz = Some mn /\ oI (wO w') I_ns_in = Some ns /\ oI (wO w') I_ns_b = Some nb /\ oB (wO w') B_asym = Some asy /\
  (exists z, integers f "lasym__logical__" [Some z] /\ (asy = true <-> z <> 0)) /\
  dim f "radius" (ns + 1) /\ dim f "comput_surfs" nb /\
  (forall y k, In (y, k) booz_scalars -> exists l, integers f y l /\ (l = [] \/ l = [oI (wO w') k])) /\
  (forall y k, In (y, k) booz_modes -> shaped (oN (wO w') k) mn 1 /\ exists l, integers f y l /\ begins l (oN (wO w') k)) /\
  (shaped (oN (wO w') N_compute_surfs) nb 1 /\
   exists l, integers f "jlist" l /\ begins (map (option_map (fun x => x - 2)) l) (oN (wO w') N_compute_surfs)) /\
  (forall y k, In (y, k) booz_profiles -> shaped (oA (wO w') k) (ns + 1) 1 /\ exists l, numbers f y l /\ begins l (oA (wO w') k)) /\
  shaped (oA (wO w') A_chi) (ns + 1) 1 /\
  (forall y k, In (y, k) booz_radial -> shaped (oA (wO w') k) ns 1 /\ exists l, numbers f y l /\ tl l = adata (oA (wO w') k)) /\
  (forall y k, In (y, k) booz_matrices -> shaped (oA (wO w') k) mn nb /\ exists l, numbers f y l /\ begins l (oA (wO w') k)) /\
  (shaped (oA (wO w') A_numns_b) mn nb /\ exists l, numbers f "pmns_b" l /\ begins (map (option_map (fneg S)) l) (oA (wO w') A_numns_b)) /\
  (asy = true ->
    (forall y k, In (y, k) booz_matrices_asym -> shaped (oA (wO w') k) mn nb /\ exists l, numbers f y l /\ begins l (oA (wO w') k)) /\
    shaped (oA (wO w') A_numnc_b) mn nb /\ exists l, numbers f "pmnc_b" l /\ begins (map (option_map (fneg S)) l) (oA (wO w') A_numnc_b)) /\
  (asy = false -> forall k, In k [A_bmns_b; A_rmns_b; A_zmnc_b; A_numnc_b; A_gmns_b] -> shaped (oA (wO w') k) 0 0) /\
  shaped (oA (wO w') A_s_b) nb 1 /\ exists nv, integers f "ns_b" [Some nv] /\
    forall j, 0 <= j < nb -> exists c, znth (adata (oN (wO w') N_compute_surfs)) j = Some (Some c) /\
      znth (adata (oA (wO w') A_s_b)) j = Some (Some (f1 S / (fofZ S nv - f1 S) * (fofZ S c + flit S (1 # 2)))%sc).
Proof. exact (@boozmn_stores). Qed.
Theorem C75_wout : forall (S : Scalar) x fl (w w' : world S), wf_obj (wO w) -> read_wout S x fl w = IOk tt w' ->
  exists f, wFS w x = Some (Whole f) /\ exists ns mn mnq asy (v : vargs S) (o : obj S) ev,
  run (init_from_vmec S v) o = ROk tt (wO w') ev /\ v_ns S v = ns /\ integers f "ns" [Some ns] /\
  oI (wO w') I_mnmax = Some mn /\ oI (wO w') I_mnmax_nyq = Some mnq /\ oB (wO w') B_asym = Some asy /\
  (exists z, integers f "lasym__logical__" [Some z] /\ (asy = true <-> z <> 0)) /\
  (forall y k, In (y, k) [("nfp", I_nfp); ("mpol", I_mpol); ("ntor", I_ntor); ("mnmax", I_mnmax); ("mnmax_nyq", I_mnmax_nyq)]%string ->
    exists l, integers f y l /\ (l = [] \/ l = [oI (wO w') k])) /\
  (forall y k, In (y, k) [("xm", N_xm); ("xn", N_xn)]%string -> shaped (oN (wO w') k) mn 1 /\ exists l, integers f y l /\ begins l (oN (wO w') k)) /\
  (forall y k, In (y, k) [("xm_nyq", N_xm_nyq); ("xn_nyq", N_xn_nyq)]%string -> shaped (oN (wO w') k) mnq 1 /\ exists l, integers f y l /\ begins l (oN (wO w') k)) /\
  (exists m n p, znth (adata (oN (wO w') N_xm_nyq)) (mnq - 1) = Some (Some m) /\ znth (adata (oN (wO w') N_xn_nyq)) (mnq - 1) = Some (Some n) /\
     oI (wO w') I_nfp = Some p /\ p <> 0 /\ oI (wO w') I_mpol_nyq = Some m /\ oI (wO w') I_ntor_nyq = Some (Z.quot n p)) /\
  (shaped (v_iotas S v) ns 1 /\ exists l, numbers f "iotas" l /\ begins l (v_iotas S v)) /\
  (forall y g, In (y, g) [("rmnc", v_rmnc S); ("zmns", v_zmns S); ("lmns", v_lmns S)]%string -> shaped (g v) mn ns /\ exists l, numbers f y l /\ begins l (g v)) /\
  (forall y g, In (y, g) [("bmnc", v_bmnc S); ("bsubumnc", v_bsubumnc S); ("bsubvmnc", v_bsubvmnc S)]%string ->
    shaped (g v) mnq ns /\ exists l, numbers f y l /\ begins l (g v)) /\
  (asy = true ->
   (forall y g, In (y, g) [("rmns", v_rmns S); ("zmnc", v_zmnc S); ("lmnc", v_lmnc S)]%string -> shaped (g v) mn ns /\ exists l, numbers f y l /\ begins l (g v)) /\
   (forall y g, In (y, g) [("bmns", v_bmns S); ("bsubumns", v_bsubumns S); ("bsubvmns", v_bsubvmns S)]%string ->
    shaped (g v) mnq ns /\ exists l, numbers f y l /\ begins l (g v))) /\
  (fl = true -> forall y g, In (y, g) [("chi", v_chi S); ("phipf", v_phip S); ("pres", v_pres S); ("phi", v_phi S)]%string ->
    shaped (g v) ns 1 /\ exists l, numbers f y l /\ begins l (g v)) /\
  (fl = false -> forall g, In g [v_chi S; v_phip S; v_pres S; v_phi S] -> shaped (g v) 0 1).
Proof. exact (@wout_stores). Qed.
Theorem C75_filled_refuted : forall S : Scalar, exists x (w w' : world S), wO w = obj_new S /\ lucky S w /\ read_boozmn S x w = IOk tt w' /\
  elem2 (wO w') A_bmnc_b 0 0 = Some (Some (fofZ S 8)) /\ elem2 (wO w') A_bmnc_b 0 1 = Some None.
Proof. exact short_refuted. Qed.
Theorem C75_own_data_refuted : forall S : Scalar, exists x y (w w1 w2 : world S), wO w = obj_new S /\ lucky S w /\
  read_boozmn S x w = IOk tt w1 /\ read_boozmn S y w1 = IOk tt w2 /\ wFS w y = Some (Whole (cut S 8)) /\
  elem2 (wO w2) A_bmnc_b 0 0 = Some (Some (fofZ S 8)) /\ elem2 (wO w2) A_bmnc_b 0 1 = Some (Some (fofZ S 1)).
Proof. exact mixed_refuted. Qed.
Theorem C75_wout_refuted : forall S : Scalar, exists x (w : world S) f, wO w = obj_new S /\ wFS w x = Some (Whole f) /\ lucky S w /\
  has_numbers f "rmnc" /\ exists why, read_wout S x true w = IUB why.
Proof. exact wout_short_refuted. Qed.
(** A file with a whole and a file with a short variable meet the hypotheses of [C75_boozmn], symmetric and asymmetric files
    with and without the fluxes those of [C75_wout]. *)
Example C75_case : forall S : Scalar, wf_obj (obj_new S) /\
  (exists w', read_boozmn S "b.nc" (desk S (obj_new S) (shelf S (bfile_of S (two_surf S 1))) []) = IOk tt w') /\
  (exists w', read_boozmn S "b.nc" (desk S (obj_new S) (shelf S (cut S 8)) []) = IOk tt w') /\
  (forall asy fl, exists w', read_wout S "wout" fl (desk S (obj_new S) (shelf S (wex S asy fl)) []) = IOk tt w').
Proof. exact stored_case. Qed.

Print Assumptions C75_boozmn.
Print Assumptions C75_wout.
Print Assumptions C75_filled_refuted.
Print Assumptions C75_own_data_refuted.
Print Assumptions C75_wout_refuted.
