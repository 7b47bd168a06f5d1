(** C79: what a writing writes, and what a reading of it gives back, whatever the object contains. *)
From Coq Require Import ZArith List String Bool.
From Verif Require Import Scalar Prog Model Wp Spec Nc NcModel NcSpec NcVoc NcThms4 ReadAll Stored Written WrittenThm WrittenBack WrittenEx.
Import ListNotations.
Local Open Scope Z_scope.

Theorem C79_written : forall (S : Scalar) version x (w w' : world S), wf_obj (wO w) -> write_boozmn S version x w = IOk tt w' ->
  exists f, wFS w' x = Some (Whole f) /\
  exists mn ns nb asy, oI (wO w) I_mnboz = Some mn /\ oI (wO w) I_ns_in = Some ns /\ oI (wO w) I_ns_b = Some nb /\ oB (wO w) B_asym = Some asy /\ 0 <= mn /\ 0 <= ns /\ 0 <= nb /\
  dim f "radius" (ns + 1) /\ dim f "mn_mode" mn /\ dim f "mn_modes" mn /\ dim f "comput_surfs" nb /\ dim f "pack_rad" nb /\
  holds f "version" [dim_str (String.length ("C++/Python booz_xform " ++ version))] (VChar ("C++/Python booz_xform " ++ version)) /\
  holds f "lasym__logical__" [] (VInt [Some (if asy then 1 else 0)]) /\ holds f "ns_b" [] (VInt [Some (ns + 1)]) /\
  (forall y k, In (y, k) booz_scalars -> holds f y [] (VInt [oI (wO w) k])) /\
  holds f "aspect_b" [] (VDbl [oF (wO w) F_aspect]) /\
  (forall y, In y ["rmax_b"; "rmin_b"; "betaxis_b"]%string -> holds f y [] (VDbl [zero])) /\
  holds f "jlist" ["comput_surfs"]%string (VInt (map (option_map (fun z => z + 2)) (adata (oN (wO w) N_compute_surfs)))) /\ asize (oN (wO w) N_compute_surfs) = nb /\
  (forall y k, In (y, k) booz_modes -> exists l, prefix (oN (wO w) k) mn l /\ holds f y ["mn_modes"]%string (VInt l)) /\
  (forall y k, In (y, k) radial -> exists l, prefix (oA (wO w) k) ns l /\ holds f y ["radius"]%string (VDbl (zero :: l))) /\
  (asize (oA (wO w) A_phip) = 0 -> forall y, In y ["beta_b"; "phip_b"; "chi_b"; "pres_b"; "phi_b"]%string ->
     holds f y ["radius"]%string (VDbl (zrepeat zero (ns + 1)))) /\
  (asize (oA (wO w) A_phip) <> 0 ->
     holds f "beta_b" ["radius"]%string (VDbl (zrepeat None (ns + 1))) /\
     (exists c l, prefix (oA (wO w) A_phip) (ns + 1) (c :: l) /\ holds f "phip_b" ["radius"]%string (VDbl (zero :: l))) /\
     forall y k, In (y, k) fluxes -> exists l, prefix (oA (wO w) k) (ns + 1) l /\ holds f y ["radius"]%string (VDbl l)) /\
  (forall y k, In (y, k) booz_matrices -> exists l, prefix (oA (wO w) k) (nb * mn) l /\ holds f y ["pack_rad"; "mn_modes"]%string (VDbl l)) /\
  (exists l, prefix (oA (wO w) A_numns_b) (nb * mn) l /\ holds f "pmns_b" ["pack_rad"; "mn_modes"]%string (VDbl (map (option_map (fneg S)) l))) /\
  (asy = true ->
     (forall y k, In (y, k) booz_matrices_asym -> exists l, prefix (oA (wO w) k) (nb * mn) l /\ holds f y ["pack_rad"; "mn_modes"]%string (VDbl l)) /\
     exists l, prefix (oA (wO w) A_numnc_b) (nb * mn) l /\ holds f "pmnc_b" ["pack_rad"; "mn_modes"]%string (VDbl (map (option_map (fneg S)) l))) /\
  (asy = false -> forall y, In y ["bmns_b"; "rmns_b"; "zmnc_b"; "pmnc_b"; "gmns_b"]%string -> find_var f y = None).
Proof. exact (@boozmn_written). Qed.
Theorem C79_back : forall (S : Scalar) version x (w w1 v v1 : world S), wf_obj (wO w) -> wf_obj (wO v) ->
  write_boozmn S version x w = IOk tt w1 -> wFS v x = wFS w1 x -> read_boozmn S x v = IOk tt v1 ->
  exists mn ns nb asy,
  oI (wO w) I_mnboz = Some mn /\ oI (wO w) I_ns_in = Some ns /\ oI (wO w) I_ns_b = Some nb /\ oB (wO w) B_asym = Some asy /\ oB (wO v1) B_asym = Some asy /\
  (forall k, In k [I_nfp; I_mboz; I_nboz; I_mnboz; I_ns_in; I_ns_b] -> oI (wO v1) k = oI (wO w) k) /\
  adata (oN (wO v1) N_compute_surfs) = adata (oN (wO w) N_compute_surfs) /\
  (forall k, In k [N_xm_b; N_xn_b] -> prefix (oN (wO w) k) mn (adata (oN (wO v1) k))) /\
  (forall k, In k [A_iota; A_Boozer_G_all; A_Boozer_I_all] -> prefix (oA (wO w) k) ns (adata (oA (wO v1) k))) /\
  (asize (oA (wO w) A_phip) = 0 -> forall k, In k [A_phi; A_phip; A_pres] -> adata (oA (wO v1) k) = zrepeat zero (ns + 1)) /\
  (asize (oA (wO w) A_phip) <> 0 -> (forall k, In k [A_phi; A_pres] -> prefix (oA (wO w) k) (ns + 1) (adata (oA (wO v1) k))) /\
     exists c l, prefix (oA (wO w) A_phip) (ns + 1) (c :: l) /\ adata (oA (wO v1) A_phip) = zero :: l) /\
  (forall k, In k [A_bmnc_b; A_rmnc_b; A_zmns_b; A_gmnc_b] -> prefix (oA (wO w) k) (nb * mn) (adata (oA (wO v1) k))) /\
  (exists l, prefix (oA (wO w) A_numns_b) (nb * mn) l /\ adata (oA (wO v1) A_numns_b) = map (option_map (fun y => fneg S (fneg S y))) l) /\
  (asy = true -> (forall k, In k [A_bmns_b; A_rmns_b; A_zmnc_b; A_gmns_b] -> prefix (oA (wO w) k) (nb * mn) (adata (oA (wO v1) k))) /\
     exists l, prefix (oA (wO w) A_numnc_b) (nb * mn) l /\ adata (oA (wO v1) A_numnc_b) = map (option_map (fun y => fneg S (fneg S y))) l) /\
  (asy = false -> forall k, In k [A_bmns_b; A_rmns_b; A_zmnc_b; A_numnc_b; A_gmns_b] -> adata (oA (wO v1) k) = []).
Proof. exact (@comes_back). Qed.
Theorem C79_mixed_refuted : forall S : Scalar, exists a b c (w w1 w2 w3 : world S) f, wO w = obj_new S /\ lucky S w /\
  read_boozmn S a w = IOk tt w1 /\ read_wout S b false w1 = IOk tt w2 /\ write_boozmn S "0.0.8" c w2 = IOk tt w3 /\
  adata (oA (wO w1) A_iota) = [Some (fofZ S 41); Some (fofZ S 42); Some (fofZ S 43)] /\
  adata (oA (wO w2) A_iota) = [Some (fofZ S 2); Some (fofZ S 3); Some (fofZ S 4)] /\
  wFS w3 c = Some (Whole f) /\
  (exists ds, holds f "bmnc_b" ds (VDbl [Some (fofZ S 8); Some (fofZ S 8); Some (fofZ S 8)])) /\
  (exists ds, holds f "iota_b" ds (VDbl [Some (fofZ S 0); Some (fofZ S 2); Some (fofZ S 3); Some (fofZ S 4)])).
Proof. exact mixture_written. Qed.
Theorem C79_other_size_refuted : forall S : Scalar, exists a b c (w w1 w2 : world S) why, wO w = obj_new S /\ lucky S w /\
  read_boozmn S a w = IOk tt w1 /\ read_wout S b false w1 = IOk tt w2 /\ write_boozmn S "0.0.8" c w2 = IUB why.
Proof. exact other_size_unsafe. Qed.
(** Symmetric and asymmetric objects, with and without the fluxes, meet the hypotheses of both theorems. *)
Example C79_case : forall S : Scalar, forall asy fl, (asy = true -> fl = true) -> exists x (w w1 v v1 : world S),
  wf_obj (wO w) /\ oB (wO w) B_asym = Some asy /\ (fl = true <-> asize (oA (wO w) A_phip) <> 0) /\
  write_boozmn S "0.0.8" x w = IOk tt w1 /\ wO v = obj_new S /\ wf_obj (wO v) /\ wFS v x = wFS w1 x /\ read_boozmn S x v = IOk tt v1.
Proof. exact written_case. Qed.

Print Assumptions C79_written.
Print Assumptions C79_back.
Print Assumptions C79_mixed_refuted.
Print Assumptions C79_other_size_refuted.
