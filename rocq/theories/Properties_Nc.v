(** Properties C33, C35 - C45, C52, C53: NetCDF files. *)
From Coq Require Import ZArith QArith List String Bool Reals.
From Verif Require Import Scalar Prog Model Wp Func FuncExt Spec RunThms Vmec VmecSpec VmecThms
  Nc NcModel NcSpec NcVoc NcThms NcThms2 NcThms3 NcThms4.
Import ListNotations.
Local Open Scope Z_scope.

(** ** C33 *)
Theorem C33_outcome : forall (S : Scalar) f asp i d x (w : world S),
  good_wout f asp i d -> wFS w x = Some (Whole f) -> lucky S w -> open_ok w ->
  wf_obj (wO w) -> oI (wO w) I_verbose = Some (verb i) -> (exists n g, vec_is (oN (wO w) N_compute_surfs) n g) ->
  (selects (wO w) (d_ns S d - 1) ->
     exists w', read_wout S x (d_flux S d) w = IOk tt w' /\ repr (wO w') (from_vmec i d) /\ fluxes_stored (wO w') d /\
       oF (wO w') F_aspect = Some asp /\ wFS w' = wFS w /\ wOpen w' = wOpen w) /\
  (~ selects (wO w) (d_ns S d - 1) -> exists m w', read_wout S x (d_flux S d) w = IThrow m w' /\ wFS w' = wFS w).
Proof. exact read_wout_outcome. Qed.
Theorem C33_same_result : forall (S : Scalar) f asp i d x (w1 w2 : world S), good_wout f asp i d ->
  (forall w, w = w1 \/ w = w2 -> wFS w x = Some (Whole f) /\ lucky S w /\ open_ok w /\ wf_obj (wO w) /\
     oI (wO w) I_verbose = Some (verb i) /\ selects (wO w) (d_ns S d - 1)) ->
  exists w1' w2', read_wout S x (d_flux S d) w1 = IOk tt w1' /\ read_wout S x (d_flux S d) w2 = IOk tt w2' /\
    same_inputs (wO w1') (wO w2') /\
    (forall g, In g [F_aspect; F_toroidal_flux] -> oF (wO w1') g = oF (wO w2') g) /\
    (forall g, In g flux_arrays -> asize (oA (wO w1') g) = asize (oA (wO w2') g) /\ forall j, elem (wO w1') g j = elem (wO w2') g j).
Proof. exact read_wout_history. Qed.
Theorem C33_stale_selection_refuted : forall S : Scalar, exists x (w1 w2 : world S) w1' msg w2',
  good_wout (wex S false false) (fofZ S 3) (vex S false 1 2 two_surfs) (vexd S false 4) /\
  (forall w, w = w1 \/ w = w2 -> wFS w x = Some (Whole (wex S false false)) /\ lucky S w /\ open_ok w /\ wf_obj (wO w)) /\
  (exists a, wO w2 = updN (wO w1) N_compute_surfs a) /\
  read_wout S x false w1 = IOk tt w1' /\ read_wout S x false w2 = IThrow msg w2'.
Proof. exact history_refuted. Qed.
Example C33_case : forall S asy fl, let w := desk S (obj_of (vex S asy 1 2 two_surfs)) (shelf S (wex S asy fl)) [] in
  good_wout (wex S asy fl) (fofZ S 3) (vex S asy 1 2 two_surfs) (vexd S fl 4) /\
  wFS w "wout" = Some (Whole (wex S asy fl)) /\ lucky S w /\ open_ok w /\ wf_obj (wO w) /\ oI (wO w) I_verbose = Some 1 /\
  selects (wO w) 3.
Proof. exact (fun S asy fl => conj (wex_good S asy fl) (wex_world S asy fl two_surfs two_surfs_in)). Qed.

(** ** C35 *)
Theorem C35_round_trip : forall (S : Scalar) version x (w : world S) i (o2 : obj S), (forall y : F S, fneg S (fneg S y) = y) ->
  writable version (wO w) i -> open_ok w -> lucky S w -> usable o2 ->
  exists w1 w2, write_boozmn S version x w = IOk tt w1 /\ read_boozmn S x (setO w1 o2) = IOk tt w2 /\ restored (wO w) i (wO w2).
Proof. exact round_trip. Qed.
Theorem C35_s_b : forall (S : Scalar) version x (w : world S) i (o2 : obj S), (forall y : F S, fneg S (fneg S y) = y) ->
  writable version (wO w) i -> open_ok w -> lucky S w -> usable o2 ->
  exists w1 w2, write_boozmn S version x w = IOk tt w1 /\ read_boozmn S x (setO w1 o2) = IOk tt w2 /\
    forall j, 0 <= j < nsurf i -> elem (wO w2) A_s_b j =
      Some (Some (f1 S / (fofZ S (nsin i + 1) - f1 S) * (fofZ S (surf i j) + flit S (1 # 2)))%sc).
Proof. exact round_trip_s_b. Qed.
Theorem C35_s_b_refuted : exists version x (w w1 w2 : world RS) i,
  writable version (wO w) i /\ open_ok w /\ lucky RS w /\
  write_boozmn RS version x w = IOk tt w1 /\ read_boozmn RS x (setO w1 (obj_new RS)) = IOk tt w2 /\
  elem (wO w) A_s_b 0 = Some (Some 2%R) /\ elem (wO w2) A_s_b 0 = Some (Some (5 / 6)%R).
Proof. exact s_b_refuted. Qed.
Example C35_case : forall S fl asy, usable (obj_new S) /\ exists o : obj S, writable "0.0.8" o (ex_inp S asy) /\ has_fluxes o = fl /\ wf_obj o /\
  oF o F_aspect = Some (fofZ S 3) /\ (fl = true -> elem o A_phip 0 = Some (Some (fofZ S 20))) /\ results o (ex_inp S asy).
Proof. exact (fun S fl asy => conj (fresh_usable S) (ex_writable S fl asy)). Qed.

(** ** C36 *)
Theorem C36_not_restored : forall (S : Scalar) version x (w : world S) i (o2 : obj S), (forall y : F S, fneg S (fneg S y) = y) ->
  writable version (wO w) i -> open_ok w -> lucky S w -> usable o2 ->
  exists w1 w2, write_boozmn S version x w = IOk tt w1 /\ read_boozmn S x (setO w1 o2) = IOk tt w2 /\
    oF (wO w2) F_aspect = oF o2 F_aspect /\ oA (wO w2) A_Boozer_G = oA o2 A_Boozer_G /\ oA (wO w2) A_Boozer_I = oA o2 A_Boozer_I.
Proof. exact not_restored. Qed.
Theorem C36_restores_refuted : exists version x (w w1 w2 : world RS) i,
  writable version (wO w) i /\ open_ok w /\ lucky RS w /\
  write_boozmn RS version x w = IOk tt w1 /\ read_boozmn RS x (setO w1 (obj_new RS)) = IOk tt w2 /\
  oF (wO w) F_aspect = Some 3%R /\ oF (wO w2) F_aspect = Some 0%R /\
  asize (oA (wO w) A_Boozer_G) = 2 /\ asize (oA (wO w2) A_Boozer_G) = 0 /\
  asize (oA (wO w) A_Boozer_I) = 2 /\ asize (oA (wO w2) A_Boozer_I) = 0.
Proof. exact lost_refuted. Qed.

(** ** C37 *)
Theorem C37_determinate_partial : forall (S : Scalar) version x (w : world S) i w', writable version (wO w) i -> open_ok w ->
  has_fluxes (wO w) = false -> oF (wO w) F_aspect <> None ->
  write_boozmn S version x w = IOk tt w' ->
  exists f, wFS w' x = Some (Whole f) /\ forall v, In v (nf_vars f) -> determinate (vr_val v).
Proof. exact write_determinate. Qed.
Theorem C37_beta_indeterminate : forall (S : Scalar) version x (w : world S) i w', writable version (wO w) i -> open_ok w ->
  has_fluxes (wO w) = true -> write_boozmn S version x w = IOk tt w' ->
  exists f, wFS w' x = Some (Whole f) /\ forall j, 0 <= j < nsin i + 1 -> dcell f "beta_b" j = Some None.
Proof. exact beta_indeterminate. Qed.
Theorem C37_determinate_refuted : forall S : Scalar, exists version x (w : world S) i w' f,
  writable version (wO w) i /\ open_ok w /\ lucky S w /\ oF (wO w) F_aspect <> None /\
  write_boozmn S version x w = IOk tt w' /\ wFS w' x = Some (Whole f) /\
  exists v, In v (nf_vars f) /\ ~ determinate (vr_val v).
Proof. exact beta_refuted. Qed.

(** ** C38 *)
Theorem C38_object_partial : forall (S : Scalar) version x (w : world S) i w', writable version (wO w) i -> open_ok w ->
  (write_boozmn S version x w = IOk tt w' -> same_but_phip0 S (has_fluxes (wO w)) (wO w) (wO w')) /\
  ((exists m, write_boozmn S version x w = IThrow m w') \/ write_boozmn S version x w = IDie w' ->
     wO w' = wO w \/ same_but_phip0 S (has_fluxes (wO w)) (wO w) (wO w')).
Proof. exact write_object. Qed.
Theorem C38_unchanged_refuted : exists version x (w w' : world RS) i,
  writable version (wO w) i /\ open_ok w /\ lucky RS w /\ write_boozmn RS version x w = IOk tt w' /\
  elem (wO w) A_phip 0 = Some (Some 20%R) /\ elem (wO w') A_phip 0 = Some (Some 0%R).
Proof. exact phip_refuted. Qed.

(** ** C39 *)
Theorem C39_files_partial : forall (S : Scalar) version x (w : world S) i w', writable version (wO w) i -> open_ok w ->
  (write_boozmn S version x w = IOk tt w' ->
     (forall y, y <> x -> wFS w' y = wFS w y) /\ exists f, wFS w' x = Some (Whole f) /\ holds_results (wO w) i f) /\
  ((exists m, write_boozmn S version x w = IThrow m w') \/ write_boozmn S version x w = IDie w' ->
     (forall y, y <> x -> wFS w' y = wFS w y) /\ (wFS w' x = wFS w x \/ wFS w' x = Some Torn)).
Proof. exact write_files. Qed.
Theorem C39_keeps_old_refuted : forall S : Scalar, exists version x (w : world S) i f0,
  writable version (wO w) i /\ open_ok w /\ wFS w x = Some (Whole f0) /\
  (exists w', write_boozmn S version x (setQ w [Fine; Die]) = IDie w' /\ wFS w' x = Some Torn) /\
  (exists w', write_boozmn S version x (setQ w [Fine; Fail "No space left on device"]) = IThrow "No space left on device" w' /\ wFS w' x = Some Torn).
Proof. exact clobber_refuted. Qed.

(** ** C40 *)
Theorem C40_schema : forall (S : Scalar) version x (w : world S) i, writable version (wO w) i -> open_ok w -> lucky S w ->
  exists w' f, write_boozmn S version x w = IOk tt w' /\ wFS w' x = Some (Whole f) /\
    nf_dims f = [("radius", nsin i + 1); ("mn_mode", mnboz i); ("mn_modes", mnboz i); ("comput_surfs", nsurf i); ("pack_rad", nsurf i);
                 (dim_str (22 + String.length version), Z.of_nat (22 + String.length version))]%string /\
    map (fun v => (vr_name v, vr_dims v, lookup (vr_atts v) "units")) (nf_vars f) = blayout version (asym i) (has_fluxes (wO w)) /\
    holds_results (wO w) i f.
Proof. exact write_schema. Qed.

(** ** C41 *)
Theorem C41_write_safe : forall (S : Scalar) version x (w : world S) i, writable version (wO w) i -> open_ok w ->
  (forall why, write_boozmn S version x w <> IUB why) /\
  (lucky S w -> exists w', write_boozmn S version x w = IOk tt w').
Proof. exact write_safe. Qed.

(** ** C42 *)
Theorem C42_edited_length : forall (S : Scalar) version x (w : world S) o i a n c, writable version o i -> open_ok w -> lucky S w ->
  wO w = updN o N_compute_surfs a -> vec_is a n c -> n <= 2147483644 -> (forall j, 0 <= j < n -> INT_MIN <= c j + 2 <= INT_MAX) ->
  n <> nsurf i ->
  (n = 0 -> exists m w', write_boozmn S version x w = IThrow m w' /\ wFS w' x = Some Torn) /\
  (n <> 0 -> exists why, write_boozmn S version x w = IUB why).
Proof. exact edited_length. Qed.
Theorem C42_edited_entries : forall (S : Scalar) version x (w : world S) o i a c, writable version o i -> open_ok w -> lucky S w -> wf_obj (wO w) ->
  wO w = updN o N_compute_surfs a -> vec_is a (nsurf i) c -> (forall j, 0 <= j < nsurf i -> INT_MIN <= c j /\ c j + 2 <= INT_MAX) ->
  exists w' f, write_boozmn S version x w = IOk tt w' /\ wFS w' x = Some (Whole f) /\
    (forall j, 0 <= j < nsurf i -> icell f "jlist" j = Some (Some (c j + 2))) /\
    (forall k b, 0 <= k < mnboz i -> 0 <= b < nsurf i -> exists v,
       elem2 o A_bmnc_b k b = Some (Some v) /\ dcell f "bmnc_b" (b * mnboz i + k) = Some (Some v)).
Proof. exact edited_entries. Qed.
Theorem C42_no_crash_refuted : forall S : Scalar, exists version x (w : world S) o i a c,
  writable version o i /\ open_ok w /\ lucky S w /\ wO w = updN o N_compute_surfs a /\ vec_is a 1 c /\ 0 <= c 0 < nsin i /\
  exists why, write_boozmn S version x w = IUB why.
Proof. exact edit_ub_refuted. Qed.
Theorem C42_no_loss_refuted : forall S : Scalar, exists version x (w : world S) o i f0,
  writable version o i /\ open_ok w /\ lucky S w /\ wO w = updN o N_compute_surfs empty_vec /\ wFS w x = Some (Whole f0) /\
  exists m w', write_boozmn S version x w = IThrow m w' /\ wFS w' x = Some Torn.
Proof. exact edit_loss_refuted. Qed.
Theorem C42_labels_refuted : forall S : Scalar, exists version x (w : world S) o i a w' f,
  writable version o i /\ open_ok w /\ lucky S w /\ wO w = updN o N_compute_surfs a /\
  write_boozmn S version x w = IOk tt w' /\ wFS w' x = Some (Whole f) /\
  results o i /\ surf i 0 = 2 /\ surf i 1 = 0 /\
  icell f "jlist" 0 = Some (Some (0 + 2)) /\ icell f "jlist" 1 = Some (Some (2 + 2)) /\
  forall k, 0 <= k < mnboz i ->
    dcell f "bmnc_b" k = Some (Some (o_coef i 2 A_bmnc_b k)) /\ dcell f "bmnc_b" (mnboz i + k) = Some (Some (o_coef i 0 A_bmnc_b k)).
Proof. exact edit_mislabels_refuted. Qed.

(** ** C43 *)
Theorem C43_missing : forall (S : Scalar) f d x (w : world S), bfile S f d -> bsane S d -> wFS w x = Some (Whole f) -> open_ok w -> usable (wO w) ->
  (forall why, read_boozmn S x w <> IUB why) /\
  (lucky S w -> bcomplete S f d -> exists w', read_boozmn S x w = IOk tt w' /\ loaded S d (wO w) (wO w') /\
     (present S f "chi_b" -> vec_is (oA (wO w') A_chi) (b_radius S d) (b_chi S d))) /\
  (lucky S w -> ~ bcomplete S f d -> exists m w', read_boozmn S x w = IThrow m w').
Proof. exact read_complete. Qed.
Theorem C43_no_file : forall (S : Scalar) x (w : world S), wFS w x = None -> lucky S w -> usable (wO w) ->
  (exists m w', read_boozmn S x w = IThrow m w' /\ wO w' = wO w /\ wOpen w' = wOpen w /\ wFS w' = wFS w) /\
  forall fl, exists m w', read_wout S x fl w = IThrow m w' /\ wO w' = wO w /\ wOpen w' = wOpen w /\ wFS w' = wFS w.
Proof. exact no_file. Qed.
Theorem C43_chi_indeterminate_refuted : forall S : Scalar, exists x (w w' : world S), bfile S (no_chi S) (bex S) /\ bsane S (bex S) /\
  wO w = obj_new S /\ wFS w x = Some (Whole (no_chi S)) /\ lucky S w /\
  read_boozmn S x w = IOk tt w' /\ elem (wO w') A_chi 0 = Some None /\ elem (wO w') A_chi 1 = Some None.
Proof. exact chi_indeterminate. Qed.
Theorem C43_chi_stale_refuted : forall S : Scalar, exists x (w w' : world S), bfile S (no_chi S) (bex S) /\ bsane S (bex S) /\ usable (wO w) /\
  wFS w x = Some (Whole (no_chi S)) /\ lucky S w /\ read_boozmn S x w = IOk tt w' /\
  elem (wO w) A_chi 1 = Some (Some (fofZ S 31)) /\ elem (wO w') A_chi 1 = Some (Some (fofZ S 31)).
Proof. exact chi_stale. Qed.
Theorem C43_chi_error_refuted : forall S : Scalar, exists x (w w' : world S), bfile S (bfile_of S (bex S)) (bex S) /\ present S (bfile_of S (bex S)) "chi_b" /\
  wO w = obj_new S /\ wFS w x = Some (Whole (bfile_of S (bex S))) /\ wQ w = repeat Fine 28 ++ [Fail "I/O error"%string] /\
  read_boozmn S x w = IOk tt w' /\ wQ w' = [] /\ elem (wO w') A_chi 0 = Some None.
Proof. exact chi_error_ignored. Qed.
Example C43_case : forall S, bsane S (bex S) /\
  (bfile S (bfile_of S (bex S)) (bex S) /\ bcomplete S (bfile_of S (bex S)) (bex S) /\ present S (bfile_of S (bex S)) "chi_b") /\
  (bfile S (no_chi S) (bex S) /\ bcomplete S (no_chi S) (bex S) /\ ~ present S (no_chi S) "chi_b") /\
  usable (obj_new S) /\ open_ok (desk S (obj_new S) (shelf S (no_chi S)) []).
Proof. exact (fun S => conj (bex_sane S) (conj (bfile_of_ok S (bex S) (bex_sane S)) (conj (no_chi_file S) (conj (fresh_usable S) (desk_open S _ _ _))))). Qed.

(** ** C44 *)
Theorem C44_boozmn_refuted : forall S : Scalar, exists x (w : world S) f, wO w = obj_new S /\ wFS w x = Some (Whole f) /\ lucky S w /\
  read_boozmn S x w = IUB "buffer overflow"%string.
Proof. exact overflow_refuted. Qed.
Theorem C44_wout_refuted : forall S : Scalar, exists x (w : world S) f, wO w = obj_new S /\ wFS w x = Some (Whole f) /\ lucky S w /\
  read_wout S x true w = IUB "buffer overflow"%string.
Proof. exact overflow_wout_refuted. Qed.

(** ** C45 *)
Theorem C45_write_closes : forall (S : Scalar) version x (w : world S) i w', writable version (wO w) i -> open_ok w ->
  write_boozmn S version x w = IOk tt w' -> wOpen w' = wOpen w.
Proof. exact write_closes. Qed.
Theorem C45_read_closes : forall (S : Scalar) f d x (w w' : world S), bfile S f d -> bsane S d -> wFS w x = Some (Whole f) -> open_ok w -> usable (wO w) ->
  read_boozmn S x w = IOk tt w' -> wOpen w' = wOpen w.
Proof. exact read_closes. Qed.
Theorem C45_read_wout_closes : forall (S : Scalar) f asp i d x (w w' : world S), good_wout f asp i d -> wFS w x = Some (Whole f) -> open_ok w ->
  wf_obj (wO w) -> oI (wO w) I_verbose = Some (verb i) -> selects (wO w) (d_ns S d - 1) ->
  read_wout S x (d_flux S d) w = IOk tt w' -> wOpen w' = wOpen w.
Proof. exact read_wout_closes. Qed.
Theorem C45_boozmn_refuted : forall S : Scalar, exists x (w w' : world S) f msg, wO w = obj_new S /\ wFS w x = Some (Whole f) /\ wOpen w = [] /\ lucky S w /\
  read_boozmn S x w = IThrow msg w' /\ wOpen w' <> [].
Proof. exact leak_refuted. Qed.
Theorem C45_wout_refuted : forall S : Scalar, exists x (w w' : world S) f msg, wO w = obj_new S /\ wFS w x = Some (Whole f) /\ wOpen w = [] /\ lucky S w /\
  read_wout S x true w = IThrow msg w' /\ wOpen w' <> [].
Proof. exact leak_wout_refuted. Qed.
Theorem C45_write_refuted : forall S : Scalar, exists version x (w : world S) i msg w', writable version (wO w) i /\ wOpen w = [] /\
  write_boozmn S version x w = IThrow msg w' /\ wOpen w' <> [].
Proof. exact leak_write_refuted. Qed.

(** ** C52 *)
Theorem C52_wout_safe : forall (S : Scalar) f la asp i d x (w : world S), wfile S f la asp i d -> wsane S la i d -> wout_ok i d ->
  wFS w x = Some (Whole f) -> open_ok w -> wf_obj (wO w) -> oI (wO w) I_verbose = Some (verb i) ->
  (exists n g, vec_is (oN (wO w) N_compute_surfs) n g) ->
  (forall why, read_wout S x (d_flux S d) w <> IUB why) /\
  (lucky S w -> ~ wcomplete S f i d -> exists m w', read_wout S x (d_flux S d) w = IThrow m w').
Proof. exact read_wout_safe. Qed.
Theorem C52_nfp_0_refuted : forall S : Scalar, exists x (w : world S) why, wO w = obj_new S /\ wFS w x = Some (Whole (wex0 S)) /\ lucky S w /\
  read_wout S x true w = IUB why.
Proof. exact nfp0_refuted. Qed.

(** ** C53 *)
Theorem C53_write_first_refuted : forall S : Scalar, exists version x (w : world S) why, usable (wO w) /\ open_ok w /\ lucky S w /\
  oB (wO w) B_completed = Some false /\ write_boozmn S version x w = IUB why.
Proof. exact write_first_refuted. Qed.

Print Assumptions C33_outcome.
Print Assumptions C33_same_result.
Print Assumptions C33_stale_selection_refuted.
Print Assumptions C35_round_trip.
Print Assumptions C35_s_b.
Print Assumptions C35_s_b_refuted.
Print Assumptions C36_not_restored.
Print Assumptions C36_restores_refuted.
Print Assumptions C37_determinate_partial.
Print Assumptions C37_beta_indeterminate.
Print Assumptions C37_determinate_refuted.
Print Assumptions C38_object_partial.
Print Assumptions C38_unchanged_refuted.
Print Assumptions C39_files_partial.
Print Assumptions C39_keeps_old_refuted.
Print Assumptions C40_schema.
Print Assumptions C41_write_safe.
Print Assumptions C42_edited_length.
Print Assumptions C42_edited_entries.
Print Assumptions C42_no_crash_refuted.
Print Assumptions C42_no_loss_refuted.
Print Assumptions C42_labels_refuted.
Print Assumptions C43_missing.
Print Assumptions C43_no_file.
Print Assumptions C43_chi_indeterminate_refuted.
Print Assumptions C43_chi_stale_refuted.
Print Assumptions C43_chi_error_refuted.
Print Assumptions C44_boozmn_refuted.
Print Assumptions C44_wout_refuted.
Print Assumptions C45_write_closes.
Print Assumptions C45_read_closes.
Print Assumptions C45_read_wout_closes.
Print Assumptions C45_boozmn_refuted.
Print Assumptions C45_wout_refuted.
Print Assumptions C45_write_refuted.
Print Assumptions C52_wout_safe.
Print Assumptions C52_nfp_0_refuted.
Print Assumptions C53_write_first_refuted.
