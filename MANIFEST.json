{
 "claims": [
  {
   "property": "C01",
   "status": "proved",
   "theorems": [
    "C01_run_safe",
    "C01_base_case_runs",
    "C01_fresh_object_refuted",
    "C01_mpol_1_refuted",
    "C01_mpol_nyq_0_refuted",
    "C01_mboz_0_refuted",
    "C01_nfp_0_refuted",
    "C01_xm_eq_mpol_refuted"
   ],
   "note": "Any arithmetic. The _refuted theorems show that individual requirements of the statement are necessary: dropping one gives undefined behaviour."
  },
  {
   "property": "C02",
   "status": "proved",
   "theorems": [
    "C02_mode_table"
   ],
   "note": ""
  },
  {
   "property": "C03",
   "status": "partial",
   "theorems": [
    "C03_mboz_is_max_refuted",
    "C03_mboz_never_present"
   ],
   "note": "REFUTED: no output mode ever has m = mboz; the largest is mboz-1."
  },
  {
   "property": "C04",
   "status": "proved",
   "theorems": [
    "C04_inputs_unchanged"
   ],
   "note": ""
  },
  {
   "property": "C05",
   "status": "proved",
   "theorems": [
    "C05_idempotent"
   ],
   "note": "Equality of all members, private ones included."
  },
  {
   "property": "C06",
   "status": "proved",
   "theorems": [
    "C06_history_independent"
   ],
   "note": ""
  },
  {
   "property": "C07",
   "status": "partial",
   "theorems": [
    "C07_asym_outputs_partial",
    "C07_asym_outputs_refuted"
   ],
   "note": "REFUTED in general (stale arrays after an asymmetric run); the partial theorem shows that a symmetric run leaves these arrays alone, so they are empty if they were."
  },
  {
   "property": "C08",
   "status": "proved",
   "theorems": [
    "C08_surface_independent"
   ],
   "note": ""
  },
  {
   "property": "C09",
   "status": "proved",
   "theorems": [
    "C09_parallel",
    "C09_terminates",
    "C09_banner_lines_refuted"
   ],
   "note": "The _refuted theorem is about the text printed at verbose>1, not about results."
  },
  {
   "property": "C10",
   "status": "proved",
   "theorems": [
    "C10_verbose"
   ],
   "note": ""
  },
  {
   "property": "C11",
   "status": "proved",
   "theorems": [
    "C11_tables_exact",
    "C11_init_trig_exact"
   ],
   "note": "Real arithmetic (pi, sin, cos exact). "
  },
  {
   "property": "C12",
   "status": "proved",
   "theorems": [
    "C12_C14_angles_and_jacobian"
   ],
   "note": "Real arithmetic (pi, sin, cos exact). Requires n to be a multiple of nfp for every input mode (the code truncates n/nfp)."
  },
  {
   "property": "C13",
   "status": "proved",
   "theorems": [
    "C13_really_boozer",
    "C12_C14_angles_and_jacobian"
   ],
   "note": "Real arithmetic (pi, sin, cos exact). The angles are those of C12; requires G+iota*I<>0, at most one (0,0) Nyquist entry and harmonics of B_theta, B_zeta with no radial current."
  },
  {
   "property": "C14",
   "status": "proved",
   "theorems": [
    "C12_C14_angles_and_jacobian"
   ],
   "note": "Real arithmetic (pi, sin, cos exact). "
  },
  {
   "property": "C15",
   "status": "proved",
   "theorems": [
    "C15_quadrature"
   ],
   "note": "Real arithmetic (pi, sin, cos exact). "
  },
  {
   "property": "C16",
   "status": "proved",
   "theorems": [
    "C16_identity",
    "C16_identity_modes",
    "C16_identity_functions",
    "C16_no_error"
   ],
   "note": "Real arithmetic (pi, sin, cos exact). C16_identity_functions: as functions of the angles, for every input whose modes are all among the output modes."
  },
  {
   "property": "C17",
   "status": "proved",
   "theorems": [
    "C17_sym_asym"
   ],
   "note": "Real arithmetic (pi, sin, cos exact). "
  },
  {
   "property": "C18",
   "status": "proved",
   "theorems": [
    "C18_field_scaling"
   ],
   "note": "Real arithmetic (pi, sin, cos exact). "
  },
  {
   "property": "C19",
   "status": "proved",
   "theorems": [
    "C19_linear"
   ],
   "note": "Real arithmetic (pi, sin, cos exact). "
  },
  {
   "property": "C20",
   "status": "proved",
   "theorems": [
    "C20_G_and_I",
    "C20_last_entry_wins",
    "C20_sources_differ",
    "C20_no_00_mode"
   ],
   "note": ""
  },
  {
   "property": "C21",
   "status": "proved",
   "theorems": [
    "C21_s_b"
   ],
   "note": ""
  },
  {
   "property": "C22",
   "status": "proved",
   "theorems": [
    "C22_mode_order"
   ],
   "note": "Real arithmetic (pi, sin, cos exact). Requires at most one (0,0) entry in the Nyquist list."
  },
  {
   "property": "C23",
   "status": "partial",
   "theorems": [
    "C23_zero_modes_partial",
    "C23_zero_00_mode_refuted"
   ],
   "note": "Real arithmetic (pi, sin, cos exact). REFUTED if an appended Nyquist mode is a second (0,0) mode (the last one wins, G and I become 0); proved when no appended mode is (0,0)."
  },
  {
   "property": "C24",
   "status": "proved",
   "theorems": [
    "C24_sample_points"
   ],
   "note": "Real arithmetic (pi, sin, cos exact). "
  },
  {
   "property": "C25",
   "status": "proved",
   "theorems": [
    "C25_accuracy_report"
   ],
   "note": "Real arithmetic (pi, sin, cos exact). "
  },
  {
   "property": "C26",
   "status": "proved",
   "theorems": [
    "C26_rejects_exactly",
    "C26_accepts"
   ],
   "note": "Any arithmetic; ns-1 and nfp*ntor representable; mode lists not empty (see C28 for the empty case)."
  },
  {
   "property": "C27",
   "status": "partial",
   "theorems": [
    "C27_rejected_state_partial",
    "C27_unchanged_refuted",
    "C27_ns_in_always",
    "C27_then_run"
   ],
   "note": "REFUTED: ns_in is assigned before validation, on every rejected call (C27_ns_in_always), and run() after it is undefined behaviour whenever the arrays are shorter (C27_then_run, any object). Partial: everything except ns_in is unchanged and nothing is printed."
  },
  {
   "property": "C28",
   "status": "partial",
   "theorems": [
    "C28_no_stray_access_partial",
    "C28_ns2_refuted",
    "C28_verbose_refuted",
    "C28_no_modes_refuted",
    "C28_needed",
    "C28_returns_exactly",
    "C28_ub_exactly"
   ],
   "note": "REFUTED for ns=2 with an m=1 mode, verbose>1 with fewer than 4 modes, and no modes. Exactly the other well-shaped arguments are processed (C28_returns_exactly, C28_ub_exactly); C28_needed says for any object and arguments what follows from a return."
  },
  {
   "property": "C29",
   "status": "proved",
   "theorems": [
    "C29_half_grid"
   ],
   "note": "Any arithmetic."
  },
  {
   "property": "C30",
   "status": "proved",
   "theorems": [
    "C30_interpolation",
    "C30_near_axis_refuted"
   ],
   "note": "Real arithmetic (pi, sin, cos exact). C30_near_axis_refuted shows that the restriction to surfaces j>=1 for odd m>=3 is needed."
  },
  {
   "property": "C31",
   "status": "proved",
   "theorems": [
    "C31_defaults"
   ],
   "note": ""
  },
  {
   "property": "C32",
   "status": "proved",
   "theorems": [
    "C32_fluxes"
   ],
   "note": ""
  },
  {
   "property": "C33",
   "status": "partial",
   "theorems": [
    "C33_outcome",
    "C33_same_result",
    "C33_stale_selection_refuted"
   ],
   "note": "Any arithmetic. REFUTED in general: whether a file is accepted depends on a compute_surfs left from before. Proved when that lies in the range of the new file."
  },
  {
   "property": "C34",
   "status": "proved",
   "theorems": [
    "C34_then_run"
   ],
   "note": ""
  },
  {
   "property": "C35",
   "status": "partial",
   "theorems": [
    "C35_round_trip",
    "C35_s_b",
    "C35_s_b_refuted"
   ],
   "note": "Any arithmetic with -(-x)=x. s_b REFUTED when s_in is not the half grid of VMEC; everything else proved."
  },
  {
   "property": "C36",
   "status": "partial",
   "theorems": [
    "C36_not_restored",
    "C36_restores_refuted"
   ],
   "note": "REFUTED: aspect, Boozer_G and Boozer_I keep the values the object had before reading."
  },
  {
   "property": "C37",
   "status": "partial",
   "theorems": [
    "C37_determinate_partial",
    "C37_beta_indeterminate",
    "C37_determinate_refuted"
   ],
   "note": "REFUTED with flux functions: all of beta_b is indeterminate. Proved without."
  },
  {
   "property": "C38",
   "status": "partial",
   "theorems": [
    "C38_object_partial",
    "C38_unchanged_refuted"
   ],
   "note": "REFUTED: phip[0] is set to 0 if there are flux functions; nothing else changes, also if the write fails."
  },
  {
   "property": "C39",
   "status": "partial",
   "theorems": [
    "C39_files_partial",
    "C39_keeps_old_refuted",
    "C39_any_end",
    "C39_reading"
   ],
   "note": "REFUTED: the file is truncated first. C39_any_end says for any object and any failing call what is on the disk: a failure keeps the old file exactly if it is nc_create that fails. C39_reading: reading changes no file."
  },
  {
   "property": "C40",
   "status": "proved",
   "theorems": [
    "C40_schema"
   ],
   "note": ""
  },
  {
   "property": "C41",
   "status": "proved",
   "theorems": [
    "C41_write_safe"
   ],
   "note": "Registered pointers are tracked by name and liveness in the model; a read outside a live buffer is an IUB outcome."
  },
  {
   "property": "C42",
   "status": "partial",
   "theorems": [
    "C42_edited_length",
    "C42_edited_entries",
    "C42_no_crash_refuted",
    "C42_no_loss_refuted",
    "C42_labels_refuted"
   ],
   "note": "REFUTED in three ways; the outcome of every edit is characterised."
  },
  {
   "property": "C43",
   "status": "partial",
   "theorems": [
    "C43_missing",
    "C43_no_file",
    "C43_chi_indeterminate_refuted",
    "C43_chi_stale_refuted",
    "C43_chi_error_refuted"
   ],
   "note": "Proved except for chi: REFUTED when chi_b is missing or cannot be read."
  },
  {
   "property": "C44",
   "status": "partial",
   "theorems": [
    "C44_boozmn_refuted",
    "C44_wout_refuted"
   ],
   "note": "REFUTED: a variable with more elements than expected overflows the destination. C43_missing and C52_wout_safe show safety for files with the expected sizes; C81 says which files overflow."
  },
  {
   "property": "C45",
   "status": "partial",
   "theorems": [
    "C45_write_closes",
    "C45_read_closes",
    "C45_read_wout_closes",
    "C45_boozmn_refuted",
    "C45_wout_refuted",
    "C45_write_refuted",
    "C45_boozmn_ends",
    "C45_wout_ends",
    "C45_write_ends",
    "C45_history"
   ],
   "note": "Proved on success; REFUTED on exceptions: the handle stays open. The *_ends theorems say for any object, file and failing call which handles are open afterwards; C45_history: over any calls nothing left open is ever closed, at most one handle per exception."
  },
  {
   "property": "C46",
   "status": "partial",
   "theorems": [
    "C46_driver",
    "C46_request_refuted"
   ],
   "note": "Any arithmetic. REFUTED as stated: a request below the default resolution (6*mpol, 2*ntor-1) is ignored, and the order of the surfaces is not kept. Proved: the maximum is used, the surfaces ascending, and the file holds the results of that transformation."
  },
  {
   "property": "C47",
   "status": "partial",
   "theorems": [
    "C47_same_parse",
    "C47_interchangeable",
    "C47_malformed_refuted",
    "C47_console_refuted"
   ],
   "note": "Proved for all well-formed control files, any environment (conv = the conversion of a Python list of ints to an IntVector, assumed to keep ints in range). REFUTED for malformed files and for the console output."
  },
  {
   "property": "C48",
   "status": "partial",
   "theorems": [
    "C48_compute_surfs_refuted",
    "C48_run_never_throws",
    "C48_run_bad_surface",
    "C48_driver_bad_surface",
    "C48_cli_bad_surface",
    "C48_programs_refuted"
   ],
   "note": "REFUTED: for every object with a selected surface outside s_in run() has undefined behaviour and never an error; the same for driver and CLI with every control file naming such a surface."
  },
  {
   "property": "C49",
   "status": "proved",
   "theorems": [
    "C49_surfplot",
    "C49_report",
    "C49_period",
    "C49_bad_index",
    "C49_after_run",
    "C49_after_read",
    "C49_only_read"
   ],
   "note": "Real arithmetic (pi, sin, cos exact). C49_report is about one and the same function B, printed by the accuracy check and drawn by surfplot."
  },
  {
   "property": "C50",
   "status": "partial",
   "theorems": [
    "C50_modeplot",
    "C50_modeplot_any",
    "C50_too_many",
    "C50_outermost_refuted",
    "C50_asym_refuted"
   ],
   "note": "Proved with the rank on the last surface by |bmnc_b| (C50_modeplot in real, C50_modeplot_any in any arithmetic), for every argsort that sorts. REFUTED: the last surface need not be the outermost one, and bmns_b is not used."
  },
  {
   "property": "C51",
   "status": "proved",
   "theorems": [
    "C51_changes_only"
   ],
   "note": ""
  },
  {
   "property": "C52",
   "status": "partial",
   "theorems": [
    "C52_wout_safe",
    "C52_nfp_0_refuted",
    "C52_needed",
    "C52_nfp_0_never"
   ],
   "note": "Proved for nfp<>0 (and the other requirements of init_from_vmec, C28); REFUTED for nfp=0, for every file with nfp=0 (C52_nfp_0_never). C52_needed: what follows from a return, for any file."
  },
  {
   "property": "C53",
   "status": "partial",
   "theorems": [
    "C53_write_first_refuted",
    "C53_never_written",
    "C53_ub"
   ],
   "note": "REFUTED for every object before run() or read_boozmn() (C53_ub: undefined behaviour, not an exception, if no library call fails). C53_never_written: such a write never returns normally."
  },
  {
   "property": "C54",
   "status": "partial",
   "theorems": [
    "C54_driver_safe",
    "C54_reported",
    "C54_cli_reported",
    "C54_no_number",
    "C54_one_number",
    "C54_malformed_refuted"
   ],
   "note": "Proved for well-formed control files, in every environment. Malformed control files: a missing file, a missing extension and a second token that is not a number are reported by both programs, the others by the Python program. REFUTED for the driver: every control file that does not begin with a number, or contains only one, makes it print an indeterminate int."
  },
  {
   "property": "C55",
   "status": "partial",
   "theorems": [
    "C55_symplot",
    "C55_legend",
    "C55_legend_refuted",
    "C55_ymin_refuted"
   ],
   "note": "Any arithmetic. Curves and colours proved; the contents of the legend are characterised exactly and REFUTED to match the curves, in three ways. REFUTED: the default lower limit is positive."
  },
  {
   "property": "C56",
   "status": "partial",
   "theorems": [
    "C56_curves",
    "C56_same_point",
    "C56_identity",
    "C56_surface",
    "C56_surface_refuted",
    "C56_refine1_refuted",
    "C56_outermost_refuted"
   ],
   "note": "Real arithmetic (pi, sin, cos exact). Proved for refine>=2; the surface for stellarator symmetry. REFUTED without it, for refine=1 and for the default surface."
  },
  {
   "property": "C57",
   "status": "partial",
   "theorems": [
    "C57_plot_of_file",
    "C57_orig",
    "C57_orig_refuted"
   ],
   "note": "Any arithmetic with -(-x)=x; s_in on the half grid of VMEC (see C35_s_b_refuted). REFUTED for wireplot with orig=True, the default."
  },
  {
   "property": "C58",
   "status": "proved",
   "theorems": [
    "C58_converges",
    "C58_currents"
   ],
   "note": "Real arithmetic (pi, sin, cos exact). The bound is proved for the trapezoidal rule at every resolution, without the limit of int; runs at resolutions that fit return that value."
  },
  {
   "property": "C59",
   "status": "partial",
   "theorems": [
    "C59_safe",
    "C59_run",
    "C59_write",
    "C59_recover_refuted",
    "C59_rerun_refuted"
   ],
   "note": "Any arithmetic. Proved for all programs that obey the rules in PySpec.v (allowed, obeys). REFUTED if these rules are relaxed: read_wout after a failed read_boozmn, and run() after read_boozmn(), have undefined behaviour."
  },
  {
   "property": "C60",
   "status": "partial",
   "theorems": [
    "C60_copy_partial",
    "C60_copy_refuted"
   ],
   "note": "Any arithmetic with -(-x)=x. Missing and REFUTED: aspect_b is that of the object before reading, beta_b is indeterminate. lasym and ns_b are normalised."
  },
  {
   "property": "C61",
   "status": "partial",
   "theorems": [
    "C61_aspect",
    "C61_flux_partial",
    "C61_flux_refuted"
   ],
   "note": "aspect proved. toroidal_flux REFUTED: it is not written; what is read back is the last entry of phi_b. Proved if it was equal to that."
  },
  {
   "property": "C62",
   "status": "partial",
   "theorems": [
    "C62_lifetime",
    "C62_lifetime_all",
    "C62_lifetime_ints",
    "C62_inputs",
    "C62_results",
    "C62_usable_refuted",
    "C62_kept_refuted"
   ],
   "note": "Any arithmetic (C62_kept_refuted: the reals). C62_lifetime_all and C62_lifetime_ints cover all calls, including those that read or write files and those that throw. That arrays share memory with the object is read from the documentation of pybind11. REFUTED: arrays obtained from results are changed or left dangling by a later run()."
  },
  {
   "property": "C63",
   "status": "partial",
   "theorems": [
    "C63_vmec_ignores",
    "C63_s_in_only_s_b",
    "C63_s_in_required",
    "C63_s_in_refuted",
    "C63_lmns_size_refuted"
   ],
   "note": "Any arithmetic. For run() see C06. REFUTED: run() without s_in has undefined behaviour; lmns of the documented size is read beyond its end."
  },
  {
   "property": "C64",
   "status": "proved",
   "theorems": [
    "C64_origin"
   ],
   "note": "Real arithmetic (pi, sin, cos exact). Shifts by whole steps of the grid, for which the trapezoidal rule is exact."
  },
  {
   "property": "C65",
   "status": "proved",
   "theorems": [
    "C65_lambda"
   ],
   "note": "Real arithmetic (pi, sin, cos exact). nu itself is shifted by a constant and is not included."
  },
  {
   "property": "C66",
   "status": "proved",
   "theorems": [
    "C66_reversed"
   ],
   "note": "Real arithmetic (pi, sin, cos exact). "
  },
  {
   "property": "C67",
   "status": "proved",
   "theorems": [
    "C67_mirror"
   ],
   "note": "Real arithmetic (pi, sin, cos exact). "
  },
  {
   "property": "C68",
   "status": "proved",
   "theorems": [
    "C68_rounding",
    "C68_floating_point"
   ],
   "note": "Any arithmetic that is accurate in the sense of RoundSpec.v, and the p-bit formats of RoundEx.v. The constant depends on the inputs (also on the resolution) and is not given; check_accuracy is not included. That IEEE doubles with a given libm are accurate is not proved."
  },
  {
   "property": "C69",
   "status": "proved",
   "theorems": [
    "C69_symmetry",
    "C69_axisymmetric",
    "C69_helical"
   ],
   "note": "Real arithmetic (pi, sin, cos exact). The helical case is for mboz = nboz, where the grid has equal numbers of points in both directions; other grids by C69_symmetry."
  },
  {
   "property": "C70",
   "status": "proved",
   "theorems": [
    "C70_axisymmetric_resolution",
    "C70_fewer_periods"
   ],
   "note": "Real arithmetic (pi, sin, cos exact). The grid step in zeta is the same in both representations; this needs N odd and nboz > 0."
  },
  {
   "property": "C71",
   "status": "proved",
   "theorems": [
    "C71_total_error"
   ],
   "note": "The floating point formats of RoundEx.v; constants exist but are not given. See C58 and C68."
  },
  {
   "property": "C72",
   "status": "partial",
   "theorems": [
    "C72_changes_only",
    "C72_results_kept",
    "C72_read_only",
    "C72_assigned",
    "C72_wrong_type",
    "C72_profiles_refuted"
   ],
   "note": "The part about Boozer_G and Boozer_I after read_boozmn is refuted, the rest is proved. Calls with undefined behaviour are excluded. That arrays obtained from attributes can be written to is the subject of C62."
  },
  {
   "property": "C73",
   "status": "proved",
   "theorems": [
    "C73_read_wout",
    "C73_read_boozmn"
   ],
   "note": "Any file, any object, any verdicts of the library. Sizes of variables are not part of it: reading a variable larger than expected is undefined behaviour (C44)."
  },
  {
   "property": "C74",
   "status": "proved",
   "theorems": [
    "C74_continuous"
   ],
   "note": "Real arithmetic (pi, sin, cos exact). Constants exist but are not given."
  },
  {
   "property": "C75",
   "status": "partial",
   "theorems": [
    "C75_boozmn",
    "C75_wout",
    "C75_filled_refuted",
    "C75_own_data_refuted",
    "C75_wout_refuted"
   ],
   "note": "Proved of read_boozmn and read_wout for any file: shapes, and every number of the file in its place, the radial profiles and s_b included. Refuted: too short variables are not noticed (the rest of the array is uninitialised or from the file read before; read_wout copies uninitialised elements)."
  },
  {
   "property": "C76",
   "status": "partial",
   "theorems": [
    "C76_accurate",
    "C76_errors",
    "C76_comparison",
    "C76_integers",
    "C76_round_trip",
    "C76_finite_refuted"
   ],
   "note": "The operations are those of the standard library (Coq.Floats.SpecFloat); cos, sin and pi are parameters with a stated accuracy; the constants exist but are not given. Refuted: run() does not notice G + iota I = 0, all coefficients are then NaN."
  },
  {
   "property": "C77",
   "status": "proved",
   "theorems": [
    "C77_certified"
   ],
   "note": ""
  },
  {
   "property": "C78",
   "status": "proved",
   "theorems": [
    "C78_fused",
    "C78_loose",
    "C78_any",
    "C78_errors",
    "C78_contracted",
    "C78_without",
    "C78_certified"
   ],
   "note": "cos, sin and pi are parameters with a stated accuracy; comparisons and conversions to integers, used for nothing but printed figures in run(), are not sets in FMA."
  },
  {
   "property": "C79",
   "status": "partial",
   "theorems": [
    "C79_written",
    "C79_back",
    "C79_mixed_refuted",
    "C79_other_size_refuted"
   ],
   "note": "Proved for any object and any behaviour of the library. REFUTED: after read_wout of another equilibrium the file mixes both, or write_boozmn reads beyond arrays."
  },
  {
   "property": "C80",
   "status": "proved",
   "theorems": [
    "C80_shapes",
    "C80_any_end",
    "C80_sound_object"
   ],
   "note": ""
  },
  {
   "property": "C81",
   "status": "proved",
   "theorems": [
    "C81_boozmn_returned",
    "C81_wout_returned",
    "C81_boozmn_overflows",
    "C81_wout_overflows",
    "C81_boozmn_no_error"
   ],
   "note": "The first two for any behaviour of the library; the others for a library that reports no failure of its own."
  },
  {
   "property": "C82",
   "status": "partial",
   "theorems": [
    "C82_needed",
    "C82_returns_exactly",
    "C82_ub_exactly",
    "C82_negative_refuted"
   ],
   "note": "Any arithmetic, any object with a selected surface. REFUTED for mboz and nboz both negative: run() returns with modes (0,0) and zero coefficients."
  },
  {
   "property": "C83",
   "status": "partial",
   "theorems": [
    "C83_write_needed",
    "C83_read_needed",
    "C83_written_exactly",
    "C83_then_throws",
    "C83_no_surface_throws",
    "C83_writable_refuted"
   ],
   "note": "Proved except the last sentence, which is REFUTED: without a selected surface run() returns and write_boozmn throws, ruining a file of that name (for every such object: C83_no_surface_throws)."
  },
  {
   "property": "C84",
   "status": "proved",
   "theorems": [
    "C84_returns_exactly",
    "C84_ub_exactly",
    "C84_after_calls"
   ],
   "note": "For ns_in >= 0 and verbose set (the constructor sets it). Example C84_unfit_case: two successful reads, and the object no longer fits."
  },
  {
   "property": "C85",
   "status": "partial",
   "theorems": [
    "C85_read_then_write",
    "C85_set",
    "C85_gaps_refuted"
   ],
   "note": "Proved except the last sentence, which is REFUTED: a file whose bmnc_b is too short is read and written with numbers that were never set."
  },
  {
   "property": "C86",
   "status": "proved",
   "theorems": [
    "C86_fits",
    "C86_never_refused",
    "C86_read_again"
   ],
   "note": "What the copy contains is C79_back."
  }
 ]
}