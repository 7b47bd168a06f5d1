(** C83: write_boozmn() needs a selected surface and read_boozmn() a stored one, while run() does not. *)
From Coq Require Import ZArith List String Bool.
From Verif Require Import Scalar Prog Model Wp Spec Vmec Nc NcModel NcSpec NcVoc Py Frame FrameThms Func NcThms4 NcThms4 Stored NoSurf ReadNeeds.
Import ListNotations.
Local Open Scope Z_scope.

(** What follows from write_boozmn having returned, for any object and any behaviour of the library *)
Theorem C83_write_needed : forall (S : Scalar) version x (w w' : world S), write_boozmn S version x w = IOk tt w' ->
  exists ns mn, oI (wO w) I_ns_in = Some ns /\ oI (wO w) I_mnboz = Some mn /\ -1 <= ns <= 2147483643 /\ 1 <= mn <= 2147483644 /\
    1 <= asize (oN (wO w) N_compute_surfs) <= 2147483644.
Proof. exact (@write_needs). Qed.
(** What follows from read_boozmn having returned, for any file and any behaviour of the library *)
Theorem C83_read_needed : forall (S : Scalar) x (w w' : world S), wf_obj (wO w) -> read_boozmn S x w = IOk tt w' ->
  exists f, wFS w x = Some (Whole f) /\ exists mn ns nb,
    oI (wO w') I_mnboz = Some mn /\ oI (wO w') I_ns_in = Some ns /\ oI (wO w') I_ns_b = Some nb /\
    dim f "radius" (ns + 1) /\ dim f "comput_surfs" nb /\ 1 <= mn /\ 0 <= ns /\ 1 <= nb.
Proof. exact (@read_needs). Qed.
(** After run(), with a library that does not fail: the file is written exactly if a surface is selected *)
Theorem C83_written_exactly : forall (S : Scalar) version x (w : world S) i, after_run (wO w) i -> fluxes_ok (wO w) (nsin i + 1) ->
  nsurf i <= 2147483644 -> nsin i <= 2147483643 -> (String.length version < 2000)%nat -> open_ok w -> lucky S w ->
  ((exists w', write_boozmn S version x w = IOk tt w') <-> 1 <= nsurf i).
Proof. exact (@written_exactly). Qed.
Theorem C83_then_throws : forall (S : Scalar) version x (w : world S) i, after_run (wO w) i -> nsin i <= 2147483643 -> nsurf i = 0 ->
  open_ok w -> lucky S w ->
  exists w', write_boozmn S version x w = IThrow "NetCDF: NC_UNLIMITED size already in use" w' /\
    wO w' = wO w /\ wFS w' x = Some Torn /\ exists f, wOpen w' = (wNext w, Writing x f) :: wOpen w.
Proof. exact (@run_then_throws). Qed.
(** The same for an object that need not come from run() *)
Theorem C83_no_surface_throws : forall (S : Scalar) version x (w : world S) ns mn vb, lucky S w -> open_ok w ->
  oI (wO w) I_verbose = Some vb -> oI (wO w) I_ns_in = Some ns -> 0 <= ns <= 2147483643 ->
  oI (wO w) I_mnboz = Some mn -> 1 <= mn <= 2147483644 -> asize (oN (wO w) N_compute_surfs) = 0 ->
  exists w', write_boozmn S version x w = IThrow "NetCDF: NC_UNLIMITED size already in use" w' /\
    wO w' = wO w /\ wFS w' x = Some Torn /\ exists f, wOpen w' = (wNext w, Writing x f) :: wOpen w.
Proof. exact (@no_surface_throws). Qed.
(** "What run() has computed can be written" is false: reading a wout file, clearing compute_surfs and run() succeed, and
    write_boozmn then throws and ruins the boozmn file that had that name. *)
Theorem C83_writable_refuted : forall S : Scalar, exists w1 w2, performs "0.0.8" (none_selected S) (bx S) w1 /\
  exec "0.0.8" (Write "b.nc") w1 = IThrow "NetCDF: NC_UNLIMITED size already in use" w2 /\
  lucky S w1 /\ open_ok w1 /\ wO (bx S) = obj_new S /\
  wFS w1 "b.nc" = Some (Whole (bfile_of S (bex S))) /\ wFS w2 "b.nc" = Some Torn.
Proof. exact none_case. Qed.

(** The hypotheses of [C83_written_exactly] and [C83_then_throws] are met with no surface ([C38] has a case with surfaces); those
    of [C83_read_needed] by the boozmn file of [bx]. *)
Example C83_none_case : forall S : Scalar, exists (w : world S) i, after_run (wO w) i /\ fluxes_ok (wO w) (nsin i + 1) /\
  nsurf i = 0 /\ nsin i <= 2147483643 /\ open_ok w /\ lucky S w.
Proof. exact none_after_run. Qed.
Example C83_read_case : forall S : Scalar, exists w' mn ns nb, wf_obj (wO (bx S)) /\ read_boozmn S "b.nc" (bx S) = IOk tt w' /\
  oI (wO w') I_mnboz = Some mn /\ oI (wO w') I_ns_in = Some ns /\ oI (wO w') I_ns_b = Some nb.
Proof. exact read_case. Qed.

Print Assumptions C83_write_needed.
Print Assumptions C83_read_needed.
Print Assumptions C83_written_exactly.
Print Assumptions C83_then_throws.
Print Assumptions C83_no_surface_throws.
Print Assumptions C83_writable_refuted.
